(* What it means for random choices to be fair (C86).  A word is one output of the generator;
   "exactly n" counts the things with a property. *)
From Coq Require Import ZArith List.
Import ListNotations.
Open Scope Z_scope.

Definition word (w x : Z) : Prop := 0 <= x < w.

Definition exactly {A} (n : Z) (P : A -> Prop) : Prop :=
  exists l, NoDup l /\ Z.of_nat (length l) = n /\ forall x, In x l <-> P x.

(* The number of ways a shuffle of i + 1 elements can use i words for a given outcome: step k
   picks one of k + 1 places; each place has the same number of words, the largest power of two
   that leaves all places together within 2^32. *)
Definition share (n : Z) : Z := 2 ^ (31 - Z.log2 n).
Fixpoint ways (i : nat) : Z :=
  match i with
  | O => 1
  | S i' => share (Z.of_nat i + 1) * ways i'
  end.
