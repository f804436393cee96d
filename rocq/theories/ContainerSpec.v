(* Vocabulary for the container properties: total orders, sorted association
   lists read as finite maps, and the monotone shape binary search relies on. *)
From Coq Require Import ZArith Lia List Bool Sorted.
From Verif Require Import Prelude ContainerModel.
Import ListNotations.

(* A comparison function is a total order on T when it is antisymmetric,
   transitive, and says Eq exactly on equal elements. *)
Record total_order {T} (tc : T -> T -> comparison) : Prop := {
  to_eq : forall a b, tc a b = Eq <-> a = b;
  to_sym : forall a b, tc b a = CompOpp (tc a b);
  to_trans : forall a b c, tc a b = Lt -> tc b c = Lt -> tc a c = Lt
}.

(* The answers along the list go Lt.. Eq.. Gt. *)
Definition rank (c : comparison) : nat := match c with Lt => 0 | Eq => 1 | Gt => 2 end.
Definition monotone {A} (g : A -> comparison) (l : list A) : Prop :=
  forall i j x y, (i <= j)%nat -> nth_error l i = Some x -> nth_error l j = Some y ->
    (rank (g x) <= rank (g y))%nat.

(* What a search answer means. *)
Definition search_ok {A} (g : A -> comparison) (l : list A) (r : found) : Prop :=
  match r with
  | Found i => exists x, nth_error l i = Some x /\ g x = Eq
  | Missing i =>
      (i <= length l)%nat
      /\ (forall j x, (j < i)%nat -> nth_error l j = Some x -> g x = Lt)
      /\ (forall j x, (i <= j)%nat -> nth_error l j = Some x -> g x = Gt)
  end.

Section Assoc.
  Context {K V T : Type}.
  Variable tc : T -> T -> comparison.
  Variable kd : K -> T.

  Definition keys_ascending (m : list (K * V)) : Prop :=
    StronglySorted (fun p q => tc (kd (fst p)) (kd (fst q)) = Lt) m.

  (* The finite map an entry list stands for. *)
  Fixpoint assoc (m : list (K * V)) (t : T) : option V :=
    match m with
    | [] => None
    | (k, v) :: m' => match tc (kd k) t with Eq => Some v | _ => assoc m' t end
    end.
End Assoc.
