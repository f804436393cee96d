(* When the signatures of a classic account are enough. *)
From Coq Require Import ZArith List Bool Sorted.
From Verif Require Import Prelude HeapModel MultisigModel.
Import ListNotations.
Open Scope Z_scope.

(* Lexicographic order of byte strings. *)
Inductive bytes_lt : list Z -> list Z -> Prop :=
| bl_short y b : bytes_lt [] (y :: b)
| bl_less x y a b : x < y -> bytes_lt (x :: a) (y :: b)
| bl_tail x a b : bytes_lt a b -> bytes_lt (x :: a) (x :: b).

(* Ledger accounts: four thresholds of one byte, signer weights not negative. *)
Definition account_ok (a : account) : Prop :=
  length (acc_thresholds a) = 4%nat /\
  Forall (fun x => 0 <= x <= 255) (acc_thresholds a) /\
  Forall (fun s => 0 <= snd s) (acc_signers a).

(* The weight of a key of the account: the master weight for the account's own
   key, otherwise the weight of the first signer with that key, at most 255. *)
Inductive key_weight (a : account) (k : list Z) : Z -> Prop :=
| kw_master w : k = acc_id a -> nth_error (acc_thresholds a) 0 = Some w -> key_weight a k w
| kw_signer l r w : k <> acc_id a -> acc_signers a = l ++ (SkEd25519 k, w) :: r ->
    (forall w', ~ In (SkEd25519 k, w') l) -> key_weight a k (Z.min w 255).

Definition sum (l : list Z) : Z := fold_right Z.add 0 l.

(* One signature as the value that carries it: a map of "public_key" and
   "signature". *)
Definition sig_value (s : list Z * list Z) : scval :=
  SMap (Some [(SSymbol [112; 117; 98; 108; 105; 99; 95; 107; 101; 121], SBytes (fst s));
              (SSymbol [115; 105; 103; 110; 97; 116; 117; 114; 101], SBytes (snd s))]).
Definition sigs_value (l : list (list Z * list Z)) : scval := SVec (Some (map sig_value l)).

(* From 1 to 20 signatures by ascending keys, each valid for the payload and from a
   key with weight, with the medium threshold reached. *)
Record enough (verify : list Z -> list Z -> list Z -> res unit) (payload : list Z)
    (a : account) (l : list (list Z * list Z)) : Prop := {
  en_count : (1 <= length l <= 20)%nat;
  en_sizes : Forall (fun s => length (fst s) = 32%nat /\ length (snd s) = 64%nat) l;
  en_ascending : StronglySorted bytes_lt (map fst l);
  en_valid : Forall (fun s => verify (fst s) payload (snd s) = Ok tt) l;
  en_weight : exists ws th,
    Forall2 (fun s w => key_weight a (fst s) w /\ 0 < w) l ws /\
    nth_error (acc_thresholds a) 2 = Some th /\ th <= sum ws;
}.
