(* How the values of an event are read by someone who does not know the contract's
   code: by the name in the first topic. *)
From Coq Require Import ZArith Lia String List Bool.
From Verif Require Import Prelude HeapModel SacModel CtModel SacEventModel.
Import ListNotations.
Open Scope Z_scope.

Definition letters_dec : forall a b : list Z, {a = b} + {a <> b} := list_eq_dec Z.eq_dec.
Definition says (n : list Z) (s : string) : bool := if letters_dec n (lit s) then true else false.
Arguments says n s%string_scope.

(* an amount, alone or as the field of that name *)
Definition amount_shown (d : scval) : Z :=
  match d with
  | SI128 hi lo => hi * 2 ^ 64 + lo
  | SMap (Some ((SSymbol n, SI128 hi lo) :: _)) => if says n "amount" then hi * 2 ^ 64 + lo else 0
  | _ => 0
  end.
Definition for_ (x a : addr) (d : Z) : Z := if addr_dec a x then d else 0.

(* what an event tells about what x holds *)
Definition told (x : addr) (w : shown) : Z :=
  match w_topics w with
  | [SSymbol n; SAddress f; SAddress t; SString _] =>
      if says n "transfer" then for_ x f (- amount_shown (w_data w)) + for_ x t (amount_shown (w_data w)) else 0
  | [SSymbol n; SAddress a; SString _] =>
      if says n "mint" then for_ x a (amount_shown (w_data w))
      else if says n "burn" || says n "clawback" then for_ x a (- amount_shown (w_data w))
      else 0
  | _ => 0
  end.

(* the asset whose name is the last topic *)
Definition named_last (w : shown) : option (list Z) :=
  match last (w_topics w) SVoid with SString s => Some s | _ => None end.
