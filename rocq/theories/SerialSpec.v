(* Which values have an XDR form. *)
From Coq Require Import ZArith List Bool.
From Verif Require Import Prelude ValModel HeapModel HeapSpec XdrModel StrkeySpec.
Import ListNotations.
Open Scope Z_scope.

(* addresses of the kinds contracts can hold: keys and ids have 32 bytes *)
Definition key32 (k : list Z) : Prop := length k = 32%nat /\ are_bytes k.
Definition whole_addr (a : addr) : Prop :=
  match a with
  | AAccount k | AContract k => key32 k
  | AMuxed i k => 0 <= i < 2 ^ 64 /\ key32 k
  | AOther _ _ => False
  end.
(* all addresses in a value are whole *)
Fixpoint whole (t : tval) : Prop :=
  match t with
  | TAddr a => whole_addr a
  | TVec l => allP whole l
  | TMap m => allP (fun p => whole (fst p) /\ whole (snd p)) m
  | _ => True
  end.

(* the bytes of a value *)
Definition bytes_of (t : tval) : list Z := xscval (xdr_of t).
