(* Assets as people know them, and how they are written. *)
From Coq Require Import ZArith List Bool.
From Verif Require Import HeapModel StrkeySpec.
Import ListNotations.
Open Scope Z_scope.

(* the native asset; a code issued by an account *)
Inductive asset := Lumens | Issued (code issuer : list Z).

Definition alphanumeric (c : Z) : Prop :=
  48 <= c <= 57 \/ 65 <= c <= 90 \/ 97 <= c <= 122.   (* 0-9, A-Z, a-z *)
Definition proper (a : asset) : Prop :=
  match a with
  | Lumens => True
  | Issued code issuer =>
      (1 <= length code <= 12)%nat /\ Forall alphanumeric code /\
      length issuer = 32%nat /\ are_bytes issuer
  end.

(* the XDR of an asset: codes up to four characters are in four bytes, longer
   ones in twelve, filled up with zeros *)
Definition fill (n : nat) (l : list Z) : list Z := l ++ repeat 0 (n - length l).
Definition asset_bytes (a : asset) : list Z :=
  match a with
  | Lumens => [0; 0; 0; 0]
  | Issued code issuer =>
      (if (length code <=? 4)%nat then [0; 0; 0; 1] ++ fill 4 code else [0; 0; 0; 2] ++ fill 12 code)
        ++ [0; 0; 0; 0] ++ issuer
  end.

(* what an asset contract says of its asset: "native", or CODE:G... *)
Definition native : list Z := [110; 97; 116; 105; 118; 101].
Definition named (a : asset) (s : list Z) : Prop :=
  match a with
  | Lumens => s = native
  | Issued code issuer => exists key, spelled (AAccount issuer) key /\ s = code ++ [58] ++ key
  end.
Definition symbol_of (a : asset) : list Z :=
  match a with Lumens => native | Issued code _ => code end.
Definition first_admin (a : asset) (before : option addr) : option addr :=
  match a with Lumens => before | Issued _ issuer => Some (AAccount issuer) end.

(* the address of the asset's contract on a network: the hash of the XDR of
   HashIdPreimage::ContractId { network_id, FromAsset(asset) } *)
Definition address_of (sha : list Z -> list Z) (net : list Z) (a : asset) : list Z :=
  sha ([0; 0; 0; 8] ++ net ++ [0; 0; 0; 1] ++ asset_bytes a).

(* codes that were never validated, as bytes: what of them is displayed *)
Fixpoint until_zero (l : list Z) : list Z :=
  match l with [] => [] | x :: r => if x =? 0 then [] else x :: until_zero r end.
Definition significant (code : list Z) : list Z :=
  if (length code =? 4)%nat then until_zero code else firstn 5 code ++ until_zero (skipn 5 code).
