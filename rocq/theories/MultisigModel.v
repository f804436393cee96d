(* Signature checking of classic accounts: builtin_contracts/account_contract.rs
   62-67, 175-263; host/data_helper.rs 513-562, 856-981; builtin_contracts/base_types.rs
   96-134, 271-280.

   Values are the XDR values they denote.  Verification of one ed25519 signature
   (crypto/mod.rs:78-97) is a parameter, and so is the account loaded from the
   ledger (host/data_helper.rs:469-480, StorageModel). *)
From Coq Require Import ZArith List Bool.
From Verif Require Import Prelude ValModel HeapModel.
Import ListNotations.
Open Scope Z_scope.

(* XDR AccountEntry, the fields used: account id, thresholds, signers *)
Inductive signer_key := SkEd25519 (k : list Z) | SkOther (kind : Z) (b : list Z).
Record account := {
  acc_id : list Z;
  acc_thresholds : list Z;
  acc_signers : list (signer_key * Z);
}.

(* XDR ThresholdIndexes *)
Definition th_master : nat := 0.
Definition th_med : nat := 2.
(* account_contract.rs:25 *)
Definition max_signatures : Z := 20.
(* builtin_contracts/contract_error.rs:16, AuthenticationError = 5 *)
Definition e_authn : err := EContract 5.
(* host/error.rs, From<ConversionError> *)
Definition e_convert : err := ESys TValue CUnexpectedType.

Definition bytes_eqb (a b : list Z) : bool :=
  match bytes_cmp a b with Eq => true | _ => false end.

(* data_helper.rs:534-560 *)
Fixpoint find_signer (k : list Z) (l : list (signer_key * Z)) : Z :=
  match l with
  | [] => 0
  | (SkEd25519 x, w) :: r => if bytes_eqb k x then Z.min w 255 else find_signer k r
  | (SkOther _ _, _) :: r => find_signer k r
  end.
(* data_helper.rs:513-562 *)
Definition signer_weight (k : list Z) (a : account) : res Z :=
  if bytes_eqb (acc_id a) k then
    match nth_error (acc_thresholds a) th_master with
    | Some w => Ok w
    | None => Err (ESys TValue CInternalError)
    end
  else Ok (find_signer k (acc_signers a)).

(* data_helper.rs:856-960 with `sparse` false: as many entries as keys, each
   entry's key a symbol, equal to the key at the same position *)
Fixpoint unpack_keys (keys : list (list Z)) (m : list (scval * scval)) : res (list scval) :=
  match keys, m with
  | k :: ks, (SSymbol s, v) :: r =>
      if bytes_eqb s k then let? l := unpack_keys ks r in Ok (v :: l)
      else Err (ESys TObject CInvalidInput)
  | _ :: _, (_, _) :: _ => Err e_convert
  | _, _ => Ok []
  end.
Definition unpack_dense (keys : list (list Z)) (m : list (scval * scval)) : res (list scval) :=
  if Nat.eqb (length m) (length keys) then unpack_keys keys m
  else Err (ESys TObject CUnexpectedSize).

(* base_types.rs:96-134 *)
Definition bytes_n (n : nat) (v : scval) : res (list Z) :=
  match v with
  | SBytes b => if Nat.eqb (length b) n then Ok b else Err (ESys TValue CUnexpectedSize)
  | _ => Err e_convert
  end.

(* "public_key", "signature" *)
Definition s_public_key : list Z := [112; 117; 98; 108; 105; 99; 95; 107; 101; 121].
Definition s_signature : list Z := [115; 105; 103; 110; 97; 116; 117; 114; 101].

(* account_contract.rs:62-67 (#[contracttype]): the public key and the signature *)
Definition decode_sig (v : scval) : res (list Z * list Z) :=
  match v with
  | SMap (Some m) =>
      let? vs := unpack_dense [s_public_key; s_signature] m in
      match vs with
      | [a; b] => let? pk := bytes_n 32 a in let? sg := bytes_n 64 b in Ok (pk, sg)
      | _ => Err e_convert
      end
  | _ => Err e_convert
  end.

(* account_contract.rs:202-242: the loop; prev is prev_pk *)
Section Check.
  (* crypto/mod.rs:78-97: public key, message, signature *)
  Variable verify : list Z -> list Z -> list Z -> res unit.
  Variable payload : list Z.
  Variable acct : account.
  Fixpoint check_sigs (prev : option (list Z)) (weight : Z) (l : list scval) : res Z :=
    match l with
    | [] => Ok weight
    | v :: r =>
        let? ps := decode_sig v in
        let '(pk, sg) := ps in
        let? _ := match prev with
                  | Some p => match bytes_cmp p pk with Lt => Ok tt | _ => Err e_authn end
                  | None => Ok tt
                  end in
        let? _ := verify pk payload sg in
        let? w := signer_weight pk acct in
        if w =? 0 then Err e_authn
        else check_sigs (Some pk) (Z.min (weight + w) u32_max) r
    end.
End Check.

(* account_contract.rs:175-263 *)
Definition check_account_authentication (verify : list Z -> list Z -> list Z -> res unit)
    (load : res account) (payload : list Z) (signature : scval) : res unit :=
  match signature with
  | SVec (Some l) =>
      let len := Z.of_nat (length l) in
      if len >? max_signatures then Err e_authn
      else if len =? 0 then Err e_authn
      else
        let? a := load in
        let? weight := check_sigs verify payload a None 0 l in
        match nth_error (acc_thresholds a) th_med with
        | None => Err (ESys TAuth CInternalError)
        | Some th => if weight <? th then Err e_authn else Ok tt
        end
  | _ => Err e_convert
  end.
