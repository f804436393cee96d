(* The asset contract of an asset: the asset's XDR, its validation, the contract's
   initialization and what the contract says about itself.
   builtin_contracts/stellar_asset_contract/{asset_info,metadata,admin,public_types}.rs,
   contract.rs:81-146, 356-390, host.rs:2427-2435, host/lifecycle.rs:310-314,
   host/metered_xdr.rs:42-55.
   Simplified: no metering (C49, C50), no TTL extension (C21), no events (C63); the
   contract's instance storage is a record of its three entries (C50 is about
   instance storage itself), the authorization of set_admin an argument (C38). *)
From Coq Require Import ZArith List Bool.
From Verif Require Import Prelude ValModel HeapModel FrameModel AuthModel XdrModel StrkeyModel.
Import ListNotations.
Open Scope Z_scope.

Definition e_xdr_short : err := ESys TContext CExceededLimit.
Definition e_xdr_bad : err := ESys TValue CInvalidInput.
Definition e_no_entry : err := ESys TStorage CMissingValue.

(* XDR Asset *)
Inductive xasset :=
| XNative
| XAlpha4 (code issuer : list Z)
| XAlpha12 (code issuer : list Z).

(* external: reading an Asset from XDR, to the end of the bytes.  A read past the
   length limit, which metered_from_xdr (host/metered_xdr.rs:42-48) sets to the
   length of the bytes, is LengthLimitExceeded, any other failure Invalid or
   Unsupported; soroban-env-common/src/error.rs:154-163 *)
Definition take (n : nat) (b : list Z) : res (list Z * list Z) :=
  if (length b <? n)%nat then Err e_xdr_short else Ok (firstn n b, skipn n b).
Definition read_disc (b : list Z) : res (Z * list Z) :=
  let? p := take 4 b in Ok (of_be (fst p), snd p).
Definition read_account_id (b : list Z) : res (list Z * list Z) :=
  let? p := read_disc b in
  if fst p =? 0 then take 32 (snd p) else Err e_xdr_bad.
Definition read_credit (n : nat) (b : list Z) : res (list Z * list Z * list Z) :=
  let? c := take n b in
  let? i := read_account_id (snd c) in
  Ok (fst c, fst i, snd i).
Definition at_end {A} (x : A) (rest : list Z) : res A :=
  match rest with [] => Ok x | _ :: _ => Err e_xdr_bad end.
Definition asset_from_xdr (b : list Z) : res xasset :=
  let? d := read_disc b in
  if fst d =? 0 then at_end XNative (snd d)
  else if fst d =? 1 then
    let? c := read_credit 4 (snd d) in
    at_end (XAlpha4 (fst (fst c)) (snd (fst c))) (snd c)
  else if fst d =? 2 then
    let? c := read_credit 12 (snd d) in
    at_end (XAlpha12 (fst (fst c)) (snd (fst c))) (snd c)
  else Err e_xdr_bad.
(* external: its XDR *)
Definition asset_to_xdr (a : xasset) : list Z :=
  match a with
  | XNative => x32 0
  | XAlpha4 c i => x32 1 ++ c ++ x32 0 ++ i
  | XAlpha12 c i => x32 2 ++ c ++ x32 0 ++ i
  end.

(* asset_info.rs:39-80; u8::is_ascii_alphanumeric *)
Definition is_ascii_alphanumeric (c : Z) : bool :=
  ((48 <=? c) && (c <=? 57)) || ((65 <=? c) && (c <=? 90)) || ((97 <=? c) && (c <=? 122)).
Fixpoint scan_code (had_zero : bool) (non_zero : Z) (code : list Z) : res Z :=
  match code with
  | [] => Ok non_zero
  | c :: r =>
      if c =? 0 then scan_code true non_zero r
      else if had_zero then Err e_xdr_bad
      else if (127 <? c) || negb (is_ascii_alphanumeric c) then Err e_xdr_bad
      else scan_code had_zero (non_zero + 1) r
  end.
Definition validate_asset_code (code : list Z) : res unit :=
  let? n := scan_code false 0 code in
  if n =? 0 then Err e_xdr_bad
  else if (n <=? 4) && (4 <? length code)%nat then Err e_xdr_bad
  else Ok tt.
(* asset_info.rs:36-88 *)
Definition validate_asset (a : xasset) : res unit :=
  match a with
  | XNative => Ok tt
  | XAlpha4 c _ => validate_asset_code c
  | XAlpha12 c _ => validate_asset_code c
  end.

(* public_types.rs:10-29, AssetInfo *)
Inductive ainfo :=
| INative
| IAlpha4 (asset_code issuer : list Z)
| IAlpha12 (asset_code issuer : list Z).
(* metadata.rs:14-20 *)
Record ameta := { m_decimal : Z; m_name : list Z; m_symbol : list Z }.
(* storage_types.rs:37-42, metadata.rs:12 *)
Record ainst := { i_admin : option addr; i_info : option ainfo; i_meta : option ameta }.
Definition empty_inst : ainst := {| i_admin := None; i_info := None; i_meta := None |}.

(* admin.rs:14-22; asset_info.rs:10-18; metadata.rs:182-189 *)
Definition write_administrator (st : ainst) (a : addr) : ainst :=
  {| i_admin := Some a; i_info := i_info st; i_meta := i_meta st |}.
Definition write_asset_info (st : ainst) (i : ainfo) : ainst :=
  {| i_admin := i_admin st; i_info := Some i; i_meta := i_meta st |}.
Definition write_metadata (st : ainst) (m : ameta) : ainst :=
  {| i_admin := i_admin st; i_info := i_info st; i_meta := Some m |}.
(* asset_info.rs:20-34 *)
Definition read_asset_info (st : ainst) : res ainfo :=
  match i_info st with Some i => Ok i | None => Err e_no_entry end.
Definition has_asset_info (st : ainst) : bool :=
  match i_info st with Some _ => true | None => false end.

(* base_types.rs:62-76, String::to_array::<N> *)
Definition to_array (n : nat) (s : list Z) : res (list Z) :=
  if (length s =? n)%nat then Ok s else Err (ESys TValue CUnexpectedSize).
(* asset_info.rs:26-28, public_types.rs:33-45; the issuer is a BytesN<32> *)
Definition read_asset (st : ainst) : res xasset :=
  let? i := read_asset_info st in
  match i with
  | INative => Ok XNative
  | IAlpha4 c k => let? c := to_array 4 c in Ok (XAlpha4 c k)
  | IAlpha12 c k => let? c := to_array 12 c in Ok (XAlpha12 c k)
  end.

(* metadata.rs:33-51 *)
Definition hex (v : Z) : Z := if v <? 10 then 48 + v else 87 + v.
Definition escape (x : Z) : list Z := [92; 120; hex (x / 16); hex (x mod 16)].
Definition is_escaped (x : Z) : bool :=
  (x =? 58) || (x =? 92) || ((0 <=? x) && (x <=? 32)) || ((127 <=? x) && (x <=? 255)).
Fixpoint render_from (len i : nat) (buf : list Z) : list Z :=
  match buf with
  | [] => []
  | x :: r =>
      if (x =? 0) && (len =? 4)%nat then []
      else if (x =? 0) && (len =? 12)%nat && (4 <? i)%nat then []
      else if is_escaped x then escape x ++ render_from len (S i) r
      else x :: render_from len (S i) r
  end.
Definition render_sep0011_asset_code (buf : list Z) : res (list Z) :=
  if negb (length buf =? 4)%nat && negb (length buf =? 12)%nat then Err e_xdr_bad
  else Ok (render_from (length buf) 0 buf).
(* metadata.rs:130-161: the name and the symbol *)
Definition render_sep0011_asset (n : nat) (symbol issuer : list Z) : res (list Z * list Z) :=
  let? symbuf := to_array n symbol in
  let? s := render_sep0011_asset_code symbuf in
  Ok (s ++ [58] ++ kind_to_string (KPublicKey issuer), s).
(* metadata.rs:22 *)
Definition DECIMAL : Z := 7.
Definition s_native : list Z := [110; 97; 116; 105; 118; 101].
(* metadata.rs:163-190 *)
Definition set_metadata (st : ainst) : res ainst :=
  let? i := read_asset_info st in
  let? ns :=
    match i with
    | INative => Ok (s_native, s_native)
    | IAlpha4 c k => render_sep0011_asset 4 c k
    | IAlpha12 c k => render_sep0011_asset 12 c k
    end in
  Ok (write_metadata st {| m_decimal := DECIMAL; m_name := fst ns; m_symbol := snd ns |}).

(* ContractError::AlreadyInitializedError, contract_error.rs *)
Definition e_already_initialized : err := EContract 3.

Section Host.
(* SHA-256 and the network id *)
Variable sha : list Z -> list Z.
Variable net : list Z.

(* host/lifecycle.rs:310-314 *)
Definition get_asset_contract_id_hash (a : xasset) : list Z :=
  contract_id sha net (PreAsset (asset_to_xdr a)).
(* host.rs:2427-2435 *)
Definition get_asset_contract_id (b : list Z) : res hobj :=
  let? a := asset_from_xdr b in Ok (HOAddress (AContract (get_asset_contract_id_hash a))).

(* contract.rs:81-146; cur is the id of the running contract *)
Definition init_asset (cur : list Z) (st : ainst) (asset_bytes : list Z) : res ainst :=
  if has_asset_info st then Err e_already_initialized
  else
    let? a := asset_from_xdr asset_bytes in
    let? _ := validate_asset a in
    if negb (bytes_eqb cur (get_asset_contract_id_hash a)) then Err (ESys TContext CInternalError)
    else
      let st1 :=
        match a with
        | XNative => write_asset_info st INative
        | XAlpha4 c i => write_asset_info (write_administrator st (AAccount i)) (IAlpha4 c i)
        | XAlpha12 c i => write_asset_info (write_administrator st (AAccount i)) (IAlpha12 c i)
        end in
      set_metadata st1.
End Host.

(* contract.rs:371-390, metadata.rs:192-206, admin.rs:7-11 *)
Definition admin (st : ainst) : res addr :=
  match i_admin st with Some a => Ok a | None => Err e_no_entry end.
Definition decimals : Z := DECIMAL.
Definition name (st : ainst) : res (list Z) :=
  match i_meta st with Some m => Ok (m_name m) | None => Err e_no_entry end.
Definition symbol (st : ainst) : res (list Z) :=
  match i_meta st with Some m => Ok (m_symbol m) | None => Err e_no_entry end.
(* contract.rs:356-369; auth is the outcome of admin.require_auth() *)
Definition set_admin (auth : addr -> res unit) (st : ainst) (new_admin : addr) : res ainst :=
  let? a := admin st in
  let? _ := auth a in
  Ok (write_administrator st new_admin).
