(* Values as bytes: host.rs:2585-2620, serialize_to_bytes and deserialize_from_bytes,
   with env-common val.rs:643-661 and host/metered_xdr.rs:42-49, 58-70.

   External (stellar-xdr): reading an ScVal from bytes.  What is written here is the
   standard decoding (RFC 4506) of the XDR types concerned, the counterpart of the
   encoding in XdrModel: it refuses unknown discriminants, padding other than zeros,
   lengths over their maximum, and bytes left over.  A read past the end is
   LengthLimitExceeded, as the length limit is the length of the bytes; every other
   failure is InvalidInput (env-common error.rs:154-163).  The crate's limit on
   nesting (500, counted per XDR type) is a parameter for reading, as are its limits
   for writing (500; 32 MB).
   Simplified: no metering (C49, C50); the argument of deserialize_from_bytes is the
   content of the bytes object (C10, C16). *)
From Coq Require Import ZArith List Bool.
From Verif Require Import Prelude ValModel HeapModel FrameModel AuthModel XdrModel StrkeyModel AssetModel.
Import ListNotations.
Open Scope Z_scope.

(* ------------------------------------------------- external: XDR decoding *)

Definition reader (A : Type) := list Z -> res (A * list Z).
Definition r_map {A B} (g : A -> B) (f : reader A) : reader B := fun b =>
  let? p := f b in Ok (g (fst p), snd p).
Definition r_seq {A B} (f : reader A) (g : reader B) : reader (A * B) := fun b =>
  let? p := f b in
  let? q := g (snd p) in
  Ok ((fst p, fst q), snd q).
Definition r_none {A} : reader A := fun _ => Err e_xdr_bad.
Definition r_nothing : reader unit := fun b => Ok (tt, b).

Definition r_u32 : reader Z := r_map of_be (take 4).
Definition r_i32 : reader Z := r_map (fun p => as_i32 (of_be p)) (take 4).
Definition r_u64 : reader Z := r_map of_be (take 8).
Definition r_i64 : reader Z := r_map (fun p => as_i64 (of_be p)) (take 8).
(* unions: a discriminant, then the arm it selects *)
Definition r_union {A} (arm : Z -> reader A) : reader A := fun b =>
  let? p := r_u32 b in arm (fst p) (snd p).
(* variable-length opaque data, strings *)
Definition r_var (max : Z) : reader (list Z) := fun b =>
  let? n := r_u32 b in
  if max <? fst n then Err e_xdr_bad
  else
    let? p := take (Z.to_nat (fst n)) (snd n) in
    let? q := take (length (pad (Z.to_nat (fst n)))) (snd p) in
    if forallb (fun x => x =? 0) (fst q) then Ok (fst p, snd q) else Err e_xdr_bad.
Fixpoint r_times {A} (f : reader A) (n : nat) : reader (list A) := fun b =>
  match n with
  | O => Ok ([], b)
  | S n' =>
      let? p := f b in
      let? q := r_times f n' (snd p) in
      Ok (fst p :: fst q, snd q)
  end.
Definition r_list {A} (f : reader A) : reader (list A) := fun b =>
  let? n := r_u32 b in r_times f (Z.to_nat (fst n)) (snd n).
Definition r_opt {A} (f : reader A) : reader (option A) :=
  r_union (fun d =>
    if d =? 0 then r_map (fun _ => None) r_nothing
    else if d =? 1 then r_map Some f
    else r_none).

(* PublicKey, ClaimableBalanceId: unions with one arm *)
Definition r_only (f : reader (list Z)) : reader (list Z) :=
  r_union (fun d => if d =? 0 then f else r_none).
(* ScAddress *)
Definition r_addr : reader addr :=
  r_union (fun d =>
    if d =? 0 then r_map AAccount (r_only (take 32))
    else if d =? 1 then r_map AContract (take 32)
    else if d =? 2 then r_map (fun p => AMuxed (fst p) (snd p)) (r_seq r_u64 (take 32))
    else if d =? 3 then r_map (fun p => AOther 3 (x32 0 ++ p)) (r_only (take 32))
    else if d =? 4 then r_map (AOther 4) (take 32)
    else r_none).
(* ContractExecutable *)
Definition u32_limit : Z := 4294967295.
Definition r_exe : reader executable :=
  r_union (fun d =>
    if d =? 0 then r_map ExWasm (take 32)
    else if d =? 1 then r_map (fun _ => ExStellarAsset) r_nothing
    else if d =? 2 then r_map (fun p => ExExternalRef (fst p) (snd p)) (r_seq r_addr (r_var u32_limit))
    else r_none).
(* ScError, ScErrorCode *)
Definition r_code : reader ecode := r_union (fun d =>
  match ecode_of_num d with Some c => r_map (fun _ => c) r_nothing | None => r_none end).
Definition r_err : reader err :=
  r_union (fun d =>
    if d =? 0 then r_map EContract r_u32
    else match ety_of_num d with Some t => r_map (ESys t) r_code | None => r_none end).

(* ScVal; fuel is spent per level of nesting *)
Definition r_bool : reader bool :=
  r_union (fun d =>
    if d =? 0 then r_map (fun _ => false) r_nothing
    else if d =? 1 then r_map (fun _ => true) r_nothing
    else r_none).
Definition SCSYMBOL_LIMIT : Z := 32.
Definition r_four (g : Z -> Z -> Z -> Z -> scval) (f : reader Z) : reader scval :=
  r_map (fun p => g (fst (fst (fst p))) (snd (fst (fst p))) (snd (fst p)) (snd p))
        (r_seq (r_seq (r_seq f r_u64) r_u64) r_u64).
Fixpoint r_scval (fuel : nat) : reader scval :=
  match fuel with
  | O => fun _ => Err e_xdr_short
  | S n =>
      let r_map_ := r_opt (r_list (r_seq (r_scval n) (r_scval n))) in
      r_union (fun d =>
        match d with
        | 0 => r_map SBool r_bool
        | 1 => r_map (fun _ => SVoid) r_nothing
        | 2 => r_map SError r_err
        | 3 => r_map SU32 r_u32
        | 4 => r_map SI32 r_i32
        | 5 => r_map SU64 r_u64
        | 6 => r_map SI64 r_i64
        | 7 => r_map STimepoint r_u64
        | 8 => r_map SDuration r_u64
        | 9 => r_map (fun p => SU128 (fst p) (snd p)) (r_seq r_u64 r_u64)
        | 10 => r_map (fun p => SI128 (fst p) (snd p)) (r_seq r_i64 r_u64)
        | 11 => r_four SU256 r_u64
        | 12 => r_four SI256 r_i64
        | 13 => r_map SBytes (r_var u32_limit)
        | 14 => r_map SString (r_var u32_limit)
        | 15 => r_map SSymbol (r_var SCSYMBOL_LIMIT)
        | 16 => r_map SVec (r_opt (r_list (r_scval n)))
        | 17 => r_map SMap r_map_
        | 18 => r_map SAddress r_addr
        | 19 => r_map (fun p => SContractInstance (fst p) (snd p)) (r_seq r_exe r_map_)
        | 20 => r_map (fun _ => SLedgerKeyContractInstance) r_nothing
        | 21 => r_map SLedgerKeyNonce r_i64
        | 22 => r_map SExecutableTag (r_var u32_limit)
        | _ => r_none
        end)
  end.

Section Limits.
(* whether the crate's limits let a value be read, be written *)
Variable readable : scval -> bool.
Variable writable : scval -> bool.

(* ScVal::from_xdr *)
Definition scval_from_xdr (b : list Z) : res scval :=
  let? p := r_scval (S (length b)) b in
  if negb (readable (fst p)) then Err e_xdr_short
  else at_end (fst p) (snd p).

(* ------------------------------------------------------------------ host *)

(* budget/limits.rs:41 *)
Definition HOST_DEPTH : nat := 100.

(* val.rs:643-661 *)
Fixpoint can_represent_recursive (s : scval) : bool :=
  match s with
  | SVec None | SMap None => false
  | SVec (Some l) => forallb can_represent_recursive l
  | SMap (Some m) =>
      forallb (fun p => can_represent_recursive (fst p) && can_represent_recursive (snd p)) m
  | SContractInstance _ _ | SLedgerKeyContractInstance | SLedgerKeyNonce _ => false
  | _ => true
  end.
(* host/metered_xdr.rs:58-70 *)
Definition metered_write_xdr (s : scval) : res (list Z) :=
  if writable s then Ok (xscval s) else Err (ESys TBudget CExceededLimit).
(* host/conversion.rs:233-235 *)
Definition scbytes_from_vec (b : list Z) : res (list Z) :=
  if u32_limit <? Z.of_nat (length b) then Err e_xdr_bad else Ok b.
(* host.rs:2585-2594 *)
Definition serialize_to_bytes (h : heap) (v : Z) : heap * res Z :=
  match (let? s := from_host_val HOST_DEPTH false h v in
         let? b := metered_write_xdr s in
         scbytes_from_vec b) with
  | Ok b => add_host_object h (HOBytes b)
  | Err e => (h, Err e)
  end.
(* host.rs:2596-2620 *)
Definition deserialize_from_bytes (h : heap) (b : list Z) : heap * res Z :=
  match scval_from_xdr b with
  | Err e => (h, Err e)
  | Ok s =>
      if can_represent_recursive s then to_host_val HOST_DEPTH h s
      else (h, Err (ESys TValue CUnexpectedType))
  end.
End Limits.
