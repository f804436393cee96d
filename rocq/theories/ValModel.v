(* 64-bit tagged words ("Val"): soroban-env-common/src/{val,num,symbol,error}.rs.

   A Rust u64 is a Z in [0, 2^64).  Shifts, masks and casts are the Rust ones:
   `<<` wraps modulo 2^64, `as i64` reinterprets, `>>` is logical on unsigned and
   arithmetic on signed. *)
From Coq Require Import ZArith Lia List Bool.
From Verif Require Import Prelude.
Import ListNotations.
Open Scope Z_scope.

(* ------------------------------------------------------------ bit casts *)

Definition as_u64 (x : Z) : Z := x mod 2 ^ 64.                        (* `as u64` *)
Definition as_i64 (x : Z) : Z :=                                      (* `as i64` *)
  let u := x mod 2 ^ 64 in if u <? 2 ^ 63 then u else u - 2 ^ 64.
Definition as_u32 (x : Z) : Z := x mod 2 ^ 32.
Definition as_i32 (x : Z) : Z :=
  let u := x mod 2 ^ 32 in if u <? 2 ^ 31 then u else u - 2 ^ 32.
Definition as_u8 (x : Z) : Z := x mod 2 ^ 8.
Definition shl64 (x n : Z) : Z := as_u64 (Z.shiftl x n).              (* u64 << n *)
Definition shl_i64 (x n : Z) : Z := as_i64 (Z.shiftl x n).            (* i64 << n *)

(* ------------------------------------------------------------ tags *)

(* val.rs:21 *)
Definition TAG_BITS : Z := 8.
(* val.rs:33-40 *)
Definition MAJOR_BITS : Z := 32.
Definition MINOR_BITS : Z := 24.

(* val.rs:49-163, enum Tag *)
Inductive tag :=
| TgFalse | TgTrue | TgVoid | TgError | TgU32Val | TgI32Val
| TgU64Small | TgI64Small | TgTimepointSmall | TgDurationSmall
| TgU128Small | TgI128Small | TgU256Small | TgI256Small | TgSymbolSmall
| TgSmallCodeUpperBound | TgObjectCodeLowerBound
| TgU64Object | TgI64Object | TgTimepointObject | TgDurationObject
| TgU128Object | TgI128Object | TgU256Object | TgI256Object
| TgBytesObject | TgStringObject | TgSymbolObject | TgVecObject | TgMapObject
| TgAddressObject | TgMuxedAddressObject | TgExecutableTagObject
| TgObjectCodeUpperBound | TgBad.

Definition tag_num (t : tag) : Z :=
  match t with
  | TgFalse => 0 | TgTrue => 1 | TgVoid => 2 | TgError => 3
  | TgU32Val => 4 | TgI32Val => 5
  | TgU64Small => 6 | TgI64Small => 7 | TgTimepointSmall => 8
  | TgDurationSmall => 9 | TgU128Small => 10 | TgI128Small => 11
  | TgU256Small => 12 | TgI256Small => 13 | TgSymbolSmall => 14
  | TgSmallCodeUpperBound => 15 | TgObjectCodeLowerBound => 63
  | TgU64Object => 64 | TgI64Object => 65 | TgTimepointObject => 66
  | TgDurationObject => 67 | TgU128Object => 68 | TgI128Object => 69
  | TgU256Object => 70 | TgI256Object => 71 | TgBytesObject => 72
  | TgStringObject => 73 | TgSymbolObject => 74 | TgVecObject => 75
  | TgMapObject => 76 | TgAddressObject => 77 | TgMuxedAddressObject => 78
  | TgExecutableTagObject => 79 | TgObjectCodeUpperBound => 80
  | TgBad => 127
  end.

Definition all_tags : list tag :=
  [TgFalse; TgTrue; TgVoid; TgError; TgU32Val; TgI32Val; TgU64Small; TgI64Small;
   TgTimepointSmall; TgDurationSmall; TgU128Small; TgI128Small; TgU256Small;
   TgI256Small; TgSymbolSmall; TgSmallCodeUpperBound; TgObjectCodeLowerBound;
   TgU64Object; TgI64Object; TgTimepointObject; TgDurationObject; TgU128Object;
   TgI128Object; TgU256Object; TgI256Object; TgBytesObject; TgStringObject;
   TgSymbolObject; TgVecObject; TgMapObject; TgAddressObject;
   TgMuxedAddressObject; TgExecutableTagObject; TgObjectCodeUpperBound; TgBad].

(* val.rs:187-204.  The `transmute` of a byte to the enum case with that
   discriminant is the search below; outside the guarded ranges the result is
   Bad. *)
Definition tag_from_u8 (b : Z) : tag :=
  if negb ((b <? tag_num TgSmallCodeUpperBound)
           || ((tag_num TgObjectCodeLowerBound <? b)
               && (b <? tag_num TgObjectCodeUpperBound)))
  then TgBad
  else match find (fun t => tag_num t =? b) all_tags with
       | Some t => t
       | None => TgBad
       end.

(* val.rs:176-185 *)
Definition u8_is_object (b : Z) : bool :=
  (tag_num TgObjectCodeLowerBound <? b) && (b <? tag_num TgObjectCodeUpperBound).

(* XDR ScValType discriminants. *)
Inductive sctype :=
| STyBool | STyVoid | STyError | STyU32 | STyI32 | STyU64 | STyI64
| STyTimepoint | STyDuration | STyU128 | STyI128 | STyU256 | STyI256
| STyBytes | STyString | STySymbol | STyVec | STyMap | STyAddress
| STyContractInstance | STyLedgerKeyContractInstance | STyLedgerKeyNonce
| STyExecutableTag.

Definition sctype_num (t : sctype) : Z :=
  match t with
  | STyBool => 0 | STyVoid => 1 | STyError => 2 | STyU32 => 3 | STyI32 => 4
  | STyU64 => 5 | STyI64 => 6 | STyTimepoint => 7 | STyDuration => 8
  | STyU128 => 9 | STyI128 => 10 | STyU256 => 11 | STyI256 => 12
  | STyBytes => 13 | STyString => 14 | STySymbol => 15 | STyVec => 16
  | STyMap => 17 | STyAddress => 18 | STyContractInstance => 19
  | STyLedgerKeyContractInstance => 20 | STyLedgerKeyNonce => 21
  | STyExecutableTag => 22
  end.

(* val.rs:214-252 *)
Definition get_scval_type (t : tag) : option sctype :=
  match t with
  | TgFalse | TgTrue => Some STyBool
  | TgVoid => Some STyVoid
  | TgError => Some STyError
  | TgU32Val => Some STyU32
  | TgI32Val => Some STyI32
  | TgU64Small | TgU64Object => Some STyU64
  | TgI64Small | TgI64Object => Some STyI64
  | TgTimepointSmall | TgTimepointObject => Some STyTimepoint
  | TgDurationSmall | TgDurationObject => Some STyDuration
  | TgU128Small | TgU128Object => Some STyU128
  | TgI128Small | TgI128Object => Some STyI128
  | TgU256Small | TgU256Object => Some STyU256
  | TgI256Small | TgI256Object => Some STyI256
  | TgSymbolSmall | TgSymbolObject => Some STySymbol
  | TgBytesObject => Some STyBytes
  | TgStringObject => Some STyString
  | TgVecObject => Some STyVec
  | TgMapObject => Some STyMap
  | TgAddressObject | TgMuxedAddressObject => Some STyAddress
  | TgExecutableTagObject => Some STyExecutableTag
  | TgSmallCodeUpperBound | TgObjectCodeLowerBound
  | TgObjectCodeUpperBound | TgBad => None
  end.

(* ------------------------------------------------------------ word layout *)

(* val.rs:720-784 *)
Definition get_tag_u8 (v : Z) : Z := as_u8 (Z.land v 255).
Definition get_tag (v : Z) : tag := tag_from_u8 (get_tag_u8 v).
Definition get_body (v : Z) : Z := Z.shiftr v TAG_BITS.
Definition get_signed_body (v : Z) : Z := Z.shiftr (as_i64 v) TAG_BITS.
Definition has_tag (v : Z) (t : tag) : bool := get_tag_u8 v =? tag_num t.
Definition from_body_and_tag (body : Z) (t : tag) : Z :=
  Z.lor (shl64 body TAG_BITS) (tag_num t).
Definition from_major_minor_and_tag (major minor : Z) (t : tag) : Z :=
  from_body_and_tag (Z.lor (shl64 major MINOR_BITS) minor) t.
Definition get_minor (v : Z) : Z := as_u32 (Z.land (get_body v) (2 ^ 24 - 1)).
Definition get_major (v : Z) : Z := as_u32 (Z.shiftr (get_body v) MINOR_BITS).
Definition is_object (v : Z) : bool := u8_is_object (get_tag_u8 v).

(* val.rs:786-799; TryFrom<Val> for bool, val.rs:490-509 *)
Definition val_void : Z := from_body_and_tag 0 TgVoid.
Definition val_of_bool (b : bool) : Z :=
  from_body_and_tag 0 (if b then TgTrue else TgFalse).
Definition bool_of_val (v : Z) : option bool :=
  if has_tag v TgTrue then Some true
  else if has_tag v TgFalse then Some false else None.
(* num.rs:15-25, num.rs:55-78; ValConvert for u32/i32, val.rs:511-545 *)
Definition val_of_u32 (u : Z) : Z := from_major_minor_and_tag u 0 TgU32Val.
Definition val_of_i32 (i : Z) : Z := from_major_minor_and_tag (as_u32 i) 0 TgI32Val.
Definition u32_of_val (v : Z) : option Z :=
  if has_tag v TgU32Val then Some (get_major v) else None.
Definition i32_of_val (v : Z) : option Z :=
  if has_tag v TgI32Val then Some (as_i32 (get_major v)) else None.

(* ------------------------------------------------------------ numbers *)

(* The eight number types that have both an in-word and an object form
   (num.rs:40-54). *)
Inductive numty := NU64 | NI64 | NTimepoint | NDuration | NU128 | NI128 | NU256 | NI256.

Definition small_tag (k : numty) : tag :=
  match k with
  | NU64 => TgU64Small | NI64 => TgI64Small | NTimepoint => TgTimepointSmall
  | NDuration => TgDurationSmall | NU128 => TgU128Small | NI128 => TgI128Small
  | NU256 => TgU256Small | NI256 => TgI256Small
  end.

Definition object_tag_of_num (k : numty) : tag :=
  match k with
  | NU64 => TgU64Object | NI64 => TgI64Object | NTimepoint => TgTimepointObject
  | NDuration => TgDurationObject | NU128 => TgU128Object | NI128 => TgI128Object
  | NU256 => TgU256Object | NI256 => TgI256Object
  end.

(* num.rs:394-396 *)
Definition is_small_u64 (u : Z) : bool := u =? Z.shiftr (shl64 u TAG_BITS) TAG_BITS.
(* num.rs:398-400 *)
Definition is_small_i64 (i : Z) : bool := i =? Z.shiftr (shl_i64 i TAG_BITS) TAG_BITS.
(* num.rs:402-405; num.rs:412-415 has the same shape *)
Definition is_small_u128 (u : Z) : bool :=
  let word := as_u64 u in is_small_u64 word && (u =? word).
Definition is_small_u256 := is_small_u128.
(* num.rs:407-410; num.rs:417-420 has the same shape *)
Definition is_small_i128 (i : Z) : bool :=
  let word := as_i64 i in is_small_i64 word && (i =? word).
Definition is_small_i256 := is_small_i128.

Definition is_small_num (k : numty) (x : Z) : bool :=
  match k with
  | NU64 | NTimepoint | NDuration => is_small_u64 x
  | NI64 => is_small_i64 x
  | NU128 => is_small_u128 x
  | NI128 => is_small_i128 x
  | NU256 => is_small_u256 x
  | NI256 => is_small_i256 x
  end.

(* TryFrom<number> for *Small: num.rs:127-175, 202-225, 233-247, 254-267.
   The number is cast to u64 before packing. *)
Definition num_to_small (k : numty) (x : Z) : option Z :=
  if is_small_num k x then Some (from_body_and_tag (as_u64 x) (small_tag k))
  else None.

(* From<*Small> for number: num.rs:80-125; the tag test is TryFrom<Val>
   (wrapper_macros.rs:41-56). *)
Definition small_to_num (k : numty) (v : Z) : option Z :=
  if has_tag v (small_tag k) then
    Some (match k with
          | NU64 | NTimepoint | NDuration | NU128 | NU256 => get_body v
          | NI64 | NI128 | NI256 => get_signed_body v
          end)
  else None.

(* 128-bit pieces: stellar-xdr int128_helpers, used at convert.rs:208-301. *)
Definition u128_hi (u : Z) : Z := as_u64 (Z.shiftr u 64).
Definition u128_lo (u : Z) : Z := as_u64 u.
Definition u128_from_pieces (hi lo : Z) : Z := Z.lor (Z.shiftl hi 64) lo.
Definition as_i128 (x : Z) : Z :=
  let u := x mod 2 ^ 128 in if u <? 2 ^ 127 then u else u - 2 ^ 128.
Definition i128_hi (i : Z) : Z := as_i64 (Z.shiftr i 64).
Definition i128_lo (i : Z) : Z := as_u64 i.
Definition i128_from_pieces (hi lo : Z) : Z :=
  as_i128 (Z.lor (Z.shiftl (as_u64 hi) 64) lo).

(* ethnum words: a U256/I256 is the 256-bit number high * 2^128 + low. *)
Definition u256_from_words (hi lo : Z) : Z := Z.lor (Z.shiftl hi 128) lo.
Definition as_i256 (x : Z) : Z :=
  let u := x mod 2 ^ 256 in if u <? 2 ^ 255 then u else u - 2 ^ 256.
Definition i256_from_words (hi lo : Z) : Z :=
  as_i256 (Z.lor (Z.shiftl (hi mod 2 ^ 128) 128) (lo mod 2 ^ 128)).
(* num.rs:431-435 *)
Definition u256_from_pieces (hh hl lh ll : Z) : Z :=
  u256_from_words (Z.lor (Z.shiftl hh 64) hl) (Z.lor (Z.shiftl lh 64) ll).
(* num.rs:437-442 *)
Definition u256_into_pieces (u : Z) : Z * Z * Z * Z :=
  let high := Z.shiftr u 128 in
  let low := u mod 2 ^ 128 in
  (as_u64 (Z.shiftr high 64), as_u64 high, as_u64 (Z.shiftr low 64), as_u64 low).
(* num.rs:444-448 *)
Definition i256_from_pieces (hh hl lh ll : Z) : Z :=
  let high := as_i128 (Z.lor (Z.shiftl (as_u64 hh) 64) hl) in
  let low := as_i128 (Z.lor (Z.shiftl lh 64) ll) in
  i256_from_words high low.
(* num.rs:450-455 *)
Definition i256_into_pieces (i : Z) : Z * Z * Z * Z :=
  let high := Z.shiftr i 128 in
  let low := as_i128 i in
  (as_i64 (Z.shiftr high 64), as_u64 high, as_u64 (Z.shiftr low 64), as_u64 low).
(* num.rs:422-429 *)
Definition is_small_u256_parts (hh hl lh ll : Z) : bool :=
  (hh =? 0) && (hl =? 0) && (lh =? 0) && is_small_u64 ll.
Definition is_small_i256_parts (hh hl lh ll : Z) : bool :=
  is_small_i256 (i256_from_pieces hh hl lh ll).

(* ------------------------------------------------------------ symbols *)

(* symbol.rs:99-102 *)
Definition MAX_SMALL_CHARS : nat := 9.
Definition CODE_BITS : Z := 6.
Definition SMALL_MASK : Z := 2 ^ 54 - 1.

(* symbol.rs:237-246 *)
Definition encode_byte (b : Z) : option Z :=
  if b =? 95 then Some 1                                   (* '_' *)
  else if (48 <=? b) && (b <=? 57) then Some (2 + (b - 48))   (* '0'..='9' *)
  else if (65 <=? b) && (b <=? 90) then Some (12 + (b - 65))  (* 'A'..='Z' *)
  else if (97 <=? b) && (b <=? 122) then Some (38 + (b - 97)) (* 'a'..='z' *)
  else None.

Fixpoint symbol_accum (acc : Z) (bs : list Z) : option Z :=
  match bs with
  | [] => Some acc
  | b :: bs' =>
      match encode_byte b with
      | None => None
      | Some c => symbol_accum (Z.lor (shl64 acc CODE_BITS) c) bs'
      end
  end.

(* symbol.rs:248-264 *)
Definition symbol_small_from_bytes (bs : list Z) : option Z :=
  if (Nat.ltb MAX_SMALL_CHARS (length bs)) then None
  else option_map (fun a => from_body_and_tag a TgSymbolSmall) (symbol_accum 0 bs).

(* symbol.rs:164-173 *)
Definition symbol_body_ok (body : Z) : bool := Z.land body SMALL_MASK =? body.

(* symbol.rs:420-431: decode one 6-bit code; None is the '\0' case. *)
Definition decode_code (c : Z) : option Z :=
  if c =? 1 then Some 95
  else if (2 <=? c) && (c <=? 11) then Some (48 + c - 2)
  else if (12 <=? c) && (c <=? 37) then Some (65 + c - 12)
  else if (38 <=? c) && (c <=? 63) then Some (97 + c - 38)
  else None.

(* symbol.rs:418-437, SymbolSmallIter driven to exhaustion.  The Rust loop runs
   while the u64 is non-zero; each round shifts left by 6, so 11 rounds always
   empty it, and `fuel` 11 is exact (SymbolProofs.iter_done). *)
Fixpoint symbol_iter (fuel : nat) (x : Z) : list Z :=
  match fuel with
  | O => []
  | S f =>
      if x =? 0 then []
      else
        let c := Z.land (Z.shiftr x 48) 63 in
        let rest := symbol_iter f (shl64 x CODE_BITS) in
        match decode_code c with
        | Some ch => ch :: rest
        | None => rest
        end
  end.

(* symbol.rs:408-414 *)
Definition symbol_small_chars (v : Z) : list Z := symbol_iter 11 (get_body v).

(* XDR ScSymbol validation, host_object.rs:293-314 (SCSYMBOL_LIMIT = 32). *)
Definition SCSYMBOL_LIMIT : nat := 32.
Definition symbol_bytes_ok (bs : list Z) : bool :=
  negb (Nat.ltb SCSYMBOL_LIMIT (length bs))
  && forallb (fun b => match encode_byte b with Some _ => true | None => false end) bs.

(* symbol.rs:286-316: to_str fills a zeroed 32-byte array, as_ref cuts at the
   first zero byte. *)
Fixpoint cut_at_zero (l : list Z) : list Z :=
  match l with
  | [] => []
  | b :: l' => if b =? 0 then [] else b :: cut_at_zero l'
  end.
Definition symbol_str (v : Z) : list Z :=
  let cs := firstn SCSYMBOL_LIMIT (symbol_small_chars v) in
  cut_at_zero (cs ++ repeat 0 (SCSYMBOL_LIMIT - length cs)).

(* ------------------------------------------------------------ errors *)

Definition ety_num (t : ety) : Z :=
  match t with
  | TWasmVm => 1 | TContext => 2 | TStorage => 3 | TObject => 4 | TCrypto => 5
  | TEvents => 6 | TBudget => 7 | TValue => 8 | TAuth => 9
  end.
Definition ety_of_num (n : Z) : option ety :=
  find (fun t => ety_num t =? n)
    [TWasmVm; TContext; TStorage; TObject; TCrypto; TEvents; TBudget; TValue; TAuth].
Definition ecode_num (c : ecode) : Z :=
  match c with
  | CArithDomain => 0 | CIndexBounds => 1 | CInvalidInput => 2
  | CMissingValue => 3 | CExistingValue => 4 | CExceededLimit => 5
  | CInvalidAction => 6 | CInternalError => 7 | CUnexpectedType => 8
  | CUnexpectedSize => 9
  end.
Definition ecode_of_num (n : Z) : option ecode :=
  find (fun c => ecode_num c =? n)
    [CArithDomain; CIndexBounds; CInvalidInput; CMissingValue; CExistingValue;
     CExceededLimit; CInvalidAction; CInternalError; CUnexpectedType;
     CUnexpectedSize].

(* error.rs:305-329 *)
Definition val_of_error (e : err) : Z :=
  match e with
  | EContract u => from_major_minor_and_tag u 0 TgError
  | ESys t c => from_major_minor_and_tag (ecode_num c) (ety_num t) TgError
  end.

(* error.rs:96-114; the enum conversions take `as i32` of the stored u32. *)
Definition error_of_val (v : Z) : option err :=
  let ty := as_i32 (get_minor v) in
  let u := get_major v in
  if ty =? 0 then Some (EContract u)
  else match ety_of_num ty with
       | None => None
       | Some t =>
           match ecode_of_num (as_i32 u) with
           | Some c => Some (ESys t c)
           | None => None
           end
       end.

(* error.rs:50-57 *)
Definition error_val_key (v : Z) : Z * Z := (get_minor v, get_major v).

(* ------------------------------------------------------------ goodness *)

(* val.rs:666-703 *)
Definition is_good (v : Z) : bool :=
  match get_tag v with
  | TgBad | TgSmallCodeUpperBound | TgObjectCodeLowerBound
  | TgObjectCodeUpperBound => false
  | TgTrue | TgFalse | TgVoid => get_body v =? 0
  | TgI32Val | TgU32Val => get_minor v =? 0
  | TgError => match error_of_val v with Some _ => true | None => false end
  | TgSymbolSmall => symbol_body_ok (get_body v)
  | TgU64Small | TgI64Small | TgTimepointSmall | TgDurationSmall
  | TgU128Small | TgI128Small | TgU256Small | TgI256Small => true
  | TgU64Object | TgI64Object | TgTimepointObject | TgDurationObject
  | TgU128Object | TgI128Object | TgU256Object | TgI256Object
  | TgBytesObject | TgStringObject | TgSymbolObject | TgVecObject
  | TgMapObject | TgAddressObject | TgMuxedAddressObject
  | TgExecutableTagObject => get_minor v =? 0
  end.

(* val.rs:429-446, WasmiMarshal::try_marshal_from_value for Val on an i64 wasm
   argument: reinterpret as u64, accept only good words. *)
Definition marshal_from_wasm (i : Z) : option Z :=
  let v := as_u64 i in if is_good v then Some v else None.
