(* Host objects, value comparison, and conversion between host values and XDR
   values: host_object.rs, host/comparison.rs, host.rs obj_cmp,
   host/conversion.rs, soroban-env-common/src/{compare,convert,object,val}.rs.

   Simplifications.  Budget charges are omitted; they can only turn a result into
   an error.  The shared recursion depth counter (Budget::with_limited_depth,
   proved in P_Budget C31 to be a counter that is restored on exit) is the
   argument `d`, the number of levels left.  32-byte keys and hashes are byte
   lists.  The object table is a list; a Rust RefCell borrow error cannot occur
   in these functions. *)
From Coq Require Import ZArith Lia List Bool.
From Verif Require Import Prelude ValModel ContainerModel.
Import ListNotations.
Open Scope Z_scope.

(* ------------------------------------------------------------ addresses *)

(* XDR ScAddress; AOther stands for ClaimableBalance (3) and LiquidityPool (4). *)
Inductive addr :=
| AAccount (key : list Z)
| AContract (id : list Z)
| AMuxed (id : Z) (key : list Z)
| AOther (disc : Z) (payload : list Z).

(* `a.cmp(b)` on byte slices and on fixed-size byte arrays (derived Ord) *)
Fixpoint bytes_cmp (a b : list Z) : comparison :=
  match a, b with
  | [], [] => Eq
  | [], _ :: _ => Lt
  | _ :: _, [] => Gt
  | x :: a', y :: b' => match x ?= y with Eq => bytes_cmp a' b' | c => c end
  end.

Definition then_cmp (c : comparison) (k : comparison) : comparison :=
  match c with Eq => k | _ => c end.

Definition addr_disc (a : addr) : Z :=
  match a with
  | AAccount _ => 0 | AContract _ => 1 | AMuxed _ _ => 2 | AOther d _ => d
  end.

(* derived Ord for ScAddress / MuxedScAddress: variant, then fields in order
   (MuxedEd25519Account is { id, ed25519 }) *)
Definition addr_cmp (a b : addr) : comparison :=
  match a, b with
  | AAccount x, AAccount y => bytes_cmp x y
  | AContract x, AContract y => bytes_cmp x y
  | AMuxed i x, AMuxed j y => then_cmp (i ?= j) (bytes_cmp x y)
  | AOther i x, AOther j y => then_cmp (i ?= j) (bytes_cmp x y)
  | _, _ => addr_disc a ?= addr_disc b
  end.

(* ------------------------------------------------------------ host objects *)

(* host_object.rs:24-42, enum HostObject; the eight number cases are HONum. *)
Inductive hobj :=
| HONum (k : numty) (x : Z)
| HOBytes (b : list Z)
| HOString (b : list Z)
| HOSymbol (b : list Z)
| HOVec (l : list Z)
| HOMap (m : list (Z * Z))
| HOAddress (a : addr)
| HOMuxed (a : addr)
| HOExeTag (b : list Z).

Definition heap := list hobj.

(* the wrapper tag of each object type (host_object.rs, impl_host_object) *)
Definition hobj_tag (o : hobj) : tag :=
  match o with
  | HONum k _ => object_tag_of_num k
  | HOBytes _ => TgBytesObject
  | HOString _ => TgStringObject
  | HOSymbol _ => TgSymbolObject
  | HOVec _ => TgVecObject
  | HOMap _ => TgMapObject
  | HOAddress _ => TgAddressObject
  | HOMuxed _ => TgMuxedAddressObject
  | HOExeTag _ => TgExecutableTagObject
  end.

Definition e_depth : err := ESys TContext CExceededLimit.
Definition e_val_invalid : err := ESys TValue CInvalidInput.

(* host_object.rs:352-371.  `checked_shl(1)` on a u32 only fails for shift
   amounts of 32 or more, so the shift itself wraps modulo 2^32. *)
Definition is_relative_handle (h : Z) : bool := Z.land h 1 =? 0.
Definition handle_to_index (h : Z) : nat := Z.to_nat (Z.shiftr h 1).
Definition index_to_handle (i : nat) (relative : bool) : res Z :=
  if fits_u32 i then
    let shifted := as_u32 (Z.shiftl (Z.of_nat i) 1) in
    Ok (if relative then shifted else Z.lor shifted 1)
  else Err e_arith.

(* object.rs: Object::from_handle_and_tag *)
Definition object_word (handle : Z) (t : tag) : Z := from_major_minor_and_tag handle 0 t.

(* host_object.rs:458-470 *)
Definition add_host_object (h : heap) (o : hobj) : heap * res Z :=
  match index_to_handle (length h) false with
  | Err e => (h, Err e)
  | Ok hd => (h ++ [o], Ok (object_word hd (hobj_tag o)))
  end.

(* host_object.rs:472-517 *)
Definition visit_obj_untyped (h : heap) (v : Z) : res hobj :=
  let hd := get_major v in
  if is_relative_handle hd then Err (ESys TObject CInternalError)
  else match nth_error h (handle_to_index hd) with
       | Some o => Ok o
       | None => Err e_val_invalid
       end.

(* host_object.rs:521-540 with the type test of each HostObjectType *)
Definition e_mistyped : err := ESys TObject CInternalError.
Definition visit_vec (h : heap) (v : Z) : res (list Z) :=
  let? o := visit_obj_untyped h v in
  match o with HOVec l => Ok l | _ => Err e_mistyped end.
Definition visit_map (h : heap) (v : Z) : res (list (Z * Z)) :=
  let? o := visit_obj_untyped h v in
  match o with HOMap l => Ok l | _ => Err e_mistyped end.
Definition visit_bytes (h : heap) (v : Z) : res (list Z) :=
  let? o := visit_obj_untyped h v in
  match o with HOBytes l => Ok l | _ => Err e_mistyped end.
Definition visit_string (h : heap) (v : Z) : res (list Z) :=
  let? o := visit_obj_untyped h v in
  match o with HOString l => Ok l | _ => Err e_mistyped end.
Definition visit_symbol (h : heap) (v : Z) : res (list Z) :=
  let? o := visit_obj_untyped h v in
  match o with HOSymbol l => Ok l | _ => Err e_mistyped end.

(* ------------------------------------------------------------ comparison *)

(* env-common compare.rs:75-92, Compare<Vec<T>> *)
Definition cmp_list {A} (f : A -> A -> res comparison) :=
  fix go (a b : list A) : res comparison :=
    match a, b with
    | [], [] => Ok Eq
    | [], _ :: _ => Ok Lt
    | _ :: _, [] => Ok Gt
    | x :: a', y :: b' =>
        match f x y with
        | Ok Eq => go a' b'
        | r => r
        end
    end.

(* compare.rs:48-72, Compare<(T, U)>; comparison.rs:255-264 ScMapEntry has the
   same shape *)
Definition cmp_pair {A} (f : A -> A -> res comparison) (p q : A * A) : res comparison :=
  match p, q with
  | (a, b), (c, d) =>
      match f a c with
      | Ok Eq => f b d
      | r => r
      end
  end.

(* host/comparison.rs:26-45 *)
Definition host_obj_discriminant (o : hobj) : Z :=
  match o with
  | HONum NU64 _ => 0 | HONum NI64 _ => 1 | HONum NTimepoint _ => 2
  | HONum NDuration _ => 3 | HONum NU128 _ => 4 | HONum NI128 _ => 5
  | HONum NU256 _ => 6 | HONum NI256 _ => 7
  | HOBytes _ => 8 | HOString _ => 9 | HOSymbol _ => 10 | HOVec _ => 11
  | HOMap _ => 12 | HOAddress _ => 13 | HOMuxed _ => 14 | HOExeTag _ => 15
  end.

Definition numty_eqb (a b : numty) : bool :=
  match a, b with
  | NU64, NU64 | NI64, NI64 | NTimepoint, NTimepoint | NDuration, NDuration
  | NU128, NU128 | NI128, NI128 | NU256, NU256 | NI256, NI256 => true
  | _, _ => false
  end.

(* host/comparison.rs:47-101, the body inside with_limited_depth; `cv` is the
   comparison of contained values.  (HONum k, HONum k) covers the eight
   same-type number cases; different number types fall through to the
   discriminant. *)
Definition cmp_hobj (cv : Z -> Z -> res comparison) (a b : hobj) : res comparison :=
  let disc := Ok (host_obj_discriminant a ?= host_obj_discriminant b) in
  match a, b with
  | HONum k x, HONum k' y => if numty_eqb k k' then Ok (x ?= y) else disc
  | HOVec x, HOVec y => cmp_list cv x y
  | HOMap x, HOMap y => cmp_list (cmp_pair cv) x y
  | HOBytes x, HOBytes y => Ok (bytes_cmp x y)
  | HOString x, HOString y => Ok (bytes_cmp x y)
  | HOSymbol x, HOSymbol y => Ok (bytes_cmp x y)
  | HOAddress x, HOAddress y => Ok (addr_cmp x y)
  | HOMuxed x, HOMuxed y => Ok (addr_cmp x y)
  | HOExeTag x, HOExeTag y => Ok (bytes_cmp x y)
  | _, _ => disc
  end.

(* host_object.rs:69-149; the symbol side is SymbolStr::as_ref (symbol_str) *)
Definition try_compare_to_small (o : hobj) (rv : Z) : option comparison :=
  match o with
  | HONum k x =>
      match small_to_num k rv with
      | None => None
      | Some y => Some (x ?= y)
      end
  | HOSymbol s =>
      if has_tag rv TgSymbolSmall then Some (bytes_cmp s (symbol_str rv)) else None
  | _ => None
  end.

(* `atype.cmp(&btype)` on ScValType, and equality of the two (host.rs:1228-1240);
   get_scval_type of a Bad tag is an error in val.rs:214-252, but is_object holds
   for one side and a bad other side never reaches the host. *)
Definition scty_num (v : Z) : Z :=
  match get_scval_type (get_tag v) with Some t => sctype_num t | None => -1 end.

(* host.rs:1192-1250.  `cmp_ho` is Compare<HostObject> including its depth
   checkpoint.  The i64 answer -1/0/1 is kept as a comparison. *)
Definition obj_cmp (cmp_ho : hobj -> hobj -> res comparison) (h : heap) (a b : Z)
  : res comparison :=
  let finish (r : option comparison) : res comparison :=
    match r with
    | Some c => Ok c
    | None =>
        if scty_num a =? scty_num b then Err (ESys TValue CInternalError)
        else Ok (scty_num a ?= scty_num b)
    end in
  match is_object a, is_object b with
  | true, true =>
      let? ao := visit_obj_untyped h a in
      let? bo := visit_obj_untyped h b in
      let? c := cmp_ho ao bo in
      finish (Some c)
  | true, false =>
      let? ao := visit_obj_untyped h a in
      finish (try_compare_to_small ao b)
  | false, true =>
      let? bo := visit_obj_untyped h b in
      finish (option_map CompOpp (try_compare_to_small bo a))
  | false, false => Err (ESys TValue CUnexpectedType)
  end.

(* compare.rs:127-208 for two non-object words: tags first, then per type.
   wrapper_macros.rs:352-383 compares unsigned small numbers by body and signed
   ones by signed body; num.rs:27-39 u32/i32; error.rs:50-57 errors;
   symbol.rs:195-199 small symbols by Iterator::cmp over their characters. *)
Definition cmp_small (a b : Z) : comparison :=
  let ta := get_tag a in
  let tb := get_tag b in
  match tag_num ta ?= tag_num tb with
  | Eq =>
      match ta with
      | TgError =>
          then_cmp (get_minor a ?= get_minor b) (get_major a ?= get_major b)
      | TgU32Val => get_major a ?= get_major b
      | TgI32Val => as_i32 (get_major a) ?= as_i32 (get_major b)
      | TgU64Small | TgTimepointSmall | TgDurationSmall | TgU128Small
      | TgU256Small => get_body a ?= get_body b
      | TgI64Small | TgI128Small | TgI256Small =>
          get_signed_body a ?= get_signed_body b
      | TgSymbolSmall => bytes_cmp (symbol_small_chars a) (symbol_small_chars b)
      | _ => Eq
      end
  | c => c
  end.

(* compare.rs:127-208, Compare<Val>.  The depth checkpoint is the one in
   Compare<HostObject> (comparison.rs:53-54). *)
Fixpoint cmp_val (d : nat) (h : heap) (a b : Z) : res comparison :=
  if a =? b then Ok Eq
  else if is_object a || is_object b then
    obj_cmp (fun x y => match d with
                        | O => Err e_depth
                        | S d' => cmp_hobj (cmp_val d' h) x y
                        end) h a b
  else Ok (cmp_small a b).

(* symbol.rs:140-160, Compare<Symbol>: the comparison contracts get when both
   sides are typed as Symbol on the guest-side of the API. *)
Definition cmp_symbol_typed (d : nat) (h : heap) (a b : Z) : res comparison :=
  match tag_num (get_tag a) ?= tag_num (get_tag b) with
  | Eq =>
      match get_tag a with
      | TgSymbolSmall => Ok (bytes_cmp (symbol_small_chars a) (symbol_small_chars b))
      | _ => cmp_val d h a b
      end
  | c => Ok c
  end.

(* ------------------------------------------------------------ XDR values *)

(* XDR ContractExecutable; ExternalRef { address, tag }. *)
Inductive executable :=
| ExWasm (hash : list Z)
| ExStellarAsset
| ExExternalRef (owner : addr) (tag : list Z).

Definition exe_disc (e : executable) : Z :=
  match e with ExWasm _ => 0 | ExStellarAsset => 1 | ExExternalRef _ _ => 2 end.

(* derived Ord *)
Definition exe_cmp (a b : executable) : comparison :=
  match a, b with
  | ExWasm x, ExWasm y => bytes_cmp x y
  | ExExternalRef x s, ExExternalRef y t => then_cmp (addr_cmp x y) (bytes_cmp s t)
  | _, _ => exe_disc a ?= exe_disc b
  end.

(* XDR ScVal.  Option bodies of vec and map as in XDR. *)
Inductive scval :=
| SBool (b : bool)
| SVoid
| SError (e : err)
| SU32 (x : Z)
| SI32 (x : Z)
| SU64 (x : Z)
| SI64 (x : Z)
| STimepoint (x : Z)
| SDuration (x : Z)
| SU128 (hi lo : Z)
| SI128 (hi lo : Z)
| SU256 (hh hl lh ll : Z)
| SI256 (hh hl lh ll : Z)
| SBytes (b : list Z)
| SString (b : list Z)
| SSymbol (b : list Z)
| SVec (l : option (list scval))
| SMap (m : option (list (scval * scval)))
| SAddress (a : addr)
| SContractInstance (e : executable) (storage : option (list (scval * scval)))
| SLedgerKeyContractInstance
| SLedgerKeyNonce (n : Z)
| SExecutableTag (b : list Z).

Definition sc_type (s : scval) : sctype :=
  match s with
  | SBool _ => STyBool | SVoid => STyVoid | SError _ => STyError
  | SU32 _ => STyU32 | SI32 _ => STyI32 | SU64 _ => STyU64 | SI64 _ => STyI64
  | STimepoint _ => STyTimepoint | SDuration _ => STyDuration
  | SU128 _ _ => STyU128 | SI128 _ _ => STyI128
  | SU256 _ _ _ _ => STyU256 | SI256 _ _ _ _ => STyI256
  | SBytes _ => STyBytes | SString _ => STyString | SSymbol _ => STySymbol
  | SVec _ => STyVec | SMap _ => STyMap | SAddress _ => STyAddress
  | SContractInstance _ _ => STyContractInstance
  | SLedgerKeyContractInstance => STyLedgerKeyContractInstance
  | SLedgerKeyNonce _ => STyLedgerKeyNonce
  | SExecutableTag _ => STyExecutableTag
  end.

(* derived Ord for XDR ScError: variant, then code *)
Definition err_key (e : err) : Z * Z :=
  match e with EContract c => (0, c) | ESys t c => (ety_num t, ecode_num c) end.
Definition err_cmp (a b : err) : comparison :=
  then_cmp (fst (err_key a) ?= fst (err_key b)) (snd (err_key a) ?= snd (err_key b)).

Definition bool_cmp (a b : bool) : comparison :=
  match a, b with
  | false, true => Lt | true, false => Gt | _, _ => Eq
  end.

Definition cmp_opt {A} (f : A -> A -> res comparison) (a b : option A) : res comparison :=
  match a, b with
  | Some x, Some y => f x y
  | None, None => Ok Eq
  | None, Some _ => Ok Lt
  | Some _, None => Ok Gt
  end.

(* host/comparison.rs:298-378, Compare<ScVal> for Budget; one depth level per
   ScVal.  Parts structs compare by derived Ord: fields from high to low. *)
Fixpoint cmp_scval (d : nat) (a b : scval) : res comparison :=
  match d with
  | O => Err e_depth
  | S d' =>
      match a, b with
      | SVec (Some x), SVec (Some y) => cmp_list (cmp_scval d') x y
      | SMap (Some x), SMap (Some y) => cmp_list (cmp_pair (cmp_scval d')) x y
      | SVec None, _ | _, SVec None | SMap None, _ | _, SMap None => Err e_val_invalid
      | SBytes x, SBytes y => Ok (bytes_cmp x y)
      | SString x, SString y => Ok (bytes_cmp x y)
      | SSymbol x, SSymbol y => Ok (bytes_cmp x y)
      | SExecutableTag x, SExecutableTag y => Ok (bytes_cmp x y)
      | SContractInstance e x, SContractInstance f y =>
          match exe_cmp e f with
          | Eq => cmp_opt (cmp_list (cmp_pair (cmp_scval d'))) x y
          | c => Ok c
          end
      | SVoid, SVoid => Ok Eq
      | SLedgerKeyContractInstance, SLedgerKeyContractInstance => Ok Eq
      | SBool x, SBool y => Ok (bool_cmp x y)
      | SError x, SError y => Ok (err_cmp x y)
      | SU32 x, SU32 y | SI32 x, SI32 y | SU64 x, SU64 y | SI64 x, SI64 y
      | STimepoint x, STimepoint y | SDuration x, SDuration y
      | SLedgerKeyNonce x, SLedgerKeyNonce y => Ok (x ?= y)
      | SU128 x1 x2, SU128 y1 y2 | SI128 x1 x2, SI128 y1 y2 =>
          Ok (then_cmp (x1 ?= y1) (x2 ?= y2))
      | SU256 x1 x2 x3 x4, SU256 y1 y2 y3 y4
      | SI256 x1 x2 x3 x4, SI256 y1 y2 y3 y4 =>
          Ok (then_cmp (x1 ?= y1) (then_cmp (x2 ?= y2)
               (then_cmp (x3 ?= y3) (x4 ?= y4))))
      | SAddress x, SAddress y => Ok (addr_cmp x y)
      | _, _ => Ok (sctype_num (sc_type a) ?= sctype_num (sc_type b))
      end
  end.

(* ------------------------------------------------------------ conversion *)

(* ConversionError maps to (Value, UnexpectedType), env-common error.rs *)
Definition e_conv : err := ESys TValue CUnexpectedType.

(* val.rs:602-661, can_represent_scval (not recursive) *)
Definition can_represent (s : scval) : bool :=
  match s with
  | SVec None | SMap None => false
  | SContractInstance _ _ | SLedgerKeyContractInstance | SLedgerKeyNonce _ => false
  | _ => true
  end.

(* object.rs:127-200, ScValObjRef::classify: does the value need an object? *)
Definition classify_object (s : scval) : bool :=
  match s with
  | SBool _ | SVoid | SError _ | SU32 _ | SI32 _ | SLedgerKeyContractInstance
  | SLedgerKeyNonce _ | SContractInstance _ _ => false
  | SBytes _ | SString _ | SVec _ | SMap _ | SAddress _ | SExecutableTag _ => true
  | SU64 x | STimepoint x | SDuration x => negb (is_small_u64 x)
  | SI64 x => negb (is_small_i64 x)
  | SU128 hi lo => negb (is_small_u128 (u128_from_pieces hi lo))
  | SI128 hi lo => negb (is_small_i128 (i128_from_pieces hi lo))
  | SU256 a b c e => negb (is_small_u256_parts a b c e)
  | SI256 a b c e => negb (is_small_i256_parts a b c e)
  | SSymbol b => Nat.ltb MAX_SMALL_CHARS (length b)
  end.

(* convert.rs:540-600, the small cases of Val::try_from_val(ScVal);
   require_or_conversion_error is the is_small test. *)
Definition small_of_scval (s : scval) : res Z :=
  let req (c : bool) (v : Z) : res Z := if c then Ok v else Err e_conv in
  match s with
  | SBool b => Ok (val_of_bool b)
  | SVoid => Ok val_void
  | SError e => Ok (val_of_error e)
  | SU32 x => Ok (val_of_u32 x)
  | SI32 x => Ok (val_of_i32 x)
  | SU64 x => req (is_small_u64 x) (from_body_and_tag x TgU64Small)
  | SI64 x => req (is_small_i64 x) (from_body_and_tag (as_u64 x) TgI64Small)
  | STimepoint x => req (is_small_u64 x) (from_body_and_tag x TgTimepointSmall)
  | SDuration x => req (is_small_u64 x) (from_body_and_tag x TgDurationSmall)
  | SU128 hi lo =>
      let u := u128_from_pieces hi lo in
      req (is_small_u128 u) (from_body_and_tag (as_u64 u) TgU128Small)
  | SI128 hi lo =>
      let i := i128_from_pieces hi lo in
      req (is_small_i128 i) (from_body_and_tag (as_u64 (as_i64 i)) TgI128Small)
  | SU256 a b c e => req (is_small_u256_parts a b c e) (from_body_and_tag e TgU256Small)
  | SI256 a b c e => req (is_small_i256_parts a b c e) (from_body_and_tag e TgI256Small)
  | SSymbol b =>
      match symbol_small_from_bytes b with Some v => Ok v | None => Err e_val_invalid end
  | _ => Err e_conv
  end.

(* running a state-passing conversion over a list; later elements are not
   converted once one has failed *)
Fixpoint to_host_list {A} (f : heap -> A -> heap * res Z) (h : heap) (l : list A)
  : heap * res (list Z) :=
  match l with
  | [] => (h, Ok [])
  | x :: t =>
      match f h x with
      | (h1, Err e) => (h1, Err e)
      | (h1, Ok v) =>
          match to_host_list f h1 t with
          | (h2, Err e) => (h2, Err e)
          | (h2, Ok vs) => (h2, Ok (v :: vs))
          end
      end
  end.

Fixpoint to_host_pairs (f : heap -> scval -> heap * res Z) (h : heap)
    (l : list (scval * scval)) : heap * res (list (Z * Z)) :=
  match l with
  | [] => (h, Ok [])
  | (a, b) :: t =>
      match f h a with
      | (h1, Err e) => (h1, Err e)
      | (h1, Ok k) =>
          match f h1 b with
          | (h2, Err e) => (h2, Err e)
          | (h2, Ok v) =>
              match to_host_pairs f h2 t with
              | (h3, Err e) => (h3, Err e)
              | (h3, Ok vs) => (h3, Ok ((k, v) :: vs))
              end
          end
      end
  end.

(* host/conversion.rs:543-662 *)
Definition to_host_obj (d : nat) (conv : heap -> scval -> heap * res Z) (h : heap)
    (s : scval) : heap * res Z :=
  match s with
  | SVec (Some l) =>
      match to_host_list conv h l with
      | (h1, Err e) => (h1, Err e)
      | (h1, Ok vs) =>
          match mvec_from vs with
          | Err e => (h1, Err e)
          | Ok vs' => add_host_object h1 (HOVec vs')
          end
      end
  | SMap (Some m) =>
      match to_host_pairs conv h m with
      | (h1, Err e) => (h1, Err e)
      | (h1, Ok ps) =>
          match omap_from (cmp_val d h1) ps with
          | Err e => (h1, Err e)
          | Ok ps' => add_host_object h1 (HOMap ps')
          end
      end
  | SVec None | SMap None => (h, Err e_val_invalid)
  | SU64 x => add_host_object h (HONum NU64 x)
  | SI64 x => add_host_object h (HONum NI64 x)
  | STimepoint x => add_host_object h (HONum NTimepoint x)
  | SDuration x => add_host_object h (HONum NDuration x)
  | SU128 hi lo => add_host_object h (HONum NU128 (u128_from_pieces hi lo))
  | SI128 hi lo => add_host_object h (HONum NI128 (i128_from_pieces hi lo))
  | SU256 a b c e => add_host_object h (HONum NU256 (u256_from_pieces a b c e))
  | SI256 a b c e => add_host_object h (HONum NI256 (i256_from_pieces a b c e))
  | SBytes b => add_host_object h (HOBytes b)
  | SString b => add_host_object h (HOString b)
  | SSymbol b =>
      if symbol_bytes_ok b then add_host_object h (HOSymbol b) else (h, Err e_val_invalid)
  | SAddress a =>
      match a with
      | AAccount _ | AContract _ => add_host_object h (HOAddress a)
      | AMuxed _ _ => add_host_object h (HOMuxed a)
      | AOther _ _ => (h, Err (ESys TObject CUnexpectedType))
      end
  | SExecutableTag b => add_host_object h (HOExeTag b)
  | _ => (h, Err (ESys TValue CInternalError))
  end.

(* host/conversion.rs:432-441 around convert.rs:522-603 *)
Fixpoint to_host_val (d : nat) (h : heap) (s : scval) : heap * res Z :=
  match d with
  | O => (h, Err e_depth)
  | S d' =>
      if negb (can_represent s) then (h, Err e_conv)
      else if classify_object s then to_host_obj d' (to_host_val d') h s
      else (h, small_of_scval s)
  end.

(* number objects to XDR parts, conversion.rs:470-515 *)
Definition scval_of_num (k : numty) (x : Z) : scval :=
  match k with
  | NU64 => SU64 x | NI64 => SI64 x | NTimepoint => STimepoint x | NDuration => SDuration x
  | NU128 => SU128 (u128_hi x) (u128_lo x)
  | NI128 => SI128 (i128_hi x) (i128_lo x)
  | NU256 => let '(a, b, c, e) := u256_into_pieces x in SU256 a b c e
  | NI256 => let '(a, b, c, e) := i256_into_pieces x in SI256 a b c e
  end.

(* convert.rs:428-500, the non-object cases of ScVal::try_from_val(Val) *)
Definition scval_of_small (v : Z) : res scval :=
  match get_tag v with
  | TgFalse => Ok (SBool false)
  | TgTrue => Ok (SBool true)
  | TgVoid => Ok SVoid
  | TgError => match error_of_val v with Some e => Ok (SError e) | None => Err e_conv end
  | TgU32Val => Ok (SU32 (get_major v))
  | TgI32Val => Ok (SI32 (as_i32 (get_major v)))
  | TgU64Small => Ok (SU64 (get_body v))
  | TgI64Small => Ok (SI64 (get_signed_body v))
  | TgTimepointSmall => Ok (STimepoint (get_body v))
  | TgDurationSmall => Ok (SDuration (get_body v))
  | TgU128Small => Ok (SU128 0 (get_body v))
  | TgI128Small =>
      let body := get_signed_body v in
      Ok (SI128 (as_i64 (Z.shiftr body 64)) (as_u64 body))
  | TgU256Small => Ok (SU256 0 0 0 (get_body v))
  | TgI256Small =>
      let '(a, b, c, e) := i256_into_pieces (get_signed_body v) in Ok (SI256 a b c e)
  | TgSymbolSmall => Ok (SSymbol (symbol_small_chars v))
  | _ => Err e_conv
  end.

(* collect::<Result<Vec<_>, _>>() *)
Fixpoint res_list {A B} (f : A -> res B) (l : list A) : res (list B) :=
  match l with
  | [] => Ok []
  | x :: t => let? y := f x in let? ys := res_list f t in Ok (y :: ys)
  end.

Definition res_pair {A B} (f : A -> res B) (p : A * A) : res (B * B) :=
  let? a := f (fst p) in let? b := f (snd p) in Ok (a, b).

(* host/conversion.rs:460-541; `storage` is the storage_key_conversion_active
   flag (conversion.rs:420-430, 523-533).  host_map_to_scmap converts key then
   value of each entry in order. *)
Definition from_host_obj (storage : bool) (conv : Z -> res scval) (o : hobj) : res scval :=
  match o with
  | HOVec l => let? ss := res_list conv l in Ok (SVec (Some ss))
  | HOMap m => let? ss := res_list (res_pair conv) m in Ok (SMap (Some ss))
  | HONum k x => Ok (scval_of_num k x)
  | HOBytes b => Ok (SBytes b)
  | HOString b => Ok (SString b)
  | HOSymbol b => Ok (SSymbol b)
  | HOAddress a => Ok (SAddress a)
  | HOMuxed a => if storage then Err (ESys TStorage CInvalidInput) else Ok (SAddress a)
  | HOExeTag b => Ok (SExecutableTag b)
  end.

(* host/conversion.rs:404-430 around convert.rs:419-510, with
   check_val_representable_scval (388-402) *)
Fixpoint from_host_val (d : nat) (storage : bool) (h : heap) (v : Z) : res scval :=
  match d with
  | O => Err e_depth
  | S d' =>
      let? s := (if is_object v then
                   let? o := visit_obj_untyped h v in
                   from_host_obj storage (from_host_val d' storage h) o
                 else scval_of_small v) in
      if can_represent s then Ok s else Err (ESys TValue CInternalError)
  end.
