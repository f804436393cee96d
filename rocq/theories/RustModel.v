(* Conversions between Rust data and host values: what `try_into_val` and
   `try_from_val` of soroban-env-common do for unit, bool, the integer types, byte
   strings, symbols, Option, Result and tuples, over the host's object table.

   Simplifications.  The error type of a Result is `Error` itself (the code allows any
   type that converts to and from it).  An `Error` is read as its decoded form; the
   code keeps the word, and words that do not decode never pass the host's integrity
   check.  Strings (read with a test of UTF-8) and converting to and from arrays of values (tuple.rs:47-75, 93-113) and budget charges
   are left out. *)
From Coq Require Import ZArith Lia List Bool.
From Verif Require Import Prelude ValModel ContainerModel HeapModel HostFnModel GuestModel IntModel.
Import ListNotations.
Open Scope Z_scope.

(* The Rust types.  YNum NTimepoint and YNum NDuration stand for u64 read from and
   written to TimepointVal and DurationVal (convert.rs:156-210). *)
Inductive rty :=
| YUnit | YBool | YU32 | YI32
| YNum (k : numty)
| YOption (t : rty)
| YResult (t : rty)
| YTuple (ts : list rty)
| YBytes | YBytesN (n : nat)   (* Vec<u8> and [u8; N] *)
| YSymbol.                     (* &str or bytes to Symbol; read back as SymbolStr *)

(* Their data. *)
Inductive rdata :=
| XUnit | XBool (b : bool) | XU32 (x : Z) | XI32 (x : Z)
| XNum (k : numty) (x : Z)
| XNone | XSome (d : rdata)
| XOk (d : rdata) | XErr (e : err)
| XTuple (l : list rdata)
| XBytes (b : list Z) | XSymbol (b : list Z).

(* ------------------------------------------------------------- numbers *)

(* convert.rs:76-87 (i64), 113-119 and 143-154 (u64), 172-183, 199-210 (timepoint,
   duration), 230-260 (i128), 280-310 (u128), 331-362 (I256), 383-414 (U256) *)
Definition num_to_val (k : numty) (h : heap) (x : Z) : heap * res Z :=
  match num_to_small k x with
  | Some v => (h, Ok v)
  | None =>
      match k with
      | NU64 | NI64 | NTimepoint | NDuration => obj_from_num k h x
      | NU128 => obj_from_u128_pieces h (u128_hi x) (u128_lo x)
      | NI128 => obj_from_i128_pieces h (i128_hi x) (i128_lo x)
      | NU256 => let '(a, b, c, d) := u256_into_pieces x in obj_from_u256_pieces h a b c d
      | NI256 => let '(a, b, c, d) := i256_into_pieces x in obj_from_i256_pieces h a b c d
      end
  end.

(* convert.rs:62-74 (i64), 99-111 (u64), 158-170, 185-197 (timepoint, duration),
   214-228 (i128), 264-278 (u128), 313-329 (I256), 365-381 (U256).  `val.try_into()?`
   tests the tag of the object type. *)
Definition num_from_val (k : numty) (h : heap) (v : Z) : res Z :=
  match small_to_num k v with
  | Some x => Ok x
  | None =>
      if has_tag v (object_tag_of_num k) then
        match k with
        | NU64 | NI64 | NTimepoint | NDuration => obj_to_num k h v
        | NU128 => let? p := obj_to_u128_pieces h v in Ok (u128_from_pieces (fst p) (snd p))
        | NI128 => let? p := obj_to_i128_pieces h v in Ok (i128_from_pieces (fst p) (snd p))
        | NU256 => let? p := obj_to_u256_pieces h v in
                   let '(a, b, c, d) := p in Ok (u256_from_pieces a b c d)
        | NI256 => let? p := obj_to_i256_pieces h v in
                   let '(a, b, c, d) := p in Ok (i256_from_pieces a b c d)
        end
      else Err e_conversion
  end.

(* ------------------------------------------------------------- tuples *)

(* host.rs:1053-1062 *)
Definition vec_new_from_slice (h : heap) (l : list Z) : heap * res Z :=
  match check_all h l with
  | Err e => (h, Err e)
  | Ok _ => add_host_object h (HOVec l)
  end.

(* host.rs:1064-1082 *)
Definition vec_unpack_to_slice (h : heap) (v : Z) (n : nat) : res (list Z) :=
  let? l := visit_vec h v in
  if Nat.eqb (length l) n then Ok l else Err (ESys TObject CUnexpectedSize).

(* -------------------------------------------------------- bytes, symbols *)

(* bytes.rs:61-109 with host.rs:976-981; BytesM holds up to 2^32 - 1 bytes *)
Definition bytes_to_val (h : heap) (b : list Z) : heap * res Z :=
  if fits_u32 (length b) then add_host_object h (HOBytes b) else (h, Err e_val_invalid).

(* bytes.rs:38-59: the length, then a copy of that many bytes; the tag is tested by
   the conversion to BytesObject *)
Definition bytes_from_val (h : heap) (v : Z) : res (list Z) :=
  if has_tag v TgBytesObject then visit_bytes h v else Err e_conversion.

(* bytes.rs:9-35 *)
Definition bytesn_from_val (n : nat) (h : heap) (v : Z) : res (list Z) :=
  let? b := bytes_from_val h v in
  if Nat.eqb (length b) n then Ok b else Err (ESys TValue CUnexpectedSize).

(* symbol.rs:354-377 with 303-316: a zeroed array of 32 bytes, read up to the first
   zero *)
Definition symbol_from_val (h : heap) (v : Z) : res (list Z) :=
  if has_tag v TgSymbolSmall then Ok (symbol_str v)
  else if has_tag v TgSymbolObject then
    let? b := visit_symbol h v in
    if Nat.leb (length b) SCSYMBOL_LIMIT
    then Ok (cut_at_zero (b ++ repeat 0 (SCSYMBOL_LIMIT - length b)))
    else Err (ESys TValue CInternalError)
  else Err e_conversion.

(* `?` on an Option *)
Definition converted {A} (o : option A) : res A :=
  match o with Some x => Ok x | None => Err e_conversion end.

(* --------------------------------------------------------- the conversions *)

(* val.rs:786-799 (unit, bool), 511-545 with num.rs:15-25 (u32, i32); option.rs:18-30; result.rs:26-44;
   tuple.rs:22-34; symbol.rs:107-130 *)
Fixpoint to_val (h : heap) (d : rdata) {struct d} : heap * res Z :=
  match d with
  | XUnit => (h, Ok val_void)
  | XBool b => (h, Ok (val_of_bool b))
  | XU32 x => (h, Ok (val_of_u32 x))
  | XI32 x => (h, Ok (val_of_i32 x))
  | XNum k x => num_to_val k h x
  | XNone => (h, Ok val_void)
  | XSome d' => to_val h d'
  | XOk d' => to_val h d'
  | XErr e => (h, Ok (val_of_error e))
  | XTuple l =>
      let '(h1, r) :=
        (fix go (h : heap) (l : list rdata) : heap * res (list Z) :=
           match l with
           | [] => (h, Ok [])
           | x :: l' =>
               match to_val h x with
               | (h1, Err e) => (h1, Err e)
               | (h1, Ok v) =>
                   match go h1 l' with
                   | (h2, Err e) => (h2, Err e)
                   | (h2, Ok vs) => (h2, Ok (v :: vs))
                   end
               end
           end) h l in
      match r with
      | Err e => (h1, Err e)
      | Ok vs => vec_new_from_slice h1 vs
      end
  | XBytes b => bytes_to_val h b
  | XSymbol b => symbol_of_bytes h b
  end.

(* val.rs:481-545 with the TryFromVal of wrapper_macros.rs:64-69; option.rs:3-16;
   result.rs:3-24; tuple.rs:8-20 *)
Fixpoint from_val (t : rty) (h : heap) (v : Z) {struct t} : res rdata :=
  match t with
  | YUnit => if has_tag v TgVoid then Ok XUnit else Err e_conversion
  | YBool => rmap XBool (converted (bool_of_val v))
  | YU32 => rmap XU32 (converted (u32_of_val v))
  | YI32 => rmap XI32 (converted (i32_of_val v))
  | YNum k => rmap (XNum k) (num_from_val k h v)
  | YOption t' => if has_tag v TgVoid then Ok XNone else rmap XSome (from_val t' h v)
  | YResult t' =>
      if has_tag v TgError then rmap XErr (converted (error_of_val v))
      else rmap XOk (from_val t' h v)
  | YTuple ts =>
      if has_tag v TgVecObject then
        let? l := vec_unpack_to_slice h v (length ts) in
        rmap XTuple
          ((fix go (ts : list rty) (l : list Z) : res (list rdata) :=
              match ts, l with
              | t' :: ts', w :: l' =>
                  let? d := from_val t' h w in
                  let? ds := go ts' l' in Ok (d :: ds)
              | _, _ => Ok []
              end) ts l)
      else Err e_conversion
  | YBytes => rmap XBytes (bytes_from_val h v)
  | YBytesN n => rmap XBytes (bytesn_from_val n h v)
  | YSymbol => rmap XSymbol (symbol_from_val h v)
  end.
