(* The container host functions of the map, vec and buf modules (host.rs), as
   functions on the object table.

   Arguments are absolute words, as the functions receive them after dispatch has
   translated guest handles (GuestModel.v models that translation).  U32Val
   arguments are given as their numbers.  Simplifications: budget charges are
   omitted; the linear-memory forms are in GuestModel.v. *)
From Coq Require Import ZArith Lia List Bool.
From Verif Require Import Prelude ValModel ContainerModel HeapModel.
Import ListNotations.
Open Scope Z_scope.

(* A call, with its value arguments of type V. *)
Inductive hop (V : Type) :=
| OMapNew
| OMapPut (m k v : V)
| OMapGet (m k : V)
| OMapDel (m k : V)
| OMapLen (m : V)
| OMapHas (m k : V)
| OMapKeyByPos (m : V) (i : nat)
| OMapValByPos (m : V) (i : nat)
| OMapKeys (m : V)
| OMapValues (m : V)
| OMapFromSlices (sparse : bool) (keys : list (list Z)) (vals : list V)
| OMapUnpack (sparse : bool) (m : V) (keys : list (list Z))
| OVecNew
| OVecFromSlice (vals : list V)
| OVecUnpack (v : V) (len : nat)
| OVecPut (v : V) (i : nat) (x : V)
| OVecGet (v : V) (i : nat)
| OVecDel (v : V) (i : nat)
| OVecLen (v : V)
| OVecPushFront (v x : V)
| OVecPopFront (v : V)
| OVecPushBack (v x : V)
| OVecPopBack (v : V)
| OVecFront (v : V)
| OVecBack (v : V)
| OVecInsert (v : V) (i : nat) (x : V)
| OVecAppend (v w : V)
| OVecSlice (v : V) (s e : nat)
| OVecFirstIndexOf (v x : V)
| OVecLastIndexOf (v x : V)
| OBytesNew
| OBytesPut (b : V) (i u : nat)
| OBytesGet (b : V) (i : nat)
| OBytesDel (b : V) (i : nat)
| OBytesLen (b : V)
| OBytesPush (b : V) (u : nat)
| OBytesPop (b : V)
| OBytesFront (b : V)
| OBytesBack (b : V)
| OBytesInsert (b : V) (i u : nat)
| OBytesAppend (b c : V)
| OBytesSlice (b : V) (s e : nat)
| OStringLen (s : V)
| OStringToBytes (s : V)
| OBytesToString (b : V)
| OCreateExecutableTag (s : V).
Arguments OMapNew {V}. Arguments OVecNew {V}. Arguments OBytesNew {V}.
Arguments OMapPut {V}. Arguments OMapGet {V}. Arguments OMapDel {V}. Arguments OMapLen {V}.
Arguments OMapHas {V}. Arguments OMapKeyByPos {V}. Arguments OMapValByPos {V}.
Arguments OMapKeys {V}. Arguments OMapValues {V}. Arguments OMapFromSlices {V}.
Arguments OMapUnpack {V}. Arguments OVecFromSlice {V}. Arguments OVecUnpack {V}.
Arguments OVecPut {V}. Arguments OVecGet {V}. Arguments OVecDel {V}. Arguments OVecLen {V}.
Arguments OVecPushFront {V}. Arguments OVecPopFront {V}. Arguments OVecPushBack {V}.
Arguments OVecPopBack {V}. Arguments OVecFront {V}. Arguments OVecBack {V}.
Arguments OVecInsert {V}. Arguments OVecAppend {V}. Arguments OVecSlice {V}.
Arguments OVecFirstIndexOf {V}. Arguments OVecLastIndexOf {V}.
Arguments OBytesPut {V}. Arguments OBytesGet {V}. Arguments OBytesDel {V}. Arguments OBytesLen {V}.
Arguments OBytesPush {V}. Arguments OBytesPop {V}. Arguments OBytesFront {V}.
Arguments OBytesBack {V}. Arguments OBytesInsert {V}. Arguments OBytesAppend {V}.
Arguments OBytesSlice {V}. Arguments OStringLen {V}.
Arguments OStringToBytes {V}. Arguments OBytesToString {V}. Arguments OCreateExecutableTag {V}.

(* Errors: host.rs:1684,1703 missing key; data_helper.rs:757 size mismatch;
   env-common convert of a non-symbol to Symbol (ConversionError). *)
Definition e_missing : err := ESys TObject CMissingValue.
Definition e_size : err := ESys TObject CUnexpectedSize.
Definition e_conversion : err := ESys TValue CUnexpectedType.

(* vm/dispatch.rs:43-60: an argument of an object type must carry its tag; the
   table is consulted only then. *)
Definition typed {A} (t : tag) (visit : heap -> Z -> res A) (h : heap) (v : Z) : res A :=
  if has_tag v t then visit h v else Err e_val_invalid.
Definition arg_map := typed TgMapObject visit_map.
Definition arg_vec := typed TgVecObject visit_vec.
Definition arg_bytes := typed TgBytesObject visit_bytes.
Definition arg_string := typed TgStringObject visit_string.

(* conversion.rs:27-42, usize_to_u32val *)
Definition u32val_of_len (n : nat) : res Z :=
  if fits_u32 n then Ok (val_of_u32 (Z.of_nat n)) else Err e_arith.

(* env-common env.rs:44-56 with host.rs:813-840 *)
Definition check_val_integrity (h : heap) (v : Z) : res unit :=
  if negb (is_good v) then Err e_val_invalid
  else if is_object v then
    let? o := visit_obj_untyped h v in
    if tag_num (hobj_tag o) =? tag_num (get_tag v) then Ok tt else Err e_val_invalid
  else Ok tt.
Fixpoint check_all (h : heap) (l : list Z) : res unit :=
  match l with
  | [] => Ok tt
  | v :: r => let? _ := check_val_integrity h v in check_all h r
  end.

(* symbol.rs:107-122 Symbol::try_from_val(&[u8]) with host.rs:990-1009: packed in
   the word when it fits, else a symbol object; symbol_bytes_ok is the byte test
   and the length limit of ScSymbol. *)
Definition symbol_of_bytes (h : heap) (b : list Z) : heap * res Z :=
  match symbol_small_from_bytes b with
  | Some w => (h, Ok w)
  | None =>
      if symbol_bytes_ok b then add_host_object h (HOSymbol b) else (h, Err e_val_invalid)
  end.

(* the loop of data_helper.rs:766-791 *)
Fixpoint map_entries (d : nat) (h : heap) (sparse : bool) (prev : option Z)
    (keys : list (list Z)) (vals : list Z) : heap * res (list (Z * Z)) :=
  match keys, vals with
  | kb :: keys', v :: vals' =>
      let '(h1, rk) := symbol_of_bytes h kb in
      match rk with
      | Err e => (h1, Err e)
      | Ok k =>
          match (match prev with
                 | Some p =>
                     if sparse then
                       let? c := cmp_val d h1 p k in
                       match c with Lt => Ok tt | _ => Err e_obj_invalid end
                     else Ok tt
                 | None => Ok tt
                 end) with
          | Err e => (h1, Err e)
          | Ok _ =>
              match check_val_integrity h1 v with
              | Err e => (h1, Err e)
              | Ok _ =>
                  let '(h2, r) := map_entries d h1 sparse (Some k) keys' vals' in
                  (h2, rmap (fun l => if sparse && has_tag v TgVoid then l else (k, v) :: l) r)
              end
          end
      end
  | _, _ => (h, Ok [])
  end.

(* data_helper.rs:745-794, map_new_from_slices_impl *)
Definition map_from_slices (d : nat) (h : heap) (sparse : bool)
    (keys : list (list Z)) (vals : list Z) : heap * res (list (Z * Z)) :=
  if Nat.eqb (length keys) (length vals) then
    let '(h1, r) := map_entries d h sparse None keys vals in
    (h1, let? l := r in omap_from (cmp_val d h1) l)
  else (h, Err e_size).

(* Symbol::try_from_val(val) then compare_symbol_to_bytes (mem_helper.rs:432-446):
   the bytes of a symbol value. *)
Definition symbol_text (h : heap) (v : Z) : res (list Z) :=
  if has_tag v TgSymbolSmall then Ok (symbol_str v)
  else if has_tag v TgSymbolObject then visit_symbol h v
  else Err e_conversion.

(* the inner `while let` of data_helper.rs:899-941: the value found for `key` and
   the map entries not yet passed *)
Fixpoint unpack_one (h : heap) (sparse : bool) (m : list (Z * Z)) (key : list Z)
  : res (Z * list (Z * Z)) :=
  match m with
  | [] => Ok (val_void, [])
  | (k, v) :: m' =>
      let? s := symbol_text h k in
      match bytes_cmp s key with
      | Eq => Ok (v, m')
      | Lt => if sparse then unpack_one h sparse m' key else Err e_obj_invalid
      | Gt => if sparse then Ok (val_void, m) else Err e_obj_invalid
      end
  end.

(* data_helper.rs:944-952: the remaining keys must be symbols *)
Fixpoint check_symbol_keys (h : heap) (m : list (Z * Z)) : res unit :=
  match m with
  | [] => Ok tt
  | (k, _) :: m' =>
      if has_tag k TgSymbolSmall || has_tag k TgSymbolObject then check_symbol_keys h m'
      else Err e_conversion
  end.

(* the outer loop of data_helper.rs:883-942 *)
Fixpoint unpack_loop (h : heap) (sparse : bool) (prev : option (list Z))
    (m : list (Z * Z)) (keys : list (list Z)) : res (list Z) :=
  match keys with
  | [] => let? _ := check_symbol_keys h m in Ok []
  | key :: keys' =>
      let? _ := (match prev with
                 | Some p => match bytes_cmp p key with Lt => Ok tt | _ => Err e_obj_invalid end
                 | None => Ok tt
                 end) in
      let? p := unpack_one h sparse m key in
      let? r := unpack_loop h sparse (Some key) (snd p) keys' in
      Ok (fst p :: r)
  end.

(* data_helper.rs:853-957, map_unpack_impl *)
Definition map_unpack (h : heap) (sparse : bool) (m : list (Z * Z)) (keys : list (list Z))
  : res (list Z) :=
  if negb sparse && negb (Nat.eqb (length m) (length keys)) then Err e_size
  else unpack_loop h sparse None m keys.

(* The byte-string computations of host.rs:2732-2980. *)
Definition u8_arg (u : nat) : res Z :=
  if Z.of_nat u <? 256 then Ok (Z.of_nat u) else Err e_arith.
Definition hbytes_put (l : list Z) (i : nat) (x : Z) : res (list Z) :=
  match nth_error l i with None => Err e_oob | Some _ => Ok (list_set l i x) end.
Definition hbytes_get (l : list Z) (i : nat) : res Z :=
  match nth_error l i with None => Err e_oob | Some x => Ok x end.
Definition hbytes_del (l : list Z) (i : nat) : res (list Z) :=
  let? _ := validate_index_lt_bound (Z.of_nat i) (length l) in
  Ok (firstn i l ++ skipn (i + 1) l).
Definition hbytes_push (l : list Z) (x : Z) : res (list Z) :=
  let? _ := validate_usize_sum_fits_in_u32 (length l) 1 in Ok (l ++ [x]).
Definition hbytes_pop (l : list Z) : res (list Z) :=
  match l with [] => Err e_oob | _ => Ok (removelast l) end.
Definition hbytes_front (l : list Z) : res Z :=
  match l with [] => Err e_oob | x :: _ => Ok x end.
Definition hbytes_back (l : list Z) : res Z :=
  match rev l with [] => Err e_oob | x :: _ => Ok x end.
Definition hbytes_insert (l : list Z) (i : nat) (x : Z) : res (list Z) :=
  let? _ := validate_index_le_bound (Z.of_nat i) (length l) in
  let? _ := validate_usize_sum_fits_in_u32 (length l) 1 in
  Ok (firstn i l ++ x :: skipn i l).
Definition hbytes_append (l m : list Z) : res (list Z) :=
  let? _ := validate_usize_sum_fits_in_u32 (length l) (length m) in Ok (l ++ m).
Definition hbytes_slice (l : list Z) (s e : nat) : res (list Z) :=
  let? p := valid_range (Z.of_nat s) (Z.of_nat e) (length l) in
  Ok (firstn (snd p - fst p) (skipn (fst p) l)).

(* What a call produces: a new object to be added, or words. *)
Inductive hres := RObj (o : hobj) | RVals (l : list Z).

Definition robj {A} (f : A -> hobj) (r : res A) : res hres := rmap (fun x => RObj (f x)) r.
Definition rval (r : res Z) : res hres := rmap (fun x => RVals [x]) r.
Definition index_val (o : option nat) : res Z :=
  match o with Some i => u32val_of_len i | None => Ok val_void end.

(* host.rs:1661-2008 (map, vec), 2732-3009 (buf), 1053-1082 (slices). *)
Definition hpure (d : nat) (h : heap) (op : hop Z) : res hres :=
  let cmp := cmp_val d h in
  match op with
  | OMapNew => Ok (RObj (HOMap []))
  | OMapPut m k v => let? l := arg_map h m in robj HOMap (omap_insert cmp l k v)
  | OMapGet m k =>
      let? l := arg_map h m in
      let? r := omap_get cmp l k in
      match r with Some v => Ok (RVals [v]) | None => Err e_missing end
  | OMapDel m k =>
      let? l := arg_map h m in
      let? r := omap_remove cmp l k in
      match r with Some (l', _) => Ok (RObj (HOMap l')) | None => Err e_missing end
  | OMapLen m => let? l := arg_map h m in rval (u32val_of_len (length l))
  | OMapHas m k =>
      let? l := arg_map h m in rval (rmap val_of_bool (omap_contains cmp l k))
  | OMapKeyByPos m i => let? l := arg_map h m in rval (rmap fst (omap_at l (Z.of_nat i)))
  | OMapValByPos m i => let? l := arg_map h m in rval (rmap snd (omap_at l (Z.of_nat i)))
  | OMapKeys m => let? l := arg_map h m in robj HOVec (mvec_from (map fst l))
  | OMapValues m => let? l := arg_map h m in robj HOVec (mvec_from (map snd l))
  | OMapFromSlices _ _ _ => Err e_obj_internal  (* allocates symbols: see hstep *)
  | OMapUnpack sparse m keys =>
      let? l := arg_map h m in rmap RVals (map_unpack h sparse l keys)
  | OVecNew => Ok (RObj (HOVec []))
  | OVecFromSlice vals =>
      let? l := mvec_from vals in
      let? _ := check_all h l in
      Ok (RObj (HOVec l))
  | OVecUnpack v n =>
      let? l := arg_vec h v in
      if Nat.eqb (length l) n then Ok (RVals l) else Err e_size
  | OVecPut v i x => let? l := arg_vec h v in robj HOVec (hvec_put l (Z.of_nat i) x)
  | OVecGet v i => let? l := arg_vec h v in rval (hvec_get l (Z.of_nat i))
  | OVecDel v i => let? l := arg_vec h v in robj HOVec (hvec_del l (Z.of_nat i))
  | OVecLen v => let? l := arg_vec h v in rval (u32val_of_len (length l))
  | OVecPushFront v x => let? l := arg_vec h v in robj HOVec (mvec_push_front l x)
  | OVecPopFront v => let? l := arg_vec h v in robj HOVec (mvec_pop_front l)
  | OVecPushBack v x => let? l := arg_vec h v in robj HOVec (mvec_push_back l x)
  | OVecPopBack v => let? l := arg_vec h v in robj HOVec (mvec_pop_back l)
  | OVecFront v => let? l := arg_vec h v in rval (mvec_front l)
  | OVecBack v => let? l := arg_vec h v in rval (mvec_back l)
  | OVecInsert v i x => let? l := arg_vec h v in robj HOVec (hvec_insert l (Z.of_nat i) x)
  | OVecAppend v w =>
      let? l := arg_vec h v in let? m := arg_vec h w in robj HOVec (hvec_append l m)
  | OVecSlice v s e =>
      let? l := arg_vec h v in robj HOVec (hvec_slice l (Z.of_nat s) (Z.of_nat e))
  | OVecFirstIndexOf v x =>
      let? l := arg_vec h v in
      let? r := mvec_first_index_of (fun y => cmp x y) l in rval (index_val r)
  | OVecLastIndexOf v x =>
      let? l := arg_vec h v in
      let? r := mvec_last_index_of (fun y => cmp x y) l in rval (index_val r)
  | OBytesNew => Ok (RObj (HOBytes []))
  | OBytesPut b i u =>
      let? x := u8_arg u in let? l := arg_bytes h b in robj HOBytes (hbytes_put l i x)
  | OBytesGet b i => let? l := arg_bytes h b in rval (rmap val_of_u32 (hbytes_get l i))
  | OBytesDel b i => let? l := arg_bytes h b in robj HOBytes (hbytes_del l i)
  | OBytesLen b => let? l := arg_bytes h b in rval (u32val_of_len (length l))
  | OBytesPush b u =>
      let? x := u8_arg u in let? l := arg_bytes h b in robj HOBytes (hbytes_push l x)
  | OBytesPop b => let? l := arg_bytes h b in robj HOBytes (hbytes_pop l)
  | OBytesFront b => let? l := arg_bytes h b in rval (rmap val_of_u32 (hbytes_front l))
  | OBytesBack b => let? l := arg_bytes h b in rval (rmap val_of_u32 (hbytes_back l))
  | OBytesInsert b i u =>
      let? x := u8_arg u in let? l := arg_bytes h b in robj HOBytes (hbytes_insert l i x)
  | OBytesAppend b c =>
      let? l := arg_bytes h b in let? m := arg_bytes h c in robj HOBytes (hbytes_append l m)
  | OBytesSlice b s e => let? l := arg_bytes h b in robj HOBytes (hbytes_slice l s e)
  | OStringLen s => let? l := arg_string h s in rval (u32val_of_len (length l))
  | OStringToBytes s => robj HOBytes (arg_string h s)
  | OBytesToString b => robj HOString (arg_bytes h b)
  | OCreateExecutableTag s => robj HOExeTag (arg_string h s)
  end.

Definition add_result (h : heap) (o : hobj) : heap * res (list Z) :=
  let '(h', r) := add_host_object h o in (h', rmap (fun w => [w]) r).

Definition hstep (d : nat) (h : heap) (op : hop Z) : heap * res (list Z) :=
  match op with
  | OMapFromSlices sparse keys vals =>
      let '(h1, r) := map_from_slices d h sparse keys vals in
      match r with
      | Err e => (h1, Err e)
      | Ok l => add_result h1 (HOMap l)
      end
  | _ =>
      match hpure d h op with
      | Err e => (h, Err e)
      | Ok (RObj o) => add_result h o
      | Ok (RVals l) => (h, Ok l)
      end
  end.

(* vec_binary_search (host.rs:1998-2008) answers a raw u64. *)
Definition vec_binary_search (d : nat) (h : heap) (v x : Z) : res Z :=
  let? l := arg_vec h v in
  let? r := bsearch (fun y => cmp_val d h y x) l in
  bsearch_result_u64 r.

(* A run of calls.  Arguments name earlier results by position (void when there
   is none), so a history makes sense whatever words the calls returned. *)
Definition hop_map {A B} (f : A -> B) (op : hop A) : hop B :=
  match op with
  | OMapNew => OMapNew
  | OMapPut m k v => OMapPut (f m) (f k) (f v)
  | OMapGet m k => OMapGet (f m) (f k)
  | OMapDel m k => OMapDel (f m) (f k)
  | OMapLen m => OMapLen (f m)
  | OMapHas m k => OMapHas (f m) (f k)
  | OMapKeyByPos m i => OMapKeyByPos (f m) i
  | OMapValByPos m i => OMapValByPos (f m) i
  | OMapKeys m => OMapKeys (f m)
  | OMapValues m => OMapValues (f m)
  | OMapFromSlices s ks vs => OMapFromSlices s ks (map f vs)
  | OMapUnpack s m ks => OMapUnpack s (f m) ks
  | OVecNew => OVecNew
  | OVecFromSlice vs => OVecFromSlice (map f vs)
  | OVecUnpack v n => OVecUnpack (f v) n
  | OVecPut v i x => OVecPut (f v) i (f x)
  | OVecGet v i => OVecGet (f v) i
  | OVecDel v i => OVecDel (f v) i
  | OVecLen v => OVecLen (f v)
  | OVecPushFront v x => OVecPushFront (f v) (f x)
  | OVecPopFront v => OVecPopFront (f v)
  | OVecPushBack v x => OVecPushBack (f v) (f x)
  | OVecPopBack v => OVecPopBack (f v)
  | OVecFront v => OVecFront (f v)
  | OVecBack v => OVecBack (f v)
  | OVecInsert v i x => OVecInsert (f v) i (f x)
  | OVecAppend v w => OVecAppend (f v) (f w)
  | OVecSlice v s e => OVecSlice (f v) s e
  | OVecFirstIndexOf v x => OVecFirstIndexOf (f v) (f x)
  | OVecLastIndexOf v x => OVecLastIndexOf (f v) (f x)
  | OBytesNew => OBytesNew
  | OBytesPut b i u => OBytesPut (f b) i u
  | OBytesGet b i => OBytesGet (f b) i
  | OBytesDel b i => OBytesDel (f b) i
  | OBytesLen b => OBytesLen (f b)
  | OBytesPush b u => OBytesPush (f b) u
  | OBytesPop b => OBytesPop (f b)
  | OBytesFront b => OBytesFront (f b)
  | OBytesBack b => OBytesBack (f b)
  | OBytesInsert b i u => OBytesInsert (f b) i u
  | OBytesAppend b c => OBytesAppend (f b) (f c)
  | OBytesSlice b s e => OBytesSlice (f b) s e
  | OStringLen s => OStringLen (f s)
  | OStringToBytes s => OStringToBytes (f s)
  | OBytesToString b => OBytesToString (f b)
  | OCreateExecutableTag s => OCreateExecutableTag (f s)
  end.

Fixpoint hrun (d : nat) (h : heap) (ws : list Z) (ops : list (hop nat))
  : heap * list Z * list (res (list Z)) :=
  match ops with
  | [] => (h, ws, [])
  | op :: rest =>
      let '(h1, r) := hstep d h (hop_map (fun i => nth i ws val_void) op) in
      let ws1 := match r with Ok l => ws ++ l | Err _ => ws end in
      let '(h2, ws2, rs) := hrun d h1 ws1 rest in
      (h2, ws2, r :: rs)
  end.
