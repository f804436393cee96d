(* What a Wasm guest can reach: relative object handles and linear memory.
   host_object.rs (handle translation), vm/dispatch.rs (host function calls),
   host/mem_helper.rs and the linear-memory host functions of host.rs and
   host/data_helper.rs, frames of guests calling each other (vm.rs, host/frame.rs).

   Simplifications.  Budget charges are omitted.  U32Val arguments are given as their
   numbers.  A guest with no exported memory is one whose memory is empty; the error
   differs.  Where several things are wrong with the arguments of the map functions,
   which error is reported may differ, as the keys are all read before they are looked
   at.  A failed host function traps the guest: here its frame may go on, which covers
   more runs.  The log of transfers is not in the code: it records every word crossing
   the boundary with the host's word for the same value. *)
From Coq Require Import ZArith Lia List Bool.
From Verif Require Import Prelude ValModel ContainerModel HeapModel HostFnModel.
Import ListNotations.
Open Scope Z_scope.

(* the error of a host-internal failure *)
Definition e_host_internal : err := ESys TContext CInternalError.

(* ---------------------------------------------------------------- handles *)

(* host_object.rs:374-422; the table is frame.rs:150, relative_objects *)
Definition relative_to_absolute (table : list Z) (v : Z) : res Z :=
  if is_object v then
    let hd := get_major v in
    if is_relative_handle hd then
      match nth_error table (handle_to_index hd) with
      | Some a => if tag_num (get_tag a) =? tag_num (get_tag v) then Ok a else Err e_val_invalid
      | None => Err e_val_invalid
      end
    else Err e_val_invalid
  else Ok v.

(* host_object.rs:424-453 *)
Definition absolute_to_relative (table : list Z) (v : Z) : list Z * res Z :=
  if is_object v then
    if is_relative_handle (get_major v) then (table, Err e_host_internal)
    else
      let table' := table ++ [v] in
      match index_to_handle (length table) true with
      | Ok hd => (table', Ok (object_word hd (get_tag v)))
      | Err e => (table', Err e)
      end
  else (table, Ok v).

(* A word crossing the boundary: the guest's and the host's word. *)
Inductive xfer := Gave (w a : Z) | Took (w a : Z).

(* What the host functions called from one frame act on: the object table, the frame's
   relative objects and the memory of its VM. *)
Record guest := { g_heap : heap; g_table : list Z; g_mem : list Z; g_log : list xfer }.
Definition set_heap (g : guest) (h : heap) : guest :=
  {| g_heap := h; g_table := g_table g; g_mem := g_mem g; g_log := g_log g |}.
Definition set_mem (g : guest) (m : list Z) : guest :=
  {| g_heap := g_heap g; g_table := g_table g; g_mem := m; g_log := g_log g |}.
Definition note (g : guest) (x : xfer) : guest :=
  {| g_heap := g_heap g; g_table := g_table g; g_mem := g_mem g; g_log := g_log g ++ [x] |}.

Definition take (g : guest) (w : Z) : guest * res Z :=
  match relative_to_absolute (g_table g) w with
  | Ok a => (note g (Took w a), Ok a)
  | Err e => (g, Err e)
  end.
Definition give (g : guest) (a : Z) : guest * res Z :=
  let '(t, r) := absolute_to_relative (g_table g) a in
  let g1 := {| g_heap := g_heap g; g_table := t; g_mem := g_mem g; g_log := g_log g |} in
  match r with
  | Ok w => (note g1 (Gave w a), Ok w)
  | Err e => (g1, Err e)
  end.

(* ---------------------------------------------------------------- dispatch *)

(* The type of an argument in env.json that may carry an object. *)
Inductive argty := TyVal | TySymbol | TyObj (t : tag).
Definition has_type (ty : argty) (v : Z) : bool :=
  match ty with
  | TyVal => true
  | TySymbol => has_tag v TgSymbolSmall || has_tag v TgSymbolObject
  | TyObj t => has_tag v t
  end.

(* dispatch.rs:20-52 with val.rs:429-446 and wrapper_macros.rs:93-102, then
   env.rs:273-282 check_env_arg *)
Definition dispatch_arg (g : guest) (ty : argty) (i : Z) : guest * res Z :=
  match marshal_from_wasm i with
  | None => (g, Err e_val_invalid)
  | Some v =>
      if has_type ty v then
        let '(g1, r) := take g v in
        match r with
        | Err e => (g1, Err e)
        | Ok a =>
            if has_type ty a then (g1, let? _ := check_val_integrity (g_heap g1) a in Ok a)
            else (g1, Err e_conversion)
        end
      else (g, Err e_val_invalid)
  end.
Fixpoint dispatch_args (g : guest) (l : list (argty * Z)) : guest * res (list Z) :=
  match l with
  | [] => (g, Ok [])
  | (ty, i) :: r =>
      let '(g1, a) := dispatch_arg g ty i in
      match a with
      | Err e => (g1, Err e)
      | Ok a => let '(g2, rs) := dispatch_args g1 r in (g2, rmap (cons a) rs)
      end
  end.
(* dispatch.rs:285-315: the result of a call *)
Definition dispatch_result (g : guest) (a : Z) : guest * res Z :=
  match check_val_integrity (g_heap g) a with
  | Err e => (g, Err e)
  | Ok _ => give g a
  end.

(* The types of the arguments (env.json); the slice forms are not exported to Wasm. *)
Definition arg_types {V} (op : hop V) : option (list argty) :=
  let m := TyObj TgMapObject in let v := TyObj TgVecObject in
  let b := TyObj TgBytesObject in let s := TyObj TgStringObject in
  match op with
  | OMapNew | OVecNew | OBytesNew => Some []
  | OMapPut _ _ _ => Some [m; TyVal; TyVal]
  | OMapGet _ _ | OMapDel _ _ | OMapHas _ _ => Some [m; TyVal]
  | OMapLen _ | OMapKeyByPos _ _ | OMapValByPos _ _ | OMapKeys _ | OMapValues _ => Some [m]
  | OMapUnpack _ _ _ | OMapFromSlices _ _ _ | OVecFromSlice _ | OVecUnpack _ _ => None
  | OVecGet _ _ | OVecDel _ _ | OVecLen _ | OVecPopFront _ | OVecPopBack _
  | OVecFront _ | OVecBack _ | OVecSlice _ _ _ => Some [v]
  | OVecPut _ _ _ | OVecPushFront _ _ | OVecPushBack _ _ | OVecInsert _ _ _
  | OVecFirstIndexOf _ _ | OVecLastIndexOf _ _ => Some [v; TyVal]
  | OVecAppend _ _ => Some [v; v]
  | OBytesPut _ _ _ | OBytesGet _ _ | OBytesDel _ _ | OBytesLen _ | OBytesPush _ _
  | OBytesPop _ | OBytesFront _ | OBytesBack _ | OBytesInsert _ _ _ | OBytesSlice _ _ _
  | OBytesToString _ => Some [b]
  | OBytesAppend _ _ => Some [b; b]
  | OStringLen _ | OStringToBytes _ | OCreateExecutableTag _ => Some [s]
  end.
Definition call_args {V} (op : hop V) : list V :=
  match op with
  | OMapNew | OVecNew | OBytesNew => []
  | OMapPut m k v => [m; k; v]
  | OMapGet m k | OMapDel m k | OMapHas m k => [m; k]
  | OMapLen m | OMapKeyByPos m _ | OMapValByPos m _ | OMapKeys m | OMapValues m
  | OMapUnpack _ m _ => [m]
  | OMapFromSlices _ _ vs | OVecFromSlice vs => vs
  | OVecUnpack v _ | OVecGet v _ | OVecDel v _ | OVecLen v | OVecPopFront v | OVecPopBack v
  | OVecFront v | OVecBack v | OVecSlice v _ _ => [v]
  | OVecPut v _ x | OVecPushFront v x | OVecPushBack v x | OVecInsert v _ x
  | OVecAppend v x | OVecFirstIndexOf v x | OVecLastIndexOf v x => [v; x]
  | OBytesPut b _ _ | OBytesGet b _ | OBytesDel b _ | OBytesLen b | OBytesPush b _
  | OBytesPop b | OBytesFront b | OBytesBack b | OBytesInsert b _ _ | OBytesSlice b _ _
  | OStringLen b | OStringToBytes b | OBytesToString b
  | OCreateExecutableTag b => [b]
  | OBytesAppend b c => [b; c]
  end.
(* the host's word for an argument, after dispatch_args succeeded *)
Definition resolved (g : guest) (i : Z) : Z :=
  match relative_to_absolute (g_table g) (as_u64 i) with Ok a => a | Err _ => 0 end.

(* dispatch.rs:206-330 for the container functions; raw i64 arguments and result *)
Definition host_call (d : nat) (g : guest) (op : hop Z) : guest * res Z :=
  match arg_types op with
  | None => (g, Err e_val_invalid)
  | Some tys =>
      let '(g1, ra) := dispatch_args g (combine tys (call_args op)) in
      match ra with
      | Err e => (g1, Err e)
      | Ok _ =>
          let '(h, r) := hstep d (g_heap g1) (hop_map (resolved g1) op) in
          let g2 := set_heap g1 h in
          match r with
          | Ok [a] => dispatch_result g2 a
          | Ok _ => (g2, Err e_host_internal)
          | Err e => (g2, Err e)
          end
      end
  end.

(* ---------------------------------------------------------------- memory *)

(* error.rs:353-360; env-common error.rs:224-229 for accesses wasmi refuses *)
Definition e_lm : err := ESys TWasmVm CIndexBounds.

(* slice.get(pos..pos+len) and its replacement *)
Definition slice_of (m : list Z) (pos len : Z) : option (list Z) :=
  if pos + len <=? Z.of_nat (length m) then Some (firstn (Z.to_nat len) (skipn (Z.to_nat pos) m)) else None.
Definition patch (m : list Z) (pos : Z) (b : list Z) : list Z :=
  firstn (Z.to_nat pos) m ++ b ++ skipn (Z.to_nat pos + length b) m.

(* mem_helper.rs:76-90, 92-106 *)
Definition vm_write_bytes (m : list Z) (pos : Z) (b : list Z) : res (list Z) :=
  if pos + Z.of_nat (length b) <=? Z.of_nat (length m) then Ok (patch m pos b) else Err e_lm.
Definition vm_read_bytes (m : list Z) (pos len : Z) : res (list Z) :=
  match slice_of m pos len with Some b => Ok b | None => Err e_lm end.

(* u64::to_le_bytes, u64::from_le_bytes and the u32 forms *)
Fixpoint le_bytes (n : nat) (v : Z) : list Z :=
  match n with O => [] | S n => v mod 256 :: le_bytes n (v / 256) end.
Fixpoint le_value (b : list Z) : Z :=
  match b with [] => 0 | x :: r => x + 256 * le_value r end.

(* mem_helper.rs:108-147 with the closure of host.rs:2062-2066: a failure in the loop
   leaves what was written before it *)
Fixpoint write_loop (g : guest) (pos : Z) (vals : list Z) : guest * res unit :=
  match vals with
  | [] => (g, Ok tt)
  | v :: r =>
      let '(g1, w) := give g v in
      match w with
      | Err e => (g1, Err e)
      | Ok w => write_loop (set_mem g1 (patch (g_mem g1) pos (le_bytes 8 w))) (pos + 8) r
      end
  end.
Definition vals_range (m : list Z) (pos n : Z) : res unit :=
  if u32_max <? n then Err e_arith
  else if u32_max <? 8 * n then Err e_arith
  else if u32_max <? pos + 8 * n then Err e_arith
  else if Z.of_nat (length m) <? pos + 8 * n then Err e_lm
  else Ok tt.
Definition write_vals (g : guest) (pos : Z) (vals : list Z) : guest * res unit :=
  match vals_range (g_mem g) pos (Z.of_nat (length vals)) with
  | Err e => (g, Err e)
  | Ok _ => write_loop g pos vals
  end.

(* mem_helper.rs:149-194 with the closure of host.rs:2030: any 8 bytes are tried *)
Fixpoint read_loop (g : guest) (pos : Z) (n : nat) : guest * res (list Z) :=
  match n with
  | O => (g, Ok [])
  | S n =>
      let '(g1, a) := take g (le_value (firstn 8 (skipn (Z.to_nat pos) (g_mem g)))) in
      match a with
      | Err e => (g1, Err e)
      | Ok a => let '(g2, r) := read_loop g1 (pos + 8) n in (g2, rmap (cons a) r)
      end
  end.
Definition read_vals (g : guest) (pos n : Z) : guest * res (list Z) :=
  match vals_range (g_mem g) pos n with
  | Err e => (g, Err e)
  | Ok _ => read_loop g pos (Z.to_nat n)
  end.

(* mem_helper.rs:200-239 and the body of the loop of 272-281: the [i]th slice named by the
   pointers at [pos] *)
Definition slice_at (m : list Z) (pos : Z) (i : nat) : res (list Z) :=
  match slice_of m (pos + 8 * Z.of_nat i) 8 with
  | None => Err e_lm
  | Some s =>
      let ptr := le_value (firstn 4 s) in
      let len := le_value (skipn 4 s) in
      if u32_max <? ptr + len then Err e_arith
      else match slice_of m ptr len with Some b => Ok b | None => Err e_lm end
  end.
(* mem_helper.rs:259-283 from the [i]th slice on *)
Fixpoint scan_slices (m : list Z) (pos : Z) (i n : nat) : res (list (list Z)) :=
  match n with
  | O => Ok []
  | S n => let? b := slice_at m pos i in let? r := scan_slices m pos (S i) n in Ok (b :: r)
  end.

(* ---------------------------------------------------------------- memory functions *)

Inductive memkind := KBytes | KString | KSymbol.
Definition kind_tag (k : memkind) : tag :=
  match k with KBytes => TgBytesObject | KString => TgStringObject | KSymbol => TgSymbolObject end.
Definition visit_kind (k : memkind) : heap -> Z -> res (list Z) :=
  match k with KBytes => visit_bytes | KString => visit_string | KSymbol => visit_symbol end.
(* host_object.rs:188-200, 293-314, try_from_bytes: lengths are u32 already *)
Definition kind_object (k : memkind) (b : list Z) : res hobj :=
  match k with
  | KBytes => Ok (HOBytes b)
  | KString => Ok (HOString b)
  | KSymbol => if symbol_bytes_ok b then Ok (HOSymbol b) else Err e_val_invalid
  end.

Inductive mop :=
| MCopyTo (k : memkind) (obj : Z) (obj_pos lm_pos len : Z)  (* {bytes,string,symbol}_copy_to_linear_memory *)
| MCopyFrom (obj : Z) (obj_pos lm_pos len : Z)              (* bytes_copy_from_linear_memory *)
| MNew (k : memkind) (lm_pos len : Z)                       (* {bytes,string,symbol}_new_from_linear_memory *)
| MSymbolIndex (sym : Z) (lm_pos len : Z)                   (* symbol_index_in_linear_memory *)
| MVecNew (pos len : Z)                                     (* vec_new_from_linear_memory *)
| MVecUnpack (vec : Z) (pos len : Z)                        (* vec_unpack_to_linear_memory *)
| MMapNew (sparse : bool) (keys vals len : Z)               (* {,sparse_}map_new_from_linear_memory *)
| MMapUnpack (sparse : bool) (m : Z) (keys vals len : Z).   (* {,sparse_}map_unpack_to_linear_memory *)

(* a new object as the result of a call *)
Definition new_object (g : guest) (o : hobj) : guest * res Z :=
  let '(h, r) := add_host_object (g_heap g) o in
  let g1 := set_heap g h in
  match r with Err e => (g1, Err e) | Ok a => dispatch_result g1 a end.
Definition fail {A} (g : guest) (e : err) : guest * res A := (g, Err e).

(* mem_helper.rs:307-330, 345-357 *)
Definition copy_to (k : memkind) (g : guest) (a obj_pos lm_pos len : Z) : guest * res Z :=
  match visit_kind k (g_heap g) a with
  | Err e => fail g e
  | Ok b =>
      if u32_max <? obj_pos + len then fail g e_arith
      else match slice_of b obj_pos len with
           | None => fail g (ESys TObject CIndexBounds)
           | Some s =>
               match vm_write_bytes (g_mem g) lm_pos s with
               | Err e => fail g e
               | Ok m => (set_mem g m, Ok val_void)
               end
           end
  end.
(* mem_helper.rs:359-391, 404-416 *)
Definition copy_from (g : guest) (a obj_pos lm_pos len : Z) : guest * res Z :=
  match visit_bytes (g_heap g) a with
  | Err e => fail g e
  | Ok b =>
      if u32_max <? obj_pos + len then fail g e_arith
      else
        let b1 := b ++ repeat 0 (Z.to_nat (obj_pos + len) - length b) in
        match vm_read_bytes (g_mem g) lm_pos len with
        | Err e => fail g e
        | Ok s => new_object g (HOBytes (patch b1 obj_pos s))
        end
  end.
(* mem_helper.rs:418-430 *)
Definition new_from (k : memkind) (g : guest) (lm_pos len : Z) : guest * res Z :=
  match (let? s := vm_read_bytes (g_mem g) lm_pos len in kind_object k s) with
  | Err e => fail g e
  | Ok o => new_object g o
  end.

(* host.rs:2697-2727 *)
Fixpoint index_of (text : list Z) (l : list (list Z)) (i : nat) : option nat :=
  match l with
  | [] => None
  | b :: r => match bytes_cmp text b with Eq => Some i | _ => index_of text r (S i) end
  end.
Definition symbol_index (g : guest) (a lm_pos len : Z) : guest * res Z :=
  (g, let? l := scan_slices (g_mem g) lm_pos 0 (Z.to_nat len) in
      let? s := symbol_text (g_heap g) a in
      match index_of s l 0 with
      | Some i => Ok (val_of_u32 (Z.of_nat i))
      | None => Err (ESys TValue CMissingValue)
      end).

(* host.rs:2010-2036 *)
Definition vec_new (g : guest) (pos len : Z) : guest * res Z :=
  let '(g1, r) := read_vals g pos len in
  match (let? l := r in let? _ := check_all (g_heap g1) l in mvec_from l) with
  | Err e => fail g1 e
  | Ok l => new_object g1 (HOVec l)
  end.
(* host.rs:2038-2070 *)
Definition vec_unpack (g : guest) (a pos len : Z) : guest * res Z :=
  match visit_vec (g_heap g) a with
  | Err e => fail g e
  | Ok l =>
      if Z.of_nat (length l) =? len then
        let '(g1, r) := write_vals g pos l in (g1, rmap (fun _ => val_void) r)
      else fail g e_size
  end.
(* data_helper.rs:798-845 *)
Definition map_new (d : nat) (sparse : bool) (g : guest) (keys vals len : Z) : guest * res Z :=
  match scan_slices (g_mem g) keys 0 (Z.to_nat len) with
  | Err e => fail g e
  | Ok ks =>
      let '(g1, r) := read_vals g vals len in
      match r with
      | Err e => fail g1 e
      | Ok vs =>
          let '(h, rm) := map_from_slices d (g_heap g1) sparse ks vs in
          let g2 := set_heap g1 h in
          match rm with Err e => fail g2 e | Ok m => new_object g2 (HOMap m) end
      end
  end.
(* data_helper.rs:983-1033 *)
Definition map_unpack_lm (sparse : bool) (g : guest) (a keys vals len : Z) : guest * res Z :=
  match (let? m := visit_map (g_heap g) a in
         if negb sparse && negb (Z.of_nat (length m) =? len) then Err e_size
         else let? ks := scan_slices (g_mem g) keys 0 (Z.to_nat len) in map_unpack (g_heap g) sparse m ks) with
  | Err e => fail g e
  | Ok vs => let '(g1, r) := write_vals g vals vs in (g1, rmap (fun _ => val_void) r)
  end.

(* dispatch.rs for the linear-memory functions *)
Definition with_arg (g : guest) (ty : argty) (i : Z) (k : guest -> Z -> guest * res Z) : guest * res Z :=
  let '(g1, r) := dispatch_arg g ty i in
  match r with Err e => (g1, Err e) | Ok a => k g1 a end.
Definition mem_call (d : nat) (g : guest) (op : mop) : guest * res Z :=
  match op with
  | MCopyTo k obj op lp len => with_arg g (TyObj (kind_tag k)) obj (fun g a => copy_to k g a op lp len)
  | MCopyFrom obj op lp len => with_arg g (TyObj TgBytesObject) obj (fun g a => copy_from g a op lp len)
  | MNew k lp len => new_from k g lp len
  | MSymbolIndex s lp len => with_arg g TySymbol s (fun g a => symbol_index g a lp len)
  | MVecNew pos len => vec_new g pos len
  | MVecUnpack v pos len => with_arg g (TyObj TgVecObject) v (fun g a => vec_unpack g a pos len)
  | MMapNew sp keys vals len => map_new d sp g keys vals len
  | MMapUnpack sp m keys vals len => with_arg g (TyObj TgMapObject) m (fun g a => map_unpack_lm sp g a keys vals len)
  end.

(* ---------------------------------------------------------------- frames *)

Record gframe := { fr_id : nat; fr_table : list Z; fr_mem : list Z }.
(* the innermost frame first; the log names frames by their numbers *)
Record world := { w_heap : heap; w_frames : list gframe; w_next : nat; w_log : list (nat * xfer) }.

Definition enter_guest (w : world) (f : gframe) : guest :=
  {| g_heap := w_heap w; g_table := fr_table f; g_mem := fr_mem f; g_log := [] |}.
Definition leave_guest (w : world) (f : gframe) (rest : list gframe) (g : guest) : world :=
  {| w_heap := g_heap g;
     w_frames := {| fr_id := fr_id f; fr_table := g_table g; fr_mem := g_mem g |} :: rest;
     w_next := w_next w; w_log := w_log w ++ map (pair (fr_id f)) (g_log g) |}.

Inductive wstep :=
| WHost (op : hop Z)              (* a container function *)
| WMem (op : mop)                 (* a linear-memory function *)
| WObject (o : hobj)              (* any other host function making a new object *)
| WStore (m : list Z)             (* the guest's own stores *)
| WCall (args : Z) (m : list Z)   (* call or try_call with this argument vector, into a VM with this memory *)
| WReturn (i : Z)                 (* the guest returns *)
| WFail.                          (* the guest traps *)

(* vm.rs:394-412: the arguments of the new frame *)
Fixpoint give_all (g : guest) (l : list Z) : guest * res (list Z) :=
  match l with
  | [] => (g, Ok [])
  | a :: r =>
      let '(g1, w) := give g a in
      match w with
      | Err e => (g1, Err e)
      | Ok w => let '(g2, ws) := give_all g1 r in (g2, rmap (cons w) ws)
      end
  end.

Definition step (d : nat) (w : world) (s : wstep) : world :=
  match w_frames w with
  | [] => w
  | f :: rest =>
      let g := enter_guest w f in
      match s with
      | WHost op => leave_guest w f rest (fst (host_call d g op))
      | WMem op => leave_guest w f rest (fst (mem_call d g op))
      | WObject o => leave_guest w f rest (fst (new_object g o))
      | WStore m => leave_guest w f rest (set_mem g m)
      | WCall args m =>
          let '(g1, r) := dispatch_arg g (TyObj TgVecObject) args in
          let w1 := leave_guest w f rest g1 in
          match (let? a := r in visit_vec (g_heap g1) a) with
          | Err _ => w1
          | Ok l =>
              let f2 := {| fr_id := w_next w1; fr_table := []; fr_mem := m |} in
              let w2 := {| w_heap := w_heap w1; w_frames := w_frames w1; w_next := S (w_next w1); w_log := w_log w1 |} in
              leave_guest w2 f2 (w_frames w2) (fst (give_all (enter_guest w2 f2) l))
          end
      | WReturn i =>
          (* vm.rs:387-391; the frame is popped and the caller's call returns *)
          match marshal_from_wasm i with
          | None => {| w_heap := w_heap w; w_frames := rest; w_next := w_next w; w_log := w_log w |}
          | Some v =>
              let '(g1, r) := take g v in
              let w1 := leave_guest w f rest g1 in
              let w2 := {| w_heap := w_heap w1; w_frames := rest; w_next := w_next w1; w_log := w_log w1 |} in
              match r, rest with
              | Ok a, c :: rest' => leave_guest w2 c rest' (fst (dispatch_result (enter_guest w2 c) a))
              | _, _ => w2
              end
          end
      | WFail => {| w_heap := w_heap w; w_frames := rest; w_next := w_next w; w_log := w_log w |}
      end
  end.

Definition run (d : nat) (w : world) (l : list wstep) : world := fold_left (step d) l w.
(* A transaction starts a guest on arguments the host made. *)
Definition start (h : heap) (args : list Z) (m : list Z) : world :=
  let w := {| w_heap := h; w_frames := []; w_next := 1; w_log := [] |} in
  let f := {| fr_id := 0; fr_table := []; fr_mem := m |} in
  leave_guest w f [] (fst (give_all (enter_guest w f) args)).
