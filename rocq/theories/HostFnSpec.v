(* What the container calls mean, on value trees: maps are sorted association
   lists, vectors and byte strings are sequences.  No handles, no object table. *)
From Coq Require Import ZArith Lia List Bool Sorted.
From Verif Require Import Prelude ValModel ValSpec ContainerModel ContainerSpec HeapModel HeapSpec
  HostFnModel.
Import ListNotations.
Open Scope Z_scope.

(* ------------------------------------------------------------ sequences *)

Definition len_ok {A} (l : list A) : bool := Z.of_nat (length l) <=? u32_max.
Definition some_if {A} (b : bool) (x : A) : option A := if b then Some x else None.

Section Seq.
  Context {A : Type}.
  Implicit Type l : list A.
  Definition seq_put l i x :=
    some_if (Nat.ltb i (length l)) (firstn i l ++ x :: skipn (i + 1) l).
  Definition seq_get l i := nth_error l i.
  Definition seq_del l i := some_if (Nat.ltb i (length l)) (firstn i l ++ skipn (i + 1) l).
  Definition seq_insert l i x :=
    let l' := firstn i l ++ x :: skipn i l in
    some_if (Nat.leb i (length l) && len_ok l') l'.
  Definition seq_append l m := some_if (len_ok (l ++ m)) (l ++ m).
  Definition seq_slice l s e :=
    some_if (Nat.leb s e && Nat.leb e (length l)) (firstn (e - s) (skipn s l)).
  Definition seq_tail l := match l with [] => None | _ :: r => Some r end.
  Definition seq_init l := match l with [] => None | _ => Some (removelast l) end.
  Definition seq_head l := match l with [] => None | x :: _ => Some x end.
  Definition seq_last l := match rev l with [] => None | x :: _ => Some x end.
End Seq.

(* ------------------------------------------------------------ maps *)

Definition tlt (a b : tval) : bool := match tcmp a b with Lt => true | _ => false end.
Definition tmap := list (tval * tval).

Definition map_put (m : tmap) (k v : tval) : tmap :=
  filter (fun p => tlt (fst p) k) m ++ (k, v) :: filter (fun p => tlt k (fst p)) m.
Definition map_del (m : tmap) (k : tval) : tmap :=
  filter (fun p => tlt (fst p) k || tlt k (fst p)) m.
Definition map_get (m : tmap) (k : tval) : option tval := assoc tcmp (fun t => t) m k.

(* first and last position holding a value equal to x *)
Fixpoint first_pos (x : tval) (l : list tval) (i : nat) : option nat :=
  match l with
  | [] => None
  | y :: r => match tcmp x y with Eq => Some i | _ => first_pos x r (S i) end
  end.
Fixpoint last_pos (x : tval) (l : list tval) (i : nat) : option nat :=
  match l with
  | [] => None
  | y :: r => match last_pos x r (S i) with
              | Some j => Some j
              | None => match tcmp x y with Eq => Some i | _ => None end
              end
  end.
Definition pos_val (o : option nat) : tval :=
  match o with Some i => TU32 (Z.of_nat i) | None => TVoid end.

(* symbol keys spelled out *)
Definition sym_charb (c : Z) : bool :=
  (c =? 95) || ((48 <=? c) && (c <=? 57)) || ((65 <=? c) && (c <=? 90)) || ((97 <=? c) && (c <=? 122)).
Definition symbolb (b : list Z) : bool := Nat.leb (length b) 32 && forallb sym_charb b.
Fixpoint ascending (l : list (list Z)) : bool :=
  match l with
  | a :: (b :: _) as r => match lex a b with Lt => ascending r | _ => false end
  | _ => true
  end.
Definition is_sym (t : tval) : bool := match t with TSymbol _ => true | _ => false end.
Definition is_void (t : tval) : bool := match t with TVoid => true | _ => false end.
Fixpoint same_keys (m : tmap) (keys : list (list Z)) : bool :=
  match m, keys with
  | [], [] => true
  | (TSymbol s, _) :: m', k :: keys' =>
      match lex s k with Eq => same_keys m' keys' | _ => false end
  | _, _ => false
  end.

(* ------------------------------------------------------------ the calls *)

(* The results a call gives on trees, or None when it must fail. *)
Definition one (o : option tval) : option (list tval) := option_map (fun t => [t]) o.
Definition on_map (t : tval) (f : tmap -> option (list tval)) : option (list tval) :=
  match t with TMap m => f m | _ => None end.
Definition on_vec (t : tval) (f : list tval -> option (list tval)) : option (list tval) :=
  match t with TVec l => f l | _ => None end.
Definition on_bytes (t : tval) (f : list Z -> option (list tval)) : option (list tval) :=
  match t with TBytes l => f l | _ => None end.
Definition byteb (u : nat) : bool := Z.of_nat u <? 256.
Definition len_val {A} (l : list A) : tval := TU32 (Z.of_nat (length l)).

Definition astep (op : hop tval) : option (list tval) :=
  match op with
  | OMapNew => Some [TMap []]
  | OMapPut m k v =>
      on_map m (fun m => let m' := map_put m k v in some_if (len_ok m') [TMap m'])
  | OMapGet m k => on_map m (fun m => one (map_get m k))
  | OMapDel m k =>
      on_map m (fun m => match map_get m k with
                         | Some _ => Some [TMap (map_del m k)]
                         | None => None
                         end)
  | OMapLen m => on_map m (fun m => Some [len_val m])
  | OMapHas m k =>
      on_map m (fun m => Some [TBool (match map_get m k with Some _ => true | None => false end)])
  | OMapKeyByPos m i => on_map m (fun m => one (option_map fst (nth_error m i)))
  | OMapValByPos m i => on_map m (fun m => one (option_map snd (nth_error m i)))
  | OMapKeys m => on_map m (fun m => Some [TVec (map fst m)])
  | OMapValues m => on_map m (fun m => Some [TVec (map snd m)])
  | OMapFromSlices sparse keys vals =>
      let all := combine (map TSymbol keys) vals in
      let kept := filter (fun p => negb (sparse && is_void (snd p))) all in
      some_if (Nat.eqb (length keys) (length vals) && forallb symbolb keys && ascending keys
               && len_ok kept)
        [TMap kept]
  | OMapUnpack sparse m keys =>
      on_map m (fun m =>
        if sparse then
          some_if (ascending keys && forallb (fun p => is_sym (fst p)) m)
            (map (fun k => match map_get m (TSymbol k) with Some v => v | None => TVoid end) keys)
        else some_if (same_keys m keys) (map snd m))
  | OVecNew => Some [TVec []]
  | OVecFromSlice vals => some_if (len_ok vals) [TVec vals]
  | OVecUnpack v n => on_vec v (fun l => some_if (Nat.eqb (length l) n) l)
  | OVecPut v i x => on_vec v (fun l => one (option_map TVec (seq_put l i x)))
  | OVecGet v i => on_vec v (fun l => one (seq_get l i))
  | OVecDel v i => on_vec v (fun l => one (option_map TVec (seq_del l i)))
  | OVecLen v => on_vec v (fun l => Some [len_val l])
  | OVecPushFront v x => on_vec v (fun l => one (option_map TVec (seq_insert l 0 x)))
  | OVecPopFront v => on_vec v (fun l => one (option_map TVec (seq_tail l)))
  | OVecPushBack v x => on_vec v (fun l => one (option_map TVec (seq_append l [x])))
  | OVecPopBack v => on_vec v (fun l => one (option_map TVec (seq_init l)))
  | OVecFront v => on_vec v (fun l => one (seq_head l))
  | OVecBack v => on_vec v (fun l => one (seq_last l))
  | OVecInsert v i x => on_vec v (fun l => one (option_map TVec (seq_insert l i x)))
  | OVecAppend v w => on_vec v (fun l => on_vec w (fun m => one (option_map TVec (seq_append l m))))
  | OVecSlice v s e => on_vec v (fun l => one (option_map TVec (seq_slice l s e)))
  | OVecFirstIndexOf v x => on_vec v (fun l => Some [pos_val (first_pos x l 0)])
  | OVecLastIndexOf v x => on_vec v (fun l => Some [pos_val (last_pos x l 0)])
  | OBytesNew => Some [TBytes []]
  | OBytesPut b i u =>
      on_bytes b (fun l => if byteb u then one (option_map TBytes (seq_put l i (Z.of_nat u))) else None)
  | OBytesGet b i => on_bytes b (fun l => one (option_map TU32 (seq_get l i)))
  | OBytesDel b i => on_bytes b (fun l => one (option_map TBytes (seq_del l i)))
  | OBytesLen b => on_bytes b (fun l => Some [len_val l])
  | OBytesPush b u =>
      on_bytes b (fun l => if byteb u then one (option_map TBytes (seq_append l [Z.of_nat u])) else None)
  | OBytesPop b => on_bytes b (fun l => one (option_map TBytes (seq_init l)))
  | OBytesFront b => on_bytes b (fun l => one (option_map TU32 (seq_head l)))
  | OBytesBack b => on_bytes b (fun l => one (option_map TU32 (seq_last l)))
  | OBytesInsert b i u =>
      on_bytes b (fun l => if byteb u then one (option_map TBytes (seq_insert l i (Z.of_nat u))) else None)
  | OBytesAppend b c => on_bytes b (fun l => on_bytes c (fun m => one (option_map TBytes (seq_append l m))))
  | OBytesSlice b s e => on_bytes b (fun l => one (option_map TBytes (seq_slice l s e)))
  | OStringLen s => match s with TString l => Some [len_val l] | _ => None end
  | OStringToBytes s => match s with TString l => Some [TBytes l] | _ => None end
  | OBytesToString b => on_bytes b (fun l => Some [TString l])
  | OCreateExecutableTag s => match s with TString l => Some [TExe l] | _ => None end
  end.

(* The value arguments of a call. *)
Definition hop_args {V} (op : hop V) : list V :=
  match op with
  | OMapNew | OVecNew | OBytesNew => []
  | OMapPut m k v => [m; k; v]
  | OMapGet m k | OMapDel m k | OMapHas m k => [m; k]
  | OMapLen m | OMapKeyByPos m _ | OMapValByPos m _ | OMapKeys m | OMapValues m
  | OMapUnpack _ m _ => [m]
  | OMapFromSlices _ _ vs | OVecFromSlice vs => vs
  | OVecUnpack v _ | OVecGet v _ | OVecDel v _ | OVecLen v | OVecPopFront v | OVecPopBack v
  | OVecFront v | OVecBack v | OVecSlice v _ _ => [v]
  | OVecPut v _ x | OVecPushFront v x | OVecPushBack v x | OVecInsert v _ x
  | OVecAppend v x | OVecFirstIndexOf v x | OVecLastIndexOf v x => [v; x]
  | OBytesPut b _ _ | OBytesGet b _ | OBytesDel b _ | OBytesLen b | OBytesPush b _
  | OBytesPop b | OBytesFront b | OBytesBack b | OBytesInsert b _ _ | OBytesSlice b _ _
  | OStringLen b | OStringToBytes b | OBytesToString b
  | OCreateExecutableTag b => [b]
  | OBytesAppend b c => [b; c]
  end.

(* A call on words paired with the trees the words denote. *)
Definition call := hop (Z * tval).
Definition on_words (c : call) : hop Z := hop_map fst c.
Definition on_trees (c : call) : hop tval := hop_map snd c.
Definition args_denote (h : heap) (c : call) : Prop :=
  Forall (fun p => denotes h (fst p) (snd p)) (hop_args c).
Definition too_deep (d : nat) (c : call) : Prop :=
  Exists (fun p => (d < tdepth (snd p))%nat) (hop_args c).

(* The history of a run on trees.  `true` marks a call that succeeded. *)
Inductive atrace (d : nat) : list tval -> list (hop nat) -> list bool -> list tval -> Prop :=
| at_nil ts : atrace d ts [] [] ts
| at_ok ts op r rest oks ts' :
    astep (hop_map (fun i => nth i ts TVoid) op) = Some r ->
    atrace d (ts ++ r) rest oks ts' -> atrace d ts (op :: rest) (true :: oks) ts'
| at_err ts op rest oks ts' :
    (astep (hop_map (fun i => nth i ts TVoid) op) = None
     \/ Exists (fun t => (d < tdepth t)%nat) (map (fun i => nth i ts TVoid) (hop_args op))) ->
    atrace d ts rest oks ts' -> atrace d ts (op :: rest) (false :: oks) ts'.
