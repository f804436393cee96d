(* Vocabulary for the handle and linear-memory properties. *)
From Coq Require Import ZArith Lia List Bool.
From Verif Require Import Prelude ValModel ValSpec ContainerModel HeapModel HeapSpec HostFnModel HostFnSpec GuestModel.
Import ListNotations.
Open Scope Z_scope.

(* The [i]th relative handle, as an object word of type [t]. *)
Definition rel_word (t : tag) (i : nat) : Z := word_of_atom (AObj t (2 * Z.of_nat i)).

(* What a guest's word [w] names, given the objects it was handed: a word that is not a
   handle is its own value; the even handle 2i with the right tag names the [i]th object. *)
Inductive names (table : list Z) : Z -> Z -> Prop :=
| nm_small w : is_object w = false -> names table w w
| nm_obj w i a : is_object w = true -> get_major w = 2 * Z.of_nat i ->
    nth_error table i = Some a -> get_tag a = get_tag w -> names table w a.

(* The guest's (signed 64-bit) word [i] is well formed and its value is [t]. *)
Definition stands (g : guest) (i : Z) (t : tval) : Prop :=
  is_good (as_u64 i) = true /\ exists a, names (g_table g) (as_u64 i) a /\ denotes (g_heap g) a t.

(* The same for a word read from memory, whose unused bits are not looked at when it is a handle. *)
Definition meant (g : guest) (w : Z) (t : tval) : Prop :=
  exists a, names (g_table g) w a /\ denotes (g_heap g) a t.

(* The objects handed to frame [f], in order, with the words it got for them. *)
Definition grants (f : nat) (log : list (nat * xfer)) : list (Z * Z) :=
  flat_map (fun e => match e with
                     | (f', Gave x a) => if Nat.eqb f' f && is_object a then [(x, a)] else []
                     | _ => []
                     end) log.

Definition byte (x : Z) : Prop := 0 <= x < 256.
(* The object table is well formed, every relative object is in it, memory holds bytes. *)
Definition handed (h : heap) (a : Z) : Prop := is_object a = true /\ live h a.
Definition guest_ok (g : guest) : Prop :=
  heap_ok (g_heap g) /\ Forall (handed (g_heap g)) (g_table g) /\ Forall byte (g_mem g).
Definition world_ok (w : world) : Prop :=
  heap_ok (w_heap w)
  /\ Forall (fun f => Forall (handed (w_heap w)) (fr_table f) /\ Forall byte (fr_mem f)) (w_frames w).

(* Positions and lengths are 32-bit unsigned numbers. *)
Definition u32 (x : Z) : Prop := 0 <= x <= u32_max.
Definition mop_ok (op : mop) : Prop :=
  match op with
  | MCopyTo _ _ op lp len | MCopyFrom _ op lp len => u32 op /\ u32 lp /\ u32 len
  | MNew _ lp len | MSymbolIndex _ lp len => u32 lp /\ u32 len
  | MVecNew pos len | MVecUnpack _ pos len => u32 pos /\ u32 len
  | MMapNew _ keys vals len | MMapUnpack _ _ keys vals len => u32 keys /\ u32 vals /\ u32 len
  end.

(* What the environment may do: numbers are in range, objects made by other host functions are well formed,
   memories hold bytes. *)
Definition wstep_ok (w : world) (s : wstep) : Prop :=
  match s with
  | WMem op => mop_ok op
  | WObject o => exists t, obj_denotes (w_heap w) o t
  | WStore m | WCall _ m => Forall byte m
  | _ => True
  end.
Fixpoint steps_ok (d : nat) (w : world) (l : list wstep) : Prop :=
  match l with [] => True | s :: r => wstep_ok w s /\ steps_ok d (step d w s) r end.

(* The byte at an address. *)
Definition at_ (m : list Z) (p : Z) : Z := nth (Z.to_nat p) m 0.
(* Memory [m'] is [m] with the bytes [b] at [pos]. *)
Definition written (m m' : list Z) (pos : Z) (b : list Z) : Prop :=
  length m' = length m
  /\ forall p, 0 <= p -> at_ m' p = if (pos <=? p) && (p <? pos + Z.of_nat (length b)) then at_ b (p - pos) else at_ m p.
(* [b] is what [len] bytes of [m] at [pos] hold. *)
Definition holds_bytes (m : list Z) (pos : Z) (b : list Z) : Prop :=
  0 <= pos /\ pos + Z.of_nat (length b) <= Z.of_nat (length m)
  /\ forall k, 0 <= k < Z.of_nat (length b) -> at_ m (pos + k) = at_ b k.
(* Little-endian numbers of [n] bytes. *)
Definition holds_num (n : Z) (m : list Z) (pos v : Z) : Prop :=
  0 <= pos /\ pos + n <= Z.of_nat (length m) /\ 0 <= v < 256 ^ n
  /\ forall k, 0 <= k < n -> at_ m (pos + k) = (v / 256 ^ k) mod 256.
(* The words at [pos], 8 bytes each. *)
Definition holds_words (m : list Z) (pos : Z) (ws : list Z) : Prop :=
  forall i w, nth_error ws i = Some w -> holds_num 8 m (pos + 8 * Z.of_nat i) w.
(* The byte string named by the (pointer, length) pair at [p]. *)
Definition holds_slice (m : list Z) (p : Z) (b : list Z) : Prop :=
  exists ptr, holds_num 4 m p ptr /\ holds_num 4 m (p + 4) (Z.of_nat (length b))
    /\ ptr + Z.of_nat (length b) <= u32_max /\ holds_bytes m ptr b.
(* The byte strings named by the (pointer, length) pairs from [pos] on. *)
Definition holds_slices (m : list Z) (pos : Z) (bs : list (list Z)) : Prop :=
  forall i b, nth_error bs i = Some b -> holds_slice m (pos + 8 * Z.of_nat i) b.

(* Nothing the guest can observe changed. *)
Definition same_state (g g' : guest) : Prop :=
  g_heap g' = g_heap g /\ g_table g' = g_table g /\ g_mem g' = g_mem g.
(* Every argument word of a call, with what it stands for. *)
Definition stands_all (g : guest) (c : call) : Prop := Forall (fun p => stands g (fst p) (snd p)) (hop_args c).
(* Outside the range nothing changed. *)
Definition untouched (m m' : list Z) (pos len : Z) : Prop :=
  length m' = length m /\ forall p, 0 <= p -> p < pos \/ pos + len <= p -> at_ m' p = at_ m p.
(* The value made of bytes. *)
Definition kind_tree (k : memkind) (b : list Z) : tval :=
  match k with KBytes => TBytes b | KString => TString b | KSymbol => TSymbol b end.
(* What the [n] words at [pos] mean, when they are all in range and well formed. *)
Definition reads (g : guest) (pos n : Z) (ts : list tval) : Prop :=
  pos + 8 * n <= u32_max /\ exists ws, Z.of_nat (length ws) = n /\ pos + 8 * n <= Z.of_nat (length (g_mem g))
    /\ holds_words (g_mem g) pos ws /\ Forall2 (meant g) ws ts.
(* The guest's memory and table after values were written at [pos]. *)
Definition wrote (g g' : guest) (pos : Z) (ts : list tval) : Prop :=
  let n := 8 * Z.of_nat (length ts) in
  pos + n <= u32_max /\ pos + n <= Z.of_nat (length (g_mem g))
  /\ g_heap g' = g_heap g /\ untouched (g_mem g) (g_mem g') pos n
  /\ exists ws, holds_words (g_mem g') pos ws /\ Forall2 (stands g') ws ts.

(* A handle the frame was never given: absolute, beyond the frame's objects, or of another type. *)
Definition bad_handle (table : list Z) (w : Z) : Prop :=
  is_object w = true /\
  (Z.odd (get_major w) = true
   \/ Z.of_nat (length table) <= get_major w / 2
   \/ exists a, nth_error table (Z.to_nat (get_major w / 2)) = Some a /\ get_tag a <> get_tag w).
(* The handle argument of a memory function. *)
Definition mop_arg (op : mop) : option Z :=
  match op with
  | MCopyTo _ i _ _ _ | MCopyFrom i _ _ _ | MSymbolIndex i _ _ | MVecUnpack i _ _ | MMapUnpack _ i _ _ _ => Some i
  | _ => None
  end.
(* The words a memory function reads as values. *)
Definition mop_words (op : mop) : option (Z * Z) :=
  match op with MVecNew pos len => Some (pos, len) | MMapNew _ _ vals len => Some (vals, len) | _ => None end.
