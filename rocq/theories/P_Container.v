(* C11-C15 and the byte-string half of C16: the container host functions. *)
From Coq Require Import ZArith Lia List Bool Sorted.
From Verif Require Import Prelude ValModel ValSpec ContainerModel ContainerSpec ContainerProofs HeapModel HeapSpec TreeProofs
  HeapProofs ConvProofs HeapProofs2 HostFnModel HostFnSpec SeqProofs MapFnProofs HostFnProofs HostFnProofs2 SeqSpecProofs.
Import ListNotations.
Open Scope Z_scope.

(* ---------------------------------------------------------------- C11 *)

(* Any history of container calls, whatever earlier values its arguments name,
   gives the answers of the same history on value trees (HostFnSpec.astep: maps
   are finite maps, vectors and byte strings are sequences); a call fails only if
   it must, or because an argument is nested deeper than the limit.  Earlier
   values keep their meaning, because the table is only extended. *)
Theorem C11_histories_follow_the_finite_map_meaning :
  forall d ops h ws ts h' ws' rs, heap_ok h -> denotes_list h ws ts ->
  hrun d h ws ops = (h', ws', rs) -> fits h' ->
  extends h h' /\ heap_ok h'
  /\ exists ts', denotes_list h' ws' ts' /\ atrace d ts ops (map is_ok rs) ts'.
Proof. exact hrun_ok. Qed.
Print Assumptions C11_histories_follow_the_finite_map_meaning.

Theorem C11_values_never_change :
  forall h h' w t, extends h h' -> denotes h w t -> denotes h' w t /\ (forall u, denotes h' w u -> u = t).
Proof.
  intros h h' w t X D. pose proof (extends_denotes _ _ _ _ X D) as D'. split; auto.
  intros u U. exact (denotes_fun _ _ _ _ U D').
Qed.
Print Assumptions C11_values_never_change.

(* One call. *)
Theorem C11_each_call_follows_its_meaning :
  forall d h c h' r, heap_ok h -> args_denote h c -> hstep d h (on_words c) = (h', r) -> fits h' ->
  extends h h' /\ heap_ok h'
  /\ match r with
     | Ok ws => exists ts, astep (on_trees c) = Some ts /\ denotes_list h' ws ts
     | Err e => astep (on_trees c) = None
                \/ (e = ESys TContext CExceededLimit /\ Exists (fun p => (d < tdepth (snd p))%nat) (hop_args c))
     end.
Proof.
  intros d h c h' r O A E F. destruct (hstep_ok d h c h' r A E) as [X Y]. destruct (Y F) as [O' P].
  split; [exact X|]. split; [exact (O' O)|]. exact P.
Qed.
Print Assumptions C11_each_call_follows_its_meaning.

(* The meaning is a finite map: put, del, get laws; positions and lookups agree;
   keys strictly ascending; contents determine the map. *)
Theorem C11_put_del_get_laws :
  forall m, map_sorted m ->
  (forall k v k', map_get (map_put m k v) k' = match tcmp k k' with Eq => Some v | _ => map_get m k' end)
  /\ (forall k k', map_get (map_del m k) k' = match tcmp k k' with Eq => None | _ => map_get m k' end)
  /\ (forall k v, map_get m k = Some v <-> In (k, v) m)
  /\ (forall k v, map_sorted (map_put m k v)) /\ (forall k, map_sorted (map_del m k))
  /\ (forall m', map_sorted m' -> (forall k, map_get m k = map_get m' k) -> m' = m).
Proof.
  intros m S. split; [intros; now apply get_put|]. split; [intros; now apply get_del|].
  split; [intros; now apply map_get_In|]. split; [intros; now apply put_sorted|].
  split; [intros; now apply del_sorted|]. intros m' S' E. symmetry. now apply map_canonical.
Qed.
Print Assumptions C11_put_del_get_laws.

Theorem C11_map_values_are_sorted :
  forall h w m, denotes h w (TMap m) -> map_sorted m /\ Z.of_nat (length m) <= u32_max.
Proof. intros h w m D. pose proof (denotes_valid _ _ _ D) as V. cbn [valid_tree] in V. unfold short in V. tauto. Qed.
Print Assumptions C11_map_values_are_sorted.

(* Two map values with the same contents are equal and export to the same XDR,
   whatever history built them. *)
Theorem C11_same_contents_same_representation :
  forall h v w m m', denotes h v (TMap m) -> denotes h w (TMap m') ->
  (forall k, map_get m k = map_get m' k) ->
  (forall d, (tdepth (TMap m) <= d)%nat -> cmp_val d h v w = Ok Eq)
  /\ (forall d d' st st' s s', from_host_val d st h v = Ok s -> from_host_val d' st' h w = Ok s' -> s = s').
Proof. exact same_contents_same_export. Qed.
Print Assumptions C11_same_contents_same_representation.

(* The sorted map type itself, for any key type whose comparison, where it
   answers, is a total order on what the keys mean. *)
Theorem C11_any_key_type :
  forall (K V T : Type) (cmp : K -> K -> res comparison) (tc : T -> T -> comparison) (kd : K -> T) (P : K -> Prop),
  total_order tc -> (forall a b o, P a -> P b -> cmp a b = Ok o -> o = tc (kd a) (kd b)) ->
  forall (m : list (K * V)) k, Forall (fun p => P (fst p)) m -> P k -> keys_ascending tc kd m ->
  (forall r, omap_get cmp m k = Ok r -> r = assoc tc kd m (kd k))
  /\ (forall v m', omap_insert cmp m k v = Ok m' ->
        keys_ascending tc kd m' /\ Forall (fun p => P (fst p)) m'
        /\ forall t, assoc tc kd m' t = match tc (kd k) t with Eq => Some v | _ => assoc tc kd m t end)
  /\ (omap_remove cmp m k = Ok None -> assoc tc kd m (kd k) = None)
  /\ (forall m' v, omap_remove cmp m k = Ok (Some (m', v)) ->
        assoc tc kd m (kd k) = Some v /\ keys_ascending tc kd m' /\ Forall (fun p => P (fst p)) m'
        /\ forall t, assoc tc kd m' t = match tc (kd k) t with Eq => None | _ => assoc tc kd m t end)
  /\ ((forall a b, P a -> P b -> exists o, cmp a b = Ok o) -> Z.of_nat (length m) < u32_max ->
        (exists r, omap_get cmp m k = Ok r) /\ (exists r, omap_remove cmp m k = Ok r)
        /\ forall v, exists m', omap_insert cmp m k v = Ok m').
Proof.
  intros K V T cmp tc kd P TO CO m k KP Pk As.
  split; [intros r E; exact (get_sound cmp tc kd P TO CO m k r KP Pk As E)|].
  split.
  { intros v m' E. destruct (insert_sound cmp tc kd P TO CO m k v m' KP Pk As E) as (A & B & _ & C & _). auto. }
  split; [intros E; exact (remove_sound cmp tc kd P TO CO m k None KP Pk As E)|].
  split.
  { intros m' v E. destruct (remove_sound cmp tc kd P TO CO m k (Some (m', v)) KP Pk As E) as (A & B & C & _ & D & _). auto. }
  intros Tot L. split; [|split].
  - unfold omap_get. destruct (omap_find cmp m k) as [[i|i]|e] eqn:F; cbn [rbind]; eauto.
    + destruct (find_lookup cmp tc kd P TO CO m k _ KP Pk As F) as (k' & v & N & _). rewrite N. eauto.
    + exfalso. pose proof (bsearch_total (fun p => cmp (fst p) k) m) as B. unfold omap_find in F. rewrite F in B.
      destruct B as (i & p & N & C). apply nth_error_In in N. rewrite Forall_forall in KP.
      destruct (Tot (fst p) k (KP p N) Pk) as (o & X). congruence.
  - apply (remove_total cmp tc kd P TO CO m k KP Pk As Tot). lia.
  - intros v. exact (insert_total cmp tc kd P TO CO m k v KP Pk As Tot L).
Qed.
Print Assumptions C11_any_key_type.

(* A history: two different orders of insertion, a replacement and a deletion. *)
Definition ex_ops : list (hop nat) :=
  [OVecFromSlice [0; 1]%nat;           (* 2: a vector used as a key *)
   OMapNew;                             (* 3 *)
   OMapPut 3 2 1;                       (* 4 *)
   OMapPut 4 0 1;                       (* 5 *)
   OMapPut 3 0 1;                       (* 6 *)
   OMapPut 6 2 0;                       (* 7 *)
   OMapPut 7 2 1;                       (* 8 = 5 *)
   OMapGet 8 2;                         (* 9 *)
   OMapDel 8 2;                         (* 10 = 6 *)
   OMapGet 10 2;                        (* fails: absent *)
   OMapLen 8]%nat.
Example C11_hyp :
  exists h ws rs, hrun 10 [] [val_of_u32 7; val_of_u32 9] ex_ops = (h, ws, rs) /\ fits h
  /\ heap_ok [] /\ denotes_list [] [val_of_u32 7; val_of_u32 9] [TU32 7; TU32 9]
  /\ map is_ok rs = [true; true; true; true; true; true; true; true; true; false; true]
  /\ nth 9 ws 0 = val_of_u32 9 /\ nth 11 ws 0 = val_of_u32 2
  /\ cmp_val 10 h (nth 5 ws 0) (nth 8 ws 0) = Ok Eq /\ nth 5 ws 0 <> nth 8 ws 0.
Proof.
  destruct (hrun 10 [] [val_of_u32 7; val_of_u32 9] ex_ops) as [[h ws] rs] eqn:E.
  exists h, ws, rs. split; [reflexivity|]. vm_compute in E. injection E as <- <- <-.
  split; [unfold fits; vm_compute; discriminate|]. split; [constructor|].
  split. { constructor; [|constructor; [|constructor]]; apply u32_den; unfold u32_max; lia. }
  repeat (split; [vm_compute; reflexivity|]). vm_compute. discriminate.
Qed.

(* ---------------------------------------------------------------- C12 *)

(* Any key type: construction from an entry list. *)
Theorem C12_from_entries_iff_ascending :
  forall (K V T : Type) (cmp : K -> K -> res comparison) (tc : T -> T -> comparison) (kd : K -> T) (P : K -> Prop),
  total_order tc -> (forall a b o, P a -> P b -> cmp a b = Ok o -> o = tc (kd a) (kd b)) ->
  (forall a b, P a -> P b -> exists o, cmp a b = Ok o) ->
  forall l : list (K * V), Forall (fun p => P (fst p)) l ->
  (forall m, omap_from cmp l = Ok m -> m = l /\ keys_ascending tc kd l)
  /\ (keys_ascending tc kd l -> Z.of_nat (length l) <= u32_max -> omap_from cmp l = Ok l).
Proof.
  intros K V T cmp tc kd P TO CO Tot l KP. split.
  - intros m E. destruct (omap_from_sound cmp tc kd P TO CO l m KP E) as (A & B & _). auto.
  - intros A L. now apply (omap_from_iff cmp tc kd P TO CO l KP Tot).
Qed.
Print Assumptions C12_from_entries_iff_ascending.

(* The host function: succeeds exactly on as many valid symbols as values, in
   strictly ascending order; the map holds exactly the given entries, minus the
   void values in the sparse form. *)
Theorem C12_map_from_slices_iff_ascending :
  forall d h sparse keys vals ts h' r,
  denotes_list h vals ts -> Forall (fun t => (tdepth t <= d)%nat) ts ->
  hstep d h (OMapFromSlices sparse keys vals) = (h', r) -> fits h' -> Z.of_nat (length keys) <= u32_max ->
  (length keys = length vals /\ Forall valid_symbol keys /\ StronglySorted (fun a b => lex a b = Lt) keys
     /\ exists w, r = Ok [w]
        /\ denotes h' w (TMap (filter (fun p => negb (sparse && is_void (snd p))) (combine (map TSymbol keys) ts))))
  \/ (~ (length keys = length vals /\ Forall valid_symbol keys /\ StronglySorted (fun a b => lex a b = Lt) keys)
     /\ exists e, r = Err e).
Proof. exact slices_iff. Qed.
Print Assumptions C12_map_from_slices_iff_ascending.

(* "a", "b", and a symbol too long for a word *)
Definition ex_long : list Z := [98; 98; 98; 98; 98; 98; 98; 98; 98; 98].
Example C12_hyp :
  exists h' w w', hstep 10 [] (OMapFromSlices true [[97]; [98]; ex_long] [val_of_u32 1; val_void; val_of_u32 3]) = (h', Ok [w])
  /\ fits h' /\ (exists e, snd (hstep 10 [] (OMapFromSlices true [[98]; [97]] [val_of_u32 1; val_void])) = Err e)
  /\ hstep 10 h' (OMapLen w) = (h', Ok [val_of_u32 2])
  /\ snd (hstep 10 [] (OMapFromSlices false [[97]; [98]; ex_long] [val_of_u32 1; val_void; val_of_u32 3])) = Ok [w']
  /\ denotes_list [] [val_of_u32 1; val_void; val_of_u32 3] [TU32 1; TVoid; TU32 3].
Proof.
  eexists _, _, _. split; [vm_compute; reflexivity|]. split; [unfold fits; vm_compute; discriminate|].
  split; [eexists; vm_compute; reflexivity|]. split; [vm_compute; reflexivity|]. split; [vm_compute; reflexivity|].
  constructor; [apply u32_den; unfold u32_max; lia|]. constructor; [apply void_den|].
  constructor; [apply u32_den; unfold u32_max; lia|constructor].
Qed.

(* ---------------------------------------------------------------- C13 *)

(* Dense: succeeds exactly when the map's keys are the given symbols, in order,
   and gives the values.  Sparse: succeeds exactly when the symbols are strictly
   ascending and every key of the map is a symbol; each answer is the value under
   its symbol, or void; other keys of the map are ignored. *)
Theorem C13_map_unpack :
  forall d h sparse m keys entries h' r, denotes h m (TMap entries) ->
  hstep d h (OMapUnpack sparse m keys) = (h', r) ->
  h' = h /\
  if sparse then
    (StronglySorted (fun a b => lex a b = Lt) keys /\ Forall (fun p => exists b, fst p = TSymbol b) entries
       /\ exists ws, r = Ok ws /\ length ws = length keys
          /\ forall i k, nth_error keys i = Some k -> exists w, nth_error ws i = Some w
               /\ (forall v, In (TSymbol k, v) entries -> denotes h w v)
               /\ ((forall v, ~ In (TSymbol k, v) entries) -> denotes h w TVoid))
    \/ (~ (StronglySorted (fun a b => lex a b = Lt) keys /\ Forall (fun p => exists b, fst p = TSymbol b) entries)
       /\ exists e, r = Err e)
  else
    (map fst entries = map TSymbol keys /\ exists ws, r = Ok ws /\ denotes_list h ws (map snd entries))
    \/ (map fst entries <> map TSymbol keys /\ exists e, r = Err e).
Proof. exact unpack_iff. Qed.
Print Assumptions C13_map_unpack.

Example C13_hyp :
  exists h w, hstep 10 [] (OMapFromSlices false [[97]; [98]; ex_long] [val_of_u32 1; val_void; val_of_u32 3]) = (h, Ok [w])
  /\ hstep 10 h (OMapUnpack false w [[97]; [98]; ex_long]) = (h, Ok [val_of_u32 1; val_void; val_of_u32 3])
  /\ hstep 10 h (OMapUnpack false w [[97]; ex_long]) = (h, Err (ESys TObject CUnexpectedSize))
  /\ hstep 10 h (OMapUnpack true w [[95]; [97]; ex_long]) = (h, Ok [val_void; val_of_u32 1; val_of_u32 3])
  /\ hstep 10 h (OMapUnpack true w [ex_long; [97]]) = (h, Err (ESys TObject CInvalidInput))
  /\ exists entries, denotes h w (TMap entries).
Proof.
  pose (c := (OMapFromSlices false [[97]; [98]; ex_long] [(val_of_u32 1, TU32 1); (val_void, TVoid); (val_of_u32 3, TU32 3)]) : call).
  destruct (hstep 10 [] (on_words c)) as [h r] eqn:E.
  assert (A : args_denote [] c).
  { unfold args_denote, c. cbn [hop_args]. constructor; [apply u32_den; unfold u32_max; lia|].
    constructor; [apply void_den|]. constructor; [apply u32_den; unfold u32_max; lia|constructor]. }
  destruct (hstep_ok 10 [] c h r A E) as [_ Y].
  assert (F : fits h) by (vm_compute in E; injection E as <- <-; unfold fits; vm_compute; discriminate).
  destruct (Y F) as [_ P]. clear Y.
  assert (X : exists w, r = Ok [w] /\ exists es, denotes h w (TMap es)).
  { destruct r as [ws|e]; [|vm_compute in E; discriminate]. destruct P as (ts & At & DL). 
    assert (ts = [TMap (combine (map TSymbol [[97]; [98]; ex_long]) [TU32 1; TVoid; TU32 3])]) by (vm_compute in At; assert (At2 := f_equal (fun o => match o with Some x => x | None => [] end) At); cbv beta iota in At2; rewrite <- At2; vm_compute; reflexivity).
    subst ts. inversion DL as [|w t ws' ts' Dw Dn]; subst. inversion Dn; subst. eauto. }
  destruct X as (w & -> & es & De). exists h, w. split; [exact E|].
  assert (E' := E). vm_compute in E'. injection E' as Eh Ew. rewrite <- Eh, <- Ew.
  split; [vm_compute; reflexivity|]. split; [vm_compute; reflexivity|]. split; [vm_compute; reflexivity|].
  split; [vm_compute; reflexivity|]. exists es. now rewrite Eh, Ew.
Qed.

(* ---------------------------------------------------------------- C14 *)

(* With enough depth left, a call on vectors succeeds exactly when the sequence
   operation is defined, and then gives its result; its input is unchanged. *)
Theorem C14_vec_calls_are_exact :
  forall d h c h' r, args_denote h c -> hstep d h (on_words c) = (h', r) -> fits h' ->
  Forall (fun p => (tdepth (snd p) <= d)%nat) (hop_args c) ->
  (match astep (on_trees c) with
   | Some ts => exists ws, r = Ok ws /\ denotes_list h' ws ts
   | None => exists e, r = Err e
   end)
  /\ forall w t, denotes h w t -> denotes h' w t.
Proof.
  intros d h c h' r A E F D. split; [exact (step_iff d h c h' r A E F D)|].
  intros w t Dn. exact (extends_denotes _ _ _ _ (proj1 (hstep_ok d h c h' r A E)) Dn).
Qed.
Print Assumptions C14_vec_calls_are_exact.

(* Only the two searches compare values; every other vector call needs no depth. *)
Theorem C14_vec_calls_need_no_depth :
  forall d d' h op, match op with
  | OVecNew | OVecFromSlice _ | OVecUnpack _ _ | OVecPut _ _ _ | OVecGet _ _ | OVecDel _ _ | OVecLen _
  | OVecPushFront _ _ | OVecPopFront _ | OVecPushBack _ _ | OVecPopBack _ | OVecFront _ | OVecBack _
  | OVecInsert _ _ _ | OVecAppend _ _ | OVecSlice _ _ _ => True | _ => False end ->
  hstep d h op = hstep d' h op.
Proof. intros d d' h op. destruct op; intros []; reflexivity. Qed.
Print Assumptions C14_vec_calls_need_no_depth.

(* What the sequence operations are, position by position, and exactly when they
   are defined. *)
Theorem C14_put : forall (l : list tval) i x,
  match seq_put l i x with
  | Some l' => (i < length l)%nat /\ length l' = length l /\ nth_error l' i = Some x
               /\ (forall j, j <> i -> nth_error l' j = nth_error l j)
  | None => (length l <= i)%nat
  end.
Proof. exact seq_put_spec. Qed.
Theorem C14_del : forall (l : list tval) i,
  match seq_del l i with
  | Some l' => (i < length l)%nat /\ length l = S (length l')
               /\ (forall j, (j < i)%nat -> nth_error l' j = nth_error l j)
               /\ (forall j, (i <= j)%nat -> nth_error l' j = nth_error l (S j))
  | None => (length l <= i)%nat
  end.
Proof. exact seq_del_spec. Qed.
Theorem C14_insert : forall (l : list tval) i x,
  match seq_insert l i x with
  | Some l' => (i <= length l)%nat /\ length l' = S (length l) /\ nth_error l' i = Some x
               /\ (forall j, (j < i)%nat -> nth_error l' j = nth_error l j)
               /\ (forall j, (i <= j)%nat -> nth_error l' (S j) = nth_error l j)
  | None => (length l < i)%nat \/ u32_max <= Z.of_nat (length l)
  end.
Proof. exact seq_insert_spec. Qed.
Theorem C14_append : forall (l m : list tval),
  match seq_append l m with
  | Some l' => Z.of_nat (length l + length m) <= u32_max
               /\ length l' = (length l + length m)%nat
               /\ (forall j, (j < length l)%nat -> nth_error l' j = nth_error l j)
               /\ (forall j, nth_error l' (length l + j) = nth_error m j)
  | None => u32_max < Z.of_nat (length l + length m)
  end.
Proof. exact seq_append_spec. Qed.
Theorem C14_slice : forall (l : list tval) s e,
  match seq_slice l s e with
  | Some l' => (s <= e <= length l)%nat /\ length l' = (e - s)%nat
               /\ (forall j, (j < e - s)%nat -> nth_error l' j = nth_error l (s + j))
  | None => (e < s)%nat \/ (length l < e)%nat
  end.
Proof. exact seq_slice_spec. Qed.
Theorem C14_ends : forall l : list tval,
  (match seq_tail l with
   | Some l' => length l = S (length l') /\ (forall j, nth_error l' j = nth_error l (S j))
   | None => l = [] end)
  /\ (match seq_init l with
      | Some l' => length l = S (length l') /\ (forall j, (j < length l')%nat -> nth_error l' j = nth_error l j)
      | None => l = [] end)
  /\ seq_head l = nth_error l 0 /\ seq_last l = nth_error l (length l - 1).
Proof.
  intros l. split; [apply seq_tail_spec|]. split; [apply seq_init_spec|]. split; [apply seq_head_spec|apply seq_last_spec].
Qed.
Theorem C14_first_and_last_index : forall x l,
  (match first_pos x l 0 with
   | Some i => nth_error l i = Some x /\ (forall j, (j < i)%nat -> nth_error l j <> Some x)
   | None => forall j, nth_error l j <> Some x
   end)
  /\ (match last_pos x l 0 with
      | Some i => nth_error l i = Some x /\ (forall j, (i < j)%nat -> nth_error l j <> Some x)
      | None => forall j, nth_error l j <> Some x
      end).
Proof. intros x l. split; [apply first_pos_spec|apply last_pos_spec]. Qed.
Print Assumptions C14_put.
Print Assumptions C14_del.
Print Assumptions C14_insert.
Print Assumptions C14_append.
Print Assumptions C14_slice.
Print Assumptions C14_ends.
Print Assumptions C14_first_and_last_index.

Definition ex_vops : list (hop nat) :=
  [OVecFromSlice [0; 1; 0]%nat;  (* 2 *)
   OVecPut 2 1 0;                (* 3 = [7;7;7] *)
   OVecLastIndexOf 2 0;          (* 4 = 2 *)
   OVecSlice 2 1 3;              (* 5 = [9;7] *)
   OVecAppend 5 2;               (* 6 *)
   OVecInsert 6 5 1;             (* 7: at the end *)
   OVecInsert 6 6 1;             (* fails *)
   OVecPopFront 7;               (* 8 *)
   OVecLen 8; OVecGet 2 1;       (* 9, 10 *)
   OVecSlice 2 2 1]%nat.         (* fails *)
Example C14_hyp :
  exists h ws rs, hrun 1 [] [val_of_u32 7; val_of_u32 9] ex_vops = (h, ws, rs) /\ fits h
  /\ map is_ok rs = [true; true; true; true; true; true; false; true; true; true; false]
  /\ nth 4 ws 0 = val_of_u32 2 /\ nth 9 ws 0 = val_of_u32 5 /\ nth 10 ws 0 = val_of_u32 9.
Proof.
  destruct (hrun 1 [] [val_of_u32 7; val_of_u32 9] ex_vops) as [[h ws] rs] eqn:E.
  exists h, ws, rs. split; [reflexivity|]. vm_compute in E. injection E as <- <- <-.
  split; [unfold fits; vm_compute; discriminate|]. repeat (split; [vm_compute; reflexivity|]). vm_compute. reflexivity.
Qed.

(* ---------------------------------------------------------------- C15 *)

(* The search itself, for any probe that answers like a monotone function. *)
Theorem C15_binary_search_is_correct :
  forall (A : Type) (f : A -> res comparison) (g : A -> comparison) (l : list A),
  (forall i x c, nth_error l i = Some x -> f x = Ok c -> c = g x) -> monotone g l ->
  match bsearch f l with
  | Ok (Found i) => exists x, nth_error l i = Some x /\ g x = Eq
  | Ok (Missing i) =>
      (i <= length l)%nat
      /\ (forall j x, (j < i)%nat -> nth_error l j = Some x -> g x = Lt)
      /\ (forall j x, (i <= j)%nat -> nth_error l j = Some x -> g x = Gt)
  | Err e => exists i x, nth_error l i = Some x /\ f x = Err e
  end.
Proof.
  intros A f g l FG M. pose proof (bsearch_total f l) as T. destruct (bsearch f l) as [r|e] eqn:E; auto.
  pose proof (bsearch_sound f g l FG M r E) as S. destruct r; exact S.
Qed.
Print Assumptions C15_binary_search_is_correct.

Theorem C15_logarithmic_comparisons :
  forall (A : Type) (f : A -> res comparison) (l : list A),
  (length (fst (bsearch_trace f l)) <= S (Nat.log2 (length l)))%nat.
Proof. intros A f l. exact (bsearch_count f l). Qed.
Print Assumptions C15_logarithmic_comparisons.

(* The host function: bit 32 tells found from missing, the low half is the
   position.  An ascending vector may repeat elements. *)
Theorem C15_vec_binary_search :
  forall d h v x ts tx, denotes h v (TVec ts) -> denotes h x tx ->
  StronglySorted (fun a b => tcmp a b <> Gt) ts ->
  match vec_binary_search d h v x with
  | Ok n => (exists i, n = 2 ^ 32 + Z.of_nat i /\ Z.of_nat i < 2 ^ 32 /\ nth_error ts i = Some tx)
            \/ (exists i, n = Z.of_nat i /\ n < 2 ^ 32 /\ (i <= length ts)%nat
                 /\ Forall (fun t => tcmp t tx = Lt) (firstn i ts) /\ Forall (fun t => tcmp tx t = Lt) (skipn i ts))
  | Err e => e = ESys TContext CExceededLimit /\ (d < tdepth tx)%nat
  end.
Proof. exact bsearch_den. Qed.
Print Assumptions C15_vec_binary_search.

Example C15_hyp :
  exists h w, hstep 10 [] (OVecFromSlice (map val_of_u32 [1; 3; 3; 8])) = (h, Ok [w])
  /\ vec_binary_search 10 h w (val_of_u32 3) = Ok (2 ^ 32 + 2)
  /\ vec_binary_search 10 h w (val_of_u32 4) = Ok 3
  /\ vec_binary_search 10 h w (val_of_u32 9) = Ok 4
  /\ StronglySorted (fun a b => tcmp a b <> Gt) [TU32 1; TU32 3; TU32 3; TU32 8].
Proof.
  eexists _, _. split; [vm_compute; reflexivity|]. split; [vm_compute; reflexivity|]. split; [vm_compute; reflexivity|].
  split; [vm_compute; reflexivity|].
  repeat (first [apply SSorted_nil | apply SSorted_cons]); repeat (first [apply Forall_nil | apply Forall_cons]); vm_compute; discriminate.
Qed.

(* ---------------------------------------------------------------- C16 *)

(* Byte strings: succeed exactly when the sequence operation is defined.  The
   operations are those of C14 on bytes. *)
Theorem C16_byte_calls_are_exact :
  forall d h c h' r, args_denote h c -> hstep d h (on_words c) = (h', r) -> fits h' ->
  match c with
  | OBytesNew | OBytesPut _ _ _ | OBytesGet _ _ | OBytesDel _ _ | OBytesLen _ | OBytesPush _ _ | OBytesPop _
  | OBytesFront _ | OBytesBack _ | OBytesInsert _ _ _ | OBytesAppend _ _ | OBytesSlice _ _ _ | OStringLen _
  | OStringToBytes _ | OBytesToString _ | OCreateExecutableTag _ => True | _ => False end ->
  (match astep (on_trees c) with
   | Some ts => exists ws, r = Ok ws /\ denotes_list h' ws ts
   | None => exists e, r = Err e
   end)
  /\ forall w t, denotes h w t -> denotes h' w t.
Proof.
  intros d h c h' r A E F B.
  set (D := fold_right Nat.max 0%nat (map (fun p => tdepth (snd p)) (hop_args c))).
  assert (E' : hstep D h (on_words c) = (h', r)).
  { rewrite <- E. destruct c; try contradiction; reflexivity. }
  assert (DP : Forall (fun p => (tdepth (snd p) <= D)%nat) (hop_args c)).
  { apply Forall_forall. intros p I. unfold D. clear -I. induction (hop_args c) as [|q l IH]; [destruct I|].
    cbn [map fold_right]. destruct I as [->|I]; [lia|]. specialize (IH I). lia. }
  exact (C14_vec_calls_are_exact D h c h' r A E' F DP).
Qed.
Print Assumptions C16_byte_calls_are_exact.

Theorem C16_byte_operations : forall l : list Z,
  (forall i x, match seq_put l i x with
     | Some l' => (i < length l)%nat /\ length l' = length l /\ nth_error l' i = Some x
                  /\ (forall j, j <> i -> nth_error l' j = nth_error l j)
     | None => (length l <= i)%nat end)
  /\ (forall i, match seq_del l i with
     | Some l' => (i < length l)%nat /\ length l = S (length l')
                  /\ (forall j, (j < i)%nat -> nth_error l' j = nth_error l j)
                  /\ (forall j, (i <= j)%nat -> nth_error l' j = nth_error l (S j))
     | None => (length l <= i)%nat end)
  /\ (forall i x, match seq_insert l i x with
     | Some l' => (i <= length l)%nat /\ length l' = S (length l) /\ nth_error l' i = Some x
                  /\ (forall j, (j < i)%nat -> nth_error l' j = nth_error l j)
                  /\ (forall j, (i <= j)%nat -> nth_error l' (S j) = nth_error l j)
     | None => (length l < i)%nat \/ u32_max <= Z.of_nat (length l) end)
  /\ (forall s e, match seq_slice l s e with
     | Some l' => (s <= e <= length l)%nat /\ length l' = (e - s)%nat
                  /\ (forall j, (j < e - s)%nat -> nth_error l' j = nth_error l (s + j))
     | None => (e < s)%nat \/ (length l < e)%nat end).
Proof.
  intros l. split; [intros; apply seq_put_spec|]. split; [intros; apply seq_del_spec|].
  split; [intros; apply seq_insert_spec|intros; apply seq_slice_spec].
Qed.
Print Assumptions C16_byte_operations.

Definition ex_bops : list (hop nat) :=
  [OBytesNew; OBytesPush 0 255; OBytesPush 1 256; OBytesInsert 1 0 3; OBytesAppend 2 2;
   OBytesSlice 3 1 4; OBytesDel 4 3; OBytesDel 4 1; OBytesGet 5 1; OBytesLen 5; OBytesToString 5; OStringLen 8]%nat.
Example C16_bytes_hyp :
  exists h ws rs, hrun 1 [] [] ex_bops = (h, ws, rs) /\ fits h
  /\ map is_ok rs = [true; true; false; true; true; true; false; true; true; true; true; true]
  /\ nth 6 ws 0 = val_of_u32 255 /\ nth 9 ws 0 = val_of_u32 2.
Proof.
  destruct (hrun 1 [] [] ex_bops) as [[h ws] rs] eqn:E.
  exists h, ws, rs. split; [reflexivity|]. vm_compute in E. injection E as <- <- <-.
  split; [unfold fits; vm_compute; discriminate|]. repeat (split; [vm_compute; reflexivity|]). vm_compute. reflexivity.
Qed.
