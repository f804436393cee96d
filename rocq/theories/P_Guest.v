(* C10: contracts can only name objects they were given.  The linear-memory half of C16. *)
From Coq Require Import ZArith Lia List Bool.
From Verif Require Import Prelude ValModel ValSpec ValProofs SymbolProofs GuestProofs ContainerModel ContainerSpec ContainerProofs HeapModel HeapSpec TreeProofs HeapProofs ConvProofs HeapProofs2
  SeqProofs MapFnProofs SeqSpecProofs HostFnModel HostFnSpec HostFnProofs HostFnProofs2 GuestModel GuestSpec GuestHandles GuestCalls GuestMemProofs GuestMem2 GuestSafety.
Import ListNotations.
Open Scope Z_scope.
Ltac Zify.zify_post_hook ::= Z.div_mod_to_equations.

(* ---------------------------------------------------------------- C10 *)

(* Whatever the guests of a transaction do, every object a frame's word [x] was resolved to
   had been handed to that very frame before, under the same handle and type; a well formed
   word is the very word the frame was given.  Words that are not handles are themselves. *)
Theorem C10_handles_resolve_only_to_granted_objects :
  forall d h args m steps pre f x a post,
  w_log (run d (start h args m) steps) = pre ++ (f, Took x a) :: post ->
  (is_object x = false -> a = x)
  /\ (is_object x = true -> exists x', In (f, Gave x' a) pre
        /\ get_tag a = get_tag x /\ get_tag x' = get_tag x /\ get_major x' = get_major x
        /\ (word x -> is_good x = true -> x' = x)).
Proof.
  intros d h args m steps pre f x a post E. destruct (run_inv d steps _ (start_inv h args m)) as (_ & _ & _ & _ & S).
  specialize (S pre f x a post E). destruct (is_object x); split; intros O; try discriminate; auto.
Qed.
Print Assumptions C10_handles_resolve_only_to_granted_objects.

(* The handles of a frame: its nth object gets the nth even handle, so different grants get
   different words, and each stays valid, for the same object, as long as the frame runs. *)
Theorem C10_handles_stay_valid :
  forall d h args m steps fr, let w := run d (start h args m) steps in In fr (w_frames w) ->
  let gr := grants (fr_id fr) (w_log w) in
  Z.of_nat (length gr) <= 2 ^ 31 ->
  forall n x a, nth_error gr n = Some (x, a) ->
  x = rel_word (get_tag a) n /\ names (fr_table fr) x a /\ relative_to_absolute (fr_table fr) x = Ok a
  /\ forall n' x' a', nth_error gr n' = Some (x', a') -> x' = x -> n' = n /\ a' = a.
Proof.
  intros d h args m steps fr w I gr L n x a N. destruct (run_inv d steps _ (start_inv h args m)) as (_ & _ & _ & T & _).
  rewrite Forall_forall in T. destruct (T fr I) as [(extra & TE & _) G]. fold w gr in TE, G.
  assert (R : forall n x a, nth_error gr n = Some (x, a) -> is_object a = true /\ x = rel_word (get_tag a) n
     /\ is_object x = true /\ get_major x = 2 * Z.of_nat n /\ get_tag x = get_tag a).
  { clear n x a N. intros n x a N. destruct (G n x a N) as [O X]. split; auto. assert (Ln : (n < length gr)%nat) by (apply nth_error_Some; congruence).
    assert (AS : as_u32 (2 * Z.of_nat n) = 2 * Z.of_nat n) by (unfold as_u32; lia). rewrite AS in X.
    destruct (object_word_facts (2 * Z.of_nat n) (get_tag a) ltac:(lia) (obj_in_tags a O)) as (A1 & A2 & A3 & A4 & _).
    subst x. auto. }
  destruct (R n x a N) as (O & X & Ox & M & TG). split; auto.
  assert (NM : names (fr_table fr) x a).
  { apply (nm_obj _ x n a); auto. rewrite TE. rewrite nth_error_app1.
    - rewrite nth_error_map, N. reflexivity.
    - rewrite map_length. apply nth_error_Some. congruence. }
  split; auto. split; [now apply r2a_names|]. intros n' x' a' N' ->. destruct (R n' x a' N') as (_ & _ & _ & M' & _).
  assert (n' = n) by lia. subst n'. split; auto. congruence.
Qed.
Print Assumptions C10_handles_stay_valid.

(* Out to a frame and back. *)
Theorem C10_out_and_back :
  forall g a, live (g_heap g) a -> Z.of_nat (length (g_table g)) < 2 ^ 31 ->
  exists g1 w g2, give g a = (g1, Ok w) /\ take g1 w = (g2, Ok a) /\ is_good w = true
    /\ (is_object a = true -> w = rel_word (get_tag a) (length (g_table g)) /\ g_table g1 = g_table g ++ [a])
    /\ (is_object a = false -> w = a).
Proof.
  intros g a L B. destruct (give g a) as [g1 r] eqn:G. destruct (give_ok g a g1 r (fun _ _ _ => L) G) as (_ & _ & _ & Q).
  destruct (Q L B) as (w & -> & W & Gd & N & _ & _). pose proof (proj2 (r2a_names _ _ _) N) as RA.
  exists g1, w. unfold take. rewrite RA. eexists. split; auto. split; [reflexivity|]. split; auto.
  unfold give in G. destruct (absolute_to_relative (g_table g) a) as [t [w'|e]] eqn:A; [|apply pair_equal_spec in G as [_ G]; discriminate].
  apply pair_equal_spec in G as [G1 G2]. assert (w' = w) by congruence. subst w'. destruct (a2r_back _ _ _ _ A B) as [_ E].
  destruct (a2r_cases _ _ _ _ A) as [(O & -> & R)|[(_ & _ & _ & R)|[(O & -> & _ & R)|(_ & _ & _ & e & R)]]]; try discriminate R.
  - split; [congruence|]. intros _. congruence.
  - split; [|congruence]. intros _. split; auto. subst g1. reflexivity.
Qed.
Print Assumptions C10_out_and_back.

(* Without the bound the claim is false of the code: index_to_handle shifts the index left
   in 32 bits, so the frame's object number 2^31 gets the handle of its object number 0. *)
Theorem C10_out_and_back_needs_the_bound_refuted :
  forall a b, is_object a = true -> is_object b = true -> get_tag a = get_tag b ->
  is_relative_handle (get_major a) = false ->
  exists table w, Forall (fun x => x = b) table /\ absolute_to_relative table a = (table ++ [a], Ok w)
    /\ relative_to_absolute (table ++ [a]) w = Ok b.
Proof.
  intros a b Oa Ob T R. remember (Z.to_nat (2 ^ 31)) as n eqn:En.
  assert (Ln : Z.of_nat n = 2 ^ 31) by lia. clear En. exists (repeat b n).
  exists (object_word 0 (get_tag a)). split; [apply Forall_forall; intros x I; now apply repeat_spec in I|].
  unfold absolute_to_relative. rewrite Oa, R. cbv zeta. rewrite repeat_length.
  assert (H : index_to_handle n true = Ok 0).
  { unfold index_to_handle, fits_u32. rewrite Ln. destruct (Z.leb_spec (2 ^ 31) u32_max); [|unfold u32_max in *; lia]. reflexivity. }
  rewrite H. split; [reflexivity|]. apply r2a_names.
  destruct (object_word_facts 0 (get_tag a) ltac:(lia) (obj_in_tags a Oa)) as (A1 & A2 & A3 & A4 & _).
  apply (nm_obj _ _ 0%nat b); auto.
  - destruct n; [lia|reflexivity].
  - congruence.
Qed.
Print Assumptions C10_out_and_back_needs_the_bound_refuted.

(* Absolute handles, handles beyond the frame's objects and handles of another type are
   refused wherever a guest can put them: as an argument of any container or memory
   function, among words a function reads from memory, or as the frame's result; and the
   call has no effect. *)
Theorem C10_bad_handles_are_refused :
  forall d g,
  (forall op i g' r, In i (call_args op) -> bad_handle (g_table g) (as_u64 i) ->
     host_call d g op = (g', r) -> (exists e, r = Err e) /\ same_state g g')
  /\ (forall op i g' r, mop_arg op = Some i -> bad_handle (g_table g) (as_u64 i) ->
     mem_call d g op = (g', r) -> (exists e, r = Err e) /\ same_state g g')
  /\ (forall op pos len k w g' r, guest_ok g -> mop_ok op -> mop_words op = Some (pos, len) ->
     0 <= k < len -> holds_num 8 (g_mem g) (pos + 8 * k) w -> bad_handle (g_table g) w ->
     mem_call d g op = (g', r) -> (exists e, r = Err e) /\ same_state g g').
Proof.
  intros d g. split; [|split].
  - intros op i g' r I B. apply bad_handle_names in B as [_ B]. now apply (refused_call d g op i).
  - intros op i g' r I B. apply bad_handle_names in B as [_ B]. now apply (refused_mem d g op i).
  - intros op pos len k w g' r O MO A K H B X. apply bad_handle_names in B as [_ B].
    apply (refused_words d g op pos len w g' r O MO A); eauto.
Qed.
Print Assumptions C10_bad_handles_are_refused.

Theorem C10_bad_results_are_refused :
  forall d w f rest i, w_frames w = f :: rest -> bad_handle (fr_table f) (as_u64 i) ->
  let w' := step d w (WReturn i) in
  w_heap w' = w_heap w /\ w_frames w' = rest /\ w_log w' = w_log w.
Proof.
  intros d w f rest i E B. apply bad_handle_names in B as [_ B]. cbv zeta. unfold step. rewrite E. unfold marshal_from_wasm.
  destruct (is_good (as_u64 i)); [|auto]. unfold take. cbn [enter_guest g_table].
  destruct (relative_to_absolute (fr_table f) (as_u64 i)) as [a|e] eqn:R; [apply r2a_names in R; elim (B _ R)|].
  destruct rest; cbn; rewrite app_nil_r; auto.
Qed.
Print Assumptions C10_bad_results_are_refused.

(* A word of the right shape for another type of argument is refused too. *)
Theorem C10_mistyped_arguments_are_refused :
  forall d g op tys n ty i a g' r, arg_types op = Some tys -> nth_error tys n = Some ty -> nth_error (call_args op) n = Some i ->
  names (g_table g) (as_u64 i) a -> has_type ty a = false ->
  host_call d g op = (g', r) -> (exists e, r = Err e) /\ same_state g g'.
Proof.
  intros d g op tys n ty i a g' r T N1 N2 NM HT X. unfold host_call in X. rewrite T in X.
  destruct (dispatch_args g _) as [g1 ra] eqn:D. apply dispatch_args_ok in D as [SM D].
  destruct ra as [la|]; [|pe X; split; eauto]. exfalso. clear X.
  assert (I : In (ty, i) (combine tys (call_args op))).
  { clear -N1 N2. revert n N1 N2. generalize (call_args op). induction tys as [|t tys IH]; intros l [|n] A B; destruct l; try discriminate; cbn in A, B.
    - left. congruence.
    - right. eauto. }
  clear -D I NM HT. induction D as [|p b l la (_ & N & H & _) D IH]; [destruct I|]. destruct I as [->|I]; auto.
  cbn [fst snd] in *. rewrite (names_fun _ _ _ _ N NM) in H. congruence.
Qed.
Print Assumptions C10_mistyped_arguments_are_refused.

(* Over a whole transaction: the objects never change, and every object a frame can name
   exists and is well formed, whatever the guests do. *)
Theorem C10_objects_never_change :
  forall d w steps, (forall i o, nth_error (w_heap w) i = Some o -> nth_error (w_heap (run d w steps)) i = Some o)
  /\ (forall a t, denotes (w_heap w) a t -> denotes (w_heap (run d w steps)) a t).
Proof.
  intros d w steps. pose proof (run_extends d steps w) as X. split.
  - destruct X as [y ->]. intros i o N. rewrite nth_error_app1; auto. apply nth_error_Some. congruence.
  - intros a t D. eapply extends_denotes; eauto.
Qed.
Print Assumptions C10_objects_never_change.

Theorem C10_granted_objects_exist :
  forall d h args m steps, heap_ok h -> fits h -> Forall (live h) args -> Forall byte m ->
  steps_ok d (start h args m) steps ->
  let w := run d (start h args m) steps in fits (w_heap w) ->
  heap_ok (w_heap w)
  /\ forall fr x a, In fr (w_frames w) -> is_object x = true -> names (fr_table fr) x a -> exists t, denotes (w_heap w) a t.
Proof.
  intros d h args m steps H F L B S w Fw. destruct (run_safe d steps _ (start_ok h args m H F L B) S Fw) as [W1 W2].
  split; auto. intros fr x a I O N. rewrite Forall_forall in W2. destruct (W2 fr I) as [T _].
  destruct N as [x O'|x i a O' M N Tg]; [congruence|]. rewrite Forall_forall in T. apply nth_error_In in N.
  destruct (T a N) as [_ Lv]. now apply live_denotes.
Qed.
Print Assumptions C10_granted_objects_exist.

(* Nothing a frame does reaches another frame's table or memory; a return only appends the
   result to its caller's table. *)
Theorem C10_frames_are_isolated :
  forall d w s f rest, w_frames w = f :: rest ->
  (exists pre f', w_frames (step d w s) = pre ++ f' :: rest /\ fr_id f' = fr_id f /\ (exists x, fr_table f' = fr_table f ++ x)
     /\ (pre <> [] -> fr_mem f' = fr_mem f))
  \/ w_frames (step d w s) = rest
  \/ (exists c rest' c', rest = c :: rest' /\ w_frames (step d w s) = c' :: rest' /\ fr_id c' = fr_id c
      /\ fr_mem c' = fr_mem c /\ exists x, fr_table c' = fr_table c ++ x).
Proof. exact step_frames. Qed.
Print Assumptions C10_frames_are_isolated.

(* A guest's call means what the function means on the values its words stand for, and the
   word it gets back stands for the result. *)
Theorem C10_guest_calls_follow_their_meaning :
  forall d g c g' r, guest_ok g -> arg_types (on_words c) <> None -> stands_all g c ->
  host_call d g (on_words c) = (g', r) -> fits (g_heap g') -> Z.of_nat (length (g_table g)) < 2 ^ 31 ->
  g_mem g' = g_mem g
  /\ (forall i t, stands g i t -> stands g' i t)
  /\ match r with
     | Ok w => exists t, astep (on_trees c) = Some [t] /\ stands g' w t
     | Err e => astep (on_trees c) = None
                \/ (e = ESys TContext CExceededLimit /\ Exists (fun p => (d < tdepth (snd p))%nat) (hop_args c))
     end.
Proof.
  intros d g c g' r O T S X F L. destruct (host_call_grown _ _ _ _ _ O X) as [GR M]. split; auto. split.
  - intros i t. now apply grown_stands.
  - exact (host_call_means d g c g' r O T S X F L).
Qed.
Print Assumptions C10_guest_calls_follow_their_meaning.

(* A caller passes its callee a vector of a byte string and a number; the callee unpacks,
   measures and returns the byte string. *)
Definition ex_heap : heap := [HOBytes [10; 20; 30]; HOVec [obj_word 0 (HOBytes []); val_of_u32 5]; HOMap []].
Definition ex_args : list Z := [obj_word 1 (HOVec []); obj_word 2 (HOMap [])].
Definition ex_steps : list wstep :=
  [ WCall (as_i64 (rel_word TgVecObject 0)) (repeat 0 64);
    WHost (OBytesLen (as_i64 (rel_word TgBytesObject 0)));
    WHost (OBytesPush (as_i64 (rel_word TgBytesObject 0)) 40%nat);
    WMem (MCopyTo KBytes (as_i64 (rel_word TgBytesObject 1)) 1 8 3);
    WHost (OMapLen (as_i64 (rel_word TgMapObject 1)));
    WReturn (as_i64 (rel_word TgBytesObject 1)) ].
Lemma ex_heap_ok : heap_ok ex_heap.
Proof.
  assert (D0 : denotes ex_heap (obj_word 0 (HOBytes [])) (TBytes [10; 20; 30])).
  { apply (dn_object ex_heap 0 (HOBytes [10; 20; 30])); [reflexivity|lia|]. constructor. split; [vm_compute; discriminate|repeat constructor; lia]. }
  repeat (apply Forall_cons); [| | |apply Forall_nil].
  - eexists. constructor. split; [vm_compute; discriminate|repeat constructor; lia].
  - eexists. constructor; [vm_compute; discriminate|]. constructor; [exact D0|]. constructor; [|constructor]. apply u32_den. unfold u32_max. lia.
  - exists (TMap []). constructor; [vm_compute; discriminate| |constructor]. constructor.
Qed.
Example C10_run_hyp : heap_ok ex_heap /\ fits ex_heap /\ Forall (live ex_heap) ex_args /\ Forall byte (repeat 0 64)
  /\ steps_ok 10 (start ex_heap ex_args (repeat 0 64)) ex_steps.
Proof.
  split; [exact ex_heap_ok|]. split; [unfold fits; vm_compute; discriminate|]. split; [|split].
  - assert (L : forall i o, nth_error ex_heap i = Some o -> live ex_heap (obj_word i o)).
    { intros i o N. pose proof ex_heap_ok as O. unfold heap_ok in O. rewrite Forall_forall in O.
      destruct (O o (nth_error_In _ _ N)) as [t D]. apply (denotes_live _ _ t), dn_object; auto.
      assert (Li : (i < length ex_heap)%nat) by (apply nth_error_Some; congruence). cbn in Li. lia. }
    constructor; [exact (L 1%nat _ eq_refl)|]. constructor; [exact (L 2%nat _ eq_refl)|constructor].
  - apply Forall_forall. intros x I. apply repeat_spec in I. subst x. unfold byte. lia.
  - unfold ex_steps.
    assert (B : Forall byte (repeat 0 64)) by (apply Forall_forall; intros x I; apply repeat_spec in I; subst x; unfold byte; lia).
    assert (U : forall x, 0 <= x <= 8 -> u32 x) by (intros x X; unfold u32, u32_max; lia).
    split; [exact B|]. split; [exact I|]. split; [exact I|]. split; [split; [|split]; apply U; lia|]. split; [exact I|]. split; exact I.
Qed.
Example C10_run :
  let w := run 10 (start ex_heap ex_args (repeat 0 64)) ex_steps in
  length (w_heap w) = 4%nat /\ fits (w_heap w)
  /\ map fr_table (w_frames w) = [[obj_word 1 (HOVec []); obj_word 2 (HOMap []); obj_word 3 (HOBytes [])]]
  /\ w_log w = [(0%nat, Gave (rel_word TgVecObject 0) (obj_word 1 (HOVec [])));
                (0%nat, Gave (rel_word TgMapObject 1) (obj_word 2 (HOMap [])));
                (0%nat, Took (rel_word TgVecObject 0) (obj_word 1 (HOVec [])));
                (1%nat, Gave (rel_word TgBytesObject 0) (obj_word 0 (HOBytes [])));
                (1%nat, Gave (val_of_u32 5) (val_of_u32 5));
                (1%nat, Took (rel_word TgBytesObject 0) (obj_word 0 (HOBytes [])));
                (1%nat, Gave (val_of_u32 3) (val_of_u32 3));
                (1%nat, Took (rel_word TgBytesObject 0) (obj_word 0 (HOBytes [])));
                (1%nat, Gave (rel_word TgBytesObject 1) (obj_word 3 (HOBytes [])));
                (1%nat, Took (rel_word TgBytesObject 1) (obj_word 3 (HOBytes [])));
                (1%nat, Took (rel_word TgBytesObject 1) (obj_word 3 (HOBytes [])));
                (0%nat, Gave (rel_word TgBytesObject 2) (obj_word 3 (HOBytes [])))]
  /\ bad_handle [obj_word 0 (HOBytes []); obj_word 3 (HOBytes [])] (rel_word TgMapObject 1)
  /\ bad_handle [obj_word 0 (HOBytes [])] (obj_word 0 (HOBytes [])).
Proof.
  cbv zeta. split; [vm_compute; reflexivity|]. split; [unfold fits; vm_compute; discriminate|].
  split; [vm_compute; reflexivity|]. split; [vm_compute; reflexivity|]. split; (split; [vm_compute; reflexivity|]).
  - right; right. eexists. split; [vm_compute; reflexivity|]. vm_compute. discriminate.
  - left. vm_compute. reflexivity.
Qed.

(* ---------------------------------------------------------------- C16 *)

(* Copying an object's bytes out: succeeds exactly when both ranges are inside (their ends
   computed without wrap-around), writes exactly the addressed bytes of the memory, and
   changes nothing else; a failure changes nothing. *)
Theorem C16_copy_to_memory :
  forall d g k i b op lp len g' r, stands g i (kind_tree k b) -> (k = KSymbol -> is_object (as_u64 i) = true) ->
  u32 op -> u32 lp -> u32 len -> mem_call d g (MCopyTo k i op lp len) = (g', r) ->
  (op + len <= Z.of_nat (length b) /\ lp + len <= Z.of_nat (length (g_mem g)) /\ r = Ok val_void
   /\ g_heap g' = g_heap g /\ g_table g' = g_table g
   /\ exists s, Z.of_nat (length s) = len /\ holds_bytes b op s /\ written (g_mem g) (g_mem g') lp s)
  \/ (~ (op + len <= Z.of_nat (length b) /\ lp + len <= Z.of_nat (length (g_mem g)))
      /\ (exists e, r = Err e) /\ same_state g g').
Proof. intros d g k i b op lp len g' r ST S [A _] [B _] [C _]. now apply copy_to_ok. Qed.
Print Assumptions C16_copy_to_memory.

(* Copying memory into a byte string makes a new one, grown with zeros if need be; the
   memory and the old byte string stay as they are. *)
Theorem C16_copy_from_memory :
  forall d g i b op lp len g' r, guest_ok g -> stands g i (TBytes b) -> u32 op -> u32 lp -> u32 len ->
  mem_call d g (MCopyFrom i op lp len) = (g', r) -> fits (g_heap g') -> Z.of_nat (length (g_table g)) < 2 ^ 31 ->
  g_mem g' = g_mem g /\ stands g' i (TBytes b) /\
  ((op + len <= u32_max /\ lp + len <= Z.of_nat (length (g_mem g))
    /\ exists w b', r = Ok w /\ stands g' w (TBytes b')
       /\ Z.of_nat (length b') = Z.max (Z.of_nat (length b)) (op + len)
       /\ forall p, 0 <= p -> at_ b' p = if (op <=? p) && (p <? op + len) then at_ (g_mem g) (lp + (p - op)) else at_ b p)
   \/ (~ (op + len <= u32_max /\ lp + len <= Z.of_nat (length (g_mem g))) /\ (exists e, r = Err e) /\ same_state g g')).
Proof.
  intros d g i b op lp len g' r O ST U1 U2 U3 X F L.
  assert (G : grown g g') by (apply (mem_call_grown d g (MCopyFrom i op lp len) g' r); cbn; auto).
  destruct (copy_from_ok d g i b op lp len g' r ST (proj2 (proj2 O)) (proj1 U1) (proj1 U2) (proj1 U3) X F L) as [A B].
  split; auto. split; auto. now apply (grown_stands g).
Qed.
Print Assumptions C16_copy_from_memory.

(* A new object from a range of memory: exactly these bytes, when the range is inside (and
   the bytes are a symbol, if one is asked for). *)
Theorem C16_new_from_memory :
  forall d g k lp len g' r, guest_ok g -> u32 lp -> u32 len -> mem_call d g (MNew k lp len) = (g', r) ->
  fits (g_heap g') -> Z.of_nat (length (g_table g)) < 2 ^ 31 ->
  g_mem g' = g_mem g /\
  ((exists b, Z.of_nat (length b) = len /\ holds_bytes (g_mem g) lp b /\ (k = KSymbol -> valid_symbol b)
      /\ exists w, r = Ok w /\ stands g' w (kind_tree k b))
   \/ (~ (exists b, Z.of_nat (length b) = len /\ holds_bytes (g_mem g) lp b /\ (k = KSymbol -> valid_symbol b))
       /\ (exists e, r = Err e) /\ same_state g g')).
Proof. intros d g k lp len g' r O [A _] B. now apply new_from_ok. Qed.
Print Assumptions C16_new_from_memory.

(* Out then in: a new object made of the copied range has the bytes of the old one, and
   copying the range back over the old byte string gives its bytes again. *)
Lemma sub_slice m m' lp s : written m m' lp s -> 0 <= lp -> lp + Z.of_nat (length s) <= Z.of_nat (length m) -> holds_bytes m' lp s.
Proof.
  intros [L W] P B. split; auto. split; [now rewrite L|]. intros k K. rewrite W by lia.
  destruct (Z.leb_spec lp (lp + k)); [|lia]. destruct (Z.ltb_spec (lp + k) (lp + Z.of_nat (length s))); [|lia]. cbn [andb]. f_equal. lia.
Qed.
Theorem C16_copy_out_then_in_restores :
  forall d g i b op lp len g1, guest_ok g -> stands g i (TBytes b) -> u32 op -> u32 lp -> u32 len ->
  mem_call d g (MCopyTo KBytes i op lp len) = (g1, Ok val_void) -> Z.of_nat (length (g_table g)) < 2 ^ 31 ->
  (forall g2 r, mem_call d g1 (MCopyFrom i op lp len) = (g2, r) -> fits (g_heap g2) ->
     exists w, r = Ok w /\ stands g2 w (TBytes b))
  /\ (forall g2 r, mem_call d g1 (MNew KBytes lp len) = (g2, r) -> fits (g_heap g2) ->
     exists w s, r = Ok w /\ stands g2 w (TBytes s) /\ Z.of_nat (length s) = len /\ holds_bytes b op s).
Proof.
  intros d g i b op lp len g1 O ST U1 U2 U3 X LT.
  assert (G : grown g g1) by (apply (mem_call_grown d g (MCopyTo KBytes i op lp len) g1 (Ok val_void)); cbn; auto).
  pose proof (C16_copy_to_memory d g KBytes i b op lp len g1 _ ST ltac:(discriminate) U1 U2 U3 X) as [(B1 & B2 & _ & EH & ET & s & Ls & HB & W)|(_ & [e E] & _)]; [|discriminate].
  destruct U1 as [P1 M1], U2 as [P2 M2], U3 as [P3 M3].
  assert (HM : holds_bytes (g_mem g1) lp s) by (eapply sub_slice; eauto; lia).
  assert (O1 : guest_ok g1).
  { assert (G' := mem_call_grown d g (MCopyTo KBytes i op lp len) g1 (Ok val_void) O). destruct O as (O1 & O2 & O3).
    split; [now rewrite EH|]. split; [now rewrite EH, ET|]. destruct W as [WL WA].
    apply Forall_forall. intros x I. apply In_nth with (d := 0) in I as (n & Ln & <-).
    change (nth n (g_mem g1) 0) with (nth n (g_mem g1) 0). replace (nth n (g_mem g1) 0) with (at_ (g_mem g1) (Z.of_nat n)) by (unfold at_; now rewrite Nat2Z.id).
    rewrite WA by lia. assert (AT : forall l p, Forall byte l -> byte (at_ l p)).
    { intros l p F. unfold at_. destruct (nth_in_or_default (Z.to_nat p) l 0) as [I| ->]; [|unfold byte; lia]. rewrite Forall_forall in F. auto. }
    destruct (_ && _); apply AT; auto. destruct ST as (_ & a & _ & D). cbn in D. apply bytes_visit in D as (_ & _ & _ & Fb).
    destruct HB as (_ & HB2 & HB3). apply Forall_forall. intros x I. apply In_nth with (d := 0) in I as (k & Lk & <-).
    replace (nth k s 0) with (at_ s (Z.of_nat k)) by (unfold at_; now rewrite Nat2Z.id). rewrite <- HB3 by lia. now apply AT. }
  assert (ST1 : stands g1 i (TBytes b)) by now apply (grown_stands g).
  split; intros g2 r Y F.
  - destruct (C16_copy_from_memory d g1 i b op lp len g2 r O1 ST1 (conj P1 M1) (conj P2 M2) (conj P3 M3) Y F ltac:(now rewrite ET))
      as (_ & _ & [(_ & _ & w & b' & -> & S & L & A)|(Q & _)]).
    + exists w. split; auto. assert (b' = b); [|now subst].
      apply list_at_eq; [lia|]. intros k K. rewrite A by lia. destruct (Z.leb_spec op k); destruct (Z.ltb_spec k (op + len)); cbn [andb]; auto.
      destruct HM as (_ & _ & HM). destruct HB as (_ & _ & HB). rewrite HM by lia. rewrite <- HB by lia. f_equal. lia.
    + exfalso. apply Q. destruct ST as (_ & a & _ & D). cbn in D. apply bytes_visit in D as (_ & _ & Sh & _). unfold short in Sh.
      destruct W as [WL _]. rewrite WL. lia.
  - destruct (C16_new_from_memory d g1 KBytes lp len g2 r O1 (conj P2 M2) (conj P3 M3) Y F ltac:(now rewrite ET))
      as (_ & [(s' & L & H & _ & w & -> & S)|(Q & _)]).
    + exists w, s'. split; auto. split; auto. split; auto. assert (s' = s) by (eapply holds_bytes_fun; eauto; lia). now subst.
    + exfalso. apply Q. exists s. split; auto. split; auto. discriminate.
Qed.
Print Assumptions C16_copy_out_then_in_restores.

(* Looking a symbol up in a list of slices: the first place holding exactly its bytes. *)
Theorem C16_symbol_index :
  forall d g i t lp len g' r, guest_ok g -> stands g i (TSymbol t) -> u32 lp -> u32 len ->
  mem_call d g (MSymbolIndex i lp len) = (g', r) ->
  same_state g g' /\
  ((exists bs, Z.of_nat (length bs) = len /\ holds_slices (g_mem g) lp bs
      /\ ((exists n, nth_error bs n = Some t /\ (forall j, (j < n)%nat -> nth_error bs j <> Some t) /\ r = Ok (val_of_u32 (Z.of_nat n)))
          \/ (~ In t bs /\ r = Err (ESys TValue CMissingValue))))
   \/ ((forall bs, ~ (Z.of_nat (length bs) = len /\ holds_slices (g_mem g) lp bs)) /\ exists e, r = Err e)).
Proof. intros d g i t lp len g' r (_ & _ & O) ST [A _] [B _]. now apply symbol_index_ok. Qed.
Print Assumptions C16_symbol_index.

(* Vectors: a new vector of the values the words at [pos] stand for; unpacking writes words
   standing for the elements, touching only the addressed range. *)
Theorem C16_vec_from_memory :
  forall d g pos len g' r, guest_ok g -> u32 pos -> u32 len -> mem_call d g (MVecNew pos len) = (g', r) ->
  fits (g_heap g') -> Z.of_nat (length (g_table g)) < 2 ^ 31 ->
  g_mem g' = g_mem g /\
  ((exists ts w, reads g pos len ts /\ r = Ok w /\ stands g' w (TVec ts))
   \/ ((forall ts, ~ reads g pos len ts) /\ (exists e, r = Err e) /\ same_state g g')).
Proof. exact vec_new_ok. Qed.
Print Assumptions C16_vec_from_memory.

Theorem C16_vec_to_memory :
  forall d g i ts pos len g' r, stands g i (TVec ts) -> u32 pos -> u32 len ->
  Z.of_nat (length (g_table g) + length ts) <= 2 ^ 31 -> mem_call d g (MVecUnpack i pos len) = (g', r) ->
  (Z.of_nat (length ts) = len /\ r = Ok val_void /\ wrote g g' pos ts)
  \/ (~ (Z.of_nat (length ts) = len /\ pos + 8 * len <= u32_max /\ pos + 8 * len <= Z.of_nat (length (g_mem g)))
      /\ (exists e, r = Err e) /\ same_state g g').
Proof. exact vec_unpack_ok. Qed.
Print Assumptions C16_vec_to_memory.

Theorem C16_vec_out_then_in_restores :
  forall d g i ts pos len g1 g2 r, guest_ok g -> stands g i (TVec ts) -> u32 pos -> u32 len ->
  Z.of_nat (length (g_table g) + length ts) <= 2 ^ 31 -> Z.of_nat (length (g_table g1)) < 2 ^ 31 ->
  mem_call d g (MVecUnpack i pos len) = (g1, Ok val_void) -> mem_call d g1 (MVecNew pos len) = (g2, r) -> fits (g_heap g2) ->
  exists w, r = Ok w /\ stands g2 w (TVec ts).
Proof.
  intros d g i ts pos len g1 g2 r O ST U1 U2 T T1 X Y F.
  assert (G : grown g g1) by (apply (mem_call_grown d g (MVecUnpack i pos len) g1 (Ok val_void)); cbn; auto).
  assert (F1 : fits (g_heap g1)) by (eapply extends_fits; [apply (mem_call_extends _ _ _ _ _ Y)|exact F]).
  pose proof (gr_ok _ _ G F1 O) as O1.
  destruct (vec_unpack_ok d g i ts pos len g1 _ ST U1 U2 T X) as [(L & _ & W1 & W2 & W3 & [WL WU] & ws & W4 & W5)|(_ & [e E] & _)]; [|discriminate].
  assert (RD : reads g1 pos len ts).
  { split; [lia|]. exists ws. assert (LW : length ws = length ts) by (clear -W5; induction W5; cbn; auto).
    split; [lia|]. split; [rewrite WL; lia|]. split; auto. pose proof (holds_words_word _ _ _ W4) as FW. clear -W5 FW.
    induction W5 as [|w t ws ts (_ & a & N & D) _ IH]; constructor; inversion FW; subst; auto. exists a. rewrite as_u64_id in N by auto. auto. }
  destruct (vec_new_ok d g1 pos len g2 r O1 U1 U2 Y F T1) as [_ [(ts' & w & R & -> & S)|(Q & _)]]; [|elim (Q _ RD)].
  exists w. split; auto. now rewrite (reads_fun g1 pos len ts ts' RD R).
Qed.
Print Assumptions C16_vec_out_then_in_restores.

(* Maps (C12 and C13 say what OMapFromSlices and OMapUnpack mean). *)
Theorem C16_map_from_memory :
  forall d sp g keys vals len g' r, guest_ok g -> (1 <= d)%nat -> u32 keys -> u32 vals -> u32 len ->
  mem_call d g (MMapNew sp keys vals len) = (g', r) -> fits (g_heap g') -> Z.of_nat (length (g_table g)) < 2 ^ 31 ->
  g_mem g' = g_mem g /\
  ((exists ks ts m w, Z.of_nat (length ks) = len /\ holds_slices (g_mem g) keys ks /\ reads g vals len ts
      /\ astep (OMapFromSlices sp ks ts) = Some [TMap m] /\ r = Ok w /\ stands g' w (TMap m))
   \/ (~ (exists ks ts m, Z.of_nat (length ks) = len /\ holds_slices (g_mem g) keys ks /\ reads g vals len ts
          /\ astep (OMapFromSlices sp ks ts) = Some [TMap m])
       /\ (exists e, r = Err e) /\ g_table g' = g_table g /\ extends (g_heap g) (g_heap g'))).
Proof. exact map_new_ok. Qed.
Print Assumptions C16_map_from_memory.

Theorem C16_map_to_memory :
  forall d sp g i m keys vals len g' r, guest_ok g -> stands g i (TMap m) -> u32 keys -> u32 vals -> u32 len ->
  Z.of_nat (length (g_table g)) + len <= 2 ^ 31 -> mem_call d g (MMapUnpack sp i keys vals len) = (g', r) ->
  (exists ks ts, Z.of_nat (length ks) = len /\ holds_slices (g_mem g) keys ks
      /\ astep (OMapUnpack sp (TMap m) ks) = Some ts /\ Z.of_nat (length ts) = len /\ r = Ok val_void /\ wrote g g' vals ts)
   \/ (~ (vals + 8 * len <= u32_max /\ vals + 8 * len <= Z.of_nat (length (g_mem g))
          /\ exists ks ts, Z.of_nat (length ks) = len /\ holds_slices (g_mem g) keys ks /\ astep (OMapUnpack sp (TMap m) ks) = Some ts)
       /\ (exists e, r = Err e) /\ same_state g g').
Proof. exact map_unpack_ok. Qed.
Print Assumptions C16_map_to_memory.

(* A guest holding a byte string and a vector, with 64 bytes of memory. *)
Definition ex_guest : guest :=
  {| g_heap := ex_heap; g_table := [obj_word 0 (HOBytes []); obj_word 1 (HOVec []); obj_word 2 (HOMap [])];
     g_mem := map Z.of_nat (seq 100 64); g_log := [] |}.
Example C16_memory_hyp :
  guest_ok ex_guest /\ stands ex_guest (as_i64 (rel_word TgBytesObject 0)) (TBytes [10; 20; 30])
  /\ stands ex_guest (as_i64 (rel_word TgVecObject 1)) (TVec [TBytes [10; 20; 30]; TU32 5])
  /\ (let '(g, r) := mem_call 10 ex_guest (MCopyTo KBytes (as_i64 (rel_word TgBytesObject 0)) 1 62 2) in
      r = Ok val_void /\ skipn 60 (g_mem g) = [160; 161; 20; 30])
  /\ snd (mem_call 10 ex_guest (MCopyTo KBytes (as_i64 (rel_word TgBytesObject 0)) 1 63 2)) = Err (ESys TWasmVm CIndexBounds)
  /\ snd (mem_call 10 ex_guest (MCopyTo KBytes (as_i64 (rel_word TgBytesObject 0)) 1 0 u32_max)) = Err (ESys TValue CArithDomain)
  /\ (let '(g, r) := mem_call 10 ex_guest (MCopyFrom (as_i64 (rel_word TgBytesObject 0)) 5 8 2) in
      r = Ok (rel_word TgBytesObject 3) /\ nth_error (g_heap g) 3 = Some (HOBytes [10; 20; 30; 0; 0; 108; 109]))
  /\ (let '(g, r) := mem_call 10 ex_guest (MVecUnpack (as_i64 (rel_word TgVecObject 1)) 48 2) in
      r = Ok val_void /\ is_ok (snd (mem_call 10 g (MVecNew 48 2))) = true
      /\ nth_error (g_heap (fst (mem_call 10 g (MVecNew 48 2)))) 3 = Some (HOVec [obj_word 0 (HOBytes []); val_of_u32 5])
      /\ is_ok (snd (mem_call 10 g (MVecNew 47 2))) = false).
Proof.
  assert (BR : forall n a, (a + n <= 200)%nat -> Forall byte (map Z.of_nat (seq a n))).
  { intros n a L. apply Forall_forall. intros x I. apply in_map_iff in I as (k & <- & I). apply in_seq in I. unfold byte. lia. }
  assert (D0 : denotes ex_heap (obj_word 0 (HOBytes [])) (TBytes [10; 20; 30])).
  { apply (dn_object ex_heap 0 (HOBytes [10; 20; 30])); [reflexivity|lia|]. constructor. split; [vm_compute; discriminate|repeat constructor; lia]. }
  assert (D1 : denotes ex_heap (obj_word 1 (HOVec [])) (TVec [TBytes [10; 20; 30]; TU32 5])).
  { apply (dn_object ex_heap 1 (HOVec [obj_word 0 (HOBytes []); val_of_u32 5])); [reflexivity|lia|]. constructor; [vm_compute; discriminate|].
    constructor; [exact D0|]. constructor; [|constructor]. apply u32_den. unfold u32_max. lia. }
  assert (D2 : denotes ex_heap (obj_word 2 (HOMap [])) (TMap [])).
  { apply (dn_object ex_heap 2 (HOMap [])); [reflexivity|lia|]. constructor; [vm_compute; discriminate|constructor|constructor]. }
  split; [|split; [|split]].
  - split; [exact ex_heap_ok|]. split; [|apply BR; lia]. cbn [ex_guest g_table g_heap].
    repeat (apply Forall_cons; [split; [vm_compute; reflexivity|eapply denotes_live; eassumption]|]). apply Forall_nil.
  - split; [vm_compute; reflexivity|]. exists (obj_word 0 (HOBytes [])). split; [|exact D0].
    apply (nm_obj _ _ 0%nat); vm_compute; reflexivity.
  - split; [vm_compute; reflexivity|]. exists (obj_word 1 (HOVec [])). split; [|exact D1].
    apply (nm_obj _ _ 1%nat); vm_compute; reflexivity.
  - repeat split; vm_compute; reflexivity.
Qed.

(* The keys "a", "b" and "c" named by slices at 8, values at 32. *)
Definition ex_fields : list Z :=
  [97; 98; 99; 0; 0; 0; 0; 0] ++ flat_map (fun p => le_bytes 4 (fst p) ++ le_bytes 4 (snd p)) [(0, 1); (1, 1); (2, 1)]
  ++ flat_map (le_bytes 8) [val_of_u32 7; val_void; rel_word TgBytesObject 0].
Example C16_map_run :
  let g := {| g_heap := ex_heap; g_table := g_table ex_guest; g_mem := ex_fields; g_log := [] |} in
  let '(g1, r1) := mem_call 10 g (MMapNew true 8 32 3) in
  let '(g2, r2) := mem_call 10 g1 (MMapUnpack true (as_i64 (rel_word TgMapObject 3)) 8 32 3) in
  let '(g3, r3) := mem_call 10 g1 (MMapUnpack false (as_i64 (rel_word TgMapObject 3)) 8 32 3) in
  r1 = Ok (rel_word TgMapObject 3)
  /\ option_map hobj_tag (nth_error (g_heap g1) 3) = Some TgMapObject
  /\ r2 = Ok val_void /\ skipn 32 (g_mem g2) = flat_map (le_bytes 8) [val_of_u32 7; val_void; rel_word TgBytesObject 4]
  /\ r3 = Err (ESys TObject CUnexpectedSize)
  /\ snd (mem_call 10 g (MSymbolIndex (as_i64 (match symbol_small_from_bytes [99] with Some w => w | None => 0 end)) 8 3)) = Ok (val_of_u32 2)
  /\ snd (mem_call 10 g (MSymbolIndex (as_i64 (match symbol_small_from_bytes [100] with Some w => w | None => 0 end)) 8 3))
     = Err (ESys TValue CMissingValue).
Proof. vm_compute. repeat split. Qed.
