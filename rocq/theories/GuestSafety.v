(* What every step preserves: handed objects exist, the heap only grows, other frames are left alone. *)
From Coq Require Import ZArith Lia List Bool.
From Verif Require Import Prelude ValModel ValSpec ValProofs SymbolProofs GuestProofs ContainerModel ContainerSpec ContainerProofs HeapModel HeapSpec TreeProofs HeapProofs ConvProofs HeapProofs2
  SeqProofs MapFnProofs SeqSpecProofs HostFnModel HostFnSpec HostFnProofs HostFnProofs2 GuestModel GuestSpec GuestHandles GuestCalls GuestMemProofs GuestMem2.
Import ListNotations.
Open Scope Z_scope.
Ltac Zify.zify_post_hook ::= Z.div_mod_to_equations.

Lemma with_arg_grown g ty i k g' r : guest_ok g ->
  (forall g1 a g' r, guest_ok g1 -> live (g_heap g1) a -> k g1 a = (g', r) -> grown g1 g') ->
  with_arg g ty i k = (g', r) -> grown g g'.
Proof.
  intros O K. unfold with_arg. destruct (dispatch_arg g ty i) as [g1 r1] eqn:D. apply dispatch_arg_ok in D as [SM D].
  pose proof (same_ok _ _ SM O) as O1. destruct r1 as [a|e]; intros X; [|pe X; now apply same_grown].
  destruct D as (G & N & _ & C).
  apply (grown_trans _ g1); [now apply same_grown|]. refine (K g1 a g' r O1 _ X).
  rewrite (proj1 SM). apply live_integrity; auto. refine (proj1 (names_live g _ a O _ N)). unfold word, as_u64. lia.
Qed.
Lemma fail_grown {A} g e (g' : guest) (r : res A) : fail g e = (g', r) -> grown g g'.
Proof. unfold fail. intros X. pe X. apply grown_refl. Qed.

Lemma visit_bytes_ok h a b : heap_ok h -> visit_bytes h a = Ok b -> bytes_ok b.
Proof.
  intros O V. unfold visit_bytes, visit_obj_untyped in V.
  destruct (is_relative_handle _); [discriminate|]. destruct (nth_error h (handle_to_index (get_major a))) as [o|] eqn:N; [|discriminate].
  cbn in V. destruct o; try discriminate. injection V as ->.
  unfold heap_ok in O. rewrite Forall_forall in O. apply nth_error_In in N. destruct (O _ N) as [u U]. now inversion U.
Qed.
Lemma visit_string_ok h a b : heap_ok h -> visit_string h a = Ok b -> bytes_ok b.
Proof.
  intros O V. unfold visit_string, visit_obj_untyped in V.
  destruct (is_relative_handle _); [discriminate|]. destruct (nth_error h (handle_to_index (get_major a))) as [o|] eqn:N; [|discriminate].
  cbn in V. destruct o; try discriminate. injection V as ->.
  unfold heap_ok in O. rewrite Forall_forall in O. apply nth_error_In in N. destruct (O _ N) as [u U]. now inversion U.
Qed.
Lemma visit_symbol_ok h a b : heap_ok h -> visit_symbol h a = Ok b -> bytes_ok b.
Proof.
  intros O V. unfold visit_symbol, visit_obj_untyped in V.
  destruct (is_relative_handle _); [discriminate|]. destruct (nth_error h (handle_to_index (get_major a))) as [o|] eqn:N; [|discriminate].
  cbn in V. destruct o; try discriminate. injection V as ->.
  unfold heap_ok in O. rewrite Forall_forall in O. apply nth_error_In in N. destruct (O _ N) as [u U]. inversion U as [| | |b' [A B]| | | | | |]; subst.
  split; [unfold short, u32_max; lia|]. eapply Forall_impl; [|exact B]. intros c C. unfold sym_char in C. lia.
Qed.
Lemma visit_kind_ok k h a b : heap_ok h -> visit_kind k h a = Ok b -> bytes_ok b.
Proof. destruct k; cbn; [apply visit_bytes_ok|apply visit_string_ok|apply visit_symbol_ok]. Qed.
Lemma set_mem_grown g m : (guest_ok g -> Forall byte m) -> grown g (set_mem g m).
Proof.
  intros B. split; cbn; auto using extends_refl.
  - exists []. now rewrite app_nil_r.
  - intros _ O. specialize (B O). destruct O as (O1 & O2 & O3). split; auto.
Qed.

Lemma mem_call_grown d g op g' r : guest_ok g -> mop_ok op -> mem_call d g op = (g', r) -> grown g g'.
Proof.
  intros O MO. destruct op as [k obj op lp len|obj op lp len|k lp len|s lp len|pos len|v pos len|sp ks vs len|sp m ks vs len]; cbn [mem_call mop_ok] in *.
  - (* copy_to *)
    apply with_arg_grown; auto. clear g O g' r. intros g a g' r O L X. unfold copy_to in X.
    destruct (visit_kind k (g_heap g) a) as [b|] eqn:V; [|now apply fail_grown in X].
    apply visit_kind_ok in V; [|apply O]. destruct (u32_max <? op + len); [now apply fail_grown in X|].
    destruct (slice_of b op len) as [s|] eqn:S; [|now apply fail_grown in X].
    unfold vm_write_bytes in X. destruct (lp + _ <=? _); [|now apply fail_grown in X]. pe X.
    apply set_mem_grown. intros (_ & _ & B). apply patch_bytes; auto. eapply slice_of_bytes; [|exact S]. exact (proj2 V).
  - (* copy_from *)
    apply with_arg_grown; auto. clear g O g' r. intros g a g' r O L X. unfold copy_from in X. cbv zeta in X.
    destruct (visit_bytes (g_heap g) a) as [b|] eqn:V; [|now apply fail_grown in X].
    apply visit_bytes_ok in V; [|apply O]. destruct (Z.ltb_spec u32_max (op + len)); [now apply fail_grown in X|].
    unfold vm_read_bytes in X. destruct (slice_of (g_mem g) lp len) as [s|] eqn:S; [|now apply fail_grown in X].
    pose proof (slice_of_bytes _ _ _ _ (proj2 (proj2 O)) S) as Fs. destruct MO as ([M1 _] & [M2 _] & [M3 _]).
    apply slice_of_iff in S; auto. destruct S as [_ SL]. destruct V as [VS VB].
    eapply (new_object_grown g); [|exact X]. intros _ _. eexists. constructor. unfold short in *.
    set (b1 := b ++ repeat 0 (Z.to_nat (op + len) - length b)).
    assert (L1 : Z.of_nat (length b1) = Z.max (Z.of_nat (length b)) (op + len)) by (unfold b1; rewrite app_length, repeat_length; lia).
    split; [unfold short; rewrite patch_length by lia; lia|]. apply patch_bytes; auto. unfold b1. apply Forall_app. split; auto.
    apply Forall_forall. intros x I. apply repeat_spec in I. subst x. unfold byte. lia.
  - (* new *)
    unfold new_from, vm_read_bytes. intros X. destruct (slice_of (g_mem g) lp len) as [s|] eqn:S; cbn [rbind] in X; [|now apply fail_grown in X].
    pose proof (slice_of_bytes _ _ _ _ (proj2 (proj2 O)) S) as Fs. destruct MO as ([M1 _] & [M2 M3]). apply slice_of_iff in S; auto. destruct S as [_ SL].
    assert (BO : bytes_ok s) by (split; auto; unfold short; lia).
    destruct (kind_object k s) as [o|] eqn:KO; [|now apply fail_grown in X].
    eapply (new_object_grown g); [|exact X]. intros _ _. destruct k; cbn in KO.
    + injection KO as <-. eexists. now constructor.
    + injection KO as <-. eexists. now constructor.
    + destruct (symbol_bytes_ok s) eqn:SB; [|discriminate]. injection KO as <-. apply symbol_bytes_ok_spec in SB. eexists. now constructor.
  - (* symbol index *)
    apply with_arg_grown; auto. clear g O g' r. intros g a g' r O L X. unfold symbol_index in X. pe X. apply grown_refl.
  - (* vec new *)
    destruct MO as ([P _] & [N NM]). unfold vec_new. destruct (read_vals g pos len) as [g1 rv] eqn:R.
    destruct (read_vals_reads _ _ _ _ _ O P N R) as [SM Q]. pose proof (same_grown _ _ SM) as G1.
    destruct rv as [la|e]; cbn [rbind]; [|intros X; apply fail_grown in X; eapply grown_trans; eauto].
    destruct Q as (L & SD & Q). destruct (check_all (g_heap g1) la) as [u|e] eqn:CA; cbn [rbind]; [|intros X; apply fail_grown in X; eapply grown_trans; eauto].
    unfold mvec_from. destruct (fits_u32 _); [|intros X; apply fail_grown in X; eapply grown_trans; eauto].
    intros X. eapply grown_trans; [exact G1|]. eapply (new_object_grown g1); [|exact X]. intros _ _.
    destruct Q as [(ts & _ & D)|[_ E]].
    + exists (TVec ts). constructor; [unfold short; lia|]. now rewrite (proj1 SM).
    + destruct (bad_check (g_heap g1) la E) as [e C]. congruence.
  - (* vec unpack *)
    destruct MO as ([P _] & _). apply with_arg_grown; auto. clear g O g' r. intros g a g' r O L X. unfold vec_unpack in X.
    destruct (visit_vec (g_heap g) a) as [l|] eqn:V; [|now apply fail_grown in X]. apply visit_vec_live in V; auto; [|apply O].
    destruct (_ =? len); [|now apply fail_grown in X]. destruct (write_vals g pos l) as [g1 rw] eqn:W.
    apply write_vals_grown in W; auto. pe X. apply W.
  - (* map new *)
    destruct MO as ([K _] & [P _] & [N NM]). unfold map_new.
    destruct (scan_slices (g_mem g) ks 0 (Z.to_nat len)) as [kl|e]; [|apply fail_grown].
    destruct (read_vals g vs len) as [g1 rv] eqn:R.
    destruct (read_vals_reads _ _ _ _ _ O P N R) as [SM Q]. pose proof (same_grown _ _ SM) as G1.
    destruct rv as [la|e]; [|intros X; apply fail_grown in X; eapply grown_trans; eauto].
    destruct (map_from_slices d (g_heap g1) sp kl la) as [h rm] eqn:MF.
    destruct (map_from_slices_grown _ _ _ _ _ _ _ MF) as (XH & XO & XB).
    assert (G2 : grown g (set_heap g1 h)).
    { apply (grown_trans _ g1); auto. split; cbn; auto.
      - exists []. now rewrite app_nil_r.
      - intros F (Q1 & Q2 & Q3). split; [now apply (XO F)|]. split; auto. cbn. eapply extends_handed; eauto. }
    destruct rm as [m|e]; [|intros X; apply fail_grown in X; eapply grown_trans; eauto].
    intros X. eapply grown_trans; [exact G2|]. eapply (new_object_grown (set_heap g1 h)); [|exact X]. intros F _.
    destruct Q as (L & SD & [(ts & _ & D)|[_ E]]); [|destruct (XB E); discriminate].
    rewrite <- (proj1 SM) in D.
    assert (FH : fits h).
    { apply new_object_heap in X. cbn [set_heap g_heap] in X. destruct (add_host_object h (HOMap m)) as [h2 ra] eqn:A.
      cbn [fst] in X. eapply extends_fits; [|exact F]. rewrite X. eapply add_prefix; eauto. }
    destruct (from_slices_den d (g_heap g1) sp kl la ts h _ D MF) as [_ FS]. destruct (FS FH) as [_ (m' & AS & DP & Sh & MS)].
    exists (TMap m'). cbn. now constructor.
  - (* map unpack *)
    destruct MO as ([K _] & [P _] & [N NM]). apply with_arg_grown; auto. clear g O g' r. intros g a g' r O L X. unfold map_unpack_lm in X.
    destruct (visit_map (g_heap g) a) as [l|] eqn:V; cbn [rbind] in X; [|now apply fail_grown in X].
    destruct (visit_map_live _ _ _ (proj1 O) V) as (ts & DP & MS & Sh).
    destruct (negb sp && _); [now apply fail_grown in X|].
    destruct (scan_slices (g_mem g) ks 0 (Z.to_nat len)) as [kl|e]; cbn [rbind] in X; [|now apply fail_grown in X].
    pose proof (unpack_den (g_heap g) sp l ts kl DP MS) as U.
    destruct (map_unpack (g_heap g) sp l kl) as [wl|e]; [|now apply fail_grown in X]. destruct U as (us & _ & D).
    destruct (write_vals g vs wl) as [g1 rw] eqn:W. apply write_vals_grown in W; auto; [|eapply live_list; eauto]. pe X. apply W.
Qed.

(* ------------------------------------------------------------ whole runs *)

Definition frame_ok (h : heap) (f : gframe) : Prop := Forall (handed h) (fr_table f) /\ Forall byte (fr_mem f).
Lemma enter_ok w f rest : w_frames w = f :: rest -> world_ok w -> guest_ok (enter_guest w f).
Proof. intros E [H F]. rewrite E in F. inversion F as [|? ? [A B] C]; subst. split; auto. Qed.
Lemma frames_extend h h' l : extends h h' -> Forall (frame_ok h) l -> Forall (frame_ok h') l.
Proof. intros X. apply Forall_impl. intros f [A B]. split; auto. eapply extends_handed; eauto. Qed.
Lemma leave_ok w f rest g : w_frames w = f :: rest -> world_ok w -> grown (enter_guest w f) g -> fits (g_heap g) ->
  world_ok (leave_guest w f rest g).
Proof.
  intros E W G F. pose proof (enter_ok _ _ _ E W) as O. destruct (gr_ok _ _ G F O) as (A & B & C). split; auto.
  cbn [leave_guest w_frames w_heap]. constructor; [split; auto|]. destruct W as [_ W]. rewrite E in W. inversion W; subst.
  eapply frames_extend; eauto. exact (gr_heap _ _ G).
Qed.

Definition step_res (w w' : world) : Prop := extends (w_heap w) (w_heap w') /\ (fits (w_heap w') -> world_ok w -> world_ok w').
Lemma step_res_refl w : step_res w w.
Proof. split; auto using extends_refl. Qed.
Lemma leave_res w f rest g : w_frames w = f :: rest -> grown (enter_guest w f) g -> step_res w (leave_guest w f rest g).
Proof.
  intros E G. split; [exact (gr_heap _ _ G)|]. intros F W. now apply (leave_ok _ _ _ _ E W G F).
Qed.
Lemma step_res_trans a b c : step_res a b -> step_res b c -> step_res a c.
Proof.
  intros [A1 A2] [B1 B2]. split; [eapply extends_trans; eauto|]. intros F W. apply B2; auto. apply A2; auto. eapply extends_fits; eauto.
Qed.

Lemma step_safe d w s : world_ok w -> wstep_ok w s -> fits (w_heap (step d w s)) ->
  world_ok (step d w s) /\ extends (w_heap w) (w_heap (step d w s)).
Proof.
  intros W SO. enough (R : step_res w (step d w s)) by (intros F; split; [now apply R|apply R]).
  unfold step. destruct (w_frames w) as [|f rest] eqn:E; [apply step_res_refl|].
  pose proof (enter_ok _ _ _ E W) as O. destruct s as [op|op|o|m|args m|i|]; cbn [wstep_ok] in SO.
  - destruct (host_call d (enter_guest w f) op) as [g' r] eqn:H. apply leave_res; auto. eapply host_call_grown; eauto.
  - destruct (mem_call d (enter_guest w f) op) as [g' r] eqn:H. apply leave_res; auto. eapply mem_call_grown; eauto.
  - destruct (new_object (enter_guest w f) o) as [g' r] eqn:H. apply leave_res; auto. eapply new_object_grown; eauto.
  - apply leave_res; auto. apply set_mem_grown. auto.
  - destruct (dispatch_arg (enter_guest w f) _ args) as [g1 ra] eqn:D. apply dispatch_arg_ok in D as [SM D].
    cbv zeta. pose proof (same_grown _ _ SM) as G1. pose proof (leave_res w f rest g1 E G1) as R1.
    destruct ra as [a|]; cbn [rbind]; [|exact R1]. destruct (visit_vec (g_heap g1) a) as [l|] eqn:V; [|exact R1].
    assert (O1 : guest_ok g1) by (eapply same_ok; eauto).
    assert (LV : Forall (live (g_heap g1)) l).
    { eapply visit_vec_live; eauto; [apply O1|]. destruct D as (Gd & N & _ & C). rewrite (proj1 SM). apply live_integrity; auto.
      refine (proj1 (names_live (enter_guest w f) _ a O _ N)). unfold word, as_u64. lia. }
    set (w1 := leave_guest w f rest g1) in *.
    set (f2 := {| fr_id := w_next w1; fr_table := []; fr_mem := m |}).
    set (w2 := {| w_heap := w_heap w1; w_frames := w_frames w1; w_next := S (w_next w1); w_log := w_log w1 |}).
    set (w3 := {| w_heap := w_heap w1; w_frames := f2 :: w_frames w1; w_next := S (w_next w1); w_log := w_log w1 |}).
    destruct (give_all (enter_guest w2 f2) l) as [g3 r3] eqn:GA. cbn [fst].
    apply (step_res_trans _ w3).
    + eapply step_res_trans; [exact R1|]. split; [apply extends_refl|]. intros _ [A B]. split; auto. cbn [w_frames w_heap w3].
      constructor; [split; cbn; auto|exact B].
    + change (leave_guest w2 f2 (w_frames w2) g3) with (leave_guest w3 f2 (w_frames w1) g3). apply leave_res; auto.
      eapply give_all_grown; [|exact GA]. exact LV.
  - destruct (marshal_from_wasm i) as [v|] eqn:M.
    2:{ split; [apply extends_refl|]. intros _ [A B]. rewrite E in B. inversion B; subst. split; auto. }
    destruct (take (enter_guest w f) v) as [g1 ra] eqn:T. apply take_ok in T as [SM ->]. cbv zeta.
    pose proof (same_grown _ _ SM) as G1. pose proof (leave_res w f rest g1 E G1) as R1.
    set (w2 := {| w_heap := w_heap (leave_guest w f rest g1); w_frames := rest; w_next := w_next (leave_guest w f rest g1); w_log := w_log (leave_guest w f rest g1) |}).
    assert (R2 : step_res w w2).
    { eapply step_res_trans; [exact R1|]. split; [apply extends_refl|]. intros _ [A B]. cbn in B. inversion B; subst. split; auto. }
    destruct (relative_to_absolute (g_table (enter_guest w f)) v) as [a|e] eqn:RA; [|destruct rest; exact R2].
    destruct rest as [|c rest']; [exact R2|]. apply r2a_names in RA.
    destruct (dispatch_result (enter_guest w2 c) a) as [g3 r3] eqn:DR. cbn [fst].
    eapply step_res_trans; [exact R2|]. apply leave_res; auto.
    eapply dispatch_result_ok; [|exact DR]. intros _ _. refine (proj1 (names_live (enter_guest w f) _ a O _ RA)).
    unfold marshal_from_wasm in M. destruct (is_good (as_u64 i)); [|discriminate]. apply some_inj in M. subst v. unfold word, as_u64. lia.
  - split; [apply extends_refl|]. intros _ [A B]. rewrite E in B. inversion B; subst. split; auto.
Qed.


(* ------------------------------------------------------------ the heap only grows *)

Lemma give_heap g a g' r : give g a = (g', r) -> g_heap g' = g_heap g.
Proof. unfold give. destruct (absolute_to_relative _ a) as [t [w|]]; intros X; pe X; reflexivity. Qed.
Lemma dispatch_result_heap g a g' r : dispatch_result g a = (g', r) -> g_heap g' = g_heap g.
Proof. unfold dispatch_result. destruct (check_val_integrity _ a); [apply give_heap|]. intros X; pe X; reflexivity. Qed.
Lemma give_all_heap l : forall g g' r, give_all g l = (g', r) -> g_heap g' = g_heap g.
Proof.
  induction l as [|a l IH]; intros g g' r; cbn [give_all]; [intros X; pe X; reflexivity|].
  destruct (give g a) as [g1 w] eqn:G. apply give_heap in G. destruct w; [|intros X; pe X; auto].
  destruct (give_all g1 l) as [g2 ws] eqn:GA. apply IH in GA. intros X; pe X. congruence.
Qed.
Lemma write_loop_heap l : forall g pos g' r, write_loop g pos l = (g', r) -> g_heap g' = g_heap g.
Proof.
  induction l as [|a l IH]; intros g pos g' r; cbn [write_loop]; [intros X; pe X; reflexivity|].
  destruct (give g a) as [g1 w] eqn:G. apply give_heap in G. destruct w; [|intros X; pe X; auto].
  intros X. apply IH in X. cbn [set_mem g_heap] in X. congruence.
Qed.
Lemma write_vals_heap g pos l g' r : write_vals g pos l = (g', r) -> g_heap g' = g_heap g.
Proof. unfold write_vals. destruct (vals_range _ _ _); [apply write_loop_heap|]. intros X; pe X; reflexivity. Qed.
Lemma hstep_only_adds d h op h' r : hstep d h op = (h', r) -> extends h h'.
Proof.
  assert (AR : forall h o h' r, add_result h o = (h', r) -> extends h h').
  { clear. intros h o h' r. unfold add_result. destruct (add_host_object h o) as [h1 r1] eqn:A. intros X. pe X. eapply add_prefix; eauto. }
  assert (P : forall op, match hpure d h op with Err e => (h, Err e) | Ok (RObj o) => add_result h o | Ok (RVals l) => (h, Ok l) end = (h', r) -> extends h h').
  { clear -AR. intros op. destruct (hpure d h op) as [[o|l]|e]; intros X; [eapply AR; eauto| |]; pe X; apply extends_refl. }
  destruct op; cbn [hstep]; try apply P.
  destruct (map_from_slices d h sparse keys vals) as [h1 rm] eqn:MF. apply map_from_slices_grown in MF as (A & _).
  destruct rm; intros X; [|pe X; auto]. apply AR in X. eapply extends_trans; eauto.
Qed.
Lemma new_object_extends g o g' r : new_object g o = (g', r) -> extends (g_heap g) (g_heap g').
Proof.
  intros X. apply new_object_heap in X. rewrite X. destruct (add_host_object (g_heap g) o) eqn:A. eapply add_prefix; eauto.
Qed.
Lemma host_call_extends d g op g' r : host_call d g op = (g', r) -> extends (g_heap g) (g_heap g').
Proof.
  unfold host_call. destruct (arg_types op) as [tys|]; [|intros X; pe X; apply extends_refl].
  destruct (dispatch_args g _) as [g1 ra] eqn:D. apply dispatch_args_ok in D as [(S1 & _) _]. rewrite <- S1.
  destruct ra as [la|]; [|intros X; pe X; apply extends_refl].
  destruct (hstep d (g_heap g1) _) as [h rr] eqn:HS. apply hstep_only_adds in HS.
  destruct rr as [ws|]; [|intros Z; pe Z; auto]. destruct ws as [|a [|]]; try (intros Z; pe Z; auto; fail).
  intros Z. apply dispatch_result_heap in Z. now rewrite Z.
Qed.
Lemma with_arg_extends g ty i k g' r : (forall g1 a g' r, k g1 a = (g', r) -> extends (g_heap g1) (g_heap g')) ->
  with_arg g ty i k = (g', r) -> extends (g_heap g) (g_heap g').
Proof.
  intros K. unfold with_arg. destruct (dispatch_arg g ty i) as [g1 r1] eqn:D. apply dispatch_arg_ok in D as [(S1 & _) _]. rewrite <- S1.
  destruct r1; intros X; [eauto|pe X; apply extends_refl].
Qed.
Lemma fail_heap {A} g e (g' : guest) (r : res A) : fail g e = (g', r) -> extends (g_heap g) (g_heap g').
Proof. unfold fail. intros X. pe X. apply extends_refl. Qed.
Lemma mem_call_extends d g op g' r : mem_call d g op = (g', r) -> extends (g_heap g) (g_heap g').
Proof.
  destruct op as [k obj op lp len|obj op lp len|k lp len|s lp len|pos len|v pos len|sp ks vs len|sp m ks vs len]; cbn [mem_call].
  - apply with_arg_extends. clear g g' r. intros g a g' r X. unfold copy_to in X.
    destruct (visit_kind k (g_heap g) a); [|now apply fail_heap in X]. destruct (_ <? _); [now apply fail_heap in X|].
    destruct (slice_of _ op len); [|now apply fail_heap in X]. destruct (vm_write_bytes _ _ _); [|now apply fail_heap in X]. pe X. apply extends_refl.
  - apply with_arg_extends. clear g g' r. intros g a g' r X. unfold copy_from in X. cbv zeta in X.
    destruct (visit_bytes (g_heap g) a); [|now apply fail_heap in X]. destruct (_ <? _); [now apply fail_heap in X|].
    destruct (vm_read_bytes _ _ _); [|now apply fail_heap in X]. now apply new_object_extends in X.
  - unfold new_from. destruct (rbind _ _); [apply new_object_extends|apply fail_heap].
  - apply with_arg_extends. clear g g' r. intros g a g' r X. unfold symbol_index in X. pe X. apply extends_refl.
  - unfold vec_new. destruct (read_vals g pos len) as [g1 rv] eqn:R. apply read_vals_same in R as (S1 & _). rewrite <- S1.
    destruct (rbind _ _); [apply new_object_extends|apply fail_heap].
  - apply with_arg_extends. clear g g' r. intros g a g' r X. unfold vec_unpack in X.
    destruct (visit_vec (g_heap g) a) as [l|]; [|now apply fail_heap in X]. destruct (_ =? _); [|now apply fail_heap in X].
    destruct (write_vals g pos l) as [g1 rw] eqn:W. apply write_vals_heap in W. pe X. rewrite W. apply extends_refl.
  - unfold map_new. destruct (scan_slices _ _ _ _) as [kl|]; [|apply fail_heap].
    destruct (read_vals g vs len) as [g1 rv] eqn:R. apply read_vals_same in R as (S1 & _). rewrite <- S1.
    destruct rv as [la|]; [|apply fail_heap]. destruct (map_from_slices d (g_heap g1) sp kl la) as [h rm] eqn:MF.
    apply map_from_slices_grown in MF as (A & _). destruct rm as [m|]; intros X.
    + apply new_object_extends in X. eapply extends_trans; eauto.
    + apply fail_heap in X. eapply extends_trans; eauto.
  - apply with_arg_extends. clear g g' r. intros g a g' r X. unfold map_unpack_lm in X.
    destruct (rbind _ _) as [wl|]; [|now apply fail_heap in X]. destruct (write_vals g vs wl) as [g1 rw] eqn:W. apply write_vals_heap in W.
    pe X. rewrite W. apply extends_refl.
Qed.
Lemma step_extends d w s : extends (w_heap w) (w_heap (step d w s)).
Proof.
  unfold step. destruct (w_frames w) as [|f rest]; [apply extends_refl|]. destruct s as [op|op|o|m|args m|i|].
  - destruct (host_call d (enter_guest w f) op) as [g' r] eqn:H. exact (host_call_extends _ _ _ _ _ H).
  - destruct (mem_call d (enter_guest w f) op) as [g' r] eqn:H. exact (mem_call_extends _ _ _ _ _ H).
  - destruct (new_object (enter_guest w f) o) as [g' r] eqn:H. exact (new_object_extends _ _ _ _ H).
  - apply extends_refl.
  - destruct (dispatch_arg (enter_guest w f) _ args) as [g1 ra] eqn:D. apply dispatch_arg_ok in D as [(S1 & _) D]. cbv zeta.
    cbn [enter_guest g_heap] in S1. destruct (rbind _ _) as [l|]; [|cbn; rewrite S1; apply extends_refl].
    match goal with |- context [give_all ?g l] => destruct (give_all g l) as [g3 r3] eqn:GA end. apply give_all_heap in GA.
    cbn in GA |- *. rewrite GA, S1. apply extends_refl.
  - destruct (marshal_from_wasm i) as [v|]; [|apply extends_refl].
    destruct (take (enter_guest w f) v) as [g1 ra] eqn:T. apply take_ok in T as [(S1 & _) _]. cbv zeta. cbn [enter_guest g_heap] in S1.
    destruct ra as [a|]; [|destruct rest; cbn; rewrite S1; apply extends_refl].
    destruct rest as [|c rest']; [cbn; rewrite S1; apply extends_refl|].
    match goal with |- context [dispatch_result ?g a] => destruct (dispatch_result g a) as [g3 r3] eqn:DR end. apply dispatch_result_heap in DR.
    cbn in DR |- *. rewrite DR, S1. apply extends_refl.
  - apply extends_refl.
Qed.
Lemma run_extends d l : forall w, extends (w_heap w) (w_heap (run d w l)).
Proof.
  induction l as [|s l IH]; intros w; [apply extends_refl|]. eapply extends_trans; [apply step_extends|apply (IH (step d w s))].
Qed.
Lemma run_safe d l : forall w, world_ok w -> steps_ok d w l -> fits (w_heap (run d w l)) -> world_ok (run d w l).
Proof.
  induction l as [|s l IH]; intros w W SO F; auto. destruct SO as [S1 S2]. apply (IH (step d w s)); auto.
  apply step_safe; auto. eapply extends_fits; [|exact F]. apply (run_extends d l (step d w s)).
Qed.
Lemma start_ok h args m : heap_ok h -> fits h -> Forall (live h) args -> Forall byte m -> world_ok (start h args m).
Proof.
  intros H F L B. unfold start. set (w := {| w_heap := h; w_frames := []; w_next := 1; w_log := [] |}). set (f := {| fr_id := 0; fr_table := []; fr_mem := m |}).
  destruct (give_all (enter_guest w f) args) as [g r] eqn:GA.
  destruct (give_all_grown _ _ _ _ (L : Forall (live (g_heap (enter_guest w f))) args) GA) as (A & C & D).
  set (w3 := {| w_heap := h; w_frames := [f]; w_next := 1; w_log := [] |}).
  change (world_ok (leave_guest w3 f [] g)). apply leave_ok; auto; [|now rewrite C].
  split; auto. cbn. repeat constructor; auto.
Qed.

(* ------------------------------------------------------------ frames *)

(* The frames below the innermost are untouched by anything the innermost does; when a call
   returns, its caller's memory is untouched and its table only appended to. *)
Definition below (w w' : world) : Prop :=
  forall pre f, (length pre >= 1)%nat -> forall rest, w_frames w = pre ++ f :: rest ->
  exists pre' f', w_frames w' = pre' ++ f' :: rest /\ fr_id f' = fr_id f /\ fr_mem f' = fr_mem f
    /\ (exists x, fr_table f' = fr_table f ++ x) /\ (pre' <> [] -> f' = f).
Lemma step_table d w s f rest : w_frames w = f :: rest ->
  (exists pre f', w_frames (step d w s) = pre ++ f' :: rest /\ fr_id f' = fr_id f /\ (exists x, fr_table f' = fr_table f ++ x)
     /\ (pre <> [] -> fr_mem f' = fr_mem f))
  \/ (exists i, s = WReturn i) \/ s = WFail.
Proof.
  intros E. unfold step. rewrite E.
  assert (LV : forall g, moves (enter_guest w f) g -> exists pre f', w_frames (leave_guest w f rest g) = pre ++ f' :: rest
     /\ fr_id f' = fr_id f /\ (exists x, fr_table f' = fr_table f ++ x) /\ (pre <> [] -> fr_mem f' = fr_mem f)).
  { intros g (l & _ & T). apply transfers_table in T. exists []. eexists. split; [reflexivity|]. split; auto. split; auto. congruence. }
  destruct s as [op|op|o|m|args m|i|]; eauto.
  - left. destruct (host_call d (enter_guest w f) op) as [g' r] eqn:H. apply LV. eapply host_call_moves; eauto.
  - left. destruct (mem_call d (enter_guest w f) op) as [g' r] eqn:H. apply LV. eapply mem_call_moves; eauto.
  - left. destruct (new_object (enter_guest w f) o) as [g' r] eqn:H. apply LV. eapply new_object_moves; eauto.
  - left. apply LV. exact (moves_refl _).
  - left. destruct (dispatch_arg (enter_guest w f) _ args) as [g1 ra] eqn:D. pose proof (dispatch_arg_moves _ _ _ _ _ D) as M.
    apply dispatch_arg_ok in D as [(_ & _ & S3) D]. cbv zeta. destruct (rbind _ _) as [l|]; [|now apply LV].
    destruct M as (l0 & _ & T). apply transfers_table in T.
    exists [{| fr_id := w_next w; fr_table := g_table (fst (give_all (enter_guest {| w_heap := g_heap g1; w_frames := w_frames (leave_guest w f rest g1); w_next := S (w_next w); w_log := w_log (leave_guest w f rest g1) |} {| fr_id := w_next w; fr_table := []; fr_mem := m |}) l));
               fr_mem := g_mem (fst (give_all (enter_guest {| w_heap := g_heap g1; w_frames := w_frames (leave_guest w f rest g1); w_next := S (w_next w); w_log := w_log (leave_guest w f rest g1) |} {| fr_id := w_next w; fr_table := []; fr_mem := m |}) l)) |}].
    eexists. split; [reflexivity|]. cbn [fr_id fr_table fr_mem]. split; auto.
Qed.
Lemma give_mem g a g' r : give g a = (g', r) -> g_mem g' = g_mem g.
Proof. unfold give. destruct (absolute_to_relative _ a) as [t [w|]]; intros X; pe X; reflexivity. Qed.
Lemma dispatch_result_mem g a g' r : dispatch_result g a = (g', r) -> g_mem g' = g_mem g.
Proof. unfold dispatch_result. destruct (check_val_integrity _ a); [apply give_mem|]. intros X; pe X; reflexivity. Qed.

Lemma step_frames d w s f rest : w_frames w = f :: rest ->
  (exists pre f', w_frames (step d w s) = pre ++ f' :: rest /\ fr_id f' = fr_id f /\ (exists x, fr_table f' = fr_table f ++ x)
     /\ (pre <> [] -> fr_mem f' = fr_mem f))
  \/ w_frames (step d w s) = rest
  \/ (exists c rest' c', rest = c :: rest' /\ w_frames (step d w s) = c' :: rest' /\ fr_id c' = fr_id c
      /\ fr_mem c' = fr_mem c /\ exists x, fr_table c' = fr_table c ++ x).
Proof.
  intros E. destruct (step_table d w s f rest E) as [H|[[i ->]| ->]]; [auto| |]; unfold step; rewrite E; [|right; left; reflexivity].
  destruct (marshal_from_wasm i) as [v|]; [|right; left; reflexivity].
  destruct (take (enter_guest w f) v) as [g1 ra] eqn:T. cbv zeta.
  destruct ra as [a|]; [|right; left; destruct rest; reflexivity]. destruct rest as [|c rest']; [right; left; reflexivity|].
  match goal with |- context [dispatch_result ?g a] => destruct (dispatch_result g a) as [g3 r3] eqn:DR end.
  pose proof (dispatch_result_mem _ _ _ _ DR) as M. apply dispatch_result_moves in DR as (l & _ & TR). apply transfers_table in TR.
  right; right. exists c, rest'. eexists. split; [reflexivity|]. split; [reflexivity|]. auto.
Qed.

(* ------------------------------------------------------------ refusals *)

Lemma bad_handle_names t w : bad_handle t w <-> (is_object w = true /\ forall a, ~ names t w a).
Proof.
  unfold bad_handle. split; intros [O H]; (split; [exact O|]).
  - intros a N. destruct N as [w O'|w i a O' M N T]; [congruence|]. rewrite M in H.
    assert (I : 2 * Z.of_nat i / 2 = Z.of_nat i) by lia. rewrite I, Nat2Z.id in H. destruct H as [H|[H|(b & B & C)]].
    + rewrite Z.odd_mul in H. discriminate.
    + assert (L : (i < length t)%nat) by (apply nth_error_Some; congruence). lia.
    + congruence.
  - destruct (Z.odd (get_major w)) eqn:OD; auto. right. rewrite Zodd_mod in OD. pose proof (get_major_range w) as R.
    assert (EV : get_major w = 2 * Z.of_nat (Z.to_nat (get_major w / 2))).
    { apply Zeq_bool_neq in OD. lia. }
    destruct (nth_error t (Z.to_nat (get_major w / 2))) as [a|] eqn:N.
    + right. exists a. split; auto. intros T. apply (H a). eapply nm_obj; eauto.
    + left. apply nth_error_None in N. lia.
Qed.
Lemma refused_arg g ty i g' r : (forall a, ~ names (g_table g) (as_u64 i) a) -> dispatch_arg g ty i = (g', r) -> (exists e, r = Err e) /\ same_state g g'.
Proof.
  intros B D. apply dispatch_arg_ok in D as [SM D]. split; auto. destruct r; eauto. destruct D as (_ & N & _). elim (B _ N).
Qed.
Lemma refused_call d g op i g' r : In i (call_args op) -> (forall a, ~ names (g_table g) (as_u64 i) a) -> host_call d g op = (g', r) ->
  (exists e, r = Err e) /\ same_state g g'.
Proof.
  intros I B. unfold host_call. destruct (arg_types op) as [tys|] eqn:T; [|intros X; pe X; split; eauto using same_refl].
  destruct (dispatch_args g _) as [g1 ra] eqn:D. apply dispatch_args_ok in D as [SM D].
  destruct ra as [la|]; [|intros X; pe X; split; eauto]. exfalso. apply Forall2_combine in D; [|now apply arg_types_length].
  clear -I B D. induction D as [|j a l la (ty & H) D IH]; [destruct I|]; destruct I as [->|I]; auto. cbn in H. destruct H as (_ & N & _). elim (B _ N).
Qed.
Lemma refused_mem d g op i g' r : mop_arg op = Some i -> (forall a, ~ names (g_table g) (as_u64 i) a) -> mem_call d g op = (g', r) ->
  (exists e, r = Err e) /\ same_state g g'.
Proof.
  intros A B. assert (W : forall ty k, with_arg g ty i k = (g', r) -> (exists e, r = Err e) /\ same_state g g').
  { intros ty k. unfold with_arg. destruct (dispatch_arg g ty i) as [g1 r1] eqn:D. destruct (refused_arg _ _ _ _ _ B D) as [[e ->] SM].
    intros X. pe X. split; eauto. }
  destruct op; cbn [mop_arg] in A; try discriminate; apply some_inj in A; subst; cbn [mem_call]; apply W.
Qed.
Lemma refused_words d g op pos len w g' r : guest_ok g -> mop_ok op -> mop_words op = Some (pos, len) ->
  (exists k, 0 <= k < len /\ holds_num 8 (g_mem g) (pos + 8 * k) w) ->
  (forall a, ~ names (g_table g) w a) -> mem_call d g op = (g', r) -> (exists e, r = Err e) /\ same_state g g'.
Proof.
  intros O MO A (k & K & H) B X. assert (NR : forall ts, ~ reads g pos len ts).
  { intros ts (_ & ws & L & _ & HW & M). assert (exists x, nth_error ws (Z.to_nat k) = Some x) as [x N].
    { destruct (nth_error ws (Z.to_nat k)) eqn:N; eauto. apply nth_error_None in N. lia. }
    pose proof (HW _ _ N) as HX. rewrite Z2Nat.id in HX by lia. rewrite <- (holds_num_fun 8 _ _ _ _ H HX) in *.
    apply nth_error_In in N. clear -M N B. induction M as [|y t ws ts (a & Na & _) _ IH]; [destruct N|]; destruct N as [->|N]; auto. elim (B _ Na). }
  destruct op; cbn [mop_words mop_ok] in *; try discriminate; apply some_inj, pair_equal_spec in A as [-> ->].
  - destruct MO as [[P _] [N _]]. cbn [mem_call] in X. unfold vec_new in X. destruct (read_vals g pos len) as [g1 rv] eqn:R.
    destruct (read_vals_reads _ _ _ _ _ O P N R) as [SM Q]. destruct rv as [la|e]; cbn [rbind] in X.
    2:{ unfold fail in X. pe X. split; eauto. }
    destruct Q as (_ & _ & [(ts & C & _)|[_ E]]); [elim (NR _ C)|].
    destruct (bad_check (g_heap g1) la E) as [e C]. rewrite C in X. cbn [rbind] in X. unfold fail in X. pe X. split; eauto.
  - destruct MO as ([K1 _] & [P _] & [N _]). cbn [mem_call] in X. unfold map_new in X.
    destruct (scan_slices _ _ _ _) as [kl|e]; [|unfold fail in X; pe X; split; eauto using same_refl].
    unfold read_vals in X. destruct (vals_range (g_mem g) pos len) as [[]|e] eqn:V; [|unfold fail in X; pe X; split; eauto using same_refl].
    apply vals_range_iff in V; auto. destruct V as [V1 V2].
    destruct (read_loop g pos (Z.to_nat len)) as [g1 rv] eqn:R. pose proof (read_loop_same _ _ _ _ _ R) as SM.
    destruct (read_loop_ok (Z.to_nat len) g pos g1 rv P (proj2 (proj2 O)) ltac:(lia) R) as (ws & L & HW & Q).
    destruct rv as [la|e]; [|unfold fail in X; pe X; split; eauto].
    exfalso. assert (exists x, nth_error ws (Z.to_nat k) = Some x) as [x N'].
    { destruct (nth_error ws (Z.to_nat k)) eqn:N'; eauto. apply nth_error_None in N'. lia. }
    pose proof (HW _ _ N') as HX. rewrite Z2Nat.id in HX by lia. rewrite <- (holds_num_fun 8 _ _ _ _ H HX) in *.
    apply nth_error_In in N'. clear -Q N' B. induction Q as [|y a ws la Na _ IH]; [destruct N'|]; destruct N' as [->|N']; auto. elim (B _ Na).
Qed.
