(* Diagnostics: what debug mode can change, and the stream of events. *)
From Coq Require Import ZArith NArith Lia String List Bool.
From Verif Require Import Prelude HeapModel CtModel BudgetModel BudgetSpec BudgetProofs BudgetProofs2 DiagModel DiagSpec DiagProofs.
Import ListNotations.
Open Scope Z_scope.
Ltac Zify.zify_post_hook ::= idtac.

Lemma work_eq h p : work h p = (set_b h (fst (fst (run p (h_b h)))), snd (run p (h_b h))).
Proof. unfold work. destruct (run p (h_b h)) as [[b l] r]. reflexivity. Qed.

(* fields debug work leaves alone *)
Definition same_rest (h g : dhost) : Prop :=
  h_stack g = h_stack h /\ h_debug g = h_debug h /\ h_quiet g = h_quiet h.

(* [g] is h after recording perhaps the diagnostic event e *)
Definition may (e : ievent * bool) (h g : dhost) : Prop :=
  same_metered (h_b h) (h_b g) /\ same_rest h g /\ h_out g = h_out h
  /\ (h_buf g = h_buf h \/ h_buf g = h_buf h ++ [e])
  /\ (endless (h_b h) -> endless (h_b g)
      /\ (h_quiet h = false -> h_debug h = true -> h_buf g = h_buf h ++ [e])).

Lemma shadow_back b b2 : same_metered (set_shadow b true) b2 -> same_metered b (set_shadow b2 (in_shadow b)).
Proof.
  intros K. pose proof (sm_set_shadow _ _ (in_shadow b) K) as K2. eapply sm_trans; [|exact K2].
  unfold same_metered; cbn. intuition.
Qed.

Lemma may_debug e h f : ok_budget (h_b h) ->
  (forall g, ok_budget (h_b g) -> in_shadow (h_b g) = true -> current g = current h -> may e g (fst (f g))) ->
  may e h (debug h f).
Proof.
  intros OK F. unfold debug. destruct (h_debug h) eqn:D.
  2:{ split; [apply sm_refl|]. split; [repeat split|]. split; [reflexivity|]. split; [left; reflexivity|].
      intros E. split; [exact E|]. intros _ D2. congruence. }
  set (h1 := set_b h (set_shadow (h_b h) true)).
  specialize (F h1 (ok_set_shadow _ _ OK) eq_refl eq_refl).
  destruct F as (K & (R1 & R2 & R3) & O & B & E).
  cbn [h_b set_b h1 h_stack h_debug h_quiet h_buf h_out] in K, R1, R2, R3, O, B, E.
  destruct (check_limit (cpu (h_b h1)) true) as [u|x] eqn:C1;
  [destruct (check_limit (mem (h_b h1)) true) as [u2|x] eqn:C2|].
  - unfold may. cbn [h_b set_b h_stack h_debug h_quiet h_buf h_out].
    split; [apply shadow_back; exact K|]. split; [split; [exact R1|split; [exact R2|exact R3]]|].
    split; [exact O|]. split; [exact B|]. intros En. destruct (E En) as [E1 E2]. split; [exact E1|].
    intros Q Dd. exact (E2 Q Dd).
  - unfold may. cbn [h_b set_b h_stack h_debug h_quiet h_buf h_out h1].
    split; [apply shadow_back; apply sm_refl|]. split; [repeat split; assumption|]. split; [reflexivity|].
    split; [left; reflexivity|]. intros En. exfalso.
    assert (X : check_limit (mem (h_b h1)) true = Ok tt) by (apply check_endless; exact (proj2 En)). congruence.
  - unfold may. cbn [h_b set_b h_stack h_debug h_quiet h_buf h_out h1].
    split; [apply shadow_back; apply sm_refl|]. split; [repeat split; assumption|]. split; [reflexivity|].
    split; [left; reflexivity|]. intros En. exfalso.
    assert (X : check_limit (cpu (h_b h1)) true = Ok tt) by (apply check_endless; exact (proj1 En)). congruence.
Qed.

Lemma may_work e h p f : ok_budget (h_b h) -> in_shadow (h_b h) = true -> free p ->
  (forall g, ok_budget (h_b g) -> in_shadow (h_b g) = true -> current g = current h -> may e g (fst (f g))) ->
  may e h (fst (andthen (work h p) f)).
Proof.
  intros OK S Fr F. rewrite work_eq.
  pose proof (run_shadow p (h_b h) OK S) as K. pose proof (run_endless p (h_b h)) as En.
  pose proof (Fr (h_b h) OK S) as Ok1.
  destruct (run p (h_b h)) as [[b l] r]. cbn [fst snd] in *.
  destruct r as [u|x]; cbn [andthen].
  - specialize (F (set_b h b) (sm_ok _ _ OK K)). cbn [h_b set_b] in F. rewrite (sm_shadow _ _ K) in F.
    destruct (F S eq_refl) as (K2 & R & O & B & E). split; [eapply sm_trans; [exact K|exact K2]|].
    split; [exact R|]. split; [exact O|]. split; [exact B|]. intros Eh. exact (E (En Eh)).
  - cbn [fst]. split; [exact K|]. split; [repeat split|]. split; [reflexivity|]. split; [left; reflexivity|].
    intros Eh. specialize (Ok1 Eh). discriminate.
Qed.

Lemma may_push e h : ok_budget (h_b h) -> in_shadow (h_b h) = true -> may (e, false) h (fst (push_event h e)).
Proof.
  intros OK S. unfold push_event. apply may_work; [exact OK|exact S|apply free_bulk|].
  intros g _ _ _. split; [apply sm_refl|]. split; [repeat split|]. split; [reflexivity|]. split; [right; reflexivity|].
  intros E. split; [exact E|]. reflexivity.
Qed.

Lemma may_record d h : ok_budget (h_b h) -> may (IDiag d, false) h (fst (record h (IDiag d))).
Proof.
  intros OK. cbn [record fst]. apply may_debug; [exact OK|]. intros g OKg Sg _. apply may_push; assumption.
Qed.

Lemma may_quiet e h g : h_quiet h = true -> g = h -> may e h g.
Proof.
  intros Q ->. split; [apply sm_refl|]. split; [repeat split|]. split; [reflexivity|]. split; [left; reflexivity|].
  intros E. split; [exact E|]. congruence.
Qed.

Lemma may_diag id topics args h : ok_budget (h_b h) -> may (diag id topics args) h (record_diag id topics args h).
Proof.
  intros OK. unfold record_diag. apply may_debug; [exact OK|]. intros g OKg Sg _.
  destruct (h_quiet g) eqn:Q; [apply may_quiet; [exact Q|reflexivity]|].
  apply may_work; [exact OKg|exact Sg|apply free_heap|]. intros g2 OK2 _ _. apply may_record. exact OK2.
Qed.

Lemma may_log msg args h : ok_budget (h_b h) ->
  may (diag (current h) [word "log"] (SString msg :: args)) h (log_diag msg args h).
Proof.
  intros OK. unfold log_diag. apply may_debug; [exact OK|]. intros g OKg Sg C. rewrite <- C.
  apply may_work; [assumption|assumption|apply free_bulk|]. intros g1 OK1 S1 C1.
  apply may_work; [assumption|assumption|apply free_bulk|]. intros g2 OK2 S2 C2.
  apply may_work; [assumption|assumption|apply free_bulk|]. intros g3 OK3 S3 C3.
  cbn [fst]. apply may_diag. exact OK3.
Qed.

Lemma may_err er msg args h : ok_budget (h_b h) ->
  may (diag (current h) [word "error"; er] (SString msg :: args)) h (err_diag er msg args h).
Proof.
  intros OK. unfold err_diag. apply may_debug; [exact OK|]. intros g OKg Sg C. rewrite <- C.
  destruct (h_quiet g) eqn:Q; [apply may_quiet; [exact Q|reflexivity]|].
  apply may_work; [assumption|assumption|apply free_bulk|]. intros g1 OK1 S1 C1.
  apply may_work; [assumption|assumption|apply free_bulk|]. intros g2 OK2 S2 C2.
  apply may_work; [assumption|assumption|apply free_bulk|]. intros g3 OK3 S3 C3.
  apply may_work; [assumption|assumption|apply free_heap|]. intros g4 OK4 S4 C4.
  apply may_record. exact OK4.
Qed.

Lemma may_call callee fn args h : ok_budget (h_b h) ->
  may (diag (current h) [word "fn_call"; SBytes callee; SSymbol fn] args) h (fn_call_diag callee fn args h).
Proof.
  intros OK. unfold fn_call_diag. apply may_debug; [exact OK|]. intros g OKg Sg C. rewrite <- C.
  apply may_work; [assumption|assumption|apply free_bulk|]. intros g1 OK1 S1 C1.
  apply may_work; [assumption|assumption|apply free_bulk|]. intros g2 OK2 S2 C2.
  apply may_work; [assumption|assumption|apply free_bulk|]. intros g3 OK3 S3 C3.
  cbn [fst]. apply may_diag. exact OK3.
Qed.

Lemma may_return callee fn v h : ok_budget (h_b h) ->
  may (diag (Some callee) [word "fn_return"; SSymbol fn] [v]) h (fn_return_diag callee fn v h).
Proof.
  intros OK. unfold fn_return_diag. apply may_debug; [exact OK|]. intros g OKg Sg C.
  apply may_work; [assumption|assumption|apply free_bulk|]. intros g1 OK1 S1 C1.
  apply may_work; [assumption|assumption|apply free_bulk|]. intros g2 OK2 S2 C2.
  apply may_work; [assumption|assumption|apply free_charge; [apply Nat.ltb_lt; reflexivity|apply free_ret]|].
  intros g3 OK3 S3 C3. cbn [fst]. apply may_diag. exact OK3.
Qed.

(* no debugging, no change at all *)
Lemma debug_off h f : h_debug h = false -> debug h f = h.
Proof. intros D. unfold debug. rewrite D. reflexivity. Qed.

(* ------------------------------------------------------------ the stream *)

Lemma misses_refl l : misses l l.
Proof. induction l; constructor; assumption. Qed.
Lemma misses_app a a' b b' : misses a a' -> misses b b' -> misses (a ++ b) (a' ++ b').
Proof. induction 1; intros M; cbn [app]; try constructor; auto. Qed.
Lemma misses_failed l l' : misses l l' -> misses (failed l) (failed l').
Proof. induction 1; cbn [failed map fst]; constructor; assumption. Qed.
Lemma misses_contracts l l' : misses l l' -> contracts l = contracts l'.
Proof.
  induction 1; [reflexivity| |exact IHmisses].
  cbn [contracts filter]. destruct (is_contract e); [f_equal|]; exact IHmisses.
Qed.
Lemma contracts_app a b : contracts (a ++ b) = contracts a ++ contracts b.
Proof. apply filter_app. Qed.
Lemma contracts_failed l : contracts (failed l) = failed (contracts l).
Proof.
  induction l as [|[[c|d] b] l IH]; [reflexivity| |]; cbn [failed map contracts filter is_contract fst]; [f_equal|]; exact IH.
Qed.
Lemma misses_only l : misses l (contracts l).
Proof. induction l as [|[[c|d] b] l IH]; cbn; constructor; exact IH. Qed.

(* what a step does to the buffer when it should tell l *)
Definition tale (h h' : dhost) (l : list (ievent * bool)) : Prop :=
  normal h' /\ same_rest h h' /\ h_out h' = h_out h
  /\ (endless (h_b h) -> endless (h_b h'))
  /\ exists l', h_buf h' = h_buf h ++ l' /\ misses l l'
     /\ (h_debug h = true -> h_quiet h = false -> endless (h_b h) -> l' = l)
     /\ (h_debug h = false -> l' = contracts l).

Lemma tale_trans h1 h2 h3 l1 l2 : tale h1 h2 l1 -> tale h2 h3 l2 -> tale h1 h3 (l1 ++ l2).
Proof.
  intros (N1 & (R1 & R2 & R3) & O1 & E1 & l1' & B1 & M1 & F1 & S1) (N2 & (R4 & R5 & R6) & O2 & E2 & l2' & B2 & M2 & F2 & S2).
  split; [exact N2|]. split; [repeat split; congruence|]. split; [congruence|]. split; [auto|].
  exists (l1' ++ l2'). split; [rewrite B2, B1, app_assoc; reflexivity|]. split; [apply misses_app; assumption|].
  split.
  - intros D Q E. rewrite (F1 D Q E), F2; [reflexivity|congruence|congruence|auto].
  - intros D. rewrite contracts_app, (S1 D), S2; [reflexivity|congruence].
Qed.

Lemma tale_nil h : normal h -> tale h h [].
Proof.
  intros N. split; [exact N|]. split; [repeat split|]. split; [reflexivity|]. split; [auto|].
  exists []. split; [symmetry; apply app_nil_r|]. split; [constructor|]. split; reflexivity.
Qed.

Lemma tale_work h p : normal h -> tale h (fst (work h p)) [].
Proof.
  intros [OK S]. rewrite work_eq. destruct (run_normal p _ OK S) as [OK1 S1].
  split; [split; assumption|]. split; [repeat split|]. split; [reflexivity|].
  split; [apply run_endless|]. exists []. split; [symmetry; apply app_nil_r|]. split; [constructor|]. split; reflexivity.
Qed.

Lemma tale_may d b h g : normal h -> may (IDiag d, b) h g -> (h_debug h = false -> g = h) -> tale h g [(IDiag d, b)].
Proof.
  intros [OK S] (K & R & O & B & E) Off. split; [split; [exact (sm_ok _ _ OK K)|rewrite (sm_shadow _ _ K); exact S]|].
  split; [exact R|]. split; [exact O|]. split; [intros En; apply (E En)|].
  destruct (h_debug h) eqn:D.
  - destruct B as [B|B].
    + exists []. rewrite app_nil_r. split; [exact B|]. split; [repeat constructor|]. split; [|discriminate].
      intros _ Q En. destruct (E En) as [_ E2]. specialize (E2 Q eq_refl). rewrite B in E2.
      rewrite <- (app_nil_r (h_buf h)) in E2 at 1. apply app_inv_head in E2. exact E2.
    + exists [(IDiag d, b)]. split; [exact B|]. split; [repeat constructor|]. split; [reflexivity|discriminate].
  - exists []. rewrite app_nil_r. split; [rewrite (Off eq_refl); reflexivity|]. split; [repeat constructor|].
    split; [discriminate|reflexivity].
Qed.

Lemma push_tale h c : normal h ->
  match snd (record h (IContract c)) with
  | Ok _ => tale h (fst (record h (IContract c))) [(IContract c, false)]
  | Err _ => tale h (fst (record h (IContract c))) []
  end.
Proof.
  intros N. cbn [record]. unfold push_event. pose proof (tale_work h (bulk_init 1 size_recorded) N) as T.
  destruct (work h (bulk_init 1 size_recorded)) as [h1 [u|e]]; cbn [andthen fst snd] in *; [|exact T].
  destruct T as (N1 & R & O & E & l' & B & M & F & S).
  inversion M; subst l'. rewrite app_nil_r in B.
  split; [exact N1|]. split; [exact R|]. split; [exact O|]. split; [exact E|].
  exists [(IContract c, false)]. split; [cbn [h_buf set_buf]; rewrite B; reflexivity|].
  split; [repeat constructor|]. split; reflexivity.
Qed.

Lemma buffer_mark (b l : list (ievent * bool)) :
  firstn (length b) (b ++ l) ++ mark_failed (skipn (length b) (b ++ l)) = b ++ failed l.
Proof.
  rewrite firstn_app, Nat.sub_diag, firstn_all, skipn_app, Nat.sub_diag, skipn_all. cbn [firstn skipn app].
  rewrite app_nil_r. reflexivity.
Qed.

Lemma exec_tells a : forall h, normal h ->
  exists l, tells (current h) a l (snd (exec a h)) /\ tale h (fst (exec a h)) l.
Proof.
  induction a as [r|p k IH|k IH|s t d k IH|m args k IH|er m args k IH|p id fn args body IHb k IH]; intros h N.
  - exists []. split; [constructor|apply tale_nil; exact N].
  - cbn [exec]. pose proof (tale_work h p N) as T.
    assert (C : current (fst (work h p)) = current h) by (rewrite work_eq; reflexivity).
    destruct (work h p) as [h1 r1]. cbn [fst] in T, C.
    destruct (IH r1 h1 (proj1 T)) as (l & L & T2). rewrite C in L. exists l.
    split; [econstructor; exact L|]. exact (tale_trans _ _ _ [] l T T2).
  - cbn [exec]. cbv zeta.
    match goal with |- context [exec (k ?w ?x ?y ?z) h] => destruct (IH w x y z h N) as (l & L & T) end.
    exists l. split; [econstructor; exact L|exact T].
  - cbn [exec].
    set (c := {| ce_system := s; ce_id := current h; ce_topics := t; ce_data := d |}).
    pose proof (push_tale h c N) as T.
    assert (C : current (fst (record h (IContract c))) = current h).
    { cbn [record]. unfold push_event. rewrite work_eq. destruct (snd (run (bulk_init 1 size_recorded) (h_b h))); reflexivity. }
    destruct (record h (IContract c)) as [h1 r1]. cbn [fst snd] in T, C.
    destruct r1 as [u|e].
    + destruct u. destruct (IH (Ok tt) h1 (proj1 T)) as (l & L & T2). rewrite C in L.
      exists ((IContract c, false) :: l). split; [apply T_emit; exact L|].
      exact (tale_trans _ _ _ [(IContract c, false)] l T T2).
    + destruct (IH (Err e) h1 (proj1 T)) as (l & L & T2). rewrite C in L.
      exists l. split; [eapply T_emit_refused; exact L|]. exact (tale_trans _ _ _ [] l T T2).
  - cbn [exec]. pose proof (may_log m args h (proj1 N)) as My.
    pose proof (tale_may _ _ _ _ N My (fun D => debug_off h _ D)) as T.
    destruct (IH (log_diag m args h) (proj1 T)) as (l & L & T2).
    assert (C : current (log_diag m args h) = current h) by (unfold current; rewrite (proj1 (proj1 (proj2 My))); reflexivity).
    rewrite C in L. eexists. split; [apply T_log; exact L|]. exact (tale_trans _ _ _ [_] l T T2).
  - cbn [exec]. pose proof (may_err er m args h (proj1 N)) as My.
    pose proof (tale_may _ _ _ _ N My (fun D => debug_off h _ D)) as T.
    destruct (IH (err_diag er m args h) (proj1 T)) as (l & L & T2).
    assert (C : current (err_diag er m args h) = current h) by (unfold current; rewrite (proj1 (proj1 (proj2 My))); reflexivity).
    rewrite C in L. eexists. split; [apply T_report; exact L|]. exact (tale_trans _ _ _ [_] l T T2).
  - cbn [exec]. pose proof (may_call id fn args h (proj1 N)) as My.
    pose proof (tale_may _ _ _ _ N My (fun D => debug_off h _ D)) as T.
    assert (C : current (fn_call_diag id fn args h) = current h) by (unfold current; rewrite (proj1 (proj1 (proj2 My))); reflexivity).
    set (h0 := fn_call_diag id fn args h) in *.
    pose proof (tale_work h0 p (proj1 T)) as T1.
    assert (C1 : h_stack (fst (work h0 p)) = h_stack h0) by (rewrite work_eq; reflexivity).
    destruct (work h0 p) as [h1 [u|e]]; cbn [fst] in T1, C1.
    2:{ destruct (IH (Err e) h1 (proj1 T1)) as (l & L & T2).
        assert (C2 : current h1 = current h) by (rewrite <- C; unfold current; rewrite C1; reflexivity). rewrite C2 in L.
        eexists. split; [eapply T_call_refused; exact L|].
        exact (tale_trans _ _ _ [_] l T (tale_trans _ _ _ [] l T1 T2)). }
    pose proof (tale_trans _ _ _ _ _ T T1) as T01. clear T T1 My.
    set (h2 := set_stack (set_b h1 (set_frames (h_b h1) (0 :: frames (h_b h1)))) (id :: h_stack h1)).
    assert (N2 : normal h2) by (split; [apply ok_push0; apply (proj1 T01)|exact (proj2 (proj1 T01))]).
    destruct (IHb h2 N2) as (lb & Lb & Tb). cbn [current h2 h_stack set_stack hd_error] in Lb.
    destruct (exec body h2) as [h3 r]. cbn [fst snd] in Lb, Tb.
    destruct Tb as (N3 & (R1 & R2 & R3) & O3 & E3 & lb' & B3 & M3 & F3 & S3).
    cbn [h2 h_b h_buf h_stack h_debug h_quiet h_out set_stack set_b] in R1, R2, R3, O3, E3, B3, F3, S3.
    assert (Cst : current h1 = current h) by (rewrite <- C; unfold current; rewrite C1; reflexivity).
    destruct r as [v|e].
    + set (h5 := set_stack (set_b h3 (pop_frame (h_b h3))) (h_stack h1)).
      assert (T5 : tale h1 h5 lb).
      { split; [split; [apply ok_pop; apply N3|]|].
        - unfold h5; cbn [h_b set_stack set_b]. unfold pop_frame. destruct (frames (h_b h3)); [apply N3|].
          destruct (_ =? 0); apply N3.
        - split; [repeat split; cbn; assumption|]. split; [exact O3|].
          split; [intros En; apply pop_endless; apply E3; exact En|].
          exists lb'. split; [exact B3|]. split; [exact M3|]. split; [exact F3|exact S3]. }
      pose proof (may_return id fn v h5 (proj1 (proj1 T5))) as My5.
      pose proof (tale_may _ _ _ _ (proj1 T5) My5 (fun D => debug_off h5 _ D)) as T6.
      assert (C6 : current (fn_return_diag id fn v h5) = current h).
      { unfold current at 1. rewrite (proj1 (proj1 (proj2 My5))). exact Cst. }
      destruct (IH (Ok v) (fn_return_diag id fn v h5) (proj1 T6)) as (l & L & T7). rewrite C6 in L.
      eexists. split; [apply T_call_ok; [exact Lb|exact L]|].
      exact (tale_trans _ _ _ [_] _ T01 (tale_trans _ _ _ _ _ T5 (tale_trans _ _ _ [_] l T6 T7))).
    + set (h4 := rollback (length (h_buf h1)) h3).
      set (h5 := set_stack (set_b h4 (pop_frame (h_b h4))) (h_stack h1)).
      assert (T5 : tale h1 h5 (failed lb)).
      { split; [split; [apply ok_pop; apply N3|]|].
        - unfold h5, h4, rollback; cbn [h_b set_stack set_b set_buf]. unfold pop_frame. destruct (frames (h_b h3)); [apply N3|].
          destruct (_ =? 0); apply N3.
        - split; [repeat split; cbn; assumption|]. split; [exact O3|].
          split; [intros En; apply pop_endless; apply E3; exact En|].
          exists (failed lb'). split; [cbn [h5 h4 rollback h_buf set_stack set_b set_buf]; rewrite B3; apply buffer_mark|].
          split; [apply misses_failed; exact M3|].
          split; [intros D Q En; rewrite (F3 D Q En); reflexivity|].
          intros D. rewrite contracts_failed, (S3 D). reflexivity. }
      destruct (IH (Err e) h5 (proj1 T5)) as (l & L & T7).
      assert (C6 : current h5 = current h) by exact Cst. rewrite C6 in L.
      eexists. split; [eapply T_call_failed; [exact Lb|exact L]|].
      exact (tale_trans _ _ _ [_] _ T01 (tale_trans _ _ _ _ _ T5 T7)).
Qed.
