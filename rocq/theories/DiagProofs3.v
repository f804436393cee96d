(* Two hosts that differ in diagnostics only; what leaves the host. *)
From Coq Require Import ZArith NArith Lia String List Bool.
From Verif Require Import Prelude HeapModel CtModel BudgetModel BudgetSpec BudgetProofs BudgetProofs2 DiagModel DiagSpec DiagProofs DiagProofs2.
Import ListNotations.
Open Scope Z_scope.
Ltac Zify.zify_post_hook ::= idtac.

Lemma alike_work h g p : normal h -> alike h g ->
  alike (fst (work h p)) (fst (work g p)) /\ normal (fst (work h p)) /\ snd (work h p) = snd (work g p).
Proof.
  intros [OK S] (K & B & St). rewrite !work_eq. cbn [fst snd].
  destruct (run_cong p _ _ OK S K) as (A1 & A2 & A3). destruct (run_normal p _ OK S) as [N1 N2].
  split; [split; [exact A1|split; [exact B|exact St]]|]. split; [split; assumption|exact A3].
Qed.

Lemma may_keeps d b h g : may (IDiag d, b) h g -> contracts (h_buf g) = contracts (h_buf h).
Proof.
  intros (_ & _ & _ & [-> | ->] & _); [reflexivity|]. rewrite contracts_app. cbn. apply app_nil_r.
Qed.
Lemma alike_may d b d2 b2 h g h' g' : normal h -> alike h g ->
  may (IDiag d, b) h h' -> may (IDiag d2, b2) g g' -> normal h' /\ alike h' g'.
Proof.
  intros [OK S] (K & B & St) M1 M2. pose proof (may_keeps _ _ _ _ M1) as B1. pose proof (may_keeps _ _ _ _ M2) as B2.
  destruct M1 as (K1 & (R1 & _) & _). destruct M2 as (K2 & (R2 & _) & _). split.
  - split; [exact (sm_ok _ _ OK K1)|]. rewrite (sm_shadow _ _ K1). exact S.
  - split; [eapply sm_trans; [apply sm_sym; exact K1|eapply sm_trans; [exact K|exact K2]]|].
    split; congruence.
Qed.
Lemma alike_ok h g : normal h -> alike h g -> ok_budget (h_b g).
Proof. intros [OK _] (K & _). exact (sm_ok _ _ OK K). Qed.
Lemma alike_current h g : alike h g -> current h = current g.
Proof. intros (_ & _ & E). unfold current. rewrite E. reflexivity. Qed.

Lemma alike_record h g c : normal h -> alike h g ->
  let x := record h (IContract c) in let y := record g (IContract c) in
  alike (fst x) (fst y) /\ normal (fst x) /\ snd x = snd y.
Proof.
  intros N A. cbn [record]. unfold push_event.
  destruct (alike_work h g (bulk_init 1 size_recorded) N A) as (A1 & N1 & R).
  destruct (work h (bulk_init 1 size_recorded)) as [h1 r1], (work g (bulk_init 1 size_recorded)) as [g1 r2].
  cbn [fst snd] in *. subst r2. destruct r1; cbn [andthen fst snd].
  - split; [|split; [exact N1|reflexivity]]. destruct A1 as (K & B & St). split; [exact K|]. split; [|exact St].
    cbn [h_buf set_buf]. rewrite !contracts_app, B. reflexivity.
  - split; [exact A1|]. split; [exact N1|reflexivity].
Qed.

Lemma rest_frames h h' : normal h -> same_rest h h' -> h_stack h' = h_stack h.
Proof. intros _ (E & _). exact E. Qed.

(* contract events of a buffer that grew by l', rolled back *)
Lemma contracts_rollback b l :
  contracts (firstn (length b) (b ++ l) ++ mark_failed (skipn (length b) (b ++ l))) = contracts b ++ failed (contracts l).
Proof. rewrite buffer_mark, contracts_app, contracts_failed. reflexivity. Qed.

Lemma exec_alike a : forall h g, normal h -> alike h g ->
  alike (fst (exec a h)) (fst (exec a g)) /\ normal (fst (exec a h)) /\ snd (exec a h) = snd (exec a g).
Proof.
  induction a as [r|p k IH|k IH|s t d k IH|m args k IH|er m args k IH|p id fn args body IHb k IH]; intros h g N A.
  - split; [exact A|]. split; [exact N|reflexivity].
  - cbn [exec]. destruct (alike_work h g p N A) as (A1 & N1 & R).
    destruct (work h p) as [h1 r1], (work g p) as [g1 r2]. cbn [fst snd] in *. subst r2. apply IH; assumption.
  - cbn [exec]. cbv zeta. destruct A as (K & B & St).
    assert (E : d_net (cpu (h_b h)) = d_net (cpu (h_b g)) /\ d_peak (mem (h_b h)) = d_peak (mem (h_b g))
       /\ get_remaining (cpu (h_b h)) = get_remaining (cpu (h_b g)) /\ get_remaining (mem (h_b h)) = get_remaining (mem (h_b g))).
    { unfold get_remaining. unfold same_metered in K. intuition congruence. }
    destruct E as (-> & -> & -> & ->). apply IH; [exact N|]. split; [exact K|]. split; assumption.
  - cbn [exec]. rewrite (alike_current h g A).
    destruct (alike_record h g {| ce_system := s; ce_id := current g; ce_topics := t; ce_data := d |} N A) as (A1 & N1 & R).
    destruct (record h _) as [h1 r1], (record g _) as [g1 r2]. cbn [fst snd] in *. subst r2. apply IH; assumption.
  - cbn [exec]. destruct (alike_may _ _ _ _ _ _ _ _ N A (may_log m args h (proj1 N)) (may_log m args g (alike_ok _ _ N A))) as [N1 A1].
    apply IH; assumption.
  - cbn [exec]. destruct (alike_may _ _ _ _ _ _ _ _ N A (may_err er m args h (proj1 N)) (may_err er m args g (alike_ok _ _ N A))) as [N1 A1].
    apply IH; assumption.
  - cbn [exec]. destruct (alike_may _ _ _ _ _ _ _ _ N A (may_call id fn args h (proj1 N)) (may_call id fn args g (alike_ok _ _ N A))) as [N1 A1].
    set (h0 := fn_call_diag id fn args h) in *. set (g0 := fn_call_diag id fn args g) in *.
    destruct (alike_work h0 g0 p N1 A1) as (A2 & N2 & R).
    destruct (work h0 p) as [h1 r1], (work g0 p) as [g1 r2]. cbn [fst snd] in *. subst r2.
    destruct r1 as [u|e]; [|apply IH; assumption].
    set (h2 := set_stack (set_b h1 (set_frames (h_b h1) (0 :: frames (h_b h1)))) (id :: h_stack h1)).
    set (g2 := set_stack (set_b g1 (set_frames (h_b g1) (0 :: frames (h_b g1)))) (id :: h_stack g1)).
    destruct A2 as (K2 & B2 & St2).
    assert (N3 : normal h2) by (split; [apply ok_push0; apply (proj1 N2)|exact (proj2 N2)]).
    assert (A3 : alike h2 g2).
    { split; [|split; [exact B2|cbn; rewrite St2; reflexivity]]. unfold h2, g2. cbn [h_b set_stack set_b].
      assert (Ef : frames (h_b g1) = frames (h_b h1)) by (unfold same_metered in K2; intuition congruence).
      rewrite Ef. apply sm_set_frames. exact K2. }
    assert (N3g : normal g2).
    { destruct A3 as (K3 & _). split; [exact (sm_ok _ _ (proj1 N3) K3)|]. rewrite (sm_shadow _ _ K3). exact (proj2 N3). }
    destruct (IHb h2 g2 N3 A3) as (A4 & N4 & R4).
    destruct (exec_tells body h2 N3) as (lh & _ & (_ & _ & _ & _ & lh' & Bh & _ & _ & _)).
    destruct (exec_tells body g2 N3g) as (lg & _ & (_ & _ & _ & _ & lg' & Bg & _ & _ & _)).
    destruct (exec body h2) as [h3 r], (exec body g2) as [g3 r3]. cbn [fst snd] in *. subst r3.
    destruct A4 as (K4 & B4 & St4). cbn [h2 g2 h_buf set_stack set_b] in Bh, Bg.
    destruct r as [v|e].
    + set (h5 := set_stack (set_b h3 (pop_frame (h_b h3))) (h_stack h1)).
      set (g5 := set_stack (set_b g3 (pop_frame (h_b g3))) (h_stack g1)).
      assert (N5 : normal h5).
      { split; [apply ok_pop; apply N4|]. unfold h5; cbn [h_b set_stack set_b]. unfold pop_frame.
        destruct (frames (h_b h3)); [apply N4|]. destruct (_ =? 0); apply N4. }
      assert (A5 : alike h5 g5) by (split; [apply pop_cong; exact K4|split; [exact B4|exact St2]]).
      destruct (alike_may _ _ _ _ _ _ _ _ N5 A5 (may_return id fn v h5 (proj1 N5)) (may_return id fn v g5 (alike_ok _ _ N5 A5))) as [N6 A6].
      apply IH; assumption.
    + apply IH.
      * split; [apply ok_pop; apply N4|]. cbn [h_b set_stack set_b rollback set_buf]. unfold pop_frame.
        destruct (frames (h_b h3)); [apply N4|]. destruct (_ =? 0); apply N4.
      * split; [apply pop_cong; exact K4|]. split; [|exact St2].
        cbn [rollback h_buf set_stack set_b set_buf]. rewrite Bh, Bg, !contracts_rollback.
        rewrite Bh, Bg, !contracts_app, B2 in B4. apply app_inv_head in B4. rewrite B2, B4. reflexivity.
Qed.

(* ------------------------------------------------------------ leaving the host *)

Definition shown_of (l : list (ievent * bool)) : list (xevent * bool) :=
  flat_map (fun e => match e with (IContract c, b) => [(show_contract c, b)] | _ => [] end) l.
Definition nondiag (l : list (xevent * bool)) : list (xevent * bool) := filter (fun e => is_shown_contract (fst e)) l.

Lemma shown_contracts l : shown_of (contracts l) = shown_of l.
Proof. induction l as [|[[c|d] b] l IH]; [reflexivity| |exact IH]. cbn. f_equal. exact IH. Qed.

Section Out.
  Variable conv : scval -> prog.
  Variable xconv : cevent -> prog.
  Variable wr : xevent -> prog.

  (* what debug mode may do to a host while events are taken out *)
  Definition aside (h g : dhost) : Prop :=
    same_metered (h_b h) (h_b g) /\ same_rest h g /\ h_buf g = h_buf h /\ nondiag (h_out g) = nondiag (h_out h).

  Lemma aside_refl h : aside h h.
  Proof. split; [apply sm_refl|]. split; [repeat split|]. split; reflexivity. Qed.
  Lemma aside_trans a b c : aside a b -> aside b c -> aside a c.
  Proof.
    intros (K1 & (R1 & R2 & R3) & B1 & O1) (K2 & (R4 & R5 & R6) & B2 & O2).
    split; [eapply sm_trans; eauto|]. split; [repeat split; congruence|]. split; congruence.
  Qed.
  Lemma aside_work h p f : ok_budget (h_b h) -> in_shadow (h_b h) = true ->
    (forall g, ok_budget (h_b g) -> in_shadow (h_b g) = true -> aside g (fst (f g))) ->
    aside h (fst (andthen (work h p) f)).
  Proof.
    intros OK S F. rewrite work_eq. pose proof (run_shadow p (h_b h) OK S) as K.
    destruct (run p (h_b h)) as [[b l] r]. cbn [fst snd] in *.
    assert (A0 : aside h (set_b h b)) by (split; [exact K|]; split; [repeat split|]; split; reflexivity).
    destruct r as [u|x]; cbn [andthen]; [|exact A0].
    eapply aside_trans; [exact A0|]. apply F; [exact (sm_ok _ _ OK K)|]. cbn [h_b set_b]. rewrite (sm_shadow _ _ K). exact S.
  Qed.
  Lemma aside_then h x f : ok_budget (h_b h) -> in_shadow (h_b h) = true -> aside h (fst x) ->
    (forall g, ok_budget (h_b g) -> in_shadow (h_b g) = true -> aside g (fst (f g))) -> aside h (fst (andthen x f)).
  Proof.
    intros OK S A F. destruct x as [g [u|e]]; cbn [andthen fst] in *; [|exact A].
    eapply aside_trans; [exact A|]. destruct A as (K & _). apply F; [exact (sm_ok _ _ OK K)|].
    rewrite (sm_shadow _ _ K). exact S.
  Qed.
  Lemma aside_debug h f : ok_budget (h_b h) ->
    (forall g, ok_budget (h_b g) -> in_shadow (h_b g) = true -> aside g (fst (f g))) -> aside h (debug h f).
  Proof.
    intros OK F. unfold debug. destruct (h_debug h) eqn:D; [|apply aside_refl].
    set (h1 := set_b h (set_shadow (h_b h) true)).
    specialize (F h1 (ok_set_shadow _ _ OK) eq_refl).
    assert (Z : aside h (set_b h1 (set_shadow (h_b h1) (in_shadow (h_b h))))).
    { split; [apply (shadow_back (h_b h)); apply sm_refl|]. split; [repeat split|]. split; reflexivity. }
    destruct (check_limit (cpu (h_b h1)) true); [|exact Z].
    destruct (check_limit (mem (h_b h1)) true); [|exact Z].
    destruct F as (K & (R1 & R2 & R3) & B & O).
    split; [apply (shadow_back (h_b h)); exact K|]. split; [repeat split; assumption|]. split; assumption.
  Qed.

  Lemma conv_aside l : forall h, ok_budget (h_b h) -> in_shadow (h_b h) = true -> aside h (fst (conv_all conv l h)).
  Proof.
    induction l as [|a l IH]; intros h OK S; cbn [conv_all fst]; [apply aside_refl|].
    apply aside_work; [exact OK|exact S|]. exact IH.
  Qed.
  Lemma args_aside l h : ok_budget (h_b h) -> in_shadow (h_b h) = true -> aside h (fst (externalize_args conv l h)).
  Proof. intros OK S. unfold externalize_args. rewrite S. apply aside_work; [exact OK|exact S|]. apply conv_aside. Qed.

  Lemma diag_aside d st h : ok_budget (h_b h) ->
    aside h (debug h (fun h => andthen (diag_to_xdr conv d h) (push_shown (show_diag d) st))).
  Proof.
    intros OK. apply aside_debug; [exact OK|]. intros g OKg Sg. apply aside_then; [exact OKg|exact Sg| |].
    - unfold diag_to_xdr. rewrite Sg. apply aside_then; [exact OKg|exact Sg|apply args_aside; assumption|].
      intros g2 OK2 S2. apply args_aside; assumption.
    - intros g2 OK2 S2. unfold push_shown. apply aside_work; [exact OK2|exact S2|]. intros g3 _ _.
      split; [apply sm_refl|]. split; [repeat split|]. split; [reflexivity|].
      cbn [fst h_out set_out]. unfold nondiag. rewrite filter_app. cbn. apply app_nil_r.
  Qed.

  (* the contract events taken out of any part of a buffer *)
  Lemma externalize_from_ok l : forall h, normal h ->
    let x := externalize_from conv xconv l h in
    normal (fst x) /\ same_rest h (fst x) /\ h_buf (fst x) = h_buf h
    /\ (snd x = Ok tt -> nondiag (h_out (fst x)) = nondiag (h_out h) ++ shown_of l).
  Proof.
    induction l as [|[[c|d] st] l IH]; intros h N; cbn [externalize_from].
    - split; [exact N|]. split; [repeat split|]. split; [reflexivity|]. intros _. symmetry. apply app_nil_r.
    - rewrite work_eq. destruct (run_normal (xconv c) _ (proj1 N) (proj2 N)) as [N1 N1'].
      destruct (snd (run (xconv c) (h_b h))) as [u|e]; cbn [andthen fst snd];
        [|split; [split; assumption|]; split; [repeat split|]; split; [reflexivity|discriminate]].
      unfold push_shown. rewrite work_eq. cbn [h_b set_b].
      destruct (run_normal (bulk_init 1 size_shown) _ N1 N1') as [N2 N2'].
      destruct (snd (run (bulk_init 1 size_shown) _)) as [u2|e]; cbn [andthen fst snd];
        [|split; [split; assumption|]; split; [repeat split|]; split; [reflexivity|discriminate]].
      match goal with |- context [externalize_from conv xconv l ?g] => specialize (IH g) end.
      destruct IH as (I1 & (R1 & R2 & R3) & I3 & I4); [split; assumption|].
      split; [exact I1|]. split; [repeat split; assumption|]. split; [exact I3|].
      intros O. rewrite (I4 O). cbn [h_out set_out set_b shown_of flat_map app]. unfold nondiag. rewrite filter_app.
      rewrite <- app_assoc. f_equal. cbn [filter fst].
      replace (is_shown_contract (show_contract c)) with true by (destruct c as [[|] ? ? ?]; reflexivity). reflexivity.
    - pose proof (diag_aside d st h (proj1 N)) as A.
      match goal with |- context [externalize_from conv xconv l ?g] => set (h1 := g) in * end; specialize (IH h1).
      destruct A as (K & (R1 & R2 & R3) & B & O).
      destruct IH as (I1 & (R4 & R5 & R6) & I3 & I4).
      { split; [exact (sm_ok _ _ (proj1 N) K)|]. rewrite (sm_shadow _ _ K). exact (proj2 N). }
      split; [exact I1|]. split; [repeat split; congruence|]. split; [congruence|].
      intros Ok1. rewrite (I4 Ok1), O. reflexivity.
  Qed.

  (* two hosts, two buffers with the same contract events *)
  Lemma externalize_from_alike l : forall l2 h g, normal h -> same_metered (h_b h) (h_b g) -> contracts l = contracts l2 ->
    let x := externalize_from conv xconv l h in let y := externalize_from conv xconv l2 g in
    same_metered (h_b (fst x)) (h_b (fst y)) /\ snd x = snd y.
  Proof.
    induction l as [|[[c|d] st] l IH].
    - induction l2 as [|[[c2|d2] st2] l2 IH2]; intros h g N K E; [split; [exact K|reflexivity]|discriminate|].
      cbn [externalize_from]. pose proof (diag_aside d2 st2 g (sm_ok _ _ (proj1 N) K)) as (K2 & _).
      apply IH2; [exact N|eapply sm_trans; eauto|exact E].
    - induction l2 as [|[[c2|d2] st2] l2 IH2]; intros h g N K E; [discriminate| |].
      2:{ replace (externalize_from conv xconv ((IDiag d2, st2) :: l2) g) with
            (externalize_from conv xconv l2 (debug g (fun h => andthen (diag_to_xdr conv d2 h) (push_shown (show_diag d2) st2)))) by reflexivity.
          pose proof (diag_aside d2 st2 g (sm_ok _ _ (proj1 N) K)) as (K2 & _).
          apply IH2; [exact N|eapply sm_trans; eauto|exact E]. }
      cbn [contracts filter is_contract fst] in E. injection E as <- <- E.
      cbn [externalize_from]. rewrite !work_eq.
      destruct (run_cong (xconv c) _ _ (proj1 N) (proj2 N) K) as (A1 & _ & A3).
      destruct (run_normal (xconv c) _ (proj1 N) (proj2 N)) as [N1 N1']. rewrite <- A3.
      destruct (snd (run (xconv c) (h_b h))) as [u|e]; cbn [andthen fst snd]; [|split; [exact A1|reflexivity]].
      unfold push_shown. rewrite !work_eq. cbn [h_b set_b].
      destruct (run_cong (bulk_init 1 size_shown) _ _ N1 N1' A1) as (B1 & _ & B3). rewrite <- B3.
      destruct (run_normal (bulk_init 1 size_shown) _ N1 N1') as [N2 N2'].
      destruct (snd (run (bulk_init 1 size_shown) _)) as [u2|e]; cbn [andthen fst snd]; [|split; [exact B1|reflexivity]].
      apply IH; [split; assumption|exact B1|exact E].
    - intros l2 h g N K E. cbn [externalize_from]. pose proof (diag_aside d st h (proj1 N)) as (K2 & _).
      apply IH; [|eapply sm_trans; [apply sm_sym; exact K2|exact K]|exact E].
      split; [exact (sm_ok _ _ (proj1 N) K2)|]. rewrite (sm_shadow _ _ K2). exact (proj2 N).
  Qed.

  Lemma write_alike l : forall h g, normal h -> same_metered (h_b h) (h_b g) ->
    same_metered (h_b (fst (write_all wr l h))) (h_b (fst (write_all wr l g)))
    /\ snd (write_all wr l h) = snd (write_all wr l g) /\ normal (fst (write_all wr l h)).
  Proof.
    induction l as [|x l IH]; intros h g N K; cbn [write_all]; [split; [exact K|split; [reflexivity|exact N]]|].
    rewrite !work_eq. destruct (run_cong (wr x) _ _ (proj1 N) (proj2 N) K) as (A1 & _ & A3). rewrite <- A3.
    destruct (run_normal (wr x) _ (proj1 N) (proj2 N)) as [N1 N1'].
    destruct (snd (run (wr x) (h_b h))) as [u|e]; cbn [andthen fst snd].
    - apply IH; [split; assumption|exact A1].
    - split; [exact A1|]. split; [reflexivity|split; assumption].
  Qed.

  Lemma counted l : map fst (filter counts l) = map fst (filter (fun e => negb (snd e)) (nondiag l)).
  Proof.
    induction l as [|[x b] l IH]; [reflexivity|].
    change (nondiag ((x, b) :: l)) with (if is_shown_contract x then (x, b) :: nondiag l else nondiag l).
    cbn [filter]. replace (counts (x, b)) with (negb b && is_shown_contract x)%bool by reflexivity.
    destruct (is_shown_contract x), b; cbn [negb andb filter snd map fst]; try rewrite IH; reflexivity.
  Qed.
  Lemma emitted_shown l : map fst (filter (fun e => negb (snd e)) (shown_of l)) = emitted l.
  Proof.
    induction l as [|[[c|d] b] l IH]; [reflexivity| |exact IH]. cbn [shown_of flat_map app emitted].
    destruct b; cbn [filter snd negb]; cbn [map app fst]; [exact IH|f_equal; exact IH].
  Qed.

  Definition outcome (x : dhost * list (bool * xevent) * res (scval * list xevent)) := snd x.
  Definition after (x : dhost * list (bool * xevent) * res (scval * list xevent)) := fst (fst x).

  Lemma externalize_events h h1 evs : normal h -> externalize conv xconv h = (h1, Ok evs) ->
    normal h1 /\ same_rest h h1 /\ nondiag evs = shown_of (h_buf h).
  Proof.
    intros N E. unfold externalize in E.
    destruct (externalize_from_ok (h_buf h) (set_out h []) N) as (N1 & R & _ & O).
    cbn [h_buf set_out] in *.
    destruct (externalize_from conv xconv (h_buf h) (set_out h [])) as [h2 [u|e]]; cbn [fst snd rmap] in *; [|discriminate].
    injection E as <- <-. destruct u. split; [exact N1|]. split; [exact R|]. exact (O eq_refl).
  Qed.

  Lemma finish_alike h g r : normal h -> alike h g ->
    outcome (finish conv xconv wr h r) = outcome (finish conv xconv wr g r)
    /\ same_metered (h_b (after (finish conv xconv wr h r))) (h_b (after (finish conv xconv wr g r))).
  Proof.
    intros N (K & B & St). unfold outcome, after, finish.
    assert (Ng : normal g) by (split; [exact (sm_ok _ _ (proj1 N) K)|rewrite (sm_shadow _ _ K); exact (proj2 N)]).
    assert (X : same_metered (h_b (fst (externalize conv xconv h))) (h_b (fst (externalize conv xconv g)))
      /\ rmap (fun _ => tt) (snd (externalize conv xconv h)) = rmap (fun _ => tt) (snd (externalize conv xconv g))).
    { unfold externalize. destruct (externalize_from_alike (h_buf h) (h_buf g) (set_out h []) (set_out g []) N K B) as [X1 X2].
      destruct (externalize_from conv xconv (h_buf h) (set_out h [])) as [h1 r1].
      destruct (externalize_from conv xconv (h_buf g) (set_out g [])) as [g1 r2]. cbn [fst snd] in *. subst r2.
      split; [exact X1|]. destruct r1; reflexivity. }
    destruct X as [X1 X2].
    destruct (externalize conv xconv h) as [h1 x] eqn:Eh, (externalize conv xconv g) as [g1 y] eqn:Eg. cbn [fst snd] in X1, X2.
    destruct x as [evs|e], y as [evs2|e2]; try discriminate.
    2:{ cbn in X2. injection X2 as <-. cbn [fst snd]. split; [reflexivity|exact X1]. }
    destruct (externalize_events _ _ _ N Eh) as (N1 & _ & S1). destruct (externalize_events _ _ _ Ng Eg) as (_ & _ & S2).
    destruct r as [v|e]; cbn [fst snd]; [|split; [reflexivity|exact X1]].
    unfold encode_contract_events.
    assert (Ec : map fst (filter counts evs2) = map fst (filter counts evs)).
    { rewrite !counted, S1, S2, <- (shown_contracts (h_buf h)), <- (shown_contracts (h_buf g)), B. reflexivity. }
    rewrite Ec. set (ce := map fst (filter counts evs)).
    destruct (write_alike ce h1 g1 N1 X1) as (W1 & W2 & W3).
    destruct (write_all wr ce h1) as [h2 r2], (write_all wr ce g1) as [g2 r3]. cbn [fst snd] in *. subst r3.
    destruct r2 as [u|e]; cbn [andthen rmap fst snd]; [|split; [reflexivity|exact W1]].
    rewrite !work_eq. cbn [fst snd].
    destruct (run_cong (bulk_init (length ce) 24) _ _ (proj1 W3) (proj2 W3) W1) as (A1 & _ & A3). rewrite <- A3.
    split; [reflexivity|exact A1].
  Qed.

  Lemma finish_gives h r h1 dg v ce : normal h -> finish conv xconv wr h r = (h1, dg, Ok (v, ce)) ->
    r = Ok v /\ ce = emitted (h_buf h).
  Proof.
    intros N E. unfold finish in E. destruct (externalize conv xconv h) as [h2 [evs|e]] eqn:Eh; [|discriminate].
    destruct (externalize_events _ _ _ N Eh) as (_ & _ & S1).
    destruct r as [v2|e]; [|discriminate]. unfold encode_contract_events in E.
    destruct (andthen _ _) as [h3 [u|e]]; cbn [rmap] in E; [|discriminate].
    injection E as _ _ <- <-. split; [reflexivity|]. rewrite counted, S1. apply emitted_shown.
  Qed.

  (* the diagnostics given out: none without debugging; otherwise every contract
     event with its mark, in order, and nothing but diagnostic events besides *)
  Lemma finish_diagnostics h r : normal h ->
    let dg := snd (fst (finish conv xconv wr h r)) in
    (h_debug h = false -> dg = [])
    /\ (h_debug h = true -> dg = [] /\ (exists e, snd (externalize conv xconv h) = Err e)
         \/ filter (fun e => is_shown_contract (snd e)) dg = map (fun e => (negb (snd e), fst e)) (shown_of (h_buf h))).
  Proof.
    intros N. unfold finish. destruct (externalize conv xconv h) as [h2 [evs|e]] eqn:Eh.
    2:{ cbn [fst snd]. split; [reflexivity|]. intros _. left. split; [reflexivity|]. exists e. reflexivity. }
    destruct (externalize_events _ _ _ N Eh) as (_ & (_ & R & _) & S1).
    assert (D : snd (fst (match r with
      | Ok v => let (h3, ce) := encode_contract_events wr evs h2 in (h3, if h_debug h2 then extract_diagnostic_events evs else [],
          rmap (fun ce0 => (v, ce0)) ce)
      | Err e => (h2, if h_debug h2 then extract_diagnostic_events evs else [], Err e) end))
      = if h_debug h then extract_diagnostic_events evs else []).
    { rewrite R. destruct r; [|reflexivity]. destruct (encode_contract_events wr evs h2). reflexivity. }
    cbv zeta. rewrite D. split; intros Dh; rewrite Dh; [reflexivity|]. right.
    rewrite <- S1. unfold extract_diagnostic_events, nondiag. clear. induction evs as [|[x b] l IH]; [reflexivity|].
    cbn [map filter fst snd]. destruct (is_shown_contract x); cbn [map fst snd]; [f_equal|]; exact IH.
  Qed.

  (* with a shadow budget that does not run out every diagnostic is given out *)
  Hypothesis conv_ok : forall v, only_budget (conv v).

  Definition full (h : dhost) : Prop := ok_budget (h_b h) /\ in_shadow (h_b h) = true /\ endless (h_b h) /\ h_debug h = true.
  Lemma full_work h p : full h -> only_budget p ->
    exists g, work h p = (g, Ok tt) /\ full g /\ h_out g = h_out h.
  Proof.
    intros (OK & S & E & D) F. rewrite work_eq. rewrite (F _ OK S E).
    exists (set_b h (fst (fst (run p (h_b h))))). split; [reflexivity|].
    pose proof (run_shadow p (h_b h) OK S) as K. pose proof (run_endless p (h_b h) E) as E2.
    destruct (run p (h_b h)) as [[b l] r]. cbn [fst] in *. split; [|reflexivity].
    split; [exact (sm_ok _ _ OK K)|]. cbn [h_b set_b]. rewrite (sm_shadow _ _ K).
    split; [exact S|]. split; [exact E2|exact D].
  Qed.
  Lemma full_conv l : forall h, full h -> exists g, conv_all conv l h = (g, Ok tt) /\ full g /\ h_out g = h_out h.
  Proof.
    induction l as [|a l IH]; intros h F; cbn [conv_all]; [exists h; auto|].
    destruct (full_work h (conv a) F (conv_ok a)) as (g & -> & F1 & O1). cbn [andthen].
    destruct (IH g F1) as (g2 & -> & F2 & O2). exists g2. split; [reflexivity|]. split; [exact F2|congruence].
  Qed.
  Lemma full_args l h : full h -> exists g, externalize_args conv l h = (g, Ok tt) /\ full g /\ h_out g = h_out h.
  Proof.
    intros F. unfold externalize_args. rewrite (proj1 (proj2 F)).
    destruct (full_work h _ F (free_bulk (length l) size_arg)) as (g & -> & F1 & O1). cbn [andthen].
    destruct (full_conv l g F1) as (g2 & -> & F2 & O2). exists g2. split; [reflexivity|]. split; [exact F2|congruence].
  Qed.
  Lemma full_diag d st h : normal h -> h_debug h = true -> endless (h_b h) ->
    let g := debug h (fun h => andthen (diag_to_xdr conv d h) (push_shown (show_diag d) st)) in
    endless (h_b g) /\ h_debug g = true /\ h_out g = h_out h ++ [(show_diag d, st)].
  Proof.
    intros N D E. unfold debug. rewrite D.
    set (h1 := set_b h (set_shadow (h_b h) true)).
    assert (F : full h1) by (split; [apply ok_set_shadow; apply N|]; split; [reflexivity|]; split; [exact E|exact D]).
    rewrite (check_endless (cpu (h_b h1)) (proj1 E)), (check_endless (mem (h_b h1)) (proj2 E)).
    unfold diag_to_xdr. rewrite (proj1 (proj2 F)).
    destruct (full_args (de_topics d) h1 F) as (g1 & -> & F1 & O1). cbn [andthen].
    destruct (full_args (de_args d) g1 F1) as (g2 & -> & F2 & O2). cbn [andthen].
    unfold push_shown. destruct (full_work g2 _ F2 (free_bulk 1 size_shown)) as (g3 & -> & F3 & O3). cbn [andthen fst].
    destruct F3 as (_ & _ & E3 & D3). split; [exact E3|]. split; [exact D3|].
    cbn [h_out set_out set_b]. rewrite O3, O2, O1. reflexivity.
  Qed.

  Definition told (e : ievent * bool) : xevent * bool :=
    (match fst e with IContract c => show_contract c | IDiag d => show_diag d end, snd e).

  Lemma externalize_all l : forall h, normal h -> h_debug h = true -> endless (h_b h) ->
    let x := externalize_from conv xconv l h in
    snd x = Ok tt -> h_out (fst x) = h_out h ++ map told l.
  Proof.
    induction l as [|[[c|d] st] l IH]; intros h N D E; cbn [externalize_from].
    - intros _. symmetry. apply app_nil_r.
    - rewrite work_eq. destruct (run_normal (xconv c) _ (proj1 N) (proj2 N)) as [N1 N1'].
      pose proof (run_endless (xconv c) _ E) as E1.
      destruct (snd (run (xconv c) (h_b h))) as [u|e]; cbn [andthen fst snd]; [|discriminate].
      unfold push_shown. rewrite work_eq. cbn [h_b set_b].
      destruct (run_normal (bulk_init 1 size_shown) _ N1 N1') as [N2 N2'].
      pose proof (run_endless (bulk_init 1 size_shown) _ E1) as E2.
      destruct (snd (run (bulk_init 1 size_shown) _)) as [u2|e]; cbn [andthen fst snd]; [|discriminate].
      intros O. rewrite IH; [|split; assumption|exact D|exact E2|exact O].
      cbn [h_out set_out set_b]. rewrite <- app_assoc. reflexivity.
    - destruct (full_diag d st h N D E) as (E1 & D1 & O1).
      pose proof (diag_aside d st h (proj1 N)) as (K & _).
      set (h1 := debug h _) in *. intros O. rewrite IH; [|split|exact D1|exact E1|exact O].
      + rewrite O1, <- app_assoc. reflexivity.
      + exact (sm_ok _ _ (proj1 N) K).
      + rewrite (sm_shadow _ _ K). exact (proj2 N).
  Qed.

  Lemma finish_all h r : normal h -> h_debug h = true -> endless (h_b h) ->
    let dg := snd (fst (finish conv xconv wr h r)) in
    dg = map shown (h_buf h) \/ (dg = [] /\ exists e, snd (finish conv xconv wr h r) = Err e).
  Proof.
    intros N D E. unfold finish, externalize.
    destruct (externalize_from_ok (h_buf h) (set_out h []) N) as (N1 & (_ & R & _) & _).
    pose proof (externalize_all (h_buf h) (set_out h []) N D E) as A. cbn [h_buf h_out set_out app] in *.
    destruct (externalize_from conv xconv (h_buf h) (set_out h [])) as [h2 [u|e]]; cbn [fst snd rmap] in *.
    2:{ right. split; [reflexivity|]. exists e. reflexivity. }
    left. destruct u. specialize (A eq_refl). cbn [h_debug set_out] in R.
    assert (X : extract_diagnostic_events (h_out h2) = map shown (h_buf h)).
    { unfold extract_diagnostic_events. rewrite A, map_map. apply map_ext. intros [[c|d] b]; reflexivity. }
    destruct r; [|cbn [fst snd]; rewrite R, D; exact X].
    destruct (encode_contract_events wr (h_out h2) h2). cbn [fst snd]. rewrite R, D. exact X.
  Qed.
End Out.
