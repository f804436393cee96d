(* Every require_auth gets the answer the rules give it, and only one answer is
   right. *)
From Coq Require Import ZArith Lia List Bool.
From Verif Require Import Prelude ValModel ContainerModel HeapModel AMap StorageModel StorageSpec
  StorageProofs StorageProofs2 StorageLogic StorageProofs3 FrameModel FrameSpec FrameProofs FrameStore FrameProofs2
  AuthModel AuthSpec AuthProofs AuthProofs2 AuthProofs3 AuthProofs4 AuthProofs5 AuthProofs6.
Import ListNotations.
Open Scope nat_scope.

(* ------------------------------------------------------------ one answer *)

Lemma may_use_last s t tree p p' f : may_use s t tree p f -> may_use s t tree p' f -> last p 0 = last p' 0 -> p = p'.
Proof.
  intros (_ & _ & A) (_ & _ & B). destruct (s_frames s) as [|fr rest]; [contradiction|].
  destruct A as [_ A], B as [_ B]. destruct (nearest rest t) as [q|]; [|congruence].
  destruct A as (n & ->), B as (m & ->). rewrite !last_snoc. congruence.
Qed.
Lemma before_anti i p j q : before i p j q -> before j q i p -> i = j /\ last p 0 = last q 0.
Proof. unfold before. lia. Qed.
Lemma answer_unique entries s a f w w' :
  right_answer entries s a f w -> right_answer entries s a f w' -> w = w'.
Proof.
  intros X Y. destruct w as [|j p|i p|], w' as [|j' p'|i' p'|]; cbn in X, Y; unfold pre_first, entry_first, unauthorized in X, Y; auto;
    try (exfalso; tauto); try (exfalso; destruct X as [X1 X2], Y as [Y1 Y2]; tauto).
  - destruct X as [X1 [_ X2]], Y as [Y1 [_ Y2]]. destruct (before_anti _ _ _ _ (X2 _ _ Y1) (Y2 _ _ X1)) as [<- L].
    destruct X1 as (q & N & _ & _ & M), Y1 as (q' & N' & _ & _ & M'). rewrite N in N'. injection N' as <-.
    f_equal. eapply may_use_last; eauto.
  - exfalso. destruct X as [X1 _], Y as [_ (_ & Y2 & _)]. eapply Y2; eauto.
  - exfalso. destruct X as [X1 _], Y as (_ & Y2 & _). eapply Y2; eauto.
  - exfalso. destruct Y as [Y1 _], X as [_ (_ & X2 & _)]. eapply X2; eauto.
  - destruct X as [X1 (_ & _ & X2)], Y as [Y1 (_ & _ & Y2)]. destruct (before_anti _ _ _ _ (X2 _ _ Y1) (Y2 _ _ X1)) as [<- L].
    destruct X1 as (q & N & _ & _ & M & _), Y1 as (q' & N' & _ & _ & M' & _). rewrite N in N'. injection N' as <-.
    f_equal. eapply may_use_last; eauto.
  - exfalso. destruct X as [X1 _], Y as (_ & _ & Y2). eapply Y2; eauto.
  - exfalso. destruct Y as [Y1 _], X as (_ & X2 & _). eapply X2; eauto.
  - exfalso. destruct Y as [Y1 _], X as (_ & _ & X2). eapply X2; eauto.
Qed.
Lemma answer_right li entries s x l s' a f w : explained li entries s (x :: l) s' -> answer_of x = Some (a, f, w) ->
  current_fn s f /\ right_answer entries s a f w.
Proof.
  intros X E. inversion X; subst; cbn in E; try discriminate E; injection E as <- <- <-; split; auto.
  - cbn. split; auto. exists q. auto.
  - cbn. auto.
  - cbn. auto.
  - cbn. auto.
  - cbn. auto.
Qed.

(* ------------------------------------------- nonces outside the footprint *)

Section Foot.
  Variable entries : list entry_.
  Variable c : sconf.
  Hypothesis LI : li_ok (sc_li c).
  Notation ainv := (ainv c).

  Definition foot (st : astate) := st_foot (as_store st).
  Lemma foot_wk st st' : sc_mode c = Enforcing -> wk c st st' -> foot st' = foot st.
  Proof. intros M (_ & _ & _ & _ & S & _). now apply S. Qed.

  Lemma consume_foot st a n x st' : ainv st -> consume c st a (Some (n, x)) = (st', Err e_foot) ->
    sc_mode c = Enforcing /\ ~ declared (foot st) (nonce_key a n) ReadWrite.
  Proof.
    intros (RO & _) E. unfold consume in E. destruct (_ >? _)%Z; [discriminate|]. rewrite (max_live_ok _ LI) in E.
    destruct (_ >? _)%Z; [discriminate|]. unfold run_store, consume_nonce, get_min_live_until in E. rewrite (min_live_ok _ Temporary LI) in E.
    unfold phas, psucc in E. cbn [srun] in E. fold (nonce_key a n) in E.
    destruct (sstep c (as_store st) (SHas (nonce_key a n))) as [s1 r1] eqn:S1.
    apply (step_correct c) in S1; auto; [|intros _; exact I].
    destruct S1 as [(E1 & _ & _ & RO1 & _ & F1)|(M & _ & ND & -> & ->)].
    2:{ split; auto. intros D. apply ND. cbn in *. unfold foot in D. rewrite D. discriminate. }
    change (snd (meaning (sc_li c) (contents c (as_store st)) (SHas (nonce_key a n))))
      with (@Ok sout (OBool match contents c (as_store st) (nonce_key a n) with Some _ => true | None => false end)) in E1.
    subst r1. destruct (contents c (as_store st) (nonce_key a n)); [discriminate|].
    unfold pput, psucc in E. cbn [srun] in E.
    destruct (sstep c s1 _) as [s2 r2] eqn:S2. pose proof (min_live_ge (sc_li c) Temporary LI) as G.
    apply (step_correct c) in S2; auto; [|intros _; cbn; intros _; eexists; split; [reflexivity|lia]].
    destruct S2 as [(E2 & _)|(M & _ & ND & _)]; [cbn in E2; subst r2; discriminate|].
    split; auto. rewrite (F1 M) in ND. exact ND.
  Qed.

  Definition outside (f0 : list (lkey * access)) (x : atree) : Prop :=
    match x with
    | TFirst a _ i _ (NonceFailed e) _ => e = e_foot ->
        sc_mode c = Enforcing /\ exists en n v, nth_error entries i = Some en /\ en_cred en = Some (n, v) /\ ~ declared f0 (nonce_key a n) ReadWrite
    | _ => True
    end.
  Definition footed (body : astate -> astate * res unit * list atree) : Prop :=
    forall st st' r t f0, ainv st -> named entries (as_acc st) -> (sc_mode c = Enforcing -> foot st = f0) ->
    body st = (st', r, t) -> Forall (outside f0) (flat_map everything t).

  Lemma frame_footed id fn body st st' r t f0 : good_body c body -> footed body -> ainv st -> named entries (as_acc st) ->
    (sc_mode c = Enforcing -> foot st = f0) ->
    with_aframe id fn body st = (st', r, t) -> Forall (outside f0) (flat_map everything t).
  Proof.
    intros GB FB I N F E. destruct (with_aframe_ok c _ _ _ _ _ _ _ GB I E) as (_ & _ & st2 & l & BD & -> & _).
    cbn. rewrite app_nil_r. constructor; [exact Logic.I|].
    exact (FB _ _ _ _ f0 (ainv_push c (FrContract id fn) st I) (named_push entries (FrContract id fn) _ N) F BD).
  Qed.
  Lemma ev_app l1 l2 f0 : Forall (outside f0) (flat_map everything l1) -> Forall (outside f0) (flat_map everything l2) ->
    Forall (outside f0) (flat_map everything (l1 ++ l2)).
  Proof. intros A B. rewrite flat_map_app. apply Forall_app. auto. Qed.

  Lemma exec_footed p : footed (fun st => exec c st p).
  Proof.
    induction p as [r|id fn try body IHb k IHk|pre ex args body IHb k IHk|a args sig check IHc k IHk|ts k IHk|o k IHk]; intros st st' r' t' f0 I N F; cbn.
    - intros [= <- <- <-]. constructor.
    - destruct (with_aframe id fn _ st) as [[st1 r1] t1] eqn:WA.
      destruct (with_aframe_ok c _ _ _ _ _ _ _ (exec_wk c LI body) I WA) as (I1 & K1 & _).
      pose proof (frame_footed _ _ _ _ _ _ _ f0 (exec_wk c LI body) IHb I N F WA) as RB.
      pose proof (named_wk entries c _ _ N K1) as N1.
      assert (F1 : sc_mode c = Enforcing -> foot st1 = f0) by (intros M; rewrite (foot_wk _ _ M K1); auto).
      assert (GO : forall r0 : res unit, (let '(st2, r2, t2) := exec c st1 (k r0) in (st2, r2, t1 ++ t2)) = (st', r', t') ->
        Forall (outside f0) (flat_map everything t')).
      { intros r0. destruct (exec c st1 (k r0)) as [[st2 r2] t2] eqn:EK. intros [= <- <- <-].
        apply ev_app; [exact RB|exact (IHk r0 _ _ _ _ f0 I1 N1 F1 EK)]. }
      destruct r1 as [u|e]; [apply GO|]. destruct (try && recoverable e); [apply GO|]. intros [= <- <- <-]. exact RB.
    - destruct (exec c (push_frame (FrCreate pre ex args) st) body) as [[st1 r1] t1] eqn:EB.
      pose proof (ainv_push c (FrCreate pre ex args) st I) as IP.
      pose proof (IHb _ _ _ _ f0 IP (named_push entries (FrCreate pre ex args) _ N) F EB) as RB.
      destruct (exec_wk c LI body _ _ _ _ IP EB) as [I1 K1]. destruct (pop_ok c _ _ _ I I1 K1) as [I2 K2].
      pose proof (named_wk entries c _ _ N K2) as N2.
      assert (F2 : sc_mode c = Enforcing -> foot (pop_frame st1) = f0) by (intros M; rewrite (foot_wk _ _ M K2); auto).
      assert (RC : Forall (outside f0) (flat_map everything [TCreate pre ex args t1])).
      { cbn. rewrite app_nil_r. constructor; [exact Logic.I|exact RB]. }
      destruct r1 as [u|e]; [|intros [= <- <- <-]; exact RC].
      destruct (exec c (pop_frame st1) k) as [[st3 r3] t3] eqn:EK. intros [= <- <- <-].
      apply (ev_app [TCreate pre ex args t1] t3); [exact RC|exact (IHk _ _ _ _ f0 I2 N2 F2 EK)].
    - destruct (require c st a args sig _) as [[st1 r1] t1] eqn:RQ.
      assert (GB : forall i, good_body c (fun s0 => exec c s0 (check i))) by (intros i; apply (exec_wk c LI (check i))).
      destruct (require_wk c LI _ _ _ _ _ _ _ _ GB I RQ) as [I1 K1]. pose proof (named_wk entries c _ _ N K1) as N1.
      assert (F1 : sc_mode c = Enforcing -> foot st1 = f0) by (intros M; rewrite (foot_wk _ _ M K1); auto).
      assert (RT : Forall (outside f0) (flat_map everything t1)).
      { destruct (require_spec c _ _ _ _ _ _ _ _ RQ) as [(SK & e & -> & -> & ->)|(fr & rest & SK & CS)]; [constructor|]. cbv zeta in CS.
        destruct CS as [(e & -> & -> & -> & CS)|[(-> & -> & -> & _)|[(j & v & v' & p & -> & -> & _)|CS]]]; try (repeat constructor; fail).
        destruct CS as (i & x & tk & p & Nx & BX & AX & ME & _ & _ & CS).
        destruct CS as [(_ & -> & -> & ->)|(_ & o & l & AU & -> & ->)]; [repeat constructor|].
        subst a. destruct (named_nth entries _ _ _ N Nx) as (e & NE & EA & EC).
        assert (TI : trk_inv (ac_trk x)) by (destruct I as (_ & _ & TI & _); rewrite Forall_nth' in TI; eauto).
        destruct (extend_ext _ _ _ _ _ TI ME) as [EX TI'].
        set (sta := with_acc st (set_nth_acc (as_acc st) i (set_trk x tk))) in *.
        assert (Ia : ainv sta) by (eapply set_acc_ok; eauto).
        assert (Na : nth_error (as_acc sta) i = Some (set_trk x tk)).
        { unfold sta; cbn. rewrite nth_set_acc, Nx. destruct (Nat.eq_dec i i); [reflexivity|congruence]. }
        assert (WX : wka x (set_trk x tk)).
        { split; [reflexivity|]. split; [reflexivity|]. split; [reflexivity|]. split; [congruence|]. auto. }
        pose proof (named_wk entries c _ _ N (set_acc_wk1 c _ _ _ _ I Nx WX)) as NM. fold sta in NM.
        destruct (authenticate_spec c LI _ _ _ _ _ _ _ _ (GB i) Ia Na BX AU) as (stb & r1 & CS & Ib & Kb & _ & FIN).
        cbn [ac_cred ac_addr set_trk] in CS, FIN. cbn [flat_map everything]. rewrite app_nil_r. constructor.
        - destruct r1 as [u|e1]; [|destruct FIN as [-> ->]; exact Logic.I]. destruct FIN as (st2 & r2 & CN & FIN).
          destruct r2 as [u2|e2]; destruct FIN as [-> ->]; cbn; auto. intros ->.
          destruct (ac_cred x) as [[n v]|] eqn:CR; [|cbn in CN; discriminate].
          destruct (consume_foot _ _ _ _ _ Ib CN) as [M ND]. split; auto. exists e, n, v. split; auto. split; [congruence|].
          rewrite (foot_wk _ _ M Kb) in ND. change (foot sta) with (foot st) in ND. now rewrite (F M) in ND.
        - destruct CS as [(C1 & _ & -> & ->)|(C1 & st0 & _ & _ & K0 & CS)]; [constructor|].
          destruct CS as [(_ & -> & _)|(id & AD & WA)]; [constructor|].
          pose proof (ainv_busy c _ i true Ia) as IB.
          assert (NB : named entries (as_acc (set_busy_at sta i true))).
          { unfold named in NM |- *. rewrite (nth_busy _ _ _ _ Na). apply Forall2_nth. intros j. rewrite Forall2_nth in NM. specialize (NM j).
            cbn [as_acc with_acc]. rewrite nth_set_acc. destruct (Nat.eq_dec j i) as [->|]; [|exact NM].
            rewrite Na in NM |- *. destruct (nth_error entries i); exact NM. }
          eapply (frame_footed id s_check_auth); [exact (GB i)|exact (IHc i)|exact IB|exact NB| |exact WA].
          intros M. rewrite (nth_busy _ _ _ _ Na). exact (F M). }
      destruct r1 as [u|e]; [|intros [= <- <- <-]; exact RT].
      destruct (exec c st1 k) as [[st2 r2] t2] eqn:EK. intros [= <- <- <-].
      apply ev_app; [exact RT|exact (IHk _ _ _ _ f0 I1 N1 F1 EK)].
    - destruct (cur_contract st) as [a|] eqn:CC; [|intros [= <- <- <-]; constructor].
      set (st1 := with_inv st _). assert (I1 : ainv st1) by (now apply authorize_ainv).
      destruct (exec c st1 k) as [[st2 r2] t2] eqn:EK. intros [= <- <- <-].
      cbn. constructor; [exact Logic.I|]. exact (IHk st1 _ _ _ f0 I1 N F EK).
    - destruct (aop_prog c st o) as [q|] eqn:AO; [|intros [= <- <- <-]; constructor].
      destruct (run_store c st q) as [st1 r1] eqn:RS.
      eapply (run_store_spec c LI) with (Q := fun _ _ => True) in RS; eauto.
      2:{ intros x y rr SM H. exact H. }
      2:{ eapply wp_mono; [|eapply aop_spec; eauto]. cbn. tauto. }
      destruct RS as (I1 & K1 & _). destruct r1 as [v|e]; [|intros [= <- <- <-]; constructor].
      assert (F1 : sc_mode c = Enforcing -> foot st1 = f0) by (intros M; rewrite (foot_wk _ _ M K1); auto).
      destruct (exec c st1 (k (Ok v))) as [[st2 r2] t2] eqn:EK. intros [= <- <- <-].
      pose proof (named_wk entries c _ _ N K1) as N1. exact (IHk _ _ _ _ _ f0 I1 N1 F1 EK).
  Qed.
End Foot.
