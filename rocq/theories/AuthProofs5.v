(* What follows from executions being explained: each node and each nonce is
   used once, entries are authenticated first, and the record is complete. *)
From Coq Require Import ZArith Lia List Bool Permutation.
From Verif Require Import Prelude ValModel ContainerModel HeapModel AMap StorageModel StorageSpec
  StorageProofs StorageProofs2 StorageLogic StorageProofs3 FrameModel FrameSpec FrameProofs FrameStore FrameProofs2
  AuthModel AuthSpec AuthProofs AuthProofs2 AuthProofs3 AuthProofs4.
Import ListNotations.
Open Scope nat_scope.

Section Record.
  Variable entries : list entry_.
  Variable c : sconf.
  Hypothesis LI : li_ok (sc_li c).
  Notation ainv := (ainv c).
  Notation wk := (wk c).
  Notation record := (record entries).

  Definition named (l : list acct) : Prop :=
    Forall2 (fun e x => ac_addr x = en_addr e /\ ac_cred x = en_cred e) entries l.
  Lemma named_wk st st' : named (as_acc st) -> wk st st' -> named (as_acc st').
  Proof.
    intros N (_ & W & _). unfold named in *. apply Forall2_nth; intros i; rewrite Forall2_nth in W; rewrite Forall2_nth in N. specialize (N i). specialize (W i).
    destruct (nth_error entries i), (nth_error (as_acc st) i), (nth_error (as_acc st') i); auto; try contradiction.
    destruct W as (A & B & _), N. split; congruence.
  Qed.
  Lemma named_push f st : named (as_acc st) -> named (as_acc (push_frame f st)).
  Proof.
    unfold named. cbn. induction 1 as [|e x es xs [A B] _ IH]; cbn; constructor; auto. unfold push_acct. destruct (ac_busy x); auto.
  Qed.
  Definition rel (st : astate) : Prop := exists s, R entries c s st.
  Lemma rel_exec p st st' r t : ainv st -> rel st -> exec c st p = (st', r, t) -> rel st'.
  Proof. intros I [s RR] E. destruct (exec_explains entries c LI p _ _ _ _ _ I RR E) as (s' & R' & _). now exists s'. Qed.
  Lemma rel_push f st : rel st -> rel (push_frame f st).
  Proof. intros [s RR]. eexists. eapply R_push; eauto. Qed.
  Definition recorded (body : astate -> astate * res unit * list atree) (p : aprog) : Prop :=
    forall st st' r t, ainv st -> named (as_acc st) -> rel st -> body st = (st', r, t) -> record (hd_error (as_stack st)) p r t.

  Lemma with_aframe_recorded id fn body p st st' r t : good_body c body -> recorded body p -> ainv st -> named (as_acc st) -> rel st ->
    with_aframe id fn body st = (st', r, t) -> exists l, t = [TCall id fn r l] /\ record (Some (FrContract id fn)) p r l.
  Proof.
    intros GB RB I N RR E. destruct (with_aframe_ok c _ _ _ _ _ _ _ GB I E) as (_ & _ & st2 & l & BD & -> & _).
    exists l. split; auto. exact (RB _ _ _ _ (ainv_push c (FrContract id fn) st I) (named_push (FrContract id fn) _ N) (rel_push _ _ RR) BD).
  Qed.
  Lemma named_nth l i x : named l -> nth_error l i = Some x -> exists e, nth_error entries i = Some e /\ ac_addr x = en_addr e /\ ac_cred x = en_cred e.
  Proof.
    intros N E. unfold named in N. rewrite Forall2_nth in N. specialize (N i). rewrite E in N. destruct (nth_error entries i) as [e|]; [|contradiction]. eauto.
  Qed.
  Lemma tt_ok (r : res unit) u : r = Ok u -> r = Ok tt.
  Proof. now destruct u. Qed.

  Lemma exec_record p : recorded (fun st => exec c st p) p.
  Proof.
    induction p as [r|id fn try body IHb k IHk|pre ex args body IHb k IHk|a args sig check IHc k IHk|ts k IHk|o k IHk]; intros st st' r' t' I N RR; cbn.
    - intros [= <- <- <-]. constructor.
    - destruct (with_aframe id fn _ st) as [[st1 r1] t1] eqn:WA.
      destruct (with_aframe_ok c _ _ _ _ _ _ _ (exec_wk c LI body) I WA) as (I1 & K1 & _).
      assert (R1 : rel st1).
      { destruct RR as [s RR]. destruct (with_aframe_explains entries c _ _ _ _ _ _ _ _ (exec_wk c LI body) (exec_explains entries c LI body) I RR WA) as (s1 & X & _).
        now exists s1. }
      destruct (with_aframe_recorded _ _ _ _ _ _ _ _ (exec_wk c LI body) IHb I N RR WA) as (l & -> & RB).
      pose proof (named_wk _ _ N K1) as N1. destruct r1 as [[]|e].
      + destruct (exec c st1 (k (Ok tt))) as [[st2 r2] t2] eqn:EK. intros [= <- <- <-]. cbn. constructor; auto.
        destruct K1 as [<- _]. eapply IHk; eauto.
      + destruct (try && recoverable e) eqn:TR.
        * destruct (exec c st1 (k (Err e))) as [[st2 r2] t2] eqn:EK. intros [= <- <- <-]. apply andb_prop in TR as [-> TR]. cbn. apply rec_try_failed; auto.
          destruct K1 as [<- _]. eapply IHk; eauto.
        * intros [= <- <- <-]. now constructor.
    - destruct (exec c (push_frame (FrCreate pre ex args) st) body) as [[st1 r1] t1] eqn:EB.
      pose proof (ainv_push c (FrCreate pre ex args) st I) as IP.
      pose proof (IHb _ _ _ _ IP (named_push (FrCreate pre ex args) _ N) (rel_push _ _ RR) EB) as RB.
      destruct (exec_wk c LI body _ _ _ _ IP EB) as [I1 K1]. destruct (pop_ok c _ _ _ I I1 K1) as [I2 K2].
      assert (R2 : rel (pop_frame st1)).
      { destruct (rel_exec body _ _ _ _ IP (rel_push _ _ RR) EB) as [s1 R1]. destruct RR as [s RR].
        exists (s_pop s1). exact (R_pop entries c _ s st s1 st1 I K1 RR R1). }
      destruct r1 as [[]|e].
      + destruct (exec c (pop_frame st1) k) as [[st3 r3] t3] eqn:EK. intros [= <- <- <-]. cbn. constructor; auto.
        pose proof (named_wk _ _ N K2) as N2. destruct K2 as [<- _]. eapply IHk; eauto.
      + intros [= <- <- <-]. now constructor.
    - destruct (require c st a args sig _) as [[st1 r1] t1] eqn:RQ.
      assert (GB : forall i, good_body c (fun s0 => exec c s0 (check i))) by (intros i; apply (exec_wk c LI (check i))).
      destruct (require_wk c LI _ _ _ _ _ _ _ _ GB I RQ) as [I1 K1]. pose proof (named_wk _ _ N K1) as N1.
      destruct RR as [s RR].
      destruct (require_explains entries c LI _ _ _ _ s _ _ _ _ GB (fun i => exec_explains entries c LI (check i)) I RR RQ) as (s1 & R1 & _).
      destruct (require_spec c _ _ _ _ _ _ _ _ RQ) as [(SK & e & -> & -> & ->)|(fr & rest & SK & CS)].
      { intros [= <- <- <-]. rewrite SK. apply rec_refused_top. }
      assert (NEXT : forall st2 r2 t2, exec c st1 k = (st2, r2, t2) -> record (Some fr) k r2 t2).
      { intros st2 r2 t2 EK. pose proof (IHk _ _ _ _ I1 N1 (ex_intro _ s1 R1) EK) as X. destruct K1 as [K1 _]. rewrite K1, SK in X. exact X. }
      rewrite SK. cbn [hd_error]. cbv zeta in CS.
      destruct CS as [(e & -> & -> & -> & CS)|[(-> & -> & -> & _)|[(j & v & v' & p & -> & -> & _)|CS]]].
      + intros [= <- <- <-].
        destruct (pre_found entries c s st a (to_fn fr args) fr rest I RR SK) as (o1 & TIO & _).
        destruct (acc_found entries c s st a (to_fn fr args) fr rest I RR SK) as (o2 & TA & _).
        assert (e = e_auth_action) as ->; [|apply rec_refused].
        destruct CS as [CS|(_ & [CS|[_ CS]])]; [|congruence|exact CS].
        exfalso. unfold check_invoker in CS. rewrite SK, TIO in CS. destruct rest; [discriminate|].
        destruct (match a0 with FrContract _ _ => _ | _ => _ end); [discriminate|]. destruct o1 as [[[? ?] ?]|]; discriminate.
      + destruct (exec c st k) as [[st2 r2] t2] eqn:EK. intros [= <- <- <-]. cbn. constructor; eauto.
      + destruct (exec c st1 k) as [[st2 r2] t2] eqn:EK. intros [= <- <- <-]. cbn. constructor; eauto.
      + destruct CS as (i & x & tk & p & Nx & BX & AX & ME & _ & _ & CS).
        destruct CS as [(_ & -> & -> & ->)|(_ & o & l & AU & -> & ->)].
        { destruct (exec c _ k) as [[st2 r2] t2] eqn:EK. intros [= <- <- <-]. cbn. constructor; eauto. }
        subst a. destruct (R_use_acc entries c _ _ _ _ _ _ _ _ RR I Nx BX eq_refl ME) as (e & NE & EA & EC & _ & _ & _ & Rs).
        assert (TI : trk_inv (ac_trk x)) by (destruct I as (_ & _ & TI & _); rewrite Forall_nth' in TI; eauto).
        destruct (extend_ext _ _ _ _ _ TI ME) as [EX TI'].
        set (sta := with_acc st (set_nth_acc (as_acc st) i (set_trk x tk))) in *.
        assert (Ia : ainv sta) by (eapply set_acc_ok; eauto).
        assert (Na : nth_error (as_acc sta) i = Some (set_trk x tk)).
        { unfold sta; cbn. rewrite nth_set_acc, Nx. destruct (Nat.eq_dec i i); [reflexivity|congruence]. }
        assert (WX : wka x (set_trk x tk)).
        { split; [reflexivity|]. split; [reflexivity|]. split; [reflexivity|]. split; [congruence|]. auto. }
        pose proof (named_wk _ _ N (set_acc_wk1 c _ _ _ _ I Nx WX)) as NM. fold sta in NM.
        destruct (authenticate_spec c LI _ _ _ _ _ _ _ _ (GB i) Ia Na BX AU) as (stb & r1 & CS & Ib & _ & _ & FIN).
        cbn [ac_cred ac_addr set_trk] in CS, FIN.
        destruct CS as [(C1 & _ & -> & ->)|(C1 & st0 & _ & _ & K0 & CS)].
        * destruct FIN as (st2 & r2 & CN & FIN). rewrite C1 in CN. cbn in CN. injection CN as <- <-. destruct FIN as [-> ->]. cbn [auth_result].
          destruct (exec c _ k) as [[st2 r2] t2] eqn:EK. intros [= <- <- <-]. cbn. eapply rec_first_source; eauto. congruence.
        * rewrite <- EC in C1. destruct CS as [(_ & -> & [(key & KA & ->)|(AD & ->)])|(id & AD & WA)].
          -- rewrite KA in *. destruct (sig i) as [u|e1] eqn:SG.
             ++ destruct u. destruct FIN as (st2 & r2 & _ & FIN). destruct r2 as [u2|e2]; destruct FIN as [-> ->]; cbn [auth_result].
                ** destruct (exec c _ k) as [[st3 r3] t3] eqn:EK. intros [= <- <- <-]. cbn. eapply rec_first_account; eauto.
                ** intros [= <- <- <-]. eapply rec_nonce_account; eauto.
             ++ destruct FIN as [-> ->]. cbn [auth_result]. intros [= <- <- <-]. eapply rec_bad_account; eauto.
          -- destruct FIN as [-> ->]. cbn [auth_result]. intros [= <- <- <-]. eapply rec_bad_address; eauto.
          -- pose proof (ainv_busy c _ i true Ia) as IB.
             assert (NB : named (as_acc (set_busy_at sta i true))).
             { unfold named in NM |- *. rewrite (nth_busy _ _ _ _ Na). apply Forall2_nth. intros j. rewrite Forall2_nth in NM. specialize (NM j).
               cbn [as_acc with_acc]. rewrite nth_set_acc. destruct (Nat.eq_dec j i) as [->|]; [|exact NM].
               rewrite Na in NM |- *. destruct (nth_error entries i); exact NM. }
             assert (RB : rel (set_busy_at sta i true)) by (eexists; eapply R_busy_on; eauto).
             destruct (with_aframe_recorded _ _ _ _ _ _ _ _ (GB i) (IHc i) IB NB RB WA) as (l' & -> & RC). rewrite AD in *.
             destruct r1 as [[]|e1].
             ++ destruct FIN as (st2 & r2 & _ & FIN). destruct r2 as [u2|e2]; destruct FIN as [-> ->]; cbn [auth_result].
                ** destruct (exec c _ k) as [[st3 r3] t3] eqn:EK. intros [= <- <- <-]. cbn. eapply rec_first_contract; eauto.
                ** intros [= <- <- <-]. eapply rec_nonce_contract; eauto.
             ++ destruct FIN as [-> ->]. cbn [auth_result]. intros [= <- <- <-]. eapply rec_bad_contract; eauto.
    - destruct (cur_contract st) as [a|] eqn:CC; [|intros [= <- <- <-]; apply rec_authorize_refused].
      set (st1 := with_inv st _). assert (I1 : ainv st1) by (now apply authorize_ainv).
      assert (R1 : rel st1).
      { apply (rel_exec (AAuthorize ts (ARet (Ok tt))) st st1 (Ok tt) [TPre a ts] I RR). cbn. now rewrite CC. }
      destruct (exec c st1 k) as [[st2 r2] t2] eqn:EK. intros [= <- <- <-].
      pose proof (IHk _ _ _ _ I1 N R1 EK) as X. cbn [as_stack with_inv st1] in X. unfold cur_contract in CC.
      destruct (as_stack st) as [|[id fn|] fs]; try discriminate. injection CC as <-. now constructor.
    - destruct (aop_prog c st o) as [q|] eqn:AO; [|intros [= <- <- <-]; apply rec_store_failed].
      destruct (run_store c st q) as [st1 r1] eqn:RS. pose proof RS as RS0.
      eapply (run_store_spec c LI) with (Q := fun _ _ => True) in RS; eauto.
      2:{ intros x y rr SM H. exact H. }
      2:{ eapply wp_mono; [|eapply aop_spec; eauto]. cbn. tauto. }
      destruct RS as (I1 & K1 & _). destruct r1 as [v|e]; [|intros [= <- <- <-]; apply rec_store_failed].
      assert (R1 : rel st1).
      { apply (rel_exec (AStore o (fun _ => ARet (Ok tt))) st st1 (Ok tt) [] I RR). cbn. now rewrite AO, RS0. }
      destruct (exec c st1 (k (Ok v))) as [[st2 r2] t2] eqn:EK. intros [= <- <- <-]. apply (rec_store _ _ _ _ v).
      pose proof (named_wk _ _ N K1) as N1. destruct K1 as [<- _]. eapply IHk; eauto.
  Qed.
End Record.

(* ---------------------------------------------------------------- uses *)

Definition euses (l : list (tid * path)) : list (nat * path) :=
  flat_map (fun x => match fst x with TE i => [(i, snd x)] | TP _ => [] end) l.
Lemma in_euses l i p : In (i, p) (euses l) <-> In (TE i, p) l.
Proof.
  unfold euses. rewrite in_flat_map. split.
  - intros ([[j|j] q] & I & X); cbn in X; [|contradiction]. destruct X as [[= -> ->]|[]]. exact I.
  - intros I. exists (TE i, p). split; auto. now left.
Qed.

Lemma perm_first {A} (U' U1 U L L1 : list A) x :
  Permutation U1 (L1 ++ x :: U) -> Permutation U' (L ++ U1) -> Permutation U' (x :: (L1 ++ L) ++ U).
Proof.
  intros P1 P2. rewrite P2, P1. rewrite app_assoc. rewrite (Permutation_app_comm L L1). symmetry. apply Permutation_middle.
Qed.
Lemma perm_call {A} (U' U1 U L L1 : list A) : Permutation U1 (L1 ++ U) -> Permutation U' (L ++ U1) -> Permutation U' ((L1 ++ L) ++ U).
Proof. intros P1 P2. rewrite P2, P1. rewrite app_assoc. now rewrite (Permutation_app_comm L L1). Qed.

Section Uses.
  Variable li : linfo.
  Variable entries : list entry_.
  Notation explained := (explained li entries).

  Lemma exp_busy' s t s' : explained s t s' -> s_busy s' = s_busy s.
  Proof. induction 1; cbn in *; try congruence. Qed.
  Lemma exp_used s t s' : explained s t s' -> Permutation (euses (s_used s')) (flat_map uses t ++ euses (s_used s)).
  Proof.
    induction 1; cbn in *; auto.
    - etransitivity; [exact IHexplained|]. apply Permutation_sym, Permutation_middle.
    - rewrite H5 in IHexplained2. eapply perm_first; eauto.
    - rewrite app_nil_r. etransitivity; [exact IHexplained|]. apply Permutation_sym, Permutation_middle.
    - rewrite app_nil_r. etransitivity; [exact IHexplained|]. apply Permutation_sym, Permutation_middle.
    - eapply perm_call; eauto.
    - eapply perm_call; eauto.
  Qed.
  Lemma exp_nodup s t s' : explained s t s' -> NoDup (s_used s) -> NoDup (s_used s').
  Proof.
    induction 1; cbn in *; auto; intros N.
    - apply IHexplained. constructor; auto. apply H3.
    - apply IHexplained. constructor; auto. destruct H0 as (e & _ & _ & _ & M & _). apply M.
    - apply IHexplained2. rewrite H5. apply IHexplained1. constructor; auto. destruct H0 as (e' & _ & _ & _ & M & _). apply M.
    - apply IHexplained. constructor; auto. destruct H0 as (e & _ & _ & _ & M & _). apply M.
    - apply IHexplained. constructor; auto. destruct H0 as (e' & _ & _ & _ & M & _). apply M.
  Qed.
  Lemma euses_nodup l : NoDup l -> NoDup (euses l).
  Proof.
    induction 1 as [|[[i|i] p] l N _ IH]; cbn; auto; [constructor|]. constructor; auto. now rewrite in_euses.
  Qed.
  Lemma uses_nodup n t s' : explained (start n) t s' -> NoDup (flat_map uses t).
  Proof.
    intros X. pose proof (exp_used _ _ _ X) as P. cbn in P. rewrite app_nil_r in P. eapply Permutation_NoDup; [exact P|].
    apply euses_nodup. eapply exp_nodup; eauto. constructor.
  Qed.

  (* authenticated entries *)
  Lemma exp_ver s t s' : explained s t s' -> Permutation (s_ver s') (flat_map authenticated t ++ s_ver s).
  Proof.
    induction 1; cbn in *; auto.
    - rewrite H6 in IHexplained2. rewrite <- !app_assoc. cbn. rewrite <- Permutation_middle, app_assoc.
      eapply perm_first with (U1 := i :: s_ver s1); eauto. rewrite IHexplained1. apply Permutation_middle.
    - rewrite !app_nil_r. exact IHexplained.
    - rewrite !app_nil_r. exact IHexplained.
    - eapply perm_call; eauto.
    - eapply perm_call; eauto.
  Qed.

  (* nothing uses an entry being authenticated *)
  Lemma busy_untouched s t s' i : explained s t s' -> In i (s_busy s) -> forall x, In x (flat_map everything t) -> ~ touches i x.
  Proof.
    induction 1; cbn [flat_map everything In s_use s_set_busy s_busy s_push s_pop s_fail s_authorize] in *; intros B y Y;
      try (destruct Y as [<-|Y]; [cbn; auto; try tauto|]).
    - contradiction.
    - now apply IHexplained.
    - now apply IHexplained.
    - intros ->. destruct H0 as (e & _ & _ & NB & _). contradiction.
    - now apply IHexplained.
    - intros ->. destruct H0 as (e' & _ & _ & NB & _). contradiction.
    - apply in_app_or in Y as [Y|Y]; [apply IHexplained1; [now right|exact Y]|apply IHexplained2; [congruence|exact Y]].
    - intros ->. destruct H0 as (e' & _ & _ & NB & _). contradiction.
    - rewrite app_nil_r in Y. apply IHexplained; [now right|exact Y].
    - intros ->. destruct H0 as (e' & _ & _ & NB & _). contradiction.
    - rewrite app_nil_r in Y. apply IHexplained; [now right|exact Y].
    - contradiction.
    - now apply IHexplained.
    - apply in_app_or in Y as [Y|Y]; [now apply IHexplained1|apply IHexplained2; [rewrite (exp_busy' _ _ _ H); exact B|exact Y]].
    - apply in_app_or in Y as [Y|Y]; [now apply IHexplained1|]. now apply IHexplained2.
    - apply in_app_or in Y as [Y|Y]; [now apply IHexplained1|apply IHexplained2; [rewrite (exp_busy' _ _ _ H); exact B|exact Y]].
  Qed.
  (* every step of the record, anywhere in it, was explained *)
  Lemma exp_inside s t s' : explained s t s' -> forall x, In x (flat_map everything t) -> exists s0 l s1, explained s0 (x :: l) s1.
  Proof.
    induction 1; cbn [flat_map everything In] in *; intros y Y; try (destruct Y as [<-|Y]).
    - contradiction.
    - eexists s, l, s'. now apply x_invoker.
    - now apply IHexplained.
    - eexists s, l, s'. eapply x_pre; eauto.
    - now apply IHexplained.
    - eexists s, l, s'. eapply x_entry; eauto.
    - now apply IHexplained.
    - eexists s, l, s'. eapply (x_first li entries s a f i p e l1 s1 s2); eauto.
    - apply in_app_or in Y as [Y|Y]; auto.
    - eexists s, [], _. eapply x_first_failed; eauto.
    - rewrite app_nil_r in Y. auto.
    - eexists s, [], _. eapply x_first_nonce; eauto.
    - rewrite app_nil_r in Y. auto.
    - eexists s, [], s. now apply x_no.
    - contradiction.
    - eexists s, l, s'. eapply x_pre_made; eauto.
    - now apply IHexplained.
    - eexists s, l, s'. eapply x_call; eauto.
    - apply in_app_or in Y as [Y|Y]; auto.
    - eexists s, l, s'. eapply x_call_failed; eauto.
    - apply in_app_or in Y as [Y|Y]; auto.
    - eexists s, l, s'. eapply x_create; eauto.
    - apply in_app_or in Y as [Y|Y]; auto.
  Qed.
End Uses.
