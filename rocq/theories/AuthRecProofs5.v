(* Whole transactions: recorded, signed and run again. *)
From Coq Require Import ZArith Lia List Bool.
From Verif Require Import Prelude ValModel ContainerModel HeapModel AMap StorageModel StorageSpec
  StorageProofs StorageProofs2 StorageLogic StorageProofs3 FrameModel FrameSpec FrameProofs FrameStore FrameProofs2
  AuthModel AuthSpec AuthProofs AuthProofs2 AuthProofs3 AuthRecModel AuthRecSpec AuthRecProofs AuthRecProofs2 AuthRecProofs3 AuthRecProofs4.
Import ListNotations.
Open Scope Z_scope.

Section Tx.
  Variable c : sconf.
  Hypothesis LI : li_ok (sc_li c).
  Notation li := (sc_li c).
  Variable source : option addr.
  Variable name : nat -> addr -> Z.
  Variable nonces : nat -> Z.
  Variable root_only : bool.
  Notation rexec := (rexec c source name nonces root_only).
  Notation acc r := (as_acc (rc_st r)).

  (* only the source account's entries have no credentials *)
  Definition source_ok (l : list acct) : Prop := forall y, In y l -> ac_cred y = None -> is_addr source (ac_addr y) = true.
  Lemma src_trees l l' : trees l' = trees l -> source_ok l -> source_ok l'.
  Proof.
    intros T H y I. assert (IN : In (tree_of y) (trees l)) by (rewrite <- T; unfold trees; now apply in_map).
    unfold trees in IN. apply in_map_iff in IN as (x & E & I'). unfold tree_of in E. injection E as E1 E2 _. intros N. rewrite <- E1. apply H; auto. congruence.
  Qed.
  Definition keeps (body : rstate -> rstate * res unit * list rtree) : Prop := forall r r' o t, body r = (r', o, t) -> source_ok (acc r) -> source_ok (acc r').
  Lemma src_frame id fn body : keeps body -> keeps (with_rframe id fn body).
  Proof.
    intros K r r' o t. unfold with_rframe. destruct (body (rpush (FrContract id fn) r)) as [[r2 o2] t2] eqn:BD. intros E S.
    assert (S1 : source_ok (map push_acct (acc r))) by (eapply src_trees; [apply trees_push|exact S]).
    pose proof (K _ _ _ _ BD S1) as S2. destruct o2 as [u|e].
    - injection E as <- <- <-. cbn. eapply src_trees; [apply trees_pop_frame|exact S2].
    - unfold rrollback in E. destruct (rollback_invs _ _); injection E as <- <- <-; auto. cbn. eapply src_trees; [apply trees_pop_frame|exact S1].
  Qed.
  Lemma src_require r a args r' o t : rrequire c source name nonces root_only r a args = (r', o, t) -> source_ok (acc r) -> source_ok (acc r').
  Proof.
    unfold rrequire. destruct (as_stack (rc_st r)) as [|fr l]; [intros [= <- <- <-]; auto|].
    destruct (check_invoker (rc_st r) a (to_fn fr args)) as [[[st1 m]|]|e] eqn:CI.
    - intros [= <- <- <-]. cbn. now rewrite (check_invoker_acc _ _ _ _ _ CI).
    - destruct (require_recording _ _ _ _ _ r a _) as [r1 [w|er]] eqn:RR; intros [= <- <- <-] S.
      + pose proof (require_recording_spec _ _ _ _ _ _ _ _ _ _ RR) as (_ & _ & [(i & x & t0 & _ & N & _ & _ & _ & E & _)|(cred & _ & _ & E & _ & CR)]); rewrite E; intros y I CN.
        * apply In_nth_error in I as [j I]. rewrite nth_set_acc in I. destruct (Nat.eq_dec j i) as [->|]; [|apply S; auto; eapply nth_error_In; eauto].
          rewrite N in I. injection I as <-. cbn in *. apply S; auto. eapply nth_error_In; eauto.
        * apply in_app_or in I as [I|[<-|[]]]; [apply S; auto|]. cbn in *. destruct CR as [(X & _)|(_ & n & mx & ? & ? & X & _)]; [auto|congruence].
      + now rewrite (require_recording_spec _ _ _ _ _ _ _ _ _ _ RR).
    - intros [= <- <- <-]. auto.
  Qed.
  Lemma src_exec p : keeps (fun r => rexec r p).
  Proof.
    induction p as [r0|id fn tr body IHb k IHk|pre ex args body IHb k IHk|a args sig check IHc k IHk|ts k IHk|o k IHk]; intros r r' q t; cbn [AuthRecModel.rexec].
    - intros [= <- <- <-]. auto.
    - destruct (with_rframe id fn (fun s => rexec s body) r) as [[r1 o1] t1] eqn:WF. intros E S. pose proof (src_frame _ _ _ IHb _ _ _ _ WF S) as S1.
      assert (NX : forall x, (let '(r2, o2, t2) := rexec r1 (k x) in (r2, o2, t1 ++ t2)) = (r', q, t) -> source_ok (acc r')).
      { intros x. destruct (rexec r1 (k x)) as [[r2 o2] t2] eqn:EX. intros [= <- <- <-]. exact (IHk x _ _ _ _ EX S1). }
      destruct o1; [exact (NX _ E)|]. destruct (tr && recoverable e); [exact (NX _ E)|]. injection E as <- <- <-. exact S1.
    - destruct (rexec (rpush (FrCreate pre ex args) r) body) as [[r1 o1] t1] eqn:BD. intros E S.
      assert (S1 : source_ok (acc (rpop r1))).
      { cbn. eapply src_trees; [apply trees_pop_frame|]. eapply IHb; [exact BD|]. cbn. eapply src_trees; [apply trees_push|exact S]. }
      destruct o1; [|injection E as <- <- <-; exact S1]. destruct (rexec (rpop r1) k) as [[r3 o3] t3] eqn:EX. injection E as <- <- <-. exact (IHk _ _ _ _ EX S1).
    - destruct (rrequire c source name nonces root_only r a args) as [[r1 o1] t1] eqn:RQ. intros E S. pose proof (src_require _ _ _ _ _ _ RQ S) as S1.
      destruct o1; [|injection E as <- <- <-; exact S1]. destruct (rexec r1 k) as [[r3 o3] t3] eqn:EX. injection E as <- <- <-. exact (IHk _ _ _ _ EX S1).
    - destruct (cur_contract (rc_st r)); [|intros [= <- <- <-]; auto]. cbv zeta. destruct (rexec _ k) as [[r3 o3] t3] eqn:EX. intros [= <- <- <-] S.
      exact (IHk _ _ _ _ EX S).
    - destruct (aop_prog c (rc_st r) o) as [qq|]; [|intros [= <- <- <-]; auto]. unfold run_store.
      destruct (srun c (as_store (rc_st r)) qq) as [[s x] tt0]. destruct x as [v|e]; [|intros [= <- <- <-]; auto]. intros E S. exact (IHk _ _ _ _ _ E S).
  Qed.

  Hypothesis NAME : forall n m a b, name n a = name m b -> a = b.

  Lemma all_used_core n m t : erase n = t -> erase m = t -> (forall p, flag n p = true <-> node_at m p <> None) -> all_used n = true.
  Proof.
    intros E1 E2 F. apply all_used_flag. intros p N. apply F. destruct (node_at n p) as [x|] eqn:X; [|congruence].
    destruct (erase_node n m p x) as (y & -> & _); [congruence|auto|discriminate].
  Qed.

  Theorem replay_auth s p r t ents :
    run_ok c s -> alive li (contents c s) -> accepts p ->
    rtransaction c source name nonces root_only s p = (r, Ok tt, t) -> replayable source [] false t ->
    Forall2 (signed li source) (recorded_payloads r) ents ->
    exists st' t', transaction c (new_enforcing s ents) p = (st', Ok tt, t')
      /\ Forall (fun x => all_used (tk_root (ac_trk x)) = true) (as_acc st')
      /\ same_ledger (contents c (as_store (rc_st r))) (contents c (as_store st'))
      /\ st_foot (as_store st') = st_foot (as_store (rc_st r)).
  Proof.
    intros RO AL AC TX RP SG. unfold rtransaction in TX. destruct (rexec (new_recorder s) p) as [[r1 o1] t1] eqn:RX.
    destruct o1 as [[]|e]; [|discriminate]. destruct (forallb emulated (acc r1)) eqn:EM; [|discriminate]. injection TX as <- <-.
    assert (PL : recorded_payloads (rpop r1) = map recorded_payload (acc r1)).
    { unfold recorded_payloads. cbn. pose proof (trees_pop_frame (rc_st r1)) as T. revert T. generalize (as_acc (pop_frame (rc_st r1))) (acc r1).
      induction l as [|x l IH]; intros [|y l2] T; try discriminate; auto. cbn in *. injection T as T1 T2 T3 T4. f_equal; auto.
      unfold recorded_payload. now rewrite T1, T2, T3. }
    rewrite PL in SG. pose proof (src_exec p _ _ _ _ RX (fun y (I : In y []) => match I with end)) as SO.
    assert (NTH : forall i y, nth_error (acc r1) i = Some y -> exists e, nth_error ents i = Some e /\ signed li source (recorded_payload y) e).
    { clear -SG. revert ents SG. induction (acc r1) as [|x l IH]; intros en SG i y N; [destruct i; discriminate|]. cbn in SG. inversion SG as [|? e ? en' S1 S2]; subst.
      destruct i as [|i]; [injection N as <-; exists e; auto|]. exact (IH _ S2 i y N). }
    assert (BACK : forall i e, nth_error ents i = Some e -> exists y, nth_error (acc r1) i = Some y).
    { intros i e N. destruct (nth_error (acc r1) i) as [y|] eqn:Y; eauto. apply nth_error_None in Y.
      assert (L : length ents = length (acc r1)) by (rewrite <- (map_length recorded_payload (acc r1)); symmetry; clear -SG; induction SG; cbn; auto).
      rewrite <- L in Y. apply nth_error_None in Y. congruence. }
    assert (CREDS : forall e n exp, In e ents -> en_cred e = Some (n, exp) ->
      (exists mx, get_max_live_until li = Ok mx /\ li_seq li <= exp <= mx)
      /\ match en_addr e with AAccount _ | AContract _ => True | _ => False end).
    { intros e n exp I CR. apply In_nth_error in I as [i I]. destruct (BACK _ _ I) as (y & NY). destruct (NTH _ _ NY) as (e' & NE & _ & S2).
      assert (e' = e) as -> by congruence. unfold recorded_payload in S2. cbn in S2. rewrite forallb_forall in EM. specialize (EM _ (nth_error_In _ _ NY)).
      unfold emulated in EM. destruct (ac_cred y) as [[n0 x0]|]; cbn in S2.
      - destruct S2 as (S3 & exp' & mx & S4 & S5 & S6). rewrite S4 in CR. injection CR as -> ->. split; [eauto|]. rewrite S3. destruct (ac_addr y); auto; discriminate.
      - destruct S2. congruence. }
    assert (BL : below ents (acc r1)).
    { intros i y NY. destruct (NTH _ _ NY) as (e & NE & S1 & S2). exists e. split; auto. unfold recorded_payload in S1, S2. cbn in S1, S2.
      assert (SB : sub_of (tk_root (ac_trk y)) (fresh (en_tree e))).
      { intros p0 x N. destruct (erase_node _ (fresh (en_tree e)) _ _ (eq_trans (eq_sym (plain_erase (tk_root (ac_trk y)))) (eq_trans (eq_sym S1) (eq_sym (erase_fresh _)))) N) as (z & Z1 & Z2).
        exists z. split; auto. now apply erase_fn. }
      destruct (ac_cred y) as [[n0 x0]|] eqn:CY; cbn in S2.
      - destruct S2 as (S3 & exp' & mx & S4 & _). rewrite S4. auto.
      - destruct S2 as (S3 & S4). rewrite S4. split; auto. pose proof (SO y (nth_error_In _ _ NY) CY) as SA. rewrite S3 in SA. unfold is_addr in SA.
        destruct (addr_eq_dec (en_addr e) (ac_addr y)); congruence. }
    set (E0 := new_enforcing s ents).
    assert (NTHE : forall i x, nth_error (as_acc E0) i = Some x -> exists e, nth_error ents i = Some e /\ x = new_acct e).
    { intros i x. cbn. rewrite nth_error_map. destruct (nth_error ents i) as [e|]; [|discriminate]. cbn. intros [= <-]. eauto. }
    assert (AI : ainv c E0).
    { split; auto. split; auto. split; [|split; [constructor|exists [], []; auto]]. apply Forall_nth'. intros i x N.
      destruct (NTHE _ _ N) as (e & _ & ->). apply inv_new. }
    assert (C0 : core c name ents (new_recorder s) E0).
    { constructor; auto; cbn.
      - apply nsim_refl.
      - now rewrite map_length.
      - intros i e x NE NX. destruct (NTHE _ _ NX) as (e' & NE' & ->). assert (e' = e) as -> by congruence. unfold follows. cbn.
        destruct i; cbn; repeat (split; [auto using erase_fresh|]); split; auto.
      - intros h i []. }
    assert (U0 : uniq (view E0)).
    { intros i j a m m' V _ X. apply view_inv in V as (x & N & _ & <-). destruct (NTHE _ _ N) as (e & _ & ->). discriminate. }
    assert (H0 : heads (view E0) []).
    { intros i a m r V _. apply view_inv in V as (x & N & _ & Y). destruct (NTHE _ _ N) as (e & _ & ->). discriminate. }
    assert (P0 : idle_inv false (as_inv E0)) by (intros _; constructor).
    destruct (sim c LI source name NAME nonces root_only ents CREDS p _ _ _ _ _ _ _ AC C0 U0 H0 P0 RX RP BL) as (E1 & t' & EX & C1).
    destruct (exec_wk c LI p _ _ _ _ AI EX) as [_ (SK & _)]. cbn in SK.
    assert (SKR : as_stack (rc_st r1) = []) by (rewrite (co_stack _ _ _ _ _ C1); exact SK).
    assert (PR : rpop r1 = r1) by (unfold rpop, pop_frame; rewrite SKR; now destruct r1).
    assert (PE : pop_frame E1 = E1) by (unfold pop_frame; now rewrite SK).
    exists E1, t'. split; [unfold transaction; fold E0; rewrite EX, PE; reflexivity|]. rewrite PR. split; [|split].
    - apply Forall_nth'. intros i x NX. destruct (core_e _ _ _ _ _ _ _ C1 NX) as (e & NE & _ & _ & _ & F4 & _ & F6). destruct (BACK _ _ NE) as (y & NY).
      destruct (NTH _ _ NY) as (e' & NE' & S1 & _). assert (e' = e) as -> by congruence. rewrite NY in F6. destruct F6 as (_ & _ & _ & _ & _ & _ & F7).
      eapply all_used_core; [exact F4| |exact F7]. symmetry. exact S1.
    - apply nsim_ledger. apply C1.
    - symmetry. apply (co_store _ _ _ _ _ C1).
  Qed.
End Tx.
