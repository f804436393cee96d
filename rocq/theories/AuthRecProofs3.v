(* What a recording adds to what was recorded before. *)
From Coq Require Import ZArith Lia List Bool.
From Verif Require Import Prelude ValModel ContainerModel HeapModel AMap StorageModel StorageSpec
  StorageProofs StorageProofs2 StorageLogic StorageProofs3 FrameModel FrameSpec FrameProofs FrameStore FrameProofs2
  AuthModel AuthSpec AuthProofs AuthProofs2 AuthProofs3 AuthRecModel AuthRecSpec AuthRecProofs.
Import ListNotations.
Open Scope Z_scope.

Definition grows (x y : acct) : Prop :=
  ac_addr y = ac_addr x /\ ac_cred y = ac_cred x /\ sub_of (tk_root (ac_trk x)) (tk_root (ac_trk y)).
Definition grow (l l' : list acct) : Prop := forall i x, nth_error l i = Some x -> exists y, nth_error l' i = Some y /\ grows x y.
Definition tree_of (x : acct) := (ac_addr x, ac_cred x, tk_root (ac_trk x)).
Definition trees (l : list acct) := map tree_of l.

Lemma grow_refl l : grow l l.
Proof. intros i x N. exists x. split; auto. split; auto. split; auto. apply sub_refl. Qed.
Lemma grow_trans a b d : grow a b -> grow b d -> grow a d.
Proof.
  intros A B i x N. destruct (A i x N) as (y & Y & G1 & G2 & G3). destruct (B i y Y) as (z & Z & H1 & H2 & H3).
  exists z. split; auto. split; [congruence|]. split; [congruence|]. eapply sub_trans; eauto.
Qed.
Lemma trees_grow l l' : trees l' = trees l -> grow l l'.
Proof.
  intros E i x N. assert (X : nth_error (trees l) i = Some (tree_of x)) by (unfold trees; now rewrite nth_error_map, N).
  rewrite <- E in X. unfold trees in X. rewrite nth_error_map in X. destruct (nth_error l' i) as [y|]; [|discriminate].
  exists y. split; auto. unfold tree_of in X. cbn in X. injection X as X1 X2 X3. split; auto. split; auto. rewrite X3. apply sub_refl.
Qed.
Lemma tree_push x : tree_of (push_acct x) = tree_of x.
Proof. unfold push_acct. destruct (ac_busy x); reflexivity. Qed.
Lemma tree_pop x : tree_of (pop_acct x) = tree_of x.
Proof. unfold pop_acct. destruct (ac_busy x); reflexivity. Qed.
Lemma trees_push l : trees (map push_acct l) = trees l.
Proof. unfold trees. rewrite map_map. apply map_ext. apply tree_push. Qed.
Lemma trees_pop l : trees (map pop_acct l) = trees l.
Proof. unfold trees. rewrite map_map. apply map_ext. apply tree_pop. Qed.
Lemma trees_pop_frame st : trees (as_acc (pop_frame st)) = trees (as_acc st).
Proof. unfold pop_frame. destruct (as_stack st); auto. cbn. apply trees_pop. Qed.

Lemma idle_app a b : idle (a ++ b) -> idle a /\ idle b.
Proof.
  induction a as [|x a IH]; cbn; [split; auto; constructor|]. intros H.
  inversion H; subst; (destruct IH as [X Y]; auto); split; auto; constructor; auto.
Qed.

Section Grow.
  Variable c : sconf.
  Variable source : option addr.
  Variable name : nat -> addr -> Z.
  Variable nonces : nat -> Z.
  Variable root_only : bool.
  Notation rexec := (rexec c source name nonces root_only).
  Notation acc r := (as_acc (rc_st r)).

  Lemma run_store_acc st q st1 o : run_store c st q = (st1, o) -> as_acc st1 = as_acc st /\ as_inv st1 = as_inv st /\ as_stack st1 = as_stack st.
  Proof. unfold run_store. destruct (srun c (as_store st) q) as [[s r] t]. intros [= <- <-]. auto. Qed.
  Lemma find_active_spec l a : forall k i x, find_active l a k = Some (i, x) ->
    (k <= i)%nat /\ nth_error l (i - k) = Some x /\ ac_addr x = a /\ in_stack (ac_trk x) = true /\ frame_matched (ac_trk x) = false.
  Proof.
    induction l as [|y l IH]; intros k i x; cbn; [discriminate|].
    destruct (_ && _ && _) eqn:C.
    - intros [= <- <-]. rewrite Nat.sub_diag. apply andb_prop in C as [C C3]. apply andb_prop in C as [C1 C2].
      destruct (addr_eq_dec (ac_addr y) a); [|discriminate]. apply negb_true_iff in C3. auto.
    - intros F. destruct (IH _ _ _ F) as (A & B & D). split; [lia|]. split; auto. replace (i - k)%nat with (S (i - S k)) by lia. exact B.
  Qed.
  Lemma find_active_none l a : forall k, find_active l a k = None -> forall x, In x l -> ac_addr x = a ->
    in_stack (ac_trk x) = true -> frame_matched (ac_trk x) = true.
  Proof.
    induction l as [|y l IH]; intros k; cbn; [contradiction|]. destruct (_ && _ && _) eqn:C; [discriminate|].
    intros F x [->|I] A S; [|eauto]. rewrite S in C. destruct (addr_eq_dec (ac_addr x) a); [|contradiction]. cbn in C.
    now apply negb_false_iff in C.
  Qed.

  Lemma record_in_spec t f t' : record_in t f = Ok t' -> frame_matched t = false /\ exists n p,
    last_authorized (tk_root t) (rev (tk_ms t)) = Ok (Some (n, p))
    /\ tk_root t' = graft (tk_root t) p (Node f true []) /\ tk_ms t' = SubMatch (length (n_subs n)) :: tl (tk_ms t)
    /\ tk_rxf t' = tk_rxf t /\ tk_done t' = tk_done t.
  Proof.
    unfold record_in. destruct (frame_matched t); [discriminate|]. destruct (last_authorized _ _) as [[[n p]|]|]; try discriminate.
    intros [= <-]. split; auto. exists n, p. cbn. auto 10.
  Qed.

  (* how a recorded authorization ends up in the recording *)
  Definition recorded (r r' : rstate) (a : addr) (f : afn) (w : rway) : Prop :=
    let st := rc_st r in let st' := rc_st r' in
    as_stack st' = as_stack st /\ as_inv st' = as_inv st /\
    ((exists i x t, w = Recorded false /\ nth_error (as_acc st) i = Some x /\ in_stack (ac_trk x) = true /\ record_in (ac_trk x) f = Ok t
        /\ (ac_addr x = a \/ exists n, In (name n a, i) (rc_by r))
        /\ as_acc st' = set_nth_acc (as_acc st) i (set_trk x t) /\ as_store st' = as_store st
        /\ (forall q, In q (rc_by r') -> In q (rc_by r)))
     \/ (exists cred, w = Recorded true
        /\ (forall x, In x (as_acc st) -> ac_addr x = a -> in_stack (ac_trk x) = true -> frame_matched (ac_trk x) = true)
        /\ as_acc st' = as_acc st ++ [{| ac_addr := a; ac_cred := cred; ac_trk := new_rec_tracker f (length (as_stack st));
                                         ac_verified := true; ac_busy := false |}]
        /\ (forall q, In q (rc_by r') -> In q (rc_by r) \/ exists n, q = (name n a, length (as_acc st)))
        /\ ((is_addr source a = true /\ cred = None /\ as_store st' = as_store st)
            \/ (is_addr source a = false /\ exists n mx o t, cred = Some (n, 0) /\ get_max_live_until (sc_li c) = Ok mx
                  /\ srun c (as_store st) (consume_nonce (sc_li c) a n mx) = (as_store st', Ok o, t))))).
  Lemma adel_in {V} (m : list (Z * V)) k q : In q (adel Z.eq_dec m k) -> In q m.
  Proof. induction m as [|[k' v'] m IH]; cbn; auto. destruct (Z.eq_dec k k'); cbn; [auto|]. intros [<-|I]; auto. Qed.
  Lemma aget_in {V} (m : list (Z * V)) k v : aget Z.eq_dec m k = Some v -> In (k, v) m.
  Proof. induction m as [|[k' v'] m IH]; cbn; [discriminate|]. destruct (Z.eq_dec k k') as [->|]; [intros [= ->]; auto|auto]. Qed.
  Lemma aset_in {V} (m : list (Z * V)) k v q : In q (aset Z.eq_dec m k v) -> In q m \/ q = (k, v).
  Proof.
    induction m as [|[k' v'] m IH]; cbn; [intros [<-|[]]; auto|]. destruct (Z.eq_dec k k') as [->|]; cbn.
    - intros [<-|I]; auto.
    - intros [<-|I]; auto. destruct (IH I); auto.
  Qed.
  Lemma require_recording_spec r a f r' o : require_recording c source name nonces root_only r a f = (r', o) ->
    match o with
    | Ok w => recorded r r' a f w
    | Err _ => acc r' = acc r
    end.
  Proof.
    unfold require_recording. set (h := name (rc_asks r) a). set (r1 := {| rc_st := _ |}).
    assert (OT : forall r2 r' o, rc_st r2 = rc_st r -> (forall q, In q (rc_by r2) -> In q (rc_by r)) ->
      record_other c source nonces root_only r2 a h f = (r', o) ->
      match o with Ok w => recorded r r' a f w | Err _ => acc r' = acc r end).
    { clear r' o. intros r2 r' o E B. unfold record_other. destruct (find_active (acc r2) a 0) as [[i x]|] eqn:FA.
      - unfold record_at. destruct (record_in (ac_trk x) f) as [t|e] eqn:RI; [|intros [= <- <-]; congruence].
        destruct (find_active_spec _ _ _ _ _ FA) as (_ & N & AD & IS & FM). rewrite Nat.sub_0_r in N.
        intros [= <- <-]. unfold recorded. cbn. rewrite E in *. split; auto. split; auto. left. exists i, x, t. repeat split; auto.
      - pose proof (find_active_none _ _ _ FA) as NA. rewrite E in NA.
        destruct (root_only && _); [intros [= <- <-]; congruence|]. unfold new_recording.
        destruct (is_addr source a) eqn:SA.
        + intros [= <- <-]. unfold recorded. cbn. rewrite E. split; auto. split; auto. right. exists None. repeat split; auto.
          intros q I. apply aset_in in I as [I| ->]; auto. right. eexists. reflexivity.
        + destruct (get_max_live_until (sc_li c)) as [mx|e] eqn:GM; [|intros [= <- <-]; cbn; congruence].
          destruct (run_store c (rc_st r2) _) as [st1 [o1|e]] eqn:RS.
          * destruct (run_store_acc _ _ _ _ RS) as (S1 & S2 & S3). intros [= <- <-]. unfold recorded. cbn. rewrite S1, S2, S3, E.
            split; auto. split; auto. right. exists (Some (nonces (rc_drawn r2), 0)). split; auto. split; auto. split; auto. split.
            -- intros q I. apply aset_in in I as [I| ->]; auto. right. eexists. reflexivity.
            -- right. split; auto. exists (nonces (rc_drawn r2)), mx, o1. unfold run_store in RS. rewrite E in RS.
               destruct (srun c (as_store (rc_st r)) _) as [[s q] t] eqn:SR. injection RS as <- <-. exists t. auto.
          * destruct (run_store_acc _ _ _ _ RS) as (S1 & S2 & S3). intros [= <- <-]. cbn. congruence. }
    change (rc_by r1) with (rc_by r). change (rc_st r1) with (rc_st r).
    destruct (aget Z.eq_dec (rc_by r) h) as [i|] eqn:AG; [|apply OT; auto].
    destruct (nth_error (acc r) i) as [x|] eqn:N; [|intros [= <- <-]; auto].
    destruct (in_stack (ac_trk x)) eqn:IS.
    - unfold record_at. destruct (record_in (ac_trk x) f) as [t|e] eqn:RI; [|intros [= <- <-]; auto].
      intros [= <- <-]. unfold recorded. cbn. split; auto. split; auto. left. exists i, x, t. repeat split; auto.
      right. exists (rc_asks r). now apply aget_in.
    - apply OT; auto. intros q I. now apply adel_in in I.
  Qed.

  Lemma recorded_grow r r' a f w : recorded r r' a f w -> grow (acc r) (acc r').
  Proof.
    intros (_ & _ & [(i & x & t & _ & N & _ & RI & _ & E & _)|(cred & _ & _ & E & _)]); rewrite E.
    - intros j y Y. rewrite nth_set_acc. destruct (Nat.eq_dec j i) as [->|]; [|exists y; split; auto; split; auto; split; auto; apply sub_refl].
      rewrite Y. cbn. eexists. split; [reflexivity|]. assert (y = x) as -> by congruence. split; auto. split; auto. cbn.
      destruct (record_in_spec _ _ _ RI) as (_ & n & p & _ & -> & _). apply graft_sub.
    - intros j y Y. rewrite nth_error_app1 by (apply nth_error_Some; congruence). exists y. split; auto. split; auto. split; auto. apply sub_refl.
  Qed.

  Lemma check_invoker_acc st a f st1 m : check_invoker st a f = Ok (Some (st1, m)) -> as_acc st1 = as_acc st.
  Proof.
    unfold check_invoker. destruct (as_stack st) as [|x [|g l]]; try discriminate.
    match goal with |- context [if ?b then _ else _] => destruct b end; [intros [= <- _]; auto|].
    destruct (try_invokers _ _ _ _ _) as [[[[j v] q]|]|]; try discriminate. intros [= <- _]. reflexivity.
  Qed.
  Lemma rrequire_grow r a args r' o t : rrequire c source name nonces root_only r a args = (r', o, t) ->
    grow (acc r) (acc r') /\ (idle t -> acc r' = acc r).
  Proof.
    unfold rrequire. destruct (as_stack (rc_st r)) as [|fr l]; [intros [= <- <- <-]; split; auto; apply grow_refl|].
    destruct (check_invoker (rc_st r) a (to_fn fr args)) as [[[st1 m]|]|e] eqn:CI.
    - intros [= <- <- <-]. pose proof (check_invoker_acc _ _ _ _ _ CI) as E. cbn. rewrite E. split; auto. apply grow_refl.
    - destruct (require_recording _ _ _ _ _ r a _) as [r1 [w|e]] eqn:RR.
      + pose proof (require_recording_spec _ _ _ _ _ RR) as S. cbn in S. intros [= <- <- <-]. split; [eapply recorded_grow; eauto|].
        intros I. inversion I; subst. destruct S as (_ & _ & [(i & x & t & W & _)|(cred & W & _)]); discriminate.
      + pose proof (require_recording_spec _ _ _ _ _ RR) as S. cbn in S. intros [= <- <- <-]. rewrite S. split; auto. apply grow_refl.
    - intros [= <- <- <-]. split; auto. apply grow_refl.
  Qed.

  Definition gr (body : rstate -> rstate * res unit * list rtree) : Prop :=
    forall r r' o t, body r = (r', o, t) -> grow (acc r) (acc r') /\ (idle t -> trees (acc r') = trees (acc r)).
  Lemma with_rframe_grow id fn body : gr body -> gr (with_rframe id fn body).
  Proof.
    intros G r r' o t. unfold with_rframe. destruct (body (rpush (FrContract id fn) r)) as [[r2 o2] t2] eqn:BD.
    destruct (G _ _ _ _ BD) as [G1 G2]. cbn in G1, G2.
    assert (P : grow (acc r) (map push_acct (acc r))) by (apply trees_grow, trees_push).
    assert (Q : grow (acc r2) (acc (rpop r2))) by (apply trees_grow; cbn; apply trees_pop_frame).
    destruct o2 as [u|e].
    - intros [= <- <- <-]. split; [eapply grow_trans; [exact P|]; eapply grow_trans; eauto|].
      intros I. inversion I; subst. cbn. rewrite trees_pop_frame, G2 by auto. apply trees_push.
    - destruct (rrollback _ _ _ _ _) as [r3|] eqn:RB.
      + intros [= <- <- <-]. unfold rrollback in RB. destruct (rollback_invs _ _) as [v|]; [|discriminate]. injection RB as <-.
        assert (E : trees (acc (rpop {| rc_st := {| as_store := set_map (as_store (rc_st r2)) (st_map (as_store (rc_st r)));
          as_stack := as_stack (rc_st r2); as_acc := acc (rpush (FrContract id fn) r); as_inv := v |};
          rc_by := rc_by (rpush (FrContract id fn) r); rc_asks := rc_asks r2; rc_drawn := rc_drawn r2 |})) = trees (acc r)).
        { cbn [rpop on_st rc_st]. rewrite trees_pop_frame. cbn. apply trees_push. }
        split; [now apply trees_grow|auto].
      + intros [= <- <- <-]. split; [eapply grow_trans; eauto|]. intros I. inversion I; subst. rewrite G2 by auto. apply trees_push.
  Qed.

  Lemma gr_seq r r1 r2 t1 t2 : grow (acc r) (acc r1) -> (idle t1 -> trees (acc r1) = trees (acc r)) ->
    grow (acc r1) (acc r2) -> (idle t2 -> trees (acc r2) = trees (acc r1)) ->
    grow (acc r) (acc r2) /\ (idle (t1 ++ t2) -> trees (acc r2) = trees (acc r)).
  Proof.
    intros A B C D. split; [eapply grow_trans; eauto|]. intros I. apply idle_app in I as [I1 I2]. rewrite D, B; auto.
  Qed.
  Lemma rexec_grow p : gr (fun r => rexec r p).
  Proof.
    induction p as [r0|id fn tr body IHb k IHk|pre ex args body IHb k IHk|a args sig check IHc k IHk|ts k IHk|o k IHk]; intros r r' q t; cbn.
    - intros [= <- <- <-]. split; auto. apply grow_refl.
    - destruct (with_rframe id fn (fun s => rexec s body) r) as [[r1 o1] t1] eqn:WF.
      destruct (with_rframe_grow id fn _ IHb _ _ _ _ WF) as [G1 G2].
      assert (NX : forall x, (let '(r2, o2, t2) := rexec r1 (k x) in (r2, o2, t1 ++ t2)) = (r', q, t) ->
        grow (acc r) (acc r') /\ (idle t -> trees (acc r') = trees (acc r))).
      { intros x. destruct (rexec r1 (k x)) as [[r2 o2] t2] eqn:EX. intros [= <- <- <-]. destruct (IHk x _ _ _ _ EX) as [H1 H2].
        eapply gr_seq; eauto. }
      destruct o1 as [u|e]; [apply NX|]. destruct (tr && recoverable e); [apply NX|]. intros [= <- <- <-]. auto.
    - destruct (rexec (rpush (FrCreate pre ex args) r) body) as [[r1 o1] t1] eqn:BD. destruct (IHb _ _ _ _ BD) as [G1 G2]. cbn in G1, G2.
      assert (B1 : grow (acc r) (acc (rpop r1))).
      { eapply grow_trans; [apply trees_grow, trees_push|]. eapply grow_trans; [exact G1|]. apply trees_grow. cbn. apply trees_pop_frame. }
      assert (B2 : idle [RCreate t1] -> trees (acc (rpop r1)) = trees (acc r)).
      { intros I. inversion I; subst. cbn. rewrite trees_pop_frame, G2 by auto. apply trees_push. }
      destruct o1 as [u|e]; [|intros [= <- <- <-]; auto].
      destruct (rexec (rpop r1) k) as [[r3 o3] t3] eqn:EX. intros [= <- <- <-]. destruct (IHk _ _ _ _ EX) as [H1 H2].
      change (RCreate t1 :: t3) with ([RCreate t1] ++ t3). eapply gr_seq; eauto.
    - destruct (rrequire c source name nonces root_only r a args) as [[r1 o1] t1] eqn:RQ. destruct (rrequire_grow _ _ _ _ _ _ RQ) as [G1 G2].
      assert (G3 : idle t1 -> trees (acc r1) = trees (acc r)) by (intros I; now rewrite G2).
      destruct o1 as [u|e]; [|intros [= <- <- <-]; auto].
      destruct (rexec r1 k) as [[r2 o2] t2] eqn:EX. intros [= <- <- <-]. destruct (IHk _ _ _ _ EX) as [H1 H2]. eapply gr_seq; eauto.
    - destruct (cur_contract (rc_st r)) as [a|]; [|intros [= <- <- <-]; split; auto; apply grow_refl].
      set (r1 := on_st r _). destruct (rexec r1 k) as [[r2 o2] t2] eqn:EX. intros [= <- <- <-]. destruct (IHk _ _ _ _ EX) as [H1 H2].
      split; [exact H1|]. intros I. inversion I; subst. now rewrite H2.
    - destruct (aop_prog c (rc_st r) o) as [x|]; [|intros [= <- <- <-]; split; auto; apply grow_refl].
      destruct (run_store c (rc_st r) x) as [st1 r1] eqn:RS. destruct (run_store_acc _ _ _ _ RS) as (S1 & _).
      destruct r1 as [v|e]; [|intros [= <- <- <-]; cbn; rewrite S1; split; auto; apply grow_refl].
      intros EX. destruct (IHk _ _ _ _ _ EX) as [H1 H2]. cbn in H1, H2. rewrite S1 in *. auto.
  Qed.
End Grow.
