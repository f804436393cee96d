(* A signed tree authorizes the calls it describes. *)
From Coq Require Import ZArith Lia List Bool.
From Verif Require Import Prelude ValModel ContainerModel HeapModel AMap StorageModel StorageSpec
  StorageProofs StorageProofs2 StorageLogic StorageProofs3 FrameModel FrameSpec FrameProofs FrameStore FrameProofs2
  AuthModel AuthSpec AuthProofs AuthProofs2 AuthProofs3 AuthProofs4 AuthProofs5 AuthProofs6 AuthProofs8.
Import ListNotations.
Open Scope nat_scope.

Lemma answers_app t u : answers (t ++ u) = answers t ++ answers u.
Proof. unfold answers. now rewrite !flat_map_app. Qed.

Lemma nearest_use s t p : s_frames s <> [] -> nearest (s_frames (s_use s t p)) t = Some p.
Proof.
  unfold s_use. cbn. destruct (s_frames s) as [|fr fs]; [congruence|]. intros _. cbn [nearest]. unfold by_node. cbn [sf_by lookup].
  destruct (tid_eq_dec t t); congruence.
Qed.

Section Mirror.
  Variable li : linfo.
  Variable entries : list entry_.
  Variable i : nat.
  Variable e : entry_.
  Variable key : list Z.
  Notation a := (AAccount key).
  Hypothesis NE : nth_error entries i = Some e.
  Hypothesis EA : en_addr e = a.
  Hypothesis ONLY : forall j e', nth_error entries j = Some e' -> en_addr e' = a -> j = i.
  Variable sig : nat -> res unit.
  Variable check : nat -> aprog.
  Notation explained := (explained li entries).
  Notation record := (record entries).

  Definition quiet (s : sstate) : Prop := s_busy s = [] /\ s_pre s = [].
  Definition used (s : sstate) (p : path) : Prop := In (TE i, p) (s_used s).
  Definition say (x : path * afn) : addr * afn * answer := (a, snd x, ByEntry i (fst x)).

  Lemma no_pre s f j p : quiet s -> ~ pre_may s a f j p.
  Proof. intros [_ Q] (q & N & _). rewrite Q in N. destruct j; discriminate. Qed.
  Lemma no_direct s : direct_invoker s <> Some a.
  Proof. unfold direct_invoker. destruct (s_frames s) as [|? [|[[?|?] ?] ?]]; discriminate. Qed.

  (* a call whose node is the first unused child of its caller's *)
  Lemma child_answer s fr q n f subs :
    quiet s -> nearest (s_frames s) (TE i) = Some q -> tree_at (en_tree e) (q ++ [n]) = Some (FT f subs) ->
    ~ used s (q ++ [n]) -> (forall m, m < n -> used s (q ++ [m])) ->
    right_answer entries (s_push s fr) a f (ByEntry i (q ++ [n])).
  Proof.
    intros Q NR TA NU PR.
    assert (EM : entry_may entries (s_push s fr) a f i (q ++ [n])).
    { exists e. split; auto. split; auto. split; [cbn; destruct Q as [-> _]; auto|]. split.
      - split; [exists subs; exact TA|]. split; [exact NU|]. cbn. split; [reflexivity|]. rewrite NR. now exists n.
      - intros X. destruct q; discriminate. }
    cbn. split; [exact EM|]. split; [apply no_direct|]. split; [intros j p; now apply no_pre|].
    intros i' p' (e' & N' & A' & _ & (_ & NU' & M) & _). assert (i' = i) as -> by eauto. right. split; auto.
    cbn in M. destruct M as [_ M]. rewrite NR in M. destruct M as (m & ->). rewrite !last_snoc.
    destruct (Nat.le_gt_cases n m); auto. exfalso. apply NU'. now apply PR.
  Qed.

  Lemma request_known fr args k r l s s' p :
    record (Some fr) (ARequire a args sig check k) r l -> explained s l s' -> In i (s_ver s) ->
    right_answer entries s a (to_fn fr args) (ByEntry i p) ->
    exists l', l = TReq a (to_fn fr args) (MEntry i p) :: l' /\ record (Some fr) k r l' /\ explained (s_use s (TE i) p) l' s'.
  Proof.
    intros RC X V RA.
    assert (ANS : forall x l0 s0 w, explained s (x :: l0) s0 -> answer_of x = Some (a, to_fn fr args, w) -> w = ByEntry i p).
    { intros x l0 s0 w X0 A0. destruct (answer_right _ _ _ _ _ _ _ _ _ X0 A0) as [_ R0]. eapply answer_unique; eauto. }
    inversion RC; subst;
      try (specialize (ANS _ _ _ _ X eq_refl); first [discriminate ANS | injection ANS as -> ->]; inversion X; subst; contradiction).
    destruct m as [|j q|j q]; specialize (ANS _ _ _ _ X eq_refl); try discriminate ANS. injection ANS as -> ->.
    exists t. split; auto. split; auto. inversion X; subst. assumption.
  Qed.
  Lemma request_first fr args k r l s s' p n x :
    record (Some fr) (ARequire a args sig check k) r l -> explained s l s' -> ~ In i (s_ver s) ->
    right_answer entries s a (to_fn fr args) (ByEntry i p) ->
    sig i = Ok tt -> quiet s ->
    en_cred e = None \/ (en_cred e = Some (n, x) /\ (li_seq li <= x <= max_live li)%Z /\ s_nonce s a n = None) ->
    (exists l' s2, l = TFirst a (to_fn fr args) i p AuthOk [] :: l' /\ record (Some fr) k r l' /\ explained s2 l' s'
       /\ s_frames s2 = s_frames (s_use s (TE i) p) /\ s_used s2 = s_used (s_use s (TE i) p) /\ s_ver s2 = i :: s_ver s /\ quiet s2)
    \/ (r = Err e_foot /\ l = [TFirst a (to_fn fr args) i p (NonceFailed e_foot) []]).
  Proof.
    intros RC X V RA SG QT CR.
    assert (ANS : forall x l0 s0 w, explained s (x :: l0) s0 -> answer_of x = Some (a, to_fn fr args, w) -> w = ByEntry i p).
    { intros y l0 s0 w X0 A0. destruct (answer_right _ _ _ _ _ _ _ _ _ X0 A0) as [_ R0]. eapply answer_unique; eauto. }
    assert (OKK : forall l' , explained s (TFirst a (to_fn fr args) i p AuthOk [] :: l') s' ->
       exists s2, explained s2 l' s' /\ s_frames s2 = s_frames (s_use s (TE i) p) /\ s_used s2 = s_used (s_use s (TE i) p) /\ s_ver s2 = i :: s_ver s /\ quiet s2).
    { intros l' X0. inversion X0; subst. exists s2. split; auto. destruct QT as [Q1 Q2].
      match goal with H : AuthSpec.explained _ _ _ [] _ |- _ => inversion H; subst end. cbn in *. repeat (split; [solve [auto]|]). split; congruence. }
    inversion RC; subst.
    - destruct m as [|j q|j q]; specialize (ANS _ _ _ _ X eq_refl); try discriminate ANS. injection ANS as -> ->. inversion X; subst. contradiction.
    - specialize (ANS _ _ _ _ X eq_refl). injection ANS as -> ->. left. destruct (OKK _ X) as (s2 & H2). exists t, s2. tauto.
    - specialize (ANS _ _ _ _ X eq_refl). injection ANS as -> ->. left. destruct (OKK _ X) as (s2 & H2). exists t, s2. tauto.
    - specialize (ANS _ _ _ _ X eq_refl). discriminate ANS.
    - specialize (ANS _ _ _ _ X eq_refl). injection ANS as -> ->. congruence.
    - contradiction.
    - specialize (ANS _ _ _ _ X eq_refl). injection ANS as -> ->. right. inversion X; subst.
      match goal with H : AuthSpec.explained _ _ _ [] _ |- _ => inversion H; subst end.
      match goal with H : nth_error entries i = Some ?z, G : unconsumable _ (en_cred ?z) _ _ _ |- _ =>
        assert (z = e) as -> by congruence; rename G into UC end.
      assert (err = e_foot) as ->; [|auto]. unfold unconsumable in UC. cbn [s_nonce s_set_busy s_use] in UC.
      destruct CR as [CR|(CR & R1 & R2)]; [rewrite CR in UC; contradiction|]. rewrite CR in UC.
      destruct UC as [[_ U]|[_ [[_ U]|U]]]; [contradiction|contradiction|exact U].
  Qed.

  (* ---- the calls below a node *)
  Definition below (q : path) (n : nat) (subs : list ftree) (y : path) : Prop :=
    exists m t p', nth_error subs m = Some t /\ y = q ++ [n + m] ++ p' /\ tree_at t p' <> None.

  Fixpoint nodes_list (p : path) (n : nat) (l : list ftree) : list (path * afn) :=
    match l with [] => [] | x :: l' => nodes x (p ++ [n]) ++ nodes_list p (S n) l' end.
  Lemma nodes_eq f subs p : nodes (FT f subs) p = (p, f) :: nodes_list p 0 subs.
  Proof. cbn. f_equal. generalize 0. induction subs as [|x l IH]; intros n; cbn; auto. now rewrite IH. Qed.

  Definition acts (t : ftree) : Prop := forall fr k r l s s' q n,
    record fr (act a sig check t k) r l -> explained s l s' ->
    quiet s -> In i (s_ver s) -> nearest (s_frames s) (TE i) = Some q ->
    tree_at (en_tree e) (q ++ [n]) = Some t ->
    (forall p', ~ used s (q ++ [n] ++ p')) -> (forall m, m < n -> used s (q ++ [m])) ->
    exists l1 l2 s2, l = l1 ++ l2 /\ record fr k r l2 /\ explained s2 l2 s'
      /\ quiet s2 /\ s_frames s2 = s_frames s /\ In i (s_ver s2) /\ answers l1 = map say (nodes t (q ++ [n]))
      /\ (forall y, used s2 y <-> used s y \/ exists p', y = q ++ [n] ++ p' /\ tree_at t p' <> None).

  Lemma acts_list subs : Forall acts subs -> forall fr k r l s s' q n,
    record fr (fold_right (act a sig check) k subs) r l -> explained s l s' ->
    quiet s -> In i (s_ver s) -> nearest (s_frames s) (TE i) = Some q ->
    (forall m t, nth_error subs m = Some t -> tree_at (en_tree e) (q ++ [n + m]) = Some t) ->
    (forall m p', n <= m -> ~ used s (q ++ [m] ++ p')) -> (forall m, m < n -> used s (q ++ [m])) ->
    exists l1 l2 s2, l = l1 ++ l2 /\ record fr k r l2 /\ explained s2 l2 s'
      /\ quiet s2 /\ s_frames s2 = s_frames s /\ In i (s_ver s2) /\ answers l1 = map say (nodes_list q n subs)
      /\ (forall y, used s2 y <-> used s y \/ below q n subs y).
  Proof.
    induction 1 as [|t subs AT _ IH]; intros fr k r l s s' q n RC X Q V NR TA NU PR.
    - exists [], l, s. cbn in RC. do 7 (split; [solve [auto]|]). intros y. split; auto.
      intros [Y|([|m] & t & p' & N & _)]; auto; discriminate.
    - cbn [fold_right] in RC.
      assert (T0 : tree_at (en_tree e) (q ++ [n]) = Some t) by (rewrite <- (Nat.add_0_r n); now apply TA).
      destruct (AT fr _ r l s s' q n RC X Q V NR T0 (fun p' => NU n p' (le_n n)) PR) as (l1 & l2 & s2 & -> & RC2 & X2 & Q2 & F2 & V2 & A2 & U2).
      destruct (IH fr k r l2 s2 s' q (S n) RC2 X2 Q2 V2) as (l3 & l4 & s3 & -> & RC3 & X3 & Q3 & F3 & V3 & A3 & U3).
      + now rewrite F2.
      + intros m t' N. replace (S n + m) with (n + S m) by lia. now apply TA.
      + intros m p' L Y. apply U2 in Y as [Y|(p2 & E & _)]; [apply (NU m p'); [lia|exact Y]|].
        apply app_inv_head in E. injection E as E _. lia.
      + intros m L. apply U2. destruct (Nat.eq_dec m n) as [->|]; [|left; apply PR; lia]. right. exists []. split; auto. discriminate.
      + exists (l1 ++ l3), l4, s3. split; [now rewrite app_assoc|]. split; auto. split; auto. split; auto. split; [congruence|]. split; auto. split.
        * cbn [nodes_list]. now rewrite answers_app, A2, A3, map_app.
        * intros y. rewrite U3, U2. split.
          -- intros [[Y|(p' & -> & P)]|(m & t' & p' & N & -> & P)]; auto; right.
             ++ exists 0, t, p'. rewrite Nat.add_0_r. auto.
             ++ exists (S m), t', p'. replace (n + S m) with (S n + m) by lia. auto.
          -- intros [Y|(m & t' & p' & N & -> & P)]; auto. destruct m as [|m].
             ++ injection N as ->. left; right. exists p'. rewrite Nat.add_0_r. auto.
             ++ right. exists m, t', p'. replace (S n + m) with (n + S m) by lia. auto.
  Qed.

  (* the subtree of a call's node, seen from that node *)
  Lemma tree_below q t p : tree_at (en_tree e) q = Some t -> tree_at (en_tree e) (q ++ p) = tree_at t p.
  Proof.
    generalize (en_tree e). induction q as [|n q IH]; intros [f l] E; cbn in *; [now injection E as <-|].
    destruct (nth_error l n); [now apply IH|discriminate].
  Qed.
  Lemma body_acts f subs fr args r l s s' q :
    Forall acts subs -> f = to_fn fr args ->
    record (Some fr) (fold_right (act a sig check) (ARet (Ok tt)) subs) r l -> explained s l s' ->
    quiet s -> In i (s_ver s) -> nearest (s_frames s) (TE i) = Some q -> tree_at (en_tree e) q = Some (FT f subs) ->
    (forall m p', ~ used s (q ++ [m] ++ p')) ->
    r = Ok tt /\ quiet s' /\ s_frames s' = s_frames s /\ In i (s_ver s') /\ answers l = map say (nodes_list q 0 subs)
    /\ (forall y, used s' y <-> used s y \/ below q 0 subs y).
  Proof.
    intros AC -> RC X Q V NR TA NU.
    destruct (acts_list subs AC (Some fr) _ r l s s' q 0 RC X Q V NR) as (l1 & l2 & s2 & -> & RC2 & X2 & Q2 & F2 & V2 & A2 & U2).
    - intros m t N. rewrite (tree_below _ _ _ TA). cbn. now rewrite N.
    - intros m p' _. apply NU.
    - intros m L. lia.
    - inversion RC2; subst. inversion X2; subst. rewrite app_nil_r. auto 10.
  Qed.
  Lemma node_used f subs q y : (exists p', y = q ++ p' /\ tree_at (FT f subs) p' <> None) <-> y = q \/ below q 0 subs y.
  Proof.
    split.
    - intros (p' & -> & P). destruct p' as [|m p']; [left; now rewrite app_nil_r|right].
      cbn in P. destruct (nth_error subs m) as [t|] eqn:N; [|congruence]. exists m, t, p'. auto.
    - intros [->|(m & t & p' & N & -> & P)]; [exists []; rewrite app_nil_r; split; [auto|discriminate]|].
      exists (m :: p'). split; auto. cbn. now rewrite N.
  Qed.

  Lemma acts_all t : acts t.
  Proof.
    induction t as [f subs IH] using ftree_ind'. intros fr k r l s s' q n RC X Q V NR TA NU PR.
    assert (BODY : forall fr' args r0 l0 s1, f = to_fn fr' args ->
      record (Some fr') (ARequire a args sig check (fold_right (act a sig check) (ARet (Ok tt)) subs)) r0 l0 ->
      explained (s_push s fr') l0 s1 ->
      r0 = Ok tt /\ quiet (s_pop s1) /\ s_frames (s_pop s1) = s_frames s /\ In i (s_ver (s_pop s1))
      /\ answers l0 = map say (nodes (FT f subs) (q ++ [n]))
      /\ (forall y, used (s_pop s1) y <-> used s y \/ exists p', y = q ++ [n] ++ p' /\ tree_at (FT f subs) p' <> None)).
    { intros fr' args r0 l0 s1 EF RB XB. pose proof (NU []) as NU0. rewrite app_nil_r in NU0.
      pose proof (child_answer s fr' q n f subs Q NR TA NU0 PR) as RA. rewrite EF in RA.
      destruct (request_known _ _ _ _ _ _ _ _ RB XB V RA) as (l1 & -> & RB1 & XB1).
      destruct (body_acts f subs fr' args r0 l1 _ s1 (q ++ [n]) IH EF RB1 XB1) as (-> & Q1 & F1 & V1 & A1 & U1); auto.
      - apply nearest_use. discriminate.
      - intros m p' [Y|Y]; [injection Y as Y; apply (f_equal (@length nat)) in Y; rewrite !app_length in Y; cbn in Y; lia|].
        apply (NU ([m] ++ p')). now rewrite app_assoc.
      - split; auto. destruct Q1 as [Q1 Q2]. split; [split; [exact Q1|cbn; now rewrite Q2]|]. split; [cbn; now rewrite F1|]. split; [exact V1|]. split.
        + rewrite nodes_eq, EF. cbn [map]. unfold answers in *. cbn [flat_map everything answer_of app]. rewrite A1. reflexivity.
        + intros y. rewrite app_assoc_reverse || idtac. setoid_rewrite app_assoc. rewrite node_used. unfold used in U1 |- *. cbn [s_used s_pop s_use s_push In] in *.
          rewrite U1. assert (Y : (TE i, q ++ [n]) = (TE i, y) <-> y = q ++ [n]) by (split; [now intros [= ->]|now intros ->]). rewrite Y. tauto. }
    destruct f as [id fn args|pre ex args]; cbn [act] in RC.
    - inversion RC; subst.
      + inversion X; subst. match goal with H : record _ (ARequire _ _ _ _ _) _ ?L, G : explained (s_push s _) ?L ?S1 |- _ =>
          destruct (BODY (FrContract id fn) args _ L S1 eq_refl H G) as (_ & Q1 & F1 & V1 & A1 & U1) end.
        eexists [_], _, _. split; [reflexivity|]. split; [eassumption|]. split; [eassumption|]. do 3 (split; [assumption|]). split; [|exact U1].
        rewrite <- A1. unfold answers. cbn. now rewrite app_nil_r.
      + exfalso. inversion X; subst. match goal with H : record _ (ARequire _ _ _ _ _) _ ?L, G : explained (s_push s _) ?L ?S1 |- _ =>
          destruct (BODY (FrContract id fn) args _ L S1 eq_refl H G) as (Y & _) end. discriminate Y.
    - inversion RC; subst.
      + inversion X; subst. match goal with H : record _ (ARequire _ _ _ _ _) _ ?L, G : explained (s_push s _) ?L ?S1 |- _ =>
          destruct (BODY (FrCreate pre ex args) [] _ L S1 eq_refl H G) as (_ & Q1 & F1 & V1 & A1 & U1) end.
        eexists [_], _, _. split; [reflexivity|]. split; [eassumption|]. split; [eassumption|]. do 3 (split; [assumption|]). split; [|exact U1].
        rewrite <- A1. unfold answers. cbn. now rewrite app_nil_r.
      + exfalso. inversion X; subst. match goal with H : record _ (ARequire _ _ _ _ _) _ ?L, G : explained (s_push s _) ?L ?S1 |- _ =>
          destruct (BODY (FrCreate pre ex args) [] _ L S1 eq_refl H G) as (Y & _) end. discriminate Y.
  Qed.

  (* ---- the whole tree *)
  Lemma root_answer no fr f subs : en_tree e = FT f subs -> right_answer entries (s_push (start no) fr) a f (ByEntry i []).
  Proof.
    intros ET.
    assert (EM : entry_may entries (s_push (start no) fr) a f i []).
    { exists e. split; auto. split; auto. split; [cbn; auto|]. split.
      - split; [exists subs; now rewrite ET|]. split; [cbn; auto|]. cbn. auto.
      - intros _ j e' _ _ _ X. now cbn in X. }
    cbn. split; [exact EM|]. split; [apply no_direct|]. split; [intros j p; apply no_pre; split; reflexivity|].
    intros i' p' (e' & N' & A' & _ & (_ & _ & M) & _). assert (i' = i) as -> by eauto. right. split; auto. cbn. lia.
  Qed.
  Lemma tree_acts no r l s' n x :
    record None (act a sig check (en_tree e) (ARet (Ok tt))) r l -> explained (start no) l s' ->
    sig i = Ok tt ->
    en_cred e = None \/ (en_cred e = Some (n, x) /\ (li_seq li <= x <= max_live li)%Z /\ no a n = None) ->
    (r = Ok tt /\ answers l = map say (nodes (en_tree e) []))
    \/ (exists f p, In (TFirst a f i p (NonceFailed e_foot) []) (flat_map everything l)).
  Proof.
    intros RC X SG CR. destruct (en_tree e) as [f subs] eqn:ET.
    assert (BODY : forall fr' args r0 l0 s1, f = to_fn fr' args ->
      record (Some fr') (ARequire a args sig check (fold_right (act a sig check) (ARet (Ok tt)) subs)) r0 l0 ->
      explained (s_push (start no) fr') l0 s1 ->
      (r0 = Ok tt /\ answers l0 = map say (nodes (FT f subs) [])) \/ In (TFirst a f i [] (NonceFailed e_foot) []) (flat_map everything l0)).
    { intros fr' args r0 l0 s1 EF RB XB. pose proof (root_answer no fr' f subs ET) as RA. rewrite EF in RA.
      destruct (request_first _ _ _ _ _ _ _ _ n x RB XB (fun H => H) RA SG (conj eq_refl eq_refl) CR)
        as [(l1 & s2 & -> & RB1 & XB1 & F2 & U2 & V2 & Q2)|[_ ->]]; [left|right; rewrite EF; cbn; auto].
      assert (AA : Forall acts subs) by (apply Forall_forall; intros t _; apply acts_all).
      destruct (body_acts f subs fr' args r0 l1 s2 s1 [] AA EF RB1 XB1 Q2) as (-> & Q1 & F1 & V1 & A1 & U1).
      - rewrite V2. now left.
      - rewrite F2. apply nearest_use. discriminate.
      - now rewrite ET.
      - intros m p' Y. unfold used in Y. rewrite U2 in Y. cbn in Y. destruct Y as [Y|[]]. discriminate Y.
      - split; auto. rewrite nodes_eq, EF. unfold answers in *. cbn [flat_map everything answer_of app map]. now rewrite A1. }
    destruct f as [id fn args|pre ex args]; cbn [act] in RC.
    - inversion RC; subst.
      + inversion X; subst. match goal with H : record _ (ARequire _ _ _ _ _) _ ?L, G : explained (s_push _ _) ?L ?S1 |- _ =>
          destruct (BODY (FrContract id fn) args _ L S1 eq_refl H G) as [[_ A1]|IN] end.
        * left. match goal with H : record _ (ARet _) _ _ |- _ => inversion H; subst end. split; auto.
          rewrite <- A1. unfold answers. cbn. now rewrite app_nil_r.
        * right. eexists _, _. cbn. right. apply in_or_app. left. exact IN.
      + inversion X; subst. match goal with H : record _ (ARequire _ _ _ _ _) _ ?L, G : explained (s_push _ _) ?L ?S1 |- _ =>
          destruct (BODY (FrContract id fn) args _ L S1 eq_refl H G) as [[Y _]|IN] end; [discriminate|].
        right. eexists _, _. cbn. right. apply in_or_app. left. exact IN.
    - inversion RC; subst.
      + inversion X; subst. match goal with H : record _ (ARequire _ _ _ _ _) _ ?L, G : explained (s_push _ _) ?L ?S1 |- _ =>
          destruct (BODY (FrCreate pre ex args) [] _ L S1 eq_refl H G) as [[_ A1]|IN] end.
        * left. match goal with H : record _ (ARet _) _ _ |- _ => inversion H; subst end. split; auto.
          rewrite <- A1. unfold answers. cbn. now rewrite app_nil_r.
        * right. eexists _, _. cbn. right. apply in_or_app. left. exact IN.
      + inversion X; subst. match goal with H : record _ (ARequire _ _ _ _ _) _ ?L, G : explained (s_push _ _) ?L ?S1 |- _ =>
          destruct (BODY (FrCreate pre ex args) [] _ L S1 eq_refl H G) as [[Y _]|IN] end; [discriminate|].
        right. eexists _, _. cbn. right. apply in_or_app. left. exact IN.
  Qed.
End Mirror.
