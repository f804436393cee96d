(* Executions only use nodes up, and a failed call gives everything back. *)
From Coq Require Import ZArith Lia List Bool.
From Verif Require Import Prelude ValModel ContainerModel HeapModel AMap StorageModel StorageSpec
  StorageProofs StorageProofs2 StorageLogic StorageProofs3 FrameModel FrameSpec FrameProofs FrameStore FrameProofs2
  AuthModel AuthSpec AuthProofs AuthProofs2.
Import ListNotations.

Lemma wka_pop a a2 : trk_inv (ac_trk a) -> wka (push_acct a) a2 -> wka a (pop_acct a2).
Proof.
  intros I. unfold push_acct, pop_acct. destruct (ac_busy a) eqn:B.
  - intros (W1 & W2 & W3 & W4 & W5). rewrite (W4 B). rewrite B. apply wka_refl.
  - unfold wka; cbn. rewrite B. intros (W1 & W2 & W3 & W4 & W5). destruct (W5 eq_refl) as [W6 W7]. rewrite W3. cbn.
    split; auto. split; auto. split; auto. split; [discriminate|]. intros _. split; auto. now apply ext_pop.
Qed.
Lemma rollback_acct_ok a a2 : trk_inv (ac_trk a) -> wka (push_acct a) a2 ->
  exists a4, rollback_acct a2 (snapshot_acct (push_acct a)) = Some a4 /\ pop_acct a4 = a /\ ac_busy a4 = ac_busy a.
Proof.
  intros I. unfold push_acct, pop_acct. destruct (ac_busy a) eqn:B.
  - intros (W1 & W2 & W3 & W4 & W5). rewrite (W4 B). unfold snapshot_acct. rewrite B. cbn. exists a. rewrite B. auto.
  - unfold wka; cbn. rewrite B. intros (W1 & W2 & W3 & W4 & W5). destruct (W5 eq_refl) as [W6 W7].
    unfold snapshot_acct. cbn. rewrite B. unfold rollback_acct. rewrite W3.
    destruct (rollback_pop _ _ I W6) as (t1 & E & P). cbn in E. rewrite E. eexists. split; [reflexivity|]. cbn. rewrite W3. split; auto.
    destruct a, a2; cbn in *. rewrite P. unfold set_trk, set_verified; cbn. congruence.
Qed.
Lemma rollback_accts_ok l : forall l2, Forall (fun a => trk_inv (ac_trk a)) l -> Forall2 wka (map push_acct l) l2 ->
  exists l4, rollback_accts l2 (map snapshot_acct (map push_acct l)) = Some l4 /\ map pop_acct l4 = l.
Proof.
  induction l as [|a l IH]; intros l2 HI W; inversion W as [|x y xs ys WA WR]; subst.
  - exists []. auto.
  - inversion HI; subst. destruct (rollback_acct_ok a y) as (a4 & E & P & _); auto. destruct (IH ys) as (l4 & E4 & P4); auto.
    exists (a4 :: l4). cbn [map rollback_accts]. rewrite E, E4. split; auto. cbn [map]. now rewrite P, P4.
Qed.
Lemma rollback_invs_ok l : forall l2 B, Forall (fun v => trk_inv (iv_trk v)) l -> Forall2 wkv (map push_inv l) l2 ->
  exists l4, rollback_invs (l2 ++ B) (map (fun v => snapshot_node (tk_root (iv_trk v))) (map push_inv l)) = Some l4 /\ map pop_inv l4 = l.
Proof.
  induction l as [|v l IH]; intros l2 B HI W; inversion W as [|x y xs ys WA WR]; subst.
  - exists []. split; auto. cbn. destruct B; reflexivity.
  - inversion HI; subst. destruct WA as [WB WE]. cbn in WB, WE. destruct (rollback_pop _ _ H1 WE) as (t1 & E & P).
    destruct (IH ys B) as (l4 & E4 & P4); auto.
    exists ({| iv_by := iv_by y; iv_trk := t1 |} :: l4). cbn [map rollback_invs app]. rewrite E4.
    cbn in E |- *. rewrite E. split; auto.
    cbn [map]. rewrite P4. f_equal. unfold pop_inv. cbn. rewrite P, WB. now destruct v.
Qed.

Section Exec.
  Variable c : sconf.
  Hypothesis LI : li_ok (sc_li c).
  Notation li := (sc_li c).
  Notation ainv := (ainv c).
  Notation wk := (wk c).

  Lemma push_ne l : Forall ne (map push_inv l).
  Proof. apply Forall_forall. intros v I. apply in_map_iff in I as (w & <- & _). unfold ne. discriminate. Qed.
  Lemma ainv_push f st : ainv st -> ainv (push_frame f st).
  Proof.
    intros (A1 & A2 & A3 & A4 & A5). split; auto. split; auto. split; [|split]; cbn.
    - apply Forall_map. eapply Forall_impl; [|exact A3]. intros a I. unfold push_acct. destruct (ac_busy a); [exact I|now apply inv_push].
    - apply Forall_map. eapply Forall_impl; [|exact A4]. intros v I. now apply inv_push.
    - exists (map push_inv (as_inv st)), []. rewrite app_nil_r. split; auto. split; auto. apply push_ne.
  Qed.
  Lemma wki_pushed l l2 : wki (map push_inv l) l2 -> exists A' B', l2 = A' ++ B' /\ Forall em B' /\ Forall2 wkv (map push_inv l) A'.
  Proof.
    intros (A & B & A' & B' & E & -> & H1 & H2 & H3 & H4).
    rewrite <- (app_nil_r (map push_inv l)) in E. apply split_unique in E as [E1 _]; auto using push_ne. subst A. eauto.
  Qed.

  (* popping a frame *)
  Lemma pop_shape f st st2 : scoped (as_inv st) -> wki (as_inv (push_frame f st)) (as_inv st2) ->
    exists A0 B0 A1 B1, as_inv st = A0 ++ B0 /\ Forall ne A0 /\ Forall em B0 /\ as_inv st2 = A1 ++ B1
      /\ Forall2 wkv (map push_inv A0) A1 /\ Forall ne (map pop_inv A1) /\ Forall em (map pop_inv B1).
  Proof.
    intros (A0 & B0 & S1 & S2 & S3) K3. destruct (wki_pushed _ _ K3) as (A' & B' & E2 & EB & W2).
    rewrite S1, map_app in W2. apply Forall2_app_inv_l in W2 as (A1 & B1 & WA & WB & ->).
    exists A0, B0, A1, (B1 ++ B'). split; auto. split; auto. split; auto. split; [now rewrite app_assoc|]. split; auto. split.
    - clear - WA S2. apply Forall_map. revert A1 WA. induction S2 as [|v A0 N _ IH]; intros A1 W; inversion W as [|x y xs ys [_ (_ & X & _)] WR]; subst; auto.
      constructor; auto. unfold ne in *. cbn in *. destruct X as [[Y _]|(m & m' & r & Y & ->)]; [discriminate|]. injection Y as _ <-. exact N.
    - rewrite map_app. apply Forall_app. split.
      + clear - WB S3. apply Forall_map. revert B1 WB. induction S3 as [|v B0 N _ IH]; intros B1 W; inversion W as [|x y xs ys [_ (_ & X & _)] WR]; subst; auto.
        constructor; auto. unfold em in *. cbn in *. destruct X as [[Y _]|(m & m' & r & Y & ->)]; [discriminate|]. injection Y as _ <-. exact N.
      + apply Forall_map. eapply Forall_impl; [|exact EB]. unfold em. intros v X. cbn. now rewrite X.
  Qed.
  Lemma pop_ok f st st2 : ainv st -> ainv st2 -> wk (push_frame f st) st2 -> ainv (pop_frame st2) /\ wk st (pop_frame st2).
  Proof.
    intros I I2 (K1 & K2 & K3 & K4). cbn in K1. destruct I as (_ & _ & I3 & I4 & SC).
    destruct (pop_shape f st st2 SC K3) as (A0 & B0 & A1 & B1 & S1 & S2 & S3 & E2 & WA & NA & NB). unfold pop_frame. rewrite K1.
    assert (DR : drop_scoped (map pop_inv (as_inv st2)) = map pop_inv A1) by (rewrite E2, map_app; now apply drop_split).
    rewrite DR. split.
    - destruct I2 as (J1 & J2 & J3 & J4 & _). split; auto. split; auto. split; [|split]; cbn.
      + apply Forall_map. eapply Forall_impl; [|exact J3]. intros a X. unfold pop_acct. destruct (ac_busy a); [exact X|now apply inv_pop].
      + apply Forall_map. rewrite E2 in J4. apply Forall_app in J4 as [J4 _].
        eapply Forall_impl; [|exact J4]. intros v X. now apply inv_pop.
      + exists (map pop_inv A1), []. rewrite app_nil_r. auto.
    - split; auto. split; [|split]; cbn.
      + clear - I3 K2. cbn in K2. revert I3 K2. generalize (as_acc st2). induction (as_acc st) as [|a l IH]; intros l2 I W; inversion W; subst; cbn; auto.
        inversion I; subst. constructor; [now apply wka_pop|auto].
      + exists A0, B0, (map pop_inv A1), []. rewrite app_nil_r. repeat split; auto.
        rewrite S1 in I4. apply Forall_app in I4 as [I4 _]. clear - I4 WA. revert A1 WA. induction A0 as [|v A0 IH]; intros A1 W; inversion W as [|x y xs ys [X1 X2] WR]; subst; cbn; auto.
        inversion I4; subst. constructor; auto. split; auto. now apply ext_pop.
      + exact K4.
  Qed.

  (* a failed frame *)
  Lemma fail_ok f st st2 : ainv st -> ainv st2 -> wk (push_frame f st) st2 ->
    exists st4, rollback (with_store st2 (set_map (as_store st2) (st_map (as_store st)))) (take_snapshot (push_frame f st)) = Some st4
      /\ as_acc (pop_frame st4) = as_acc st /\ as_inv (pop_frame st4) = drop_scoped (as_inv st)
      /\ as_stack (pop_frame st4) = as_stack st /\ as_store (pop_frame st4) = set_map (as_store st2) (st_map (as_store st)).
  Proof.
    intros I I2 (K1 & K2 & K3 & K4). cbn in K1. destruct I as (_ & _ & I3 & I4 & _).
    destruct (wki_pushed _ _ K3) as (A' & B' & E2 & EB & W2).
    destruct (rollback_accts_ok _ _ I3 K2) as (l4 & R1 & P1). destruct (rollback_invs_ok _ _ B' I4 W2) as (v4 & R2 & P2).
    unfold rollback. cbn [as_acc as_inv with_store take_snapshot sn_acc sn_inv push_frame] in *. rewrite R1, E2, R2.
    eexists. split; [reflexivity|]. unfold pop_frame. cbn [as_stack with_store]. rewrite K1. cbn. rewrite P1, P2. auto.
  Qed.

  Definition good_body (body : astate -> astate * res unit * list atree) : Prop :=
    forall st st' r t, ainv st -> body st = (st', r, t) -> ainv st' /\ wk st st'.

  Lemma with_aframe_ok id fn body st st' r t : good_body body -> ainv st -> with_aframe id fn body st = (st', r, t) ->
    ainv st' /\ wk st st' /\
    exists st2 l, body (push_frame (FrContract id fn) st) = (st2, r, l) /\ t = [TCall id fn r l]
      /\ match r with
         | Ok _ => st' = pop_frame st2
         | Err _ => as_acc st' = as_acc st /\ as_inv st' = drop_scoped (as_inv st) /\ as_stack st' = as_stack st
                    /\ as_store st' = set_map (as_store st2) (st_map (as_store st))
         end.
  Proof.
    intros GB I. unfold with_aframe. destruct (body (push_frame (FrContract id fn) st)) as [[st2 r2] l] eqn:BD.
    destruct (GB _ _ _ _ (ainv_push _ _ I) BD) as [I2 K2]. destruct r2 as [u|e].
    - intros [= <- <- <-]. destruct (pop_ok _ _ _ I I2 K2) as [J1 J2]. split; auto. split; auto. exists st2, l. split; [reflexivity|]. auto.
    - destruct (fail_ok _ _ _ I I2 K2) as (st4 & -> & P1 & P2 & P3 & P4). intros [= <- <- <-].
      destruct I as (A1 & A2 & A3 & A4 & (A & B & S1 & S2 & S3)).
      assert (D : drop_scoped (as_inv st) = A) by (rewrite S1; now apply drop_split).
      destruct K2 as (_ & _ & _ & K4).
      split; [|split].
      + split; [|split; [|split; [|split]]].
        * rewrite P4. apply rollback_ok; auto; [apply I2|apply K4|apply K4].
        * unfold acont. rewrite P4. exact A2.
        * now rewrite P1.
        * rewrite P2, D. rewrite S1 in A4. now apply Forall_app in A4.
        * rewrite P2, D. exists A, []. rewrite app_nil_r. auto.
      + split; auto. split; [rewrite P1; apply Forall2_refl, wka_refl|]. split.
        * rewrite P2, D. exists A, B, A, []. rewrite app_nil_r. repeat split; auto. apply Forall2_refl, wkv_refl.
        * rewrite P4. now apply sle_rollback.
      + exists st2, l. split; [reflexivity|]. split; [reflexivity|]. auto.
  Qed.

  (* ---- require_auth *)
  Lemma try_invokers_spec cur l a f : forall k j v' p, try_invokers cur l a f k = Ok (Some (j, v', p)) ->
    exists v, (k <= j)%nat /\ nth_error l (j - k) = Some v /\ is_addr cur (iv_by v) = false /\ iv_by v = a /\ iv_by v' = iv_by v
      /\ maybe_extend (iv_trk v) f true = Ok (Some (iv_trk v', p)).
  Proof.
    induction l as [|x l IH]; intros k j v' p; cbn; [discriminate|].
    assert (NX : try_invokers cur l a f (S k) = Ok (Some (j, v', p)) ->
      exists v, (k <= j)%nat /\ nth_error (x :: l) (j - k) = Some v /\ is_addr cur (iv_by v) = false /\ iv_by v = a /\ iv_by v' = iv_by v
      /\ maybe_extend (iv_trk v) f true = Ok (Some (iv_trk v', p))).
    { intros E. destruct (IH _ _ _ _ E) as (v & A & B & C). exists v. split; [lia|]. split; [|exact C].
      replace (j - k)%nat with (S (j - S k)) by lia. exact B. }
    destruct (is_addr cur (iv_by x)) eqn:IA; auto. destruct (addr_eq_dec (iv_by x) a) as [EA|]; auto.
    destruct (maybe_extend (iv_trk x) f true) as [[[t q]|]|] eqn:ME; auto; [|discriminate].
    intros [= <- <- <-]. exists x. rewrite Nat.sub_diag. cbn. auto 10.
  Qed.
  Lemma try_accounts_spec l a f al : forall k i x' p, try_accounts l a f al k = Ok (Some (i, x', p)) ->
    exists x t, (k <= i)%nat /\ nth_error l (i - k) = Some x /\ ac_busy x = false /\ ac_addr x = a /\ x' = set_trk x t
      /\ maybe_extend (ac_trk x) f al = Ok (Some (t, p)).
  Proof.
    induction l as [|y l IH]; intros k i x' p; cbn; [discriminate|].
    assert (NX : try_accounts l a f al (S k) = Ok (Some (i, x', p)) ->
      exists x t, (k <= i)%nat /\ nth_error (y :: l) (i - k) = Some x /\ ac_busy x = false /\ ac_addr x = a /\ x' = set_trk x t
      /\ maybe_extend (ac_trk x) f al = Ok (Some (t, p))).
    { intros E. destruct (IH _ _ _ _ E) as (v & t & A & B & C). exists v, t. split; [lia|]. split; [|exact C].
      replace (i - k)%nat with (S (i - S k)) by lia. exact B. }
    destruct (ac_busy y) eqn:BY; auto. destruct (addr_eq_dec (ac_addr y) a) as [EA|]; auto.
    destruct (maybe_extend (ac_trk y) f al) as [[[t q]|]|] eqn:ME; auto; [|discriminate].
    intros [= <- <- <-]. exists y, t. rewrite Nat.sub_diag. cbn. auto 10.
  Qed.

  (* the search misses nothing, and stops at the first match *)
  Lemma try_invokers_complete cur l a f :
    (forall j v, nth_error l j = Some v -> is_addr cur (iv_by v) = false -> iv_by v = a -> exists o, maybe_extend (iv_trk v) f true = Ok o) ->
    forall k, exists o, try_invokers cur l a f k = Ok o
    /\ forall j v t' p', nth_error l j = Some v -> is_addr cur (iv_by v) = false -> iv_by v = a ->
       maybe_extend (iv_trk v) f true = Ok (Some (t', p')) ->
       exists i v' p, o = Some (i, v', p) /\ ((i < k + j)%nat \/ (i = k + j /\ p = p')%nat).
  Proof.
    induction l as [|x l IH]; intros T k.
    - exists None. split; auto. intros [|j]; discriminate.
    - destruct (IH (fun j v N => T (S j) v N) (S k)) as (o & E & C). cbn.
      assert (NX : is_addr cur (iv_by x) = true \/ iv_by x <> a \/ maybe_extend (iv_trk x) f true = Ok None ->
        exists o0, try_invokers cur l a f (S k) = Ok o0
        /\ forall j v t' p', nth_error (x :: l) j = Some v -> is_addr cur (iv_by v) = false -> iv_by v = a ->
           maybe_extend (iv_trk v) f true = Ok (Some (t', p')) ->
           exists i v' p, o0 = Some (i, v', p) /\ ((i < k + j)%nat \/ (i = k + j /\ p = p')%nat)).
      { intros H. exists o. split; auto. intros [|j] v t' p' N IA BY ME.
        - injection N as ->. destruct H as [H|[H|H]]; congruence.
        - destruct (C j v t' p' N IA BY ME) as (i & v' & p & O & B). exists i, v', p. split; auto. destruct B as [B|[B ->]]; [left; lia|right; split; [lia|auto]]. }
      destruct (is_addr cur (iv_by x)) eqn:IA; auto. destruct (addr_eq_dec (iv_by x) a) as [BY|]; auto.
      destruct (T 0%nat x eq_refl IA BY) as ([[t p]|] & ME); rewrite ME; auto.
      eexists. split; [reflexivity|]. intros [|j] v t' p' N _ _ ME'.
      + injection N as <-. rewrite ME in ME'. injection ME' as <- <-. do 3 eexists. split; [reflexivity|]. right. split; [lia|auto].
      + do 3 eexists. split; [reflexivity|]. lia.
  Qed.
  Lemma try_accounts_complete l a f al :
    (forall j x, nth_error l j = Some x -> ac_busy x = false -> ac_addr x = a -> exists o, maybe_extend (ac_trk x) f al = Ok o) ->
    forall k, exists o, try_accounts l a f al k = Ok o
    /\ forall j x t' p', nth_error l j = Some x -> ac_busy x = false -> ac_addr x = a ->
       maybe_extend (ac_trk x) f al = Ok (Some (t', p')) ->
       exists i x' p, o = Some (i, x', p) /\ ((i < k + j)%nat \/ (i = k + j /\ p = p')%nat).
  Proof.
    induction l as [|x l IH]; intros T k.
    - exists None. split; auto. intros [|j]; discriminate.
    - destruct (IH (fun j v N => T (S j) v N) (S k)) as (o & E & C). cbn.
      assert (NX : ac_busy x = true \/ ac_addr x <> a \/ maybe_extend (ac_trk x) f al = Ok None ->
        exists o0, try_accounts l a f al (S k) = Ok o0
        /\ forall j v t' p', nth_error (x :: l) j = Some v -> ac_busy v = false -> ac_addr v = a ->
           maybe_extend (ac_trk v) f al = Ok (Some (t', p')) ->
           exists i v' p, o0 = Some (i, v', p) /\ ((i < k + j)%nat \/ (i = k + j /\ p = p')%nat)).
      { intros H. exists o. split; auto. intros [|j] v t' p' N IA BY ME.
        - injection N as ->. destruct H as [H|[H|H]]; congruence.
        - destruct (C j v t' p' N IA BY ME) as (i & v' & p & O & B). exists i, v', p. split; auto. destruct B as [B|[B ->]]; [left; lia|right; split; [lia|auto]]. }
      destruct (ac_busy x) eqn:IA; auto. destruct (addr_eq_dec (ac_addr x) a) as [BY|]; auto.
      destruct (T 0%nat x eq_refl IA BY) as ([[t p]|] & ME); rewrite ME; auto.
      eexists. split; [reflexivity|]. intros [|j] v t' p' N _ _ ME'.
      + injection N as <-. rewrite ME in ME'. injection ME' as <- <-. do 3 eexists. split; [reflexivity|]. right. split; [lia|auto].
      + do 3 eexists. split; [reflexivity|]. lia.
  Qed.
  Lemma check_invoker_none st a f fr rest : as_stack st = fr :: rest -> check_invoker st a f = Ok None ->
    (forall id fn rest', rest = FrContract id fn :: rest' -> a <> AContract id)
    /\ (rest = [] \/ try_invokers (cur_contract st) (as_inv st) a f 0 = Ok None).
  Proof.
    unfold check_invoker. intros ->. destruct rest as [|g rest]; [intros _; split; auto; discriminate|].
    match goal with |- context [if ?X then Ok (Some (st, MInvoker)) else _] => destruct X eqn:DI end; [discriminate|].
    destruct (try_invokers _ _ _ _ _) as [[[[j v] p]|]|]; try discriminate. intros _. split; auto.
    intros id fn rest' [= -> ->] ->. destruct (addr_eq_dec (AContract id) (AContract id)); [discriminate|congruence].
  Qed.

  Lemma set_inv_ok st j v v' f p : ainv st -> nth_error (as_inv st) j = Some v -> iv_by v' = iv_by v ->
    maybe_extend (iv_trk v) f true = Ok (Some (iv_trk v', p)) ->
    ainv (with_inv st (set_nth_inv (as_inv st) j v')) /\ wk st (with_inv st (set_nth_inv (as_inv st) j v')).
  Proof.
    intros I N EB ME. pose proof I as (A1 & A2 & A3 & A4 & (A & B & S1 & S2 & S3)).
    pose proof A4 as A4'. rewrite Forall_nth' in A4'. pose proof (A4' _ _ N) as TI. destruct (extend_ext _ _ _ _ _ TI ME) as [EX TI'].
    destruct (extend_spec _ _ _ _ _ ME) as (m & rest & x & MS & _).
    assert (LT : (j < length A)%nat).
    { destruct (Nat.ltb_spec j (length A)) as [|GE]; auto. rewrite S1, nth_error_app2 in N by lia.
      rewrite Forall_nth' in S3. specialize (S3 _ _ N). unfold em in S3. congruence. }
    assert (SET : set_nth_inv (as_inv st) j v' = set_nth_inv A j v' ++ B).
    { rewrite S1. clear - LT. revert j LT. induction A as [|x A IH]; intros j L; cbn in L; [lia|]. destruct j; cbn; auto.
      f_equal. apply IH. lia. }
    assert (W : Forall2 wkv A (set_nth_inv A j v')).
    { apply Forall2_nth. intros i. rewrite nth_set_inv. destruct (Nat.eq_dec i j) as [->|].
      - rewrite S1, nth_error_app1 in N by auto. rewrite N. cbn. split; auto.
      - destruct (nth_error A i); auto. apply wkv_refl. }
    assert (NA : Forall ne (set_nth_inv A j v')) by (eapply wkv_ne; eauto).
    split.
    - split; auto. split; auto. split; auto. cbn. rewrite SET. split; [|exists (set_nth_inv A j v'), B; auto].
      apply Forall_nth'. intros i y. rewrite <- SET, nth_set_inv. destruct (Nat.eq_dec i j) as [->|].
      + rewrite N. cbn. intros [= <-]. exact TI'.
      + apply A4'.
    - split; auto. split; [apply Forall2_refl, wka_refl|]. split; [|apply sle_refl]. cbn. rewrite SET.
      exists A, B, (set_nth_inv A j v'), B. repeat split; auto.
  Qed.
  (* replacing one entry *)
  Lemma set_acc_ok st i x x' : ainv st -> nth_error (as_acc st) i = Some x -> trk_inv (ac_trk x') ->
    ainv (with_acc st (set_nth_acc (as_acc st) i x')).
  Proof.
    intros (A1 & A2 & A3 & A4 & A5) N T. split; auto. split; auto. split; [|split; auto]. cbn.
    apply Forall_nth'. intros j y. rewrite nth_set_acc. rewrite Forall_nth' in A3. destruct (Nat.eq_dec j i) as [->|]; [|apply A3].
    rewrite N. intros [= <-]. exact T.
  Qed.
  Lemma set_acc_wk st st2 i x x' : ainv st -> nth_error (as_acc st2) i = Some x' -> nth_error (as_acc st) i = Some x ->
    wka x x' -> as_stack st2 = as_stack st -> wki (as_inv st) (as_inv st2) -> sle c (as_store st) (as_store st2) ->
    (forall j, j <> i -> match nth_error (as_acc st) j, nth_error (as_acc st2) j with Some a, Some b => wka a b | None, None => True | _, _ => False end) ->
    wk st st2.
  Proof.
    intros I N2 N W S V L H. split; auto. split; [|auto]. apply Forall2_nth. intros j. destruct (Nat.eq_dec j i) as [->|D].
    - now rewrite N, N2.
    - now apply H.
  Qed.
End Exec.

Section Require.
  Variable c : sconf.
  Hypothesis LI : li_ok (sc_li c).
  Notation li := (sc_li c).
  Notation ainv := (ainv c).
  Notation wk := (wk c).

  Definition nonces (st : astate) : addr -> Z -> option lentry := fun a n => acont c st (nonce_key a n).

  Lemma wp_consume a n l m : alive li m -> wp li (consume_nonce li a n l) m (fun m' r => alive li m' /\
    match r with
    | Ok _ => m (nonce_key a n) = None /\ forall k, m' k = upd m (nonce_key a n) (Some (EData SVoid, Some (Z.max l (min_live li Temporary)))) k
    | Err e => same m m' /\ ((e = ESys TAuth CExistingValue /\ m (nonce_key a n) <> None) \/ e = e_foot)
    end).
  Proof.
    intros A. unfold consume_nonce, get_min_live_until. rewrite (min_live_ok li Temporary LI).
    assert (F : alive li m /\ same m m /\ ((e_foot = ESys TAuth CExistingValue /\ m (nonce_key a n) <> None) \/ e_foot = e_foot)) by (split; auto using same_refl).
    apply wp_phas; [reflexivity|exact F| |intros X; split; [auto|]; split; [apply same_refl|auto]]. intros N. pose proof (min_live_ge li Temporary LI) as G.
    assert (LV : live li (nonce_key a n) (Some (EData SVoid, Some (Z.max l (min_live li Temporary))))) by (cbn; intros _; eexists; split; [reflexivity|lia]).
    apply wp_pput; [reflexivity|reflexivity|exact LV|exact F|]. split; [now apply alive_upd|]. split; auto.
  Qed.
  Lemma nonce_key_inj a n a' n' : nonce_key a n = nonce_key a' n' -> (a, n) = (a', n').
  Proof. intros [= -> ->]. reflexivity. Qed.
  Lemma consume_spec st a cred st' r : ainv st -> consume c st a cred = (st', r) ->
    ainv st' /\ wk st st' /\ as_acc st' = as_acc st /\ as_inv st' = as_inv st
    /\ match r with Ok _ => consumed li cred a (nonces st) (nonces st') 
       | Err e => (forall x k, nonces st' x k = nonces st x k) /\ unconsumable li cred a (nonces st) e end.
  Proof.
    intros I. pose proof (wk_refl c st I) as KR.
    assert (SAME : forall x : Prop, x -> ainv st /\ wk st st /\ as_acc st = as_acc st /\ as_inv st = as_inv st /\ x) by auto 10.
    unfold consume. destruct cred as [[n live]|]; [|intros [= <- <-]; apply SAME; cbn; auto].
    destruct (li_seq li >? live)%Z eqn:C1; [intros [= <- <-]; apply SAME; split; auto; left; split; [reflexivity|lia]|].
    rewrite (max_live_ok li LI).
    destruct (live >? max_live li)%Z eqn:C2; [intros [= <- <-]; apply SAME; split; auto; left; split; [reflexivity|lia]|].
    destruct (run_store c st (consume_nonce li a n live)) as [st1 r1] eqn:RS. intros [= <- <-].
    eapply run_store_spec in RS; [|exact LI|exact I| |].
    3:{ eapply wp_mono; [|apply (wp_consume a n live (acont c st)); apply I]. intros m r H. exact H. }
    2:{ intros x y rr S H. destruct rr; [destruct H as [H1 H2]; split; auto; intros k; rewrite <- (S k); auto|].
        destruct H as [H1 H2]. split; [intros k; rewrite (H1 k); apply S|exact H2]. }
    destruct RS as (J1 & J2 & J3 & J4 & J5). split; auto. split; auto. split; auto. split; auto.
    destruct r1 as [o|e]; cbn.
    - destruct J3 as [J3 J6]. split; [lia|]. split; [exact J3|]. split.
      + unfold nonces. rewrite J6. unfold upd. destruct (lkey_eq_dec _ _); [reflexivity|congruence].
      + intros x k N. unfold nonces. rewrite J6. unfold upd. destruct (lkey_eq_dec _ _) as [E|]; [|reflexivity].
        apply nonce_key_inj in E. congruence.
    - destruct J3 as [J3 J6]. split; [intros x k; symmetry; apply J3|]. right. split; [lia|exact J6].
  Qed.

  Lemma nth_busy st i b x : nth_error (as_acc st) i = Some x ->
    set_busy_at st i b = with_acc st (set_nth_acc (as_acc st) i (set_busy x b)).
  Proof. intros N. unfold set_busy_at. now rewrite N. Qed.
  Lemma ainv_busy st i b : ainv st -> ainv (set_busy_at st i b).
  Proof.
    intros I. unfold set_busy_at. destruct (nth_error (as_acc st) i) as [x|] eqn:N; auto.
    eapply set_acc_ok; eauto. cbn. destruct I as (_ & _ & I & _). rewrite Forall_nth' in I. eauto.
  Qed.
  Lemma busy_wk st i x st1 : ainv st -> nth_error (as_acc st) i = Some x -> ac_busy x = false ->
    ainv st1 -> wk (set_busy_at st i true) st1 ->
    nth_error (as_acc st1) i = Some (set_busy x true)
    /\ ainv (set_busy_at st1 i false) /\ wk st (set_busy_at st1 i false) /\ nth_error (as_acc (set_busy_at st1 i false)) i = Some x.
  Proof.
    intros I N B I1 (K1 & K2 & K3 & K4). rewrite (nth_busy _ _ _ _ N) in K1, K2, K3, K4.
    rewrite Forall2_nth in K2. cbn [as_acc with_acc] in K2.
    assert (N1 : nth_error (as_acc st1) i = Some (set_busy x true)).
    { pose proof (K2 i) as X. rewrite nth_set_acc, N in X. destruct (Nat.eq_dec i i); [|congruence]. cbn in X.
      destruct (nth_error (as_acc st1) i) as [y|]; [|contradiction]. destruct X as (_ & _ & _ & X & _). now rewrite X. }
    assert (N2 : nth_error (as_acc (set_busy_at st1 i false)) i = Some x).
    { rewrite (nth_busy _ _ _ _ N1). cbn. rewrite nth_set_acc, N1. destruct (Nat.eq_dec i i); [|congruence]. cbn.
      f_equal. destruct x; cbn in *. unfold set_busy. cbn. congruence. }
    split; auto. split; [now apply ainv_busy|]. split; auto.
    eapply set_acc_wk; eauto; try (rewrite (nth_busy _ _ _ _ N1); cbn; auto; fail); [apply wka_refl|].
    intros j D. pose proof (K2 j) as X. rewrite nth_set_acc in X. destruct (Nat.eq_dec j i); [congruence|].
    rewrite (nth_busy _ _ _ _ N1). cbn. rewrite nth_set_acc. destruct (Nat.eq_dec j i); [congruence|]. exact X.
  Qed.
  Lemma set_acc_wk1 st i x x' : ainv st -> nth_error (as_acc st) i = Some x -> wka x x' -> wk st (with_acc st (set_nth_acc (as_acc st) i x')).
  Proof.
    intros I N W. destruct (wk_refl c st I) as (_ & _ & K3 & K4). eapply set_acc_wk; eauto.
    - cbn. rewrite nth_set_acc, N. destruct (Nat.eq_dec i i); [reflexivity|congruence].
    - intros j D. cbn. rewrite nth_set_acc. destruct (Nat.eq_dec j i); [congruence|]. destruct (nth_error (as_acc st) j); auto. apply wka_refl.
  Qed.

  (* authentication: the body runs with the entry borrowed; then the nonce is
     consumed and the entry is verified *)
  Lemma authenticate_spec st i x sig check st' o t : good_body c check -> ainv st -> nth_error (as_acc st) i = Some x -> ac_busy x = false ->
    authenticate c st i x sig check = (st', o, t) ->
    exists st1 r1,
      ((ac_cred x = None /\ st1 = st /\ r1 = Ok tt /\ t = [])
       \/ (ac_cred x <> None /\
           exists st0, st1 = set_busy_at st0 i false /\ ainv st0 /\ wk (set_busy_at st i true) st0 /\
           ((st0 = set_busy_at st i true /\ t = [] /\ ((exists key, ac_addr x = AAccount key /\ r1 = sig)
              \/ (match ac_addr x with AAccount _ | AContract _ => False | _ => True end /\ r1 = Err (ESys TObject CInternalError))))
            \/ exists id, ac_addr x = AContract id /\ with_aframe id s_check_auth check (set_busy_at st i true) = (st0, r1, t))))
      /\ ainv st1 /\ wk st st1 /\ nth_error (as_acc st1) i = Some x
      /\ match r1 with
         | Err e => st' = st1 /\ o = AuthFailed e
         | Ok _ => exists st2 r2, consume c st1 (ac_addr x) (ac_cred x) = (st2, r2)
             /\ match r2 with
                | Err e => st' = st2 /\ o = NonceFailed e
                | Ok _ => st' = with_acc st2 (set_nth_acc (as_acc st2) i (set_verified x true)) /\ o = AuthOk
                end
         end.
  Proof.
    intros GB I N B. unfold authenticate.
    match goal with |- (match ?X with _ => _ end) = _ -> _ => destruct X as [[st1 r1] t1] eqn:AU end.
    assert (S1 : ((ac_cred x = None /\ st1 = st /\ r1 = Ok tt /\ t1 = [])
       \/ (ac_cred x <> None /\
           exists st0, st1 = set_busy_at st0 i false /\ ainv st0 /\ wk (set_busy_at st i true) st0 /\
           ((st0 = set_busy_at st i true /\ t1 = [] /\ ((exists key, ac_addr x = AAccount key /\ r1 = sig)
              \/ (match ac_addr x with AAccount _ | AContract _ => False | _ => True end /\ r1 = Err (ESys TObject CInternalError))))
            \/ exists id, ac_addr x = AContract id /\ with_aframe id s_check_auth check (set_busy_at st i true) = (st0, r1, t1))))
      /\ ainv st1 /\ wk st st1 /\ nth_error (as_acc st1) i = Some x).
    { destruct (ac_cred x) as [cr|]; [|injection AU as <- <- <-; split; [left; auto|]; split; auto; split; auto; now apply wk_refl].
      pose proof (ainv_busy st i true I) as IB.
      match type of AU with (match ?X with _ => _ end) = _ => destruct X as [[st0 r0] t0] eqn:BD end. injection AU as <- <- <-.
      assert (W : ainv st0 /\ wk (set_busy_at st i true) st0 /\
           ((st0 = set_busy_at st i true /\ t0 = [] /\ ((exists key, ac_addr x = AAccount key /\ r0 = sig)
              \/ (match ac_addr x with AAccount _ | AContract _ => False | _ => True end /\ r0 = Err (ESys TObject CInternalError))))
            \/ exists id, ac_addr x = AContract id /\ with_aframe id s_check_auth check (set_busy_at st i true) = (st0, r0, t0))).
      { destruct (ac_addr x) as [k|id|mid k|d pl]; try (injection BD as <- <- <-; split; auto; split; [now apply wk_refl|left; split; auto; split; auto; eauto]).
        destruct (with_aframe_ok c _ _ _ _ _ _ _ GB IB BD) as (W1 & W2 & _). split; auto. split; auto. right. eauto. }
      destruct W as (W1 & W2 & W3). destruct (busy_wk _ _ _ _ I N B W1 W2) as (_ & X1 & X2 & X3).
      split; [right; split; [discriminate|]; exists st0; auto|auto]. }
    destruct S1 as (S1 & S2 & S3 & S4). intros E. exists st1, r1.
    assert (TT : t = t1).
    { destruct r1; [|now injection E]. destruct (consume c st1 (ac_addr x) (ac_cred x)) as [st2 [u2|e2]]; [|now injection E].
      destruct (nth_error (as_acc st2) i); now injection E. }
    subst t1. split; auto. split; auto. split; auto. split; auto. destruct r1 as [u|e].
    - destruct (consume c st1 (ac_addr x) (ac_cred x)) as [st2 r2] eqn:CN. exists st2, r2. split; auto.
      destruct (consume_spec _ _ _ _ _ S2 CN) as (_ & _ & C3 & _). destruct r2 as [u2|e]; [|injection E as <- <-; auto].
      rewrite C3, S4 in E. injection E as <- <-. rewrite C3. auto.
    - injection E as <- <-. eauto.
  Qed.
  Lemma authenticate_wk st i x sig check st' o t : good_body c check -> ainv st -> nth_error (as_acc st) i = Some x -> ac_busy x = false ->
    authenticate c st i x sig check = (st', o, t) -> ainv st' /\ wk st st'.
  Proof.
    intros GB I N B E. destruct (authenticate_spec _ _ _ _ _ _ _ _ GB I N B E) as (st1 & r1 & _ & I1 & K1 & N1 & F).
    destruct r1 as [u|e]; [|destruct F as [-> _]; auto]. destruct F as (st2 & r2 & CN & F).
    destruct (consume_spec _ _ _ _ _ I1 CN) as (I2 & K2 & C3 & _). pose proof (wk_trans c _ _ _ K1 K2) as K.
    destruct r2 as [u2|e]; destruct F as [-> _]; auto. assert (N2 : nth_error (as_acc st2) i = Some x) by congruence.
    assert (WV : wka x (set_verified x true)) by (repeat split; auto; try apply same_frames_refl; rewrite B; discriminate).
    split.
    - eapply set_acc_ok; eauto. cbn. destruct I2 as (_ & _ & I2 & _). rewrite Forall_nth' in I2. eauto.
    - eapply wk_trans; [exact K|]. eapply set_acc_wk1; eauto.
  Qed.

  (* the three outcomes of a require_auth *)
  Lemma require_spec st a args sig check st' r t : require c st a args sig check = (st', r, t) ->
    (as_stack st = [] /\ exists e, r = Err e /\ st' = st /\ t = [])
    \/ exists fr rest, as_stack st = fr :: rest /\
       let f := to_fn fr args in
       (exists e, r = Err e /\ st' = st /\ t = [TNo a f]
          /\ (check_invoker st a f = Err e
              \/ (check_invoker st a f = Ok None
                  /\ (try_accounts (as_acc st) a f (negb (has_active (as_acc st) a)) 0 = Err e
                      \/ (try_accounts (as_acc st) a f (negb (has_active (as_acc st) a)) 0 = Ok None /\ e = e_auth_action)))))
       \/ (r = Ok tt /\ st' = st /\ t = [TReq a f MInvoker] /\ exists id fn rest', rest = FrContract id fn :: rest' /\ a = AContract id)
       \/ (exists j v v' p, r = Ok tt /\ t = [TReq a f (MPre j p)] /\ nth_error (as_inv st) j = Some v /\ iv_by v = a /\ iv_by v' = iv_by v
             /\ is_addr (cur_contract st) a = false /\ maybe_extend (iv_trk v) f true = Ok (Some (iv_trk v', p))
             /\ st' = with_inv st (set_nth_inv (as_inv st) j v')
             /\ try_invokers (cur_contract st) (as_inv st) a f 0 = Ok (Some (j, v', p))
             /\ (forall id fn rest', rest = FrContract id fn :: rest' -> a <> AContract id))
       \/ (exists i x tk p, nth_error (as_acc st) i = Some x /\ ac_busy x = false /\ ac_addr x = a
             /\ maybe_extend (ac_trk x) f (negb (has_active (as_acc st) a)) = Ok (Some (tk, p))
             /\ check_invoker st a f = Ok None
             /\ try_accounts (as_acc st) a f (negb (has_active (as_acc st) a)) 0 = Ok (Some (i, set_trk x tk, p))
             /\ let st1 := with_acc st (set_nth_acc (as_acc st) i (set_trk x tk)) in
                (ac_verified x = true /\ r = Ok tt /\ st' = st1 /\ t = [TReq a f (MEntry i p)])
                \/ (ac_verified x = false /\ exists o l, authenticate c st1 i (set_trk x tk) (sig i) (check i) = (st', o, l)
                      /\ r = auth_result o /\ t = [TFirst a f i p o l])).
  Proof.
    unfold require. destruct (as_stack st) as [|fr rest] eqn:SK; [intros [= <- <- <-]; left; eauto|].
    set (f := to_fn fr args). intros E. right. exists fr, rest. split; auto. cbv zeta. cbv zeta in E.
    destruct (check_invoker st a f) as [[[st1 m]|]|e] eqn:CI.
    - injection E as <- <- <-. unfold check_invoker in CI. rewrite SK in CI. destruct rest as [|g rest']; [discriminate|].
      match type of CI with context [if ?X then Ok (Some (st, MInvoker)) else _] => destruct X eqn:DI end.
      + injection CI as <- <-. right; left. split; auto. split; auto. split; auto.
        destruct g as [id fn|]; [|discriminate]. destruct (addr_eq_dec (AContract id) a) as [EQ|]; [|discriminate]. eauto.
      + destruct (try_invokers (cur_contract st) (as_inv st) a f 0) as [[[[j v'] p]|]|e] eqn:TI; try discriminate.
        injection CI as <- <-. right; right; left.
        destruct (try_invokers_spec _ _ _ _ _ _ _ _ TI) as (v & _ & N & IA & BY & BY' & ME). rewrite Nat.sub_0_r in N.
        exists j, v, v', p. rewrite BY in IA. repeat (split; [solve [auto]|]).
        intros id fn r' [= -> ->] ->. destruct (addr_eq_dec (AContract id) (AContract id)); [discriminate|congruence].
    - destruct (try_accounts (as_acc st) a f _ 0) as [[[[i x'] p]|]|e] eqn:TA.
      + right; right; right. pose proof TA as TA'. apply try_accounts_spec in TA'. destruct TA' as (x & tk & _ & N & B & AD & -> & ME). rewrite Nat.sub_0_r in N.
        exists i, x, tk, p. repeat (split; [solve [auto]|]). cbv zeta. cbn [ac_verified set_trk] in E.
        destruct (ac_verified x); [left; injection E as <- <- <-; auto|right]. split; auto.
        destruct (authenticate c _ i _ _ _) as [[st2 o] l2] eqn:AU. injection E as <- <- <-. eauto.
      + injection E as <- <- <-. left. eexists. split; [reflexivity|]. auto 10.
      + injection E as <- <- <-. left. eexists. split; [reflexivity|]. auto 10.
    - injection E as <- <- <-. left. eexists. split; [reflexivity|]. auto 10.
  Qed.
  Lemma require_wk st a args sig check st' r t : (forall i, good_body c (check i)) -> ainv st ->
    require c st a args sig check = (st', r, t) -> ainv st' /\ wk st st'.
  Proof.
    intros GB I E. destruct (require_spec _ _ _ _ _ _ _ _ E) as [(_ & e & -> & -> & _)|(fr & rest & SK & H)]; [split; auto; now apply wk_refl|].
    cbv zeta in H. destruct H as [(e & _ & -> & _)|[(_ & -> & _)|[(j & v & v' & p & _ & _ & N & _ & BY & _ & ME & -> & _)|(i & x & tk & p & N & B & _ & ME & _ & _ & H)]]].
    - split; auto. now apply wk_refl.
    - split; auto. now apply wk_refl.
    - eapply set_inv_ok; eauto.
    - assert (TX : trk_inv (ac_trk x)) by (destruct I as (_ & _ & X & _); rewrite Forall_nth' in X; eauto).
      destruct (extend_ext _ _ _ _ _ TX ME) as [EX TI].
      assert (WX : wka x (set_trk x tk)).
      { split; [reflexivity|]. split; [reflexivity|]. split; [reflexivity|]. split; [congruence|]. auto. }
      assert (I1 : ainv (with_acc st (set_nth_acc (as_acc st) i (set_trk x tk)))) by (eapply set_acc_ok; eauto).
      pose proof (set_acc_wk1 _ _ _ _ I N WX) as K1. destruct H as [(_ & _ & -> & _)|(_ & o & l & AU & _)]; auto.
      assert (N1 : nth_error (as_acc (with_acc st (set_nth_acc (as_acc st) i (set_trk x tk)))) i = Some (set_trk x tk)).
      { cbn. rewrite nth_set_acc, N. destruct (Nat.eq_dec i i); [reflexivity|congruence]. }
      destruct (authenticate_wk _ _ _ _ _ _ _ _ (GB i) I1 N1 B AU) as [I2 K2]. split; auto. eapply wk_trans; eauto.
  Qed.

  Lemma exec_wk p : good_body c (fun st => exec c st p).
  Proof.
    induction p as [r0|id fn tr body IHb k IHk|pre ex args body IHb k IHk|a args sig check IHc k IHk|ts k IHk|o k IHk]; intros st st' r t I; cbn.
    - intros [= <- <- <-]. split; auto. now apply wk_refl.
    - destruct (with_aframe id fn (fun s => exec c s body) st) as [[st1 r1] t1] eqn:WF.
      destruct (with_aframe_ok c _ _ _ _ _ _ _ IHb I WF) as (I1 & K1 & _).
      assert (NX : forall x, (let '(st2, r2, t2) := exec c st1 (k x) in (st2, r2, t1 ++ t2)) = (st', r, t) -> ainv st' /\ wk st st').
      { intros x. destruct (exec c st1 (k x)) as [[st2 r2] t2] eqn:EX. intros [= <- <- <-].
        destruct (IHk x _ _ _ _ I1 EX). split; auto. eapply wk_trans; eauto. }
      destruct r1 as [u|e]; [apply NX|]. destruct (tr && recoverable e); [apply NX|]. intros [= <- <- <-]. auto.
    - destruct (exec c (push_frame (FrCreate pre ex args) st) body) as [[st1 r1] t1] eqn:BD.
      destruct (IHb _ _ _ _ (ainv_push c _ _ I) BD) as [I1 K1]. destruct (pop_ok c _ _ _ I I1 K1) as [I2 K2].
      destruct r1 as [u|e]; [|intros [= <- <- <-]; auto].
      destruct (exec c (pop_frame st1) k) as [[st3 r3] t3] eqn:EX. intros [= <- <- <-].
      destruct (IHk _ _ _ _ I2 EX). split; auto. eapply wk_trans; eauto.
    - destruct (require c st a args sig (fun i s => exec c s (check i))) as [[st1 r1] t1] eqn:RQ.
      destruct (require_wk _ _ _ _ _ _ _ _ IHc I RQ) as [I1 K1]. destruct r1 as [u|e]; [|intros [= <- <- <-]; auto].
      destruct (exec c st1 k) as [[st2 r2] t2] eqn:EX. intros [= <- <- <-].
      destruct (IHk _ _ _ _ I1 EX). split; auto. eapply wk_trans; eauto.
    - destruct (cur_contract st) as [a|]; [|intros [= <- <- <-]; split; auto; now apply wk_refl].
      set (nw := map _ ts).
      destruct (exec c (with_inv st (as_inv st ++ nw)) k) as [[st2 r2] t2] eqn:EX. intros [= <- <- <-].
      assert (EN : Forall em nw) by (apply Forall_map; apply Forall_forall; intros; reflexivity).
      assert (I1 : ainv (with_inv st (as_inv st ++ nw))).
      { destruct I as (A1 & A2 & A3 & A4 & (A & B & S1 & S2 & S3)). split; auto. split; auto. split; auto. cbn. split.
        - apply Forall_app. split; auto. apply Forall_map, Forall_forall. intros x _. apply inv_new.
        - exists A, (B ++ nw). rewrite S1, <- app_assoc. split; auto. split; auto. apply Forall_app; auto. }
      destruct (IHk _ _ _ _ I1 EX). split; auto. eapply wk_trans; [|eauto].
      destruct I as (A1 & A2 & A3 & A4 & (A & B & S1 & S2 & S3)). split; auto. split; [apply Forall2_refl, wka_refl|]. split; [|apply sle_refl].
      cbn. exists A, B, A, (B ++ nw). rewrite S1, <- app_assoc. repeat split; auto; [apply Forall_app; auto|apply Forall2_refl, wkv_refl].
    - destruct (aop_prog c st o) as [q|] eqn:OP; [|intros [= <- <- <-]; split; auto; now apply wk_refl].
      destruct (run_store c st q) as [st1 r1] eqn:RS.
      eapply run_store_spec in RS; [|exact LI|exact I| |apply (aop_spec c LI st o q I OP)].
      2:{ intros x y rr S H kk Nk. rewrite <- (S kk). now apply H. }
      destruct RS as (I1 & K1 & _). destruct r1 as [v|e]; [|intros [= <- <- <-]; auto].
      destruct (exec c st1 (k (Ok v))) as [[st2 r2] t2] eqn:EX. intros [= <- <- <-].
      destruct (IHk _ _ _ _ _ I1 EX). split; auto. eapply wk_trans; eauto.
  Qed.
End Require.
