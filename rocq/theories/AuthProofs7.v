(* The statements of P_Auth. *)
From Coq Require Import ZArith Lia List Bool Permutation.
From Verif Require Import Prelude ValModel ContainerModel HeapModel AMap StorageModel StorageSpec
  StorageProofs StorageProofs2 StorageLogic StorageProofs3 FrameModel FrameSpec FrameProofs FrameStore FrameProofs2
  AuthModel AuthSpec AuthProofs AuthProofs2 AuthProofs3 AuthProofs4 AuthProofs5 AuthProofs6.
Import ListNotations.
Open Scope Z_scope.

Lemma reach_ainv c entries st : li_ok (sc_li c) -> reachable c entries st -> ainv c st.
Proof.
  intros LI. induction 1 as [sto RO AL|st f _ IH|st p st' r t _ IH E|st i _ IH].
  - now apply start_ainv.
  - now apply ainv_push.
  - apply (exec_wk c LI p _ _ _ _ IH E).
  - now apply ainv_busy.
Qed.
Lemma drop_filter l : scoped l -> drop_scoped l = filter (fun v => negb (pending v)) l.
Proof.
  intros (A & B & -> & HA & HB). rewrite drop_split by auto. rewrite filter_app.
  replace (filter _ A) with A; [replace (filter _ B) with (@nil invk); [now rewrite app_nil_r|]|].
  - induction HB as [|v B E _ IH]; cbn; auto. unfold pending. rewrite E. cbn. exact IH.
  - induction HA as [|v A E _ IH]; cbn; auto. unfold pending, ne in *. destruct (tk_ms (iv_trk v)); [congruence|]. cbn. now f_equal.
Qed.

Section Fail.
  Variable c : sconf.
  Hypothesis LI : li_ok (sc_li c).

  Lemma failed_frame st id fn body st2 e l : ainv c st ->
    exec c (push_frame (FrContract id fn) st) body = (st2, Err e, l) ->
    exists st', with_aframe id fn (fun s => exec c s body) st = (st', Err e, [TCall id fn (Err e) l])
      /\ as_acc st' = as_acc st /\ as_inv st' = as_inv (without_pending st) /\ as_stack st' = as_stack st
      /\ (forall k, contents c (as_store st') k = contents c (as_store st) k)
      /\ (sc_mode c = Enforcing -> st' = without_pending st).
  Proof.
    intros I BD. destruct (with_aframe id fn (fun s => exec c s body) st) as [[st' r] t] eqn:WA.
    destruct (with_aframe_ok c _ _ _ _ _ _ _ (exec_wk c LI body) I WA) as (_ & _ & st3 & l' & BD' & -> & CS).
    rewrite BD in BD'. injection BD' as <- <- <-. destruct CS as (A1 & A2 & A3 & A4).
    assert (A2' : as_inv st' = as_inv (without_pending st)).
    { rewrite A2. cbn. apply drop_filter. apply I. }
    exists st'. split; auto. split; auto. split; auto. split; auto. split; [intros k; rewrite A4; reflexivity|]. intros M.
    destruct (exec_wk c LI body _ _ _ _ (ainv_push c _ _ I) BD) as [_ (_ & _ & _ & (_ & F & _))]. specialize (F M). cbn in F.
    assert (ST : set_map (as_store st2) (st_map (as_store st)) = as_store st) by (unfold set_map; rewrite F; now destruct (as_store st)).
    destruct st' as [ss sk ac iv]. cbn in A1, A2', A3, A4. rewrite A1, A2', A3, A4, ST. reflexivity.
  Qed.
  Lemma failed_try st id fn body k st2 e l : ainv c st -> sc_mode c = Enforcing ->
    exec c (push_frame (FrContract id fn) st) body = (st2, Err e, l) -> recoverable e = true ->
    exec c st (ACall id fn true body k) =
      let '(st3, r, t) := exec c (without_pending st) (k (Err e)) in (st3, r, TCall id fn (Err e) l :: t).
  Proof.
    intros I M BD RE. destruct (failed_frame _ _ _ _ _ _ _ I BD) as (st' & WA & _ & _ & _ & _ & EQ).
    cbn [exec]. rewrite WA, RE. cbn [andb]. rewrite (EQ M). destruct (exec c (without_pending st) (k (Err e))) as [[st3 r] t]. reflexivity.
  Qed.
End Fail.

Section Tx.
  Variable entries : list entry_.
  Variable c : sconf.
  Hypothesis LI : li_ok (sc_li c).
  Variable sto : storage.
  Hypothesis RO : run_ok c sto.
  Hypothesis AL : alive (sc_li c) (contents c sto).

  Lemma entry_items p st' r t : transaction c (new_enforcing sto entries) p = (st', r, t) ->
    forall x, In x (flat_map everything t) ->
    match x with
    | TReq a f (MEntry i q) | TFirst a f i q _ _ =>
        exists e sub, nth_error entries i = Some e /\ en_addr e = a /\ tree_at (en_tree e) q = Some (FT f sub)
    | _ => True
    end.
  Proof.
    intros E x X. destruct (tx_explained _ _ LI _ RO AL _ _ _ _ E) as (s' & EX & _).
    destruct (exp_inside _ _ _ _ _ EX x X) as (s0 & l & s1 & EI).
    assert (G : forall a f i q, entry_may entries s0 a f i q -> exists e sub, nth_error entries i = Some e /\ en_addr e = a /\ tree_at (en_tree e) q = Some (FT f sub)).
    { intros a f i q (e & N & EA & _ & [(sub & M) _] & _). eauto. }
    inversion EI; subst; auto.
  Qed.

  Lemma success_checked p st' t : transaction c (new_enforcing sto entries) p = (st', Ok tt, t) ->
    NoDup (flat_map authenticated t) /\ forall i q, In (i, q) (flat_map uses t) -> In i (flat_map authenticated t).
  Proof.
    intros E. destruct (tx_explained _ _ LI _ RO AL _ _ _ _ E) as (s' & EX & _).
    destruct (tx_spec _ _ LI _ RO AL _ _ _ _ E) as (RC & _).
    pose proof (exp_ver _ _ _ _ _ EX) as PV. cbn in PV. rewrite app_nil_r in PV. split.
    - eapply Permutation_NoDup; [exact PV|]. eapply exp_ver_nodup; eauto. constructor.
    - intros i q U. pose proof (exp_used _ _ _ _ _ EX) as PU. cbn in PU. rewrite app_nil_r in PU.
      apply (Permutation_in _ (Permutation_sym PU)) in U. apply in_euses in U.
      pose proof (record_ok _ _ _ _ _ RC tt eq_refl) as K.
      destruct (exp_checked _ _ _ _ _ EX K) with (i := i) (p := q) as [V|V]; auto.
      + intros j q' [].
      + eapply Permutation_in; eauto.
      + rewrite (exp_busy' _ _ _ _ _ EX) in V. destruct V.
  Qed.
  Lemma authenticating_unused p st' r t a f i q ok l : transaction c (new_enforcing sto entries) p = (st', r, t) ->
    In (TFirst a f i q ok l) (flat_map everything t) -> forall x, In x (flat_map everything l) -> ~ touches i x.
  Proof.
    intros E X. destruct (tx_explained _ _ LI _ RO AL _ _ _ _ E) as (s' & EX & _).
    destruct (exp_inside _ _ _ _ _ EX _ X) as (s0 & l0 & s1 & EI).
    inversion EI; subst; match goal with H : explained _ _ (s_set_busy _ _) l _ |- _ => apply (busy_untouched _ _ _ _ _ i H); now left end.
  Qed.
End Tx.
