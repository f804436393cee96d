(* Nonces, authentication and failed transactions. *)
From Coq Require Import ZArith Lia List Bool Permutation.
From Verif Require Import Prelude ValModel ContainerModel HeapModel AMap StorageModel StorageSpec
  StorageProofs StorageProofs2 StorageLogic StorageProofs3 FrameModel FrameSpec FrameProofs FrameStore FrameProofs2
  AuthModel AuthSpec AuthProofs AuthProofs2 AuthProofs3 AuthProofs4 AuthProofs5.
Import ListNotations.
Open Scope Z_scope.

Section After.
  Variable li : linfo.
  Variable entries : list entry_.
  Notation explained := (explained li entries).

  Lemma record_ok fr p r t : record entries fr p r t -> forall u, r = Ok u -> forallb kept_ok t = true.
  Proof.
    induction 1; intros u E; cbn; try discriminate; auto; try (rewrite ?andb_true_r; eauto; fail).
    - rewrite (IHrecord1 tt eq_refl). eauto.
    - rewrite (IHrecord1 tt eq_refl). eauto.
    - rewrite (IHrecord1 tt eq_refl). cbn. eauto.
  Qed.

  Definition used_checked (s : sstate) : Prop := forall i p, In (TE i, p) (s_used s) -> In i (s_ver s) \/ In i (s_busy s).
  Lemma exp_checked s t s' : explained s t s' -> forallb kept_ok t = true -> used_checked s -> used_checked s'.
  Proof.
    induction 1; cbn [forallb kept_ok andb]; intros K U; auto.
    - apply IHexplained; auto. intros i p0 [X|X]; [discriminate|now apply (U i p0)].
    - apply IHexplained; auto. intros i0 p0 [X|X]; [injection X as <- <-; auto|now apply (U i0 p0)].
    - apply andb_prop in K as [K1 K2]. apply IHexplained2; auto.
      assert (U1 : used_checked s1).
      { apply IHexplained1; auto. intros i0 p0 [X|X]; cbn; [injection X as <- <-; auto|]. destruct (U i0 p0 X); auto. }
      intros i0 p0 X. rewrite H5 in X. rewrite H6, H7. destruct (U1 i0 p0 X) as [Y|Y]; [left; now right|].
      rewrite (exp_busy' _ _ _ _ _ H3) in Y. cbn in Y. destruct Y as [->|Y]; [left; now left|now right].
    - discriminate.
    - discriminate.
    - apply andb_prop in K as [K1 K2]. exact (IHexplained2 K2 (IHexplained1 K1 U)).
    - apply andb_prop in K as [K1 K2]. exact (IHexplained2 K2 (IHexplained1 K1 U)).
  Qed.
  Lemma busy_ver s t s' i : explained s t s' -> In i (s_busy s) -> In i (s_ver s') -> In i (s_ver s).
  Proof.
    induction 1; cbn [s_use s_set_busy s_busy s_ver s_push s_pop s_fail s_authorize In] in *; intros B V; auto.
    - rewrite H7 in IHexplained2. specialize (IHexplained2 B V). rewrite H6 in IHexplained2. destruct IHexplained2 as [<-|Y]; [|auto].
      destruct H0 as (e' & _ & _ & NB & _). contradiction.
    - pose proof (exp_busy' _ _ _ _ _ H) as EB. cbn in EB. rewrite EB in IHexplained2. auto.
    - pose proof (exp_busy' _ _ _ _ _ H) as EB. cbn in EB. rewrite EB in IHexplained2. auto.
  Qed.
  Lemma exp_ver_nodup s t s' : explained s t s' -> NoDup (s_ver s) -> NoDup (s_ver s').
  Proof.
    induction 1; cbn in *; auto; intros N. apply IHexplained2. rewrite H6. constructor; auto.
    intros X. apply (busy_ver _ _ _ i H3) in X; [contradiction|]. now left.
  Qed.

  (* ---- nonces *)
  Definition burns (n : addr -> Z -> option lentry) (b : list (addr * Z * Z)) (n' : addr -> Z -> option lentry) : Prop :=
    (forall a k x, In (a, k, x) b -> li_seq li <= x <= max_live li /\ n a k = None
        /\ n' a k = Some (EData SVoid, Some (Z.max x (min_live li Temporary))))
    /\ (forall a k, (forall x, ~ In (a, k, x) b) -> n' a k = n a k)
    /\ NoDup (map fst b).
  Lemma burns_nil n n' : (forall a k, n' a k = n a k) -> burns n [] n'.
  Proof. intros E. split; [intros a k x []|]. split; [auto|constructor]. Qed.
  Lemma in_key (b : list (addr * Z * Z)) a k : {x | In (a, k, x) b} + {forall x, ~ In (a, k, x) b}.
  Proof.
    induction b as [|[[a' k'] x'] b IH]; [right; auto|]. destruct (addr_eq_dec a' a) as [->|NA].
    - destruct (Z.eq_dec k' k) as [->|NK]; [left; exists x'; now left|].
      destruct IH as [[x X]|X]; [left; exists x; now right|right]. intros x [Y|Y]; [congruence|now apply (X x)].
    - destruct IH as [[x X]|X]; [left; exists x; now right|right]. intros x [Y|Y]; [congruence|now apply (X x)].
  Qed.
  Lemma burns_app n b1 n1 b2 n2 : burns n b1 n1 -> burns n1 b2 n2 -> burns n (b1 ++ b2) n2.
  Proof.
    intros (A1 & A2 & A3) (B1 & B2 & B3).
    assert (X1 : forall a k x, In (a, k, x) b1 -> forall y, ~ In (a, k, y) b2).
    { intros a k x I1 y I2. destruct (A1 _ _ _ I1) as (_ & _ & E1). destruct (B1 _ _ _ I2) as (_ & E2 & _). congruence. }
    split; [|split].
    - intros a k x I. apply in_app_or in I as [I|I].
      + destruct (A1 _ _ _ I) as (E1 & E2 & E3). split; auto. split; auto. rewrite B2; auto. eapply X1; eauto.
      + destruct (B1 _ _ _ I) as (E1 & E2 & E3). split; auto. split; auto. rewrite <- E2. symmetry. apply A2. intros y Y. eapply X1; eauto.
    - intros a k N. rewrite B2, A2; auto; intros x X; apply (N x); apply in_or_app; auto.
    - rewrite map_app. clear A1 A2 B1 B2. induction b1 as [|[[a k] x] b1 IH]; cbn; auto. inversion A3; subst. constructor.
      + intros I. apply in_app_or in I as [I|I]; auto. apply in_map_iff in I as ([[a' k'] y] & E & I). cbn in E. injection E as -> ->.
        apply (X1 a k x (or_introl eq_refl) y I).
      + apply IH; auto. intros a' k' x' I. apply (X1 a' k' x'). now right.
  Qed.
  Lemma burned_cons x l : burned entries (x :: l) = flat_map (nonce_of entries) (authenticated x) ++ burned entries l.
  Proof. unfold burned. cbn. now rewrite flat_map_app. Qed.
  Lemma exp_burns s t s' : explained s t s' -> burns (s_nonce s) (burned entries t) (s_nonce s').
  Proof.
    induction 1; try (rewrite burned_cons); cbn [authenticated flat_map app]; auto.
    - now apply burns_nil.
    - rewrite flat_map_app, <- app_assoc. fold (burned entries l1). eapply burns_app; [exact IHexplained1|].
      eapply burns_app; [|exact IHexplained2]. cbn. rewrite app_nil_r. unfold nonce_of. rewrite H2.
      destruct H0 as (e' & NE & EA & _). rewrite H2 in NE. injection NE as <-. unfold consumed in H10.
      destruct (en_cred e) as [[n x]|]; [|now apply burns_nil]. destruct H10 as (Q1 & Q2 & Q3 & Q4). rewrite EA. split; [|split].
      + intros a' k x' [X|[]]. injection X as <- <- <-. auto.
      + intros a' k N. apply Q4. intros X. injection X as -> ->. apply (N x). now left.
      + constructor; [auto|constructor].
    - unfold burned in *. cbn. rewrite ?app_nil_r. exact IHexplained.
    - unfold burned in *. cbn. rewrite ?app_nil_r. exact IHexplained.
    - now apply burns_nil.
    - fold (burned entries l1). eapply burns_app; [exact IHexplained1|exact IHexplained2].
    - fold (burned entries l1). eapply burns_app; [exact IHexplained1|exact IHexplained2].
  Qed.
End After.

(* ---------------------------------------------------------------- transactions *)

Section Tx.
  Variable entries : list entry_.
  Variable c : sconf.
  Hypothesis LI : li_ok (sc_li c).
  Variable sto : storage.
  Hypothesis RO : run_ok c sto.
  Hypothesis AL : alive (sc_li c) (contents c sto).
  Notation st0 := (new_enforcing sto entries).

  Lemma start_ainv : ainv c st0.
  Proof.
    split; auto. split; auto. cbn. split; [|split; auto; exists [], []; auto]. apply Forall_map. apply Forall_forall. intros e _. apply inv_new.
  Qed.
  Lemma start_named : named entries (as_acc st0).
  Proof. unfold named. cbn. induction entries as [|e l IH]; cbn; constructor; auto. Qed.

  Lemma start_rel : rel entries c st0.
  Proof. eexists. apply start_related. Qed.

  Lemma rollback_whole t t' : trk_inv t -> tk_ms t = [] -> ext t t' -> trk_rollback t' (snapshot_node (tk_root t)) = Some t.
  Proof.
    intros [W I] MS (E1 & E2 & E3). unfold trk_rollback. rewrite rollback_snapshot by exact E1. f_equal.
    destruct t as [rt ms rx dn], t' as [rt' ms' rx' dn']. cbn in *. subst ms.
    destruct E2 as [[_ ->]|(m & m' & r & X & _)]; [|discriminate].
    destruct (n_used rt) eqn:U.
    - destruct (E3 eq_refl) as (_ & -> & ->). reflexivity.
    - destruct rx as [i|]; [destruct I; congruence|]. destruct I as (_ & -> & _). reflexivity.
  Qed.
  Lemma tx_failed st1 : ainv c st1 -> wk c st0 st1 ->
    exists st3, rollback (with_store st1 (set_map (as_store st1) (st_map sto))) (take_snapshot st0) = Some st3
      /\ as_acc st3 = as_acc st0 /\ as_inv st3 = [] /\ as_stack st3 = [] /\ as_store st3 = set_map (as_store st1) (st_map sto).
  Proof.
    intros I1 (K1 & K2 & K3 & K4). unfold rollback. cbn [as_acc as_inv with_store take_snapshot sn_acc sn_inv as_stack as_store].
    assert (RA : rollback_accts (as_acc st1) (map snapshot_acct (as_acc st0)) = Some (as_acc st0)).
    { cbn in K2 |- *. clear - K2. revert K2. generalize (as_acc st1). induction entries as [|e l IH]; intros l2 W; inversion W as [|x y xs ys WA WR]; subst; cbn; auto.
      destruct WA as (W1 & W2 & W3 & W4 & W5). destruct (W5 eq_refl) as [W6 W7]. cbn in W3. rewrite W3.
      pose proof (rollback_whole _ _ (inv_new (en_tree e)) eq_refl W6) as RW. unfold new_tracker in RW. cbn in RW. rewrite RW. rewrite (IH _ WR).
      f_equal. f_equal. cbn in W1, W2. unfold set_verified, set_trk, new_acct. cbn. rewrite W1, W2, W3. reflexivity. }
    rewrite RA. cbn. assert (RI : rollback_invs (as_inv st1) [] = Some []) by (now destruct (as_inv st1)). rewrite RI.
    eexists. split; [reflexivity|]. cbn. auto.
  Qed.

  Lemma tx_spec p st' r t : transaction c st0 p = (st', r, t) ->
    record entries None p r t
    /\ exists st1, exec c st0 p = (st1, r, t) /\ ainv c st1 /\ wk c st0 st1
       /\ match r with
          | Ok _ => st' = st1
          | Err _ => as_acc st' = as_acc st0 /\ as_inv st' = [] /\ as_stack st' = [] /\ (forall k, contents c (as_store st') k = contents c sto k)
          end.
  Proof.
    unfold transaction. destruct (exec c st0 p) as [[st1 r1] t1] eqn:EX.
    pose proof (exec_record entries c LI p _ _ _ _ start_ainv start_named start_rel EX) as RC.
    destruct (exec_wk c LI p _ _ _ _ start_ainv EX) as [I1 K1].
    assert (SK : as_stack st1 = []) by (destruct K1 as [K1 _]; exact K1).
    destruct r1 as [u|e].
    - intros [= <- <- <-]. split; [exact RC|]. exists st1. split; auto. split; auto. split; auto. unfold pop_frame. now rewrite SK.
    - destruct (tx_failed st1 I1 K1) as (st3 & RB & A1 & A2 & A3 & A4). cbn [as_store new_enforcing]. rewrite RB. intros [= <- <- <-].
      split; [exact RC|]. exists st1. split; auto. split; auto. split; auto. unfold pop_frame. rewrite A3. split; auto. split; auto. split; auto.
      intros k. rewrite A4. reflexivity.
  Qed.
  Lemma tx_explained p st' r t : transaction c st0 p = (st', r, t) ->
    exists s', explained (sc_li c) entries (start (fun a n => contents c sto (nonce_key a n))) t s'
      /\ (forall u, r = Ok u -> forall a n, s_nonce s' a n = contents c (as_store st') (nonce_key a n)).
  Proof.
    intros E. destruct (tx_spec _ _ _ _ E) as (_ & st1 & EX & _ & _ & F).
    destruct (exec_explained entries c LI p st1 r t sto RO AL EX) as (s' & R' & X). exists s'. split; auto.
    intros u ->. subst st'. intros a n. apply (r_nonce _ _ _ _ R').
  Qed.
End Tx.

(* ---------------------------------------------------------------- histories *)

Definition tx_ok (t : tx) : Prop :=
  li_ok (sc_li (tx_c t)) /\ run_ok (tx_c t) (tx_store t) /\ alive (sc_li (tx_c t)) (tx_begin t).

Lemma tx_burns t : tx_ok t ->
  burns (sc_li (tx_c t)) (fun a n => tx_begin t (nonce_key a n)) (tx_burned t) (fun a n => tx_end t (nonce_key a n)).
Proof.
  intros (LI & RO & AL). unfold tx_burned, tx_end, tx_result, tx_run.
  destruct (transaction (tx_c t) (new_enforcing (tx_store t) (tx_entries t)) (tx_prog t)) as [[st' r] l] eqn:E. cbn.
  destruct (tx_explained _ _ LI _ RO AL _ _ _ _ E) as (s' & X & N). destruct r as [u|e].
  - pose proof (exp_burns _ _ _ _ _ X) as (B1 & B2 & B3). cbn in B1, B2. split; [|split; auto].
    + intros a k x I. destruct (B1 _ _ _ I) as (Q1 & Q2 & Q3). rewrite (N u eq_refl) in Q3. auto.
    + intros a k Q. rewrite <- (N u eq_refl). now apply B2.
  - apply burns_nil. intros a k. destruct (tx_spec _ _ LI _ RO AL _ _ _ _ E) as (_ & st1 & _ & _ & _ & _ & _ & _ & F). apply F.
Qed.

Lemma nonce_stays l : forall t a n x, history (t :: l) -> Forall tx_ok (t :: l) ->
  (exists v lu, tx_end t (nonce_key a n) = Some (v, Some lu) /\ x <= lu) ->
  forall k u x', nth_error l k = Some u -> In (a, n, x') (tx_burned u) -> x < tx_seq u.
Proof.
  induction l as [|u l IH]; intros t a n x H OK (v & lu & E & L) k w x' N B; [destruct k; discriminate|].
  cbn in H. destruct H as [[F1 F2] HL]. inversion OK as [|? ? OT OL]; subst. inversion OL as [|? ? OU OLL]; subst.
  destruct (Z.le_gt_cases (tx_seq u) x) as [LE|GT].
  - destruct (F2 _ _ _ _ E) as (v' & lu' & BG & L'); [lia|]. destruct (tx_burns u OU) as (B1 & B2 & _).
    assert (NB : forall y, ~ In (a, n, y) (tx_burned u)) by (intros y Y; destruct (B1 _ _ _ Y) as (_ & Z & _); congruence).
    destruct k as [|k]; [injection N as <-; exfalso; now apply (NB x')|].
    apply (IH u a n x HL OL) with (k := k) (x' := x'); auto. exists v', lu'. split; [|lia]. rewrite <- BG. apply (B2 a n NB).
  - clear IH. assert (SEQ : forall k w, nth_error (u :: l) k = Some w -> tx_seq u <= tx_seq w).
    { clear - HL. intros k w. revert u HL k. induction l as [|z l IH]; intros u HL k N.
      - destruct k as [|[|]]; try discriminate. injection N as <-. lia.
      - destruct k; [injection N as <-; lia|]. destruct HL as [[G _] HL]. cbn in N. specialize (IH z HL k N). lia. }
    specialize (SEQ _ _ N). lia.
Qed.
Lemma replay_history l : history l -> Forall tx_ok l -> forall j k t u a n x x', (j < k)%nat ->
  nth_error l j = Some t -> nth_error l k = Some u -> In (a, n, x) (tx_burned t) -> In (a, n, x') (tx_burned u) -> x < tx_seq u.
Proof.
  induction l as [|t0 l IH]; intros H OK j k t u a n x x' LT NJ NK BJ BK; [destruct j; discriminate|].
  destruct k as [|k]; [lia|]. destruct j as [|j].
  - injection NJ as <-. cbn in NK. inversion OK; subst. destruct (tx_burns t0 H2) as (B1 & _). destruct (B1 _ _ _ BJ) as (_ & _ & E).
    apply (nonce_stays l t0 a n x H OK) with (k := k) (x' := x'); auto. eexists. eexists. split; [exact E|lia].
  - cbn in H. destruct H as [_ H]. inversion OK; subst. apply (IH H H3 j k t u a n x x'); auto. lia.
Qed.
