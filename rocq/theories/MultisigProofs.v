(* The signature check of classic accounts accepts exactly what it should. *)
From Coq Require Import ZArith Lia List Bool Sorted.
From Verif Require Import Prelude ValModel HeapModel MultisigModel MultisigSpec.
Import ListNotations.
Open Scope Z_scope.

Lemma cmp_eq a b : bytes_cmp a b = Eq <-> a = b.
Proof.
  revert b. induction a as [|x a IH]; intros [|y b]; simpl; split; intros E; try discriminate; auto.
  - destruct (x ?= y) eqn:C; try discriminate. apply Z.compare_eq in C as ->.
    apply IH in E as ->. auto.
  - injection E as -> ->. rewrite Z.compare_refl. now apply IH.
Qed.
Lemma cmp_lt a b : bytes_cmp a b = Lt <-> bytes_lt a b.
Proof.
  revert b. induction a as [|x a IH]; intros [|y b]; simpl; split; intros E; try discriminate;
    try (constructor; fail); try (inversion E; fail).
  - destruct (x ?= y) eqn:C; try discriminate.
    + apply Z.compare_eq in C as ->. apply bl_tail. now apply IH.
    + apply bl_less. exact C.
  - inversion E as [|? ? ? ? L|? ? ? L]; subst.
    + unfold Z.lt in L. now rewrite L.
    + rewrite Z.compare_refl. now apply IH.
Qed.
Lemma eqb_iff a b : bytes_eqb a b = true <-> a = b.
Proof. unfold bytes_eqb. rewrite <- cmp_eq. destruct (bytes_cmp a b); intuition discriminate. Qed.
Lemma eqb_neq a b : bytes_eqb a b = false <-> a <> b.
Proof. rewrite <- eqb_iff. destruct (bytes_eqb a b); intuition discriminate. Qed.
Lemma lt_trans a b c : bytes_lt a b -> bytes_lt b c -> bytes_lt a c.
Proof.
  intros H. revert c. induction H; intros c K; inversion K; subst; constructor; auto; lia.
Qed.
Lemma lt_irrefl a : ~ bytes_lt a a.
Proof. induction a as [|x a IH]; intros H; inversion H; subst; [lia|auto]. Qed.

Lemma sized_spec n v b : bytes_n n v = Ok b <-> v = SBytes b /\ length b = n.
Proof.
  unfold bytes_n. split.
  - destruct v; try discriminate. destruct (Nat.eqb_spec (length b0) n); intros [= <-]; auto.
  - intros [-> L]. now rewrite L, Nat.eqb_refl.
Qed.

Lemma decode_spec v pk sg : decode_sig v = Ok (pk, sg) <->
  v = sig_value (pk, sg) /\ length pk = 32%nat /\ length sg = 64%nat.
Proof.
  split.
  - unfold decode_sig. destruct v; try discriminate. destruct m as [m|]; [|discriminate].
    unfold unpack_dense. cbn [length].
    destruct m as [|[k1 v1] [|[k2 v2] [|? ?]]]; try discriminate. cbn [length Nat.eqb].
    cbn [unpack_keys]. destruct k1; try discriminate.
    destruct (bytes_eqb b s_public_key) eqn:E1; [|discriminate].
    destruct k2; try discriminate.
    destruct (bytes_eqb b0 s_signature) eqn:E2; [|discriminate].
    apply eqb_iff in E1 as ->. apply eqb_iff in E2 as ->. cbn [rbind].
    destruct (bytes_n 32 v1) as [a|] eqn:B1; [|discriminate].
    destruct (bytes_n 64 v2) as [c|] eqn:B2; [|discriminate].
    cbn [rbind]. intros [= -> ->]. apply sized_spec in B1 as [-> L1], B2 as [-> L2]. auto.
  - intros (-> & L1 & L2). unfold decode_sig, sig_value, unpack_dense. cbn [fst snd length Nat.eqb].
    cbn [unpack_keys]. change (bytes_eqb _ s_public_key) with true at 1. cbv iota.
    change (bytes_eqb _ s_signature) with true at 1. cbv iota. cbn [rbind bytes_n].
    now rewrite L1, L2.
Qed.

Lemma find_none k l : (forall w, ~ In (SkEd25519 k, w) l) -> forall r, find_signer k (l ++ r) = find_signer k r.
Proof.
  induction l as [|[[x|t b] w] l IH]; intros N r; cbn [app find_signer]; auto.
  - destruct (bytes_eqb k x) eqn:E.
    + apply eqb_iff in E as ->. exfalso. apply (N w). left; auto.
    + apply IH. intros w' I. apply (N w'). right; auto.
  - apply IH. intros w' I. apply (N w'). right; auto.
Qed.
Lemma find_some k l w : find_signer k l = w -> w <> 0 ->
  exists l1 w0 l2, l = l1 ++ (SkEd25519 k, w0) :: l2 /\ (forall w', ~ In (SkEd25519 k, w') l1) /\ w = Z.min w0 255.
Proof.
  induction l as [|[[x|t b] w0] l IH]; cbn [find_signer]; intros F N; [congruence| |].
  - destruct (bytes_eqb k x) eqn:E.
    + apply eqb_iff in E as ->. exists [], w0, l. simpl. auto.
    + destruct (IH F N) as (l1 & w1 & l2 & -> & Q & ->).
      apply eqb_neq in E. exists ((SkEd25519 x, w0) :: l1), w1, l2. repeat split; auto.
      intros w' [I|I]; [congruence|]. eapply Q; eauto.
  - destruct (IH F N) as (l1 & w1 & l2 & -> & Q & ->).
    exists ((SkOther t b, w0) :: l1), w1, l2. repeat split; auto.
    intros w' [I|I]; [congruence|]. eapply Q; eauto.
Qed.

Lemma weight_spec a k w : account_ok a -> w <> 0 ->
  (signer_weight k a = Ok w <-> key_weight a k w).
Proof.
  intros (_ & _ & NN) W. unfold signer_weight, th_master. split.
  - destruct (bytes_eqb (acc_id a) k) eqn:E.
    + apply eqb_iff in E as <-. destruct (nth_error (acc_thresholds a) 0) eqn:T; intros [= ->].
      now apply kw_master.
    + apply eqb_neq in E. intros [= F]. apply find_some in F as (l1 & w0 & l2 & Q & N & ->); auto.
      eapply kw_signer; eauto.
  - destruct 1 as [w -> T|l r w N Q F].
    + replace (bytes_eqb (acc_id a) (acc_id a)) with true by (symmetry; now apply eqb_iff).
      now rewrite T.
    + replace (bytes_eqb (acc_id a) k) with false by (symmetry; apply eqb_neq; congruence).
      rewrite Q, find_none by auto. cbn [find_signer].
      replace (bytes_eqb k k) with true by (symmetry; now apply eqb_iff). auto.
Qed.

Lemma weight_range a k w : account_ok a -> signer_weight k a = Ok w -> 0 <= w <= 255.
Proof.
  intros (_ & T & NN). unfold signer_weight. destruct (bytes_eqb (acc_id a) k).
  - destruct (nth_error _ _) eqn:E; intros [= ->]. apply nth_error_In in E.
    rewrite Forall_forall in T. now apply T.
  - intros [= <-]. induction NN as [|[[x|t b] w0] l Hx F IH]; cbn [find_signer]; try lia.
    simpl in Hx. destruct (bytes_eqb k x); lia.
Qed.

Lemma cons_inv {A} (a b : A) l m : a :: l = b :: m -> a = b /\ l = m.
Proof. intros E. injection E. auto. Qed.

Section Loop.
  Variable verify : list Z -> list Z -> list Z -> res unit.
  Variable payload : list Z.
  Variable a : account.
  Hypothesis Ha : account_ok a.

  Definition good (s : list Z * list Z) (w : Z) : Prop :=
    length (fst s) = 32%nat /\ length (snd s) = 64%nat /\
    verify (fst s) payload (snd s) = Ok tt /\ key_weight a (fst s) w /\ 0 < w.
  Definition below (prev : option (list Z)) (l : list (list Z * list Z)) : Prop :=
    match prev with Some p => Forall (bytes_lt p) (map fst l) | None => True end.

  Lemma loop_ok l : forall prev acc t, 0 <= acc -> acc + 255 * Z.of_nat (length l) <= u32_max ->
    (check_sigs verify payload a prev acc l = Ok t <->
     exists sigs ws, l = map sig_value sigs /\ Forall2 good sigs ws /\
       StronglySorted bytes_lt (map fst sigs) /\ below prev sigs /\ t = acc + sum ws).
  Proof.
    induction l as [|v l IH]; intros prev acc t A B; cbn [check_sigs].
    - split.
      + intros [= <-]. exists [], []. simpl. repeat split; auto; try constructor; try lia.
        destruct prev; simpl; auto.
      + intros ([|s sigs] & ws & E & F & _ & _ & ->); [|discriminate]. inversion F; subst.
        simpl. f_equal. lia.
    - destruct (decode_sig v) as [[pk sg]|] eqn:D; cbn [rbind].
      2:{ split; [discriminate|]. intros ([|[pk sg] sigs] & ws & E & F & _); [discriminate|].
          cbn [map] in E; apply cons_inv in E as [E _]. inversion F as [|? ? ? ? G]; subst. destruct G as (L1 & L2 & _).
          assert (Q : decode_sig (sig_value (pk, sg)) = Ok (pk, sg)) by (apply decode_spec; auto).
          rewrite Q in D; discriminate. }
      apply decode_spec in D as (-> & L1 & L2).
      cbn [length] in B. rewrite Nat2Z.inj_succ in B.
      assert (Hd : forall s', sig_value (pk, sg) = sig_value s' -> s' = (pk, sg)).
      { intros [p' g'] [= -> ->]; auto. }
      assert (PR : forall p, prev = Some p -> bytes_cmp p pk <> Lt ->
         forall sigs ws, sig_value (pk, sg) :: l = map sig_value sigs -> Forall2 good sigs ws ->
           below prev sigs -> False).
      { intros p -> N [|s' sigs] ws E F Bl; [discriminate|]. cbn [map] in E; apply cons_inv in E as [E _].
        apply Hd in E as ->. simpl in Bl. apply Forall_inv in Bl. apply cmp_lt in Bl. auto. }
      assert (CK : match prev with
                  | Some p => match bytes_cmp p pk with Lt => Ok tt | _ => Err e_authn end
                  | None => Ok tt end = Ok tt \/
                  ((match prev with
                  | Some p => match bytes_cmp p pk with Lt => Ok tt | _ => Err e_authn end
                  | None => Ok tt end) = Err e_authn /\ exists p, prev = Some p /\ bytes_cmp p pk <> Lt)).
      { destruct prev as [p|]; auto. destruct (bytes_cmp p pk) eqn:C; auto; right; split; eauto;
          exists p; split; auto; congruence. }
      destruct CK as [CK|(CK & p & -> & N)]; rewrite CK; cbn [rbind].
      2:{ split; [discriminate|]. intros (sigs & ws & E & F & _ & Bl & _). exfalso; eauto. }
      assert (PL : match prev with Some p => bytes_lt p pk | None => True end).
      { destruct prev as [p|]; auto. apply cmp_lt. destruct (bytes_cmp p pk); auto; discriminate. }
      destruct (verify pk payload sg) as [[]|] eqn:V; cbn [rbind].
      2:{ split; [discriminate|]. intros ([|s' sigs] & ws & E & F & _); [discriminate|].
          cbn [map] in E; apply cons_inv in E as [E _]. apply Hd in E as ->. inversion F as [|? ? ? ? G]; subst.
          destruct G as (_ & _ & G & _). simpl in G. congruence. }
      destruct (signer_weight pk a) as [w|] eqn:W; cbn [rbind].
      2:{ split; [discriminate|]. intros ([|s' sigs] & ws & E & F & _); [discriminate|].
          cbn [map] in E; apply cons_inv in E as [E _]. apply Hd in E as ->. inversion F as [|? w' ? ? G]; subst.
          destruct G as (_ & _ & _ & G & P). simpl in G. apply (weight_spec a pk w') in G; auto; [congruence|lia]. }
      pose proof (weight_range _ _ _ Ha W) as R.
      destruct (Z.eqb_spec w 0) as [->|NZ].
      { split; [discriminate|]. intros ([|s' sigs] & ws & E & F & _); [discriminate|].
          cbn [map] in E; apply cons_inv in E as [E _]. apply Hd in E as ->. inversion F as [|? w' ? ? G]; subst.
          destruct G as (_ & _ & _ & G & P). simpl in G. apply (weight_spec a pk w') in G; auto; [|lia].
          rewrite G in W. injection W as ->. lia. }
      assert (KW : key_weight a pk w) by (apply weight_spec; auto).
      rewrite Z.min_l by lia. rewrite IH by lia. split.
      + intros (sigs & ws & -> & F & S & Bl & ->). exists ((pk, sg) :: sigs), (w :: ws).
        cbn [map fst below sum fold_right] in *. repeat split; auto.
        * constructor; auto. repeat split; auto. lia.
        * constructor; auto.
        * destruct prev as [p|]; simpl; auto. constructor; auto.
          eapply Forall_impl; [|exact Bl]. intros x X. eapply lt_trans; eauto.
        * unfold sum. lia.
      + intros ([|s' sigs] & ws & E & F & S & Bl & ->); [discriminate|].
        cbn [map] in E; apply cons_inv in E as [E E']. apply Hd in E as ->. inversion F as [|? w' ? ws' G F']; subst.
        exists sigs, ws'. cbn [map fst] in S. apply StronglySorted_inv in S as [S1 S2].
        repeat split; auto.
        destruct G as (_ & _ & _ & G & P). simpl in G.
        apply (weight_spec a pk w') in G; auto; [|lia]. rewrite G in W. injection W as ->.
        cbn [sum fold_right]. unfold sum. lia.
  Qed.
End Loop.

Lemma Forall2_good verify payload a l ws : Forall2 (good verify payload a) l ws <->
  Forall (fun s => length (fst s) = 32%nat /\ length (snd s) = 64%nat) l /\
  Forall (fun s => verify (fst s) payload (snd s) = Ok tt) l /\
  Forall2 (fun s w => key_weight a (fst s) w /\ 0 < w) l ws.
Proof.
  split.
  - induction 1 as [|s w l ws (A & B & C & D & E) F (F1 & F2 & F3)]; repeat split; constructor; auto.
  - intros (A & B & C). revert A B. induction C as [|s w l ws [D E] F IH]; intros A B; constructor; auto.
    + apply Forall_inv in A as [A1 A2]. apply Forall_inv in B. repeat split; auto.
    + apply IH; eauto using Forall_inv_tail.
Qed.

Theorem account_signatures verify a payload v : account_ok a ->
  (check_account_authentication verify (Ok a) payload v = Ok tt <->
   exists l, v = sigs_value l /\ enough verify payload a l).
Proof.
  intros Ha. unfold check_account_authentication, max_signatures, th_med.
  assert (TH : exists th, nth_error (acc_thresholds a) 2 = Some th).
  { destruct Ha as (L & _). destruct (acc_thresholds a) as [|? [|? [|t ?]]]; try discriminate L.
    exists t. reflexivity. }
  destruct TH as [th TH]. split.
  - destruct v as [| | | | | | | | | | | | | | | | [l|] | | | | | |]; try discriminate.
    destruct (Z.gtb_spec (Z.of_nat (length l)) 20); [discriminate|].
    destruct (Z.eqb_spec (Z.of_nat (length l)) 0); [discriminate|]. cbn [rbind].
    destruct (check_sigs verify payload a None 0 l) as [t|] eqn:C; [|discriminate]. cbn [rbind].
    rewrite TH. destruct (Z.ltb_spec t th); [discriminate|]. intros _.
    apply loop_ok in C as (sigs & ws & -> & F & S & _ & ->); auto; [|lia|unfold u32_max; lia].
    rewrite map_length in *. exists sigs. split; auto.
    apply Forall2_good in F as (F1 & F2 & F3). constructor; auto; [lia|].
    exists ws, th. split; [auto|split; [auto|lia]].
  - intros (l & -> & [C1 C2 C3 C4 (ws & th' & C5 & C6 & C7)]). unfold sigs_value. rewrite map_length.
    destruct (Z.gtb_spec (Z.of_nat (length l)) 20); [lia|].
    destruct (Z.eqb_spec (Z.of_nat (length l)) 0); [lia|]. cbn [rbind].
    assert (C : check_sigs verify payload a None 0 (map sig_value l) = Ok (0 + sum ws)).
    { apply loop_ok; auto; [lia|rewrite map_length; unfold u32_max; lia|].
      exists l, ws. repeat split; auto. apply Forall2_good; auto. }
    rewrite C. cbn [rbind]. rewrite C6. destruct (Z.ltb_spec (0 + sum ws) th'); [lia|auto].
Qed.

Theorem missing_account verify e payload v : check_account_authentication verify (Err e) payload v <> Ok tt.
Proof.
  unfold check_account_authentication.
  destruct v as [| | | | | | | | | | | | | | | | [l|] | | | | | |]; try discriminate.
  destruct (_ >? _); [discriminate|]. destruct (_ =? 0); discriminate.
Qed.

Theorem enough_once verify payload a l : enough verify payload a l -> NoDup (map fst l).
Proof.
  intros [_ _ S _ _]. induction (map fst l) as [|x m IH]; constructor.
  - apply StronglySorted_inv in S as [_ S]. intros I. rewrite Forall_forall in S.
    apply (lt_irrefl x). auto.
  - apply StronglySorted_inv in S as [S _]. auto.
Qed.
