(* What the reported changes make of the ledger, and the rent they stand for. *)
From Coq Require Import ZArith Lia List Bool.
From Verif Require Import Prelude ValModel ContainerModel HeapModel AMap StorageModel StorageSpec
  StorageProofs StorageProofs2 FeesModel FrameModel FrameSpec E2EModel E2ESpec E2EProofs.
Import ListNotations.
Open Scope Z_scope.

Lemma upd_same (L : store) k v : upd L k v k = v.
Proof. unfold upd. destruct (lkey_eq_dec k k); congruence. Qed.
Lemma upd_other (L : store) k v k' : k' <> k -> upd L k v k' = L k'.
Proof. unfold upd. destruct (lkey_eq_dec k' k); congruence. Qed.

Section Apply.
  Variable li : linfo.
  Variable cd : codec.

  Lemma apply_other (L : store) ch k : k <> ch_key ch -> apply_change L ch k = L k.
  Proof.
    intros N. unfold apply_change. destruct (ch_value ch); [now apply upd_other|]. destruct (ch_ro ch); [|now apply upd_other].
    destruct (L (ch_key ch)) as [[e l]|]; [now apply upd_other|auto].
  Qed.
  Lemma apply_report (L : store) o :
    (oc_access o = ReadOnly -> option_map fst (L (oc_key o)) = option_map fst (oc_after o)) ->
    apply_change L (report li cd o) (oc_key o) = settled li o.
  Proof.
    intros H. unfold apply_change, settled, report. cbn. destruct (oc_access o) eqn:A; cbn.
    - specialize (H eq_refl). destruct (L (oc_key o)) as [[e l]|] eqn:LK, (oc_after o) as [[e' l']|] eqn:AF; cbn in H; try discriminate.
      + injection H as ->. rewrite upd_same. destruct (key_durability (oc_key o)); reflexivity.
      + exact LK.
    - destruct (oc_after o) as [[e' l']|] eqn:AF; cbn; rewrite upd_same; auto.
      destruct (key_durability (oc_key o)); reflexivity.
  Qed.
  Lemma apply_reports os : NoDup (map oc_key os) -> forall L,
    (forall o, In o os -> oc_access o = ReadOnly -> option_map fst (L (oc_key o)) = option_map fst (oc_after o)) ->
    (forall o, In o os -> apply_changes L (map (report li cd) os) (oc_key o) = settled li o)
    /\ (forall k, ~ In k (map oc_key os) -> apply_changes L (map (report li cd) os) k = L k).
  Proof.
    induction os as [|o os IH]; intros ND L H; cbn; [split; [intros ? []|auto]|].
    inversion ND as [|x y N0 ND']; subst.
    destruct (IH ND' (apply_change L (report li cd o))) as [A B].
    { intros o' I RO. rewrite apply_other; [now apply H; [right|]|]. cbn. intros EQ. apply N0. rewrite <- EQ. now apply in_map. }
    split.
    - intros o' [<-|I]; [|now apply A]. unfold apply_changes in *. rewrite B by auto. apply apply_report. apply H. now left.
    - intros k N. unfold apply_changes in *. rewrite B by tauto. apply apply_other. cbn. intros ->. apply N. now left.
  Qed.

  Lemma rent_of_report o : 0 <= li_seq li -> item_ok li (oc_key o) (oc_item o) -> live li (oc_key o) (oc_after o) ->
    match rent_change_of (report li cd o) with Some r => [r] | None => [] end = rent_due li cd o.
  Proof.
    intros SQ IO LV. unfold rent_change_of, rent_due, report. cbn [ch_ttl ch_value ch_new_size ch_old_size].
    destruct (key_durability (oc_key o)) as [d|] eqn:KD; [|reflexivity]. cbn [tc_old tc_new tc_dur tc_code].
    assert (OL : 0 <= old_live o).
    { unfold old_live. destruct (as_new o); [lia|]. destruct (oc_item o) as [[e|] m]; cbn in *.
      - rewrite KD in IO. destruct IO as (t & -> & L). lia.
      - subst m. lia. }
    destruct (oc_after o) as [[e l]|] eqn:AF.
    - assert (ES : end_size cd o = match oc_access o with ReadOnly => old_size o | ReadWrite => rent_size cd (oc_key o) e end).
      { unfold end_size. rewrite AF. destruct (oc_access o); reflexivity. }
      rewrite ES. rewrite !Z.geb_leb, !Z.ltb_antisym. clear ES.
      destruct (oc_access o); cbn [is_some option_map]; rewrite ?Z.leb_refl;
        destruct (new_live li o <=? old_live o); cbn; try reflexivity; destruct (rent_size cd (oc_key o) e <=? old_size o); reflexivity.
    - replace (new_live li o) with 0 by (unfold new_live; now rewrite AF).
      destruct (oc_access o); cbn; replace (old_live o >=? 0) with true by lia; rewrite Z.geb_leb, Z.leb_refl; reflexivity.
  Qed.
End Apply.

(* ---------------------------------------------------------------- outcomes of a run *)

Lemma combine_fst_map {A B C} (g : A -> C) (l : list A) : forall l' : list B, length l = length l' ->
  map (fun p => g (fst p)) (combine l l') = map g l.
Proof. induction l as [|x l IH]; intros [|y l']; cbn; intros H; try discriminate; auto. now rewrite IH by (now inversion H). Qed.

Lemma outcomes_keys f idx its after : length (f_ro f ++ f_rw f) = length its ->
  map oc_key (outcomes f idx its after) = f_ro f ++ f_rw f.
Proof.
  intros LE. unfold outcomes. rewrite map_map. cbn. rewrite <- (foot_accesses_keys f). unfold positions.
  apply (combine_fst_map snd). rewrite <- LE, <- (foot_accesses_keys f), map_length. reflexivity.
Qed.
Lemma outcome_in f idx its after o : In o (outcomes f idx its after) ->
  oc_after o = after (oc_key o) /\ In (oc_access o, oc_key o) (foot_accesses f)
  /\ In (oc_key o, oc_item o) (combine (f_ro f ++ f_rw f) its)
  /\ oc_restored o = match oc_access o with ReadWrite => restored_key f idx (oc_key o) | ReadOnly => false end.
Proof.
  unfold outcomes. intros I. apply in_map_iff in I. destruct I as ([[a k] it] & <- & I). cbn.
  split; auto. unfold positions in I. split; [exact (in_combine_l _ _ _ _ I)|]. split; auto.
  apply (in_combine_map snd) in I. change (map (pair ReadOnly) (f_ro f) ++ map (pair ReadWrite) (f_rw f)) with (foot_accesses f) in I.
  rewrite foot_accesses_keys in I. exact I.
Qed.
Lemma access_of_ro f k : In (ReadOnly, k) (foot_accesses f) -> access_of f k = Some ReadOnly.
Proof.
  intros I. unfold foot_accesses in I. apply in_app_or in I. unfold access_of. destruct (in_dec lkey_eq_dec k (f_ro f)) as [|N]; auto.
  destruct I as [I|I]; apply in_map_iff in I; destruct I as (x & [=] & I); subst; contradiction.
Qed.
