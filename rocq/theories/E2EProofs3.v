(* A recorded invocation predicts the transaction. *)
From Coq Require Import ZArith Lia List Bool Permutation.
From Verif Require Import Prelude ValModel ContainerModel HeapModel AMap StorageModel StorageSpec
  StorageProofs StorageProofs2 FeesModel FrameModel FrameSpec FrameProofs FrameProofs2 FrameProofs5
  E2EModel E2ESpec E2EProofs E2EProofs2 ReplayProofs.
Import ListNotations.
Open Scope Z_scope.

(* ---------------------------------------------------------------- the footprint *)

Definition is_rw (a : access) : bool := match a with ReadWrite => true | ReadOnly => false end.
Lemma split_ro m : f_ro (split_foot m) = map fst (filter (fun p => negb (is_rw (snd p))) m).
Proof. unfold split_foot. cbn [f_ro]. f_equal. apply filter_ext. intros [k []]; reflexivity. Qed.
Lemma split_rw m : f_rw (split_foot m) = map fst (filter (fun p => is_rw (snd p)) m).
Proof. reflexivity. Qed.

Lemma split_perm m : Permutation (f_ro (split_foot m) ++ f_rw (split_foot m)) (map fst m).
Proof.
  rewrite split_ro, split_rw. induction m as [|[k a] m IH]; cbn; auto. destruct a; cbn; auto.
  rewrite <- Permutation_middle. now constructor.
Qed.
Lemma fget_in m k a : NoDup (map fst m) -> (fget m k = Some a <-> In (k, a) m).
Proof.
  intros ND. split; [apply aget_In|]. intros I. unfold fget.
  destruct (aget lkey_eq_dec m k) as [b|] eqn:G.
  - pose proof (aget_In lkey_eq_dec _ _ _ G) as J. f_equal. clear G. induction m as [|[x y] m IH]; [destruct I|].
    cbn in ND. inversion ND as [|x0 l0 N0 ND']; subst. destruct I as [I|I], J as [J|J]; auto.
    + congruence.
    + injection I as -> ->. destruct N0. now apply (in_map fst) in J.
    + injection J as -> ->. destruct N0. now apply (in_map fst) in I.
  - apply aget_None in G. destruct G. now apply (in_map fst) in I.
Qed.
Lemma split_access m k : NoDup (map fst m) -> access_of (split_foot m) k = fget m k.
Proof.
  intros ND. unfold access_of. destruct (in_dec lkey_eq_dec k (f_ro (split_foot m))) as [I|I].
  - rewrite split_ro in I. apply in_map_iff in I. destruct I as ([x a] & <- & I). apply filter_In in I. destruct I as [I A].
    symmetry. apply fget_in; auto. destruct a; [exact I|discriminate].
  - destruct (in_dec lkey_eq_dec k (f_rw (split_foot m))) as [J|J].
    + rewrite split_rw in J. apply in_map_iff in J. destruct J as ([x a] & <- & J). apply filter_In in J. destruct J as [J A].
      symmetry. apply fget_in; auto. destruct a; [discriminate|exact J].
    + destruct (fget m k) as [a|] eqn:G; auto. apply aget_In in G. destruct a.
      * destruct I. rewrite split_ro. apply in_map_iff. exists (k, ReadOnly). split; auto. apply filter_In. auto.
      * destruct J. rewrite split_rw. apply in_map_iff. exists (k, ReadWrite). split; auto. apply filter_In. auto.
Qed.

(* ---------------------------------------------------------------- scanning the ledger *)

Section Scan.
  Variable li : linfo.
  Variable cd : codec.
  Variable src : lkey -> option lentry.

  Definition raw_item (k : lkey) : item :=
    match src k with
    | None => (None, None)
    | Some (e, l) => (Some e, option_map (fun x => {| tm_live := x; tm_size := rent_size cd k e |}) l)
    end.
  Definition archivedb (k : lkey) : bool :=
    match key_durability k, src k with
    | Some Persistent, Some (_, Some l) => l <? li_seq li
    | _, _ => false
    end.
  Lemma archived_b k : archivedb k = true <-> archived li src k.
  Proof.
    unfold archivedb, archived. split.
    - destruct (key_durability k) as [[]|]; try discriminate. destruct (src k) as [[e [l|]]|]; try discriminate.
      intros H. split; auto. exists e, l. split; auto. lia.
    - intros (-> & e & l & -> & L). lia.
  Qed.

  Definition at_index (i : nat) (ks : list lkey) : list nat :=
    map fst (filter (fun p => archivedb (snd p)) (combine (seq i (length ks)) ks)).

  Hypothesis LOK : ledger_ok src.

  Lemma scan_one_spec s rw k : key_supported k = true -> (archivedb k = true -> rw <> None) ->
    scan_one cd li src s rw k
    = Ok {| sn_items := sn_items s ++ [raw_item k];
            sn_disk := if disk_bytes li cd src k =? 0 then match src k with
                         | Some (EAccount _, _) | Some (ETrustline _, _) => sat_u32 (sn_disk s + disk_bytes li cd src k)
                         | _ => if archivedb k then sat_u32 (sn_disk s + disk_bytes li cd src k) else sn_disk s end
                       else sat_u32 (sn_disk s + disk_bytes li cd src k);
            sn_restored := sn_restored s ++ (if archivedb k then match rw with Some i => [i] | None => [] end else []);
            sn_keys := sn_keys s ++ (if archivedb k then [k] else []) |}.
  Proof.
    intros KS AR. unfold scan_one, raw_item, archivedb, disk_bytes in *. destruct (src k) as [[e l]|] eqn:SK.
    2:{ destruct (key_durability k) as [[]|]; now rewrite !app_nil_r. }
    specialize (LOK k e l SK KS).
    assert (XL : xdr_len cd k e = sat_u32 (entry_len cd k e)) by reflexivity.
    destruct e; try contradiction; destruct LOK as [A B].
    - destruct l as [x|]; [|congruence]. destruct (key_durability k) as [[]|]; [| |congruence].
      + rewrite andb_false_r, !app_nil_r. cbn. reflexivity.
      + rewrite andb_true_r. destruct (x <? li_seq li) eqn:X; [|now rewrite !app_nil_r].
        destruct rw as [i|]; [|now destruct (AR eq_refl)]. rewrite XL. destruct (sat_u32 (entry_len cd k (EData v)) =? 0) eqn:Q; reflexivity.
    - destruct l as [x|]; [|congruence]. destruct (key_durability k) as [[]|]; [| |congruence].
      + rewrite andb_false_r, !app_nil_r. cbn. reflexivity.
      + rewrite andb_true_r. destruct (x <? li_seq li) eqn:X; [|now rewrite !app_nil_r].
        destruct rw as [i|]; [|now destruct (AR eq_refl)]. rewrite XL. destruct (sat_u32 (entry_len cd k (ECode wasm)) =? 0) eqn:Q; reflexivity.
    - subst l. rewrite A, !app_nil_r, XL. destruct (sat_u32 _ =? 0) eqn:Q; reflexivity.
    - subst l. rewrite A, !app_nil_r, XL. destruct (sat_u32 _ =? 0) eqn:Q; reflexivity.
  Qed.

  Lemma disk_bytes_nonneg k : 0 <= disk_bytes li cd src k.
  Proof.
    unfold disk_bytes, sat_u32, clamp, u32_max. destruct (src k) as [[e [l|]]|]; [|lia|lia].
    match goal with |- context [if ?b then _ else _] => destruct b end; lia.
  Qed.
  Lemma disk_step n k (b : bool) : (if disk_bytes li cd src k =? 0 then match src k with
                         | Some (EAccount _, _) | Some (ETrustline _, _) => sat_u32 (sat_u32 n + disk_bytes li cd src k)
                         | _ => if b then sat_u32 (sat_u32 n + disk_bytes li cd src k) else sat_u32 n end
                       else sat_u32 (sat_u32 n + disk_bytes li cd src k)) = sat_u32 (sat_u32 n + disk_bytes li cd src k).
  Proof.
    destruct (Z.eqb_spec (disk_bytes li cd src k) 0) as [->|]; [|reflexivity].
    assert (Q : sat_u32 (sat_u32 n + 0) = sat_u32 n) by (unfold sat_u32, clamp, u32_max; lia).
    rewrite !Q. destruct (src k) as [[[] l]|], b; reflexivity.
  Qed.
  Lemma sat_add n d : 0 <= n -> 0 <= d -> sat_u32 (sat_u32 n + d) = sat_u32 (n + d).
  Proof. unfold sat_u32, clamp, u32_max. lia. Qed.

  Lemma scan_ro_spec ks : forall s n, Forall (fun k => key_supported k = true) ks -> (forall k, In k ks -> archivedb k = false) ->
    0 <= n -> sn_disk s = sat_u32 n ->
    scan_ro cd li src s ks
    = Ok {| sn_items := sn_items s ++ map raw_item ks; sn_disk := sat_u32 (n + total (map (disk_bytes li cd src) ks));
            sn_restored := sn_restored s; sn_keys := sn_keys s |}.
  Proof.
    induction ks as [|k ks IH]; intros s n F N N0 SD; cbn [scan_ro map total fold_right].
    - rewrite app_nil_r, Z.add_0_r, <- SD. now destruct s.
    - inversion F; subst. rewrite (scan_one_spec s None k); auto; [|rewrite (N k (or_introl eq_refl)); discriminate].
      cbn [rbind]. rewrite SD, disk_step, (sat_add n _ N0 (disk_bytes_nonneg k)), (N k (or_introl eq_refl)), !app_nil_r.
      rewrite (IH _ (n + disk_bytes li cd src k)); cbn [sn_items sn_disk sn_restored sn_keys].
      + rewrite <- app_assoc. unfold total. rewrite Z.add_assoc. reflexivity.
      + exact H2.
      + intros k' I. apply N. now right.
      + pose proof (disk_bytes_nonneg k). lia.
      + reflexivity.
  Qed.
  Lemma scan_rw_spec ks : forall s i n, Forall (fun k => key_supported k = true) ks -> 0 <= n -> sn_disk s = sat_u32 n ->
    scan_rw cd li src s i ks
    = Ok {| sn_items := sn_items s ++ map raw_item ks; sn_disk := sat_u32 (n + total (map (disk_bytes li cd src) ks));
            sn_restored := sn_restored s ++ at_index i ks;
            sn_keys := sn_keys s ++ filter archivedb ks |}.
  Proof.
    induction ks as [|k ks IH]; intros s i n F N0 SD; cbn [scan_rw map total fold_right].
    - cbn. rewrite !app_nil_r, Z.add_0_r, <- SD. now destruct s.
    - inversion F; subst. rewrite (scan_one_spec s (Some i) k); auto; [|discriminate]. cbn [rbind].
      rewrite SD, disk_step, (sat_add n _ N0 (disk_bytes_nonneg k)).
      rewrite (IH _ (S i) (n + disk_bytes li cd src k) H2); cbn [sn_items sn_disk sn_restored sn_keys].
      + rewrite <- !app_assoc. unfold total. rewrite Z.add_assoc. unfold at_index. cbn.
        destruct (archivedb k); reflexivity.
      + pose proof (disk_bytes_nonneg k). lia.
      + reflexivity.
  Qed.

  Lemma restored_at_index f k : In k (f_rw f) -> NoDup (f_rw f) -> restored_key f (at_index 0 (f_rw f)) k = archivedb k.
  Proof.
    intros I ND. unfold restored_key, at_index.
    destruct (archivedb k) eqn:A.
    - apply existsb_exists. apply In_nth_error in I. destruct I as [i N]. exists i. split.
      + apply in_map_iff. exists (i, k). split; auto. apply filter_In. split; auto.
        clear - N. assert (G : forall j l i, nth_error l i = Some k -> In (Nat.add j i, k) (combine (seq j (length l)) l)).
        { intros j l. revert j. induction l as [|x l IH]; intros j [|i'] H; cbn in *; try discriminate.
          - injection H as ->. left. now rewrite Nat.add_0_r.
          - right. rewrite <- Nat.add_succ_comm. now apply IH. }
        exact (G 0%nat _ _ N).
      + rewrite N. destruct (lkey_eq_dec k k); congruence.
    - apply not_true_iff_false. intros H. apply existsb_exists in H. destruct H as (i & J & N).
      destruct (nth_error (f_rw f) i) as [k'|] eqn:NE; [|discriminate]. destruct (lkey_eq_dec k k') as [<-|]; [|discriminate].
      apply in_map_iff in J. destruct J as ([i' k''] & E1 & J). cbn in E1. subst i'. apply filter_In in J. destruct J as [J A']. cbn in A'.
      assert (G : forall (l : list lkey) j i k, In (i, k) (combine (seq j (length l)) l) -> (j <= i)%nat /\ nth_error l (i - j) = Some k).
      { induction l as [|x l IH]; cbn; [tauto|]. intros j i0 k0 [[= <- <-]|H]; [split; [lia|now rewrite Nat.sub_diag]|].
        destruct (IH _ _ _ H) as [P1 P2]. split; [lia|]. replace (i0 - j)%nat with (S (i0 - S j)) by lia. exact P2. }
      destruct (G _ _ _ _ J) as [_ G2]. rewrite Nat.sub_0_r in G2. congruence.
  Qed.
  Lemma at_index_range ks : Forall (fun i => (i < length ks)%nat) (at_index 0 ks).
  Proof.
    unfold at_index. apply Forall_forall. intros i H. apply in_map_iff in H. destruct H as ([j k] & <- & H). apply filter_In in H.
    destruct H as [H _]. apply in_combine_l in H. apply in_seq in H. cbn. lia.
  Qed.
  Lemma build_at_index ks : forall pre, build_restored (pre ++ ks) (at_index (length pre) ks) = Ok (filter archivedb ks).
  Proof.
    induction ks as [|k ks IH]; intros pre; [reflexivity|].
    assert (E1 : at_index (length pre) (k :: ks) = (if archivedb k then [length pre] else []) ++ at_index (length (pre ++ [k])) ks).
    { unfold at_index. cbn. rewrite app_length, Nat.add_1_r. destruct (archivedb k); reflexivity. }
    rewrite E1. specialize (IH (pre ++ [k])). rewrite <- app_assoc in IH. cbn in IH.
    cbn [filter]. destruct (archivedb k); cbn [app build_restored]; [|exact IH].
    rewrite nth_error_app2, Nat.sub_diag by lia. cbn. rewrite IH. reflexivity.
  Qed.

  (* loading the scanned items *)
  Lemma load_raw ks : forall m, Forall (fun k => key_supported k = true) ks ->
    exists m', load_items true (li_seq li) ks (map raw_item ks) m = Ok (m', map (fun k => option_map tm_size (snd (raw_item k))) ks).
  Proof.
    induction ks as [|k ks IH]; intros m F; cbn; eauto. inversion F; subst. rewrite H1.
    assert (LO : exists v, load_item true (li_seq li) k (raw_item k) = Ok v).
    { unfold raw_item, load_item. destruct (src k) as [[e l]|] eqn:SK; eauto. specialize (LOK k e l SK H1).
      destruct e; try contradiction; destruct LOK as [A B]; cbn; (destruct l as [x|]; try congruence); cbn;
        destruct (key_durability k) as [[]|]; try congruence; eauto; destruct (x <? li_seq li); eauto. }
    destruct LO as [v ->]. cbn [rbind]. destruct (IH (mset m k v) H2) as [m' ->]. cbn. eauto.
  Qed.
End Scan.

Lemma foretells_refl c : foretells c c.
Proof. repeat split. Qed.

Section Predict.
  Variable li : linfo.
  Variable cd : codec.
  Variable src : lkey -> option lentry.
  Hypothesis LI : li_ok li.
  Hypothesis LOK : ledger_ok src.

  Lemma min_live_seq : li_seq li <= min_live li Persistent.
  Proof. unfold min_live. lia. Qed.

  Lemma provided_ok k : key_supported k = true -> item_ok li k (provided li cd src k).
  Proof.
    intros KS. unfold provided, item_ok, now. destruct (src k) as [[e l]|] eqn:SK; auto.
    pose proof (LOK k e l SK KS) as OK. pose proof min_live_seq as ML.
    assert (D : key_durability k <> None -> exists x, l = Some x).
    { intros D. destruct e; try contradiction; destruct OK as [A B]; try congruence; destruct l; try congruence; eauto. }
    assert (N : key_durability k = None -> l = None).
    { intros D'. destruct e; try contradiction; destruct OK as [A B]; congruence. }
    destruct (key_durability k) as [d|]; [|rewrite (N eq_refl); auto].
    destruct (D ltac:(discriminate)) as [x ->]. destruct (Z.ltb_spec x (li_seq li)) as [LT|LT].
    - destruct d; cbn; eauto.
    - cbn. eauto.
  Qed.
  Lemma provided_entry k : key_supported k = true -> item_entry (provided li cd src k) = now li k (src k).
  Proof.
    intros KS. unfold provided. destruct (now li k (src k)) as [[e [x|]]|]; reflexivity.
  Qed.

  Lemma rec_change a k ks after : key_supported k = true -> (archivedb li src k = true -> a = ReadWrite) ->
    (a = ReadWrite -> key_in k ks = archivedb li src k) -> live li k after ->
    exists ch, one_change cd true (li_seq li) (min_live li Persistent) ks (snapshot_ttl src) a k
                 (option_map tm_size (snd (raw_item cd src k))) after = Ok ch
    /\ foretells ch (report li cd {| oc_access := a; oc_key := k; oc_item := provided li cd src k;
                                     oc_restored := match a with ReadWrite => archivedb li src k | ReadOnly => false end;
                                     oc_after := after |}).
  Proof.
    intros KS AR KI LV. pose proof min_live_seq as ML. assert (SQ : 0 <= li_seq li) by apply LI.
    destruct (archivedb li src k) eqn:AB.
    - (* archived *)
      rewrite (AR eq_refl) in *. specialize (KI eq_refl).
      apply archived_b in AB. destruct AB as (KD & e & x & SK & LT).
      unfold one_change, old_of, snapshot_ttl, raw_item, provided, report, old_size, old_live, new_live, as_new, now.
      rewrite SK, KD, KI. cbn. replace (x <? li_seq li) with true by lia. cbn.
      destruct after as [[e' l]|]; cbn in LV.
      + destruct (LV ltac:(congruence)) as (y & -> & LY). cbn. eexists. split; [reflexivity|].
        replace (Z.max (Z.max y (min_live li Persistent)) (min_live li Persistent)) with (Z.max (Z.max y 0) (min_live li Persistent)) by lia.
        unfold rent_size, entry_size_for_rent, xdr_len, is_code. rewrite ?KD. apply foretells_refl.
      + cbn. eexists. split; [reflexivity|]. unfold foretells. cbn. rewrite KD. cbn. repeat split; auto.
        replace (min_live li Persistent >=? 0) with true by lia. rewrite Z.geb_leb, Z.leb_refl. reflexivity.
    - (* not archived: the same change *)
      assert (NR : forall b, (match a with ReadWrite => false | ReadOnly => false end) = b -> b = false) by (destruct a; congruence).
      assert (IT : item_ok li k (provided li cd src k)) by now apply provided_ok.
      unfold archivedb in AB.
      destruct (src k) as [[e l]|] eqn:SK.
      + pose proof (LOK k e l SK KS) as OK.
        destruct (key_durability k) as [d|] eqn:KD.
        * assert (exists x, l = Some x) as [x ->].
          { destruct e; try contradiction; destruct OK as [A B]; try congruence; destruct l; try congruence; eauto. }
          destruct (Z.ltb_spec x (li_seq li)) as [LT|LT].
          -- (* an expired temporary entry *)
             destruct d; [|discriminate].
             assert (PV : provided li cd src k = (None, None)).
             { unfold provided, now. rewrite SK, KD. now replace (x <? li_seq li) with true by lia. }
             rewrite PV. unfold one_change, old_of, snapshot_ttl, raw_item, report, old_size, old_live, new_live, as_new.
             rewrite SK, KD. cbn. replace (x <? li_seq li) with true by lia. cbn.
             destruct after as [[e' l']|]; cbn in LV.
             ++ destruct (LV ltac:(congruence)) as (y & -> & LY). destruct a; cbn; [|rewrite (KI eq_refl)]; eexists; (split; [reflexivity|]);
                unfold rent_size, entry_size_for_rent, xdr_len, is_code; cbn; rewrite ?KD; cbn; rewrite ?(Z.max_l _ 0) by lia; apply foretells_refl.
             ++ destruct a; cbn; eexists; (split; [reflexivity|]); unfold is_code; cbn; rewrite ?KD; apply foretells_refl.
          -- assert (PV : provided li cd src k = (Some e, Some {| tm_live := x; tm_size := rent_size cd k e |})).
             { unfold provided, now. rewrite SK. now replace (x <? li_seq li) with false by lia. }
             exists (report li cd {| oc_access := a; oc_key := k; oc_item := provided li cd src k;
                                     oc_restored := match a with ReadWrite => false | ReadOnly => false end; oc_after := after |}).
             split; [|apply foretells_refl].
             rewrite <- (one_change_report li cd true ks (snapshot_ttl src) a k (provided li cd src k)
                           (match a with ReadWrite => false | ReadOnly => false end) after SQ IT LV).
             ++ f_equal. rewrite PV. unfold raw_item. now rewrite SK.
             ++ rewrite PV. unfold snapshot_ttl. now rewrite SK.
             ++ destruct a; auto. now rewrite KI.
        * assert (l = None) as -> by (destruct e; try contradiction; destruct OK as [A B]; congruence).
          assert (PV : provided li cd src k = (Some e, None)) by (unfold provided, now; now rewrite SK).
          exists (report li cd {| oc_access := a; oc_key := k; oc_item := provided li cd src k;
                                  oc_restored := match a with ReadWrite => false | ReadOnly => false end; oc_after := after |}).
          split; [|apply foretells_refl].
          rewrite <- (one_change_report li cd true ks (snapshot_ttl src) a k (provided li cd src k)
                        (match a with ReadWrite => false | ReadOnly => false end) after SQ IT LV).
          -- f_equal. rewrite PV. unfold raw_item. now rewrite SK.
          -- rewrite PV. unfold snapshot_ttl. now rewrite SK.
          -- destruct a; auto. now rewrite KI.
      + assert (PV : provided li cd src k = (None, None)) by (unfold provided, now; now rewrite SK).
        exists (report li cd {| oc_access := a; oc_key := k; oc_item := provided li cd src k;
                                oc_restored := match a with ReadWrite => false | ReadOnly => false end; oc_after := after |}).
        split; [|apply foretells_refl].
        rewrite <- (one_change_report li cd true ks (snapshot_ttl src) a k (provided li cd src k)
                      (match a with ReadWrite => false | ReadOnly => false end) after SQ IT LV).
        -- f_equal. rewrite PV. unfold raw_item. now rewrite SK.
        -- rewrite PV. unfold snapshot_ttl. now rewrite SK.
        -- destruct a; auto. now rewrite KI.
  Qed.
End Predict.

Definition bare_of (p : access * lkey) : change :=
  {| ch_ro := negb (is_rw (fst p)); ch_key := snd p; ch_old_size := 0; ch_value := None; ch_new_size := 0; ch_ttl := None |}.
Definition swap {A B} (p : A * B) : B * A := (snd p, fst p).
Lemma split_perm2 m : Permutation (map swap m) (foot_accesses (split_foot m)).
Proof.
  unfold foot_accesses. rewrite split_ro, split_rw. induction m as [|[k a] m IH]; cbn; auto. destruct a; cbn; auto.
  rewrite <- Permutation_middle. now constructor.
Qed.
Lemma Permutation_filter {A} (p : A -> bool) l l' : Permutation l l' -> Permutation (filter p l) (filter p l').
Proof.
  induction 1; cbn; auto.
  - destruct (p x); auto.
  - destruct (p x), (p y); auto. apply perm_swap.
  - etransitivity; eauto.
Qed.
Lemma only_perm s : Permutation (footprint_only s)
  (map bare_of (filter (fun p => negb (is_some (mget (st_map s) (snd p)))) (foot_accesses (split_foot (st_foot s))))).
Proof.
  etransitivity; [|apply Permutation_map, Permutation_filter, split_perm2]. unfold footprint_only. generalize (st_foot s) as m. intros m.
  induction m as [|[k a] m IH]; cbn; auto. destruct (is_some (mget (st_map s) k)); cbn; auto.
  unfold bare_of at 1. cbn. destruct a; now constructor.
Qed.

Definition full (s : storage) : Prop := forall k, fget (st_foot s) k <> None -> mget (st_map s) k <> None.
Lemma only_full s : NoDup (map fst (st_foot s)) -> full s -> footprint_only s = [].
Proof.
  intros ND F. unfold footprint_only.
  assert (G : forall l, (forall p, In p l -> mget (st_map s) (fst p) <> None) ->
            filter (fun p : lkey * access => negb (is_some (mget (st_map s) (fst p)))) l = []).
  { induction l as [|p l IH]; intros H; cbn; auto. specialize (H p (or_introl eq_refl)) as H0.
    destruct (mget (st_map s) (fst p)); [|congruence]. cbn. apply IH. intros q I. apply H. now right. }
  rewrite G; auto. intros [k a] I. apply F. cbn. rewrite (proj2 (fget_in _ _ _ ND) I). discriminate.
Qed.

Section Predict2.
  Variable li : linfo.
  Variable cd : codec.
  Variable src : lkey -> option lentry.
  Hypothesis LI : li_ok li.
  Hypothesis LOK : ledger_ok src.

  Definition rec_outcome (after : store) (p : access * lkey) : outcome :=
    {| oc_access := fst p; oc_key := snd p; oc_item := provided li cd src (snd p);
       oc_restored := match fst p with ReadWrite => archivedb li src (snd p) | ReadOnly => false end;
       oc_after := after (snd p) |}.

  Lemma rec_changes m rs after ks :
    Forall (fun p => key_supported (snd p) = true /\ (archivedb li src (snd p) = true -> fst p = ReadWrite)
                     /\ (fst p = ReadWrite -> key_in (snd p) rs = archivedb li src (snd p))) ks ->
    alive li after -> (forall k v, mget m k = Some v -> after k = v) ->
    exists ch l,
      changes_of cd true (li_seq li) (min_live li Persistent) rs (snapshot_ttl src) m ks
        (map (fun p => option_map tm_size (snd (raw_item cd src (snd p)))) ks) = Ok ch
      /\ Permutation (ch ++ map bare_of (filter (fun p => negb (is_some (mget m (snd p)))) ks)) l
      /\ Forall2 (fun c p => foretells c (report li cd (rec_outcome after p)) \/ c = bare_of p /\ mget m (snd p) = None) l ks
      /\ ((forall p, In p ks -> mget m (snd p) <> None) -> ch = l).
  Proof.
    intros F AL MG. induction F as [|[a k] ks (KS & AR & KI) F IH]; cbn.
    { exists [], []. cbn. auto. }
    destruct IH as (ch & l & C1 & C2 & C3 & C4). destruct (mget m k) as [v|] eqn:G.
    - destruct (rec_change li cd src LI LOK a k rs v KS AR KI) as (c0 & O1 & O2).
      { rewrite <- (MG k v G). apply AL. }
      rewrite O1. cbn [rbind]. rewrite C1. cbn [rbind]. exists (c0 :: ch), (c0 :: l). split; auto. split; [now constructor|].
      split; [|intros H; f_equal; apply C4; auto].
      constructor; auto. left. unfold rec_outcome. cbn. now rewrite (MG k v G).
    - rewrite C1. exists ch, (bare_of (a, k) :: l). split; auto. cbn. split; [|split; [constructor; auto|]].
      + rewrite <- Permutation_middle. now constructor.
      + intros H. now destruct (H (a, k) (or_introl eq_refl)).
  Qed.
End Predict2.

Lemma total_nonneg li cd src ks : 0 <= 0 + total (map (disk_bytes li cd src) ks).
Proof. unfold total. induction ks as [|k ks IH]; cbn; [lia|]. pose proof (disk_bytes_nonneg li cd src k). lia. Qed.
Lemma total_app l l' : total (l ++ l') = total l + total l'.
Proof. unfold total. induction l; cbn; lia. Qed.

Section Prediction.
  Context {P : Type}.
  Variable E : env P.
  Variable cd : codec.

  Lemma ledger_src_ok src : ledger_ok src -> src_ok src.
  Proof.
    intros L k e l SK D. specialize (L k e l SK). assert (KS : key_supported k = true) by (destruct k; auto; cbn in D; congruence).
    specialize (L KS). destruct e; try contradiction; destruct L; auto; congruence.
  Qed.

  Lemma combine_map_r {A B} (g : A -> B) l : combine l (map g l) = map (fun x => (x, g x)) l.
  Proof. induction l; cbn; congruence. Qed.

  Theorem recording_outcome li base src fn : li_ok li -> ledger_ok src ->
    let cr := {| sc_li := li; sc_mode := Recording src; sc_recording_build := true |} in
    exists h r t rec, invoke E cr (fresh_host empty_storage base) fn = (h, r, t)
      /\ sok cr src (h_store h)
      /\ invoke_in_recording_mode E cd li base src fn = Ok rec
      /\ rc_result rec = r
      /\ rc_foot rec = split_foot (st_foot (h_store h))
      /\ rc_restored rec = at_index li src 0 (f_rw (rc_foot rec))
      /\ rc_write rec = write_bytes cd (rc_changes rec)
      /\ rc_disk_read rec = sat_u32 (total (map (disk_bytes li cd src) (f_ro (rc_foot rec) ++ f_rw (rc_foot rec))))
      /\ rc_events rec = match r with Ok _ => filter not_diagnostic (flat_map kept t) | Err _ => [] end
      /\ match r with
         | Err _ => rc_changes rec = []
         | Ok _ => exists l, Permutation (rc_changes rec) l
             /\ Forall2 (fun c p => foretells c (report li cd (rec_outcome li cd src (contents cr (h_store h)) p))
                                    \/ c = bare_of p /\ mget (st_map (h_store h)) (snd p) = None) l (foot_accesses (rc_foot rec))
             /\ (full (h_store h) -> rc_changes rec = l)
         end.
  Proof.
    intros LI LOK cr. destruct (invoke E cr (fresh_host empty_storage base) fn) as [[h r] t] eqn:IV.
    assert (R0 : recording_ok cr empty_storage).
    { exists src. repeat split; auto. now apply ledger_src_ok. intros k o H. discriminate. }
    assert (S0 : sok cr src empty_storage).
    { split; [exact R0|]. split; [constructor|]. split; intros k H; cbn in H; congruence. }
    pose proof (invoke_tracks E cr {| sc_li := li; sc_mode := Enforcing; sc_recording_build := true |} src LI eq_refl eq_refl eq_refl fn
                  (fresh_host empty_storage base) h r t S0 IV) as (S1 & _ & _).
    pose proof S1 as [R1 (ND & KS & MF)].
    exists h, r, t. unfold invoke_in_recording_mode. rewrite (min_live_ok li LI). cbn [rbind].
    fold cr. fold empty_storage. rewrite IV. set (f := split_foot (st_foot (h_store h))).
    assert (PM : Permutation (f_ro f ++ f_rw f) (map fst (st_foot (h_store h)))) by apply split_perm.
    assert (ACC : forall k, access_of f k = fget (st_foot (h_store h)) k) by (intros k; now apply split_access).
    assert (SUP : Forall (fun k => key_supported k = true) (f_ro f ++ f_rw f)).
    { apply Forall_forall. intros k I. apply KS. rewrite <- ACC. unfold access_of.
      apply in_app_or in I. destruct (in_dec _ _ _); [congruence|]. destruct (in_dec _ _ _); [congruence|tauto]. }
    assert (NDf : NoDup (f_ro f ++ f_rw f)) by (eapply Permutation_NoDup; [symmetry; exact PM|exact ND]).
    assert (RO : forall k, In k (f_ro f) -> archivedb li src k = false).
    { intros k I. destruct (archivedb li src k) eqn:A; auto. apply archived_b in A.
      assert (X : fget (st_foot (h_store h)) k = Some ReadOnly) by (rewrite <- ACC; unfold access_of; destruct (in_dec _ _ _); tauto).
      destruct (KS k ltac:(congruence)) as [_ K]. specialize (K A). congruence. }
    destruct (footprint_total f SUP) as [mf ->]. cbn [rbind].
    apply Forall_app in SUP. destruct SUP as [SR SW].
    rewrite (scan_ro_spec li cd src LOK (f_ro f) scan0 0 SR RO); [|lia|reflexivity]. cbn [rbind].
    rewrite (scan_rw_spec li cd src LOK (f_rw f) _ 0 (0 + total (map (disk_bytes li cd src) (f_ro f))) SW);
      [|apply total_nonneg|reflexivity].
    cbn [rbind sn_items sn_restored sn_keys sn_disk app scan0]. rewrite <- map_app.
    unfold build_map. change (foot_keys f) with (f_ro f ++ f_rw f).
    rewrite map_length, Nat.eqb_refl.
    destruct (load_raw li cd src LOK (f_ro f ++ f_rw f) []) as [m' ->]; [now apply Forall_app|]. cbn [rbind fst snd].
    assert (AL : alive li (contents cr (h_store h))) by now apply (recording_alive cr).
    destruct (rec_changes li cd src LI LOK (st_map (h_store h)) (filter (archivedb li src) (f_rw f)) (contents cr (h_store h)) (foot_accesses f))
      as (ch & l & C1 & C2 & C3 & C4).
    { apply Forall_forall. intros [a k] I. cbn [fst snd]. unfold foot_accesses in I. apply in_app_or in I.
      rewrite Forall_forall in SR, SW. destruct I as [I|I]; apply in_map_iff in I; destruct I as (x & [= <- <-] & I).
      - split; auto. split; [rewrite RO by auto; discriminate|discriminate].
      - split; auto. split; auto. intros _. unfold key_in. destruct (in_dec _ _ _) as [J|J].
        + apply filter_In in J. symmetry. apply J.
        + destruct (archivedb li src x) eqn:A; auto. destruct J. apply filter_In. auto. }
    { exact AL. }
    { intros k v G. unfold contents. now rewrite G. }
    destruct r as [v|e].
    - unfold get_ledger_changes. rewrite map_length. change (foot_keys f) with (f_ro f ++ f_rw f). rewrite Nat.eqb_refl.
      rewrite <- (foot_accesses_keys f), map_map. rewrite C1. cbn [rbind fst snd].
      eexists. repeat (split; [reflexivity || exact S1|]). cbn.
      split; [now rewrite map_app, total_app|].
      split; [|exists l; split; [|split; [exact C3|]]].
      + destruct (invoke_events E cr _ _ _ _ _ (eq_refl : h_stack (fresh_host empty_storage base) = []) IV) as [_ PB].
        cbn in PB. rewrite <- PB. reflexivity.
      + rewrite only_perm. exact C2.
      + intros FU. rewrite (only_full _ ND FU), app_nil_r. apply C4. intros p I. apply FU. rewrite <- ACC.
        now apply (access_in f p).
    - cbn [rbind fst snd]. eexists. repeat (split; [reflexivity || exact S1|]). cbn. split; [now rewrite map_app, total_app|]. auto.
  Qed.

  Theorem recording_predicts_full li base src fn : li_ok li -> ledger_ok src ->
    let cr := {| sc_li := li; sc_mode := Recording src; sc_recording_build := true |} in
    exists h r t rec, invoke E cr (fresh_host empty_storage base) fn = (h, r, t)
    /\ invoke_in_recording_mode E cd li base src fn = Ok rec
    /\ NoDup (f_ro (rc_foot rec) ++ f_rw (rc_foot rec))
    /\ input_ok li (rc_foot rec) (rc_restored rec) (map (provided li cd src) (f_ro (rc_foot rec) ++ f_rw (rc_foot rec)))
    /\ (forall k, In k (f_rw (rc_foot rec)) -> (restored_key (rc_foot rec) (rc_restored rec) k = true <-> archived li src k))
    /\ rc_write rec = write_bytes cd (rc_changes rec)
    /\ rc_disk_read rec = sat_u32 (total (map (disk_bytes li cd src) (f_ro (rc_foot rec) ++ f_rw (rc_foot rec))))
    /\ forall build, exists out,
         invoke_host_function E cd li build base (rc_foot rec) (rc_restored rec)
           (map (provided li cd src) (f_ro (rc_foot rec) ++ f_rw (rc_foot rec))) fn = Ok out
         /\ o_result out = rc_result rec /\ o_events out = rc_events rec
         /\ exists l, Permutation (rc_changes rec) l
            /\ Forall2 (fun c d => foretells c d
                                   \/ bare c /\ ch_ro c = ch_ro d /\ ch_key c = ch_key d
                                      /\ ch_value d = (if ch_ro d then None else fst (provided li cd src (ch_key d))))
                       l (o_changes out)
            /\ (full (h_store h) -> Forall2 foretells (rc_changes rec) (o_changes out)).
  Proof.
    intros LI LOK cr0. destruct (recording_outcome li base src fn LI LOK) as (h & r & t & rec & IV & SO & RM & R1 & R2 & R3 & R4 & R4d & R5 & R6).
    set (cr := {| sc_li := li; sc_mode := Recording src; sc_recording_build := true |}) in *.
    exists h, r, t, rec. split; [exact IV|]. split; [exact RM|]. pose proof SO as [RO (ND & KS & MF)].
    rewrite R2 in *. set (f := split_foot (st_foot (h_store h))) in *.
    assert (PM : Permutation (f_ro f ++ f_rw f) (map fst (st_foot (h_store h)))) by apply split_perm.
    assert (ACC : forall k, access_of f k = fget (st_foot (h_store h)) k) by (intros k; now apply split_access).
    assert (INF : forall k, In k (f_ro f ++ f_rw f) <-> access_of f k <> None).
    { intros k. unfold access_of. rewrite in_app_iff. destruct (in_dec _ _ _); [split; [congruence|auto]|].
      destruct (in_dec _ _ _); [split; [congruence|auto]|]. split; [tauto|congruence]. }
    assert (SUP : Forall (fun k => key_supported k = true) (f_ro f ++ f_rw f)).
    { apply Forall_forall. intros k I. apply KS. rewrite <- ACC. now apply INF. }
    assert (NDf : NoDup (f_ro f ++ f_rw f)) by (eapply Permutation_NoDup; [symmetry; exact PM|exact ND]).
    assert (NDw : NoDup (f_rw f)) by (clear - NDf; induction (f_ro f); cbn in NDf; auto; inversion NDf; auto).
    assert (IOK : input_ok li f (rc_restored rec) (map (provided li cd src) (f_ro f ++ f_rw f))).
    { split; [|split; [exact SUP|rewrite R3; apply at_index_range]].
      clear - SUP LI LOK. induction SUP; cbn; constructor; auto. now apply provided_ok. }
    split; [exact NDf|]. split; [exact IOK|].
    split; [intros k I; rewrite R3, restored_at_index by auto; apply archived_b|]. split; [exact R4|]. split; [exact R4d|].
    intros build. destruct (invoke_outcome E cd li build base f (rc_restored rec) _ fn LI NDf IOK) as (s & h2 & r2 & t2 & ST & IV2 & AL2 & _ & _ & OUT).
    set (ce := {| sc_li := li; sc_mode := Enforcing; sc_recording_build := build |}) in *.
    destruct ST as (RU & AL & CT & FG).
    assert (EN : enforcing_ok ce s) by (destruct RU as [EN|(? & X & _)]; [exact EN|discriminate]).
    assert (S0 : sok cr src empty_storage).
    { split; [|split; [constructor|split; intros k H; cbn in H; congruence]].
      exists src. repeat split; auto. now apply ledger_src_ok. intros k o H. discriminate. }
    destruct (invoke_tracks E cr ce src LI eq_refl eq_refl eq_refl fn (fresh_host empty_storage base) h r t S0 IV) as (_ & _ & TR).
    assert (GV : forall k, In k (f_ro f ++ f_rw f) ->
              given (combine (f_ro f ++ f_rw f) (map (provided li cd src) (f_ro f ++ f_rw f))) k = now li k (src k)).
    { intros k I. rewrite (given_in _ _ _ (eq_sym (map_length _ _)) NDf (provided li cd src k)).
      - apply provided_entry. rewrite Forall_forall in SUP. auto.
      - rewrite combine_map_r. apply in_map_iff. exists k. auto. }
    destruct (TR (st_foot s) s) as (e' & IV3 & (F1 & F2 & F3)).
    { split; [reflexivity|]. split; [exact EN|]. intros k F. cbn [fresh_host h_store]. rewrite CT. rewrite FG in F.
      rewrite GV by now apply INF. reflexivity. }
    { intros k a D. assert (X : fget (st_foot s) k = fget (foot h) k) by (unfold foot; rewrite FG; apply ACC).
      unfold declared in *. destruct a; now rewrite X. }
    change (set_store (fresh_host empty_storage base) s) with (fresh_host s base) in IV3.
    rewrite IV2 in IV3. injection IV3 as -> -> ->. rewrite OUT. eexists. split; [reflexivity|]. cbn [o_result o_events o_changes].
    split; [congruence|]. split; [symmetry; exact R5|].
    cbn [set_store h_store] in *.
    destruct r as [v|e]; [|rewrite R6; exists []; auto].
    destruct R6 as (l & PL & F2L & FU). exists l. split; [exact PL|].
    assert (OC : map (report li cd) (outcomes f (rc_restored rec) (map (provided li cd src) (f_ro f ++ f_rw f)) (contents ce e'))
               = map (fun p => report li cd (rec_outcome li cd src (contents cr (h_store h)) p)) (foot_accesses f)).
    { unfold outcomes, positions. fold (foot_accesses f). rewrite <- (foot_accesses_keys f), (map_map snd (provided li cd src)), combine_map_r, !map_map.
      apply map_ext_in. intros [a k] I. f_equal. unfold rec_outcome. cbn [fst snd].
      pose proof (access_in f _ I) as AI. cbn [snd] in AI. rewrite F3 by (rewrite FG; exact AI).
      unfold foot_accesses in I. apply in_app_or in I. destruct I as [I|I]; apply in_map_iff in I; destruct I as (x & [= <- <-] & I); auto.
      rewrite R3, restored_at_index by auto. reflexivity. }
    rewrite OC. split.
    2:{ intros FH. rewrite (FU FH). clear - F2L FH INF ACC.
        assert (IN : forall p, In p (foot_accesses f) -> mget (st_map (h_store h)) (snd p) <> None).
        { intros p I. apply FH. rewrite <- ACC. now apply (access_in f p). }
        clear INF ACC. induction F2L as [|c p l ks H F2L IH]; cbn; constructor.
        - destruct H as [H|[_ N]]; auto. now destruct (IN p (or_introl eq_refl)).
        - apply IH. intros q I. apply IN. now right. }
    clear - F2L SUP.
    assert (SUP' : Forall (fun p => key_supported (snd p) = true) (foot_accesses f)).
    { rewrite Forall_forall in *. intros p I. apply SUP. rewrite <- foot_accesses_keys. now apply in_map. }
    clear SUP. revert SUP'. induction F2L as [|c p l ks H F2L IH]; intros SUP; cbn; [constructor|]. inversion SUP; subst.
    constructor; auto. destruct H as [H|[-> N]]; [left; exact H|right].
    split; [repeat split|]. destruct p as [a k]. cbn in *. split; [destruct a; reflexivity|]. split; [reflexivity|].
    destruct a; [reflexivity|]. cbn. unfold contents. rewrite N. cbn. unfold provided.
    destruct (now li k (src k)) as [[e0 l0]|]; reflexivity.
  Qed.
End Prediction.

Lemma foretold_bytes cd l l' : Forall2 foretells l l' -> write_bytes cd l = write_bytes cd l'.
Proof.
  unfold write_bytes. generalize 0 as n. intros n F. revert n. induction F as [|c d l l' (A & B & C & _) F IH]; intros n; cbn; auto.
  rewrite A, B, C. apply IH.
Qed.
Lemma foretold_rent l l' : Forall2 foretells l l' -> extract_rent_changes l = extract_rent_changes l'.
Proof.
  induction 1 as [|c d l l' (_ & _ & _ & _ & _ & R) F IH]; auto. unfold extract_rent_changes in *. cbn [flat_map] in *.
  rewrite !app_nil_r in R. congruence.
Qed.
