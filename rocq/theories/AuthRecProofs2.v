(* Storages that differ only in how long nonces are kept. *)
From Coq Require Import ZArith Lia List Bool.
From Verif Require Import Prelude ValModel ContainerModel HeapModel AMap StorageModel StorageSpec
  StorageProofs StorageProofs2 StorageLogic StorageProofs3 FrameModel FrameSpec FrameProofs FrameStore FrameProofs2
  AuthModel AuthSpec AuthProofs AuthProofs2 AuthProofs3 AuthRecModel AuthRecSpec AuthRecProofs.
Import ListNotations.
Open Scope Z_scope.

Section Stores.
  Variable c : sconf.
  Hypothesis LI : li_ok (sc_li c).
  Notation li := (sc_li c).

  Definition agree (s e : storage) (k : lkey) : Prop := mget (st_map s) k = mget (st_map e) k.
  Definition nonce_diff (s e : storage) (k : lkey) : Prop :=
    is_nonce k /\ exists l l', mget (st_map s) k = Some (Some (EData SVoid, Some l)) /\ mget (st_map e) k = Some (Some (EData SVoid, Some l'))
      /\ li_seq li <= l /\ li_seq li <= l'.
  Definition nsim (s e : storage) : Prop := st_foot s = st_foot e /\ forall k, agree s e k \/ nonce_diff s e k.
  Lemma nsim_refl s : nsim s s.
  Proof. split; auto. intros k. now left. Qed.
  Lemma nsim_agree s e k : nsim s e -> ~ is_nonce k -> agree s e k.
  Proof. intros [_ H] N. destruct (H k) as [A|[X _]]; auto. contradiction. Qed.

  (* the same answer, and storages that still agree at k *)
  Definition par {A} (k : lkey) (f : storage -> storage * A) : Prop :=
    forall s e, nsim s e -> agree s e k ->
    snd (f e) = snd (f s) /\ nsim (fst (f s)) (fst (f e)) /\ agree (fst (f s)) (fst (f e)) k.

  Lemma nsim_mset s e k v : nsim s e -> nsim (set_map s (mset (st_map s) k v)) (set_map e (mset (st_map e) k v)).
  Proof.
    intros [F H]. split; auto. intros q. unfold agree, nonce_diff. cbn [st_map set_map]. rewrite !mget_mset.
    destruct (lkey_eq_dec q k); [now left|apply H].
  Qed.
  Lemma agree_mset s e k v : agree (set_map s (mset (st_map s) k v)) (set_map e (mset (st_map e) k v)) k.
  Proof. unfold agree. cbn. rewrite !mget_mset. destruct (lkey_eq_dec k k); congruence. Qed.
  Lemma record_maps s k a : st_map (record_access s k a) = st_map s.
  Proof. unfold record_access. destruct (fget (st_foot s) k) as [[|]|], a; reflexivity. Qed.
  Lemma nsim_record s e k a : nsim s e -> nsim (record_access s k a) (record_access e k a).
  Proof.
    intros [F H]. split.
    - unfold record_access. rewrite <- F. destruct (fget (st_foot s) k) as [[|]|], a; cbn; congruence.
    - intros q. unfold agree, nonce_diff. rewrite !record_maps. apply H.
  Qed.
  Lemma agree_record s e k a q : agree s e q -> agree (record_access s k a) (record_access e k a) q.
  Proof. unfold agree. now rewrite !record_maps. Qed.
  Lemma par_handle k : par k (fun s => handle_maybe_expired li s k).
  Proof.
    intros s e N A0. pose proof A0 as A. unfold handle_maybe_expired. unfold agree in A. rewrite <- A. clear A.
    destruct (mget (st_map s) k) as [[[v l]|]|]; cbn; auto.
    destruct (key_durability k) as [d|]; cbn; auto. destruct l as [l|]; cbn; auto.
    destruct (l <? li_seq li); cbn; auto. destruct d; cbn.
    - split; auto. split; [now apply nsim_mset|apply agree_mset].
    - destruct (min_live_until li Persistent) as [n|]; cbn.
      + split; auto. split; [apply nsim_mset; now apply nsim_record|apply agree_mset].
      + split; auto. split; [apply nsim_record, N|now apply agree_record].
  Qed.
  Lemma par_cfg k : par k (fun s => maybe_expired_cfg c s k).
  Proof. intros s e N A. unfold maybe_expired_cfg. destruct (sc_recording_build c); [now apply par_handle|auto]. Qed.
  Lemma par_bind {A B} k (f : storage -> storage * res A) (g : storage -> A -> storage * res B) :
    par k f -> (forall a, par k (fun s => g s a)) ->
    par k (fun s => let '(s1, r) := f s in match r with Err x => (s1, Err x) | Ok a => g s1 a end).
  Proof.
    intros F G s e N AG. destruct (F s e N AG) as (X & Y & Z). destruct (f s) as [s1 r], (f e) as [e1 r']. cbn in *. subst r'.
    destruct r as [a|x]; [exact (G a s1 e1 Y Z)|cbn; auto].
  Qed.
  Lemma par_ret {A} k (r : A) : par k (fun s => (s, r)).
  Proof. intros s e N AG. cbn. auto. Qed.
  Lemma par_prepare k : par k (fun s => prepare_read_only_access c s k).
  Proof.
    intros s e N A. unfold prepare_read_only_access. destruct (sc_mode c) as [|src].
    - cbn. split; auto. unfold enforce_access. now rewrite (proj1 N).
    - cbv zeta. rewrite !record_maps. pose proof A as A0. unfold agree in A. rewrite <- A. clear A.
      destruct (mget (st_map s) k).
      + refine (par_handle k _ _ _ _); [now apply nsim_record, nsim_record|now apply agree_record, agree_record].
      + refine (par_handle k _ _ _ _).
        * apply nsim_record. rewrite <- (record_maps s k ReadOnly) at 1. rewrite <- (record_maps e k ReadOnly) at 1.
          apply nsim_mset. now apply nsim_record.
        * apply agree_record. unfold agree. cbn. rewrite !mget_mset. destruct (lkey_eq_dec k k); congruence.
  Qed.
  Lemma par_get k : par k (fun s => try_get c s k).
  Proof.
    intros s e N A. unfold try_get. destruct (key_supported k); [|cbn; auto].
    destruct (par_prepare k s e N A) as (X & Y & Z). destruct (prepare_read_only_access c s k) as [s1 r], (prepare_read_only_access c e k) as [e1 r'].
    cbn in *. subst r'. destruct r; cbn; auto. pose proof Z as Z0. unfold agree in Z. rewrite <- Z. clear Z. destruct (mget (st_map s1) k); cbn; auto.
  Qed.
  Lemma par_put k v : par k (fun s => put_opt c s k v).
  Proof.
    intros s e N A. unfold put_opt. destruct (negb (key_supported k)); [cbn; auto|].
    match goal with |- context [if ?b then _ else _] => destruct b end; [cbn; auto|].
    destruct (par_cfg k s e N A) as (X & Y & Z). destruct (maybe_expired_cfg c s k) as [s1 r], (maybe_expired_cfg c e k) as [e1 r'].
    cbn in *. subst r'. destruct r; [|cbn; auto]. destruct (sc_mode c).
    - unfold enforce_access. rewrite <- (proj1 Y). 
      destruct (fget (st_foot s1) k) as [[|]|]; cbn; auto. split; auto. split; [now apply nsim_mset|apply agree_mset].
    - cbn. split; auto. split; [apply nsim_mset; now apply nsim_record|apply agree_mset].
  Qed.
  Lemma par_extend k x : par k (fun s => prepare_extend_ttl c s k x).
  Proof.
    intros s e N A. unfold prepare_extend_ttl. destruct (negb (key_supported k)); [cbn; auto|].
    destruct (par_cfg k s e N A) as (X & Y & Z). destruct (maybe_expired_cfg c s k) as [s1 r], (maybe_expired_cfg c e k) as [e1 r'].
    cbn in *. subst r'. destruct r; [|cbn; auto].
    destruct (par_get k s1 e1 Y Z) as (X2 & Y2 & Z2). destruct (try_get c s1 k) as [s2 r], (try_get c e1 k) as [e2 r']. cbn in *. subst r'. auto.
  Qed.
  Lemma par_apply k ti n : par k (fun s => (apply_ttl_extension s k ti n, @Ok unit tt)).
  Proof.
    intros s e N A. unfold apply_ttl_extension. destruct (ti_old ti <? n); cbn; auto.
    split; auto. split; [now apply nsim_mset|apply agree_mset].
  Qed.
  Lemma par_unit k (f : storage -> storage * res unit) : par k f -> par k (fun s => unit_out (f s)).
  Proof. intros F s e N A. destruct (F s e N A) as (X & Y & Z). unfold unit_out. cbn. rewrite X. auto. Qed.
  Lemma par_step op : par (op_key op) (fun s => sstep c s op).
  Proof.
    destruct op; cbn [sstep op_key].
    - intros s e N A. destruct (par_get k s e N A) as (X & Y & Z). destruct (try_get c s k), (try_get c e k). cbn in *. subst. auto.
    - intros s e N A. destruct (par_get k s e N A) as (X & Y & Z). destruct (try_get c s k), (try_get c e k). cbn in *. subst. auto.
    - apply par_unit, par_put.
    - apply par_unit, par_put.
    - apply par_unit. unfold extend_ttl. destruct (extend_to <? threshold); [apply par_ret|].
      apply par_bind; [apply par_extend|]. intros ti. destruct (checked_add_u32 _ _); [|apply par_ret].
      destruct (ti_ttl ti <=? threshold); [apply par_apply|apply par_ret].
    - apply par_unit. unfold extend_ttl_v2. destruct (max_ext <? min_ext); [apply par_ret|].
      apply par_bind; [apply par_extend|]. intros ti. cbv zeta.
      match goal with |- context [if ?b then _ else _] => destruct b end; [apply par_ret|].
      destruct (checked_add_u32 _ _); [apply par_apply|apply par_ret].
  Qed.

  Lemma nsim_rollback s e s1 e1 : nsim s e -> nsim s1 e1 -> nsim (set_map s1 (st_map s)) (set_map e1 (st_map e)).
  Proof. intros [_ H] [F _]. split; [exact F|]. exact H. Qed.
  Lemma nsim_run p : avoids p -> forall s e s' r t, nsim s e -> srun c s p = (s', r, t) ->
    exists e', srun c e p = (e', r, t) /\ nsim s' e'.
  Proof.
    induction p as [r0|op k IH|b IHb k IH]; cbn [avoids srun]; intros V s e s' r t N.
    - intros [= <- <- <-]. eauto.
    - destruct V as [V1 V2]. destruct (par_step op s e N (nsim_agree _ _ _ N V1)) as (X & Y & _).
      destruct (sstep c s op) as [s1 r1], (sstep c e op) as [e1 r1']. cbn in X, Y. subst r1'.
      destruct (srun c s1 (k r1)) as [[s2 r2] t2] eqn:RN. intros [= <- <- <-].
      destruct (IH r1 (V2 r1) s1 e1 _ _ _ Y RN) as (e2 & -> & Z). eauto.
    - destruct V as [V1 V2]. destruct (srun c s b) as [[s1 r1] t1] eqn:RB.
      destruct (IHb V1 s e _ _ _ N RB) as (e1 & -> & Z).
      assert (N2 : nsim (match r1 with Ok _ => s1 | Err _ => set_map s1 (st_map s) end) (match r1 with Ok _ => e1 | Err _ => set_map e1 (st_map e) end)).
      { destruct r1; auto. now apply nsim_rollback. }
      destruct (srun c _ (k r1)) as [[s2 r2] t2] eqn:RN. intros [= <- <- <-].
      destruct (IH r1 (V2 r1) _ _ _ _ _ N2 RN) as (e2 & -> & Y). eauto.
  Qed.

  (* consuming the same nonce for another time *)
  Lemma nsim_consume s e a n l l' s' o t : nsim s e -> li_seq li <= l -> li_seq li <= l' ->
    srun c s (consume_nonce li a n l) = (s', Ok o, t) ->
    exists e' o' t', srun c e (consume_nonce li a n l') = (e', Ok o', t') /\ nsim s' e'.
  Proof.
    intros N L1 L2. unfold consume_nonce, get_min_live_until. rewrite (min_live_ok li Temporary LI).
    set (ml := min_live li Temporary). set (key := LKData a (SLedgerKeyNonce n) Temporary).
    assert (KN : is_nonce key) by (exists a, n; reflexivity).
    unfold phas, psucc. cbn [srun].
    destruct (sstep c s (SHas key)) as [s1 r1] eqn:H1. intros RN.
    assert (AG : agree s e key).
    { destruct (proj2 N key) as [A|(_ & x & x' & X1 & X2 & X3 & X4)]; auto. exfalso.
      assert (HT : exists s2, try_get c s key = (s2, Ok (Some (EData SVoid, Some x))) \/ exists er, try_get c s key = (s2, Err er)).
      { unfold try_get. cbn [key_supported key]. unfold prepare_read_only_access. destruct (sc_mode c).
        - destruct (enforce_access s key ReadOnly); fold key; [|eauto]. rewrite X1. eauto.
        - fold key. cbv zeta. rewrite !record_maps, X1. unfold handle_maybe_expired. rewrite !record_maps, X1. cbn [key_durability key].
          fold key. destruct (Z.ltb_spec x (li_seq li)); [lia|]. rewrite !record_maps, X1. eauto. }
      cbn [sstep] in H1. destruct HT as (s2 & [HT|(er & HT)]); rewrite HT in H1; injection H1 as <- <-; cbn in RN; discriminate. }
    destruct (par_step (SHas key) s e N AG) as (X & Y & Z). cbn [op_key] in Z. rewrite H1 in X, Y, Z.
    destruct (sstep c e (SHas key)) as [e1 r1']. cbn [fst snd] in X, Y, Z. subst r1'.
    destruct r1 as [x|er]; [|discriminate]. destruct x as [|[|]|]; try discriminate. cbn [pput psucc srun] in RN |- *.
    cbn [sstep] in RN |- *. unfold unit_out in RN |- *.
    unfold put_opt in RN |- *. cbn [key_supported key negb entry_supported] in RN |- *. fold key in RN |- *.
    destruct (par_cfg key s1 e1 Y Z) as (X2 & Y2 & Z2).
    destruct (maybe_expired_cfg c s1 key) as [s2 r2], (maybe_expired_cfg c e1 key) as [e2 r2']. cbn [fst snd] in X2, Y2, Z2. subst r2'.
    destruct r2 as [u|er]; [|discriminate].
    assert (DIFF : forall s3 e3, nsim s3 e3 -> nsim (set_map s3 (mset (st_map s3) key (Some (EData SVoid, Some (Z.max l ml)))))
                                           (set_map e3 (mset (st_map e3) key (Some (EData SVoid, Some (Z.max l' ml)))))).
    { intros s3 e3 [F H]. split; auto. intros q. unfold agree, nonce_diff. cbn [st_map set_map]. rewrite !mget_mset.
      destruct (lkey_eq_dec q key) as [->|]; [|apply H]. right. split; auto. do 2 eexists. split; [reflexivity|]. split; [reflexivity|]. lia. }
    destruct (sc_mode c).
    - unfold enforce_access in RN |- *. rewrite <- (proj1 Y2).
      destruct (fget (st_foot s2) key) as [[|]|]; cbn in RN |- *; try discriminate. injection RN as <- <- _. eauto 10.
    - cbv zeta in RN |- *. cbn [fst snd rmap] in RN |- *. cbn in RN |- *. injection RN as <- <- _. do 3 eexists. split; [reflexivity|].
      rewrite !record_maps. 
      rewrite <- (record_maps s2 key ReadWrite) at 1. rewrite <- (record_maps e2 key ReadWrite) at 1. apply DIFF. now apply nsim_record.
  Qed.

  Lemma nsim_ledger s e : nsim s e -> same_ledger (contents c s) (contents c e).
  Proof.
    intros [_ H] k. unfold contents. destruct (H k) as [A|(N & l & l' & X & Y & _)].
    - left. unfold agree in A. now rewrite A.
    - right. split; auto. rewrite X, Y. eauto.
  Qed.
End Stores.
