(* Runs of programs on storage. *)
From Coq Require Import ZArith Lia List Bool.
From Verif Require Import Prelude ValModel ContainerModel HeapModel AMap StorageModel StorageSpec StorageProofs.
Import ListNotations.
Open Scope Z_scope.

(* ---------------------------------------------------------------- the meaning is local *)

Lemma with_live_local m m' k f : m k = m' k ->
  snd (with_live m k f) = snd (with_live m' k f) /\ fst (with_live m k f) k = fst (with_live m' k f) k.
Proof.
  intros E. unfold with_live. rewrite <- E. destruct (m k) as [[e [l|]]|] eqn:Mk; cbn [fst snd]; auto.
  - destruct (f l); cbn [fst snd]; rewrite ?upd_eq; auto. split; congruence.
  - split; congruence.
  - split; congruence.
Qed.
Lemma with_live_other m k f k' : k' <> k -> fst (with_live m k f) k' = m k'.
Proof.
  intros N. unfold with_live. destruct (m k) as [[e [l|]]|]; cbn [fst]; auto. destruct (f l); cbn [fst]; auto. now apply upd_ne.
Qed.

Lemma meaning_local li m m' op : m (op_key op) = m' (op_key op) ->
  snd (meaning li m op) = snd (meaning li m' op)
  /\ fst (meaning li m op) (op_key op) = fst (meaning li m' op) (op_key op).
Proof.
  intros E. unfold meaning. destruct (bad_args op); [auto|].
  destruct op; cbn [op_key fst snd] in *; rewrite ?upd_eq; auto; try (now rewrite E); now apply with_live_local.
Qed.

Lemma meaning_other li m op k : k <> op_key op -> fst (meaning li m op) k = m k.
Proof.
  intros N. unfold meaning. destruct (bad_args op); [auto|].
  destruct op; cbn [op_key] in N; cbn [fst]; auto; try (now apply upd_ne); now apply with_live_other.
Qed.

Lemma meaning_ext li m m' op : (forall k, m k = m' k) ->
  snd (meaning li m op) = snd (meaning li m' op) /\ forall k, fst (meaning li m op) k = fst (meaning li m' op) k.
Proof.
  intros E. destruct (meaning_local li m m' op (E _)) as [A B]. split; auto. intros k.
  destruct (lkey_eq_dec k (op_key op)) as [->|N]; auto. rewrite !meaning_other; auto.
Qed.

Lemma meaning_run_ext li p : forall m m', (forall k, m k = m' k) ->
  let '(m1, r, t) := meaning_run li m p in
  let '(m1', r', t') := meaning_run li m' p in
  (forall k, m1 k = m1' k) /\ r = r' /\ t = t'.
Proof.
  induction p as [r|op k IH|body IHb k IH]; intros m m' E.
  - cbn. auto.
  - cbn. destruct (meaning_ext li m m' op E) as [A B].
    destruct (meaning li m op) as [m1 r1], (meaning li m' op) as [m1' r1']. cbn in A, B. subst r1'.
    specialize (IH r1 m1 m1' B). destruct (meaning_run li m1 (k r1)) as [[m2 r2] t2], (meaning_run li m1' (k r1)) as [[m2' r2'] t2'].
    destruct IH as (X & -> & ->). auto.
  - cbn. specialize (IHb m m' E). destruct (meaning_run li m body) as [[m1 r1] t1], (meaning_run li m' body) as [[m1' r1'] t1'].
    destruct IHb as (X & -> & ->).
    assert (Y : forall q, (match r1' with Ok _ => m1 | Err _ => m end) q = (match r1' with Ok _ => m1' | Err _ => m' end) q)
      by (destruct r1'; auto).
    specialize (IH r1' _ _ Y). destruct (meaning_run li _ (k r1')) as [[m2 r2] t2], (meaning_run li _ (k r1')) as [[m2' r2'] t2'].
    destruct IH as (Z & -> & ->). auto.
Qed.

(* ---------------------------------------------------------------- invariants of runs *)

Lemma writes_ok_cons c op r t : writes_ok c ((op, r) :: t) ->
  (sc_recording_build c = true -> write_ok (sc_li c) op) /\ writes_ok c t.
Proof. intros W. split; intros B; specialize (W B); inversion W; auto. Qed.
Lemma writes_ok_app c t t' : writes_ok c (t ++ t') -> writes_ok c t /\ writes_ok c t'.
Proof. intros W. split; intros B; specialize (W B); apply Forall_app in W; tauto. Qed.

(* undoing a frame keeps the invariant *)
Lemma rollback_ok c s s1 : run_ok c s -> run_ok c s1 -> covers (st_foot s) (st_foot s1) ->
  (sc_mode c = Enforcing -> st_foot s1 = st_foot s) -> run_ok c (set_map s1 (st_map s)).
Proof.
  intros R R1 C F. destruct R as [(M & L & A)|(src & M & SO & B & A)].
  - left. split; [exact M|]. split; [|exact A]. intros k Fk. cbn in *. rewrite (F M) in Fk. auto.
  - right. exists src. auto.
Qed.

Lemma step_run_ok c s op s' r : run_ok c s -> step_ok c s op s' r -> run_ok c s' /\ covers (st_foot s) (st_foot s')
  /\ (sc_mode c = Enforcing -> st_foot s' = st_foot s).
Proof.
  intros R [(_ & _ & _ & A & B & C)|(_ & _ & _ & _ & ->)]; auto. split; auto. split; [apply covers_refl|auto].
Qed.

Lemma srun_ok c p : li_ok (sc_li c) -> forall s s' r t, run_ok c s -> srun c s p = (s', r, t) -> writes_ok c t ->
  run_ok c s' /\ covers (st_foot s) (st_foot s') /\ (sc_mode c = Enforcing -> st_foot s' = st_foot s).
Proof.
  intros LI. induction p as [r0|op k IH|body IHb k IH]; intros s s' r t R E W.
  - cbn in E. injection E as <- <- <-. split; auto. split; [apply covers_refl|auto].
  - cbn in E. destruct (sstep c s op) as [s1 r1] eqn:ST. destruct (srun c s1 (k r1)) as [[s2 r2] t2] eqn:RN.
    injection E as <- <- <-. apply writes_ok_cons in W as [W1 W2].
    destruct (step_run_ok c s op s1 r1 R (step_correct c s op s1 r1 LI R W1 ST)) as (A & B & C).
    destruct (IH r1 s1 s2 r2 t2 A RN W2) as (A2 & B2 & C2). split; auto. split; [eapply covers_trans; eauto|].
    intros M. rewrite (C2 M). auto.
  - cbn in E. destruct (srun c s body) as [[s1 r1] t1] eqn:BD.
    set (s2 := match r1 with Ok _ => s1 | Err _ => set_map s1 (st_map s) end) in E.
    destruct (srun c s2 (k r1)) as [[s3 r3] t3] eqn:RN. injection E as <- <- <-.
    apply writes_ok_app in W as [W1 W2]. destruct (IHb s s1 r1 t1 R BD W1) as (A & B & C).
    assert (A2 : run_ok c s2) by (unfold s2; destruct r1; auto; now apply rollback_ok).
    assert (F2 : st_foot s2 = st_foot s1) by (unfold s2; now destruct r1).
    destruct (IH r1 s2 s3 r3 t3 A2 RN W2) as (A3 & B3 & C3). split; auto.
    rewrite F2 in B3, C3. split; [eapply covers_trans; eauto|]. intros M. rewrite (C3 M). auto.
Qed.

(* ---------------------------------------------------------------- the footprint is enforced *)

Lemma only_longer_refl v : only_longer v v.
Proof. destruct v as [[e [l|]]|]; cbn; auto with zarith. Qed.
Lemma only_longer_trans a b c : only_longer a b -> only_longer b c -> only_longer a c.
Proof.
  destruct a as [[e [l|]]|], b as [[e' [l'|]]|], c as [[e'' [l''|]]|]; cbn; try tauto; intros [-> ?] [-> ?]; split; auto; lia.
Qed.

Lemma extended_ge li k old t x n : extended li k old t x = Ok n -> old <= n.
Proof.
  unfold extended. destruct (key_durability k) as [d|]; [|discriminate]. destruct (old <? li_seq li); [discriminate|].
  destruct (match d with Temporary => _ | Persistent => false end); [discriminate|]. destruct (u32_max <? _); [discriminate|].
  destruct (_ <=? t); intros [= <-]; lia.
Qed.
Lemma extended_v2_ge li k old x mn mx n : extended_v2 li k old x mn mx = Ok n -> old <= n.
Proof.
  unfold extended_v2. destruct (key_durability k) as [d|]; [|discriminate]. destruct (old <? li_seq li); [discriminate|].
  destruct (match d with Temporary => _ | Persistent => false end); [discriminate|]. cbv zeta.
  destruct (_ <? mn); [intros [= <-]; lia|]. destruct (u32_max <? _); [discriminate|]. intros [= <-]; lia.
Qed.

Lemma with_live_longer m k f : (forall o n, f o = Ok n -> o <= n) -> only_longer (m k) (fst (with_live m k f) k).
Proof.
  intros G. unfold with_live. destruct (m k) as [[e [l|]]|] eqn:M; cbn [fst]; rewrite ?M; try apply only_longer_refl.
  destruct (f l) as [n|x] eqn:F; cbn [fst]; rewrite ?upd_eq, ?M; cbn; split; auto; try lia; now apply G.
Qed.

Lemma meaning_readonly li m op : op_access op = ReadOnly -> only_longer (m (op_key op)) (fst (meaning li m op) (op_key op)).
Proof.
  intros A. unfold meaning. destruct (bad_args op); [apply only_longer_refl|].
  destruct op; try discriminate; cbn [op_key fst]; try apply only_longer_refl; apply with_live_longer; intros o n E.
  - eapply extended_ge; eauto.
  - eapply extended_v2_ge; eauto.
Qed.

Lemma keeps_refl f m : keeps f m m.
Proof. intros k. split; auto. intros _. apply only_longer_refl. Qed.
Lemma keeps_trans f a b c : keeps f a b -> keeps f b c -> keeps f a c.
Proof.
  intros A B k. destruct (A k) as [A1 A2], (B k) as [B1 B2]. split.
  - intros F. rewrite B1; auto.
  - intros F. eapply only_longer_trans; eauto.
Qed.

Lemma step_enforced c s op s' r : sc_mode c = Enforcing -> step_ok c s op s' r ->
  enforced (st_foot s) (op, r) /\ keeps (st_foot s) (contents c s) (contents c s').
Proof.
  intros M [(-> & CS & D & R & Cv & F)|(_ & BA & ND & -> & ->)].
  - rewrite (F M) in D. split.
    + split; cbn [fst snd].
      * intros O. apply D. unfold meaning in O. destruct (bad_args op); [discriminate|reflexivity].
      * intros BA ND. destruct (ND (D BA)).
    + intros k. rewrite CS. destruct (lkey_eq_dec k (op_key op)) as [->|N].
      * destruct (bad_args op) eqn:BA.
        { unfold meaning. rewrite BA. split; auto. intros _. apply only_longer_refl. }
        specialize (D eq_refl). split.
        -- intros Fk. apply declared_weaken in D. cbn in D. congruence.
        -- intros Fk. apply meaning_readonly. destruct (op_access op) eqn:A; auto. cbn in D. congruence.
      * rewrite meaning_other; auto. split; auto. intros _. apply only_longer_refl.
  - split; [|apply keeps_refl]. split; cbn [fst snd]; [discriminate|auto].
Qed.

Theorem run_enforced c p : li_ok (sc_li c) -> sc_mode c = Enforcing -> forall s s' r t, enforcing_ok c s ->
  srun c s p = (s', r, t) -> writes_ok c t ->
  st_foot s' = st_foot s /\ Forall (enforced (st_foot s)) t /\ keeps (st_foot s) (contents c s) (contents c s').
Proof.
  intros LI M. 
  assert (G : forall s s' r t, run_ok c s -> srun c s p = (s', r, t) -> writes_ok c t ->
    Forall (enforced (st_foot s)) t /\ keeps (st_foot s) (contents c s) (contents c s')).
  { induction p as [r0|op k IH|body IHb k IH]; intros s s' r t R E W.
    - cbn in E. injection E as <- <- <-. split; [constructor|apply keeps_refl].
    - cbn in E. destruct (sstep c s op) as [s1 r1] eqn:ST. destruct (srun c s1 (k r1)) as [[s2 r2] t2] eqn:RN.
      injection E as <- <- <-. apply writes_ok_cons in W as [W1 W2].
      pose proof (step_correct c s op s1 r1 LI R W1 ST) as SO.
      destruct (step_run_ok c s op s1 r1 R SO) as (A & _ & F). destruct (step_enforced c s op s1 r1 M SO) as [EN KP].
      destruct (IH r1 s1 s2 r2 t2 A RN W2) as [A2 K2]. rewrite (F M) in A2, K2.
      split; [constructor; auto|]. eapply keeps_trans; eauto.
    - cbn in E. destruct (srun c s body) as [[s1 r1] t1] eqn:BD.
      set (s2 := match r1 with Ok _ => s1 | Err _ => set_map s1 (st_map s) end) in E.
      destruct (srun c s2 (k r1)) as [[s3 r3] t3] eqn:RN. injection E as <- <- <-.
      apply writes_ok_app in W as [W1 W2]. destruct (IHb s s1 r1 t1 R BD W1) as [A K].
      destruct (srun_ok c body LI s s1 r1 t1 R BD W1) as (R1 & Cv & F).
      assert (R2 : run_ok c s2) by (unfold s2; destruct r1; auto; now apply rollback_ok).
      assert (F2 : st_foot s2 = st_foot s) by (unfold s2; destruct r1; exact (F M)).
      assert (K2 : keeps (st_foot s) (contents c s) (contents c s2)) by (unfold s2; destruct r1; [exact K|apply keeps_refl]).
      destruct (IH r1 s2 s3 r3 t3 R2 RN W2) as [A3 K3]. rewrite F2 in A3, K3.
      split; [apply Forall_app; auto|]. eapply keeps_trans; eauto. }
  intros s s' r t R E W. destruct (srun_ok c p LI s s' r t (or_introl R) E W) as (_ & _ & F).
  split; [auto|]. exact (G s s' r t (or_introl R) E W).
Qed.

(* ---------------------------------------------------------------- storage is a store *)

Theorem run_is_meaning c p : li_ok (sc_li c) -> forall s s' r t, run_ok c s -> srun c s p = (s', r, t) -> writes_ok c t ->
  (sc_mode c = Enforcing -> Forall (fun q => bad_args (fst q) = None -> declared (st_foot s) (op_key (fst q)) (op_access (fst q))) t) ->
  exists m', meaning_run (sc_li c) (contents c s) p = (m', r, t) /\ forall k, contents c s' k = m' k.
Proof.
  intros LI. induction p as [r0|op k IH|body IHb k IH]; intros s s' r t R E W D.
  - cbn in E. injection E as <- <- <-. eexists. split; [reflexivity|auto].
  - cbn in E. destruct (sstep c s op) as [s1 r1] eqn:ST. destruct (srun c s1 (k r1)) as [[s2 r2] t2] eqn:RN.
    injection E as <- <- <-. apply writes_ok_cons in W as [W1 W2].
    pose proof (step_correct c s op s1 r1 LI R W1 ST) as SO. destruct (step_run_ok c s op s1 r1 R SO) as (R1 & Cv & F).
    destruct SO as [(Er & CS & _ & _ & _ & _)|(M & BA & ND & _ & _)].
    2:{ specialize (D M). apply Forall_inv in D. destruct (ND (D BA)). }
    destruct (IH r1 s1 s2 r2 t2 R1 RN W2) as (m2 & MR & C2).
    { intros M. specialize (D M). apply Forall_inv_tail in D. now rewrite (F M). }
    cbn. destruct (meaning (sc_li c) (contents c s) op) as [m1 q] eqn:ME. cbn in Er, CS. subst q.
    pose proof (meaning_run_ext (sc_li c) (k r1) (contents c s1) m1 CS) as X. rewrite MR in X.
    destruct (meaning_run (sc_li c) m1 (k r1)) as [[m3 r3] t3]. destruct X as (X & <- & <-).
    exists m3. split; [reflexivity|]. intros q. now rewrite C2, X.
  - cbn in E. destruct (srun c s body) as [[s1 r1] t1] eqn:BD.
    set (s2 := match r1 with Ok _ => s1 | Err _ => set_map s1 (st_map s) end) in E.
    destruct (srun c s2 (k r1)) as [[s3 r3] t3] eqn:RN. injection E as <- <- <-.
    apply writes_ok_app in W as [W1 W2].
    destruct (srun_ok c body LI s s1 r1 t1 R BD W1) as (R1 & Cv & F).
    assert (R2 : run_ok c s2) by (unfold s2; destruct r1; auto; now apply rollback_ok).
    destruct (IHb s s1 r1 t1 R BD W1) as (m1 & MB & C1).
    { intros M. specialize (D M). apply Forall_app in D. tauto. }
    destruct (IH r1 s2 s3 r3 t3 R2 RN W2) as (m3 & M3 & C3).
    { intros M. specialize (D M). apply Forall_app in D. 
      replace (st_foot s2) with (st_foot s) by (unfold s2; destruct r1; symmetry; exact (F M)). tauto. }
    cbn. rewrite MB.
    assert (Y : forall q, contents c s2 q = (match r1 with Ok _ => m1 | Err _ => contents c s end) q)
      by (unfold s2; destruct r1; auto).
    pose proof (meaning_run_ext (sc_li c) (k r1) _ _ Y) as X. rewrite M3 in X.
    destruct (meaning_run (sc_li c) (match r1 with Ok _ => m1 | Err _ => contents c s end) (k r1)) as [[m4 r4] t4]. destruct X as (X & <- & <-).
    exists m4. split; [reflexivity|]. intros q. now rewrite C3, X.
Qed.

(* ---------------------------------------------------------------- recording then replaying *)

Lemma replay_run cr ce p : li_ok (sc_li cr) -> sc_li ce = sc_li cr -> sc_recording_build cr = true ->
  forall s s' r t e, recording_ok cr s -> enforcing_ok ce e ->
  srun cr s p = (s', r, t) -> writes_ok cr t -> covers (st_foot s') (st_foot e) ->
  (forall k, fget (st_foot e) k <> None -> contents ce e k = contents cr s k) ->
  exists e', srun ce e p = (e', r, t) /\ st_foot e' = st_foot e /\ enforcing_ok ce e'
  /\ (forall k, fget (st_foot e) k <> None -> contents ce e' k = contents cr s' k).
Proof.
  intros LI SL RB. induction p as [r0|op k IH|body IHb k IH]; intros s s' r t e R EN E W CV AG.
  - cbn in E. injection E as <- <- <-. exists e. cbn. auto.
  - cbn in E. destruct (sstep cr s op) as [s1 r1] eqn:ST. destruct (srun cr s1 (k r1)) as [[s2 r2] t2] eqn:RN.
    injection E as <- <- <-. apply writes_ok_cons in W as [W1 W2].
    pose proof (step_correct cr s op s1 r1 LI (or_intror R) W1 ST) as SO.
    destruct (step_run_ok cr s op s1 r1 (or_intror R) SO) as (R1 & _ & _).
    destruct SO as [(Er & CS & D & _ & Cv1 & _)|(M & _)]; [|destruct R as (src & M' & _); congruence].
    assert (R1' : recording_ok cr s1).
    { destruct R1 as [(M & _)|R1]; auto. destruct R as (src & M' & _); congruence. }
    destruct (srun_ok cr (k r1) LI s1 s2 r2 t2 (or_intror R1') RN W2) as (_ & Cv2 & _).
    assert (LIe : li_ok (sc_li ce)) by now rewrite SL.
    destruct (sstep ce e op) as [e1 q1] eqn:STe.
    assert (We : sc_recording_build ce = true -> write_ok (sc_li ce) op) by (intros _; rewrite SL; auto).
    pose proof (step_correct ce e op e1 q1 LIe (or_introl EN) We STe) as SOe.
    destruct (step_run_ok ce e op e1 q1 (or_introl EN) SOe) as (Re1 & _ & Fe). pose proof EN as (Me & _). specialize (Fe Me).
    assert (EN1 : enforcing_ok ce e1).
    { destruct Re1 as [X|(src & X & _)]; auto. congruence. }
    destruct SOe as [(Eq & CSe & De & _ & _ & _)|(_ & BA & ND & _ & _)].
    2:{ destruct (ND (CV _ _ (Cv2 _ _ (D BA)))). }
    assert (KD : bad_args op = None -> fget (st_foot e) (op_key op) <> None).
    { intros BA. specialize (De BA). rewrite Fe in De. apply declared_weaken in De. exact De. }
    assert (QR : q1 = r1 /\ (forall q, fget (st_foot e) q <> None -> contents ce e1 q = contents cr s1 q)).
    { destruct (bad_args op) as [x|] eqn:BA.
      - rewrite Eq, Er. unfold meaning. rewrite BA. cbn. split; auto. intros q Fq. rewrite CS, CSe. unfold meaning. rewrite BA. cbn. auto.
      - destruct (meaning_local (sc_li cr) (contents ce e) (contents cr s) op (AG _ (KD eq_refl))) as [ML1 ML2].
        rewrite SL in *. split; [congruence|]. intros q Fq. rewrite CS, CSe.
        destruct (lkey_eq_dec q (op_key op)) as [->|N]; auto. rewrite !meaning_other; auto. }
    destruct QR as [-> AG1].
    destruct (IH r1 s1 s2 r2 t2 e1 R1' EN1 RN W2) as (e2 & RE & FE & EN2 & AG2).
    { rewrite Fe. exact CV. } { rewrite Fe. exact AG1. }
    exists e2. cbn. rewrite STe, RE. rewrite Fe in *. auto.
  - cbn in E. destruct (srun cr s body) as [[s1 r1] t1] eqn:BD.
    set (s2 := match r1 with Ok _ => s1 | Err _ => set_map s1 (st_map s) end) in E.
    destruct (srun cr s2 (k r1)) as [[s3 r3] t3] eqn:RN. injection E as <- <- <-.
    apply writes_ok_app in W as [W1 W2].
    destruct (srun_ok cr body LI s s1 r1 t1 (or_intror R) BD W1) as (R1 & Cv & _).
    assert (R1' : recording_ok cr s1).
    { destruct R1 as [(M & _)|R1]; auto. destruct R as (src & M' & _); congruence. }
    assert (R2 : recording_ok cr s2).
    { unfold s2; destruct r1; [exact R1'|]. destruct R as (src & ? & ? & ? & ?). exists src. auto. }
    destruct (srun_ok cr (k r1) LI s2 s3 r3 t3 (or_intror R2) RN W2) as (_ & Cv3 & _).
    assert (F2 : st_foot s2 = st_foot s1) by (unfold s2; now destruct r1). rewrite F2 in Cv3.
    destruct (IHb s s1 r1 t1 e R EN BD W1) as (e1 & RE1 & FE1 & EN1 & AG1); auto.
    { eapply covers_trans; eauto. }
    set (e2 := match r1 with Ok _ => e1 | Err _ => set_map e1 (st_map e) end).
    assert (FE2 : st_foot e2 = st_foot e) by (unfold e2; destruct r1; auto).
    assert (EN2 : enforcing_ok ce e2).
    { unfold e2; destruct r1; auto. destruct EN as (A & B & C). split; [exact A|]. split; [|exact C]. cbn. rewrite FE1. exact B. }
    assert (AG2 : forall q, fget (st_foot e2) q <> None -> contents ce e2 q = contents cr s2 q).
    { rewrite FE2. intros q Fq. unfold e2, s2. destruct r1; [now apply AG1|now apply AG]. }
    destruct (IH r1 s2 s3 r3 t3 e2 R2 EN2 RN W2) as (e3 & RE3 & FE3 & EN3 & AG3).
    { now rewrite FE2. } { exact AG2. }
    exists e3. cbn. rewrite RE1. fold e2. rewrite RE3. rewrite FE2 in *. auto.
Qed.

Lemma loaded_get li src f k : mget (st_map (loaded li src f)) k = match fget f k with Some _ => Some (now li k (src k)) | None => None end.
Proof.
  unfold loaded, mget, fget. cbn [st_map]. induction f as [|[k' a] f IH]; cbn; auto.
  destruct (lkey_eq_dec k k') as [->|N]; auto.
Qed.

(* keys never recorded were never touched *)
Lemma untouched_recording cr p : li_ok (sc_li cr) -> forall s s' r t, recording_ok cr s -> srun cr s p = (s', r, t) -> writes_ok cr t ->
  forall k, fget (st_foot s') k = None -> contents cr s' k = contents cr s k.
Proof.
  intros LI. induction p as [r0|op k IH|body IHb k IH]; intros s s' r t R E W q Fq.
  - cbn in E. injection E as <- <- <-. auto.
  - cbn in E. destruct (sstep cr s op) as [s1 r1] eqn:ST. destruct (srun cr s1 (k r1)) as [[s2 r2] t2] eqn:RN.
    injection E as <- <- <-. apply writes_ok_cons in W as [W1 W2].
    pose proof (step_correct cr s op s1 r1 LI (or_intror R) W1 ST) as SO.
    destruct (step_run_ok cr s op s1 r1 (or_intror R) SO) as (R1 & _ & _).
    destruct SO as [(Er & CS & D & _ & Cv1 & _)|(M & _)]; [|destruct R as (src & M' & _); congruence].
    assert (R1' : recording_ok cr s1).
    { destruct R1 as [(M & _)|R1]; auto. destruct R as (src & M' & _); congruence. }
    destruct (srun_ok cr (k r1) LI s1 s2 r2 t2 (or_intror R1') RN W2) as (_ & Cv2 & _).
    rewrite (IH r1 s1 s2 r2 t2 R1' RN W2 q Fq), CS. destruct (lkey_eq_dec q (op_key op)) as [->|N].
    + destruct (bad_args op) eqn:BA; [unfold meaning; now rewrite BA|].
      specialize (D eq_refl). apply declared_weaken in D. apply Cv2 in D. cbn in D. congruence.
    + now apply meaning_other.
  - cbn in E. destruct (srun cr s body) as [[s1 r1] t1] eqn:BD.
    set (s2 := match r1 with Ok _ => s1 | Err _ => set_map s1 (st_map s) end) in E.
    destruct (srun cr s2 (k r1)) as [[s3 r3] t3] eqn:RN. injection E as <- <- <-.
    apply writes_ok_app in W as [W1 W2].
    destruct (srun_ok cr body LI s s1 r1 t1 (or_intror R) BD W1) as (R1 & Cv & _).
    assert (R1' : recording_ok cr s1).
    { destruct R1 as [(M & _)|R1]; auto. destruct R as (src & M' & _); congruence. }
    assert (R2 : recording_ok cr s2).
    { unfold s2; destruct r1; [exact R1'|]. destruct R as (src & ? & ? & ? & ?). exists src. auto. }
    destruct (srun_ok cr (k r1) LI s2 s3 r3 t3 (or_intror R2) RN W2) as (_ & Cv3 & _).
    rewrite (IH r1 s2 s3 r3 t3 R2 RN W2 q Fq).
    assert (F1 : fget (st_foot s1) q = None).
    { destruct (fget (st_foot s1) q) eqn:X; auto. exfalso.
      assert (Y : declared (st_foot s2) q ReadOnly) by (unfold s2; destruct r1; cbn; congruence).
      apply Cv3 in Y. cbn in Y. congruence. }
    unfold s2. destruct r1; [|reflexivity]. exact (IHb s s1 _ t1 R BD W1 q F1). 
Qed.
Lemma untouched_run c p : li_ok (sc_li c) -> forall s s' r t, run_ok c s -> srun c s p = (s', r, t) -> writes_ok c t ->
  forall k, fget (st_foot s') k = None -> contents c s' k = contents c s k.
Proof.
  intros LI s s' r t [R|R] E W k F; [|eapply untouched_recording; eauto].
  destruct (run_enforced c p LI (proj1 R) s s' r t R E W) as (A & _ & K). apply K. now rewrite <- A.
Qed.

Theorem record_replay cr ce src p : li_ok (sc_li cr) -> src_ok src ->
  sc_mode cr = Recording src -> sc_recording_build cr = true -> sc_mode ce = Enforcing -> sc_li ce = sc_li cr ->
  forall s' r t, srun cr empty_storage p = (s', r, t) -> writes_ok cr t ->
  exists e', srun ce (loaded (sc_li cr) src (st_foot s')) p = (e', r, t)
  /\ st_foot e' = st_foot s'
  /\ (forall k, fget (st_foot s') k <> None -> contents ce e' k = contents cr s' k)
  /\ (forall k, fget (st_foot s') k = None -> contents cr s' k = now (sc_li cr) k (src k)).
Proof.
  intros LI SO MR RB ME SL s' r t E W.
  assert (R0 : recording_ok cr empty_storage).
  { exists src. split; [exact MR|]. split; [exact SO|]. split; [exact RB|]. intros k o H. discriminate. }
  assert (EN : enforcing_ok ce (loaded (sc_li cr) src (st_foot s'))).
  { split; [exact ME|]. split.
    - intros k F. rewrite loaded_get. cbn in F. destruct (fget (st_foot s') k); congruence.
    - intros _ k o G. rewrite loaded_get in G. destruct (fget (st_foot s') k); [|discriminate]. injection G as <-.
      rewrite SL. apply now_live; auto. intros e l. apply SO. }
  destruct (replay_run cr ce p LI SL RB empty_storage s' r t _ R0 EN E W) as (e' & A & B & C & D).
  { cbn. apply covers_refl. }
  { intros k F. unfold contents. rewrite loaded_get. cbn in F. rewrite MR. cbn.
    destruct (fget (st_foot s') k); congruence. }
  exists e'. split; [exact A|]. split; [exact B|]. split; [exact D|].
  intros k F. rewrite (untouched_recording cr p LI empty_storage s' r t R0 E W k F). unfold contents. cbn. now rewrite MR.
Qed.

(* ---------------------------------------------------------------- liveness *)

Lemma meaning_alive li m op : write_ok li op -> alive li m -> alive li (fst (meaning li m op)).
Proof.
  intros W A k. destruct (lkey_eq_dec k (op_key op)) as [->|N]; [|rewrite meaning_other; auto].
  unfold meaning. destruct (bad_args op); [apply A|].
  assert (WL : forall k f, (forall o n, f o = Ok n -> o <= n) -> live li k (fst (with_live m k f) k)).
  { intros q f G. pose proof (A q) as Aq. unfold with_live. destruct (m q) as [[e [l|]]|] eqn:M; cbn [fst]; rewrite ?M; auto.
    destruct (f l) as [n|x] eqn:F; cbn [fst]; rewrite ?upd_eq, ?M; auto. intros D. destruct (Aq D) as (y & [= <-] & L).
    exists n. split; auto. specialize (G _ _ F). lia. }
  destruct op; cbn [op_key fst]; rewrite ?upd_eq; auto.
  - apply WL. intros o n. apply extended_ge.
  - apply WL. intros o n. apply extended_v2_ge.
Qed.

Theorem reads_are_live c p : li_ok (sc_li c) -> forall s s' r t, run_ok c s -> alive (sc_li c) (contents c s) ->
  srun c s p = (s', r, t) -> Forall (fun q => write_ok (sc_li c) (fst q)) t ->
  alive (sc_li c) (contents c s')
  /\ forall k e l, In (SGet k, Ok (OEntry (Some (e, l)))) t -> live (sc_li c) k (Some (e, l)).
Proof.
  intros LI. induction p as [r0|op k IH|body IHb k IH]; intros s s' r t R A E W.
  - cbn in E. injection E as <- <- <-. split; auto. intros k e l [].
  - cbn in E. destruct (sstep c s op) as [s1 r1] eqn:ST. destruct (srun c s1 (k r1)) as [[s2 r2] t2] eqn:RN.
    injection E as <- <- <-. inversion W as [|x y W1 W2]; subst. cbn [fst] in W1.
    pose proof (step_correct c s op s1 r1 LI R (fun _ => W1) ST) as SO.
    destruct (step_run_ok c s op s1 r1 R SO) as (R1 & _ & _).
    assert (A1 : alive (sc_li c) (contents c s1)).
    { destruct SO as [(_ & CS & _)|(_ & _ & _ & _ & ->)]; auto. intros q. rewrite CS. now apply meaning_alive. }
    destruct (IH r1 s1 s2 r2 t2 R1 A1 RN W2) as [A2 L2]. split; auto.
    intros q e l [X|X]; [|eauto]. apply pair_equal_spec in X. destruct X as [-> ->].
    destruct SO as [(Er & _)|(_ & _ & _ & Er & _)]; [|discriminate].
    unfold meaning in Er. destruct (bad_args (SGet q)); [discriminate|]. cbn in Er. injection Er as Er. rewrite Er. apply A.
  - cbn in E. destruct (srun c s body) as [[s1 r1] t1] eqn:BD.
    set (s2 := match r1 with Ok _ => s1 | Err _ => set_map s1 (st_map s) end) in E.
    destruct (srun c s2 (k r1)) as [[s3 r3] t3] eqn:RN. injection E as <- <- <-.
    apply Forall_app in W as [W1 W2]. destruct (IHb s s1 r1 t1 R A BD W1) as [A1 L1].
    destruct (srun_ok c body LI s s1 r1 t1 R BD (fun _ => W1)) as (R1 & Cv & F).
    assert (R2 : run_ok c s2) by (unfold s2; destruct r1; auto; now apply rollback_ok).
    assert (A2 : alive (sc_li c) (contents c s2)) by (unfold s2; destruct r1; auto).
    destruct (IH r1 s2 s3 r3 t3 R2 A2 RN W2) as [A3 L3]. split; auto.
    intros q e l X. apply in_app_or in X. destruct X; eauto.
Qed.

Lemma recording_alive c s : li_ok (sc_li c) -> recording_ok c s -> alive (sc_li c) (contents c s).
Proof.
  intros LI (src & M & SO & B & A) k. unfold contents. rewrite M. destruct (mget (st_map s) k) as [o|] eqn:G.
  - now apply A.
  - apply now_live; auto. intros e l. apply SO.
Qed.

(* reading an archived entry records it read-write *)
Lemma restored_is_read_write c s k s' r src e l : li_ok (sc_li c) -> recording_ok c s -> sc_mode c = Recording src ->
  key_durability k = Some Persistent -> mget (st_map s) k = None -> src k = Some (e, Some l) -> l < li_seq (sc_li c) ->
  sstep c s (SGet k) = (s', r) ->
  r = Ok (OEntry (Some (e, Some (min_live (sc_li c) Persistent)))) /\ declared (st_foot s') k ReadWrite.
Proof.
  intros LI R M D G S L E. cbn in E. unfold try_get, prepare_read_only_access in E. rewrite M in E.
  assert (K : key_supported k = true) by (destruct k; auto; discriminate). rewrite K in E.
  rewrite record_map, G in E.
  set (s3 := record_access _ k ReadOnly) in E.
  assert (V : mget (st_map s3) k = Some (Some (e, Some l))).
  { unfold s3. rewrite record_map. cbn [st_map set_map]. rewrite ?record_map, mget_mset, S. destruct (lkey_eq_dec k k) as [_|N]; [reflexivity|destruct (N eq_refl)]. }
  destruct (handle_expired (sc_li c) s3 k (Some (e, Some l)) LI V) as (s4 & H & G4 & _ & _ & _ & X); [congruence|].
  rewrite H, G4 in E. cbn in E. unfold now in *. rewrite D in *. destruct (Z.ltb_spec l (li_seq (sc_li c))); [|lia].
  apply pair_equal_spec in E. destruct E as [<- <-]. split; auto.
  destruct X as [X|[X|X]]; [|discriminate|exact X]. injection X as X. pose proof (min_live_ge (sc_li c) Persistent LI). lia.
Qed.
