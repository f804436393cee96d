(* Single storage calls and flat histories. *)
From Coq Require Import ZArith Lia List Bool.
From Verif Require Import Prelude ValModel ContainerModel HeapModel AMap StorageModel StorageSpec StorageProofs StorageProofs2 StorageLogic.
Import ListNotations.
Open Scope Z_scope.

Lemma with_live_entry m k f k' : option_map fst (fst (with_live m k f) k') = option_map fst (m k').
Proof.
  unfold with_live. destruct (m k) as [[e [l|]]|] eqn:M; cbn [fst]; auto. destruct (f l); cbn [fst]; auto.
  unfold upd. destruct (lkey_eq_dec k' k) as [->|]; auto. now rewrite M.
Qed.

Lemma meaning_written li m op k :
  option_map fst (fst (meaning li m op) k) = written k (option_map fst (m k)) (op, snd (meaning li m op)).
Proof.
  unfold meaning. destruct (bad_args op); [destruct op; reflexivity|].
  destruct op; cbn [fst snd written]; auto; try apply with_live_entry;
    unfold upd; match goal with |- context [lkey_eq_dec k ?x] => destruct (lkey_eq_dec k x), (lkey_eq_dec x k) end;
    try reflexivity; subst; contradiction.
Qed.

Theorem last_write c p : li_ok (sc_li c) -> flat p -> forall s s' r t, run_ok c s -> srun c s p = (s', r, t) -> writes_ok c t ->
  (forall k, option_map fst (contents c s' k) = last_written k (option_map fst (contents c s k)) t)
  /\ (forall t1 k v t2, t = t1 ++ (SGet k, Ok (OEntry v)) :: t2 ->
      option_map fst v = last_written k (option_map fst (contents c s k)) t1)
  /\ (forall t1 k b t2, t = t1 ++ (SHas k, Ok (OBool b)) :: t2 ->
      b = match last_written k (option_map fst (contents c s k)) t1 with Some _ => true | None => false end).
Proof.
  intros LI. induction p as [r0|op k IH|body IHb k IH]; intros FL s s' r t R E W; [| |destruct FL].
  - cbn in E. injection E as <- <- <-. split; [reflexivity|]. split; intros [|? ?]; discriminate.
  - cbn in E. destruct (sstep c s op) as [s1 r1] eqn:ST. destruct (srun c s1 (k r1)) as [[s2 r2] t2] eqn:RN.
    injection E as <- <- <-. apply writes_ok_cons in W as [W1 W2].
    pose proof (step_correct c s op s1 r1 LI R W1 ST) as SO. destruct (step_run_ok c s op s1 r1 R SO) as (R1 & _ & _).
    assert (WR : forall q, option_map fst (contents c s1 q) = written q (option_map fst (contents c s q)) (op, r1)).
    { intros q. destruct SO as [(-> & CS & _)|(_ & _ & _ & -> & ->)].
      - rewrite CS. apply meaning_written.
      - destruct op; reflexivity. }
    destruct (IH r1 (FL r1) s1 s2 r2 t2 R1 RN W2) as (A & B & C). unfold last_written in *.
    split; [|split].
    + intros q. rewrite A, WR. reflexivity.
    + intros [|x t1] q v t3 X; cbn in X.
      * apply (f_equal (hd (op, r1))) in X as X1. cbn in X1. apply pair_equal_spec in X1. destruct X1 as [-> ->].
        destruct SO as [(Er & _)|(_ & _ & _ & Er & _)]; [|discriminate].
        unfold meaning in Er. destruct (bad_args (SGet q)); [discriminate|]. cbn in Er. injection Er as ->. reflexivity.
      * injection X as <- X. cbn [fold_left]. rewrite <- WR. eapply B; eauto.
    + intros [|x t1] q v t3 X; cbn in X.
      * apply (f_equal (hd (op, r1))) in X as X1. cbn in X1. apply pair_equal_spec in X1. destruct X1 as [-> ->].
        destruct SO as [(Er & _)|(_ & _ & _ & Er & _)]; [|discriminate].
        unfold meaning in Er. destruct (bad_args (SHas q)); [discriminate|]. cbn in Er. injection Er as ->. cbn.
        now destruct (contents c s q).
      * injection X as <- X. cbn [fold_left]. rewrite <- WR. eapply C; eauto.
Qed.

(* ---------------------------------------------------------------- TTL extension *)

Lemma extend_facts c s k thr ext s' r : li_ok (sc_li c) -> run_ok c s -> sstep c s (SExtend k thr ext) = (s', r) ->
  let li := sc_li c in
  (forall k', k' <> k -> contents c s' k' = contents c s k')
  /\ match r with
     | Err _ => contents c s' k = contents c s k
     | Ok _ =>
         thr <= ext
         /\ exists e old d, contents c s k = Some (e, Some old) /\ key_durability k = Some d /\ li_seq li <= old
            /\ (d = Temporary -> li_seq li + ext <= max_live li)
            /\ contents c s' k = Some (e, Some (if old - li_seq li <=? thr then Z.max old (Z.min (li_seq li + ext) (max_live li)) else old))
     end.
Proof.
  intros LI R E li. destruct (step_correct c s (SExtend k thr ext) s' r LI R (fun _ => I) E) as [(-> & CS & _)|(_ & _ & _ & -> & ->)]; [|auto].
  split.
  { intros k' N. rewrite CS. apply meaning_other. exact N. }
  rewrite CS. fold li. unfold meaning, bad_args. cbn [op_key]. destruct (Z.ltb_spec ext thr); [reflexivity|].
  destruct (key_supported k); [|reflexivity]. unfold with_live. destruct (contents c s k) as [[e [old|]]|] eqn:C; cbn [fst snd]; auto.
  unfold extended. destruct (key_durability k) as [d|] eqn:D; cbn [fst snd]; auto. destruct (Z.ltb_spec old (li_seq li)); cbn [fst snd]; auto.
  destruct (match d with Temporary => _ | Persistent => false end) eqn:T; cbn [fst snd]; auto.
  destruct (u32_max <? _); cbn [fst snd]; auto. split; [auto|]. exists e, old, d. split; [auto|]. split; [auto|]. split; [auto|].
  split; [|now rewrite upd_eq]. intros ->. apply Z.ltb_ge in T. exact T.
Qed.

Lemma extend_ok c s k thr ext e old d : li_ok (sc_li c) -> run_ok c s ->
  (sc_mode c = Enforcing -> declared (st_foot s) k ReadOnly) ->
  let li := sc_li c in
  thr <= ext -> contents c s k = Some (e, Some old) -> key_durability k = Some d -> li_seq li <= old ->
  (d = Temporary -> li_seq li + ext <= max_live li) -> li_seq li + ext <= u32_max ->
  snd (sstep c s (SExtend k thr ext)) = Ok OUnit.
Proof.
  intros LI R F li TE C D O T U. destruct (sstep c s (SExtend k thr ext)) as [s' r] eqn:E.
  destruct (step_correct c s (SExtend k thr ext) s' r LI R (fun _ => I) E) as [(-> & CS & _)|(M & _ & N & _ & _)]; [|destruct (N (F M))].
  cbn [snd]. fold li. assert (K : key_supported k = true) by (destruct k; auto; discriminate).
  unfold meaning, bad_args. cbn [op_key]. destruct (Z.ltb_spec ext thr); [lia|]. rewrite K. unfold with_live. rewrite C.
  unfold extended. rewrite D. destruct (Z.ltb_spec old (li_seq li)); [lia|].
  assert (X : match d with Temporary => max_live li <? li_seq li + ext | Persistent => false end = false).
  { destruct d; auto. specialize (T eq_refl). destruct (Z.ltb_spec (max_live li) (li_seq li + ext)); auto; lia. }
  rewrite X. destruct (Z.ltb_spec u32_max (li_seq li + ext)); [lia|]. reflexivity.
Qed.

Lemma extend_v2_facts c s k ext mn mx s' r : li_ok (sc_li c) -> run_ok c s -> 0 <= mn -> sstep c s (SExtendV2 k ext mn mx) = (s', r) ->
  let li := sc_li c in
  (forall k', k' <> k -> contents c s' k' = contents c s k')
  /\ match r with
     | Err _ => contents c s' k = contents c s k
     | Ok _ =>
         mn <= mx
         /\ exists e old d by_, contents c s k = Some (e, Some old) /\ key_durability k = Some d /\ li_seq li <= old
            /\ (d = Temporary -> li_seq li + ext <= max_live li)
            /\ contents c s' k = Some (e, Some (old + by_))
            /\ 0 <= by_ <= mx
            /\ (by_ = 0 \/ mn <= by_ /\ old + by_ <= max_live li /\ old + by_ <= li_seq li + ext)
            /\ (forall b, mn <= b <= mx -> old + b <= max_live li -> old + b <= li_seq li + ext -> b <= by_)
     end.
Proof.
  intros LI R MN E li. destruct (step_correct c s (SExtendV2 k ext mn mx) s' r LI R (fun _ => I) E) as [(-> & CS & _)|(_ & _ & _ & -> & ->)]; [|auto].
  split.
  { intros k' N. rewrite CS. apply meaning_other. exact N. }
  rewrite CS. fold li. unfold meaning, bad_args. cbn [op_key]. destruct (Z.ltb_spec mx mn); [reflexivity|].
  destruct (key_supported k); [|reflexivity]. unfold with_live. destruct (contents c s k) as [[e [old|]]|] eqn:C; cbn [fst snd]; auto.
  unfold extended_v2. destruct (key_durability k) as [d|] eqn:D; cbn [fst snd]; auto. destruct (Z.ltb_spec old (li_seq li)); cbn [fst snd]; auto.
  destruct (match d with Temporary => _ | Persistent => false end) eqn:T; cbn [fst snd]; auto.
  cbv zeta. set (a := Z.min (Z.min _ mx) _). 
  assert (TT : d = Temporary -> li_seq li + ext <= max_live li) by (intros ->; apply Z.ltb_ge in T; exact T).
  destruct (Z.ltb_spec a mn).
  - cbn [fst snd]. split; [auto|]. exists e, old, d, 0. rewrite upd_eq, Z.add_0_r.
    do 5 (split; [auto|]). split; [lia|]. split; [auto|]. intros b B1 B2 B3. unfold a in *. lia.
  - destruct (u32_max <? _); cbn [fst snd]; auto. split; [auto|]. exists e, old, d, a.
    rewrite upd_eq. do 4 (split; [auto|]). split; [f_equal; f_equal; f_equal; lia|].
    unfold a in *. split; [lia|]. split; [lia|]. intros b B1 B2 B3. lia.
Qed.

Lemma extend_v2_ok c s k ext mn mx e old d : li_ok (sc_li c) -> run_ok c s ->
  (sc_mode c = Enforcing -> declared (st_foot s) k ReadOnly) ->
  let li := sc_li c in
  mn <= mx -> contents c s k = Some (e, Some old) -> key_durability k = Some d -> li_seq li <= old <= u32_max ->
  (d = Temporary -> li_seq li + ext <= max_live li) ->
  snd (sstep c s (SExtendV2 k ext mn mx)) = Ok OUnit.
Proof.
  intros LI R F li TE C D O T. destruct (sstep c s (SExtendV2 k ext mn mx)) as [s' r] eqn:E.
  destruct (step_correct c s (SExtendV2 k ext mn mx) s' r LI R (fun _ => I) E) as [(-> & CS & _)|(M & _ & N & _ & _)]; [|destruct (N (F M))].
  cbn [snd]. fold li. assert (K : key_supported k = true) by (destruct k; auto; discriminate).
  unfold meaning, bad_args. cbn [op_key]. destruct (Z.ltb_spec mx mn); [lia|]. rewrite K. unfold with_live. rewrite C.
  unfold extended_v2. rewrite D. destruct (Z.ltb_spec old (li_seq li)); [lia|].
  assert (X : match d with Temporary => max_live li <? li_seq li + ext | Persistent => false end = false).
  { destruct d; auto. specialize (T eq_refl). destruct (Z.ltb_spec (max_live li) (li_seq li + ext)); auto; lia. }
  rewrite X. cbv zeta. set (a := Z.min (Z.min _ mx) _). destruct (a <? mn); [reflexivity|].
  destruct LI as (_ & _ & _ & _ & _ & _ & LM). fold li in LM. destruct (Z.ltb_spec u32_max (old + a)); [unfold a in *; lia|reflexivity].
Qed.

(* ---------------------------------------------------------------- expired entries *)

Lemma expired_temp_missing c s k src e l : li_ok (sc_li c) -> recording_ok c s -> sc_mode c = Recording src ->
  key_durability k = Some Temporary -> mget (st_map s) k = None -> src k = Some (e, Some l) -> l < li_seq (sc_li c) ->
  snd (sstep c s (SGet k)) = Ok (OEntry None) /\ snd (sstep c s (SHas k)) = Ok (OBool false).
Proof.
  intros LI R M D G S L. assert (K : key_supported k = true) by (destruct k; auto; discriminate).
  assert (C : contents c s k = None).
  { unfold contents. rewrite G, M. unfold now. rewrite S, D. destruct (Z.ltb_spec l (li_seq (sc_li c))); [reflexivity|lia]. }
  split.
  - destruct (sstep c s (SGet k)) as [s' r] eqn:E.
    destruct (step_correct c s (SGet k) s' r LI (or_intror R) (fun _ => I) E) as [(-> & _)|(X & _)]; [|congruence].
    cbn [snd]. unfold meaning, bad_args. cbn [op_key]. rewrite K. cbn. now rewrite C.
  - destruct (sstep c s (SHas k)) as [s' r] eqn:E.
    destruct (step_correct c s (SHas k) s' r LI (or_intror R) (fun _ => I) E) as [(-> & _)|(X & _)]; [|congruence].
    cbn [snd]. unfold meaning, bad_args. cbn [op_key]. rewrite K. cbn. now rewrite C.
Qed.

(* ---------------------------------------------------------------- contracts *)

Theorem contract_enforced c p s s' r t : li_ok (sc_li c) -> enforcing_ok c s -> alive (sc_li c) (contents c s) ->
  srun c s (compile (sc_li c) p) = (s', r, t) ->
  st_foot s' = st_foot s /\ Forall (enforced (st_foot s)) t /\ keeps (st_foot s) (contents c s) (contents c s').
Proof.
  intros LI EN A E. destruct (contract_writes c p s s' r t LI (or_introl EN) A E) as [_ W].
  exact (run_enforced c _ LI (proj1 EN) s s' r t EN E (fun _ => W)).
Qed.

Theorem contract_replay cr ce src p : li_ok (sc_li cr) -> src_ok src ->
  sc_mode cr = Recording src -> sc_recording_build cr = true -> sc_mode ce = Enforcing -> sc_li ce = sc_li cr ->
  forall s' r t, srun cr empty_storage (compile (sc_li cr) p) = (s', r, t) ->
  exists e', srun ce (loaded (sc_li cr) src (st_foot s')) (compile (sc_li cr) p) = (e', r, t)
  /\ st_foot e' = st_foot s'
  /\ (forall k, fget (st_foot s') k <> None -> contents ce e' k = contents cr s' k)
  /\ (forall k, fget (st_foot s') k = None -> contents cr s' k = now (sc_li cr) k (src k)).
Proof.
  intros LI SO M B ME SL s' r t E.
  assert (R0 : recording_ok cr empty_storage).
  { exists src. split; [exact M|]. split; [exact SO|]. split; [exact B|]. intros k o H. discriminate. }
  destruct (contract_writes cr p _ s' r t LI (or_intror R0) (recording_alive cr _ LI R0) E) as [_ W].
  exact (record_replay cr ce src _ LI SO M B ME SL s' r t E (fun _ => W)).
Qed.

Theorem contract_reads c p s s' r t : li_ok (sc_li c) -> run_ok c s -> alive (sc_li c) (contents c s) ->
  srun c s (compile (sc_li c) p) = (s', r, t) ->
  forall k e l, In (SGet k, Ok (OEntry (Some (e, l)))) t -> live (sc_li c) k (Some (e, l)).
Proof.
  intros LI R A E. destruct (contract_writes c p s s' r t LI R A E) as [_ W].
  exact (proj2 (reads_are_live c _ LI s s' r t R A E W)).
Qed.

Lemma get_has_del_correct c s a k d s' r t : li_ok (sc_li c) -> run_ok c s ->
  (srun c s (get_contract_data a k d) = (s', r, t) ->
     (forall k', contents c s' k' = contents c s k')
     /\ (forall o, r = Ok o -> exists v l, o = OEntry (Some (EData v, l)) /\ contents c s (LKData a k d) = Some (EData v, l)))
  /\ (srun c s (has_contract_data a k d) = (s', r, t) ->
     (forall k', contents c s' k' = contents c s k')
     /\ (forall o, r = Ok o -> exists b, o = OBool b /\ (b = true <-> contents c s (LKData a k d) <> None)))
  /\ (srun c s (del_contract_data a k d) = (s', r, t) ->
     (forall k', k' <> LKData a k d -> contents c s' k' = contents c s k')
     /\ (contents c s' (LKData a k d) = if is_ok r then None else contents c s (LKData a k d))).
Proof.
  intros LI R. split; [|split]; intros E.
  - refine (proj1 (wp_sound c _ LI s (fun m r => (forall k', m k' = contents c s k')
      /\ (forall o, r = Ok o -> exists v l, o = OEntry (Some (EData v, l)) /\ contents c s (LKData a k d) = Some (EData v, l))) s' r t R _ _ E)).
    + intros m m' q S [A B]. split; auto. intros k'. rewrite <- S. auto.
    + unfold get_contract_data. apply wp_pget; auto; try (split; [auto|discriminate]).
      intros [e l] M. destruct e; try (split; [auto|discriminate]). cbn. split; [auto|]. intros o [= <-]. eauto.
  - refine (proj1 (wp_sound c _ LI s (fun m r => (forall k', m k' = contents c s k')
      /\ (forall o, r = Ok o -> exists b, o = OBool b /\ (b = true <-> contents c s (LKData a k d) <> None))) s' r t R _ _ E)).
    + intros m m' q S [A B]. split; auto. intros k'. rewrite <- S. auto.
    + unfold has_contract_data. apply wp_psucc; [exact I|split; [auto|discriminate]| |intros e X; discriminate X].
      intros o [= <-]. split; [auto|]. intros o [= <-]. eexists. split; [reflexivity|].
      destruct (contents c s (LKData a k d)); split; congruence.
  - refine (proj1 (wp_sound c _ LI s (fun m r => (forall k', k' <> LKData a k d -> m k' = contents c s k')
      /\ (m (LKData a k d) = if is_ok r then None else contents c s (LKData a k d))) s' r t R _ _ E)).
    + intros m m' q S [A B]. split; [|now rewrite <- S]. intros k'. rewrite <- S. auto.
    + destruct k; cbn [del_contract_data]; [..|idtac];
        try (apply wp_sdel; [reflexivity|split; [auto|reflexivity]|cbn [wp]; split; [intros k' N; now apply upd_ne|now rewrite upd_eq]]);
        cbn; (split; [auto|reflexivity]).
Qed.

Lemma put_contract_data_succeeds c s a k v d : li_ok (sc_li c) -> run_ok c s -> alive (sc_li c) (contents c s) ->
  (sc_mode c = Enforcing -> declared (st_foot s) (LKData a k d) ReadWrite) ->
  (forall tag, k <> SExecutableTag tag) ->
  (forall e l, contents c s (LKData a k d) = Some (e, l) -> exists w, e = EData w) ->
  snd (fst (srun c s (put_contract_data (sc_li c) a k v d))) = Ok OUnit.
Proof.
  intros LI R A F NT ED.
  assert (P : put_contract_data (sc_li c) a k v d = put_data_into_ledger (sc_li c) (LKData a k d) d v).
  { unfold put_contract_data, validate_put. destruct k; auto. exfalso. eapply NT; reflexivity. }
  rewrite P. unfold put_data_into_ledger, phas, psucc. set (key := LKData a k d) in *.
  assert (K : key_supported key = true) by reflexivity.
  (* every call below is accepted *)
  assert (STEP : forall s op, run_ok c s -> (sc_mode c = Enforcing -> declared (st_foot s) key ReadWrite) ->
    op_key op = key -> write_ok (sc_li c) op -> exists s1, sstep c s op = (s1, snd (meaning (sc_li c) (contents c s) op))
      /\ run_ok c s1 /\ (sc_mode c = Enforcing -> declared (st_foot s1) key ReadWrite)
      /\ (forall q, contents c s1 q = fst (meaning (sc_li c) (contents c s) op) q)).
  { intros s0 op R0 F0 OK W. destruct (sstep c s0 op) as [s1 r1] eqn:ST.
    pose proof (step_correct c s0 op s1 r1 LI R0 (fun _ => W) ST) as SO.
    destruct (step_run_ok c s0 op s1 r1 R0 SO) as (R1 & _ & FF).
    destruct SO as [(-> & CS & _)|(M & _ & N & _)].
    - exists s1. split; auto. split; auto. split; auto. intros M. rewrite (FF M). auto.
    - exfalso. apply N. rewrite OK. specialize (F0 M). destruct (op_access op); auto. eapply declared_weaken. exact F0. }
  cbn [srun]. destruct (STEP s (SHas key) R F eq_refl I) as (s1 & E1 & R1 & F1 & C1). rewrite E1.
  unfold meaning, bad_args in C1 |- *. cbn [op_key] in *. rewrite K in *. cbn [fst snd] in *.
  destruct (contents c s key) as [[e l]|] eqn:C.
  - destruct (ED e l eq_refl) as (w & ->).
    unfold pget, psucc. cbn [srun]. destruct (STEP s1 (SGet key) R1 F1 eq_refl I) as (s2 & E2 & R2 & F2 & C2). rewrite E2.
    unfold meaning, bad_args in C2 |- *. cbn [op_key] in *. rewrite K in *. cbn [fst snd] in *. rewrite C1, C.
    unfold pput, psucc. cbn [srun].
    destruct (STEP s2 (SPut key (EData v) l) R2 F2 eq_refl) as (s3 & E3 & R3 & F3 & C3).
    { cbn. pose proof (A key) as L. rewrite C in L. exact L. }
    rewrite E3. unfold meaning, bad_args. rewrite K. reflexivity.
  - unfold get_min_live_until. rewrite (min_live_ok _ _ LI). unfold pput, psucc. cbn [srun].
    destruct (STEP s1 (SPut key (EData v) (Some (min_live (sc_li c) d))) R1 F1 eq_refl) as (s3 & E3 & R3 & F3 & C3).
    { cbn. intros _. eexists. split; [reflexivity|]. now apply min_live_ge. }
    rewrite E3. unfold meaning, bad_args. rewrite K. reflexivity.
Qed.
