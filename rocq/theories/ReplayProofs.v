(* A recorded invocation replays: what an enforcing host does from the recorded
   footprint.  First storage programs, then whole invocations. *)
From Coq Require Import ZArith Lia List Bool.
From Verif Require Import Prelude ValModel ContainerModel HeapModel AMap StorageModel StorageSpec
  StorageProofs StorageProofs2 StorageLogic StorageProofs3 FrameModel FrameSpec FrameProofs FrameStore.
Import ListNotations.
Open Scope Z_scope.

(* ---------------------------------------------------------------- the recorded footprint *)


Definition sinv (li : linfo) (src : lkey -> option lentry) (s : storage) : Prop :=
  NoDup (map fst (st_foot s))
  /\ (forall k, fget (st_foot s) k <> None -> key_supported k = true /\ (archived li src k -> fget (st_foot s) k = Some ReadWrite))
  /\ (forall k, mget (st_map s) k <> None -> fget (st_foot s) k <> None).

Lemma fset_NoDup m k (a : access) : NoDup (map fst m) -> NoDup (map fst (fset m k a)).
Proof. apply aset_NoDup. Qed.

Lemma record_NoDup s k a : NoDup (map fst (st_foot s)) -> NoDup (map fst (st_foot (record_access s k a))).
Proof. intros H. unfold record_access. destruct (fget (st_foot s) k) as [[|]|], a; cbn; auto using fset_NoDup. Qed.
Lemma record_get s k a : fget (st_foot (record_access s k a)) k <> None.
Proof. pose proof (record_declared s k a) as D. apply declared_weaken in D. exact D. Qed.
Lemma record_keeps s k a k' : fget (st_foot s) k' <> None -> fget (st_foot (record_access s k a)) k' <> None.
Proof. intros H. exact (record_covers s k a k' ReadOnly H). Qed.
Lemma record_keeps_rw s k a k' : fget (st_foot s) k' = Some ReadWrite -> fget (st_foot (record_access s k a)) k' = Some ReadWrite.
Proof. intros H. exact (record_covers s k a k' ReadWrite H). Qed.

Section Record.
  Variable cr : sconf.
  Variable src : lkey -> option lentry.
  Hypothesis LI : li_ok (sc_li cr).
  Hypothesis MODE : sc_mode cr = Recording src.
  Hypothesis RB : sc_recording_build cr = true.
  Notation li := (sc_li cr).

  Lemma inv_record s k a : sinv li src s -> key_supported k = true -> (archived li src k -> a = ReadWrite \/ fget (st_foot s) k <> None) ->
    sinv li src (record_access s k a).
  Proof.
    intros (A & B & C) KS AR. split; [now apply record_NoDup|]. split.
    - intros k' F. destruct (lkey_eq_dec k' k) as [->|N].
      + split; auto. intros H. destruct (AR H) as [->|G].
        * exact (record_declared s k ReadWrite).
        * apply record_keeps_rw. now apply B.
      + rewrite record_other in * by auto. now apply B.
    - intros k' F. rewrite record_map in F. apply record_keeps. now apply C.
  Qed.
  Lemma inv_mset s k v : sinv li src s -> fget (st_foot s) k <> None -> sinv li src (set_map s (mset (st_map s) k v)).
  Proof.
    intros (A & B & C) F. split; [exact A|]. split; [exact B|]. cbn. intros k' G. rewrite mget_mset in G.
    destruct (lkey_eq_dec k' k) as [->|]; auto.
  Qed.

  Lemma inv_prepare s k s' r : all_live cr s -> sinv li src s -> key_supported k = true ->
    prepare_read_only_access cr s k = (s', r) -> sinv li src s' /\ fget (st_foot s') k <> None.
  Proof.
    intros AL I KS. unfold prepare_read_only_access. rewrite MODE. cbv zeta. rewrite record_map.
    destruct (mget (st_map s) k) as [o|] eqn:M.
    - assert (F : fget (st_foot s) k <> None) by (apply I; congruence).
      assert (R1 : record_access s k ReadOnly = s).
      { unfold record_access. destruct (fget (st_foot s) k) as [[|]|]; congruence. }
      rewrite !R1. rewrite handle_live; [|intros o' G; now apply (AL k)]. intros [= <- <-]. auto.
    - set (s1 := set_map _ _). 
      assert (R1 : record_access s1 k ReadOnly = s1).
      { pose proof (record_get s k ReadOnly) as G. unfold record_access at 1. 
        change (st_foot s1) with (st_foot (record_access s k ReadOnly)). destruct (fget _ k) as [[|]|]; congruence. }
      rewrite R1. unfold handle_maybe_expired.
      assert (M1 : mget (st_map s1) k = Some (src k)).
      { unfold s1. cbn. rewrite mget_mset. destruct (lkey_eq_dec k k); congruence. }
      rewrite M1.
      assert (G1 : fget (st_foot s1) k <> None) by exact (record_get s k ReadOnly).
      (* everything but the access of k itself *)
      assert (NA : ~ archived li src k -> sinv li src s1).
      { intros NA. unfold s1. rewrite <- (record_map s k ReadOnly) at 1. apply inv_mset; [|exact G1]. apply inv_record; auto. }
      destruct (src k) as [[e l]|] eqn:SK.
      2:{ intros [= <- <-]. split; auto. apply NA. intros (_ & e & l & X & _). congruence. }
      destruct (key_durability k) as [d|] eqn:KD.
      2:{ intros [= <- <-]. split; auto. apply NA. intros (X & _). congruence. }
      destruct l as [l|].
      2:{ intros [= <- <-]. split; auto. apply NA. intros (_ & e' & l' & X & _). congruence. }
      destruct (Z.ltb_spec l (li_seq li)) as [LT|LT].
      2:{ intros [= <- <-]. split; auto. apply NA. intros (_ & e' & l' & X & Y). rewrite SK in X. injection X as <- <-. lia. }
      destruct d.
      + intros [= <- <-]. split; [|exact G1]. apply inv_mset; auto. apply NA. intros (X & _). congruence.
      + assert (IV : sinv li src (record_access s1 k ReadWrite)).
        { destruct I as (A & B & C). split; [apply record_NoDup; apply (record_NoDup s k ReadOnly A)|]. split.
          - intros k' F. destruct (lkey_eq_dec k' k) as [->|N].
            + split; auto. intros _. exact (record_declared s1 k ReadWrite).
            + rewrite record_other in * by auto. change (st_foot s1) with (st_foot (record_access s k ReadOnly)) in *.
              rewrite record_other in * by auto. now apply B.
          - intros k' F. rewrite record_map in F. destruct (lkey_eq_dec k' k) as [->|N]; [apply record_get|].
            rewrite record_other by auto. change (st_foot s1) with (st_foot (record_access s k ReadOnly)).
            rewrite record_other by auto. apply C. unfold s1 in F. cbn in F. rewrite mget_mset in F.
            destruct (lkey_eq_dec k' k); [congruence|]. exact F. }
        destruct (min_live_until li Persistent) as [n|]; intros [= <- <-].
        * split; [|apply record_get]. apply inv_mset; [exact IV|apply record_get].
        * split; [exact IV|apply record_get].
  Qed.

  Lemma inv_get s k s' r : all_live cr s -> sinv li src s -> try_get cr s k = (s', r) ->
    sinv li src s' /\ (is_ok r = true -> fget (st_foot s') k <> None).
  Proof.
    intros AL I. unfold try_get. destruct (key_supported k) eqn:KS; [|intros [= <- <-]; split; auto; discriminate].
    destruct (prepare_read_only_access cr s k) as [s1 r1] eqn:PR. destruct (inv_prepare s k s1 r1 AL I KS PR) as [A B].
    destruct r1; [|intros [= <- <-]; split; auto]. destruct (mget (st_map s1) k); intros [= <- <-]; auto.
  Qed.
  Lemma inv_put s k v s' r : all_live cr s -> sinv li src s -> put_opt cr s k v = (s', r) -> sinv li src s'.
  Proof.
    intros AL I. unfold put_opt. destruct (key_supported k) eqn:KS; cbn [negb]; [|intros [= <- <-]; auto].
    match goal with |- context [if ?b then _ else _] => destruct b end; [intros [= <- <-]; auto|].
    unfold maybe_expired_cfg. rewrite RB, handle_live by (intros o G; now apply (AL k)). rewrite MODE. cbv zeta.
    intros [= <- <-]. apply inv_mset; [|apply record_get]. apply inv_record; auto.
  Qed.
  Lemma inv_extend s k x s' r : all_live cr s -> sinv li src s -> prepare_extend_ttl cr s k x = (s', r) ->
    sinv li src s' /\ (is_ok r = true -> fget (st_foot s') k <> None).
  Proof.
    intros AL I. unfold prepare_extend_ttl. destruct (key_supported k) eqn:KS; cbn [negb]; [|intros [= <- <-]; split; auto; discriminate].
    unfold maybe_expired_cfg. rewrite RB, handle_live by (intros o G; now apply (AL k)).
    destruct (try_get cr s k) as [s1 r1] eqn:TG. destruct (inv_get s k s1 r1 AL I TG) as [A B].
    intros EQ. apply pair_equal_spec in EQ. destruct EQ as [<- <-]. split; auto.
    destruct r1; [intros _; apply B; reflexivity|discriminate].
  Qed.
  Lemma inv_apply s k ti n : sinv li src s -> fget (st_foot s) k <> None -> sinv li src (apply_ttl_extension s k ti n).
  Proof. intros I F. unfold apply_ttl_extension. destruct (ti_old ti <? n); auto using inv_mset. Qed.

  Lemma inv_step s op s' r : all_live cr s -> sinv li src s -> sstep cr s op = (s', r) -> sinv li src s'.
  Proof.
    intros AL I. destruct op; cbn [sstep].
    - destruct (try_get cr s k) as [s1 r1] eqn:TG. intros [= <- <-]. eapply inv_get; eauto.
    - destruct (try_get cr s k) as [s1 r1] eqn:TG. intros [= <- <-]. eapply inv_get; eauto.
    - unfold unit_out. destruct (put_opt cr s k (Some (e, live))) as [s1 r1] eqn:PO. intros [= <- <-]. eapply inv_put; eauto.
    - unfold unit_out. destruct (put_opt cr s k None) as [s1 r1] eqn:PO. intros [= <- <-]. eapply inv_put; eauto.
    - unfold unit_out, extend_ttl. destruct (extend_to <? threshold); [intros [= <- <-]; auto|].
      destruct (prepare_extend_ttl cr s k extend_to) as [s1 r1] eqn:PE. destruct (inv_extend s k _ s1 r1 AL I PE) as [A B].
      destruct r1 as [ti|]; [|intros [= <- <-]; auto].
      destruct (checked_add_u32 _ _) as [n|]; [|intros [= <- <-]; auto].
      destruct (ti_ttl ti <=? threshold); intros [= <- <-]; auto. apply inv_apply; auto.
    - unfold unit_out, extend_ttl_v2. destruct (max_ext <? min_ext); [intros [= <- <-]; auto|].
      destruct (prepare_extend_ttl cr s k extend_to) as [s1 r1] eqn:PE. destruct (inv_extend s k _ s1 r1 AL I PE) as [A B].
      destruct r1 as [ti|]; [|intros [= <- <-]; auto].
      match goal with |- context [if ?b then _ else _] => destruct b end; [intros [= <- <-]; auto|].
      destruct (checked_add_u32 _ _) as [n|]; intros [= <- <-]; auto. apply inv_apply; auto.
  Qed.

  Lemma rec_ok s : run_ok cr s -> recording_ok cr s.
  Proof. intros [(M & _)|R]; auto. congruence. Qed.
  Lemma rec_live s : recording_ok cr s -> all_live cr s.
  Proof. intros (x & _ & _ & _ & A). exact A. Qed.

  Lemma inv_run p : forall s s' r t, recording_ok cr s -> sinv li src s -> srun cr s p = (s', r, t) -> writes_ok cr t -> sinv li src s'.
  Proof.
    induction p as [r0|op k IH|body IHb k IH]; intros s s' r t R I E W.
    - cbn in E. injection E as <- <- <-. auto.
    - cbn in E. destruct (sstep cr s op) as [s1 r1] eqn:ST. destruct (srun cr s1 (k r1)) as [[s2 r2] t2] eqn:RN.
      injection E as <- <- <-. apply writes_ok_cons in W as [W1 W2].
      pose proof (step_correct cr s op s1 r1 LI (or_intror R) W1 ST) as SO.
      destruct (step_run_ok cr s op s1 r1 (or_intror R) SO) as (R1 & _ & _).
      apply (IH r1 s1 s2 r2 t2 (rec_ok _ R1)); auto. apply (inv_step s op s1 r1); auto using rec_live.
    - cbn in E. destruct (srun cr s body) as [[s1 r1] t1] eqn:BD.
      set (s2 := match r1 with Ok _ => s1 | Err _ => set_map s1 (st_map s) end) in E.
      destruct (srun cr s2 (k r1)) as [[s3 r3] t3] eqn:RN. injection E as <- <- <-.
      apply writes_ok_app in W as [W1 W2].
      destruct (srun_ok cr body LI s s1 r1 t1 (or_intror R) BD W1) as (R1 & Cv & _).
      assert (R2 : run_ok cr s2).
      { unfold s2; destruct r1; auto. apply (rollback_ok cr s s1); auto; [now right|congruence]. }
      assert (I1 : sinv li src s1) by (eapply IHb; eauto).
      assert (I2 : sinv li src s2).
      { unfold s2. destruct r1; auto. destruct I1 as (A & B & C). split; [exact A|]. split; [exact B|].
        cbn. intros q G. apply (Cv q ReadOnly). now apply I. }
      apply (IH r1 s2 s3 r3 t3 (rec_ok _ R2)); auto.
  Qed.
End Record.

(* ---------------------------------------------------------------- invocations *)

Section Replay.
  Context {P : Type}.
  Variable E : env P.
  Variables cr ce : sconf.
  Variable src : lkey -> option lentry.
  Hypothesis LI : li_ok (sc_li cr).
  Hypothesis SL : sc_li ce = sc_li cr.
  Hypothesis MODE : sc_mode cr = Recording src.
  Hypothesis RB : sc_recording_build cr = true.
  Notation li := (sc_li cr).
  Notation host := (host P).

  Definition sok (s : storage) : Prop := recording_ok cr s /\ sinv li src s.
  Definition ssim (F : list (lkey * access)) (s e : storage) : Prop :=
    st_foot e = F /\ enforcing_ok ce e /\ forall k, fget F k <> None -> contents ce e k = contents cr s k.
  Definition foot (h : host) := st_foot (h_store h).

  (* a recording run from s to s' replays as [re] *)
  Definition stracks {A} (s s' : storage) (re : storage -> storage * A) (a : A) : Prop :=
    sok s' /\ covers (st_foot s) (st_foot s')
    /\ forall F e, ssim F s e -> covers (st_foot s') F -> exists e', re e = (e', a) /\ ssim F s' e'.
  Definition ran {A} (h h' : host) (re : host -> host * A) (a : A) : Prop :=
    sok (h_store h') /\ covers (foot h) (foot h')
    /\ forall F e, ssim F (h_store h) e -> covers (foot h') F ->
       exists e', re (set_store h e) = (set_store h' e', a) /\ ssim F (h_store h') e'.
  Definition ran3 {A B} (h h' : host) (re : host -> host * A * B) (a : A) (b : B) : Prop :=
    sok (h_store h') /\ covers (foot h) (foot h')
    /\ forall F e, ssim F (h_store h) e -> covers (foot h') F ->
       exists e', re (set_store h e) = (set_store h' e', a, b) /\ ssim F (h_store h') e'.
  Definition tracks {A B} (fr fe : host -> host * A * B) : Prop :=
    forall h h' a b, sok (h_store h) -> fr h = (h', a, b) -> ran3 h h' fe a b.

  Definition safe (p : prog) : Prop := forall m, alive li m -> wp li p m (fun m' _ => alive li m').

  Lemma srun_tracks p s s' r t : safe p -> sok s -> srun cr s p = (s', r, t) ->
    sok s' /\ covers (st_foot s) (st_foot s')
    /\ forall F e, ssim F s e -> covers (st_foot s') F -> exists e', srun ce e p = (e', r, t) /\ ssim F s' e'.
  Proof.
    intros SF [R I] RN.
    assert (X : ext_post (fun (m' : store) (_ : res sout) => alive li m')).
    { intros m m' q SM H k. rewrite <- SM. apply H. }
    destruct (wp_sound cr p LI s _ s' r t (or_intror R) X (SF _ (recording_alive cr s LI R)) RN) as [_ W].
    assert (W' : writes_ok cr t) by (intros _; exact W).
    destruct (srun_ok cr p LI s s' r t (or_intror R) RN W') as (R' & Cv & _).
    split; [split; [apply (rec_ok cr src MODE _ R')|eapply inv_run; eauto]|]. split; [exact Cv|].
    intros F e (F1 & F2 & F3) CF.
    destruct (replay_run cr ce p LI SL RB s s' r t e R F2 RN W') as (e' & A1 & A2 & A3 & A4).
    - now rewrite F1.
    - now rewrite F1.
    - exists e'. split; auto. split; [congruence|]. split; auto. now rewrite <- F1.
  Qed.

  Lemma run_st_ran p h h' r : safe p -> sok (h_store h) -> run_st cr h p = (h', r) ->
    ran h h' (fun h => run_st ce h p) r.
  Proof.
    intros SF SO. unfold run_st. destruct (srun cr (h_store h) p) as [[s r0] t] eqn:RN. intros [= <- <-].
    destruct (srun_tracks p _ _ _ _ SF SO RN) as (A & B & C). split; [exact A|]. split; [exact B|].
    intros F e SM CF. destruct (C F e SM CF) as (e' & X & Y). exists e'. split; auto.
    cbn. rewrite X. reflexivity.
  Qed.

  Lemma ran3_refl {A B} h (re : host -> host * A * B) a b : sok (h_store h) ->
    (forall e, re (set_store h e) = (set_store h e, a, b)) -> ran3 h h re a b.
  Proof. intros S H. split; auto. split; [apply covers_refl|]. intros F e SM _. exists e. auto. Qed.

  (* safe programs *)
  Lemma safe_quiet p : (forall m, alive li m -> wp li p m (quiet_post li m)) -> safe p.
  Proof. intros H m A. eapply wp_mono; [|apply H; auto]. intros m1 r (X & _). exact X. Qed.
  Lemma safe_hop id hp : hop_key_ok hp = true -> safe (hop_prog li (AContract id) hp).
  Proof. intros K. apply safe_quiet. intros m A. now apply hop_quiet. Qed.
  Lemma safe_classic op : classic_op op = true -> safe (PDo op PRet).
  Proof. intros K. apply safe_quiet. intros m A. now apply classic_quiet. Qed.
  Lemma safe_nonce a n l : safe (consume_nonce li a n l).
  Proof. apply safe_quiet. intros m A. now apply nonce_quiet. Qed.
  Lemma safe_upload h w : safe (upload_code li h w).
  Proof. apply safe_quiet. intros m A. now apply upload_quiet. Qed.
  Lemma safe_store id ex st : safe (store_instance li id ex st).
  Proof. intros m A. eapply wp_mono; [|apply wp_store_instance; auto]. intros m1 r (X & _). exact X. Qed.
  Lemma safe_create id ex : safe (create_with_id li id ex).
  Proof. intros m A. eapply wp_mono; [|apply wp_create; auto]. intros m1 r (X & _). exact X. Qed.
  Lemma safe_load id : safe (load_contract id).
  Proof. intros m A. eapply wp_mono; [|apply wp_load; auto]. intros m1 r (X & _). exact X. Qed.
  Lemma safe_read id : safe (read_instance id).
  Proof. intros m A. eapply wp_mono; [|apply wp_read; auto]. intros m1 r (X & _). exact X. Qed.
  Lemma safe_update id ex : safe (update_check id ex).
  Proof. intros m A. eapply wp_mono; [|apply wp_update_check; auto]. intros m1 r (X & _). exact X. Qed.

  (* ---- sequencing *)

  Lemma ran3_ext {A B} h h' (re re' : host -> host * A * B) a b :
    (forall e, re (set_store h e) = re' (set_store h e)) -> ran3 h h' re a b -> ran3 h h' re' a b.
  Proof.
    intros EQ (X & Y & Z). split; auto. split; auto. intros F e SM CF. destruct (Z F e SM CF) as (e' & W & V).
    exists e'. rewrite <- EQ. auto.
  Qed.
  Lemma ran_ext {A} h h' (re re' : host -> host * A) a :
    (forall e, re (set_store h e) = re' (set_store h e)) -> ran h h' re a -> ran h h' re' a.
  Proof.
    intros EQ (X & Y & Z). split; auto. split; auto. intros F e SM CF. destruct (Z F e SM CF) as (e' & W & V).
    exists e'. rewrite <- EQ. auto.
  Qed.
  Lemma ran_refl {A} h (re : host -> host * A) a : sok (h_store h) ->
    (forall e, re (set_store h e) = (set_store h e, a)) -> ran h h re a.
  Proof. intros S H. split; auto. split; [apply covers_refl|]. intros F e SM _. exists e. auto. Qed.

  (* g, then k *)
  Lemma seq3 {A B A' B'} h h1 h' (ge : host -> host * A * B) (ke : A -> B -> host -> host * A' * B') a b a' b' :
    ran3 h h1 ge a b -> ran3 h1 h' (ke a b) a' b' ->
    ran3 h h' (fun h => let '(h1, a, b) := ge h in ke a b h1) a' b'.
  Proof.
    intros (X1 & Y1 & Z1) (X2 & Y2 & Z2). split; auto. split; [eapply covers_trans; eauto|].
    intros F e SM CF. destruct (Z1 F e SM (covers_trans _ _ _ Y2 CF)) as (e1 & W1 & V1).
    destruct (Z2 F e1 V1 CF) as (e2 & W2 & V2). exists e2. rewrite W1. auto.
  Qed.
  Lemma seq2 {A A' B'} h h1 h' (ge : host -> host * A) (ke : A -> host -> host * A' * B') a a' b' :
    ran h h1 ge a -> ran3 h1 h' (ke a) a' b' ->
    ran3 h h' (fun h => let '(h1, a) := ge h in ke a h1) a' b'.
  Proof.
    intros (X1 & Y1 & Z1) (X2 & Y2 & Z2). split; auto. split; [eapply covers_trans; eauto|].
    intros F e SM CF. destruct (Z1 F e SM (covers_trans _ _ _ Y2 CF)) as (e1 & W1 & V1).
    destruct (Z2 F e1 V1 CF) as (e2 & W2 & V2). exists e2. rewrite W1. auto.
  Qed.
  Lemma seq22 {A A'} h h1 h' (ge : host -> host * A) (ke : A -> host -> host * A') a a' :
    ran h h1 ge a -> ran h1 h' (ke a) a' ->
    ran h h' (fun h => let '(h1, a) := ge h in ke a h1) a'.
  Proof.
    intros (X1 & Y1 & Z1) (X2 & Y2 & Z2). split; auto. split; [eapply covers_trans; eauto|].
    intros F e SM CF. destruct (Z1 F e SM (covers_trans _ _ _ Y2 CF)) as (e1 & W1 & V1).
    destruct (Z2 F e1 V1 CF) as (e2 & W2 & V2). exists e2. rewrite W1. auto.
  Qed.

  (* ---- instance storage *)

  Lemma persist_ran h h' r : sok (h_store h) -> persist cr h = (h', r) -> ran h h' (persist ce) r.
  Proof.
    intros SO. unfold persist. destruct (h_stack h) as [|x l] eqn:ST.
    { intros [= <- <-]. apply ran_refl; auto. intros e. cbn. now rewrite ST. }
    destruct (cx_inst x) as [[m [|]]|] eqn:CX;
      try (intros [= <- <-]; apply ran_refl; auto; intros e; cbn; now rewrite ST, CX).
    destruct (frame_id (cx_frame x)) as [id|] eqn:FI.
    2:{ intros [= <- <-]. apply ran_refl; auto. intros e. cbn. now rewrite ST, CX, FI. }
    destruct (run_st cr h (store_instance li id None (Some m))) as [h1 r1] eqn:RS. intros [= <- <-].
    apply (ran_ext h h1 (fun h => let '(h1, r1) := run_st ce h (store_instance li id None (Some m)) in (h1, rmap (fun _ => true) r1))).
    { intros e. cbn [set_store h_stack]. rewrite ST, CX, FI, SL. reflexivity. }
    eapply (seq22 h h1 h1 _ (fun r1 h1 => (h1, rmap (fun _ => true) r1))); [apply run_st_ran; auto using safe_store; exact RS|].
    pose proof (run_st_ran _ _ _ _ (safe_store _ _ _) SO RS) as (X & _). apply ran_refl; auto.
  Qed.

  Lemma reload_tracks id (l : list (ctx P)) : forall s s' l' r, sok s -> reload cr s id l = (s', l', r) ->
    sok s' /\ covers (st_foot s) (st_foot s')
    /\ forall F e, ssim F s e -> covers (st_foot s') F -> exists e', reload ce e id l = (e', l', r) /\ ssim F s' e'.
  Proof.
    induction l as [|x l IH]; cbn [reload]; intros s s' l' r SO.
    - intros [= <- <- <-]. split; auto. split; [apply covers_refl|]. intros F e SM _. exists e. auto.
    - destruct (reload cr s id l) as [[s1 l1] r1] eqn:RL. destruct (IH s s1 l1 r1 SO RL) as (S1 & C1 & T1).
      destruct r1 as [[]|er].
      2:{ intros [= <- <- <-]. split; auto. split; auto. intros F e SM CF. destruct (T1 F e SM CF) as (e1 & -> & V). eauto. }
      destruct (match frame_id (cx_frame x) with Some i => if zlist_eq_dec i id then true else false | None => false end) eqn:FI.
      2:{ intros [= <- <- <-]. split; auto. split; auto. intros F e SM CF. destruct (T1 F e SM CF) as (e1 & -> & V). eauto. }
      change (pinstance _ _) with (read_instance id).
      destruct (srun cr s1 (read_instance id)) as [[s2 r2] t2] eqn:RN.
      destruct (srun_tracks _ _ _ _ _ (safe_read id) S1 RN) as (S2 & C2 & T2).
      assert (ALL : forall lo ro, (match r2 with
              | Ok (OEntry (Some (EData (SContractInstance _ st), _))) => (s2, set_inst x (imap_of st, false) :: l1, Ok tt)
              | Ok _ => (s2, x :: l1, Err e_st_internal)
              | Err e => (s2, x :: l1, Err e)
              end) = (s2, lo, ro) ->
        sok s2 /\ covers (st_foot s) (st_foot s2)
        /\ forall F e, ssim F s e -> covers (st_foot s2) F -> exists e',
           (let '(s1, l1, r1) := reload ce e id l in
            match r1 with
            | Err e => (s1, x :: l1, Err e)
            | Ok _ =>
              let '(s2, r2, _) := srun ce s1 (read_instance id) in
              match r2 with
              | Ok (OEntry (Some (EData (SContractInstance _ st), _))) => (s2, set_inst x (imap_of st, false) :: l1, Ok tt)
              | Ok _ => (s2, x :: l1, Err e_st_internal)
              | Err e => (s2, x :: l1, Err e)
              end
            end) = (e', lo, ro) /\ ssim F s2 e').
      { intros lo ro EQ. split; auto. split; [eapply covers_trans; eauto|]. intros F e SM CF.
        destruct (T1 F e SM (covers_trans _ _ _ C2 CF)) as (e1 & -> & V1).
        destruct (T2 F e1 V1 CF) as (e2 & -> & V2). exists e2. split; auto.
        destruct r2 as [o|]; [|now injection EQ as <- <-]. destruct o as [| |o]; try (now injection EQ as <- <-).
        destruct o as [[en lv]|]; try (now injection EQ as <- <-). destruct en; try (now injection EQ as <- <-).
        destruct v; now injection EQ as <- <-. }
      intros EQ.
      assert (s' = s2) as ->.
      { destruct r2 as [o|]; [|congruence]. destruct o as [| |o]; try congruence. destruct o as [[en lv]|]; try congruence.
        destruct en; try congruence. destruct v; congruence. }
      exact (ALL l' r EQ).
  Qed.

  Lemma reload_below_ran h h' r : sok (h_store h) -> reload_below cr h = (h', r) -> ran h h' (reload_below ce) r.
  Proof.
    intros SO. unfold reload_below. destruct (h_stack h) as [|x l] eqn:ST.
    { intros [= <- <-]. apply ran_refl; auto. intros e. cbn. now rewrite ST. }
    destruct (frame_id (cx_frame x)) as [id|] eqn:FI.
    2:{ intros [= <- <-]. apply ran_refl; auto. intros e. cbn. now rewrite ST, FI. }
    destruct (reload cr (h_store h) id l) as [[s l'] r0] eqn:RL. intros [= <- <-].
    destruct (reload_tracks id l _ _ _ _ SO RL) as (A & B & C). split; [exact A|]. split; [exact B|].
    intros F e SM CF. destruct (C F e SM CF) as (e' & X & Y). exists e'. cbn. rewrite ST, FI, X. auto.
  Qed.

  Lemma flush_ran h q h' r : sok (h_store h) -> flush cr h q = (h', r) -> ran h h' (fun h => flush ce h q) r.
  Proof.
    intros SO. unfold flush. destruct q as [v|e0]; [|intros [= <- <-]; now apply ran_refl].
    destruct (persist cr h) as [h1 rp] eqn:PS. pose proof (persist_ran h h1 rp SO PS) as R1. pose proof R1 as (S1 & _).
    destruct rp as [[|]|e0].
    - destruct (reload_below cr h1) as [h2 rr] eqn:RL. pose proof (reload_below_ran h1 h2 rr S1 RL) as R2. pose proof R2 as (S2 & _).
      intros EQ. assert (h' = h2) as -> by (destruct rr; congruence).
      eapply (seq22 h h1 h2 _ (fun rp h1 => match rp with
        | Err e => (h1, Err e) | Ok false => (h1, Ok v)
        | Ok true => let '(h2, rr) := reload_below ce h1 in match rr with Ok _ => (h2, Ok v) | Err e => (h2, Err e) end end)); [exact R1|].
      eapply (seq22 h1 h2 h2 _ (fun rr h2 => match rr with Ok _ => (h2, Ok v) | Err e => (h2, Err e) end)); [exact R2|].
      apply ran_refl; auto. intros e. destruct rr; congruence.
    - intros [= <- <-]. eapply (seq22 h h1 h1 _ (fun rp h1 => match rp with
        | Err e => (h1, Err e) | Ok false => (h1, Ok v)
        | Ok true => let '(h2, rr) := reload_below ce h1 in match rr with Ok _ => (h2, Ok v) | Err e => (h2, Err e) end end)); [exact R1|].
      apply ran_refl; auto.
    - intros [= <- <-]. eapply (seq22 h h1 h1 _ (fun rp h1 => match rp with
        | Err e => (h1, Err e) | Ok false => (h1, Ok v)
        | Ok true => let '(h2, rr) := reload_below ce h1 in match rr with Ok _ => (h2, Ok v) | Err e => (h2, Err e) end end)); [exact R1|].
      apply ran_refl; auto.
  Qed.

  (* ---- frames *)

  Lemma with_frame_tracks who f (br be : host -> host * res scval * list tree) :
    tracks br be -> tracks (with_frame cr who f br) (with_frame ce who f be).
  Proof.
    intros TB h h' r t SO. unfold with_frame. destruct (Nat.leb depth_limit (length (h_stack h))) eqn:DL.
    { intros [= <- <- <-]. apply ran3_refl; auto. intros e. cbn [set_store h_stack]. now rewrite DL. }
    cbv zeta. set (h0 := set_stack h _).
    destruct (br h0) as [[h1 r1] t1] eqn:BR. destruct (TB h0 h1 r1 t1 SO BR) as (S1 & C1 & T1).
    destruct (flush cr h1 (frame_exit r1)) as [h2 r2] eqn:FL. destruct (flush_ran h1 _ h2 r2 S1 FL) as (S2 & C2 & T2).
    intros EQ. apply pair_equal_spec in EQ. destruct EQ as [EQ ET]. apply pair_equal_spec in EQ. destruct EQ as [EH ER].
    subst r t.
    assert (CV : covers (foot h) (foot h2)) by (eapply covers_trans; [exact C1|exact C2]).
    assert (SE : forall e, exists e0, e0 = set_stack (set_store h e) (h_stack h0) /\ e0 = set_store h0 e) by (intros e; eexists; split; reflexivity).
    subst h'. destruct r2 as [v|er].
    - split; [exact S2|]. split; [exact CV|]. intros F e SM CF.
      destruct (T1 F e SM (covers_trans _ _ _ C2 CF)) as (e1 & W1 & V1). destruct (T2 F e1 V1 CF) as (e2 & W2 & V2).
      exists e2. cbn [set_store h_stack]. rewrite DL.
      change (set_stack (set_store h e) ({| cx_frame := f; cx_prng := None; cx_inst := None |} :: h_stack h)) with (set_store h0 e).
      rewrite W1. cbn [h_ev h_store set_store]. cbv beta in W2. rewrite W2. split; [reflexivity|exact V2].
    - split.
      { destruct S2 as [(x & R1 & R2 & R3 & R4) (I1 & I2 & I3)]. destruct SO as [(y & _ & _ & _ & Q4) (J1 & J2 & J3)].
        split; [exists x; repeat split; auto|]. split; [exact I1|]. split; [exact I2|]. cbn. intros k G. apply (CV k ReadOnly). now apply J3. }
      split; [exact CV|]. intros F e SM CF.
      destruct (T1 F e SM (covers_trans _ _ _ C2 CF)) as (e1 & W1 & V1). destruct (T2 F e1 V1 CF) as (e2 & W2 & V2).
      exists (set_map e2 (st_map e)). cbn [set_store h_stack]. rewrite DL.
      change (set_stack (set_store h e) ({| cx_frame := f; cx_prng := None; cx_inst := None |} :: h_stack h)) with (set_store h0 e).
      rewrite W1. cbv beta in W2. rewrite W2. split; [reflexivity|].
      destruct SM as (M1 & (E1 & E2 & E3) & M3). destruct V2 as (U1 & U2 & U3). split; [exact U1|]. split; [|exact M3].
      split; [exact E1|]. split; [|exact E3]. intros k G. change (fget (st_foot e2) k <> None) in G. apply E2. congruence.
  Qed.

  Section Calls.
    Variables xr xe : host -> gprog -> host * res scval * list tree.
    Hypothesis TX : forall p, tracks (fun h => xr h p) (fun h => xe h p).

    Lemma call_contract_tracks kd id fn args noop :
      tracks (call_contract E cr xr kd id fn args noop) (call_contract E ce xe kd id fn args noop).
    Proof.
      intros h h' r t SO. unfold call_contract. destruct (run_st cr h (load_contract id)) as [h1 q] eqn:RS.
      pose proof (run_st_ran _ _ _ _ (safe_load id) SO RS) as R1. pose proof R1 as (S1 & _). intros EQ.
      eapply (seq2 h h1 h' (fun h => run_st ce h (load_contract id)) (fun r h1 => match r with
        | Err e => (h1, Err e, [])
        | Ok (OEntry (Some (EData (SContractInstance e st), _))) =>
            with_frame ce (Some (kd, id, fn, args)) (FContract id fn (imap_of st)) (fun h2 =>
              match e with
              | ExWasm hash =>
                  match wasm E hash fn args with
                  | Some g => xe h2 g
                  | None => if noop then (h2, Ok SVoid, []) else (h2, Err e_fn_missing, [])
                  end
              | _ => xe h2 (sac E fn args)
              end) h1
        | Ok _ => (h1, Err e_st_internal, [])
        end)); [exact R1|].
      clear R1. destruct q as [o|e0]; [|injection EQ as <- <- <-; now apply ran3_refl].
      destruct o as [| |o]; try (injection EQ as <- <- <-; now apply ran3_refl).
      destruct o as [[en lv]|]; try (injection EQ as <- <- <-; now apply ran3_refl).
      destruct en as [v| | | |]; try (injection EQ as <- <- <-; now apply ran3_refl).
      destruct v; try (injection EQ as <- <- <-; now apply ran3_refl).
      revert EQ. apply with_frame_tracks; auto. clear - TX.
      intros h h' r t SO EQ. match goal with X : executable |- _ => destruct X end; try (now apply TX).
      destruct (wasm E _ fn args); [now apply TX|].
      destruct noop; injection EQ as <- <- <-; now apply ran3_refl.
    Qed.

    Lemma call_n_tracks kd id fn args : tracks (call_n E cr xr kd id fn args) (call_n E ce xe kd id fn args).
    Proof.
      intros h h' r t SO. unfold call_n.
      destruct (negb (internal kd) && starts_with s_prefix fn) eqn:RF.
      { intros [= <- <- <-]. now apply ran3_refl. }
      cbv zeta. destruct (reentry (h_stack h) id) as [[|n]|] eqn:RE.
      - destruct (self_allowed kd) eqn:SA.
        + destruct (persist cr h) as [h1 q] eqn:PS. pose proof (persist_ran h h1 q SO PS) as R1. pose proof R1 as (S1 & _). intros EQ.
          apply (ran3_ext h h' (fun h => let '(h1, r) := persist ce h in
             match r with Err e => (h1, Err e, []) | Ok _ => call_contract E ce xe kd id fn args (noop_missing kd args) h1 end)).
          { intros e. cbn [set_store h_stack]. now rewrite RE. }
          eapply (seq2 h h1 h' (persist ce) (fun r h1 => match r with Err e => (h1, Err e, []) | Ok _ => call_contract E ce xe kd id fn args (noop_missing kd args) h1 end)); [exact R1|].
          destruct q; [now apply call_contract_tracks|]. injection EQ as <- <- <-. now apply ran3_refl.
        + intros [= <- <- <-]. apply ran3_refl; auto. intros e. cbn [set_store h_stack]. now rewrite RE.
      - intros [= <- <- <-]. apply ran3_refl; auto. intros e. cbn [set_store h_stack]. now rewrite RE.
      - intros EQ. apply (ran3_ext h h' (call_contract E ce xe kd id fn args (noop_missing kd args))).
        { intros e. cbn [set_store h_stack]. now rewrite RE. }
        now apply call_contract_tracks.
    Qed.

    Lemma call_tracks kd id fn args : tracks (call E cr xr kd id fn args) (call E ce xe kd id fn args).
    Proof.
      intros h h' r t SO. unfold call. destruct (call_n E cr xr kd id fn args h) as [[h1 r1] t1] eqn:CN. intros [= <- <- <-].
      pose proof (call_n_tracks kd id fn args h h1 r1 t1 SO CN) as R1.
      eapply (seq3 h h1 h1 _ (fun r t h1 => (h1, answer kd r, t))); [exact R1|]. apply ran3_refl; auto. apply R1.
    Qed.

    Lemma contract_proto_ran h id h' r : sok (h_store h) -> contract_proto E cr h id = (h', r) ->
      ran h h' (fun h => contract_proto E ce h id) r.
    Proof.
      intros SO. unfold contract_proto. destruct (run_st cr h (load_contract id)) as [h1 q] eqn:RS. intros [= <- <-].
      pose proof (run_st_ran _ _ _ _ (safe_load id) SO RS) as R1.
      eapply (seq22 h h1 h1 _ (fun r h1 => (h1, match r with
         | Ok (OEntry (Some (EData (SContractInstance (ExWasm hash) _), _))) => Ok (wasm_proto E hash)
         | Ok _ => Err e_st_internal
         | Err e => Err e
         end))); [exact R1|]. apply ran_refl; auto. apply R1.
    Qed.

    Lemma create_tracks pre exe args : tracks (create E cr xr pre exe args) (create E ce xe pre exe args).
    Proof.
      intros h h' r t SO. unfold create. destruct (negb (pairing_ok pre exe)) eqn:PO.
      { intros [= <- <- <-]. now apply ran3_refl. }
      cbv zeta. destruct (run_st cr h (create_with_id li (cid E pre) exe)) as [h1 q] eqn:RS.
      pose proof (run_st_ran _ _ _ _ (safe_create _ _) SO RS) as R1. pose proof R1 as (S1 & _). intros EQ. rewrite SL.
      eapply (seq2 h h1 h' (fun h => run_st ce h (create_with_id li (cid E pre) exe)) (fun r1 h1 =>
        match r1 with
        | Err e => (h1, Err e, [])
        | Ok _ =>
            match pre with
            | PreAsset asset =>
                let '(h2, r2, t2) := call E ce xe KInit (cid E pre) s_init_asset [SBytes asset] h1 in
                (h2, rbind r2 (fun _ => Ok (SAddress (AContract (cid E pre)))), [TCreated (cid E pre) exe] ++ t2)
            | PreAddress _ _ =>
                let '(h2, rp) := contract_proto E ce h1 (cid E pre) in
                match rp with
                | Err e => (h2, Err e, [TCreated (cid E pre) exe])
                | Ok proto =>
                    if proto <? 22 then
                      match args with
                      | [] => (h2, Ok (SAddress (AContract (cid E pre))), [TCreated (cid E pre) exe])
                      | _ => (h2, Err e_ctx_action, [TCreated (cid E pre) exe])
                      end
                    else
                      let '(h3, r3, t3) := call E ce xe KCtor (cid E pre) s_constructor args h2 in
                      (h3, rbind r3 (fun _ => Ok (SAddress (AContract (cid E pre)))), [TCreated (cid E pre) exe] ++ t3)
                end
            end
        end)); [exact R1|]. clear R1.
      destruct q as [o|e0]; [|injection EQ as <- <- <-; now apply ran3_refl].
      destruct pre as [a s|asset].
      - destruct (contract_proto E cr h1 (cid E (PreAddress a s))) as [h2 rp] eqn:CP.
        pose proof (contract_proto_ran h1 _ h2 rp S1 CP) as R2. pose proof R2 as (S2 & _).
        eapply (seq2 h1 h2 h' _ (fun rp h2 =>
                match rp with
                | Err e => (h2, Err e, [TCreated (cid E (PreAddress a s)) exe])
                | Ok proto =>
                    if proto <? 22 then
                      match args with
                      | [] => (h2, Ok (SAddress (AContract (cid E (PreAddress a s)))), [TCreated (cid E (PreAddress a s)) exe])
                      | _ => (h2, Err e_ctx_action, [TCreated (cid E (PreAddress a s)) exe])
                      end
                    else
                      let '(h3, r3, t3) := call E ce xe KCtor (cid E (PreAddress a s)) s_constructor args h2 in
                      (h3, rbind r3 (fun _ => Ok (SAddress (AContract (cid E (PreAddress a s))))), [TCreated (cid E (PreAddress a s)) exe] ++ t3)
                end)); [exact R2|].
        destruct rp as [proto|e0]; [|injection EQ as <- <- <-; now apply ran3_refl].
        destruct (proto <? 22).
        + destruct args; injection EQ as <- <- <-; now apply ran3_refl.
        + destruct (call E cr xr KCtor (cid E (PreAddress a s)) s_constructor args h2) as [[h3 r3] t3] eqn:CL.
          pose proof (call_tracks _ _ _ _ h2 h3 r3 t3 S2 CL) as R3. injection EQ as <- <- <-.
          eapply (seq3 h2 h3 h3 _ (fun r3 t3 h3 => (h3, rbind r3 (fun _ => Ok (SAddress (AContract (cid E (PreAddress a s))))), [TCreated (cid E (PreAddress a s)) exe] ++ t3))); [exact R3|].
          apply ran3_refl; auto. apply R3.
      - destruct (call E cr xr KInit (cid E (PreAsset asset)) s_init_asset [SBytes asset] h1) as [[h3 r3] t3] eqn:CL.
        pose proof (call_tracks _ _ _ _ h1 h3 r3 t3 S1 CL) as R3. injection EQ as <- <- <-.
        eapply (seq3 h1 h3 h3 _ (fun r3 t3 h3 => (h3, rbind r3 (fun _ => Ok (SAddress (AContract (cid E (PreAsset asset))))), [TCreated (cid E (PreAsset asset)) exe] ++ t3))); [exact R3|].
        apply ran3_refl; auto. apply R3.
    Qed.
  End Calls.

  (* ---- host functions *)

  Lemma inst_op_tracks i : tracks (fun h => inst_op h i) (fun h => inst_op h i).
  Proof.
    intros h h' r t SO. unfold inst_op. destruct (inst_refused i); [intros [= <- <- <-]; now apply ran3_refl|].
    destruct (h_stack h) as [|x l] eqn:ST.
    { intros [= <- <- <-]. apply ran3_refl; auto. intros e. cbn [set_store h_stack]. now rewrite ST. }
    destruct (inst_of x) as [[m d]|] eqn:IO.
    2:{ intros [= <- <- <-]. apply ran3_refl; auto. intros e. cbn [set_store h_stack]. now rewrite ST, IO. }
    destruct (inst_step i m d) as [[m' d'] r0] eqn:IS. intros [= <- <- <-].
    split; [exact SO|]. split; [apply covers_refl|]. intros F e SM _. exists e. cbn [set_store h_stack]. rewrite ST, IO, IS. auto.
  Qed.
  Lemma draw_op_tracks o : tracks (fun h => draw_op E h o) (fun h => draw_op E h o).
  Proof.
    intros h h' r t SO. unfold draw_op. cbv zeta.
    destruct (match o with PReseed s => negb (Nat.eqb (length s) 32) | _ => false end); [intros [= <- <- <-]; now apply ran3_refl|].
    destruct (h_stack h) as [|x l] eqn:ST.
    { intros [= <- <- <-]. apply ran3_refl; auto. intros e. cbn [set_store h_stack]. now rewrite ST. }
    destruct (match cx_prng x with Some p => (p, h_base h) | None => sub_prng E (h_base h) end) as [p base] eqn:PB.
    destruct (match o with PReseed s => (reseed E s, Ok SVoid) | _ => draw E o p end) as [p' r0] eqn:DR. intros [= <- <- <-].
    split; [exact SO|]. split; [apply covers_refl|]. intros F e SM _. exists e. cbn [set_store h_stack h_base h_ev h_store].
    rewrite ST, PB, DR. auto.
  Qed.

  Lemma run_gval p (g : res sout -> res gval) : safe p ->
    tracks (fun h => let '(h1, r) := run_st cr h p in (h1, g r, @nil tree)) (fun h => let '(h1, r) := run_st ce h p in (h1, g r, @nil tree)).
  Proof.
    intros SF h h' a b SO. destruct (run_st cr h p) as [h1 r] eqn:RS. intros [= <- <- <-].
    pose proof (run_st_ran _ _ _ _ SF SO RS) as R1.
    eapply (seq2 h h1 h1 _ (fun r h1 => (h1, g r, @nil tree))); [exact R1|]. apply ran3_refl; auto. apply R1.
  Qed.

  Lemma step_tracks o : tracks (fun h => step E cr h o) (fun h => step E ce h o).
  Proof.
    intros h h' r t SO. destruct o; cbn [step].
    - destruct (cur_id h) as [id|] eqn:CI.
      2:{ intros [= <- <- <-]. apply ran3_refl; auto. intros e. change (cur_id (set_store h e)) with (cur_id h). now rewrite CI. }
      destruct (hop_key_ok h0) eqn:HK.
      2:{ intros [= <- <- <-]. apply ran3_refl; auto. intros e. change (cur_id (set_store h e)) with (cur_id h). now rewrite CI. }
      intros EQ. apply (ran3_ext h h' (fun h => let '(h1, r) := run_st ce h (hop_prog li (AContract id) h0) in (h1, rmap GO r, @nil tree))).
      { intros e. change (cur_id (set_store h e)) with (cur_id h). now rewrite CI, SL. }
      revert EQ. apply run_gval; auto using safe_hop.
    - destruct (classic_op op) eqn:CO; [|intros [= <- <- <-]; now apply ran3_refl].
      apply run_gval; auto using safe_classic.
    - rewrite SL. apply run_gval; auto using safe_nonce.
    - destruct (inst_op h i) as [[h1 r1] t1] eqn:IO. intros [= <- <- <-]. pose proof (inst_op_tracks i h h1 r1 t1 SO IO) as R1.
      eapply (seq3 h h1 h1 _ (fun r t h1 => (h1, rmap GV r, t))); [exact R1|]. apply ran3_refl; auto. apply R1.
    - cbv zeta. intros [= <- <- <-]. split; [exact SO|]. split; [apply covers_refl|]. intros F e SM _. exists e. auto.
    - destruct (draw_op E h o) as [[h1 r1] t1] eqn:IO. intros [= <- <- <-]. pose proof (draw_op_tracks o h h1 r1 t1 SO IO) as R1.
      eapply (seq3 h h1 h1 _ (fun r t h1 => (h1, rmap GV r, t))); [exact R1|]. apply ran3_refl; auto. apply R1.
    - destruct (cur_id h) as [id|] eqn:CI.
      2:{ intros [= <- <- <-]. apply ran3_refl; auto. intros e. change (cur_id (set_store h e)) with (cur_id h). now rewrite CI. }
      destruct (run_st cr h (update_check id ex)) as [h1 q] eqn:RS.
      pose proof (run_st_ran _ _ _ _ (safe_update _ _) SO RS) as R1. pose proof R1 as (S1 & _). intros EQ.
      apply (ran3_ext h h' (fun h => let '(h1, r) := run_st ce h (update_check id ex) in
            match r with
            | Ok (OEntry (Some (EData old, _))) =>
                let e := {| ev_id := Some id; ev_kind := EvSystem;
                            ev_body := SVec (Some [old; SContractInstance ex None]) |} in
                let '(h2, r2) := run_st ce (add_event h1 e) (store_instance li id (Some ex) None) in
                match r2 with
                | Ok _ => (h2, Ok (GV SVoid), [TEvent e; TUpdate ex])
                | Err er => (h2, Err er, [TEvent e])
                end
            | Ok _ => (h1, Err e_st_internal, [])
            | Err er => (h1, Err er, [])
            end)).
      { intros e. change (cur_id (set_store h e)) with (cur_id h). now rewrite CI, SL. }
      eapply (seq2 h h1 h' _ (fun r h1 =>
            match r with
            | Ok (OEntry (Some (EData old, _))) =>
                let e := {| ev_id := Some id; ev_kind := EvSystem;
                            ev_body := SVec (Some [old; SContractInstance ex None]) |} in
                let '(h2, r2) := run_st ce (add_event h1 e) (store_instance li id (Some ex) None) in
                match r2 with
                | Ok _ => (h2, Ok (GV SVoid), [TEvent e; TUpdate ex])
                | Err er => (h2, Err er, [TEvent e])
                end
            | Ok _ => (h1, Err e_st_internal, [])
            | Err er => (h1, Err er, [])
            end)); [exact R1|]. clear R1.
      destruct q as [o|e0]; [|injection EQ as <- <- <-; now apply ran3_refl].
      destruct o as [| |o]; try (injection EQ as <- <- <-; now apply ran3_refl).
      destruct o as [[en lv]|]; try (injection EQ as <- <- <-; now apply ran3_refl).
      destruct en as [v| | | |]; try (injection EQ as <- <- <-; now apply ran3_refl).
      revert EQ. cbv zeta. set (ev := {| ev_id := _; ev_kind := _; ev_body := _ |}).
      destruct (run_st cr (add_event h1 ev) (store_instance li id (Some ex) None)) as [h2 r2] eqn:R2. intros EQ.
      assert (S1' : sok (h_store (add_event h1 ev))) by exact S1.
      pose proof (run_st_ran _ _ _ _ (safe_store _ _ _) S1' R2) as (A & B & C).
      assert (h' = h2) as -> by (destruct r2; congruence).
      split; [exact A|]. split; [exact B|]. intros F e SM CF. destruct (C F e SM CF) as (e' & X & Y).
      exists e'. split; [|exact Y]. change (add_event (set_store h1 e) ev) with (set_store (add_event h1 ev) e).
      cbv beta in X. rewrite X. destruct r2; injection EQ as <- <-; reflexivity.
    - destruct (check_upload E wasm) as [[hash code]|e0]; [|intros [= <- <- <-]; now apply ran3_refl].
      rewrite SL. apply run_gval; auto using safe_upload.
  Qed.

  Lemma bind_tracks (gr ge : host -> host * res scval * list tree) (kr ke : scval -> host -> host * res scval * list tree) :
    tracks gr ge -> (forall v, tracks (kr v) (ke v)) -> tracks (fun h => bind (gr h) kr) (fun h => bind (ge h) ke).
  Proof.
    intros TG TK h h' r t SO. unfold bind. destruct (gr h) as [[h1 r1] t1] eqn:G. pose proof (TG h h1 r1 t1 SO G) as R1. pose proof R1 as (S1 & _).
    intros EQ.
    eapply (seq3 h h1 h' _ (fun r1 t1 h1 => match r1 with
      | Err e => (h1, Err e, t1) | Ok v => let '(h2, r2, t2) := ke v h1 in (h2, r2, t1 ++ t2) end)); [exact R1|].
    destruct r1 as [v|e0]; [|injection EQ as <- <- <-; now apply ran3_refl].
    destruct (kr v h1) as [[h2 r2] t2] eqn:K. pose proof (TK v h1 h2 r2 t2 S1 K) as R2. injection EQ as <- <- <-.
    eapply (seq3 h1 h2 h2 _ (fun r2 t2 h2 => (h2, r2, t1 ++ t2))); [exact R2|]. apply ran3_refl; auto. apply R2.
  Qed.

  Definition lower (c : sconf) (n : nat) : host -> gprog -> host * res scval * list tree :=
    match n with O => fun h _ => (h, Err e_fuel, []) | S m => exec E c m end.

  Lemma exec_tracks n : forall p, tracks (fun h => exec E cr n h p) (fun h => exec E ce n h p).
  Proof.
    induction n as [n IHn] using (well_founded_induction Wf_nat.lt_wf).
    assert (TX : forall p, tracks (fun h => lower cr n h p) (fun h => lower ce n h p)).
    { intros p. destruct n as [|m]; [|apply IHn; lia]. intros h h' r t SO [= <- <- <-]. now apply ran3_refl. }
    clear IHn.
    assert (SEQ : forall gr ge kr ke (p : gprog), tracks gr ge -> (forall v, tracks (kr v) (ke v)) ->
      (forall h, exec E cr n h p = bind (gr h) kr) -> (forall h, exec E ce n h p = bind (ge h) ke) ->
      tracks (fun h => exec E cr n h p) (fun h => exec E ce n h p)).
    { intros gr ge kr ke p TG TK ER EE h h' r t SO EQ. rewrite ER in EQ.
      apply (ran3_ext h h' (fun h => bind (ge h) ke)); [intros e; symmetry; apply EE|].
      revert EQ. now apply (bind_tracks gr ge kr ke). }
    induction p as [v|e0|e0|o k IH|id fn args k IH|id fn args k IH|id args k IH|pre ex args k IH].
    - destruct n; intros h h' r t SO [= <- <- <-]; now apply ran3_refl.
    - destruct n; intros h h' r t SO [= <- <- <-]; now apply ran3_refl.
    - destruct n; intros h h' r t SO [= <- <- <-]; now apply ran3_refl.
    - intros h h' r t SO EQ.
      assert (EX : forall c h, exec E c n h (GOp o k) = let '(h1, r1, t1) := step E c h o in
        match r1 with Err e => (h1, Err e, t1) | Ok v => let '(h2, r2, t2) := exec E c n h1 (k v) in (h2, r2, t1 ++ t2) end)
        by (intros; destruct n; reflexivity).
      rewrite EX in EQ. destruct (step E cr h o) as [[h1 r1] t1] eqn:ST. pose proof (step_tracks o h h1 r1 t1 SO ST) as R1. pose proof R1 as (S1 & _).
      apply (ran3_ext h h' (fun h => let '(h1, r1, t1) := step E ce h o in
        match r1 with Err e => (h1, Err e, t1) | Ok v => let '(h2, r2, t2) := exec E ce n h1 (k v) in (h2, r2, t1 ++ t2) end));
        [intros e; symmetry; apply EX|].
      eapply (seq3 h h1 h' _ (fun r1 t1 h1 => match r1 with Err e => (h1, Err e, t1) | Ok v => let '(h2, r2, t2) := exec E ce n h1 (k v) in (h2, r2, t1 ++ t2) end)); [exact R1|].
      destruct r1 as [v|e0]; [|injection EQ as <- <- <-; now apply ran3_refl].
      destruct (exec E cr n h1 (k v)) as [[h2 r2] t2] eqn:K. pose proof (IH v h1 h2 r2 t2 S1 K) as R2. injection EQ as <- <- <-.
      eapply (seq3 h1 h2 h2 _ (fun r2 t2 h2 => (h2, r2, t1 ++ t2))); [exact R2|]. apply ran3_refl; auto. apply R2.
    - apply (SEQ (call E cr (lower cr n) KCall id fn args) (call E ce (lower ce n) KCall id fn args)
                 (fun v h1 => exec E cr n h1 (k v)) (fun v h1 => exec E ce n h1 (k v)));
        [now apply call_tracks|exact IH|intros; destruct n; reflexivity|intros; destruct n; reflexivity].
    - apply (SEQ (call E cr (lower cr n) KTry id fn args) (call E ce (lower ce n) KTry id fn args)
                 (fun v h1 => exec E cr n h1 (k v)) (fun v h1 => exec E ce n h1 (k v)));
        [now apply call_tracks|exact IH|intros; destruct n; reflexivity|intros; destruct n; reflexivity].
    - apply (SEQ (call E cr (lower cr n) KAuth id s_check_auth args) (call E ce (lower ce n) KAuth id s_check_auth args)
                 (fun _ h1 => exec E cr n h1 k) (fun _ h1 => exec E ce n h1 k));
        [now apply call_tracks|intros _; exact IH|intros; destruct n; reflexivity|intros; destruct n; reflexivity].
    - apply (SEQ (create E cr (lower cr n) pre ex args) (create E ce (lower ce n) pre ex args)
                 (fun v h1 => exec E cr n h1 (k v)) (fun v h1 => exec E ce n h1 (k v)));
        [now apply create_tracks|exact IH|intros; destruct n; reflexivity|intros; destruct n; reflexivity].
  Qed.

  Theorem invoke_tracks fn : tracks (fun h => invoke E cr h fn) (fun h => invoke E ce h fn).
  Proof.
    unfold invoke. cbv zeta. apply with_frame_tracks. destruct fn as [id fn args|pre exe args|w].
    - apply call_tracks. apply exec_tracks.
    - apply create_tracks. apply exec_tracks.
    - intros h h' r t SO. destruct (step E cr h (OUpload w)) as [[h1 r1] t1] eqn:ST.
      pose proof (step_tracks (OUpload w) h h1 r1 t1 SO ST) as R1. intros [= <- <- <-].
      eapply (seq3 h h1 h1 _ (fun r t h1 => (h1, rbind r (fun v => match v with GV x => Ok x | GO _ => Err e_ctx_internal end), t))); [exact R1|].
      apply ran3_refl; auto. apply R1.
  Qed.
End Replay.
