(* In a recorded run where no call failed, every key of the footprint is in the
   storage map at the end. *)
From Coq Require Import ZArith Lia List Bool Permutation.
From Verif Require Import Prelude ValModel ContainerModel HeapModel AMap StorageModel StorageSpec
  StorageProofs StorageProofs2 StorageLogic StorageProofs3 FeesModel FrameModel FrameSpec FrameProofs FrameStore FrameProofs2 FrameProofs3 FrameProofs4 FrameProofs5
  E2EModel E2ESpec E2EProofs E2EProofs2 ReplayProofs E2EProofs3.
Import ListNotations.
Open Scope Z_scope.


Lemma full_record s k a : full s -> mget (st_map s) k <> None -> full (record_access s k a).
Proof.
  intros F M k'. rewrite record_map. destruct (lkey_eq_dec k' k) as [->|N]; auto. rewrite record_other by auto. apply F.
Qed.
Lemma full_record_mset s k a v : full s -> full (set_map (record_access s k a) (mset (st_map (record_access s k a)) k v)).
Proof.
  intros F k' G. cbn in *. rewrite mget_mset. destruct (lkey_eq_dec k' k) as [->|N]; [discriminate|].
  rewrite record_other in G by auto. rewrite record_map. now apply F.
Qed.
Lemma full_mset s k v : full s -> full (set_map s (mset (st_map s) k v)).
Proof. intros F k' G. cbn in *. rewrite mget_mset. destruct (lkey_eq_dec k' k); [discriminate|]. now apply F. Qed.

Section Full.
  Variable c : sconf.
  Variable src : lkey -> option lentry.
  Hypothesis MODE : sc_mode c = Recording src.

  Lemma full_handle s k s' r : full s -> handle_maybe_expired (sc_li c) s k = (s', r) -> full s'.
  Proof.
    intros F. unfold handle_maybe_expired. destruct (mget (st_map s) k) as [[[e l]|]|] eqn:M; try (intros [= <- <-]; exact F).
    destruct (key_durability k) as [d|]; [|intros [= <- <-]; exact F]. destruct l as [l|]; [|intros [= <- <-]; exact F].
    destruct (l <? li_seq (sc_li c)); [|intros [= <- <-]; exact F]. destruct d.
    - intros [= <- <-]. now apply full_mset.
    - destruct (min_live_until (sc_li c) Persistent); intros [= <- <-].
      + now apply full_record_mset.
      + apply full_record; [exact F|congruence].
  Qed.
  Lemma full_cfg s k s' r : full s -> maybe_expired_cfg c s k = (s', r) -> full s'.
  Proof. intros F. unfold maybe_expired_cfg. destruct (sc_recording_build c); [now apply full_handle|intros [= <- <-]; exact F]. Qed.
  Lemma full_prepare s k s' r : full s -> prepare_read_only_access c s k = (s', r) -> full s'.
  Proof.
    intros F. unfold prepare_read_only_access. rewrite MODE. cbv zeta. rewrite record_map.
    destruct (mget (st_map s) k) eqn:M.
    - apply full_handle. apply full_record; [apply full_record; [exact F|congruence]|rewrite record_map; congruence].
    - apply full_handle. apply full_record; [rewrite <- (record_map s k ReadOnly) at 1; now apply full_record_mset|].
      cbn. rewrite mget_mset. destruct (lkey_eq_dec k k); congruence.
  Qed.
  Lemma full_get s k s' r : full s -> try_get c s k = (s', r) -> full s'.
  Proof.
    intros F. unfold try_get. destruct (key_supported k); [|intros [= <- <-]; exact F].
    destruct (prepare_read_only_access c s k) as [s1 r1] eqn:PR. pose proof (full_prepare _ _ _ _ F PR) as F1.
    destruct r1; [|intros [= <- <-]; exact F1]. destruct (mget (st_map s1) k); intros [= <- <-]; exact F1.
  Qed.
  Lemma full_put s k v s' r : full s -> put_opt c s k v = (s', r) -> full s'.
  Proof.
    intros F. unfold put_opt. destruct (negb (key_supported k)); [intros [= <- <-]; exact F|].
    match goal with |- context [if ?b then _ else _] => destruct b end; [intros [= <- <-]; exact F|].
    destruct (maybe_expired_cfg c s k) as [s1 r1] eqn:PR. pose proof (full_cfg _ _ _ _ F PR) as F1.
    destruct r1; [|intros [= <- <-]; exact F1]. rewrite MODE. intros [= <- <-]. now apply full_record_mset.
  Qed.
  Lemma full_prepare_ttl s k x s' r : full s -> prepare_extend_ttl c s k x = (s', r) -> full s'.
  Proof.
    intros F. unfold prepare_extend_ttl. cbv zeta. destruct (negb (key_supported k)); [intros [= <- <-]; exact F|].
    destruct (maybe_expired_cfg c s k) as [s1 r1] eqn:PR. pose proof (full_cfg _ _ _ _ F PR) as F1.
    destruct r1; [|intros [= <- <-]; exact F1]. destruct (try_get c s1 k) as [s2 r2] eqn:TG. intros [= <- _]. eapply full_get; eauto.
  Qed.
  Lemma full_apply s k ti n : full s -> full (apply_ttl_extension s k ti n).
  Proof. intros F. unfold apply_ttl_extension. destruct (ti_old ti <? n); auto using full_mset. Qed.
  Lemma full_step s op s' r : full s -> sstep c s op = (s', r) -> full s'.
  Proof.
    intros F. destruct op; cbn [sstep].
    - destruct (try_get c s k) eqn:G. intros [= <- _]. eapply full_get; eauto.
    - destruct (try_get c s k) eqn:G. intros [= <- _]. eapply full_get; eauto.
    - unfold unit_out. destruct (put_opt _ _ _ _) eqn:G. intros [= <- _]. eapply full_put; eauto.
    - unfold unit_out. destruct (put_opt _ _ _ _) eqn:G. intros [= <- _]. eapply full_put; eauto.
    - unfold unit_out, extend_ttl. destruct (extend_to <? threshold); [intros [= <- _]; exact F|].
      destruct (prepare_extend_ttl _ _ _ _) as [s1 r1] eqn:G. pose proof (full_prepare_ttl _ _ _ _ _ F G) as F1.
      destruct r1; [|intros [= <- _]; exact F1]. destruct (checked_add_u32 _ _); [|intros [= <- _]; exact F1]. cbv zeta.
      destruct (_ <=? _); intros [= <- _]; auto. now apply full_apply.
    - unfold unit_out, extend_ttl_v2. destruct (max_ext <? min_ext); [intros [= <- _]; exact F|].
      destruct (prepare_extend_ttl _ _ _ _) as [s1 r1] eqn:G. pose proof (full_prepare_ttl _ _ _ _ _ F G) as F1.
      destruct r1; [|intros [= <- _]; exact F1]. cbv zeta. destruct (_ <? _); [intros [= <- _]; exact F1|].
      destruct (checked_add_u32 _ _); intros [= <- _]; auto. now apply full_apply.
  Qed.

  Fixpoint flat (p : prog) : Prop :=
    match p with
    | PRet _ => True
    | PDo _ k => forall r, flat (k r)
    | PFrame _ _ => False
    end.
  Lemma full_run p : flat p -> forall s s' r t, full s -> srun c s p = (s', r, t) -> full s'.
  Proof.
    induction p as [r0|op k IH|b IHb k IH]; cbn [srun flat]; intros FL s s' r t F; [intros [= <- _ _]; exact F| |destruct FL].
    destruct (sstep c s op) as [s1 r1] eqn:ST. destruct (srun c s1 (k r1)) as [[s2 r2] t2] eqn:RN. intros [= <- _ _].
    exact (IH r1 (FL r1) _ _ _ _ (full_step _ _ _ _ F ST) RN).
  Qed.
End Full.

Lemma flat_succ op k : (forall o, flat (k o)) -> flat (psucc op k).
Proof. intros H [o|e]; cbn; auto. Qed.
Lemma flat_bind p k : flat p -> (forall r, flat (k r)) -> flat (pbind p k).
Proof. intros F H. induction p; cbn in *; auto. Qed.
Lemma flat_get k cont : (forall e, flat (cont e)) -> flat (pget k cont).
Proof. intros H. apply flat_succ. intros [| |[e|]]; cbn; auto. Qed.
Lemma flat_has k cont : (forall b, flat (cont b)) -> flat (phas k cont).
Proof. intros H. apply flat_succ. intros [| |]; cbn; auto. Qed.
Lemma flat_put k e l : flat (pput k e l).
Proof. apply flat_succ. intros o. exact I. Qed.
Lemma flat_wasm h p : flat p -> flat (verify_wasm_exists h p).
Proof. intros H. apply flat_has. intros []; cbn; auto. Qed.
Lemma flat_inst key cont : (forall e s, flat (cont e s)) -> flat (pinstance key cont).
Proof. intros H. apply flat_get. intros [[v| | | |] l]; cbn; auto. destruct v; cbn; auto. Qed.
Lemma flat_ref o t cont : (forall b, flat (cont b)) -> flat (resolve_external_ref o t cont).
Proof. intros H. apply flat_get. intros [[v| | | |] l]; cbn; auto. destruct v; cbn; auto. destruct (Nat.eqb _ _); cbn; auto. Qed.
Lemma flat_code ext key : flat (extend_code_ttl ext key).
Proof.
  apply flat_inst. intros [h| |o t] s; [|exact I|].
  - apply flat_succ. intros; exact I.
  - apply flat_succ. intros _. apply flat_ref. intros b. apply flat_succ. intros; exact I.
Qed.
Lemma flat_data li k d v : flat (put_data_into_ledger li k d v).
Proof.
  apply flat_has. intros [].
  - apply flat_get. intros [[] l]; try exact I. apply flat_put.
  - destruct (get_min_live_until li d); [apply flat_put|exact I].
Qed.
Lemma flat_hop li a hp : flat (hop_prog li a hp).
Proof.
  destruct hp; cbn [hop_prog].
  - unfold put_contract_data, validate_put. destruct k; try apply flat_data. destruct d; [exact I|]. destruct v; try exact I.
    destruct (Nat.eqb _ _); [|exact I]. apply flat_wasm, flat_data.
  - apply flat_succ. intros; exact I.
  - apply flat_get. intros [[] l]; exact I.
  - unfold del_contract_data. destruct k; try exact I; apply flat_succ; intros; exact I.
  - apply flat_succ. intros; exact I.
  - apply flat_succ. intros; exact I.
  - apply flat_succ. intros; apply flat_code.
  - unfold extend_instance_and_code_ttl_v2. cbv zeta. destruct sc.
    + apply flat_bind; [apply flat_code|]. intros [|]; [apply flat_succ; intros; exact I|exact I].
    + apply flat_succ; intros; exact I.
    + apply flat_code.
Qed.
Lemma flat_nonce li a n l : flat (consume_nonce li a n l).
Proof. unfold consume_nonce. cbv zeta. destruct (get_min_live_until _ _); [|exact I]. apply flat_has. intros []; [exact I|apply flat_put]. Qed.
Lemma flat_store li id ex st : flat (store_instance li id ex st).
Proof.
  apply flat_has. intros [].
  - apply flat_get. intros [[v| | | |] l]; try exact I. destruct v; try exact I. apply flat_put.
  - destruct ex; [|exact I]. destruct (get_min_live_until _ _); [apply flat_put|exact I].
Qed.
Lemma flat_create li id ex : flat (create_with_id li id ex).
Proof.
  apply flat_has. intros []; [exact I|]. cbv zeta. destruct ex; [apply flat_wasm|..]; try apply flat_store.
  apply flat_has. intros []; [apply flat_store|exact I].
Qed.
Lemma flat_update id ex : flat (update_check id ex).
Proof.
  unfold update_check. cbv zeta. destruct ex; [apply flat_wasm|exact I|apply flat_has; intros []; [|exact I]]; apply flat_inst; intros; exact I.
Qed.
Lemma flat_upload li h w : flat (upload_code li h w).
Proof.
  unfold upload_code. cbv zeta. apply flat_has.
  assert (F : flat (match get_min_live_until li Persistent with Ok l => pput (LKCode h) (ECode w) (Some l) | Err e => pfail e end))
    by (destruct (get_min_live_until _ _); [apply flat_put|exact I]).
  intros []; [|exact F]. apply flat_get. intros [[] l]; try exact I. destruct (zlist_eq_dec _ _); [exact I|exact F].
Qed.
Lemma flat_load id : flat (load_contract id).
Proof.
  apply flat_inst. intros ex st. cbv zeta.
  assert (F : forall h, flat (pget (LKCode h) (fun '(e, _) => match e with
      | ECode _ => PRet (Ok (OEntry (Some (EData (SContractInstance (ExWasm h) st), None)))) | _ => pfail e_st_internal end)))
    by (intros h; apply flat_get; intros [[] l]; exact I).
  destruct ex; [apply F|exact I|]. apply flat_ref. apply F.
Qed.

Section Calm.
  Context {P : Type}.
  Variable E : env P.
  Variable c : sconf.
  Variable src : lkey -> option lentry.
  Hypothesis MODE : sc_mode c = Recording src.
  Notation li := (sc_li c).
  Notation host := (host P).
  Definition hfull (h : host) : Prop := full (h_store h).
  Definition fulls {A} (f : host -> host * A * list tree) : Prop :=
    forall h h' a t, hfull h -> f h = (h', a, t) -> forallb calm t = true -> hfull h'.

  Lemma full_st p h h' r : flat p -> hfull h -> run_st c h p = (h', r) -> hfull h'.
  Proof.
    intros FP F. unfold run_st. destruct (srun c (h_store h) p) as [[s r0] t] eqn:RN. intros [= <- _].
    exact (full_run c src MODE p FP _ _ _ _ F RN).
  Qed.
  Lemma full_persist h h' r : hfull h -> persist c h = (h', r) -> hfull h'.
  Proof.
    intros F. unfold persist. destruct (h_stack h) as [|x l]; [intros [= <- _]; exact F|].
    destruct (cx_inst x) as [[m [|]]|]; try (intros [= <- _]; exact F).
    destruct (frame_id (cx_frame x)) as [id|]; [|intros [= <- _]; exact F].
    destruct (run_st c h (store_instance li id None (Some m))) as [h1 r1] eqn:RS. intros [= <- _].
    eapply full_st; [apply flat_store|exact F|exact RS].
  Qed.
  Lemma full_reload id (l : list (ctx P)) : forall s s' l' r, full s -> reload c s id l = (s', l', r) -> full s'.
  Proof.
    induction l as [|x l IH]; cbn [reload]; intros s s' l' r F; [intros [= <- _ _]; exact F|].
    destruct (reload c s id l) as [[s1 l1] r1] eqn:RL. pose proof (IH _ _ _ _ F RL) as F1.
    destruct r1; [|intros [= <- _ _]; exact F1].
    match goal with |- context [if ?b then _ else _] => destruct b end; [|intros [= <- _ _]; exact F1].
    change (pinstance _ _) with (read_instance id).
    destruct (srun c s1 (read_instance id)) as [[s2 r2] t2] eqn:RN.
    assert (F2 : full s2). { eapply (full_run c src MODE); [|exact F1|exact RN]. apply flat_inst. intros; exact I. }
    intros EQ. assert (s' = s2) as ->; [|exact F2].
    destruct r2 as [o|]; [|congruence]. destruct o as [| |o]; try congruence. destruct o as [[en lv]|]; try congruence.
    destruct en; try congruence. destruct v; congruence.
  Qed.
  Lemma full_below h h' r : hfull h -> reload_below c h = (h', r) -> hfull h'.
  Proof.
    intros F. unfold reload_below. destruct (h_stack h) as [|x l]; [intros [= <- _]; exact F|].
    destruct (frame_id (cx_frame x)) as [id|]; [|intros [= <- _]; exact F].
    destruct (reload c (h_store h) id l) as [[s l'] r0] eqn:RL. intros [= <- _]. exact (full_reload _ _ _ _ _ _ F RL).
  Qed.
  Lemma full_flush h q h' r : hfull h -> flush c h q = (h', r) -> hfull h'.
  Proof.
    intros F. unfold flush. destruct q as [v|e]; [|intros [= <- _]; exact F].
    destruct (persist c h) as [h1 rp] eqn:PS. pose proof (full_persist _ _ _ F PS) as F1.
    destruct rp as [[|]|]; try (intros [= <- _]; exact F1).
    destruct (reload_below c h1) as [h2 rr] eqn:RL. pose proof (full_below _ _ _ F1 RL) as F2.
    destruct rr; intros [= <- _]; exact F2.
  Qed.
  Lemma full_frame who f (b : host -> host * res scval * list tree) : fulls b -> fulls (with_frame c who f b).
  Proof.
    intros FB h h' r t F. unfold with_frame. destruct (Nat.leb depth_limit (length (h_stack h))); [intros [= <- _ _] _; exact F|].
    cbv zeta. set (h0 := set_stack h _). destruct (b h0) as [[h1 r1] t1] eqn:BR.
    destruct (flush c h1 (frame_exit r1)) as [h2 r2] eqn:FL.
    intros EQ. apply pair_equal_spec in EQ. destruct EQ as [EQ ET]. apply pair_equal_spec in EQ. destruct EQ as [EH ER].
    subst t h'. destruct r2 as [v|e]; cbn [forallb calm]; [|discriminate]. rewrite andb_true_r. intros CM.
    assert (F1 : hfull h1) by exact (FB h0 h1 r1 t1 F BR CM). exact (full_flush _ _ _ _ F1 FL).
  Qed.

  Section Calls.
    Variable x : host -> gprog -> host * res scval * list tree.
    Hypothesis FX : forall p, fulls (fun h => x h p).
    Lemma full_call_contract kd id fn args noop : fulls (call_contract E c x kd id fn args noop).
    Proof.
      intros h h' r t F. unfold call_contract. destruct (run_st c h (load_contract id)) as [h1 q] eqn:RS.
      pose proof (full_st _ _ _ _ (flat_load id) F RS) as F1.
      destruct q as [o|e0]; [|intros [= <- _ _] _; exact F1]. destruct o as [| |o]; try (intros [= <- _ _] _; exact F1).
      destruct o as [[en lv]|]; try (intros [= <- _ _] _; exact F1). destruct en as [v| | | |]; try (intros [= <- _ _] _; exact F1).
      destruct v; try (intros [= <- _ _] _; exact F1).
      intros EQ CM. revert EQ CM. cbv zeta. apply full_frame; [|exact F1]. clear - FX.
      intros h h' r t F EQ CM. match goal with X : executable |- _ => destruct X end; try (now eapply FX; eauto).
      destruct (wasm E _ fn args); [now eapply FX; eauto|]. destruct noop; injection EQ as <- _ _; exact F.
    Qed.
    Lemma full_call kd id fn args : fulls (call E c x kd id fn args).
    Proof.
      intros h h' r t F. unfold call. destruct (call_n E c x kd id fn args h) as [[h1 r1] t1] eqn:CN. intros [= <- _ <-] CM.
      unfold call_n in CN. destruct (negb (internal kd) && starts_with s_prefix fn); [injection CN as <- _ _; exact F|].
      cbv zeta in CN. destruct (reentry (h_stack h) id) as [[|n]|].
      - destruct (self_allowed kd); [|injection CN as <- _ _; exact F].
        destruct (persist c h) as [h2 q] eqn:PS. pose proof (full_persist _ _ _ F PS) as F1.
        destruct q; [exact (full_call_contract _ _ _ _ _ _ _ _ _ F1 CN CM)|injection CN as <- _ _; exact F1].
      - injection CN as <- _ _; exact F.
      - exact (full_call_contract _ _ _ _ _ _ _ _ _ F CN CM).
    Qed.
    Lemma full_create pre exe args : fulls (create E c x pre exe args).
    Proof.
      intros h h' r t F. unfold create. destruct (negb (pairing_ok pre exe)); [intros [= <- _ _] _; exact F|].
      cbv zeta. destruct (run_st c h (create_with_id li (cid E pre) exe)) as [h1 q] eqn:RS.
      pose proof (full_st _ _ _ _ (flat_create _ _ _) F RS) as F1. destruct q; [|intros [= <- _ _] _; exact F1].
      destruct pre as [pa pn|asset].
      - unfold contract_proto. destruct (run_st c h1 (load_contract _)) as [h2 q2] eqn:RS2.
        pose proof (full_st _ _ _ _ (flat_load _) F1 RS2) as F2.
        match goal with |- context [match ?m with Ok proto => _ | Err e => _ end = _] => destruct m end; [|intros [= <- _ _] _; exact F2].
        destruct (_ <? 22); [destruct args; intros [= <- _ _] _; exact F2|].
        destruct (call E c x KCtor _ s_constructor args h2) as [[h3 r3] t3] eqn:CL. intros [= <- _ <-] CM. cbn in CM.
        exact (full_call _ _ _ _ _ _ _ _ F2 CL CM).
      - destruct (call E c x KInit _ s_init_asset _ h1) as [[h3 r3] t3] eqn:CL. intros [= <- _ <-] CM. cbn in CM.
        exact (full_call _ _ _ _ _ _ _ _ F1 CL CM).
    Qed.
  End Calls.

  Lemma full_gstep o : fulls (fun h => step E c h o).
  Proof.
    intros h h' r t F. destruct o; cbn [step].
    - destruct (cur_id h); [|intros [= <- _ _] _; exact F]. destruct (hop_key_ok h0); [|intros [= <- _ _] _; exact F].
      destruct (run_st c h _) as [h1 q] eqn:RS. intros [= <- _ _] _. exact (full_st _ _ _ _ (flat_hop _ _ _) F RS).
    - destruct (classic_op op); [|intros [= <- _ _] _; exact F].
      destruct (run_st c h _) as [h1 q] eqn:RS. intros [= <- _ _] _. eapply full_st; [|exact F|exact RS]. intros r0; exact I.
    - destruct (run_st c h _) as [h1 q] eqn:RS. intros [= <- _ _] _. exact (full_st _ _ _ _ (flat_nonce _ _ _ _) F RS).
    - unfold inst_op. destruct (inst_refused i); [intros [= <- _ _] _; exact F|].
      destruct (h_stack h) as [|x l]; [intros [= <- _ _] _; exact F|]. destruct (inst_of x) as [[m d]|]; [|intros [= <- _ _] _; exact F].
      destruct (inst_step i m d) as [[m' d'] r0]. intros [= <- _ _] _. exact F.
    - intros [= <- _ _] _. exact F.
    - unfold draw_op. cbv zeta. destruct (match o with PReseed s => negb (Nat.eqb (length s) 32) | _ => false end); [intros [= <- _ _] _; exact F|].
      destruct (h_stack h) as [|x l]; [intros [= <- _ _] _; exact F|].
      destruct (match cx_prng x with Some p => (p, h_base h) | None => sub_prng E (h_base h) end) as [p base].
      destruct (match o with PReseed s => (reseed E s, Ok SVoid) | _ => draw E o p end) as [p' r0]. intros [= <- _ _] _. exact F.
    - destruct (cur_id h) as [id|]; [|intros [= <- _ _] _; exact F].
      destruct (run_st c h (update_check id ex)) as [h1 q] eqn:RS. pose proof (full_st _ _ _ _ (flat_update _ _) F RS) as F1.
      destruct q as [o|e0]; [|intros [= <- _ _] _; exact F1]. destruct o as [| |o]; try (intros [= <- _ _] _; exact F1).
      destruct o as [[en lv]|]; try (intros [= <- _ _] _; exact F1). destruct en as [v| | | |]; try (intros [= <- _ _] _; exact F1).
      cbv zeta. set (ev := {| ev_id := _; ev_kind := _; ev_body := _ |}).
      destruct (run_st c (add_event h1 ev) (store_instance li id (Some ex) None)) as [h2 r2] eqn:R2.
      assert (F1' : hfull (add_event h1 ev)) by exact F1. pose proof (full_st _ _ _ _ (flat_store _ _ _ _) F1' R2) as F2.
      destruct r2; intros [= <- _ _] _; exact F2.
    - destruct (check_upload E wasm) as [[hash code]|e0]; [|intros [= <- _ _] _; exact F].
      destruct (run_st c h _) as [h1 q] eqn:RS. intros [= <- _ _] _. exact (full_st _ _ _ _ (flat_upload _ _ _) F RS).
  Qed.

  Lemma full_seq (g : host -> host * res scval * list tree) k : fulls g -> (forall v, fulls (k v)) -> fulls (fun h => bind (g h) k).
  Proof.
    intros FG FK h h' r t F. unfold bind. destruct (g h) as [[h1 r1] t1] eqn:G. destruct r1 as [v|e].
    - destruct (k v h1) as [[h2 r2] t2] eqn:K. intros [= <- _ <-] CM. rewrite forallb_app in CM. apply andb_true_iff in CM. destruct CM as [C1 C2].
      exact (FK v _ _ _ _ (FG _ _ _ _ F G C1) K C2).
    - intros [= <- _ <-] CM. exact (FG _ _ _ _ F G CM).
  Qed.

  Lemma full_exec n : forall p, fulls (fun h => exec E c n h p).
  Proof.
    induction n as [n IHn] using (well_founded_induction Wf_nat.lt_wf).
    assert (FX : forall p, fulls (fun h => lower E c n h p)).
    { intros p. destruct n as [|m]; [|apply IHn; lia]. intros h h' r t F [= <- _ _] _. exact F. }
    clear IHn.
    assert (SEQ : forall g k (p : gprog), fulls g -> (forall v, fulls (k v)) ->
      (forall h, exec E c n h p = bind (g h) k) -> fulls (fun h => exec E c n h p)).
    { intros g k p FG FK ER h h' r t F EQ CM. rewrite ER in EQ. exact (full_seq g k FG FK _ _ _ _ F EQ CM). }
    induction p as [v|e0|e0|o k IH|id fn args k IH|id fn args k IH|id args k IH|pre ex args k IH].
    - destruct n; intros h h' r t F [= <- _ _] _; exact F.
    - destruct n; intros h h' r t F [= <- _ _] _; exact F.
    - destruct n; intros h h' r t F [= <- _ _] _; exact F.
    - intros h h' r t F EQ CM.
      assert (EX : forall h, exec E c n h (GOp o k) = let '(h1, r1, t1) := step E c h o in
        match r1 with Err e => (h1, Err e, t1) | Ok v => let '(h2, r2, t2) := exec E c n h1 (k v) in (h2, r2, t1 ++ t2) end)
        by (intros; destruct n; reflexivity).
      rewrite EX in EQ. destruct (step E c h o) as [[h1 r1] t1] eqn:ST. destruct r1 as [v|e].
      + destruct (exec E c n h1 (k v)) as [[h2 r2] t2] eqn:K. injection EQ as <- _ <-. rewrite forallb_app in CM.
        apply andb_true_iff in CM. destruct CM as [C1 C2]. exact (IH v _ _ _ _ (full_gstep o _ _ _ _ F ST C1) K C2).
      + injection EQ as <- _ <-. exact (full_gstep o _ _ _ _ F ST CM).
    - apply (SEQ (call E c (lower E c n) KCall id fn args) (fun v h1 => exec E c n h1 (k v)));
        [now apply full_call|exact IH|intros; destruct n; reflexivity].
    - apply (SEQ (call E c (lower E c n) KTry id fn args) (fun v h1 => exec E c n h1 (k v)));
        [now apply full_call|exact IH|intros; destruct n; reflexivity].
    - apply (SEQ (call E c (lower E c n) KAuth id s_check_auth args) (fun _ h1 => exec E c n h1 k));
        [now apply full_call|intros _; exact IH|intros; destruct n; reflexivity].
    - apply (SEQ (create E c (lower E c n) pre ex args) (fun v h1 => exec E c n h1 (k v)));
        [now apply full_create|exact IH|intros; destruct n; reflexivity].
  Qed.

  Theorem full_invoke fn : fulls (fun h => invoke E c h fn).
  Proof.
    unfold invoke. cbv zeta. apply full_frame. destruct fn as [id fn args|pre exe args|w].
    - apply full_call. apply full_exec.
    - apply full_create. apply full_exec.
    - intros h h' r t F. destruct (step E c h (OUpload w)) as [[h1 r1] t1] eqn:ST. intros [= <- _ <-] CM.
      exact (full_gstep (OUpload w) _ _ _ _ F ST CM).
  Qed.
End Calm.
