(* The properties of contract calls, as stated in P_Frame. *)
From Coq Require Import ZArith Lia List Bool.
From Verif Require Import Prelude ValModel ContainerModel HeapModel AMap StorageModel StorageSpec
  StorageProofs StorageProofs2 StorageLogic StorageProofs3 FrameModel FrameSpec FrameProofs FrameStore FrameProofs2 FrameProofs3.
Import ListNotations.
Open Scope Z_scope.

Section Final.
  Context {P : Type}.
  Variable E : env P.
  Variable c : sconf.
  Notation host := (host P).

  Lemma idle_good (h : host) : idle c h -> good c h.
  Proof. intros (A & B & _). split; auto. Qed.
  Lemma running_good (h : host) : running c h -> good c h.
  Proof. intros (A & B & _). split; auto. Qed.
  Lemma running_pre (h : host) : running c h -> pre h.
  Proof. intros (_ & _ & C). now apply cur_pre. Qed.

  (* ---------------------------------------------------------------- failed calls *)

  Lemma framed_ev_failed w id h (r : res scval) l h' e : framed E w id h r l h' -> r = Err e -> published (h_ev h') = published (h_ev h).
  Proof.
    intros F ->. rewrite (fr_ev _ _ _ _ _ _ _ F), published_app, published_trees. cbn. now rewrite app_nil_r.
  Qed.

  Lemma failed_call n kd id fn args h h' e t : li_ok (sc_li c) -> running c h -> kd <> KAuth -> kind_fn kd fn ->
    call_n E c (exec E c n) kd id fn args h = (h', Err e, t) ->
    (forall k, contents c (h_store h') k = contents c (h_store h) k)
    /\ h_stack h' = h_stack h /\ published (h_ev h') = published (h_ev h).
  Proof.
    intros LI R N KF CN.
    destruct (call_n_told E c LI _ _ _ _ _ _ _ _ _ (exec_tells E c LI n) KF (running_good h R) (running_pre h R) CN) as (_ & A & _).
    destruct (A eq_refl N) as [A1 A2]. split; [intros k; symmetry; apply A1|]. split; auto.
    destruct (call_n_shape E c _ _ _ _ _ _ _ _ _ (exec_shape E c n) KF CN) as [[-> (X & _)]|(l & -> & F & _)].
    - now rewrite X.
    - eapply framed_ev_failed; eauto.
  Qed.

  Lemma failed_invocation h f h' e t : li_ok (sc_li c) -> idle c h -> invoke E c h f = (h', Err e, t) ->
    (forall k, contents c (h_store h') k = contents c (h_store h) k)
    /\ h_stack h' = [] /\ published (h_ev h') = published (h_ev h).
  Proof.
    intros LI R IN. pose proof (proj2 (proj2 R)) as S.
    destruct (invoke_told E c LI h f h' _ t (idle_good h R) S IN) as (l & -> & (_ & A & _) & S').
    split; [intros k; symmetry; now apply A|]. split; auto.
    destruct (invoke_shape E c h f h' _ _ S IN) as (l' & _ & F). eapply framed_ev_failed; eauto.
  Qed.

  (* a running host stays a running host *)
  Lemma call_running n kd id fn args h h' r t : li_ok (sc_li c) -> running c h -> kind_fn kd fn ->
    call E c (exec E c n) kd id fn args h = (h', r, t) -> running c h'.
  Proof.
    intros LI R KF CL.
    pose proof (call_told E c LI _ _ _ _ _ _ _ _ _ (exec_tells E c LI n) KF (running_good h R) (running_pre h R) CL) as [(G & _) _].
    split; [apply G|]. split; [apply G|].
    pose proof (call_shape E c _ _ _ _ _ _ _ _ _ (exec_shape E c n) (running_pre h R) KF CL) as SH.
    rewrite (cur_id_rel _ _ (sh_stack _ _ _ _ _ SH)). apply R.
  Qed.

  (* ---------------------------------------------------------------- try_call *)

  Lemma try_ok n id fn args k h h1 v t1 : call_n E c (exec E c n) KTry id fn args h = (h1, Ok v, t1) ->
    exec E c (S n) h (GTry id fn args k) = (let '(h2, r, t2) := exec E c (S n) h1 (k v) in (h2, r, t1 ++ t2)).
  Proof.
    intros CN.
    change (exec E c (S n) h (GTry id fn args k)) with (bind (call E c (exec E c n) KTry id fn args h) (fun v h1 => exec E c (S n) h1 (k v))).
    unfold call. rewrite CN. reflexivity.
  Qed.
  Lemma try_recovers n id fn args k h h1 e t1 : call_n E c (exec E c n) KTry id fn args h = (h1, Err e, t1) -> ~ fatal e ->
    exec E c (S n) h (GTry id fn args k) = (let '(h2, r, t2) := exec E c (S n) h1 (k (SError (seen e))) in (h2, r, t1 ++ t2)).
  Proof.
    intros CN NF.
    change (exec E c (S n) h (GTry id fn args k)) with (bind (call E c (exec E c n) KTry id fn args h) (fun v h1 => exec E c (S n) h1 (k v))).
    unfold call. rewrite CN. unfold answer. destruct (recoverable e) eqn:RC.
    - destruct e; reflexivity.
    - destruct NF. now apply fatal_recoverable.
  Qed.
  Lemma try_fatal n id fn args k h h1 e t1 : call_n E c (exec E c n) KTry id fn args h = (h1, Err e, t1) -> fatal e ->
    exec E c (S n) h (GTry id fn args k) = (h1, Err e, t1).
  Proof.
    intros CN F.
    change (exec E c (S n) h (GTry id fn args k)) with (bind (call E c (exec E c n) KTry id fn args h) (fun v h1 => exec E c (S n) h1 (k v))).
    unfold call. rewrite CN, (answer_fatal KTry (Err e) e); auto.
  Qed.

  Lemma flush_value (h : host) r h' v : flush c h r = (h', Ok v) -> r = Ok v.
  Proof.
    unfold flush. destruct r as [u|e]; [|congruence]. destruct (persist c h) as [h1 [[|]|]]; try congruence.
    destruct (reload_below c h1) as [h2 [[]|]]; congruence.
  Qed.
  Lemma with_frame_value w f body (h : host) h' v t : with_frame c w f body h = (h', Ok v, t) -> forall e, v <> SError e.
  Proof.
    unfold with_frame. destruct (Nat.leb _ _); [discriminate|].
    destruct (body _) as [[h1 r1] t1]. destruct (flush c h1 (frame_exit r1)) as [h2 r2] eqn:FL.
    intros H. injection H as _ -> _. apply flush_value in FL.
    intros e ->. destruct r1 as [[]|]; try discriminate. destruct e0; discriminate.
  Qed.
  Lemma with_frame_error w f body (h : host) h1 e t :
    (length (h_stack h) < depth_limit)%nat ->
    body (set_stack h ({| cx_frame := f; cx_prng := None; cx_inst := None |} :: h_stack h)) = (h1, Ok (SError e), t) ->
    exists h', with_frame c w f body h = (h', Err (seen e), [TFrame w (Err (seen e)) t]).
  Proof.
    intros L B. unfold with_frame. destruct (Nat.leb_spec depth_limit (length (h_stack h))) as [X|_]; [lia|]. rewrite B.
    destruct e; cbn; eauto.
  Qed.
  Lemma call_value ex kd id fn args h h' v t : call_n E c ex kd id fn args h = (h', Ok v, t) -> forall e, v <> SError e.
  Proof.
    assert (GO : forall hh, call_contract E c ex kd id fn args (noop_missing kd args) hh = (h', Ok v, t) -> forall e, v <> SError e).
    { intros hh. unfold call_contract. destruct (run_st c hh _) as [h5 r5].
      destruct r5 as [[| |[[en ?]|]]|]; try destruct en; try discriminate.
      destruct v0; try discriminate. apply with_frame_value. }
    unfold call_n. destruct (_ && _); [discriminate|]. destruct (reentry _ _) as [[|m]|]; [|discriminate|apply GO].
    destruct (self_allowed kd); [|discriminate]. destruct (persist c h) as [h1 [x|x]]; [apply GO|discriminate].
  Qed.

  Lemma invoke_fatal h f h' r t : h_stack h = [] -> invoke E c h f = (h', r, t) ->
    forall p w e, occurs t p (w, Err e) -> fatal e -> (forall q, In q p -> snd q = Err e) /\ r = Err e.
  Proof.
    intros S IN p w e O F. destruct (invoke_shape E c h f h' r t S IN) as (l & -> & FR).
    apply occurs_one in O as [(-> & [= -> <-])|(p' & -> & O)]; [split; [intros q []|auto]|].
    destruct (fr_fatal _ _ _ _ _ _ _ FR p' w e O F) as [A B]. destruct r as [v|e']; [discriminate|]. injection B as ->.
    split; auto. intros q I. apply in_app_or in I as [I|[<-|[]]]; auto.
  Qed.

  (* ---------------------------------------------------------------- call stacks *)

  Lemma invoke_legal h f h' r t : h_stack h = [] -> invoke E c h f = (h', r, t) ->
    forall p w r', occurs t p (w, r') -> (length p < depth_limit)%nat /\ legal (ids (map fst p)) w.
  Proof.
    intros S IN p w r' O. destruct (invoke_shape E c h f h' r t S IN) as (l & -> & FR).
    apply occurs_one in O as [(-> & [= -> <-])|(p' & -> & O)]; [split; [cbn; unfold depth_limit; lia|exact I]|].
    destruct (fr_legal _ _ _ _ _ _ _ FR p' w r' O) as [A B]. rewrite S in A, B. cbn in A, B.
    rewrite app_length, map_app, ids_app. split; [exact A|]. exact B.
  Qed.

  (* the frames enclosing a frame: contract [id] occurs twice only as an
     authentication directly inside itself *)
  (* ---------------------------------------------------------------- events *)

  Lemma invoke_events h f h' r t : h_stack h = [] -> invoke E c h f = (h', r, t) ->
    h_ev h' = h_ev h ++ ev_trees t
    /\ published (h_ev h') = published (h_ev h) ++ filter not_diagnostic (flat_map kept t).
  Proof.
    intros S IN. destruct (invoke_shape E c h f h' r t S IN) as (l & -> & FR).
    pose proof (fr_ev _ _ _ _ _ _ _ FR) as EV. split; auto. now rewrite EV, published_app, published_trees.
  Qed.

  (* ---------------------------------------------------------------- instances *)

  Lemma iview_contracts m id : contracts m id = option_map (fun p => (fst p, iget (imap_of (snd p)))) (iview m id).
  Proof. unfold contracts, iview. destruct (m _) as [[[] ?]|]; auto. destruct v; reflexivity. Qed.

  Lemma rep_contracts (h : host) : h_stack h = [] -> rep c h (contracts (cont c h)).
  Proof. intros S id. rewrite S. cbn. rewrite iview_contracts. destruct (iview (cont c h) id) as [[ex st]|]; cbn; auto. Qed.
  Lemma contracts_rep (h : host) w : h_stack h = [] -> rep c h w -> same_world w (contracts (cont c h)).
  Proof.
    intros S R id. specialize (R id). rewrite S in R. cbn in R. rewrite iview_contracts.
    destruct (iview (cont c h) id) as [[ex st]|]; destruct (w id) as [[ex' f]|]; cbn; try contradiction; auto.
    destruct R as [-> R]. auto.
  Qed.

  Lemma invoke_explained h f h' r t : li_ok (sc_li c) -> idle c h -> invoke E c h f = (h', r, t) ->
    exists w', explained None (contracts (contents c (h_store h))) t w' /\ same_world w' (contracts (contents c (h_store h'))).
  Proof.
    intros LI R IN. pose proof (proj2 (proj2 R)) as S.
    destruct (invoke_told E c LI h f h' r t (idle_good h R) S IN) as (l & -> & (_ & A & B) & S').
    destruct (B (contracts (cont c h)) (rep_contracts h S)) as (w1 & X & RP); [discriminate|].
    exists (match r with Ok _ => w1 | Err _ => contracts (cont c h) end). split.
    - eapply ex_call; [discriminate|exact X|constructor].
    - destruct r as [v|e]; [apply contracts_rep; auto|].
      intros id. fold (cont c h'). rewrite !iview_contracts, (iview_same _ _ id (A eq_refl)).
      destruct (iview (cont c h) id) as [[ex st]|]; cbn; auto.
  Qed.

  (* ---------------------------------------------------------------- creation *)

  Lemma create_exists n pr exe args h : li_ok (sc_li c) -> running c h ->
    contents c (h_store h) (instance_key (AContract (cid E pr))) <> None ->
    exists h' e, create E c (exec E c n) pr exe args h = (h', Err e, [])
      /\ forall k, contents c (h_store h') k = contents c (h_store h) k.
  Proof.
    intros LI R N. unfold create. destruct (negb (pairing_ok pr exe)); [eauto|].
    destruct (run_st c h _) as [h1 r1] eqn:RS. pose proof (running_good h R) as G.
    destruct (run_st_spec c LI h _ _ h1 r1 (proj1 G) (create_post_ext _ _ _ _) (wp_create _ _ (cid E pr) exe LI (proj2 G)) RS)
      as (_ & _ & _ & _ & Q).
    destruct r1 as [o|e]; [destruct Q as (_ & Q & _); contradiction|]. exists h1, e. split; auto. intros k. symmetry. apply Q.
  Qed.

  Lemma create_succeeds n pr exe args h h' v t : li_ok (sc_li c) -> running c h \/ (good c h /\ pre h) ->
    create E c (exec E c n) pr exe args h = (h', Ok v, t) ->
    let id := cid E pr in
    let key := instance_key (AContract id) in
    contents c (h_store h) key = None /\ v = SAddress (AContract id) /\ pairing_ok pr exe = true /\
    exists h1 t',
      h_stack h1 = h_stack h /\ t = TCreated id exe :: t'
      /\ (forall k, contents c (h_store h1) k =
            upd (contents c (h_store h)) key (Some (EData (SContractInstance exe None), Some (min_live (sc_li c) Persistent))) k)
      /\ runnable (contents c (h_store h1)) exe
      /\ match pr with
         | PreAddress _ _ =>
             (t' = [] /\ args = [] /\ h' = h1)
             \/ (exists l, t' = [TFrame (Some (KCtor, id, s_constructor, args)) (Ok SVoid) l]
                   /\ call E c (exec E c n) KCtor id s_constructor args h1 = (h', Ok SVoid, t'))
         | PreAsset a => exists r l, t' = [TFrame (Some (KInit, id, s_init_asset, [SBytes a])) (Ok r) l]
                   /\ call E c (exec E c n) KInit id s_init_asset [SBytes a] h1 = (h', Ok r, t')
         end.
  Proof.
    intros LI RG CR id key.
    assert (G : good c h) by (destruct RG as [R|[G _]]; auto using running_good).
    pose proof (create_runs_ctor E c _ _ _ _ _ _ _ _ CR (exec_ctor E c n)) as (t' & TT & CT).
    revert CR. unfold create. destruct (pairing_ok pr exe) eqn:PO; [cbn [negb]|discriminate].
    destruct (run_st c h _) as [h1 r1] eqn:RS. pose proof (run_st_inert c _ _ _ _ RS) as I1.
    destruct (run_st_spec c LI h _ _ h1 r1 (proj1 G) (create_post_ext _ _ _ _) (wp_create _ _ (cid E pr) exe LI (proj2 G)) RS)
      as (R1 & _ & A1 & _ & Q).
    destruct r1 as [o|e]; [|discriminate]. destruct Q as (Q1 & Q2 & Q3 & Q4 & Q5). fold id in Q1, Q2, Q3, Q4. fold key in Q1, Q2, Q3.
    assert (UP : forall k, cont c h1 k = upd (cont c h) key (Some (EData (SContractInstance exe None), Some (min_live (sc_li c) Persistent))) k).
    { intros k. unfold upd. destruct (lkey_eq_dec k key) as [->|NE]; auto. }
    destruct pr as [d salt|asset].
    - unfold contract_proto. destruct (run_st c h1 _) as [h2 r2] eqn:RS2.
      pose proof (run_st_inert c _ _ _ _ RS2) as I2.
      assert (G1 : good c h1) by (split; auto).
      destruct (read_told c LI h1 (load_contract id) id (fun _ => True) h2 r2 G1) as (G2 & S2 & _); auto; [apply wp_load; apply G1|].
      assert (COMMON : h_stack h2 = h_stack h
        /\ (forall k, cont c h2 k = upd (cont c h) key (Some (EData (SContractInstance exe None), Some (min_live (sc_li c) Persistent))) k)
        /\ runnable (cont c h2) exe).
      { destruct I1 as (_ & _ & I1). destruct I2 as (_ & _ & I2). split; [congruence|]. split; [intros k; rewrite <- (S2 k); apply UP|].
        destruct exe; cbn in *; rewrite <- ?S2; auto. }
      destruct COMMON as (C1 & C2 & C3).
      destruct (match r2 with Ok _ => _ | Err _ => _ end) as [pv|e]; [|discriminate].
      destruct (pv <? 22).
      + destruct args; [|discriminate]. intros [= <- <- <-]. split; auto. split; auto. split; auto. exists h2, [].
        split; auto. split; [reflexivity|]. split; auto.
      + destruct (call E c (exec E c n) KCtor _ _ _ h2) as [[h3 r3] t3] eqn:CL. intros CR.
        assert (V : r3 = Ok SVoid /\ v = SAddress (AContract id)).
        { destruct r3 as [u|e]; [|discriminate]. split; [|injection CR as _ CV _; symmetry; exact CV]. unfold call in CL.
          destruct (call_n _ _ _ _ _ _ _ _) as [[h4 r4] t4]. injection CL as _ AN _.
          destruct r4 as [u4|e4]; [destruct u4|cbn in AN; destruct (recoverable e4)]; cbn in AN; congruence. }
        destruct V as [-> ->]. injection CR as <- <-. injection TT as <-. split; auto. split; auto. split; auto. exists h2, t3.
        split; auto. split; auto. split; auto. split; auto. destruct CT as [(l & ->)|(-> & _)].
        * right. exists l. split; auto.
        * exfalso. unfold call in CL. destruct (call_n E c (exec E c n) KCtor id s_constructor args h2) as [[h4 r4] t4] eqn:CN.
          fold id in CL. rewrite CN in CL. injection CL as _ AN ->.
          assert (GO : forall hh rr, call_contract E c (exec E c n) KCtor id s_constructor args (noop_missing KCtor args) hh = (h4, rr, []) -> failed rr = true).
          { intros hh rr. unfold call_contract. destruct (run_st c hh _) as [h5 r5].
            destruct r5 as [[| |[[en ?]|]]|]; try destruct en; try (intros [= <- <-]; reflexivity). destruct v; try (intros [= <- <-]; reflexivity).
            unfold with_frame. destruct (Nat.leb _ _); [intros [= <- <-]; reflexivity|].
            match goal with |- (match ?B with _ => _ end) = _ -> _ => destruct B as [[h6 r6] t6] end.
            destruct (flush c h6 (frame_exit r6)) as [h7 r7]. discriminate. }
          assert (FA : failed r4 = true).
          { revert CN. unfold call_n. cbn [internal negb andb]. destruct (reentry _ _) as [[|m]|]; [| |apply GO].
            - cbn [self_allowed]. intros [= <- <-]; reflexivity.
            - intros [= <- <-]; reflexivity. }
          destruct r4 as [u|e]; [discriminate|]. cbn in AN. destruct (recoverable e); discriminate.
    - destruct (call E c (exec E c n) KInit _ _ _ h1) as [[h3 r3] t3] eqn:CL. intros CR.
      destruct r3 as [u|e]; [|discriminate]. cbn in CR. injection CR as <- <- <-. injection TT as <-.
      split; auto. split; auto. split; auto. exists h1, t3.
      split; [apply I1|]. split; auto. split; [exact UP|]. split; [exact Q5|]. destruct CT as (r & l & ->). exists r, l.
      split; auto. assert (EQ : u = r).
      { unfold call in CL. destruct (call_n E c (exec E c n) KInit _ _ _ h1) as [[h4 r4] t4] eqn:CN. injection CL as _ AN ->.
        cbn in AN. apply call_ctors in CN; [|apply exec_ctor]. destruct CN as [X|(l' & [= <- _] & _)]; [discriminate|]. congruence. }
      subst u. exact CL.
  Qed.

  (* arguments without a constructor are refused *)
  Lemma create_ctor_args n d salt hash args h h' v t : li_ok (sc_li c) -> running c h \/ (good c h /\ pre h) ->
    create E c (exec E c n) (PreAddress d salt) (ExWasm hash) args h = (h', Ok v, t) ->
    wasm E hash s_constructor args = None -> args = [].
  Proof.
    intros LI RG CR NW. destruct args as [|a0 args0]; auto. exfalso. set (args := a0 :: args0) in *.
    assert (G : good c h) by (destruct RG as [R|[G _]]; auto using running_good).
    revert CR. unfold create. set (id := cid E (PreAddress d salt)). destruct (negb _); [discriminate|].
    destruct (run_st c h _) as [h1 r1] eqn:RS.
    destruct (run_st_spec c LI h _ _ h1 r1 (proj1 G) (create_post_ext _ _ _ _) (wp_create _ _ id (ExWasm hash) LI (proj2 G)) RS)
      as (R1 & _ & A1 & _ & Q).
    destruct r1 as [o|e]; [|discriminate]. destruct Q as (Q1 & Q2 & Q3 & Q4 & Q5).
    unfold contract_proto. destruct (run_st c h1 _) as [h2 r2] eqn:RS2.
    assert (G1 : good c h1) by (split; auto).
    destruct (read_told c LI h1 (load_contract id) id (fun _ => True) h2 r2 G1) as (G2 & S2 & _); auto; [apply wp_load; apply G1|].
    destruct (match r2 with Ok _ => _ | Err _ => _ end) as [pv|e]; [|discriminate].
    destruct (pv <? 22); [discriminate|].
    destruct (call E c (exec E c n) KCtor _ _ _ h2) as [[h3 r3] t3] eqn:CL. intros CR.
    destruct r3 as [u|e]; [|discriminate]. clear CR.
    assert (IN : cont c h2 (instance_key (AContract id)) = Some (EData (SContractInstance (ExWasm hash) None), Some (min_live (sc_li c) Persistent)))
      by (rewrite <- (S2 _); first [exact Q3|exact Q2|exact Q4]).
    unfold call in CL. destruct (call_n E c (exec E c n) KCtor id s_constructor args h2) as [[h4 r4] t4] eqn:CN.
    injection CL as _ AN _. assert (FA : failed r4 = true); [|destruct r4 as [u4|e]; [discriminate|cbn in AN; destruct (recoverable e); discriminate]].
    revert CN. unfold call_n. cbn [internal negb andb]. destruct (reentry _ _) as [[|m]|].
    - cbn [self_allowed]. intros [= <- <- <-]; reflexivity.
    - intros [= <- <- <-]; reflexivity.
    - unfold call_contract. destruct (run_st c h2 (load_contract id)) as [h5 r5] eqn:RS5.
      assert (EX : ext_post (loads_wasm hash)) by (intros m m' r _ X; exact X).
      destruct (run_st_spec c LI h2 _ _ h5 r5 (proj1 (proj1 G2)) EX (wp_load_wasm _ _ id hash _ (proj2 (proj1 G2)) IN) RS5) as (_ & _ & Q).
      destruct r5 as [o5|e]; [|intros [= <- <- <-]; reflexivity]. destruct (Q o5 eq_refl) as (st & l & ->).
      unfold with_frame. destruct (Nat.leb _ _); [intros [= <- <- <-]; reflexivity|]. rewrite NW.
      change (noop_missing KCtor args) with false. cbn. intros [= <- <- <-]; reflexivity.
  Qed.

  (* ---------------------------------------------------------------- executables *)

  Lemma invoke_evolves h f h' r t : li_ok (sc_li c) -> idle c h -> invoke E c h f = (h', r, t) ->
    evolves (contents c (h_store h)) (contents c (h_store h')).
  Proof.
    intros LI R IN. pose proof (proj2 (proj2 R)) as S.
    destruct (invoke_told E c LI h f h' r t (idle_good h R) S IN) as (l & -> & ((_ & _ & A) & _) & _). exact A.
  Qed.
  Lemma invoke_idle h f h' r t : li_ok (sc_li c) -> idle c h -> invoke E c h f = (h', r, t) -> idle c h'.
  Proof.
    intros LI R IN. pose proof (proj2 (proj2 R)) as S.
    destruct (invoke_told E c LI h f h' r t (idle_good h R) S IN) as (l & -> & ((A & _) & _) & S').
    split; [apply A|]. split; [apply A|auto].
  Qed.
End Final.
