(* Contract executions and the ledger: instance storage, creation, executables,
   and what a failed call leaves behind. *)
From Coq Require Import ZArith Lia List Bool.
From Verif Require Import Prelude ValModel ContainerModel HeapModel AMap StorageModel StorageSpec
  StorageProofs StorageProofs2 StorageLogic StorageProofs3 FrameModel FrameSpec FrameProofs FrameStore.
Import ListNotations.
Open Scope Z_scope.

Lemma explained_app cur w t1 w1 : explained cur w t1 w1 -> forall t2 w2,
  explained cur w1 t2 w2 -> explained cur w (t1 ++ t2) w2.
Proof. induction 1; intros t2 w2 X; cbn; [assumption|..]; econstructor; eauto. Qed.

Section Ledger.
  Context {P : Type}.
  Variable E : env P.
  Variable c : sconf.
  Hypothesis LI : li_ok (sc_li c).
  Notation host := (host P).
  Notation ctx := (ctx P).
  Notation li := (sc_li c).

  Definition cont (h : host) : store := contents c (h_store h).
  Definition good (h : host) : Prop := run_ok c (h_store h) /\ alive li (cont h).
  Definition untouched (f : list (lkey * access)) (m m' : store) : Prop := forall k, fget f k = None -> m' k = m k.
  Definition sle (s s' : storage) : Prop :=
    covers (st_foot s) (st_foot s') /\ (sc_mode c = Enforcing -> st_foot s' = st_foot s)
    /\ (sc_mode c = Enforcing -> keeps (st_foot s) (contents c s) (contents c s'))
    /\ untouched (st_foot s') (contents c s) (contents c s').
  Lemma sle_refl s : sle s s.
  Proof. split; [apply covers_refl|]. split; auto. split; [intros _; apply StorageProofs2.keeps_refl|now intros k]. Qed.
  Lemma sle_trans a b d : sle a b -> sle b d -> sle a d.
  Proof.
    intros (A1 & A2 & A3 & A4) (B1 & B2 & B3 & B4). split; [eapply covers_trans; eauto|].
    split; [intros M; rewrite B2, A2; auto|]. split.
    - intros M. eapply StorageProofs2.keeps_trans; [apply A3; auto|]. rewrite <- (A2 M). now apply B3.
    - intros k F. rewrite (B4 k F). apply A4. destruct (fget (st_foot b) k) eqn:X; auto.
      assert (Y : declared (st_foot b) k ReadOnly) by (cbn; congruence). apply B1 in Y. cbn in Y. congruence.
  Qed.

  Lemma sle_rollback s s1 : sle s s1 -> sle s (set_map s1 (st_map s)).
  Proof.
    intros (A3 & A4 & _). split; [exact A3|]. split; [exact A4|].
    split; [intros _; apply StorageProofs2.keeps_refl|now intros k].
  Qed.

  Definition run_good (h h' : host) : Prop :=
    good h' /\ sle (h_store h) (h_store h') /\ evolves (cont h) (cont h').
  Lemma run_good_refl h : good h -> run_good h h.
  Proof. intros G. split; auto. split; [apply sle_refl|apply evolves_refl]. Qed.
  Lemma run_good_trans a b d : run_good a b -> run_good b d -> run_good a d.
  Proof.
    intros (A1 & A2 & A3) (B1 & B2 & B3). split; auto. split; [eapply sle_trans; eauto|eapply evolves_trans; eauto].
  Qed.

  Lemma srun_spec s p (Q : post) s' r t : run_ok c s -> ext_post Q -> wp li p (contents c s) Q ->
    srun c s p = (s', r, t) -> run_ok c s' /\ sle s s' /\ Q (contents c s') r.
  Proof.
    intros R X W RN. destruct (wp_sound c p LI s Q s' r t R X W RN) as [A B].
    destruct (srun_ok c p LI s s' r t R RN (fun _ => B)) as (C1 & C2 & C3). split; auto. split; auto. split; auto.
    split; auto. split.
    - intros M. destruct R as [R|(src & M' & _)]; [|congruence].
      apply (run_enforced c p LI M s s' r t R RN (fun _ => B)).
    - exact (untouched_run c p LI s s' r t R RN (fun _ => B)).
  Qed.
  Lemma run_st_spec h p (Q : post) h' r : run_ok c (h_store h) -> ext_post Q -> wp li p (cont h) Q ->
    run_st c h p = (h', r) -> run_ok c (h_store h') /\ sle (h_store h) (h_store h') /\ Q (cont h') r.
  Proof.
    unfold run_st. intros R X W. destruct (srun c (h_store h) p) as [[s r0] t] eqn:RN. intros [= <- <-].
    eapply srun_spec; eauto.
  Qed.

  (* ---------------------------------------------------------------- instances in memory *)

  Definition inst1 (x : ctx) : imap * bool := match inst_of x with Some i => i | None => ([], false) end.
  Fixpoint maps (id : list Z) (l : list ctx) : list (imap * bool) :=
    match l with
    | [] => []
    | x :: l' =>
        match frame_id (cx_frame x) with
        | Some i => if zlist_eq_dec i id then inst1 x :: maps id l' else maps id l'
        | None => maps id l'
        end
    end.
  Fixpoint agrees (f : scval -> option scval) (l : list (imap * bool)) : Prop :=
    match l with
    | [] => True
    | (m, d) :: l' => (forall k, iget m k = f k) /\ (d = false -> agrees f l')
    end.
  Definition rep1 (v : option (executable * option imap)) (ms : list (imap * bool))
    (wv : option (executable * (scval -> option scval))) : Prop :=
    match ms with
    | [] =>
        match v, wv with
        | Some (ex, st), Some (ex', f) => ex = ex' /\ forall k, f k = iget (imap_of st) k
        | None, None => True
        | _, _ => False
        end
    | (m, d) :: _ =>
        exists ex st f, v = Some (ex, st) /\ wv = Some (ex, f)
          /\ (forall k, f k = iget m k) /\ (d = false -> agrees (iget (imap_of st)) ms)
    end.
  Definition rep (h : host) (w : world) : Prop := forall id, rep1 (iview (cont h) id) (maps id (h_stack h)) (w id).

  Lemma rep_same h h' w : (forall id, iview (cont h') id = iview (cont h) id) ->
    (forall id, maps id (h_stack h') = maps id (h_stack h)) -> rep h w -> rep h' w.
  Proof. intros A B R id. rewrite A, B. apply R. Qed.

  Lemma rep_none h w id : rep h w -> iview (cont h) id = None -> maps id (h_stack h) = [] /\ w id = None.
  Proof.
    intros R V. specialize (R id). rewrite V in R. unfold rep1 in R.
    destruct (maps id (h_stack h)) as [|[m d] l].
    - destruct (w id); [contradiction|auto].
    - destruct R as (? & ? & ? & X & _). discriminate.
  Qed.
  Lemma rep_some h w id ex st : rep h w -> iview (cont h) id = Some (ex, st) ->
    exists f, w id = Some (ex, f)
      /\ (agrees (iget (imap_of st)) (maps id (h_stack h)) -> forall k, f k = iget (imap_of st) k).
  Proof.
    intros R V. specialize (R id). rewrite V in R. unfold rep1 in R.
    destruct (maps id (h_stack h)) as [|[m d] l].
    - destruct (w id) as [[ex' f]|]; [|contradiction]. destruct R as [-> R]. exists f. auto.
    - destruct R as (ex0 & st0 & f & [= <- <-] & W & A & _). exists f. split; auto.
      cbn. intros [B _] k. rewrite A. apply B.
  Qed.

  Definition told (h : host) (o : option err) (t : list tree) (h' : host) : Prop :=
    run_good h h' /\ forall w, rep h w -> exists w', explained (cur_id h) w t w' /\ (o = None -> rep h' w').

  Lemma told_trans h t1 h1 o t2 h2 : cur_id h1 = cur_id h -> told h None t1 h1 -> told h1 o t2 h2 -> told h o (t1 ++ t2) h2.
  Proof.
    intros CI [A1 A2] [B1 B2]. split; [eapply run_good_trans; eauto|]. intros w R.
    destruct (A2 w R) as (w1 & X1 & R1). destruct (B2 w1 (R1 eq_refl)) as (w2 & X2 & R2).
    exists w2. split; auto. rewrite CI in X2. eapply explained_app; eauto.
  Qed.
  Lemma told_quiet h o h' : run_good h h' -> (forall id, iview (cont h') id = iview (cont h) id) ->
    (forall id, maps id (h_stack h') = maps id (h_stack h)) -> told h o [] h'.
  Proof. intros G V M. split; auto. intros w R. exists w. split; [constructor|]. intros _. eapply rep_same; eauto. Qed.
  Lemma told_refl h o : good h -> told h o [] h.
  Proof. intros G. apply told_quiet; auto using run_good_refl. Qed.

  Lemma run_st_quiet h p h' r o : good h -> wp li p (cont h) (quiet_post li (cont h)) -> run_st c h p = (h', r) -> told h o [] h'.
  Proof.
    intros [R A] W RS. destruct (run_st_spec h p _ h' r R (quiet_ext _ _) W RS) as (R' & S & A' & EV & V).
    apply told_quiet; auto; [split; [split; auto|auto]|]. intros id.
    pose proof (run_st_inert c h p h' r RS) as (_ & _ & ->). reflexivity.
  Qed.

  Lemma cur_id_rel (h h' : host) : stack_rel h h' -> cur_id h' = cur_id h.
  Proof.
    unfold stack_rel, cur_id. destruct (h_stack h), (h_stack h'); try tauto. intros [-> _]. reflexivity.
  Qed.
  Lemma cur_id_inert (h h' : host) : inert h h' -> cur_id h' = cur_id h.
  Proof. intros (_ & _ & S). unfold cur_id. now rewrite S. Qed.

  (* ---------------------------------------------------------------- host functions *)

  Lemma iget_iset m k v k' : iget (iset m k v) k' = kset (iget m) k (Some v) k'.
  Proof. unfold iget, iset, kset. rewrite aget_aset. destruct (scval_eq_dec k' k), (scval_eq_dec k k'); congruence. Qed.
  Lemma iget_idel m k k' : iget (idel m k) k' = kset (iget m) k None k'.
  Proof. unfold iget, idel, kset. rewrite aget_adel. destruct (scval_eq_dec k' k), (scval_eq_dec k k'); congruence. Qed.

  Lemma cont_set_stack h l : cont (set_stack h l) = cont h. Proof. reflexivity. Qed.
  Lemma good_set_stack h l : good h -> run_good h (set_stack h l).
  Proof. intros G. split; [exact G|]. split; [apply sle_refl|apply evolves_refl]. Qed.

  Lemma inst_op_told h i h' r t : cur_id h <> None -> good h -> inst_op h i = (h', r, t) -> told h (fails r) t h'.
  Proof.
    intros R G. unfold inst_op. destruct (inst_refused i); [intros [= <- <- <-]; now apply told_refl|].
    destruct (h_stack h) as [|x rest] eqn:S; [intros [= <- <- <-]; now apply told_refl|].
    destruct (inst_of x) as [[m d]|] eqn:IO; [|intros [= <- <- <-]; now apply told_refl].
    destruct (inst_step i m d) as [[m' d'] r'] eqn:IS. intros [= <- <- <-].
    split; [now apply good_set_stack|]. intros w RP.
    destruct (frame_id (cx_frame x)) as [id|] eqn:FX.
    2: { unfold cur_id in R. rewrite S in R. congruence. }
    unfold cur_id. rewrite S, FX. pose proof (RP id) as RI. rewrite S in RI. cbn [maps] in RI. rewrite FX in RI.
      destruct (zlist_eq_dec id id) as [_|]; [|congruence]. unfold inst1 in RI. rewrite IO in RI. cbn in RI.
      destruct RI as (ex & st & f & V & W & F & AG).
      assert (RR : r' = inst_answer i f).
      { destruct i; cbn in IS; injection IS as <- <- <-; cbn; rewrite ?F; reflexivity. }
      exists (wset w id (ex, inst_after i f)). split; [rewrite RR; econstructor; [exact W|constructor]|].
      intros _ i'. rewrite cont_set_stack. cbn [set_stack h_stack maps]. cbn [set_inst cx_frame]. rewrite FX.
      unfold wset. destruct (zlist_eq_dec id i') as [<-|N].
      + destruct (zlist_eq_dec id id) as [_|]; [|congruence]. unfold inst1, inst_of. cbn [set_inst cx_inst].
        exists ex, st, (inst_after i f). split; auto. split; auto.
        destruct i; cbn in IS; injection IS as <- <- <-; cbn [inst_after].
        * split; [exact F|exact AG].
        * split; [exact F|exact AG].
        * split; [|discriminate]. intros q. rewrite iget_iset. unfold kset. destruct (scval_eq_dec q k); auto.
        * split; [|discriminate]. intros q. rewrite iget_idel. unfold kset. destruct (scval_eq_dec q k); auto.
      + destruct (zlist_eq_dec i' id); [congruence|]. specialize (RP i'). rewrite S in RP. cbn [maps] in RP. rewrite FX in RP.
        destruct (zlist_eq_dec id i'); [congruence|]. exact RP.
  Qed.

  Lemma draw_op_told h o h' r t : good h -> draw_op E h o = (h', r, t) -> told h (fails r) t h'.
  Proof.
    intros G. unfold draw_op. destruct (match o with PReseed s => _ | _ => _ end);
      [intros [= <- <- <-]; now apply told_refl|].
    destruct (h_stack h) as [|x rest] eqn:S; [intros [= <- <- <-]; now apply told_refl|].
    destruct (match cx_prng x with Some p => _ | None => _ end) as [p base].
    destruct (match o with PReseed s => (reseed E s, Ok SVoid) | _ => draw E o p end) as [p' r']. intros [= <- <- <-].
    split; [exact (good_set_stack h [] G)|]. intros w RP. exists w. split; [constructor; constructor|]. intros _.
    eapply rep_same; [| |exact RP]; [reflexivity|]. intros id. rewrite S. reflexivity.
  Qed.

  Lemma store_told h id ex st h' r : good h -> (forall e, ex = Some e -> runnable (cont h) e) ->
    run_st c h (store_instance li id ex st) = (h', r) ->
    run_good h h' /\ store_post li (cont h) id ex st (cont h') r.
  Proof.
    intros [R A] RU RS.
    destruct (run_st_spec h _ _ h' r R (store_post_ext _ _ _ _ _) (wp_store_instance li _ id ex st LI A) RS) as (R' & S & Q).
    split; auto. split; [split; [auto|apply Q]|]. split; auto. eapply store_post_evolves; eauto.
  Qed.

  Lemma iview_off m m' id i : (forall k, k <> instance_key (AContract id) -> m' k = m k) -> i <> id -> iview m' i = iview m i.
  Proof. intros A N. unfold iview. rewrite A; auto. intros [= ->]. congruence. Qed.
  Lemma iview_same m m' id : same m m' -> iview m' id = iview m id.
  Proof. intros S. unfold iview. now rewrite S. Qed.

  Lemma read_told h p id (R : store -> Prop) h' r : good h -> (forall a b, same a b -> R a -> R b) ->
    wp li p (cont h) (read_post li (cont h) id R) -> run_st c h p = (h', r) ->
    run_good h h' /\ same (cont h) (cont h') /\
    forall o, r = Ok o -> R (cont h') /\ exists e st l e0,
      o = OEntry (Some (EData (SContractInstance e st), l)) /\ iview (cont h) id = Some (e0, st).
  Proof.
    intros [RO A] X W RS.
    destruct (run_st_spec h _ _ h' r RO (read_post_ext _ _ _ _ X) W RS) as (R' & S & A' & SM & Q).
    split; [split; [split; auto|]|auto]. split; auto. now apply same_evolves.
  Qed.
  Lemma run_st_stack (h : host) p h' r : run_st c h p = (h', r) -> h_stack h' = h_stack h.
  Proof. intros RS. apply run_st_inert in RS. apply RS. Qed.
  Lemma same_told (h : host) o h' : run_good h h' -> same (cont h) (cont h') -> h_stack h' = h_stack h -> told h o [] h'.
  Proof. intros G S K. apply told_quiet; auto; intros id; [now apply iview_same|now rewrite K]. Qed.

  Lemma step_told h o h' r t : cur_id h <> None -> good h -> step E c h o = (h', r, t) -> told h (fails r) t h'.
  Proof.
    intros CI G. destruct o; cbn [step].
    - destruct (cur_id h) as [id|]; [|intros [= <- <- <-]; now apply told_refl].
      destruct (hop_key_ok h0) eqn:HK; [|intros [= <- <- <-]; now apply told_refl].
      destruct (run_st c h _) as [h1 r1] eqn:RS. intros [= <- <- <-]. eapply run_st_quiet; [exact G| |exact RS].
      apply hop_quiet; auto. apply G.
    - destruct (classic_op op) eqn:CO; [|intros [= <- <- <-]; now apply told_refl].
      destruct (run_st c h _) as [h1 r1] eqn:RS. intros [= <- <- <-]. eapply run_st_quiet; [exact G| |exact RS].
      apply classic_quiet; auto. apply G.
    - destruct (run_st c h _) as [h1 r1] eqn:RS. intros [= <- <- <-]. eapply run_st_quiet; [exact G| |exact RS].
      apply nonce_quiet; auto. apply G.
    - destruct (inst_op h i) as [[h1 r1] t1] eqn:RS. intros [= <- <- <-]. rewrite fails_rmap. now apply inst_op_told in RS.
    - intros [= <- <- <-]. split; [exact (good_set_stack h [] G)|]. intros w RP. exists w. split; [constructor; constructor|].
      intros _. exact RP.
    - destruct (draw_op E h o) as [[h1 r1] t1] eqn:RS. intros [= <- <- <-]. rewrite fails_rmap. now apply draw_op_told in RS.
    - destruct (cur_id h) as [id|] eqn:CU; [|intros [= <- <- <-]; now apply told_refl].
      destruct (run_st c h _) as [h1 r1] eqn:RS.
      destruct (read_told h (update_check id ex) id (fun m => runnable m ex) h1 r1 G) as (G1 & S1 & Q1); auto.
      { intros a b SM. destruct ex; cbn; rewrite <- ?SM; auto. }
      { apply wp_update_check. apply G. }
      pose proof (run_st_stack _ _ _ _ RS) as K1.
      assert (T1 : forall o, told h o [] h1) by (intros; now apply same_told).
      destruct r1 as [o1|e1]; [|intros [= <- <- <-]; apply T1].
      destruct (Q1 _ eq_refl) as (RU & e1 & st1 & l1 & e0 & -> & V0).
      set (e := {| ev_id := _ |}).
      destruct (run_st c (add_event h1 e) _) as [h2 r2] eqn:RS2.
      assert (G1' : good (add_event h1 e)) by apply G1.
      destruct (store_told (add_event h1 e) id (Some ex) None h2 r2 G1') as [G2 Q2]; auto.
      { intros e2 [= <-]. exact RU. }
      pose proof (run_st_stack _ _ _ _ RS2) as K2. cbn in K2.
      assert (GG : run_good h h2) by (eapply run_good_trans; [exact G1|exact G2]).
      destruct r2 as [o2|e2]; intros [= <- <- <-]; (split; [exact GG|]); intros w RP.
      2: { exists w. split; [constructor; constructor|discriminate]. }
      destruct Q2 as (_ & Q2 & Q3). change (cont (add_event h1 e)) with (cont h1) in *.
      rewrite (iview_same _ _ _ S1), V0 in Q3.
      destruct (rep_some _ _ _ _ _ RP V0) as (f & W & _).
      exists (wset w id (ex, f)). rewrite CU. split; [constructor; econstructor; [exact W|constructor]|]. intros _ i.
      rewrite K2, K1. unfold wset. destruct (zlist_eq_dec i id) as [->|N].
      + rewrite Q3. specialize (RP id). rewrite V0, W in RP. unfold rep1 in *.
        destruct (maps id (h_stack h)) as [|[m d] l].
        * split; auto. apply RP.
        * destruct RP as (ex' & st' & f' & [= <- <-] & [= <-] & A & B). exists ex, st1, f. auto.
      + rewrite (iview_off _ _ _ _ Q2 N), (iview_same _ _ _ S1). apply RP.
    - destruct (check_upload E wasm) as [[hash code]|e]; [|intros [= <- <- <-]; now apply told_refl].
      destruct (run_st c h _) as [h1 r1] eqn:RS. intros [= <- <- <-]. eapply run_st_quiet; [exact G| |exact RS].
      apply upload_quiet; auto. apply G.
  Qed.

  (* ---------------------------------------------------------------- writing instances back *)

  Lemma alive_same m m' : same m m' -> alive li m -> alive li m'.
  Proof. intros S A k. rewrite <- S. apply A. Qed.

  Lemma reload_spec id : forall l s s' l' r, run_ok c s -> alive li (contents c s) ->
    reload c s id l = (s', l', r) ->
    run_ok c s' /\ sle s s' /\ same (contents c s) (contents c s')
    /\ (forall i, i <> id -> maps i l' = maps i l)
    /\ (r = Ok tt -> forall e st, iview (contents c s) id = Some (e, st) -> maps id l' = map (fun _ => (imap_of st, false)) (maps id l)).
  Proof.
    induction l as [|x l IH]; cbn [reload]; intros s s' l' r R A.
    - intros [= <- <- <-]. split; auto. split; [apply sle_refl|]. repeat split; auto.
    - destruct (reload c s id l) as [[s1 l1] r1] eqn:RL.
      destruct (IH s s1 l1 r1 R A RL) as (R1 & S1 & M1 & O1 & N1).
      assert (SKIP : forall s2 q, run_ok c s2 -> sle s1 s2 -> same (contents c s1) (contents c s2) -> q <> Ok tt ->
        run_ok c s2 /\ sle s s2 /\ same (contents c s) (contents c s2)
        /\ (forall i, i <> id -> maps i (x :: l1) = maps i (x :: l))
        /\ (q = Ok tt -> forall e st, iview (contents c s) id = Some (e, st) ->
              maps id (x :: l1) = map (fun _ => (imap_of st, false)) (maps id (x :: l)))).
      { intros s2 q R2 S2 M2 NQ. split; auto. split; [eapply sle_trans; eauto|].
        split; [intros k; rewrite (M1 k); apply M2|]. split; [|intros X; contradiction].
        intros i N. cbn [maps]. destruct (frame_id (cx_frame x)); [|auto]. destruct (zlist_eq_dec _ i); [f_equal|]; auto. }
      destruct r1 as [[]|e]; [|intros [= <- <- <-]; apply SKIP; auto using sle_refl, same_refl; discriminate].
      specialize (N1 eq_refl).
      destruct (frame_id (cx_frame x)) as [i|] eqn:FI.
      + destruct (zlist_eq_dec i id) as [->|N].
        * destruct (srun c s1 _) as [[s2 r2] t2] eqn:RN.
          destruct (srun_spec s1 (read_instance id) (read_post li (contents c s1) id (fun _ => True)) s2 r2 t2) as (R2 & S2 & _ & M2 & Q2); auto.
          { apply read_post_ext. auto. }
          { apply wp_read. now apply alive_same in M1. }
          destruct r2 as [o|e]; [|intros [= <- <- <-]; apply SKIP; auto; discriminate].
          destruct (Q2 o eq_refl) as (_ & e1 & st1 & l0 & e0 & -> & V). intros [= <- <- <-].
          split; auto. split; [eapply sle_trans; eauto|]. split; [intros k; rewrite (M1 k); apply M2|]. split.
          -- intros i N. cbn [maps set_inst cx_frame]. rewrite FI. destruct (zlist_eq_dec id i); [congruence|auto].
          -- intros _ e st V'. cbn [maps set_inst cx_frame]. rewrite FI. destruct (zlist_eq_dec id id); [|congruence].
             cbn [map]. rewrite (iview_same _ _ _ M1), V' in V. injection V as <- <-.
             f_equal. eapply N1; eauto.
        * intros [= <- <- <-]. split; auto. split; auto. split; auto. split.
          -- intros j Nj. cbn [maps]. rewrite FI. destruct (zlist_eq_dec i j); [f_equal|]; auto.
          -- intros _ e st V. cbn [maps]. rewrite FI. destruct (zlist_eq_dec i id); [congruence|]. eapply N1; eauto.
      + intros [= <- <- <-]. split; auto. split; auto. split; auto. split.
        * intros j Nj. cbn [maps]. rewrite FI. auto.
        * intros _ e st V. cbn [maps]. rewrite FI. eapply N1; eauto.
  Qed.

  (* persisting: the world is not affected, and the ledger agrees with the top *)
  Definition synced (h : host) (id : list Z) : Prop := exists ex st,
    iview (cont h) id = Some (ex, st) /\ agrees (iget (imap_of st)) (maps id (h_stack h)).

  Definition persisted (h h' : host) (r : res bool) : Prop :=
    run_good h h' /\ inert h h' /\
    forall b, r = Ok b ->
      (b = false -> h' = h /\ forall id, cur_id h = Some id -> exists m rest, maps id (h_stack h) = (m, false) :: rest)
      /\ (b = true -> exists id m ex, cur_id h = Some id /\ (exists rest, maps id (h_stack h) = (m, true) :: rest)
            /\ iview (cont h') id = Some (ex, Some m))
      /\ forall w, rep h w -> rep h' w /\ forall id, cur_id h = Some id -> synced h' id.

  Lemma maps_top id x l : frame_id (cx_frame x) = Some id -> maps id (x :: l) = inst1 x :: maps id l.
  Proof. intros F. cbn [maps]. rewrite F. destruct (zlist_eq_dec id id); [auto|congruence]. Qed.

  Lemma persist_told h h' r : good h -> persist c h = (h', r) -> persisted h h' r.
  Proof.
    intros G PE. pose proof (persist_inert c h h' r PE) as I1. revert PE. unfold persist.
    assert (NO : forall e, persisted h h (Err e)).
    { intros e. split; [now apply run_good_refl|]. split; [apply inert_refl|discriminate]. }
    destruct (h_stack h) as [|x l] eqn:S; [intros [= <- <-]; apply NO|].
    assert (CLEAN : (forall m, cx_inst x <> Some (m, true)) -> persisted h h (Ok false)).
    { intros N. split; [now apply run_good_refl|]. split; [apply inert_refl|]. intros b [= <-].
      assert (D : snd (inst1 x) = false).
      { unfold inst1, inst_of. destruct (cx_inst x) as [[m []]|]; cbn; auto; [now destruct (N m)|]. destruct (cx_frame x); reflexivity. }
      destruct (inst1 x) as [m d] eqn:IX. cbn in D. subst d.
      assert (CM : forall id, cur_id h = Some id -> maps id (h_stack h) = (m, false) :: maps id l).
      { intros id CU. unfold cur_id in CU. rewrite S in CU. rewrite S, maps_top, IX; auto. }
      split; [intros _; split; eauto|]. split; [discriminate|].
      intros w RP. split; auto. intros id CU. pose proof (RP id) as RI.
      rewrite (CM id CU) in RI. destruct RI as (ex & st & f & V & W & F & AG).
      exists ex, st. split; auto. rewrite (CM id CU). auto. }
    destruct (cx_inst x) as [[m d]|] eqn:CX; [|intros [= <- <-]; apply CLEAN; discriminate].
    destruct d; [|intros [= <- <-]; apply CLEAN; intros; discriminate].
    destruct (frame_id (cx_frame x)) as [id|] eqn:FI; [|intros [= <- <-]; apply NO].
    destruct (run_st c h _) as [h1 r1] eqn:RS. intros [= <- <-].
    destruct (store_told h id None (Some m) h1 r1 G) as [G1 Q]; auto; [discriminate|].
    split; auto. split; auto. intros b RB. destruct r1 as [o|e]; [|discriminate]. injection RB as <-.
    split; [discriminate|]. destruct Q as (_ & Q1 & Q2).
    destruct (iview (cont h) id) as [[e0 s0]|] eqn:V0; [|destruct Q2 as (_ & ? & X & _); discriminate].
    assert (CU : cur_id h = Some id) by (unfold cur_id; now rewrite S).
    assert (MS : maps id (h_stack h) = (m, true) :: maps id l).
    { rewrite S, maps_top by exact FI. unfold inst1, inst_of. now rewrite CX. }
    assert (ST : h_stack h1 = h_stack h) by apply I1.
    split; [intros _; exists id, m, e0; split; auto; split; eauto|].
    intros w RP. split.
    - intros i. rewrite ST. destruct (zlist_eq_dec i id) as [->|N].
      + rewrite Q2. specialize (RP id). rewrite V0, MS in RP. rewrite MS. destruct RP as (ex & st & f & [= <- <-] & W & F & _).
        exists e0, (Some m), f. split; auto. split; auto. split; auto. discriminate.
      + rewrite (iview_off _ _ _ _ Q1 N). apply RP.
    - intros i CI. rewrite CU in CI. injection CI as <-. exists e0, (Some m). split; auto. rewrite ST, MS. cbn. split; auto. discriminate.
  Qed.

  Lemma agrees_same f (l : list (imap * bool)) m : (forall k, iget m k = f k) -> agrees f (map (fun _ => (m, false)) l).
  Proof. intros A. induction l as [|y l IH]; cbn; auto. Qed.

  (* leaving a frame successfully *)
  Lemma pop_rep id fr x l h w : h_stack h = x :: l -> frame_id (cx_frame x) = id -> fr = set_stack h l ->
    rep h w -> (forall i, id = Some i -> synced h i /\ forall m, maps i (h_stack h) = (m, true) :: maps i l -> 
       agrees (iget m) (maps i l)) -> rep fr w.
  Proof.
    intros S F -> RP SY i. cbn [set_stack h_stack]. rewrite cont_set_stack. pose proof (RP i) as RI. rewrite S in RI. cbn [maps] in RI.
    rewrite F in RI. destruct id as [j|]; [|exact RI]. destruct (zlist_eq_dec j i) as [->|N]; [|exact RI].
    destruct (SY i eq_refl) as [(ex & st & V & AG) TOP]. rewrite S in AG, TOP. cbn [maps] in AG, TOP. rewrite F in AG, TOP.
    destruct (zlist_eq_dec i i) as [_|]; [|congruence]. destruct (inst1 x) as [m d].
    destruct RI as (ex0 & st0 & f & V0 & W & FM & _). rewrite V in V0. injection V0 as <- <-.
    destruct AG as [AG1 AG2].
    assert (AL : agrees (iget m) (maps i l)).
    { destruct d; [now apply TOP|]. specialize (AG2 eq_refl). clear - AG1 AG2. revert AG2. generalize (maps i l).
      intros q. induction q as [|[m' d'] q IH]; cbn; auto. intros [A B]. split; [intros k; rewrite A, AG1; auto|auto]. }
    rewrite V, W. unfold rep1. destruct (maps i l) as [|[m' d'] q] eqn:ML.
    - split; auto. intros k. now rewrite FM, AG1.
    - exists ex, st, f. split; auto. split; auto. cbn in AL. destruct AL as [A B]. split; [intros k; now rewrite FM, A|].
      intros ->. cbn. split; [intros k; now rewrite A, AG1|]. intros _. specialize (B eq_refl). clear - B AG1.
      induction q as [|[m2 d2] q IH]; cbn in *; auto. destruct B as [B1 B2]. split; [intros k; now rewrite B1, AG1|auto].
  Qed.

  Lemma flush_told h r h' r' : good h -> pre h -> flush c h r = (h', r') ->
    run_good h h' /\ forall v, r' = Ok v -> r = Ok v /\ forall w, rep h w -> rep (set_stack h' (tl (h_stack h'))) w.
  Proof.
    intros G R. unfold flush. destruct r as [v|e]; [|intros [= <- <-]; split; [now apply run_good_refl|discriminate]].
    destruct (persist c h) as [h1 rp] eqn:PE. destruct (persist_told _ _ _ G PE) as (G1 & I1 & Q).
    destruct rp as [b|e]; [|intros [= <- <-]; split; [auto|discriminate]]. destruct (Q b eq_refl) as (QF & QT & QW). clear Q.
    destruct I1 as (_ & _ & ST).
    destruct b.
    - destruct (QT eq_refl) as (id & m & ex & CU & (rest & MS) & V). clear QT QF.
      unfold pre in R. unfold cur_id in CU. destruct (h_stack h) as [|x l] eqn:S; [contradiction|].
      unfold reload_below. rewrite ST, CU. destruct (reload c (h_store h1) id l) as [[s2 l2] rr] eqn:RL.
      destruct (reload_spec id l _ _ _ _ (proj1 (proj1 G1)) (proj2 (proj1 G1)) RL) as (R2 & S2 & M2 & O2 & N2).
      set (h2 := {| h_store := s2; h_ev := h_ev h1; h_base := h_base h1; h_stack := x :: l2 |}).
      assert (G2 : run_good h1 h2).
      { split; [split; [exact R2|]|]. - eapply alive_same; [exact M2|apply G1]. - split; [exact S2|now apply same_evolves]. }
      assert (GG : run_good h h2) by (eapply run_good_trans; eauto).
      destruct rr as [[]|e]; intros [= <- <-]; (split; [exact GG|]); [|discriminate].
      intros v0 [= <-]. split; auto. intros w RP. cbn [h2 h_stack tl].
      apply (pop_rep (Some id) _ x l2 h2 w); auto.
      + destruct (QW w RP) as [RP1 _]. intros i. change (cont h2) with (contents c s2). rewrite (iview_same _ _ _ M2).
        specialize (RP1 i). rewrite ST in RP1. fold (cont h1). change (h_stack h2) with (x :: l2). cbn [maps] in *. rewrite CU in *.
        destruct (zlist_eq_dec id i) as [<-|N]; [|rewrite O2; auto].
        destruct (zlist_eq_dec id id) as [_|]; [|congruence]. injection MS as MS _. rewrite MS in *.
        destruct RP1 as (e1 & s1 & f & V1 & W & F & _). exists e1, s1, f. split; auto. split; auto. split; auto. discriminate.
      + intros i [= <-]. split.
        * exists ex, (Some m). split; [unfold cont; cbn [h2 h_store]; now rewrite (iview_same _ _ _ M2)|].
          cbn [h2 h_stack maps]. rewrite CU. destruct (zlist_eq_dec id id) as [_|]; [|congruence].
          cbn [maps] in MS. rewrite CU in MS. destruct (zlist_eq_dec id id) as [_|]; [|congruence]. injection MS as MS _. rewrite MS.
          cbn. split; auto. discriminate.
        * cbn [h2 h_stack maps]. rewrite CU. destruct (zlist_eq_dec id id) as [_|]; [|congruence].
          cbn [maps] in MS. rewrite CU in MS. destruct (zlist_eq_dec id id) as [_|]; [|congruence]. injection MS as MS _. rewrite MS.
          intros m0 [= <-]. rewrite (N2 eq_refl _ _ V). now apply agrees_same.
    - destruct (QF eq_refl) as [-> CM]. clear QF QT. intros [= <- <-]. split; auto. intros v0 [= <-]. split; auto. intros w RP.
      destruct (QW w RP) as [_ SY]. unfold pre in R. destruct (h_stack h) as [|x l] eqn:S; [contradiction|].
      apply (pop_rep (frame_id (cx_frame x)) _ x l h w); auto.
      intros i F. assert (CU : cur_id h = Some i) by (unfold cur_id; now rewrite S).
      assert (SI : synced h i) by now apply SY. split; auto.
      intros m MM. destruct (CM i CU) as (m' & rest & MM'). rewrite S, MM' in MM. discriminate.
  Qed.

  (* ---------------------------------------------------------------- frames *)

  (* a frame ran: its events are explained, and a failure leaves the ledger as it was *)
  Definition frame_told (id : option (list Z)) (h : host) (r : res scval) (l : list tree) (h' : host) : Prop :=
    run_good h h' /\ (failed r = true -> same (cont h) (cont h'))
    /\ forall w, rep h w -> (forall i, id = Some i -> synced h i) ->
         exists w1, explained id w l w1 /\ (failed r = false -> rep h' w1).

  Lemma with_frame_told wh f body h h' r t : good h -> (frame_id f = None -> h_stack h = []) ->

    (forall i fn m, f = FContract i fn m -> exists ex st, iview (cont h) i = Some (ex, st) /\ m = imap_of st) ->
    (forall h1 r1 t1, body (set_stack h ({| cx_frame := f; cx_prng := None; cx_inst := None |} :: h_stack h)) = (h1, r1, t1) ->
       shape E (set_stack h ({| cx_frame := f; cx_prng := None; cx_inst := None |} :: h_stack h)) (fails r1) t1 h1
       /\ told (set_stack h ({| cx_frame := f; cx_prng := None; cx_inst := None |} :: h_stack h)) (fails r1) t1 h1) ->
    with_frame c wh f body h = (h', r, t) ->
    (t = [] /\ h' = h /\ r = Err e_depth) \/ (exists l, t = [TFrame wh r l] /\ frame_told (frame_id f) h r l h').
  Proof.
    intros G HF FR B. unfold with_frame. destruct (Nat.leb depth_limit (length (h_stack h))); [intros [= <- <- <-]; left; auto|].
    set (x := {| cx_frame := f; cx_prng := None; cx_inst := None |}) in *.
    set (h0 := set_stack h (x :: h_stack h)) in *.
    destruct (body h0) as [[h1 r1] t1] eqn:BD. destruct (B _ _ _ eq_refl) as [SH TL]. clear B.
    assert (R0 : pre h0).
    { unfold pre, h0. cbn. destruct (frame_id f) eqn:F; [left; congruence|right; auto]. }
    pose proof (shape_pre E _ _ _ _ R0 SH) as R1.
    destruct TL as [G1 TL]. destruct (flush c h1 (frame_exit r1)) as [h2 r2] eqn:FL.
    destruct (flush_told _ _ _ _ (proj1 G1) R1 FL) as [G2 FT].
    assert (GG : run_good h h2).
    { eapply run_good_trans; [|exact G2]. exact G1. }
    intros X. right. exists t1. destruct r2 as [v|e]; injection X as <- <- <-; (split; [reflexivity|]).
    - split; [exact GG|]. split; [discriminate|]. intros w RP SY.
      assert (RP0 : rep h0 w).
      { intros i. unfold h0 at 1. rewrite cont_set_stack. cbn [h0 set_stack h_stack maps]. cbn [x cx_frame].
        destruct f as [|j fn m]; cbn [frame_id]; [apply RP|].
        destruct (zlist_eq_dec j i) as [->|N]; [|apply RP].
        destruct (FR i fn m eq_refl) as (ex & st & V & ->). destruct (SY i eq_refl) as (ex' & st' & V' & AG).
        rewrite V in V'. injection V' as <- <-. destruct (rep_some _ _ _ _ _ RP V) as (g & W & F).
        unfold inst1, inst_of. cbn [cx_inst cx_frame]. exists ex, st, g. split; auto. split; auto. split; [now apply F|].
        intros _. cbn. auto. }
      destruct (TL w RP0) as (w1 & XP & RP1). exists w1. split; [exact XP|]. intros _.
      destruct (FT v eq_refl) as [FE FR']. apply FR'. apply RP1.
      destruct r1 as [v1|e1]; [reflexivity|discriminate].
    - assert (SM : same (cont h) (cont (set_stack {| h_store := set_map (h_store h2) (st_map (h_store h));
          h_ev := fail_from (length (h_ev h)) (h_ev h2); h_base := h_base h2; h_stack := h_stack h2 |} (tl (h_stack h2))))) by apply same_refl.
      split; [|split; [intros _; exact SM|]].
      + split; [split|split].
        * cbn. destruct GG as ((A1 & A2) & (A3 & A4 & _) & _). apply rollback_ok; auto. apply G.
        * eapply alive_same; [exact SM|apply G].
        * cbn. apply sle_rollback. apply GG.
        * now apply same_evolves.
      + intros w RP SY.
        assert (RP0 : rep h0 w).
        { intros i. unfold h0 at 1. rewrite cont_set_stack. cbn [h0 set_stack h_stack maps]. cbn [x cx_frame].
          destruct f as [|j fn m]; cbn [frame_id]; [apply RP|].
          destruct (zlist_eq_dec j i) as [->|N]; [|apply RP].
          destruct (FR i fn m eq_refl) as (ex & st & V & ->). destruct (SY i eq_refl) as (ex' & st' & V' & AG).
          rewrite V in V'. injection V' as <- <-. destruct (rep_some _ _ _ _ _ RP V) as (g & W & F).
          unfold inst1, inst_of. cbn [cx_inst cx_frame]. exists ex, st, g. split; auto. split; auto. split; [now apply F|].
          intros _. cbn. auto. }
        destruct (TL w RP0) as (w1 & XP & _). exists w1. split; [exact XP|discriminate].
  Qed.

  Definition exec_told (ex : host -> gprog -> host * res scval * list tree) : Prop :=
    exec_ok E ex /\ forall h p h' r t, cur_id h <> None -> good h -> ex h p = (h', r, t) -> told h (fails r) t h'.

  Lemma cur_pre (h : host) : cur_id h <> None -> pre h.
  Proof. unfold cur_id, pre. destruct (h_stack h); auto. Qed.

  Lemma call_contract_told ex kd id fn args noop h h' r t : exec_told ex -> good h ->
    call_contract E c ex kd id fn args noop h = (h', r, t) ->
    (t = [] /\ failed r = true /\ inert h h' /\ run_good h h' /\ same (cont h) (cont h'))
    \/ exists l, t = [TFrame (Some (kd, id, fn, args)) r l] /\ iview (cont h) id <> None /\ frame_told (Some id) h r l h'.
  Proof.
    intros [X1 X2] G. unfold call_contract. destruct (run_st c h (load_contract id)) as [h1 r1] eqn:RS.
    pose proof (run_st_inert c _ _ _ _ RS) as I1.
    destruct (read_told h (load_contract id) id (fun _ => True) h1 r1 G) as (G1 & S1 & Q1); auto; [apply wp_load; apply G|].
    destruct r1 as [o|e]; [|intros [= <- <- <-]; left; auto 10].
    destruct (Q1 o eq_refl) as (_ & e & st & l0 & e0 & -> & V). clear Q1.
    set (body := fun h2 => match e with ExWasm hash => _ | _ => _ end). intros W.
    assert (V1 : iview (cont h1) id = Some (e0, st)) by (rewrite (iview_same _ _ _ S1); exact V).
    apply with_frame_told in W; auto; [|apply G1|cbn; discriminate| |].
    - destruct W as [(-> & -> & ->)|(l & -> & FT)]; [left; auto 10|right]. exists l. split; auto. split; [congruence|].
      destruct FT as (F1 & F2 & F3). split; [eapply run_good_trans; eauto|]. split.
      + intros FA k. rewrite (S1 k). now apply F2.
      + intros w RP SY. apply F3.
        * eapply rep_same; [| |exact RP]; [intros; now apply iview_same|]. intros i. now rewrite (proj2 (proj2 I1)).
        * intros i I. destruct (SY i I) as (ex' & st' & A & B). exists ex', st'. rewrite (iview_same _ _ _ S1), (proj2 (proj2 I1)). auto.
    - intros i fn' m [= <- <- <-]. eauto.
    - intros h2 r2 t2 BD. set (h0 := set_stack h1 _) in *.
      assert (C0 : cur_id h0 <> None) by discriminate. pose proof (cur_pre _ C0) as R0.
      assert (G0 : good h0) by apply G1.
      assert (EX : forall p, ex h0 p = (h2, r2, t2) -> shape E h0 (fails r2) t2 h2 /\ told h0 (fails r2) t2 h2)
        by (intros p PX; split; [eapply X1; eauto|eapply X2; eauto]).
      unfold body in BD. destruct e.
      + destruct (wasm E hash fn args) as [g|]; [eauto|].
        destruct noop; injection BD as <- <- <-; (split; [apply shape_inert; auto using inert_refl|now apply told_refl]).
      + eauto.
      + eauto.
  Qed.

  Lemma sids_maps id l : ~ In id (sids l) -> maps id l = [].
  Proof.
    induction l as [|x l IH]; cbn; auto. destruct (frame_id (cx_frame x)) as [i|]; auto. cbn. intros N.
    destruct (zlist_eq_dec i id) as [->|]; [destruct N; now left|]. apply IH. tauto.
  Qed.

  (* a call: nothing happened, or a frame ran *)
  Lemma call_n_told ex kd id fn args h h' r t : exec_told ex -> kind_fn kd fn -> good h -> pre h ->
    call_n E c ex kd id fn args h = (h', r, t) ->
    run_good h h'
    /\ (failed r = true -> kd <> KAuth -> same (cont h) (cont h') /\ h_stack h' = h_stack h)
    /\ forall w, rep h w -> exists w1, explained (cur_id h) w t w1 /\ (failed r = false -> rep h' w1)
                                      /\ (failed r = true -> kd <> KAuth -> same_world w w1 /\ rep h' w1).
  Proof.
    intros X KF G R CN. pose proof CN as CN0.
    assert (SW : forall w, same_world w w) by (intros w i; destruct (w i) as [[? ?]|]; auto).
    assert (NOP : forall e, run_good h h /\ (failed (@Err scval e) = true -> kd <> KAuth -> same (cont h) (cont h) /\ h_stack h = h_stack h)
      /\ forall w, rep h w -> exists w1, explained (cur_id h) w [] w1 /\ (failed (@Err scval e) = false -> rep h w1)
          /\ (failed (@Err scval e) = true -> kd <> KAuth -> same_world w w1 /\ rep h w1)).
    { intros e. split; [now apply run_good_refl|]. split; [intros; split; [apply same_refl|auto]|].
      intros w RP. exists w. split; [constructor|]. auto. }
    unfold call_n in CN. destruct (negb (internal kd) && starts_with s_prefix fn); [injection CN as <- <- <-; apply NOP|].
    destruct (reentry (h_stack h) id) as [[|n]|] eqn:RE.
    - destruct (self_allowed kd) eqn:SA; [|injection CN as <- <- <-; apply NOP].
      assert (KD : kd = KAuth) by (destruct kd; try discriminate; auto). subst kd.
      destruct (persist c h) as [h1 rp] eqn:PE. destruct (persist_told _ _ _ G PE) as (G1 & I1 & Q).
      destruct rp as [b|e].
      2: { injection CN as <- <- <-. split; auto. split; [congruence|]. intros w RP. exists w. split; [constructor|].
           split; [discriminate|congruence]. }
      destruct (Q b eq_refl) as (_ & _ & QW).
      assert (CU : cur_id h = Some id).
      { unfold cur_id, pre in *. destruct (h_stack h) as [|x l]; [discriminate|]. cbn in RE.
        destruct (frame_id (cx_frame x)) as [i|]; [|destruct R as [R|R]; [congruence|subst; discriminate]].
        destruct (zlist_eq_dec i id) as [->|]; [auto|]. destruct (reentry l id); discriminate. }
      apply call_contract_told in CN; auto; [|apply G1].
      destruct CN as [(-> & FA & I2 & G2 & S2)|(l & -> & VI & G2 & F2 & F3)].
      + split; [eapply run_good_trans; eauto|]. split; [congruence|]. intros w RP. exists w. split; [constructor|].
        split; [congruence|congruence].
      + split; [eapply run_good_trans; eauto|]. split; [congruence|]. intros w RP. destruct (QW w RP) as [RP1 SY].
        destruct (F3 w RP1) as (w1 & XP & RP2); [intros i [= <-]; auto|].
        exists (match r with Ok _ => w1 | Err _ => w end). split.
        * eapply ex_call; [|exact XP|constructor]. intros i [= <-] WN. specialize (RP1 id). rewrite WN in RP1.
          unfold rep1 in RP1. destruct (maps id (h_stack h1)) as [|[m d] q].
          -- destruct (iview (cont h1) id) as [[? ?]|]; [contradiction|]. now apply VI.
          -- destruct RP1 as (? & ? & ? & _ & ? & _). discriminate.
        * split; [|congruence]. destruct r; [auto|discriminate].
    - injection CN as <- <- <-. apply NOP.
    - pose proof (reentry_none _ _ RE) as NI. apply call_contract_told in CN; auto.
      destruct CN as [(-> & FA & I2 & G2 & S2)|(l & -> & VI & G2 & F2 & F3)].
      + split; auto. split; [intros; split; auto; apply I2|]. intros w RP. exists w. split; [constructor|].
        assert (RP' : rep h' w).
        { eapply rep_same; [| |exact RP]; [intros; now apply iview_same|]. intros i. now rewrite (proj2 (proj2 I2)). }
        auto.
      + split; auto.
        assert (ST : h_stack h' = h_stack h).
        { destruct (call_n_shape E c _ _ _ _ _ _ _ _ _ (proj1 X) KF CN0) as [[T _]|(l' & _ & F & _)]; [discriminate|].
          eapply keeps_absent; [apply F|exact NI]. }
        split; [intros FA _; split; auto|]. intros w RP.
        assert (SYN : synced h id).
        { destruct (iview (cont h) id) as [[e0 s0]|] eqn:V; [|congruence]. exists e0, s0. split; auto. rewrite sids_maps by exact NI. exact I. }
        destruct (F3 w RP) as (w1 & XP & RP2); [intros i [= <-]; exact SYN|].
        exists (match r with Ok _ => w1 | Err _ => w end). split.
        * eapply ex_call; [|exact XP|constructor]. intros i [= <-] WN. specialize (RP id). rewrite WN, sids_maps in RP by exact NI.
          cbn in RP. destruct (iview (cont h) id) as [[? ?]|]; [contradiction|]. now apply VI.
        * split; [destruct r; [auto|discriminate]|]. intros FA _. destruct r; [discriminate|]. split; auto.
          eapply rep_same; [| |exact RP]; [intros; apply iview_same; now apply F2|]. intros i. now rewrite ST.
  Qed.

  Lemma call_told ex kd id fn args h h' r t : exec_told ex -> kind_fn kd fn -> good h -> pre h ->
    call E c ex kd id fn args h = (h', r, t) -> told h (fails r) t h'.
  Proof.
    intros X KF G R. unfold call. destruct (call_n E c ex kd id fn args h) as [[h1 r1] t1] eqn:CN. intros [= <- <- <-].
    destruct (call_n_told _ _ _ _ _ _ _ _ _ X KF G R CN) as (G1 & _ & T). split; auto. intros w RP.
    destruct (T w RP) as (w1 & XP & A & B). exists w1. split; auto. intros N. destruct r1 as [v|e]; [auto|].
    apply B; auto. destruct kd; try discriminate. cbn in N. destruct (recoverable e); discriminate.
  Qed.

  Lemma create_told ex pr exe args h h' r t : exec_told ex -> good h -> pre h ->
    create E c ex pr exe args h = (h', r, t) -> told h (fails r) t h'.
  Proof.
    intros X G R. unfold create. destruct (negb (pairing_ok pr exe)); [intros [= <- <- <-]; now apply told_refl|].
    destruct (run_st c h _) as [h1 r1] eqn:RS. pose proof (run_st_inert c _ _ _ _ RS) as I1.
    destruct (run_st_spec h _ _ h1 r1 (proj1 G) (create_post_ext _ _ _ _) (wp_create li _ (cid E pr) exe LI (proj2 G)) RS)
      as (R1 & S1 & A1 & EV1 & Q1).
    assert (G1 : run_good h h1) by (split; [split; auto|auto]).
    destruct r1 as [o|e].
    2: { intros [= <- <- <-]. apply same_told; auto. apply I1. }
    destruct Q1 as (Q1 & Q2 & Q2' & Q3 & Q4). set (id := cid E pr) in *.
    assert (T1 : forall o, told h o [TCreated id exe] h1).
    { intros q. split; auto. intros w RP. destruct (rep_none h w id RP) as [MN WN]; [unfold iview; now rewrite Q2|].
      exists (wset w id (exe, fun _ => None)). split; [constructor; [exact WN|constructor]|]. intros _ i.
      rewrite (proj2 (proj2 I1)). unfold wset. destruct (zlist_eq_dec i id) as [->|N].
      - rewrite Q3, MN. cbn. auto.
      - rewrite (iview_off _ _ _ _ Q1 N). apply RP. }
    assert (C1 : cur_id h1 = cur_id h) by now apply cur_id_inert.
    assert (P1 : pre h1) by (unfold pre; rewrite (proj2 (proj2 I1)); exact R).
    destruct pr as [d salt|asset].
    - destruct (contract_proto E c h1 _) as [h2 rp] eqn:CP. unfold contract_proto in CP.
      destruct (run_st c h1 (load_contract id)) as [h2' r2] eqn:RS2. injection CP as <- CP.
      destruct (read_told h1 (load_contract id) id (fun _ => True) h2' r2 (proj1 G1)) as (G2 & S2 & _); auto; [apply wp_load; apply G1|].
      pose proof (run_st_inert c _ _ _ _ RS2) as I2.
      assert (T2 : forall o, told h o [TCreated id exe] h2').
      { intros q. apply (told_trans h [_] h1 q []); auto. apply same_told; auto. apply I2. }
      destruct rp as [pv|e]; [|intros [= <- <- <-]; apply T2].
      destruct (pv <? 22); [destruct args; intros [= <- <- <-]; apply T2|].
      destruct (call E c ex KCtor _ _ _ h2') as [[h3 r3] t3] eqn:CL. intros [= <- <- <-].
      apply call_told in CL; auto; [|reflexivity|apply G2|unfold pre; rewrite (proj2 (proj2 I2)); exact P1].
      eapply (told_trans h [_] h2' _ t3); [|apply T2|].
      + rewrite <- C1. now apply cur_id_inert.
      + destruct r3; exact CL.
    - destruct (call E c ex KInit _ _ _ h1) as [[h3 r3] t3] eqn:CL. intros [= <- <- <-].
      apply call_told in CL; auto; [|exact I|apply G1].
      eapply (told_trans h [_] h1 _ t3); auto. destruct r3; exact CL.
  Qed.

  Lemma exec_tells n : exec_told (exec E c n).
  Proof.
    induction n as [n IH] using lt_wf_ind. split; [apply exec_shape|].
    set (ex := match n with O => fun h _ => (h, Err e_fuel, []) | S m => exec E c m end).
    assert (X : exec_told ex).
    { unfold ex. destruct n; [|apply IH; lia]. split.
      - intros h p h' r t R [= <- <- <-]. apply shape_inert; auto using inert_refl.
      - intros h p h' r t R G [= <- <- <-]. now apply told_refl. }

    assert (BI : forall h x k h' r t, cur_id h <> None ->
      (forall h1 r1 t1, x = (h1, r1, t1) -> told h (fails r1) t1 h1 /\ cur_id h1 = cur_id h) ->
      (forall v h1 h2 r2 t2, cur_id h1 <> None -> good h1 -> k v h1 = (h2, r2, t2) -> told h1 (fails r2) t2 h2) ->
      bind x k = (h', r, t) -> told h (fails r) t h').
    { intros h [[h1 r1] t1] k h' r t R A K. cbn. destruct (A _ _ _ eq_refl) as [A1 A2]. 
      destruct r1 as [v|e]; [|intros [= <- <- <-]; exact A1].
      destruct (k v h1) as [[h2 r2] t2] eqn:KV. intros [= <- <- <-].
      eapply told_trans; [exact A2|exact A1|]. apply (K v h1); auto; [congruence|apply A1]. }
    intros h p. revert h. induction p as [v|e|e|o k IHk|id fn args k IHk|id fn args k IHk|id args k IHk|pr exe args k IHk];
      intros h h' r t CU G.
    - destruct n; intros [= <- <- <-]; now apply told_refl.
    - destruct n; intros [= <- <- <-]; now apply told_refl.
    - destruct n; intros [= <- <- <-]; now apply told_refl.
    - intros Q. assert (Q' : (let '(h1, r1, t1) := step E c h o in
          match r1 with Err e => (h1, Err e, t1) | Ok v => let '(h2, r2, t2) := exec E c n h1 (k v) in (h2, r2, t1 ++ t2) end)
          = (h', r, t)) by (destruct n; exact Q). clear Q.
      destruct (step E c h o) as [[h1 r1] t1] eqn:ST. pose proof (step_shape E c _ _ _ _ _ (cur_pre _ CU) ST) as SH.
      apply step_told in ST; auto.
      destruct r1 as [v|e]; [|injection Q' as <- <- <-; exact ST].
      destruct (exec E c n h1 (k v)) as [[h2 r2] t2] eqn:EX. injection Q' as <- <- <-.
      assert (C1 : cur_id h1 = cur_id h) by (apply cur_id_rel, SH).
      eapply told_trans; [exact C1|exact ST|]. apply (IHk v h1); auto; [congruence|apply ST].
    - intros Q. eapply (BI h (call E c ex KCall id fn args h) (fun v h1 => exec E c n h1 (k v))); [exact CU| | |destruct n; exact Q].
      + intros h1 r1 t1 CL. split; [eapply call_told; eauto using cur_pre; exact I|].
        eapply cur_id_rel. eapply sh_stack. eapply call_shape; eauto using cur_pre; [apply X|exact I].
      + intros v h1 h2 r2 t2 R1 G1 K. eapply IHk; eauto.
    - intros Q. eapply (BI h (call E c ex KTry id fn args h) (fun v h1 => exec E c n h1 (k v))); [exact CU| | |destruct n; exact Q].
      + intros h1 r1 t1 CL. split; [eapply call_told; eauto using cur_pre; exact I|].
        eapply cur_id_rel. eapply sh_stack. eapply call_shape; eauto using cur_pre; [apply X|exact I].
      + intros v h1 h2 r2 t2 R1 G1 K. eapply IHk; eauto.
    - intros Q. eapply (BI h (call E c ex KAuth id s_check_auth args h) (fun v h1 => exec E c n h1 k)); [exact CU| | |destruct n; exact Q].
      + intros h1 r1 t1 CL. split; [eapply call_told; eauto using cur_pre; reflexivity|].
        eapply cur_id_rel. eapply sh_stack. eapply call_shape; eauto using cur_pre; [apply X|reflexivity].
      + intros v h1 h2 r2 t2 R1 G1 K. eapply IHk; eauto.
    - intros Q. eapply (BI h (create E c ex pr exe args h) (fun v h1 => exec E c n h1 (k v))); [exact CU| | |destruct n; exact Q].
      + intros h1 r1 t1 CL. split; [eapply create_told; eauto using cur_pre|].
        eapply cur_id_rel. eapply sh_stack. eapply create_shape; eauto using cur_pre. apply X.
      + intros v h1 h2 r2 t2 R1 G1 K. eapply IHk; eauto.
  Qed.

  (* ---------------------------------------------------------------- invocations *)

  Lemma invoke_told h f h' r t : good h -> h_stack h = [] -> invoke E c h f = (h', r, t) ->
    exists l, t = [TFrame None r l] /\ frame_told None h r l h' /\ h_stack h' = [].
  Proof.
    intros G S IN. destruct (invoke_shape E c h f h' r t S IN) as (l0 & T0 & F0). revert IN. unfold invoke.
    intros W. apply with_frame_told in W; auto.
    - destruct W as [(-> & _ & _)|(l & -> & FT)]; [discriminate|]. exists l. split; auto. split; auto.
      pose proof (fr_stack E _ _ _ _ _ _ F0) as K. rewrite S in K. now inversion K.
    - intros i fn m; discriminate.
    - intros h1 r1 t1. set (h0 := set_stack h _).
      assert (R : pre h0) by (unfold pre; cbn; now right).
      assert (G0 : good h0) by exact G.
      destruct f.
      + intros CL. split; [eapply call_shape; eauto using exec_shape; exact I|].
        eapply call_told; eauto using exec_tells. exact I.
      + intros CL. split; [eapply create_shape; eauto using exec_shape|]. eapply create_told; eauto using exec_tells.
      + destruct (step E c h0 (OUpload wasm)) as [[h2 r2] t2] eqn:ST. intros [= <- <- <-].
        assert (UP : told h0 (fails r2) t2 h2).
        { cbn [step] in ST. destruct (check_upload E wasm) as [[hash code]|e]; [|injection ST as <- <- <-; now apply told_refl].
          destruct (run_st c h0 _) as [hh rr] eqn:RS. injection ST as <- <- <-. eapply run_st_quiet; [exact G0| |exact RS].
          apply upload_quiet; auto. apply G0. }
        assert (UN : t2 = []).
        { cbn [step] in ST. destruct (check_upload E wasm) as [[hash code]|e]; [|injection ST as <- <- <-; auto].
          destruct (run_st c h0 _) as [hh rr]. now injection ST as <- <- <-. }
        apply step_shape in ST; auto. subst t2. destruct r2 as [[v|o]|e]; cbn; try (split; [exact ST|exact UP]).
        split.
        * destruct ST as [A1 A2 A3 A4 A5]; constructor; auto. apply fatal_nil.
        * destruct UP as [A B]. split; auto. intros w RP. destruct (B w RP) as (w' & XP & _). exists w'. split; [auto|discriminate].
  Qed.
End Ledger.
