(* Transactions with authorization entries, run again under a recorded footprint. *)
From Coq Require Import ZArith Lia List Bool.
From Verif Require Import Prelude ValModel ContainerModel HeapModel AMap StorageModel StorageSpec
  StorageProofs StorageProofs2 StorageLogic StorageProofs3 FrameModel FrameSpec FrameProofs FrameStore ReplayProofs
  AuthModel AuthSpec AuthProofs AuthProofs2 AuthProofs3 AuthRecModel AuthRecSpec AuthRecProofs AuthRecProofs2 AuthRecProofs3 AuthRecProofs4 AuthRecProofs5.
Import ListNotations.
Open Scope Z_scope.

Section Foot.
  Variables cr ce : sconf.
  Variable src : lkey -> option lentry.
  Hypothesis LI : li_ok (sc_li cr).
  Hypothesis SL : sc_li ce = sc_li cr.
  Hypothesis MODE : sc_mode cr = Recording src.
  Hypothesis RB : sc_recording_build cr = true.
  Notation li := (sc_li cr).
  Notation sok := (sok cr src).
  Notation ssim := (ssim cr ce).
  Notation footp st := (st_foot (as_store st)).

  Definition again {A} (st st' : astate) (fe : astate -> astate * A) (a : A) : Prop :=
    sok (as_store st') /\ covers (footp st) (footp st')
    /\ forall F e, ssim F (as_store st) e -> covers (footp st') F -> exists e', fe (with_store st e) = (with_store st' e', a) /\ ssim F (as_store st') e'.
  Definition again3 {A B} (st st' : astate) (fe : astate -> astate * A * B) (a : A) (b : B) : Prop :=
    sok (as_store st') /\ covers (footp st) (footp st')
    /\ forall F e, ssim F (as_store st) e -> covers (footp st') F -> exists e', fe (with_store st e) = (with_store st' e', a, b) /\ ssim F (as_store st') e'.
  Definition agains {A B} (fr fe : astate -> astate * A * B) : Prop :=
    forall st st' a b, sok (as_store st) -> fr st = (st', a, b) -> again3 st st' fe a b.

  Lemma again3_ret {A B} st st' (fe : astate -> astate * A * B) a b : sok (as_store st) -> as_store st' = as_store st ->
    (forall e, fe (with_store st e) = (with_store st' e, a, b)) -> again3 st st' fe a b.
  Proof. intros SO E H. unfold again3. rewrite E. split; auto. split; [apply covers_refl|]. intros F e SM _. exists e. auto. Qed.
  Lemma seq_a {A B A' B'} st st1 st' (ge : astate -> astate * A * B) (ke : A -> B -> astate -> astate * A' * B') a b a' b' :
    again3 st st1 ge a b -> again3 st1 st' (ke a b) a' b' -> again3 st st' (fun s => let '(s1, x, y) := ge s in ke x y s1) a' b'.
  Proof.
    intros (S1 & C1 & T1) (S2 & C2 & T2). split; auto. split; [eapply covers_trans; eauto|]. intros F e SM CF.
    destruct (T1 F e SM (covers_trans _ _ _ C2 CF)) as (e1 & W1 & V1). destruct (T2 F e1 V1 CF) as (e2 & W2 & V2). exists e2. rewrite W1. auto.
  Qed.
  Lemma seq_b {A A' B'} st st1 st' (ge : astate -> astate * A) (ke : A -> astate -> astate * A' * B') a a' b' :
    again st st1 ge a -> again3 st1 st' (ke a) a' b' -> again3 st st' (fun s => let '(s1, x) := ge s in ke x s1) a' b'.
  Proof.
    intros (S1 & C1 & T1) (S2 & C2 & T2). split; auto. split; [eapply covers_trans; eauto|]. intros F e SM CF.
    destruct (T1 F e SM (covers_trans _ _ _ C2 CF)) as (e1 & W1 & V1). destruct (T2 F e1 V1 CF) as (e2 & W2 & V2). exists e2. rewrite W1. auto.
  Qed.
  Lemma again3_ext {A B} st st' (fe ge : astate -> astate * A * B) a b : (forall e, fe (with_store st e) = ge (with_store st e)) ->
    again3 st st' fe a b -> again3 st st' ge a b.
  Proof. intros X (S1 & C1 & T1). split; auto. split; auto. intros F e SM CF. rewrite <- X. apply T1; auto. Qed.
  (* a step that leaves the storage alone before *)
  Lemma again3_pre {A B} st st1 st' (fe ge : astate -> astate * A * B) a b : as_store st1 = as_store st ->
    (forall e, ge (with_store st e) = fe (with_store st1 e)) -> again3 st1 st' fe a b -> again3 st st' ge a b.
  Proof. intros X Y (S1 & C1 & T1). unfold again3. rewrite X in C1, T1. split; auto. split; auto. intros F e SM CF. rewrite Y. apply T1; auto. Qed.
  Lemma again3_post {A B A' B'} st st1 st' (fe : astate -> astate * A * B) (ge : astate -> astate * A' * B') a b a' b' :
    as_store st' = as_store st1 ->
    (forall e e', fe (with_store st e) = (with_store st1 e', a, b) -> ge (with_store st e) = (with_store st' e', a', b')) ->
    again3 st st1 fe a b -> again3 st st' ge a' b'.
  Proof.
    intros X Y (S1 & C1 & T1). unfold again3. rewrite X. split; auto. split; auto. intros F e SM CF.
    destruct (T1 F e SM CF) as (e' & W & V). exists e'. auto.
  Qed.

  Lemma run_store_again q st st' r : safe cr q -> sok (as_store st) -> run_store cr st q = (st', r) -> again st st' (fun s => run_store ce s q) r.
  Proof.
    intros SF SO. unfold run_store. destruct (srun cr (as_store st) q) as [[s r0] t] eqn:RN. intros [= <- <-].
    destruct (srun_tracks cr ce src LI SL MODE RB q _ _ _ _ SF SO RN) as (A & B & C). split; [exact A|]. split; [exact B|].
    intros F e SM CF. destruct (C F e SM CF) as (e' & X & Y). exists e'. split; auto. cbn. rewrite X. reflexivity.
  Qed.
  Lemma aop_safe st o q : aop_prog cr st o = Some q -> safe cr q.
  Proof.
    destruct o; cbn; intros E.
    - destruct (as_stack st) as [|[id fn|] ?]; try discriminate. destruct (hop_key_ok h) eqn:K; [|discriminate]. injection E as <-. now apply safe_hop.
    - destruct (classic_op op) eqn:K; [|discriminate]. injection E as <-. now apply safe_classic.
    - destruct (as_stack st) as [|[id fn|] ?]; try discriminate. injection E as <-. now apply safe_store.
    - injection E as <-. now apply safe_upload.
    - injection E as <-. now apply safe_create.
  Qed.
  Lemma aop_ce st e o : aop_prog ce (with_store st e) o = aop_prog cr st o.
  Proof. unfold aop_prog. cbn [as_stack with_store]. rewrite SL. reflexivity. Qed.

  Lemma pop_store st e : pop_frame (with_store st e) = with_store (pop_frame st) e.
  Proof. unfold pop_frame. cbn. destruct (as_stack st); reflexivity. Qed.
  Lemma pop_keeps st : as_store (pop_frame st) = as_store st.
  Proof. unfold pop_frame. destruct (as_stack st); reflexivity. Qed.
  Lemma rollback_store st e sn : rollback (with_store st e) sn = option_map (fun s => with_store s e) (rollback st sn).
  Proof. unfold rollback. cbn. destruct (rollback_accts _ _); auto. destruct (rollback_invs _ _); auto. Qed.
  Lemma rollback_keeps st sn st' : rollback st sn = Some st' -> as_store st' = as_store st.
  Proof. unfold rollback. destruct (rollback_accts _ _); [|discriminate]. destruct (rollback_invs _ _); [|discriminate]. now intros [= <-]. Qed.

  (* undoing a call *)
  Lemma undo_sok s s2 : sok s -> sok s2 -> covers (st_foot s) (st_foot s2) -> sok (set_map s2 (st_map s)).
  Proof.
    intros [(y & _ & _ & _ & Q4) (J1 & J2 & J3)] [(x & R1 & R2 & R3 & R4) (I1 & I2 & I3)] CV.
    split; [exists x; repeat split; auto|]. split; [exact I1|]. split; [exact I2|]. cbn. intros k G. apply (CV k ReadOnly). now apply J3.
  Qed.
  Lemma undo_ssim F s e s2 e2 : ssim F s e -> ssim F s2 e2 -> ssim F (set_map s2 (st_map s)) (set_map e2 (st_map e)).
  Proof.
    intros (M1 & (E1 & E2 & E3) & M3) (U1 & U2 & U3). split; [exact U1|]. split; [|exact M3].
    split; [exact E1|]. split; [|exact E3]. intros k G. change (fget (st_foot e2) k <> None) in G. apply E2. congruence.
  Qed.

  Lemma frame_again id fn br be : agains br be -> agains (with_aframe id fn br) (with_aframe id fn be).
  Proof.
    intros TB st st' r t SO. unfold with_aframe. destruct (br (push_frame (FrContract id fn) st)) as [[st2 r2] t2] eqn:BR.
    destruct (TB (push_frame (FrContract id fn) st) _ _ _ SO BR) as (S2 & C2 & T2). cbn [push_frame as_store] in C2, T2.
    assert (PS : forall e, push_frame (FrContract id fn) (with_store st e) = with_store (push_frame (FrContract id fn) st) e) by reflexivity.
    assert (SN : forall s e, take_snapshot (with_store s e) = take_snapshot s) by reflexivity.
    destruct r2 as [u|er].
    - intros [= <- <- <-]. unfold again3. rewrite pop_keeps. split; [exact S2|]. split; [exact C2|]. intros F e SM CF.
      destruct (T2 F e SM CF) as (e' & W & V). exists e'. rewrite PS, W, pop_store. auto.
    - cbv zeta. set (sn := take_snapshot _). set (u := set_map (as_store st2) (st_map (as_store st))).
      assert (SU : sok u) by (now apply undo_sok).
      rewrite rollback_store. destruct (rollback st2 sn) as [st4|] eqn:RK; cbn [option_map]; intros [= <- <- <-]; unfold again3; rewrite ?pop_keeps.
      + split; [exact SU|]. split; [exact C2|]. intros F e SM CF. destruct (T2 F e SM CF) as (e' & W & V).
        exists (set_map e' (st_map e)). rewrite PS, W, SN. cbn [as_store with_store]. fold sn.
        rewrite rollback_store. change (with_store st2 e') with (with_store st2 e'). rewrite rollback_store, RK. cbn [option_map].
        split; [|now apply undo_ssim]. rewrite <- pop_store. reflexivity.
      + split; [exact SU|]. split; [exact C2|]. intros F e SM CF. destruct (T2 F e SM CF) as (e' & W & V).
        exists (set_map e' (st_map e)). rewrite PS, W, SN. cbn [as_store with_store]. fold sn.
        rewrite !rollback_store, RK. cbn [option_map]. split; [reflexivity|now apply undo_ssim].
  Qed.

  Lemma busy_store st e i b : set_busy_at (with_store st e) i b = with_store (set_busy_at st i b) e.
  Proof. unfold set_busy_at. cbn. destruct (nth_error (as_acc st) i); reflexivity. Qed.
  Lemma busy_keeps st i b : as_store (set_busy_at st i b) = as_store st.
  Proof. unfold set_busy_at. destruct (nth_error (as_acc st) i); reflexivity. Qed.

  Lemma consume_again a cred st st' r : sok (as_store st) -> consume cr st a cred = (st', r) -> again st st' (fun s => consume ce s a cred) r.
  Proof.
    intros SO. unfold consume.
    assert (RET : forall r0 : res unit, again st st (fun s => (s, r0)) r0).
    { intros r0. split; auto. split; [apply covers_refl|]. intros F e SM _. eauto. }
    destruct cred as [[n live]|]; [|intros [= <- <-]; apply RET]. rewrite SL.
    destruct (li_seq li >? live); [intros [= <- <-]; apply RET|]. destruct (get_max_live_until li) as [mx|er]; [|intros [= <- <-]; apply RET].
    destruct (live >? mx); [intros [= <- <-]; apply RET|].
    destruct (run_store cr st (consume_nonce li a n live)) as [st1 r1] eqn:RS. intros [= <- <-].
    destruct (run_store_again _ _ _ _ (safe_nonce cr LI a n live) SO RS) as (A & B & C). split; auto. split; auto. intros F e SM CF.
    destruct (C F e SM CF) as (e' & W & V). exists e'. rewrite W. auto.
  Qed.

  Lemma authenticate_again i x sig chr che : agains chr che ->
    agains (fun st => authenticate cr st i x sig chr) (fun st => authenticate ce st i x sig che).
  Proof.
    intros TB st st' r t SO. unfold authenticate.
    set (g := fun (ch : astate -> astate * res unit * list atree) st => match ac_cred x with
      | None => (st, Ok tt, [])
      | Some _ =>
          let stb := set_busy_at st i true in
          let '(st1, r, t) :=
            match ac_addr x with
            | AAccount _ => (stb, sig, [])
            | AContract id => with_aframe id s_check_auth ch stb
            | _ => (stb, Err (ESys TObject CInternalError), [])
            end in
          (set_busy_at st1 i false, r, t)
      end).
    assert (G : agains (g chr) (g che)).
    { intros s s' a b S1. unfold g. destruct (ac_cred x); [|intros [= <- <- <-]; apply again3_ret; auto]. cbv zeta.
      set (m := fun (ch : astate -> astate * res unit * list atree) stb => match ac_addr x with
            | AAccount _ => (stb, sig, [])
            | AContract id => with_aframe id s_check_auth ch stb
            | _ => (stb, Err (ESys TObject CInternalError), [])
            end).
      assert (SB : sok (as_store (set_busy_at s i true))) by now rewrite busy_keeps.
      assert (MM : agains (m chr) (m che)).
      { intros s0 s0' a0 b0 S0. unfold m. destruct (ac_addr x); try (intros [= <- <- <-]; apply again3_ret; auto; fail). now apply frame_again. }
      fold (m chr (set_busy_at s i true)). destruct (m chr (set_busy_at s i true)) as [[s1 r1] t1] eqn:M1. intros [= <- <- <-].
      pose proof (MM _ _ _ _ SB M1) as A1.
      eapply (again3_pre _ (set_busy_at s i true) _ (fun s => let '(s1, r1, t1) := m che s in (set_busy_at s1 i false, r1, t1))); [apply busy_keeps| |].
      - intros e. unfold m. rewrite busy_store. reflexivity.
      - eapply (seq_a _ _ _ (m che) (fun r t s => (set_busy_at s i false, r, t))); [exact A1|]. apply again3_ret; [apply A1|apply busy_keeps|].
        intros e. now rewrite busy_store. }
    fold (g chr st). destruct (g chr st) as [[s1 r1] t1] eqn:G1. pose proof (G _ _ _ _ SO G1) as A1. intros E.
    apply (seq_a st s1 st' (g che) (fun r t st1 => match r with
      | Err e => (st1, AuthFailed e, t)
      | Ok _ => let '(st2, r2) := consume ce st1 (ac_addr x) (ac_cred x) in
          match r2 with
          | Err e => (st2, NonceFailed e, t)
          | Ok _ => match nth_error (as_acc st2) i with
              | Some y => (with_acc st2 (set_nth_acc (as_acc st2) i (set_verified y true)), AuthOk, t)
              | None => (st2, AuthFailed e_auth_internal, t)
              end
          end
      end) r1 t1); [exact A1|]. pose proof A1 as (S1 & _). destruct r1 as [u|er]; [|injection E as <- <- <-; apply again3_ret; auto].
    destruct (consume cr s1 (ac_addr x) (ac_cred x)) as [s2 r2] eqn:CO. pose proof (consume_again _ _ _ _ _ S1 CO) as A2. pose proof A2 as (S2 & _).
    eapply (seq_b s1 s2 st' _ (fun r2 st2 => match r2 with
          | Err e => (st2, NonceFailed e, t1)
          | Ok _ => match nth_error (as_acc st2) i with
              | Some y => (with_acc st2 (set_nth_acc (as_acc st2) i (set_verified y true)), AuthOk, t1)
              | None => (st2, AuthFailed e_auth_internal, t1)
              end
          end)); [exact A2|]. destruct r2 as [u2|er]; [|injection E as <- <- <-; apply again3_ret; auto].
    destruct (nth_error (as_acc s2) i) as [y|] eqn:NY; injection E as <- <- <-; apply again3_ret; auto; intros e; cbn [as_acc with_store]; now rewrite NY.
  Qed.

  Lemma require_again a args sig chr che : (forall i, agains (chr i) (che i)) ->
    agains (fun st => require cr st a args sig chr) (fun st => require ce st a args sig che).
  Proof.
    intros TB st st' r t SO. unfold require. destruct (as_stack st) as [|fr rest] eqn:SK.
    { intros [= <- <- <-]. apply again3_ret; auto. intros e. cbn. now rewrite SK. }
    cbv zeta. set (f := to_fn fr args). intros E.
    assert (CI : forall e, check_invoker (with_store st e) a f = match check_invoker st a f with
      | Err e => Err e | Ok None => Ok None | Ok (Some (s1, m)) => Ok (Some (with_store s1 e, m)) end).
    { intros e. rewrite (check_invoker_sim st (with_store st e) a f eq_refl eq_refl). destruct (check_invoker st a f) as [[[s1 m]|]|] eqn:C; auto.
      destruct (check_invoker_keeps _ _ _ _ _ C) as (X1 & X2 & X3 & _). unfold with_inv, with_store. cbn. now rewrite X1, X3. }
    destruct (check_invoker st a f) as [[[s1 m]|]|er] eqn:C.
    - injection E as <- <- <-. apply again3_ret; auto; [apply (check_invoker_keeps _ _ _ _ _ C)|]. intros e. cbn [as_stack with_store]. rewrite SK. fold f. rewrite CI. reflexivity.
    - destruct (try_accounts (as_acc st) a f (negb (has_active (as_acc st) a)) 0) as [[[[i x] p]|]|er] eqn:TA.
      + set (st1 := with_acc st (set_nth_acc (as_acc st) i x)) in *. destruct (ac_verified x) eqn:V.
        * injection E as <- <- <-. apply again3_ret; auto. intros e. cbn [as_stack with_store]. rewrite SK. fold f. rewrite CI. change (as_acc (with_store st e)) with (as_acc st). rewrite TA, V. reflexivity.
        * destruct (authenticate cr st1 i x (sig i) (chr i)) as [[s2 r2] t2] eqn:AU. injection E as <- <- <-.
          pose proof (authenticate_again i x (sig i) _ _ (TB i) st1 s2 r2 t2 SO AU) as A2.
          eapply (again3_pre _ st1 _ (fun s => let '(s2, r2, t2) := authenticate ce s i x (sig i) (che i) in (s2, auth_result r2, [TFirst a f i p r2 t2]))); [reflexivity| |].
          -- intros e. cbn [as_stack with_store]. rewrite SK. fold f. rewrite CI. change (as_acc (with_store st e)) with (as_acc st). rewrite TA, V. reflexivity.
          -- eapply (seq_a _ _ _ _ (fun r2 t2 s => (s, auth_result r2, [TFirst a f i p r2 t2]))); [exact A2|]. apply again3_ret; auto. apply A2.
      + injection E as <- <- <-. apply again3_ret; auto. intros e. cbn [as_stack with_store]. rewrite SK. fold f. rewrite CI. change (as_acc (with_store st e)) with (as_acc st). rewrite TA. reflexivity.
      + injection E as <- <- <-. apply again3_ret; auto. intros e. cbn [as_stack with_store]. rewrite SK. fold f. rewrite CI. change (as_acc (with_store st e)) with (as_acc st). rewrite TA. reflexivity.
    - injection E as <- <- <-. apply again3_ret; auto. intros e0. cbn [as_stack with_store]. rewrite SK. fold f. rewrite CI. reflexivity.
  Qed.

  Lemma exec_again p : agains (fun st => exec cr st p) (fun st => exec ce st p).
  Proof.
    induction p as [r0|id fn tr body IHb k IHk|pre ex args body IHb k IHk|a args sig check IHc k IHk|ts k IHk|o k IHk]; intros st st' r t SO; cbn [exec].
    - intros [= <- <- <-]. apply again3_ret; auto.
    - destruct (with_aframe id fn (fun s => exec cr s body) st) as [[st1 r1] t1] eqn:WF.
      pose proof (frame_again id fn _ _ IHb _ _ _ _ SO WF) as A1. pose proof A1 as (S1 & _). intros E.
      apply (seq_a st st1 st' _ (fun r1 t1 st1 => match r1 with
        | Ok _ => let '(st2, r2, t2) := exec ce st1 (k (Ok tt)) in (st2, r2, t1 ++ t2)
        | Err e => if tr && recoverable e then let '(st2, r2, t2) := exec ce st1 (k (Err e)) in (st2, r2, t1 ++ t2) else (st1, Err e, t1)
        end) r1 t1); [exact A1|].
      assert (NX : forall x, (let '(st2, r2, t2) := exec cr st1 (k x) in (st2, r2, t1 ++ t2)) = (st', r, t) ->
        again3 st1 st' (fun s => let '(st2, r2, t2) := exec ce s (k x) in (st2, r2, t1 ++ t2)) r t).
      { intros x. destruct (exec cr st1 (k x)) as [[st2 r2] t2] eqn:EX. intros [= <- <- <-]. pose proof (IHk x _ _ _ _ S1 EX) as A2.
        apply (seq_a st1 st2 st2 _ (fun r2 t2 s => (s, r2, t1 ++ t2)) r2 t2); [exact A2|]. apply again3_ret; auto. apply A2. }
      destruct r1 as [u|e]; [exact (NX _ E)|]. destruct (tr && recoverable e); [exact (NX _ E)|]. injection E as <- <- <-. apply again3_ret; auto.
    - destruct (exec cr (push_frame (FrCreate pre ex args) st) body) as [[st1 r1] t1] eqn:BD.
      pose proof (IHb (push_frame (FrCreate pre ex args) st) _ _ _ SO BD) as A1. pose proof A1 as (S1 & _). intros E.
      eapply (again3_pre st (push_frame (FrCreate pre ex args) st) st' (fun s => let '(st1, r, t) := exec ce s body in
         match r with
         | Err e => (pop_frame st1, Err e, [TCreate pre ex args t])
         | Ok _ => let '(st3, r3, t3) := exec ce (pop_frame st1) k in (st3, r3, [TCreate pre ex args t] ++ t3)
         end)); [reflexivity|reflexivity|].
      apply (seq_a _ st1 st' _ (fun r1 t1 st1 => match r1 with
        | Err e => (pop_frame st1, Err e, [TCreate pre ex args t1])
        | Ok _ => let '(st3, r3, t3) := exec ce (pop_frame st1) k in (st3, r3, [TCreate pre ex args t1] ++ t3)
        end) r1 t1); [exact A1|].
      destruct r1 as [u|e]; [|injection E as <- <- <-; apply again3_ret; auto; [apply pop_keeps|intros e0; now rewrite pop_store]].
      destruct (exec cr (pop_frame st1) k) as [[st3 r3] t3] eqn:EX. injection E as <- <- <-.
      assert (S2 : sok (as_store (pop_frame st1))) by now rewrite pop_keeps. pose proof (IHk _ _ _ _ S2 EX) as A2.
      eapply (again3_pre st1 (pop_frame st1) st3 (fun s => let '(st3, r3, t3) := exec ce s k in (st3, r3, [TCreate pre ex args t1] ++ t3)));
        [apply pop_keeps|intros e; now rewrite pop_store|].
      apply (seq_a _ st3 st3 _ (fun r2 t2 s => (s, r2, [TCreate pre ex args t1] ++ t2)) r3 t3); [exact A2|]. apply again3_ret; auto. apply A2.
    - destruct (require cr st a args sig (fun i s => exec cr s (check i))) as [[st1 r1] t1] eqn:RQ.
      pose proof (require_again a args sig _ _ IHc _ _ _ _ SO RQ) as A1. pose proof A1 as (S1 & _). intros E.
      apply (seq_a st st1 st' _ (fun r1 t1 st1 => match r1 with
        | Err e => (st1, Err e, t1)
        | Ok _ => let '(st2, r2, t2) := exec ce st1 k in (st2, r2, t1 ++ t2)
        end) r1 t1); [exact A1|].
      destruct r1 as [u|e]; [|injection E as <- <- <-; apply again3_ret; auto].
      destruct (exec cr st1 k) as [[st2 r2] t2] eqn:EX. injection E as <- <- <-. pose proof (IHk _ _ _ _ S1 EX) as A2.
      apply (seq_a st1 st2 st2 _ (fun r2 t2 s => (s, r2, t1 ++ t2)) r2 t2); [exact A2|]. apply again3_ret; auto. apply A2.
    - intros E. apply (again3_ext st st' (fun s => match cur_contract st with
        | None => (s, Err e_ctx_internal, [])
        | Some a => let '(st2, r2, t2) := exec ce (with_inv s (as_inv st ++ map (fun t => {| iv_by := a; iv_trk := new_tracker t |}) ts)) k in (st2, r2, TPre a ts :: t2)
        end)); [reflexivity|].
      destruct (cur_contract st) as [a|]; [|injection E as <- <- <-; apply again3_ret; auto]. set (nw := as_inv st ++ _) in *.
      destruct (exec cr (with_inv st nw) k) as [[st2 r2] t2] eqn:EX. injection E as <- <- <-. pose proof (IHk (with_inv st nw) _ _ _ SO EX) as A2.
      eapply (again3_pre st (with_inv st nw) st2 (fun s => let '(st2, r2, t2) := exec ce s k in (st2, r2, TPre a ts :: t2))); [reflexivity|reflexivity|].
      apply (seq_a _ st2 st2 _ (fun r2 t2 s => (s, r2, TPre a ts :: t2)) r2 t2); [exact A2|]. apply again3_ret; auto. apply A2.
    - intros E. apply (again3_ext st st' (fun s => match aop_prog cr st o with
        | None => (s, Err e_ctx_internal, [])
        | Some q => let '(st1, r) := run_store ce s q in
            match r with Err e => (st1, Err e, []) | Ok _ => let '(st2, r2, t2) := exec ce st1 (k r) in (st2, r2, t2) end
        end)); [intros e; now rewrite aop_ce|].
      destruct (aop_prog cr st o) as [q|] eqn:OP; [|injection E as <- <- <-; apply again3_ret; auto].
      destruct (run_store cr st q) as [st1 r1] eqn:RS. pose proof (run_store_again _ _ _ _ (aop_safe _ _ _ OP) SO RS) as A1. pose proof A1 as (S1 & _).
      apply (seq_b st st1 st' _ (fun r1 st1 => match r1 with Err e => (st1, Err e, []) | Ok _ => let '(st2, r2, t2) := exec ce st1 (k r1) in (st2, r2, t2) end) r1); [exact A1|].
      destruct r1 as [v|e]; [|injection E as <- <- <-; apply again3_ret; auto].
      destruct (exec cr st1 (k (Ok v))) as [[st2 r2] t2] eqn:EX. injection E as <- <- <-. pose proof (IHk _ _ _ _ _ S1 EX) as A2.
      eapply again3_ext; [|exact A2]. intros e. destruct (exec ce (with_store st1 e) (k (Ok v))) as [[x y] z]. reflexivity.
  Qed.

  Lemma transaction_again p : agains (fun st => transaction cr st p) (fun st => transaction ce st p).
  Proof.
    intros st st' r t SO. unfold transaction. cbv zeta. destruct (exec cr st p) as [[st1 r1] t1] eqn:EX.
    destruct (exec_again p st st1 r1 t1 SO EX) as (S1 & C1 & T1). destruct r1 as [u|er].
    - intros [= <- <- <-]. unfold again3. rewrite pop_keeps. split; [exact S1|]. split; [exact C1|]. intros F e SM CF.
      destruct (T1 F e SM CF) as (e' & W & V). exists e'. rewrite W, pop_store. auto.
    - set (sn := take_snapshot st). set (u := set_map (as_store st1) (st_map (as_store st))).
      assert (SU : sok u) by (now apply undo_sok).
      assert (SN : forall e, take_snapshot (with_store st e) = sn) by reflexivity.
      rewrite rollback_store. destruct (rollback st1 sn) as [st4|] eqn:RK; cbn [option_map]; intros [= <- <- <-]; unfold again3; rewrite ?pop_keeps.
      + split; [exact SU|]. split; [exact C1|]. intros F e SM CF. destruct (T1 F e SM CF) as (e' & W & V).
        exists (set_map e' (st_map e)). rewrite W, SN. cbn [as_store with_store]. rewrite !rollback_store, RK. cbn [option_map].
        split; [|now apply undo_ssim]. rewrite <- pop_store. reflexivity.
      + split; [exact SU|]. split; [exact C1|]. intros F e SM CF. destruct (T1 F e SM CF) as (e' & W & V).
        exists (set_map e' (st_map e)). rewrite W, SN. cbn [as_store with_store].
        rewrite !rollback_store, RK. cbn [option_map]. split; [reflexivity|now apply undo_ssim].
  Qed.
End Foot.

(* Recorded from a ledger, signed, and run on a validator. *)
Theorem replay_on_validator cr ce src source name nonces root_only p r t ents :
  li_ok (sc_li cr) -> src_ok src -> sc_mode cr = Recording src -> sc_recording_build cr = true ->
  sc_mode ce = Enforcing -> sc_li ce = sc_li cr -> (forall n m a b, name n a = name m b -> a = b) -> accepts p ->
  rtransaction cr source name nonces root_only empty_storage p = (r, Ok tt, t) -> replayable source [] false t ->
  Forall2 (signed (sc_li cr) source) (recorded_payloads r) ents ->
  let f := st_foot (as_store (rc_st r)) in
  exists st' t', transaction ce (new_enforcing (loaded (sc_li cr) src f) ents) p = (st', Ok tt, t')
    /\ Forall (fun x => all_used (tk_root (ac_trk x)) = true) (as_acc st')
    /\ (forall k, fget f k <> None -> same_at k (contents cr (as_store (rc_st r)) k) (contents ce (as_store st') k)).
Proof.
  intros LI SO MR RB ME SL NM AC TX RP SG f.
  assert (R0 : recording_ok cr empty_storage).
  { exists src. split; [exact MR|]. split; [exact SO|]. split; [exact RB|]. intros k o H. discriminate. }
  assert (S0 : sok cr src empty_storage) by (split; [exact R0|split; [constructor|split; intros k H; cbn in H; congruence]]).
  destruct (replay_auth cr LI source name nonces root_only NM empty_storage p r t ents (or_intror R0) (recording_alive cr _ LI R0) AC TX RP SG) as (st1 & t1 & T1 & AU & SM & FT).
  destruct (transaction_again cr ce src LI SL MR RB p _ _ _ _ (S0 : sok cr src (as_store (new_enforcing empty_storage ents))) T1) as (S1 & _ & TR).
  assert (EN : enforcing_ok ce (loaded (sc_li cr) src f)).
  { split; [exact ME|]. split.
    - intros k F. rewrite loaded_get. cbn in F. destruct (fget f k); congruence.
    - intros _ k o G. rewrite loaded_get in G. destruct (fget f k); [|discriminate]. injection G as <-.
      rewrite SL. apply now_live; auto. intros e l. apply SO. }
  destruct (TR f (loaded (sc_li cr) src f)) as (e' & W & (V1 & V2 & V3)).
  - split; [reflexivity|]. split; [exact EN|]. intros k F. unfold contents. rewrite loaded_get. cbn. rewrite MR. cbn.
    destruct (fget f k); congruence.
  - rewrite FT. apply covers_refl.
  - exists (with_store st1 e'), t1. split; [exact W|]. split; [exact AU|]. intros k F. cbn [as_store with_store]. rewrite (V3 k F). apply SM.
Qed.
