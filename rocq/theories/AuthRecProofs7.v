(* Recording with non-root authorization disabled: every recorded entry starts at the
   transaction's own call. *)
From Coq Require Import ZArith Lia List Bool.
From Verif Require Import Prelude ValModel ContainerModel HeapModel AMap StorageModel StorageSpec FrameModel
  AuthModel AuthSpec AuthRecModel AuthRecSpec AuthRecProofs3 AuthRecProofs4.
Import ListNotations.
Open Scope Z_scope.

Section Root.
  Variable c : sconf.
  Variable source : option addr.
  Variable name : nat -> addr -> Z.
  Variable nonces : nat -> Z.
  Notation sk r := (as_stack (rc_st r)).

  Lemma record_other_root r a h f r' o : record_other c source nonces true r a h f = (r', o) ->
    o = Ok (Recorded true) -> length (sk r) = 1%nat.
  Proof.
    unfold record_other. destruct (find_active _ _ _) as [[i x]|].
    - unfold record_at. destruct (record_in _ _); intros [= <- <-]; discriminate.
    - destruct (Nat.eqb_spec (length (sk r)) 1) as [E|E]; [auto|]. cbn. intros [= <- <-]. discriminate.
  Qed.
  Lemma require_recording_root r a f r' o : require_recording c source name nonces true r a f = (r', o) ->
    o = Ok (Recorded true) -> length (sk r) = 1%nat.
  Proof.
    unfold require_recording. cbn [rc_by rc_st]. destruct (aget _ _ _) as [i|]; [|intros E; exact (record_other_root _ _ _ _ _ _ E)].
    destruct (nth_error _ _) as [x|]; [|intros [= <- <-]; discriminate].
    destruct (in_stack _); [unfold record_at; destruct (record_in _ _); intros [= <- <-]; discriminate|].
    intros E; exact (record_other_root _ _ _ _ _ _ E).
  Qed.
  Definition good (o : res unit) : bool := match o with Ok _ => true | Err e => recoverable e end.
  Definition fine (r r' : rstate) (o : res unit) (t : list rtree) : Prop :=
    forallb (rooted (length (sk r))) t = true /\ (good o = true -> sk r' = sk r).
  Lemma require_recording_stack r a f r' o : require_recording c source name nonces true r a f = (r', o) -> sk r' = sk r.
  Proof.
    assert (O : forall r h r' o, record_other c source nonces true r a h f = (r', o) -> sk r' = sk r).
    { clear. intros r h r' o. unfold record_other. destruct (find_active _ _ _) as [[i x]|].
      - unfold record_at. destruct (record_in _ _); intros [= <- <-]; reflexivity.
      - destruct (true && _); [intros [= <- <-]; reflexivity|]. unfold new_recording.
        destruct (is_addr _ _); [intros [= <- <-]; reflexivity|]. destruct (get_max_live_until _); [|intros [= <- <-]; reflexivity].
        destruct (run_store _ _ _) as [st1 [q|e]] eqn:RS; destruct (run_store_acc _ _ _ _ _ RS) as (_ & _ & S3); intros [= <- <-]; exact S3. }
    unfold require_recording. cbn [rc_by rc_st]. destruct (aget _ _ _) as [i|]; [|intros E; exact (O _ _ _ _ E)].
    destruct (nth_error _ _) as [x|]; [|intros [= <- <-]; reflexivity].
    destruct (in_stack _); [unfold record_at; destruct (record_in _ _); intros [= <- <-]; reflexivity|].
    intros E; exact (O _ _ _ _ E).
  Qed.
  Lemma rrequire_root r a args r' o t : rrequire c source name nonces true r a args = (r', o, t) -> fine r r' o t.
  Proof.
    unfold rrequire, fine. destruct (sk r) as [|fr l] eqn:SK; [intros [= <- <- <-]; auto|].
    destruct (check_invoker _ _ _) as [[[st1 m]|]|e] eqn:CI.
    - intros [= <- <- <-]. destruct (check_invoker_keeps _ _ _ _ _ CI) as (S1 & _). cbn. rewrite S1. auto.
    - destruct (require_recording _ _ _ _ _ _ _ _) as [r1 o1] eqn:RR. pose proof (require_recording_stack _ _ _ _ _ RR) as S1.
      pose proof (require_recording_root _ _ _ _ _ RR) as S2. rewrite SK in *. destruct o1 as [w|e]; intros [= <- <- <-]; cbn [forallb]; split; auto.
      destruct w as [|[|]|]; auto. cbn [rooted]. rewrite (S2 eq_refl). reflexivity.
    - intros [= <- <- <-]; auto.
  Qed.
  Lemma pop_stack r x : sk r = x -> sk (rpop r) = tl x.
  Proof. intros E. unfold rpop, on_st, pop_frame. cbn [rc_st]. rewrite E. destruct x; [exact E|reflexivity]. Qed.
  Lemma fine_bind r r1 r2 o o2 t t2 : fine r r1 (Ok tt) t -> fine r1 r2 o2 t2 -> o = o2 -> fine r r2 o (t ++ t2).
  Proof.
    intros [A1 A2] [B1 B2] ->. rewrite (A2 eq_refl) in *. split; [|auto]. rewrite forallb_app, A1. exact B1.
  Qed.
  Lemma with_rframe_root id fn body r r' o t : (forall s s' o t, body s = (s', o, t) -> fine s s' o t) ->
    with_rframe id fn body r = (r', o, t) -> fine r r' o t.
  Proof.
    intros B. unfold with_rframe. destruct (body _) as [[r2 o2] t2] eqn:E. destruct (B _ _ _ _ E) as [F1 F2].
    change (length (sk (rpush (FrContract id fn) r))) with (S (length (sk r))) in F1.
    change (sk (rpush (FrContract id fn) r)) with (FrContract id fn :: sk r) in F2.
    assert (T : forallb (rooted (length (sk r))) [RCall id fn o2 t2] = true) by (cbn [forallb rooted]; rewrite F1; reflexivity).
    destruct o2 as [u|e].
    - intros [= <- <- <-]. split; auto. intros _. apply (pop_stack _ _ (F2 eq_refl)).
    - destruct (rrollback _ _ _ _ _) as [r3|] eqn:RB; intros [= <- <- <-]; split; auto; [|discriminate].
      intros G. unfold rrollback in RB. destruct (rollback_invs _ _); [|discriminate]. injection RB as <-.
      apply (pop_stack _ (FrContract id fn :: sk r)). cbn [rc_st as_stack]. auto.
  Qed.
  Lemma rexec_root p : forall r r' o t, rexec c source name nonces true r p = (r', o, t) -> fine r r' o t.
  Proof.
    induction p as [u|id fn try b IHb k IHk|pre ex args b IHb k IHk|a args sg ck IHck k IHk|ts k IHk|x k IHk]; intros r r' o t; cbn [rexec].
    - intros [= <- <- <-]. split; auto.
    - destruct (with_rframe _ _ _ _) as [[r1 o1] t1] eqn:W. apply (with_rframe_root _ _ (fun s => rexec c source name nonces true s b)) in W; [|exact IHb].
      destruct o1 as [[]|e].
      + destruct (rexec _ _ _ _ _ _ _) as [[r2 o2] t2] eqn:K. intros [= <- <- <-]. eapply fine_bind; eauto.
      + destruct (try && recoverable e) eqn:TR; [|intros [= <- <- <-]; auto].
        apply andb_true_iff in TR as [_ TR]. destruct (rexec _ _ _ _ _ _ _) as [[r2 o2] t2] eqn:K. intros [= <- <- <-].
        eapply fine_bind; eauto. destruct W as [W1 W2]. split; auto.
    - destruct (rexec _ _ _ _ _ _ b) as [[r1 o1] t1] eqn:BD. destruct (IHb _ _ _ _ BD) as [F1 F2].
      change (sk (rpush (FrCreate pre ex args) r)) with (FrCreate pre ex args :: sk r) in *. cbn [length] in F1.
      assert (X : fine r (rpop r1) o1 [RCreate t1]) by (split; [cbn [forallb rooted]; rewrite F1; reflexivity|intros G; apply (pop_stack _ _ (F2 G))]).
      destruct o1 as [[]|e]; [|intros [= <- <- <-]; auto].
      destruct (rexec _ _ _ _ _ _ k) as [[r3 o3] t3] eqn:K. intros [= <- <- <-]. change (RCreate t1 :: t3) with ([RCreate t1] ++ t3). eapply fine_bind; eauto.
    - destruct (rrequire _ _ _ _ _ _ _ _) as [[r1 o1] t1] eqn:RQ. apply rrequire_root in RQ.
      destruct o1 as [[]|e]; [|intros [= <- <- <-]; auto].
      destruct (rexec _ _ _ _ _ _ k) as [[r3 o3] t3] eqn:K. intros [= <- <- <-]. eapply fine_bind; eauto.
    - destruct (cur_contract _); [|intros [= <- <- <-]; split; auto].
      destruct (rexec _ _ _ _ _ _ k) as [[r3 o3] t3] eqn:K. intros [= <- <- <-]. apply IHk in K. exact K.
    - destruct (aop_prog _ _ _); [|intros [= <- <- <-]; split; auto].
      destruct (run_store _ _ _) as [st1 [v|e]] eqn:RS; destruct (run_store_acc _ _ _ _ _ RS) as (_ & _ & S3).
      + intros K. apply IHk in K. unfold fine in *. cbn [on_st rc_st] in K. rewrite S3 in K. exact K.
      + intros [= <- <- <-]. split; auto.
  Qed.
  Lemma root_only_rooted s p r o t : rtransaction c source name nonces true s p = (r, o, t) -> forallb (rooted 0) t = true.
  Proof.
    unfold rtransaction. destruct (rexec _ _ _ _ _ _ p) as [[r1 o1] t1] eqn:E. apply rexec_root in E as [E _].
    destruct o1; [destruct (forallb emulated _)|]; intros [= <- <- <-]; exact E.
  Qed.
End Root.
