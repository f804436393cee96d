(* Contract executions: constructors, the nesting bound of the model, and the
   statements about whole invocations. *)
From Coq Require Import ZArith Lia List Bool.
From Verif Require Import Prelude ValModel ContainerModel HeapModel AMap StorageModel StorageSpec
  StorageProofs StorageProofs2 StorageLogic StorageProofs3 FrameModel FrameSpec FrameProofs FrameStore FrameProofs2.
Import ListNotations.
Open Scope Z_scope.

(* ---------------------------------------------------------------- published events *)

Lemma filter_map_comm {A B} (f : A -> B) (g : B -> bool) l : filter g (map f l) = map f (filter (fun x => g (f x)) l).
Proof. induction l as [|x l IH]; cbn; auto. destruct (g (f x)); cbn; now rewrite IH. Qed.
Lemma filter_app_ {A} (g : A -> bool) a b : filter g (a ++ b) = filter g a ++ filter g b.
Proof. induction a as [|x a IH]; cbn; auto. destruct (g x); cbn; now rewrite IH. Qed.

Lemma published_app a b : published (a ++ b) = published a ++ published b.
Proof. unfold published. now rewrite filter_app_, map_app. Qed.
Lemma published_lost l : published (map (fun p : event * bool => (fst p, true)) l) = [].
Proof. unfold published. induction l as [|x l IH]; cbn; auto. Qed.
Lemma published_tree t : published (ev_tree false t) = filter not_diagnostic (kept t).
Proof.
  revert t. fix IH 1. intros t. destruct t; try reflexivity.
  - unfold published, not_diagnostic. cbn. destruct (ev_kind e); reflexivity.
  - destruct r as [v|e]; cbn [ev_tree kept failed orb].
    + induction l as [|t l IHl]; [reflexivity|]. cbn [flat_map]. rewrite published_app, filter_app_. f_equal; [apply IH|exact IHl].
    + rewrite ev_trees_lost. apply published_lost.
Qed.
Lemma published_trees ts : published (ev_trees ts) = filter not_diagnostic (flat_map kept ts).
Proof.
  unfold ev_trees. induction ts as [|t ts IH]; [reflexivity|]. cbn [flat_map]. now rewrite published_app, filter_app_, IH, published_tree.
Qed.

Section Final.
  Context {P : Type}.
  Variable E : env P.
  Variable c : sconf.
  Notation host := (host P).

  (* ---------------------------------------------------------------- constructors *)

  Notation ctors := (everywhere (ctors_ok None)).
  Definition exec_ctors (ex : host -> gprog -> host * res scval * list tree) : Prop :=
    forall h p h' r t, ex h p = (h', r, t) -> ctors t.

  Lemma step_ctors h o h' r t : step E c h o = (h', r, t) -> ctors t.
  Proof.
    destruct o; cbn [step]; try (destruct (cur_id h));
      repeat match goal with |- (if ?b then _ else _) = _ -> _ => destruct b end;
      try (intros [= <- <- <-]; apply everywhere_nil);
      try (destruct (run_st c h _) as [h1 r1]; intros [= <- <- <-]; apply everywhere_nil);
      try (intros [= <- <- <-]; now apply everywhere_leaf).
    - unfold inst_op. destruct (inst_refused i); [intros [= <- <- <-]; apply everywhere_nil|].
      destruct (h_stack h); [intros [= <- <- <-]; apply everywhere_nil|].
      destruct (inst_of c0) as [[m d]|]; [|intros [= <- <- <-]; apply everywhere_nil].
      destruct (inst_step i m d) as [[m' d'] r']. intros [= <- <- <-]. now apply everywhere_leaf.
    - unfold inst_op. destruct (inst_refused i); [intros [= <- <- <-]; apply everywhere_nil|].
      destruct (h_stack h); [intros [= <- <- <-]; apply everywhere_nil|].
      destruct (inst_of c0) as [[m d]|]; [|intros [= <- <- <-]; apply everywhere_nil].
      destruct (inst_step i m d) as [[m' d'] r']. intros [= <- <- <-]. now apply everywhere_leaf.
    - unfold draw_op. destruct (match o with PReseed s => _ | _ => _ end); [intros [= <- <- <-]; apply everywhere_nil|].
      destruct (h_stack h) as [|x rest]; [intros [= <- <- <-]; apply everywhere_nil|].
      destruct (match cx_prng x with Some p => _ | None => _ end) as [p base].
      destruct (match o with PReseed s => (reseed E s, Ok SVoid) | _ => draw E o p end) as [p' r']. intros [= <- <- <-].
      now apply everywhere_leaf.
    - unfold draw_op. destruct (match o with PReseed s => _ | _ => _ end); [intros [= <- <- <-]; apply everywhere_nil|].
      destruct (h_stack h) as [|x rest]; [intros [= <- <- <-]; apply everywhere_nil|].
      destruct (match cx_prng x with Some p => _ | None => _ end) as [p base].
      destruct (match o with PReseed s => (reseed E s, Ok SVoid) | _ => draw E o p end) as [p' r']. intros [= <- <- <-].
      now apply everywhere_leaf.
    - destruct (run_st c h _) as [h1 r1]. destruct r1 as [[| |[[en ?]|]]|]; try destruct en; try (intros [= <- <- <-]; apply everywhere_nil).
      destruct (run_st c _ _) as [h2 r2]. destruct r2; intros [= <- <- <-]; [|now apply everywhere_leaf].
      apply (everywhere_app [_] [_]); now apply everywhere_leaf.
    - destruct (check_upload E wasm) as [[hash code]|e]; [|intros [= <- <- <-]; apply everywhere_nil].
      destruct (run_st c h _) as [h1 r1]. intros [= <- <- <-]; apply everywhere_nil.
    - destruct (check_upload E wasm) as [[hash code]|e]; [|intros [= <- <- <-]; apply everywhere_nil].
      destruct (run_st c h _) as [h1 r1]. intros [= <- <- <-]; apply everywhere_nil.
  Qed.

  Lemma call_ctors ex kd id fn args h h' r t : exec_ctors ex -> call_n E c ex kd id fn args h = (h', r, t) ->
    t = [] \/ exists l, t = [TFrame (Some (kd, id, fn, args)) r l] /\ ctors l.
  Proof.
    intros X. unfold call_n. destruct (_ && _); [intros [= <- <- <-]; auto|].
    assert (GO : forall h, call_contract E c ex kd id fn args (noop_missing kd args) h = (h', r, t) ->
      t = [] \/ exists l, t = [TFrame (Some (kd, id, fn, args)) r l] /\ ctors l).
    { intros h0. unfold call_contract. destruct (run_st c h0 _) as [h1 r1].
      destruct r1 as [[| |[[en ?]|]]|]; try destruct en; try (intros [= <- <- <-]; auto).
      destruct v; try (intros [= <- <- <-]; auto). unfold with_frame. destruct (Nat.leb _ _); [intros [= <- <- <-]; auto|].
      match goal with |- (match ?B with _ => _ end) = _ -> _ => destruct B as [[h2 r2] t2] eqn:BD end.
      assert (C2 : ctors t2).
      { destruct e; [|eapply X; eauto..]. destruct (wasm E hash fn args); [eapply X; eauto|].
        destruct (noop_missing kd args); injection BD as <- <- <-; apply everywhere_nil. }
      destruct (flush c h2 (frame_exit r2)) as [h3 r3]. intros [= <- <- <-]. right. eauto. }
    destruct (reentry (h_stack h) id) as [[|n]|]; [|intros [= <- <- <-]; auto|apply GO].
    destruct (self_allowed kd); [|intros [= <- <- <-]; auto]. destruct (persist c h) as [h1 [b|e]]; [apply GO|intros [= <- <- <-]; auto].
  Qed.

  Lemma ctors_call kd id fn args r l : kd <> KCtor -> ctors l -> ctors [TFrame (Some (kd, id, fn, args)) r l].
  Proof.
    intros N C. apply ev_intro.
    - cbn. split; auto. destruct kd; auto. congruence.
    - intros w r' l' [[= <- <- <-]|[]]. exact C.
  Qed.

  Lemma create_ctors ex pr exe args h h' r t : exec_ctors ex -> create E c ex pr exe args h = (h', r, t) -> ctors t.
  Proof.
    intros X. unfold create. destruct (negb _); [intros [= <- <- <-]; apply everywhere_nil|].
    destruct (run_st c h _) as [h1 r1]. destruct r1 as [o|e]; [|intros [= <- <- <-]; apply everywhere_nil].
    destruct pr as [d salt|asset].
    - destruct (contract_proto E c h1 _) as [h2 rp]. destruct rp as [pv|e]; [|intros [= <- <- <-]; now apply everywhere_leaf].
      destruct (pv <? 22); [destruct args; intros [= <- <- <-]; now apply everywhere_leaf|].
      unfold call. destruct (call_n E c ex KCtor _ _ _ h2) as [[h3 r3] t3] eqn:CL. intros [= <- <- <-].
      apply call_ctors in CL; auto. destruct CL as [->|(l & -> & CT)]; [now apply everywhere_leaf|]. apply ev_intro.
      + cbn. auto.
      + intros w r' l' [H|[H|[]]]; [discriminate|]. injection H as <- <- <-. exact CT.
    - unfold call. destruct (call_n E c ex KInit _ _ _ h1) as [[h3 r3] t3] eqn:CL. intros [= <- <- <-].
      apply call_ctors in CL; auto. destruct CL as [->|(l & -> & CT)]; [now apply everywhere_leaf|].
      apply (everywhere_app [_] [_]); [now apply everywhere_leaf|]. now apply ctors_call.
  Qed.

  Lemma exec_ctor n : exec_ctors (exec E c n).
  Proof.
    induction n as [n IH] using lt_wf_ind.
    set (ex := match n with O => fun h _ => (h, Err e_fuel, []) | S m => exec E c m end).
    assert (X : exec_ctors ex).
    { unfold ex. destruct n; [|apply IH; lia]. intros h p h' r t [= <- <- <-]. apply everywhere_nil. }
    assert (BI : forall x k (h' : host) r t, (forall (h1 : host) r1 t1, x = (h1, r1, t1) -> ctors t1) ->
      (forall v h1 (h2 : host) r2 t2, k v h1 = (h2, r2, t2) -> ctors t2) -> bind x k = (h', r, t) -> ctors t).
    { intros [[h1 r1] t1] k h' r t A K. cbn. specialize (A _ _ _ eq_refl).
      destruct r1 as [v|e]; [|intros [= <- <- <-]; exact A].
      destruct (k v h1) as [[h2 r2] t2] eqn:KV. intros [= <- <- <-]. apply everywhere_app; eauto. }
    assert (CA : forall kd id fn args h h1 r1 t1, kd <> KCtor -> call E c ex kd id fn args h = (h1, r1, t1) -> ctors t1).
    { intros kd id fn args h h1 r1 t1 N. unfold call. destruct (call_n E c ex kd id fn args h) as [[h2 r2] t2] eqn:CN.
      intros [= <- <- <-]. apply call_ctors in CN; auto. destruct CN as [->|(l & -> & CT)]; [apply everywhere_nil|now apply ctors_call]. }
    intros h p. revert h. induction p as [v|e|e|o k IHk|id fn args k IHk|id fn args k IHk|id args k IHk|pr exe args k IHk]; intros h h' r t.
    - destruct n; intros [= <- <- <-]; apply everywhere_nil.
    - destruct n; intros [= <- <- <-]; apply everywhere_nil.
    - destruct n; intros [= <- <- <-]; apply everywhere_nil.
    - intros Q. assert (Q' : (let '(h1, r1, t1) := step E c h o in
          match r1 with Err e => (h1, Err e, t1) | Ok v => let '(h2, r2, t2) := exec E c n h1 (k v) in (h2, r2, t1 ++ t2) end)
          = (h', r, t)) by (destruct n; exact Q). clear Q.
      destruct (step E c h o) as [[h1 r1] t1] eqn:ST. apply step_ctors in ST.
      destruct r1 as [v|e]; [|injection Q' as <- <- <-; exact ST].
      destruct (exec E c n h1 (k v)) as [[h2 r2] t2] eqn:EX. injection Q' as <- <- <-. apply everywhere_app; eauto.
    - intros Q. eapply (BI (call E c ex KCall id fn args h) (fun v h1 => exec E c n h1 (k v))); [| |destruct n; exact Q].
      + intros h1 r1 t1. apply CA. discriminate.
      + intros v h1 h2 r2 t2. apply IHk.
    - intros Q. eapply (BI (call E c ex KTry id fn args h) (fun v h1 => exec E c n h1 (k v))); [| |destruct n; exact Q].
      + intros h1 r1 t1. apply CA. discriminate.
      + intros v h1 h2 r2 t2. apply IHk.
    - intros Q. eapply (BI (call E c ex KAuth id s_check_auth args h) (fun v h1 => exec E c n h1 k)); [| |destruct n; exact Q].
      + intros h1 r1 t1. apply CA. discriminate.
      + intros v h1 h2 r2 t2. apply IHk.
    - intros Q. eapply (BI (create E c ex pr exe args h) (fun v h1 => exec E c n h1 (k v))); [| |destruct n; exact Q].
      + intros h1 r1 t1. apply create_ctors. exact X.
      + intros v h1 h2 r2 t2. apply IHk.
  Qed.

  Lemma invoke_ctors h f h' r t : h_stack h = [] -> invoke E c h f = (h', r, t) -> ctors t.
  Proof.
    intros S. unfold invoke, with_frame. rewrite S. cbn [length]. destruct (Nat.leb _ _); [intros [= <- <- <-]; apply everywhere_nil|].
    match goal with |- (match ?B with _ => _ end) = _ -> _ => destruct B as [[h2 r2] t2] eqn:BD end.
    assert (C2 : ctors t2).
    { destruct f.
      - revert BD. unfold call. destruct (call_n _ _ _ _ _ _ _ _) as [[h3 r3] t3] eqn:CN. intros [= <- <- <-].
        apply call_ctors in CN; [|apply exec_ctor]. destruct CN as [->|(l & -> & CT)]; [apply everywhere_nil|now apply ctors_call].
      - eapply create_ctors; [apply exec_ctor|exact BD].
      - revert BD. destruct (step E c _ (OUpload wasm)) as [[h3 r3] t3] eqn:ST. intros [= <- <- <-]. eapply step_ctors; eauto. }
    destruct (flush c h2 (frame_exit r2)) as [h3 r3]. intros [= <- <- <-]. apply ev_intro; [cbn; auto|].
    intros w r' l' [[= <- <- <-]|[]]. exact C2.
  Qed.

  (* a successful creation ran the constructor, once, to a void result *)
  Lemma create_runs_ctor ex pr exe args h h' v t : create E c ex pr exe args h = (h', Ok v, t) ->
    exec_ctors ex -> exists t', t = TCreated (cid E pr) exe :: t' /\
    match pr with
    | PreAddress _ _ =>
        (exists l, t' = [TFrame (Some (KCtor, cid E pr, s_constructor, args)) (Ok SVoid) l])
        \/ (t' = [] /\ args = [] /\ exists h1 h2 pv, contract_proto E c h1 (cid E pr) = (h2, Ok pv) /\ pv < 22)
    | PreAsset a =>
        exists r l, t' = [TFrame (Some (KInit, cid E pr, s_init_asset, [SBytes a])) (Ok r) l]
    end.
  Proof.
    intros CR X. revert CR. unfold create. destruct (negb _); [discriminate|].
    destruct (run_st c h _) as [h1 r1]. destruct r1 as [o|e]; [|discriminate].
    destruct pr as [d salt|asset].
    - destruct (contract_proto E c h1 _) as [h2 rp] eqn:CP. destruct rp as [pv|e]; [|discriminate].
      destruct (Z.ltb_spec pv 22) as [LT|GE].
      + destruct args; [|discriminate]. intros [= <- <- <-]. exists []. split; auto. right. split; auto. split; auto.
        exists h1, h2, pv. auto.
      + unfold call. destruct (call_n E c ex KCtor _ _ _ h2) as [[h3 r3] t3] eqn:CL. cbn.
        intros [= _ AN <-]. exists t3. split; auto. left.
        destruct r3 as [u|e]; [|destruct (recoverable e); discriminate]. destruct u; try discriminate.
        pose proof CL as CL'. apply call_ctors in CL; auto. destruct CL as [->|(l & -> & _)]; [|eauto].
        exfalso. clear AN. revert CL'. unfold call_n. cbn [internal negb andb].
        assert (GO : forall hh, call_contract E c ex KCtor (cid E (PreAddress d salt)) s_constructor args (noop_missing KCtor args) hh <> (h3, Ok SVoid, [])).
        { intros hh. unfold call_contract. destruct (run_st c hh _) as [h4 r4].
          destruct r4 as [[| |[[en ?]|]]|]; try destruct en; try discriminate. destruct v0; try discriminate.
          unfold with_frame. destruct (Nat.leb _ _); [discriminate|].
          match goal with |- (match ?B with _ => _ end) <> _ => destruct B as [[h5 r5] t5] end.
          destruct (flush c h5 (frame_exit r5)) as [h6 r6]. discriminate. }
        destruct (reentry _ _) as [[|n]|]; try discriminate; apply GO.
    - unfold call. destruct (call_n E c ex KInit _ _ _ h1) as [[h3 r3] t3] eqn:CL. cbn.
      intros [= _ AN <-]. exists t3. split; auto. destruct r3 as [u|e]; [|discriminate].
      pose proof CL as CL'. apply call_ctors in CL; auto. destruct CL as [->|(l & -> & _)]; [|eauto].
      exfalso. clear AN. revert CL'. unfold call_n. destruct (_ && _); [discriminate|].
      assert (GO : forall hh, call_contract E c ex KInit (cid E (PreAsset asset)) s_init_asset [SBytes asset] (noop_missing KInit [SBytes asset]) hh <> (h3, Ok u, [])).
      { intros hh. unfold call_contract. destruct (run_st c hh _) as [h4 r4].
        destruct r4 as [[| |[[en ?]|]]|]; try destruct en; try discriminate. destruct v0; try discriminate.
        unfold with_frame. destruct (Nat.leb _ _); [discriminate|].
        match goal with |- (match ?B with _ => _ end) <> _ => destruct B as [[h5 r5] t5] end.
        destruct (flush c h5 (frame_exit r5)) as [h6 r6]. discriminate. }
      destruct (reentry _ _) as [[|n]|]; try discriminate; apply GO.
  Qed.

  (* ---------------------------------------------------------------- fuel *)

  Notation ext := (host -> gprog -> host * res scval * list tree).
  Definition agree_at (L : nat) (ex ex' : ext) : Prop :=
    forall h p, pre h -> length (h_stack h) = L -> ex h p = ex' h p.

  Lemma call_fuel ex ex' kd id fn args h : 
    ((length (h_stack h) < depth_limit)%nat -> agree_at (S (length (h_stack h))) ex ex') ->
    call_n E c ex kd id fn args h = call_n E c ex' kd id fn args h.
  Proof.
    intros A. unfold call_n. destruct (_ && _); auto.
    assert (GO : forall h1, h_stack h1 = h_stack h ->
      call_contract E c ex kd id fn args (noop_missing kd args) h1 = call_contract E c ex' kd id fn args (noop_missing kd args) h1).
    { intros h1 S1. unfold call_contract. destruct (run_st c h1 _) as [h2 r2] eqn:RS.
      pose proof (run_st_stack c _ _ _ _ RS) as S2. destruct r2 as [[| |[[en ?]|]]|]; try destruct en; auto. destruct v; auto.
      unfold with_frame. destruct (Nat.leb_spec depth_limit (length (h_stack h2))) as [LE|LT]; auto.
      assert (AG : agree_at (S (length (h_stack h))) ex ex') by (apply A; rewrite <- S1, <- S2; exact LT).
      match goal with |- (match ?B with _ => _ end) = (match ?B' with _ => _ end) => replace B' with B; [reflexivity|] end.
      destruct e; [destruct (wasm E hash fn args); [|reflexivity]|..]; apply AG; cbn; try (left; discriminate); now rewrite S2, S1. }
    destruct (reentry _ _) as [[|n]|]; auto. destruct (self_allowed kd); auto.
    destruct (persist c h) as [h1 rp] eqn:PE. pose proof (persist_inert c _ _ _ PE) as (_ & _ & S1). destruct rp; auto.
  Qed.

  Lemma create_fuel ex ex' pr exe args h : 
    ((length (h_stack h) < depth_limit)%nat -> agree_at (S (length (h_stack h))) ex ex') ->
    create E c ex pr exe args h = create E c ex' pr exe args h.
  Proof.
    intros A. unfold create. destruct (negb _); auto. destruct (run_st c h _) as [h1 r1] eqn:RS.
    pose proof (run_st_stack c _ _ _ _ RS) as S1. destruct r1; auto. destruct pr.
    - destruct (contract_proto E c h1 _) as [h2 rp] eqn:CP. pose proof (proto_inert E c _ _ _ _ CP) as (_ & _ & S2).
      destruct rp; auto. destruct (_ <? 22); auto. unfold call. rewrite (call_fuel ex ex'); auto. now rewrite S2, S1.
    - unfold call. rewrite (call_fuel ex ex'); auto. now rewrite S1.
  Qed.

  (* The nesting bound of [exec] does not matter once it and the stack reach the
     host's depth limit together. *)
  Theorem exec_fuel : forall n m h p, pre h ->
    (depth_limit <= n + length (h_stack h))%nat -> (depth_limit <= m + length (h_stack h))%nat ->
    exec E c n h p = exec E c m h p.
  Proof.
    induction n as [n IH] using lt_wf_ind. intros m.
    set (ex := match n with O => fun h _ => (h, Err e_fuel, []) | S k => exec E c k end).
    set (ex' := match m with O => fun h _ => (h, Err e_fuel, []) | S k => exec E c k end).
    assert (X : forall h : host, (depth_limit <= n + length (h_stack h))%nat -> (depth_limit <= m + length (h_stack h))%nat ->
      (length (h_stack h) < depth_limit)%nat -> agree_at (S (length (h_stack h))) ex ex').
    { intros h L1 L2 LT h0 p R L. unfold ex, ex'. destruct n as [|n']; [cbn in L1; lia|]. destruct m as [|m']; [cbn in L2; lia|].
      apply IH; auto; lia. }
    assert (XO : exec_ok E ex).
    { unfold ex. destruct n; [|apply exec_shape]. intros h p h' r t R [= <- <- <-]. apply shape_inert; auto using inert_refl. }
    intros h p. revert h. induction p as [v|e|e|o k IHk|id fn args k IHk|id fn args k IHk|id args k IHk|pr exe args k IHk]; intros h R L1 L2.
    - destruct n, m; reflexivity.
    - destruct n, m; reflexivity.
    - destruct n, m; reflexivity.
    - assert (U : forall j, exec E c j h (GOp o k) = let '(h1, r1, t1) := step E c h o in
          match r1 with Err e => (h1, Err e, t1) | Ok v => let '(h2, r2, t2) := exec E c j h1 (k v) in (h2, r2, t1 ++ t2) end)
        by (intros []; reflexivity).
      rewrite !U. destruct (step E c h o) as [[h1 r1] t1] eqn:ST. apply step_shape in ST; auto.
      destruct r1 as [v|e]; auto. rewrite (IHk v h1); auto; [eapply shape_pre; eauto|..];
      rewrite (proj2 (stack_rel_sids _ _ (sh_stack _ _ _ _ _ ST))); auto.
    - assert (U1 : exec E c n h (GCall id fn args k) = bind (call E c ex KCall id fn args h) (fun v h1 => exec E c n h1 (k v))) by (unfold ex; destruct n; reflexivity).
      assert (U2 : exec E c m h (GCall id fn args k) = bind (call E c ex' KCall id fn args h) (fun v h1 => exec E c m h1 (k v))) by (unfold ex'; destruct m; reflexivity).
      rewrite U1, U2. assert (CE : call E c ex' KCall id fn args h = call E c ex KCall id fn args h) by (unfold call; rewrite (call_fuel ex ex'); auto).
      rewrite CE. destruct (call E c ex KCall id fn args h) as [[h1 r1] t1] eqn:CL. apply call_shape in CL; auto; [|exact I].
      cbn. destruct r1 as [v|e]; auto. rewrite (IHk v h1); auto; [eapply shape_pre; eauto|..];
      rewrite (proj2 (stack_rel_sids _ _ (sh_stack _ _ _ _ _ CL))); auto.
    - assert (U1 : exec E c n h (GTry id fn args k) = bind (call E c ex KTry id fn args h) (fun v h1 => exec E c n h1 (k v))) by (unfold ex; destruct n; reflexivity).
      assert (U2 : exec E c m h (GTry id fn args k) = bind (call E c ex' KTry id fn args h) (fun v h1 => exec E c m h1 (k v))) by (unfold ex'; destruct m; reflexivity).
      rewrite U1, U2. assert (CE : call E c ex' KTry id fn args h = call E c ex KTry id fn args h) by (unfold call; rewrite (call_fuel ex ex'); auto).
      rewrite CE. destruct (call E c ex KTry id fn args h) as [[h1 r1] t1] eqn:CL. apply call_shape in CL; auto; [|exact I].
      cbn. destruct r1 as [v|e]; auto. rewrite (IHk v h1); auto; [eapply shape_pre; eauto|..];
      rewrite (proj2 (stack_rel_sids _ _ (sh_stack _ _ _ _ _ CL))); auto.
    - assert (U1 : exec E c n h (GAuth id args k) = bind (call E c ex KAuth id s_check_auth args h) (fun v h1 => exec E c n h1 k)) by (unfold ex; destruct n; reflexivity).
      assert (U2 : exec E c m h (GAuth id args k) = bind (call E c ex' KAuth id s_check_auth args h) (fun v h1 => exec E c m h1 k)) by (unfold ex'; destruct m; reflexivity).
      rewrite U1, U2. assert (CE : call E c ex' KAuth id s_check_auth args h = call E c ex KAuth id s_check_auth args h) by (unfold call; rewrite (call_fuel ex ex'); auto).
      rewrite CE. destruct (call E c ex KAuth id s_check_auth args h) as [[h1 r1] t1] eqn:CL. apply call_shape in CL; auto; [|reflexivity].
      cbn. destruct r1 as [v|e]; auto. rewrite (IHk h1); auto; [eapply shape_pre; eauto|..];
      rewrite (proj2 (stack_rel_sids _ _ (sh_stack _ _ _ _ _ CL))); auto.
    - assert (U1 : exec E c n h (GCreate pr exe args k) = bind (create E c ex pr exe args h) (fun v h1 => exec E c n h1 (k v))) by (unfold ex; destruct n; reflexivity).
      assert (U2 : exec E c m h (GCreate pr exe args k) = bind (create E c ex' pr exe args h) (fun v h1 => exec E c m h1 (k v))) by (unfold ex'; destruct m; reflexivity).
      rewrite U1, U2. rewrite <- (create_fuel ex ex') by auto.
      destruct (create E c ex pr exe args h) as [[h1 r1] t1] eqn:CL. apply create_shape in CL; auto.
      cbn. destruct r1 as [v|e]; auto. rewrite (IHk v h1); auto; [eapply shape_pre; eauto|..];
      rewrite (proj2 (stack_rel_sids _ _ (sh_stack _ _ _ _ _ CL))); auto.
  Qed.
End Final.
