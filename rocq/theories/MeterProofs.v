(* The meter's navigation: the report is the tree of calls. *)
From Coq Require Import ZArith Lia List Bool.
From Verif Require Import Prelude ValModel ContainerModel HeapModel AMap StorageModel StorageSpec FeesModel FrameModel E2EModel MeterModel MeterSpec.
Import ListNotations.
Open Scope Z_scope.
Ltac Zify.zify_post_hook ::= idtac.

Lemma at_last_app {A} (f : A -> option A) l x : at_last f (l ++ [x]) = let! y := f x in Some (l ++ [y]).
Proof.
  induction l as [|a l IH]; [cbn; destruct (f x); reflexivity|].
  cbn [app]. destruct l as [|b l]; [|]; cbn [app] in *.
  - cbn. destruct (f x); reflexivity.
  - cbn [at_last]. cbn [at_last] in IH. rewrite IH. destruct (f x); reflexivity.
Qed.

(* open invocations, outermost first *)
Definition oframe : Type := minv * usage * list mtree.
Fixpoint build (x : oframe) (r : list oframe) : mtree :=
  let '(i, u, l) := x in
  match r with [] => MT i u l | y :: r' => MT i u (l ++ [build y r']) end.
Fixpoint innermost (x : oframe) (r : list oframe) : oframe := match r with [] => x | y :: r' => innermost y r' end.
(* the innermost one replaced *)
Fixpoint replace (x : oframe) (r : list oframe) (z : oframe) : oframe * list oframe :=
  match r with [] => (z, []) | y :: r' => let '(a, b) := replace y r' z in (x, a :: b) end.
Definition buildp (p : oframe * list oframe) : mtree := build (fst p) (snd p).
Definition tree_of (x : oframe) : mtree := let '(i, u, l) := x in MT i u l.

Lemma build_last x r : last_node (length r) (build x r) = Some (tree_of (innermost x r)).
Proof.
  revert x. induction r as [|y r IH]; intros [[i u] l]; [reflexivity|].
  cbn [build length last_node mt_subs innermost]. rewrite rev_app_distr. cbn [rev app]. apply IH.
Qed.
Lemma replace_length x r z : length (snd (replace x r z)) = length r.
Proof. revert x. induction r as [|y r IH]; intros x; [reflexivity|]. cbn. specialize (IH y). destruct (replace y r z). cbn in *. now rewrite IH. Qed.
Lemma replace_fst x y r z : fst (replace x (y :: r) z) = x.
Proof. cbn. now destruct (replace y r z). Qed.
Lemma replace_innermost x r z : innermost (fst (replace x r z)) (snd (replace x r z)) = z.
Proof. revert x. induction r as [|y r IH]; intros x; [reflexivity|]. cbn. specialize (IH y). destruct (replace y r z). exact IH. Qed.
Lemma replace_replace x r z z' : replace (fst (replace x r z)) (snd (replace x r z)) z' = replace x r z'.
Proof.
  revert x. induction r as [|y r IH]; intros x; [reflexivity|]. cbn. specialize (IH y). destruct (replace y r z) as [a b].
  cbn in *. rewrite IH. reflexivity.
Qed.
Lemma replace_same x r : replace x r (innermost x r) = (x, r).
Proof. revert x. induction r as [|y r IH]; intros x; [reflexivity|]. cbn. now rewrite IH. Qed.

(* changing the innermost node *)
Lemma build_at x r f z : f (tree_of (innermost x r)) = Some (tree_of z) ->
  at_depth (length r) f (buildp (x, r)) = Some (buildp (replace x r z)).
Proof.
  unfold buildp at 1. cbn [fst snd].
  revert x. induction r as [|y r IH]; intros [[i u] l] F.
  - cbn in *. rewrite F. unfold buildp. destruct z as [[i' u'] l']. reflexivity.
  - cbn [innermost] in F. specialize (IH y F). cbn [build length at_depth mt_subs mt_inv mt_use].
    rewrite at_last_app, IH. cbn. unfold buildp. destruct (replace y r z) as [a b]. reflexivity.
Qed.
(* a call begins: a node is appended *)
Fixpoint grow (x : oframe) (r : list oframe) (z : oframe) : list oframe :=
  match r with [] => [z] | y :: r' => y :: grow y r' z end.
Lemma build_grow x r i u : let '(i0, us, l) := innermost x r in
  build x (r ++ [(i, u, [])]) = buildp (replace x r (i0, us, l ++ [MT i u []])).
Proof.
  revert x. induction r as [|y r IH]; intros [[i1 u1] l1]; [reflexivity|].
  cbn [innermost]. specialize (IH y). destruct (innermost y r) as [[i0 us] l] eqn:E. cbn. rewrite IH.
  unfold buildp. destruct (replace y r (i0, us, l ++ [MT i u []])). reflexivity.
Qed.
Lemma innermost_app x r z : innermost x (r ++ [z]) = z.
Proof. revert x. induction r as [|y r IH]; intros x; [reflexivity|apply IH]. Qed.
Lemma replace_app x r z z' : replace x (r ++ [z]) z' = (x, r ++ [z']).
Proof. revert x. induction r as [|y r IH]; intros x; [reflexivity|]. cbn. now rewrite IH. Qed.
(* a call ends: it is a complete node of its caller *)
Lemma build_close x r i u l : let '(i0, us, l0) := innermost x r in
  build x (r ++ [(i, u, l)]) = buildp (replace x r (i0, us, l0 ++ [MT i u l])).
Proof.
  revert x. induction r as [|y r IH]; intros [[i1 u1] l1]; [reflexivity|].
  cbn [innermost]. specialize (IH y). destruct (innermost y r) as [[i0 us] l0] eqn:E. cbn. rewrite IH.
  unfold buildp. destruct (replace y r (i0, us, l0 ++ [MT i u l])). reflexivity.
Qed.

Section Nav.
  Context {H S : Type}.
  Variable reset_ : H -> H.
  Variable save : H -> S.
  Variable look : S -> H -> option (H * usage).
  Variable within : usage -> H -> bool.

  Definition opened (sn : S) (p : oframe * list oframe) : @meter S :=
    {| mt_on := true; mt_depth := Datatypes.S (length (snd p)); mt_snap := Some sn; mt_report := Some (buildp p) |}.
  Definition add_subs (z : oframe) (l : list mtree) : oframe := let '(i, u, l0) := z in (i, u, l0 ++ l).

  Lemma add_subs_nil z : add_subs z [] = z.
  Proof. destruct z as [[i u] l]. cbn. now rewrite app_nil_r. Qed.
  Lemma add_subs_app z a b : add_subs (add_subs z a) b = add_subs z (a ++ b).
  Proof. destruct z as [[i u] l]. cbn. now rewrite app_assoc. Qed.

  Lemma run_open p : forall sn x r h,
    run reset_ save look within (opened sn (x, r)) h p
    = let! y := calls look sn (fst (fst (innermost x r))) p h in
      Some (opened sn (replace x r (add_subs (innermost x r) (snd y))), fst y).
  Proof.
    induction p as [|w k IH|i b IHb k IHk]; intros sn x r h.
    - cbn. rewrite add_subs_nil, replace_same. reflexivity.
    - cbn. rewrite IH. reflexivity.
    - cbn [run calls]. set (cur := innermost x r).
      assert (SKIP : forall m, m = opened sn (x, r) ->
        (let! y := run reset_ save look within m h b in
         let! z := Some y in run reset_ save look within (fst z) (snd z) k)
        = (let! y := (let! x0 := calls look sn (fst (fst cur)) b h in
                      let! y := calls look sn (fst (fst cur)) k (fst x0) in Some (fst y, snd x0 ++ snd y)) in
           Some (opened sn (replace x r (add_subs cur (snd y))), fst y))).
      { intros m ->. rewrite IHb. fold cur. destruct (calls look sn (fst (fst cur)) b h) as [[h1 l1]|]; [|reflexivity].
        cbn [obind fst snd]. destruct (replace x r (add_subs cur l1)) as [x1 r1] eqn:E.
        assert (IN : innermost x1 r1 = add_subs cur l1).
        { pose proof (replace_innermost x r (add_subs cur l1)) as R. rewrite E in R. exact R. }
        rewrite IHk, IN. assert (F : fst (fst (add_subs cur l1)) = fst (fst cur)) by (destruct cur as [[? ?] ?]; reflexivity).
        rewrite F. destruct (calls look sn (fst (fst cur)) k h1) as [[h2 l2]|]; [|reflexivity]. cbn [obind fst snd].
        rewrite add_subs_app.
        pose proof (replace_replace x r (add_subs cur l1) (add_subs cur (l1 ++ l2))) as R. rewrite E in R. cbn in R.
        rewrite R. reflexivity. }
      unfold push. cbn [mt_on negb opened mt_depth mt_report mt_snap obind snd fst].
      rewrite (build_last x r : last_node (length r) (buildp (x, r)) = _). cbn [obind]. fold cur.
      assert (MI : mt_inv (tree_of cur) = fst (fst cur)) by (destruct cur as [[? ?] ?]; reflexivity).
      rewrite MI. destruct (minv_eq_dec (fst (fst cur)) i) as [EQ|NE].
      { rewrite andb_false_r. cbn [obind]. apply SKIP. reflexivity. }
      destruct i as [a fn| |]; cbn [is_call andb]; [|cbn [obind]; apply SKIP; reflexivity|cbn [obind]; apply SKIP; reflexivity].
      destruct (look sn h) as [[h1 u1]|]; [|reflexivity]. cbn [obind fst snd].
      destruct cur as [[i0 us] l0] eqn:CU. cbn [fst] in *.
      rewrite (build_at x r _ (i0, us, l0 ++ [MT (InvokeContract a fn) u1 []])) by (fold cur; rewrite CU; reflexivity).
      cbn [obind].
      pose proof (build_grow x r (InvokeContract a fn) u1) as G. fold cur in G. rewrite CU in G.
      match goal with |- context [run _ _ _ _ ?m h1 b] =>
        replace m with (opened sn (x, r ++ [(InvokeContract a fn, u1, [])])) end.
      2:{ unfold opened, buildp at 1. cbn [fst snd]. rewrite G, app_length. cbn [length]. rewrite Nat.add_1_r. reflexivity. }
      rewrite IHb, innermost_app. cbn [fst snd].
      destruct (calls look sn (InvokeContract a fn) b h1) as [[h2 l2]|]; [|reflexivity]. cbn [obind fst snd add_subs app].
      rewrite replace_app. unfold pop. cbn [mt_on negb opened mt_depth mt_report mt_snap obind snd fst].
      destruct (look sn h2) as [[h3 u3]|]; [|reflexivity]. cbn [obind fst snd].
      rewrite (build_at x (r ++ [(InvokeContract a fn, u1, l2)]) _ (InvokeContract a fn, subtract u3 u1, l2)) by (rewrite innermost_app; reflexivity).
      cbn [obind]. rewrite replace_app, app_length. cbn [length]. rewrite Nat.add_1_r. cbn [Nat.eqb fst snd obind].
      pose proof (build_close x r (InvokeContract a fn) (subtract u3 u1) l2) as C. fold cur in C. rewrite CU in C.
      set (z := (i0, us, l0 ++ [MT (InvokeContract a fn) (subtract u3 u1) l2])) in *.
      destruct (replace x r z) as [x1 r1] eqn:E.
      pose proof (replace_length x r z) as LE. rewrite E in LE. cbn in LE.
      match goal with |- run _ _ _ _ ?m h3 k = _ => replace m with (opened sn (x1, r1)) end.
      2:{ unfold opened, buildp. cbn [fst snd]. unfold buildp in C. cbn [fst snd] in C. rewrite LE. do 2 f_equal. symmetry. exact C. }
      pose proof (replace_innermost x r z) as RI. rewrite E in RI. cbn in RI.
      rewrite IHk, RI. unfold z at 1. cbn [fst snd]. destruct (calls look sn i0 k h3) as [[h4 l4]|]; [|reflexivity].
      cbn [obind fst snd]. pose proof (replace_replace x r z (add_subs z l4)) as RR. rewrite E in RR. cbn [fst snd] in RR. rewrite RR.
      unfold z. cbn [add_subs]. rewrite <- app_assoc. reflexivity.
  Qed.

  Definition idle (last : option mtree) (sn : option S) : @meter S :=
    {| mt_on := true; mt_depth := 0; mt_snap := sn; mt_report := last |}.
  (* between invocations *)
  Lemma run_idle p : forall h last sn,
    match sessions reset_ save look within p h last with
    | None => run reset_ save look within (idle last sn) h p = None
    | Some (h', last') => exists sn', run reset_ save look within (idle last sn) h p = Some (idle last' sn', h')
    end.
  Proof.
    induction p as [|w k IH|i b IHb k IHk]; intros h last sn.
    - cbn. eauto.
    - cbn. apply IH.
    - cbn [sessions run]. unfold push. cbn [mt_on idle negb mt_depth]. set (h0 := reset_ h). set (s0 := save h0).
      destruct (look s0 h0) as [[h1 u1]|]; [|reflexivity]. cbn [obind fst snd].
      match goal with |- context [run _ _ _ _ ?m h1 b] => change m with (opened s0 ((i, u1, []), [])) end.
      rewrite run_open. cbn [innermost fst snd replace add_subs app].
      destruct (calls look s0 i b h1) as [[h2 l2]|]; [|reflexivity]. cbn [obind fst snd].
      unfold pop. cbn [opened mt_depth mt_report mt_snap snd fst length obind at_depth buildp build mt_inv mt_use mt_subs].
      destruct (look s0 h2) as [[h3 u3]|]; [|reflexivity]. cbn [obind fst snd at_depth buildp build mt_inv mt_use mt_subs Nat.eqb].
      unfold buildp. cbn [fst snd build at_depth mt_inv mt_use mt_subs obind].
      destruct (within (unsigned (subtract u3 u1)) h3); [|reflexivity]. cbn [obind fst snd]. apply IHk.
  Qed.

  (* a counter that is one of the reported numbers *)
  Variable count : H -> Z.
  Variable f : usage -> Z.
  Hypothesis LOOK : forall sn h h' u, look sn h = Some (h', u) -> count h' = count h /\ (0 <= count h <= i64_max -> f u = count h).
  Hypothesis RESET : forall h, 0 <= count (reset_ h) <= i64_max.
  Hypothesis SUB : forall a b, in_i64 (f a - f b) -> f (subtract a b) = f a - f b.

  Definition parts_fit (t : mtree) : Prop :=
    0 <= f (mt_use t) /\ zsum (map (fun x => f (mt_use x)) (mt_subs t)) <= f (mt_use t).
  Lemma zsum_app a b : zsum (a ++ b) = zsum a + zsum b.
  Proof. induction a as [|x a IH]; [reflexivity|]. cbn. rewrite IH. ring. Qed.
  Lemma every_node P i u l : every P (MT i u l) <-> P (MT i u l) /\ Forall (every P) l.
  Proof.
    cbn. apply and_iff_compat_l. induction l as [|x l IH]; [split; auto|].
    rewrite IH. split; [intros [A B]; constructor; auto|intros A; inversion A; auto].
  Qed.
  Lemma calls_up p : forall sn cur h h' l, works_up count p -> 0 <= count h <= i64_max -> calls look sn cur p h = Some (h', l) ->
    count h <= count h' <= i64_max /\ Forall (every parts_fit) l /\ zsum (map (fun x => f (mt_use x)) l) <= count h' - count h.
  Proof.
    induction p as [|w k IH|i b IHb k IHk]; intros sn cur h h' l W R E; cbn [calls works_up] in *.
    - injection E as <- <-. cbn. split; [lia|]. split; [constructor|lia].
    - destruct W as [W1 W2]. specialize (W1 h R). destruct (IH sn cur (w h) h' l W2 ltac:(lia) E) as (A & B & C). split; [lia|]. split; [exact B|lia].
    - destruct W as [W1 W2]. destruct (is_call i && (if minv_eq_dec cur i then false else true)).
      + destruct (look sn h) as [[h1 u1]|] eqn:L1; [|discriminate E]. cbn [obind fst snd] in E.
        destruct (calls look sn i b h1) as [[h2 l2]|] eqn:C2; [|discriminate E]. cbn [obind fst snd] in E.
        destruct (look sn h2) as [[h3 u3]|] eqn:L3; [|discriminate E]. cbn [obind fst snd] in E.
        destruct (calls look sn cur k h3) as [[h4 l4]|] eqn:C4; [|discriminate E]. cbn [obind fst snd] in E.
        injection E as <- <-. destruct (LOOK _ _ _ _ L1) as (K1 & F1). destruct (LOOK _ _ _ _ L3) as (K3 & F3).
        specialize (F1 R). destruct (IHb sn i h1 h2 l2 W1 ltac:(lia) C2) as (A2 & B2 & Z2). specialize (F3 ltac:(lia)).
        destruct (IHk sn cur h3 h4 l4 W2 ltac:(lia) C4) as (A4 & B4 & Z4).
        assert (SB : f (subtract u3 u1) = f u3 - f u1) by (apply SUB; unfold in_i64, i64_min, i64_max in *; lia).
        split; [lia|]. split.
        * constructor; [|exact B4]. apply every_node. split; [|exact B2]. unfold parts_fit. cbn [mt_use mt_subs]. lia.
        * cbn [map zsum mt_use]. lia.
      + destruct (calls look sn cur b h) as [[h1 l1]|] eqn:C1; [|discriminate E]. cbn [obind fst snd] in E.
        destruct (calls look sn cur k h1) as [[h2 l2]|] eqn:C2; [|discriminate E]. cbn [obind fst snd] in E. injection E as <- <-.
        destruct (IHb _ _ _ _ _ W1 R C1) as (A1 & B1 & Z1). destruct (IHk sn cur h1 h2 l2 W2 ltac:(lia) C2) as (A2 & B2 & Z2).
        split; [lia|]. split; [apply Forall_app; auto|]. rewrite map_app, zsum_app. lia.
  Qed.
  Lemma sessions_up p : forall h last h' t, works_up count p -> sessions reset_ save look within p h last = Some (h', Some t) ->
    (forall t0, last = Some t0 -> every parts_fit t0) -> every parts_fit t.
  Proof.
    induction p as [|w k IH|i b IHb k IHk]; intros h last h' t W E LA; cbn [sessions works_up] in *.
    - injection E as <- ->. apply LA. reflexivity.
    - destruct W. eapply IH; eauto.
    - destruct W as [W1 W2]. pose proof (RESET h) as R0. set (h0 := reset_ h) in *. set (s0 := save h0) in *.
      destruct (look s0 h0) as [[h1 u1]|] eqn:L1; [|discriminate E]. cbn [obind fst snd] in E.
      destruct (calls look s0 i b h1) as [[h2 l2]|] eqn:C2; [|discriminate E]. cbn [obind fst snd] in E.
      destruct (look s0 h2) as [[h3 u3]|] eqn:L3; [|discriminate E]. cbn [obind fst snd mt_use] in E.
      destruct (within (unsigned (subtract u3 u1)) h3); [|discriminate E].
      eapply IHk; [exact W2|exact E|]. intros t0 [= <-].
      destruct (LOOK _ _ _ _ L1) as (K1 & F1). destruct (LOOK _ _ _ _ L3) as (K3 & F3).
      specialize (F1 R0). destruct (calls_up b s0 i h1 h2 l2 W1 ltac:(lia) C2) as (A2 & B2 & Z2). specialize (F3 ltac:(lia)).
      apply every_node. split; [|exact B2].
      assert (SB : f (subtract u3 u1) = f u3 - f u1) by (apply SUB; unfold in_i64, i64_min, i64_max in *; lia).
      unfold parts_fit. cbn [mt_use mt_subs]. lia.
  Qed.
End Nav.
