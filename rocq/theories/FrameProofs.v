(* The shape of contract executions: stacks, events, random numbers, call trees.
   Nothing here depends on what the ledger contains. *)
From Coq Require Import ZArith Lia List Bool.
From Verif Require Import Prelude ValModel ContainerModel HeapModel AMap StorageModel StorageSpec FrameModel FrameSpec.
Import ListNotations.
Open Scope Z_scope.

(* ---------------------------------------------------------------- trees *)

Lemma occurs_nil p x : ~ occurs [] p x.
Proof. intros O; inversion O; subst; contradiction. Qed.

Lemma occurs_app ts1 ts2 p x : occurs (ts1 ++ ts2) p x <-> occurs ts1 p x \/ occurs ts2 p x.
Proof.
  split.
  - intros O. inversion O; subst.
    + apply in_app_or in H as [H|H]; [left|right]; eapply occ_here; eauto.
    + apply in_app_or in H as [H|H]; [left|right]; eapply occ_in; eauto.
  - intros [O|O]; inversion O; subst;
      first [eapply occ_in; [apply in_or_app; eauto|eassumption] | eapply occ_here; apply in_or_app; eauto].
Qed.

Lemma occurs_leaf t p x : match t with TFrame _ _ _ => False | _ => True end -> ~ occurs [t] p x.
Proof. intros N O. inversion O; subst; destruct H as [->|[]]; exact N. Qed.

Lemma occurs_one w r l p x : occurs [TFrame w r l] p x ->
  (p = [] /\ x = (w, r)) \/ exists p', p = p' ++ [(w, r)] /\ occurs l p' x.
Proof.
  intros O. inversion O as [ts w0 r0 l0 H|ts w0 r0 l0 p0 x0 H H1]; subst; destruct H as [H|[]]; injection H as -> -> ->.
  - left; auto.
  - right; eauto.
Qed.

Lemma ev_trees_app a b : ev_trees (a ++ b) = ev_trees a ++ ev_trees b.
Proof. unfold ev_trees. apply flat_map_app. Qed.

Lemma ids_app p q : ids (p ++ q) = ids p ++ ids q.
Proof. induction p as [|w p IH]; cbn; auto. destruct (who_id w); cbn; now rewrite IH. Qed.

Lemma ctors_weaken ts f : ctors_ok None ts -> ctors_ok f ts.
Proof.
  destruct ts as [|t ts]; cbn; auto. intros [A B]. split; auto.
  destruct t; auto. destruct who as [[[[[] ?] ?] ?]|]; auto. destruct A; discriminate.
Qed.
Lemma ctors_app f a b : ctors_ok f a -> ctors_ok None b -> ctors_ok f (a ++ b).
Proof.
  revert f. induction a as [|t a IH]; cbn; intros f A B; [now apply ctors_weaken|].
  destruct A as [A1 A2]. split; auto.
Qed.

Lemma everywhere_app a b : everywhere (ctors_ok None) a -> everywhere (ctors_ok None) b -> everywhere (ctors_ok None) (a ++ b).
Proof.
  intros A B. inversion A; inversion B; subst. apply ev_intro; [now apply ctors_app|].
  intros w r l I. apply in_app_or in I as [I|I]; eauto.
Qed.
Lemma everywhere_leaf t : match t with TFrame _ _ _ => False | _ => True end -> everywhere (ctors_ok None) [t].
Proof.
  intros N. apply ev_intro.
  - cbn. destruct t; auto. contradiction.
  - intros w r l [->|[]]. contradiction.
Qed.
Lemma everywhere_nil : everywhere (ctors_ok None) [].
Proof. apply ev_intro; [exact I|]. intros w r l []. Qed.

Section Shape.
  Context {P : Type}.
  Variable E : env P.
  Variable c : sconf.
  Notation host := (host P).
  Notation ctx := (ctx P).

  Lemma draws_app s t1 s1 t2 s2 : draws E s t1 s1 -> draws E s1 t2 s2 -> draws E s (t1 ++ t2) s2.
  Proof. intros D. revert t2 s2. induction D; intros t2 s2 X; cbn; [assumption|..]; econstructor; eauto. Qed.

  (* ---------------------------------------------------------------- storage-only steps *)

  Definition inert (h h' : host) : Prop :=
    h_ev h' = h_ev h /\ h_base h' = h_base h /\ h_stack h' = h_stack h.
  Lemma inert_refl h : inert h h. Proof. repeat split. Qed.
  Lemma inert_trans a b d : inert a b -> inert b d -> inert a d.
  Proof. unfold inert. intros (->&->&->) (->&->&->). auto. Qed.

  Lemma run_st_inert h p h' r : run_st c h p = (h', r) -> inert h h'.
  Proof.
    unfold run_st. destruct (srun c (h_store h) p) as [[s r0] t]. intros [= <- <-]. repeat split.
  Qed.
  Lemma persist_inert h h' r : persist c h = (h', r) -> inert h h'.
  Proof.
    unfold persist. destruct (h_stack h) as [|x l]; [intros [= <- <-]; apply inert_refl|].
    destruct (cx_inst x) as [[m []]|]; try (intros [= <- <-]; apply inert_refl).
    destruct (frame_id (cx_frame x)); [|intros [= <- <-]; apply inert_refl].
    destruct (run_st c h _) as [h1 r1] eqn:R. intros [= <- <-]. eapply run_st_inert; eauto.
  Qed.
  Lemma proto_inert h id h' r : contract_proto E c h id = (h', r) -> inert h h'.
  Proof. unfold contract_proto. destruct (run_st c h _) as [h1 r1] eqn:R. intros [= <- <-]. eapply run_st_inert; eauto. Qed.

  (* ---------------------------------------------------------------- stacks *)

  Fixpoint sids (l : list ctx) : list (list Z) :=
    match l with
    | [] => []
    | x :: l' => match frame_id (cx_frame x) with Some i => i :: sids l' | None => sids l' end
    end.

  (* b is a after running frames of contract id above it *)
  Definition keep (id : option (list Z)) (a b : ctx) : Prop :=
    cx_frame b = cx_frame a /\ cx_prng b = cx_prng a
    /\ (frame_id (cx_frame a) = None \/ frame_id (cx_frame a) <> id -> b = a).
  Lemma keep_refl id a : keep id a a. Proof. repeat split. Qed.
  Lemma keep_trans id a b d : keep id a b -> keep id b d -> keep id a d.
  Proof.
    intros (A1 & A2 & A3) (B1 & B2 & B3). split; [congruence|]. split; [congruence|].
    intros N. rewrite B3; [|rewrite A1; auto]. auto.
  Qed.
  Lemma keeps_refl id l : Forall2 (keep id) l l.
  Proof. induction l; constructor; auto using keep_refl. Qed.
  Lemma keeps_trans id a : forall b d, Forall2 (keep id) a b -> Forall2 (keep id) b d -> Forall2 (keep id) a d.
  Proof.
    induction a as [|x a IH]; intros b d A B; inversion A; subst; inversion B; subst; constructor; eauto using keep_trans.
  Qed.
  Lemma keeps_sids id a : forall b, Forall2 (keep id) a b -> sids b = sids a.
  Proof. induction a as [|x a IH]; intros b A; inversion A; subst; cbn; auto. destruct H1 as (-> & _). now rewrite (IH _ H3). Qed.
  Lemma keeps_length id (a b : list ctx) : Forall2 (keep id) a b -> length b = length a.
  Proof. intros F. induction F; cbn; congruence. Qed.
  Lemma keeps_absent id a : forall b, Forall2 (keep (Some id)) a b -> ~ In id (sids a) -> b = a.
  Proof.
    induction a as [|x a IH]; intros b A N; inversion A; subst; auto. cbn in N.
    destruct H1 as (F & _ & K). rewrite (IH l'); auto.
    - rewrite K; auto. destruct (frame_id (cx_frame x)) as [i|]; auto. right. intros [= ->]. apply N. now left.
    - intros I. apply N. destruct (frame_id (cx_frame x)); [now right|exact I].
  Qed.
  Lemma keeps_none a : forall b, Forall2 (keep None) a b -> b = a.
  Proof.
    induction a as [|x a IH]; intros b A; inversion A; subst; auto. rewrite (IH _ H3).
    destruct H1 as (_ & _ & K). rewrite K; auto. destruct (frame_id (cx_frame x)); [right; congruence|now left].
  Qed.

  Lemma reentry_none l id : reentry l id = None -> ~ In id (sids l).
  Proof.
    induction l as [|x l IH]; cbn; [tauto|]. destruct (frame_id (cx_frame x)) as [i|]; [|exact IH].
    destruct (zlist_eq_dec i id); [discriminate|]. destruct (reentry l id); [discriminate|].
    intros _ [->|I]; [congruence|]. now apply IH.
  Qed.
  Lemma reentry_zero l id : reentry l id = Some O -> exists rest, sids l = id :: rest.
  Proof.
    induction l as [|x l IH]; cbn; [discriminate|]. destruct (frame_id (cx_frame x)) as [i|]; [|exact IH].
    destruct (zlist_eq_dec i id) as [->|]; [eauto|]. destruct (reentry l id); discriminate.
  Qed.

  (* host frames occur only at the bottom *)
  Definition pre (h : host) : Prop :=
    match h_stack h with [] => False | x :: rest => frame_id (cx_frame x) <> None \/ rest = [] end.
  Definition top_prng (h : host) : option P := match h_stack h with x :: _ => cx_prng x | [] => None end.

  Definition stack_rel (h h' : host) : Prop :=
    match h_stack h, h_stack h' with
    | x :: rest, x' :: rest' => cx_frame x' = cx_frame x /\ Forall2 (keep (frame_id (cx_frame x))) rest rest'
    | _, _ => False
    end.
  Lemma stack_rel_same h h' : pre h -> h_stack h' = h_stack h -> stack_rel h h'.
  Proof.
    unfold pre, stack_rel. intros R ->. destruct (h_stack h); [exact R|]. split; auto using keeps_refl.
  Qed.
  Lemma stack_rel_trans a b d : stack_rel a b -> stack_rel b d -> stack_rel a d.
  Proof.
    unfold stack_rel. destruct (h_stack a), (h_stack b), (h_stack d); try tauto.
    intros [A1 A2] [B1 B2]. split; [congruence|]. rewrite A1 in B2. eapply keeps_trans; eauto.
  Qed.
  Lemma stack_rel_pre h h' : pre h -> stack_rel h h' -> pre h'.
  Proof.
    unfold pre, stack_rel. destruct (h_stack h) as [|x l]; [tauto|]. destruct (h_stack h') as [|x' l']; [tauto|].
    intros [A|A] [B C]; [left; congruence|right]. subst. inversion C; auto.
  Qed.
  Lemma stack_rel_sids h h' : stack_rel h h' -> sids (h_stack h') = sids (h_stack h) /\ length (h_stack h') = length (h_stack h).
  Proof.
    unfold stack_rel. destruct (h_stack h) as [|x l]; [tauto|]. destruct (h_stack h') as [|x' l']; [tauto|].
    intros [A B]. cbn. rewrite A, (keeps_sids _ _ _ B), (keeps_length _ _ _ B). auto.
  Qed.

  (* ---------------------------------------------------------------- a run of a program *)

  Definition legal_in (h : host) (t : list tree) : Prop :=
    forall p w r, occurs t p (w, r) ->
      (length p + length (h_stack h) < depth_limit)%nat /\ legal (ids (map fst p) ++ sids (h_stack h)) w.
  Definition fatal_in (o : option err) (t : list tree) : Prop :=
    forall p w e, occurs t p (w, Err e) -> fatal e -> (forall q, In q p -> snd q = Err e) /\ o = Some e.

  Record shape (h : host) (o : option err) (t : list tree) (h' : host) : Prop := {
    sh_stack : stack_rel h h';
    sh_ev : h_ev h' = h_ev h ++ ev_trees t;
    sh_draws : draws E (h_base h, top_prng h) t (h_base h', top_prng h');
    sh_legal : legal_in h t;
    sh_fatal : fatal_in o t
  }.

  Lemma legal_nil h : legal_in h []. Proof. intros p w r O. destruct (occurs_nil _ _ O). Qed.
  Lemma fatal_nil o : fatal_in o []. Proof. intros p w e O. destruct (occurs_nil _ _ O). Qed.
  Lemma legal_leaf h t : match t with TFrame _ _ _ => False | _ => True end -> legal_in h [t].
  Proof. intros N p w r O. destruct (occurs_leaf _ _ _ N O). Qed.
  Lemma fatal_leaf o t : match t with TFrame _ _ _ => False | _ => True end -> fatal_in o [t].
  Proof. intros N p w r O. destruct (occurs_leaf _ _ _ N O). Qed.

  Lemma shape_inert h o h' : pre h -> inert h h' -> shape h o [] h'.
  Proof.
    intros R (A & B & D). constructor.
    - now apply stack_rel_same.
    - cbn. now rewrite app_nil_r.
    - unfold top_prng. rewrite B, D. constructor.
    - apply legal_nil.
    - apply fatal_nil.
  Qed.

  Lemma shape_trans h t1 h1 o t2 h2 : shape h None t1 h1 -> shape h1 o t2 h2 -> shape h o (t1 ++ t2) h2.
  Proof.
    intros A B. destruct (stack_rel_sids _ _ (sh_stack _ _ _ _ A)) as [S1 S2]. constructor.
    - eapply stack_rel_trans; [apply A|apply B].
    - rewrite (sh_ev _ _ _ _ B), (sh_ev _ _ _ _ A), ev_trees_app. now rewrite app_assoc.
    - eapply draws_app; [apply A|apply B].
    - intros p w r O. apply occurs_app in O as [O|O]; [exact (sh_legal _ _ _ _ A _ _ _ O)|].
      rewrite <- S1, <- S2. exact (sh_legal _ _ _ _ B _ _ _ O).
    - intros p w e O F. apply occurs_app in O as [O|O].
      + destruct (sh_fatal _ _ _ _ A _ _ _ O F) as [_ X]. discriminate.
      + exact (sh_fatal _ _ _ _ B _ _ _ O F).
  Qed.

  Lemma shape_leaf h o t h' : match t with TFrame _ _ _ | TDraw _ _ | TEvent _ => False | _ => True end ->
    stack_rel h h' -> h_ev h' = h_ev h -> h_base h' = h_base h -> top_prng h' = top_prng h ->
    shape h o [t] h'.
  Proof.
    intros N S A B D. constructor; auto.
    - rewrite A. destruct t; try contradiction; cbn; now rewrite app_nil_r.
    - rewrite B, D. apply dr_other; [|constructor]. destruct t; auto.
    - apply legal_leaf. destruct t; auto.
    - apply fatal_leaf. destruct t; auto.
  Qed.

  Lemma shape_pre h o t h' : pre h -> shape h o t h' -> pre h'.
  Proof. intros R A. eapply stack_rel_pre; [exact R|apply A]. Qed.

  (* ---------------------------------------------------------------- steps *)

  Lemma inst_op_shape h i h' r t : pre h -> inst_op h i = (h', r, t) -> shape h (fails r) t h'.
  Proof.
    intros R. unfold inst_op. destruct (inst_refused i); [intros [= <- <- <-]; apply shape_inert; auto using inert_refl|].
    unfold pre in R. destruct (h_stack h) as [|x rest] eqn:S; [contradiction|].
    assert (R' : pre h) by (unfold pre; rewrite S; exact R).
    destruct (inst_of x) as [[m d]|]; [|intros [= <- <- <-]; apply shape_inert; auto using inert_refl].
    destruct (inst_step i m d) as [[m' d'] r']. intros [= <- <- <-].
    apply shape_leaf; cbn; auto.
    - unfold stack_rel. rewrite S. cbn. split; auto using keeps_refl.
    - unfold top_prng. cbn. now rewrite S.
  Qed.

  Lemma draw_op_shape h o h' r t : pre h -> draw_op E h o = (h', r, t) -> shape h (fails r) t h'.
  Proof.
    intros R. unfold draw_op. destruct (match o with PReseed s => _ | _ => _ end);
      [intros [= <- <- <-]; apply shape_inert; auto using inert_refl|].
    unfold pre in R. destruct (h_stack h) as [|x rest] eqn:S; [contradiction|].
    set (pb := match cx_prng x with Some p => (p, h_base h) | None => sub_prng E (h_base h) end).
    destruct pb as [p base] eqn:PB.
    assert (DE : match o with PReseed s => (reseed E s, Ok SVoid) | _ => draw E o p end = drawn E o p) by reflexivity.
    rewrite DE. destruct (drawn E o p) as [p' r'] eqn:DR. intros [= <- <- <-]. constructor; cbn.
    - unfold stack_rel. rewrite S. cbn. split; auto using keeps_refl.
    - now rewrite app_nil_r.
    - unfold top_prng. cbn. rewrite S. unfold pb in PB. destruct (cx_prng x) as [p0|].
      + injection PB as -> <-. replace r' with (snd (drawn E o p)) by now rewrite DR.
        replace p' with (fst (drawn E o p)) by now rewrite DR. apply dr_old. constructor.
      + assert (p = fst (sub_prng E (h_base h))) by now rewrite PB.
        assert (base = snd (sub_prng E (h_base h))) by now rewrite PB. subst p base.
        replace r' with (snd (drawn E o (fst (sub_prng E (h_base h))))) by now rewrite DR.
        replace p' with (fst (drawn E o (fst (sub_prng E (h_base h))))) by now rewrite DR. apply dr_new. constructor.
    - now apply legal_leaf.
    - now apply fatal_leaf.
  Qed.

  Lemma event_shape h o e : pre h -> shape h o [TEvent e] (add_event h e).
  Proof.
    intros R. constructor; cbn; auto.
    - now apply stack_rel_same.
    - apply dr_other; [exact I|]. unfold top_prng. cbn. constructor.
    - now apply legal_leaf.
    - now apply fatal_leaf.
  Qed.

  Lemma fails_rmap {A B} (f : A -> B) r : fails (rmap f r) = fails r. Proof. now destruct r. Qed.

  Lemma step_shape h o h' r t : pre h -> step E c h o = (h', r, t) -> shape h (fails r) t h'.
  Proof.
    intros R. destruct o; cbn [step].
    - destruct (cur_id h); [|intros [= <- <- <-]; apply shape_inert; auto using inert_refl].
      destruct (hop_key_ok h0); [|intros [= <- <- <-]; apply shape_inert; auto using inert_refl].
      destruct (run_st c h _) as [h1 r1] eqn:RS. intros [= <- <- <-]. apply shape_inert; eauto using run_st_inert.
    - destruct (classic_op op); [|intros [= <- <- <-]; apply shape_inert; auto using inert_refl].
      destruct (run_st c h _) as [h1 r1] eqn:RS. intros [= <- <- <-]. apply shape_inert; eauto using run_st_inert.
    - destruct (run_st c h _) as [h1 r1] eqn:RS. intros [= <- <- <-]. apply shape_inert; eauto using run_st_inert.
    - destruct (inst_op h i) as [[h1 r1] t1] eqn:RS. intros [= <- <- <-]. rewrite fails_rmap. now apply inst_op_shape in RS.
    - intros [= <- <- <-]. now apply event_shape.
    - destruct (draw_op E h o) as [[h1 r1] t1] eqn:RS. intros [= <- <- <-]. rewrite fails_rmap. now apply draw_op_shape in RS.
    - destruct (cur_id h) as [id|]; [|intros [= <- <- <-]; apply shape_inert; auto using inert_refl].
      destruct (run_st c h _) as [h1 r1] eqn:RS. pose proof (run_st_inert _ _ _ _ RS) as I1.
      assert (S1 : forall o, shape h o [] h1) by (intros; now apply shape_inert).
      destruct r1 as [o1|e1]; [|intros [= <- <- <-]; apply S1].
      destruct o1 as [| |[[e0 l0]|]]; try (intros [= <- <- <-]; apply S1).
      destruct e0; try (intros [= <- <- <-]; apply S1).
      set (e := {| ev_id := _ |}).
      assert (S2 : forall o, shape h o [TEvent e] (add_event h1 e)).
      { intros q. apply (shape_trans h [] h1 q [TEvent e]); [apply S1|]. apply event_shape. eapply shape_pre; [exact R|apply (S1 None)]. }
      destruct (run_st c (add_event h1 e) _) as [h2 r2] eqn:RS2. pose proof (run_st_inert _ _ _ _ RS2) as I2.
      assert (R2 : pre (add_event h1 e)) by (eapply shape_pre; [exact R|apply (S2 None)]).
      assert (S3 : forall o, shape h o [TEvent e] h2).
      { intros q. apply (shape_trans h [TEvent e] (add_event h1 e) q []); [apply S2|now apply shape_inert]. }
      destruct r2 as [o2|e2]; intros [= <- <- <-]; [|apply S3].
      apply (shape_trans h [TEvent e] h2 None [TUpdate ex]); [apply S3|].
      apply shape_leaf; auto. apply stack_rel_same; auto. eapply shape_pre; [exact R|apply (S3 None)].
    - destruct (check_upload E wasm) as [[hash code]|e]; [|intros [= <- <- <-]; apply shape_inert; auto using inert_refl].
      destruct (run_st c h _) as [h1 r1] eqn:RS. intros [= <- <- <-]. apply shape_inert; eauto using run_st_inert.
  Qed.

  (* ---------------------------------------------------------------- frames *)

  Lemma reload_keep id l : forall s s' l' r, reload c s id l = (s', l', r) -> Forall2 (keep (Some id)) l l'.
  Proof.
    induction l as [|x l IH]; cbn [reload]; intros s s' l' r.
    - intros [= <- <- <-]. constructor.
    - destruct (reload c s id l) as [[s1 l1] r1] eqn:RL. specialize (IH _ _ _ _ RL).
      destruct r1 as [u|e]; [|intros [= <- <- <-]; constructor; auto using keep_refl].
      destruct (frame_id (cx_frame x)) as [i|] eqn:FI; [|intros [= <- <- <-]; constructor; auto using keep_refl].
      destruct (zlist_eq_dec i id) as [->|N]; [|intros [= <- <- <-]; constructor; auto using keep_refl].
      destruct (srun c s1 _) as [[s2 r2] t2]. destruct r2 as [o|e]; [|intros [= <- <- <-]; constructor; auto using keep_refl].
      destruct o as [| |[[e0 l0]|]]; try (intros [= <- <- <-]; constructor; auto using keep_refl).
      destruct e0; try (intros [= <- <- <-]; constructor; auto using keep_refl).
      destruct v; intros [= <- <- <-]; constructor; auto using keep_refl.
      split; [reflexivity|]. split; [reflexivity|]. rewrite FI. intros [X|X]; [discriminate|congruence].
  Qed.

  Definition restack (h h' : host) : Prop :=
    h_ev h' = h_ev h /\ h_base h' = h_base h /\ stack_rel h h' /\ top_prng h' = top_prng h.

  Lemma reload_below_restack h h' r : pre h -> reload_below c h = (h', r) -> restack h h'.
  Proof.
    intros R. assert (X : restack h h) by (repeat split; auto; now apply stack_rel_same).
    unfold reload_below, pre in *. destruct (h_stack h) as [|x l] eqn:S; [contradiction|].
    destruct (frame_id (cx_frame x)) as [id|] eqn:F; [|intros [= <- <-]; exact X].
    destruct (reload c (h_store h) id l) as [[s l'] r'] eqn:RL. intros [= <- <-]. repeat split.
    - unfold stack_rel. rewrite S. cbn. rewrite F. split; auto. eapply reload_keep; eauto.
    - unfold top_prng. cbn. now rewrite S.
  Qed.

  Lemma inert_restack h h' : pre h -> inert h h' -> restack h h'.
  Proof. intros R (A & B & D). split; auto. split; auto. split; [now apply stack_rel_same|]. unfold top_prng. now rewrite D. Qed.
  Lemma restack_trans a b d : restack a b -> restack b d -> restack a d.
  Proof.
    intros (A1 & A2 & A3 & A4) (B1 & B2 & B3 & B4). split; [congruence|]. split; [congruence|].
    split; [eapply stack_rel_trans; eauto|congruence].
  Qed.

  Lemma flush_restack h r h' r' : pre h -> flush c h r = (h', r') -> restack h h' /\ (forall e, r = Err e -> r' = Err e).
  Proof.
    intros R. unfold flush. destruct r as [v|e].
    - destruct (persist c h) as [h1 rp] eqn:PE. pose proof (persist_inert _ _ _ PE) as I1.
      pose proof (inert_restack _ _ R I1) as RS. assert (R1 : pre h1) by (eapply stack_rel_pre; [exact R|apply RS]).
      destruct rp as [[]|e]; [|intros [= <- <-]; split; [exact RS|discriminate]..].
      destruct (reload_below c h1) as [h2 rr] eqn:RB. pose proof (reload_below_restack _ _ _ R1 RB) as RS2.
      destruct rr; intros [= <- <-]; (split; [eapply restack_trans; eauto|discriminate]).
    - intros [= <- <-]. split; [apply inert_restack; auto using inert_refl|auto].
  Qed.

  Lemma fail_from_app l l' : fail_from (length l) (l ++ l') = l ++ map (fun p => (fst p, true)) l'.
  Proof.
    unfold fail_from. rewrite firstn_app, Nat.sub_diag, firstn_all, firstn_O, app_nil_r.
    rewrite skipn_app, Nat.sub_diag, skipn_all. reflexivity.
  Qed.

  Lemma ev_tree_lost t : forall b, ev_tree true t = map (fun p => (fst p, true)) (ev_tree b t).
  Proof.
    revert t. fix IH 1. intros t b. destruct t; cbn; auto.
    induction l as [|t l IHl]; cbn; auto. rewrite map_app. f_equal; [apply IH|exact IHl].
  Qed.
  Lemma ev_trees_lost l : flat_map (ev_tree true) l = map (fun p => (fst p, true)) (ev_trees l).
  Proof. unfold ev_trees. induction l as [|t l IH]; cbn; auto. rewrite map_app, <- IH. f_equal. apply ev_tree_lost. Qed.

  (* what a frame did: pushed for contract [id] (None: the host frame) *)
  Record framed (w : who) (id : option (list Z)) (h : host) (r : res scval) (l : list tree) (h' : host) : Prop := {
    fr_stack : Forall2 (keep id) (h_stack h) (h_stack h');
    fr_ev : h_ev h' = h_ev h ++ ev_trees [TFrame w r l];
    fr_draws : exists q, draws E (h_base h, None) l (h_base h', q);
    fr_depth : (length (h_stack h) < depth_limit)%nat;
    fr_legal : forall p w' r', occurs l p (w', r') ->
      (length p + S (length (h_stack h)) < depth_limit)%nat
      /\ legal (ids (map fst p) ++ (match id with Some i => [i] | None => [] end) ++ sids (h_stack h)) w';
    fr_fatal : fatal_in (fails r) l
  }.

  Lemma frame_exit_err r e : r = Err e -> frame_exit r = Err e.
  Proof. intros ->. reflexivity. Qed.

  Lemma with_frame_shape w f body h h' r t : (frame_id f = None -> h_stack h = []) ->
    (forall h1 r1 t1, body (set_stack h ({| cx_frame := f; cx_prng := None; cx_inst := None |} :: h_stack h)) = (h1, r1, t1) ->
       shape (set_stack h ({| cx_frame := f; cx_prng := None; cx_inst := None |} :: h_stack h)) (fails r1) t1 h1) ->
    with_frame c w f body h = (h', r, t) ->
    (t = [] /\ h' = h /\ r = Err e_depth /\ (depth_limit <= length (h_stack h))%nat)
    \/ (exists l, t = [TFrame w r l] /\ framed w (frame_id f) h r l h').
  Proof.
    intros HF B. unfold with_frame. destruct (Nat.leb_spec depth_limit (length (h_stack h))) as [L|L];
      [intros [= <- <- <-]; left; auto|].
    set (x := {| cx_frame := f; cx_prng := None; cx_inst := None |}) in *.
    set (h0 := set_stack h (x :: h_stack h)) in *.
    destruct (body h0) as [[h1 r1] t1] eqn:BD. specialize (B _ _ _ eq_refl).
    assert (R0 : pre h0).
    { unfold pre, h0. cbn. destruct (frame_id f) eqn:F; [left; congruence|right; auto]. }
    pose proof (shape_pre _ _ _ _ R0 B) as R1.
    destruct (flush c h1 (frame_exit r1)) as [h2 r2] eqn:FL. destruct (flush_restack _ _ _ _ R1 FL) as [RS FE].
    destruct RS as (E2 & B2 & S2 & P2).
    assert (ST : stack_rel h0 h2) by (eapply stack_rel_trans; [apply B|exact S2]).
    intros X. right. exists t1.
    assert (T : t = [TFrame w r2 t1] /\ r = r2) by (destruct r2; injection X as _ <- <-; auto).
    destruct T as [-> ->]. split; [reflexivity|].
    assert (HS : h_stack h' = tl (h_stack h2)) by (destruct r2; injection X as <-; reflexivity).
    assert (HB : h_base h' = h_base h2) by (destruct r2; injection X as <-; reflexivity).
    assert (K : Forall2 (keep (frame_id f)) (h_stack h) (h_stack h')).
    { rewrite HS. unfold stack_rel, h0 in ST. cbn in ST. destruct (h_stack h2); [contradiction|]. apply ST. }
    constructor; auto.
    - assert (EV : h_ev h2 = h_ev h ++ ev_trees t1) by (rewrite E2, (sh_ev _ _ _ _ B); reflexivity).
      assert (HE : h_ev h' = match r2 with Ok _ => h_ev h2 | Err _ => fail_from (length (h_ev h)) (h_ev h2) end)
        by (destruct r2; injection X as <-; reflexivity).
      rewrite HE, EV. unfold ev_trees at 2. cbn. rewrite app_nil_r.
      destruct r2; [reflexivity|]. rewrite fail_from_app. cbn. now rewrite ev_trees_lost.
    - exists (top_prng h1). rewrite HB, B2. exact (sh_draws _ _ _ _ B).
    - intros p w' r' O. destruct (sh_legal _ _ _ _ B _ _ _ O) as [A1 A2]. cbn in A1, A2. split; [exact A1|].
      destruct (frame_id f) as [i|]; exact A2.
    - intros p w' e O F. destruct (sh_fatal _ _ _ _ B _ _ _ O F) as [A1 A2]. split; [exact A1|].
      destruct r1 as [v|e1]; [discriminate|]. injection A2 as ->. rewrite (FE e) by reflexivity. reflexivity.
  Qed.

  (* ---------------------------------------------------------------- calls *)

  Lemma fatal_recoverable e : fatal e <-> recoverable e = false.
  Proof.
    split; [intros []; try reflexivity; now destruct t|].
    destruct e as [|t k]; [discriminate|]. destruct k; cbn; try discriminate; try (intros; constructor).
    destruct t; cbn; try discriminate; constructor.
  Qed.

  Definition exec_ok (ex : host -> gprog -> host * res scval * list tree) : Prop :=
    forall h p h' r t, pre h -> ex h p = (h', r, t) -> shape h (fails r) t h'.

  Definition kind_fn (kd : kind) (fn : list Z) : Prop :=
    match kd with KAuth => fn = s_check_auth | KCtor => fn = s_constructor | _ => True end.

  Lemma call_contract_shape ex kd id fn args noop h h' r t : exec_ok ex ->
    call_contract E c ex kd id fn args noop h = (h', r, t) ->
    (t = [] /\ inert h h') \/ exists l, t = [TFrame (Some (kd, id, fn, args)) r l]
      /\ framed (Some (kd, id, fn, args)) (Some id) h r l h'.
  Proof.
    intros X. unfold call_contract. destruct (run_st c h (load_contract id)) as [h1 r1] eqn:RS.
    pose proof (run_st_inert _ _ _ _ RS) as I1. destruct r1 as [o|e]; [|intros [= <- <- <-]; auto].
    destruct o as [| |[[e0 l0]|]]; try (intros [= <- <- <-]; auto; fail).
    destruct e0; try (intros [= <- <- <-]; auto; fail). destruct v; try (intros [= <- <- <-]; auto; fail).
    set (body := fun h2 => match e with ExWasm hash => _ | _ => _ end). intros W.
    apply with_frame_shape in W; [|cbn; discriminate|].
    - destruct I1 as (A & B & D). destruct W as [(-> & -> & -> & _)|(l & -> & F)]; [left; repeat split; auto|right].
      exists l. split; auto. destruct F. constructor; rewrite <- ?D, <- ?A, <- ?B; auto.
    - intros h2 r2 t2 BD. assert (R : pre (set_stack h1 ({| cx_frame := FContract id fn (imap_of storage); cx_prng := None; cx_inst := None |} :: h_stack h1)))
        by (unfold pre; cbn; left; discriminate).
      unfold body in BD. destruct e.
      + destruct (wasm E hash fn args) as [g|]; [now apply X in BD|].
        destruct noop; injection BD as <- <- <-; apply shape_inert; auto using inert_refl.
      + now apply X in BD.
      + now apply X in BD.
  Qed.

  Lemma call_n_shape ex kd id fn args h h' r t : exec_ok ex -> kind_fn kd fn ->
    call_n E c ex kd id fn args h = (h', r, t) ->
    (t = [] /\ inert h h') \/ exists l, t = [TFrame (Some (kd, id, fn, args)) r l]
      /\ framed (Some (kd, id, fn, args)) (Some id) h r l h'
      /\ legal (sids (h_stack h)) (Some (kd, id, fn, args)).
  Proof.
    intros X KF. unfold call_n. destruct (negb (internal kd) && starts_with s_prefix fn) eqn:RV;
      [intros [= <- <- <-]; left; auto using inert_refl|].
    assert (L1 : starts_with s_prefix fn = true -> (kd = KAuth /\ fn = s_check_auth) \/ (kd = KCtor /\ fn = s_constructor)).
    { intros S. rewrite S, andb_true_r in RV. destruct kd; try discriminate; cbn in KF; auto. }
    destruct (reentry (h_stack h) id) as [[|n]|] eqn:RE.
    - destruct (self_allowed kd) eqn:SA; [|intros [= <- <- <-]; left; auto using inert_refl].
      assert (KD : kd = KAuth) by (destruct kd; try discriminate; auto).
      destruct (persist c h) as [h1 rp] eqn:PE. pose proof (persist_inert _ _ _ PE) as I1.
      destruct rp as [b|e]; [|intros [= <- <- <-]; auto]. intros CC.
      destruct (call_contract_shape _ _ _ _ _ _ _ _ _ _ X CC) as [[-> I2]|(l & -> & F)].
      + left. split; auto. eapply inert_trans; eauto.
      + right. exists l. split; auto. destruct I1 as (A & B & D). split.
        * destruct F. constructor; rewrite <- ?D, <- ?A, <- ?B; auto.
        * cbn. split; [exact L1|]. intros _. split; auto. destruct (reentry_zero _ _ RE) as [rest ->]. eauto.
    - intros [= <- <- <-]. left. auto using inert_refl.
    - intros CC. destruct (call_contract_shape _ _ _ _ _ _ _ _ _ _ X CC) as [[-> I2]|(l & -> & F)]; [auto|].
      right. exists l. split; auto. split; auto. cbn. split; [exact L1|]. intros I. destruct (reentry_none _ _ RE I).
  Qed.

  Lemma answer_fatal kd r e : fatal e -> r = Err e -> answer kd r = Err e.
  Proof.
    intros F ->. pose proof (proj1 (fatal_recoverable e) F) as N. destruct kd; cbn; rewrite ?N; reflexivity.
  Qed.

  Lemma framed_shape kd id fn args h r l h' o : pre h -> framed (Some (kd, id, fn, args)) (Some id) h r l h' ->
    legal (sids (h_stack h)) (Some (kd, id, fn, args)) ->
    (forall e, fatal e -> r = Err e -> o = Some e) ->
    shape h o [TFrame (Some (kd, id, fn, args)) r l] h'.
  Proof.
    intros R F L O. destruct F as [F1 F2 [q F3] F4 F5 F6].
    assert (SR : stack_rel h h' /\ top_prng h' = top_prng h).
    { assert (D : In id (sids (h_stack h)) \/ ~ In id (sids (h_stack h))) by (destruct (in_dec zlist_eq_dec id (sids (h_stack h))); auto).
      destruct D as [D|D].
      - destruct L as [_ L]. destruct (L D) as (-> & rest & S). unfold pre, stack_rel, top_prng in *.
        destruct (h_stack h) as [|x tl]; [contradiction|].
        destruct (h_stack h') as [|x' tl']; inversion F1 as [|? ? ? ? K1 K2]; subst. destruct K1 as (A1 & A2 & _).
        split; auto. split; auto. cbn in S. destruct (frame_id (cx_frame x)) as [i|] eqn:FI.
        + injection S as -> _. assumption.
        + destruct R as [R|R]; [congruence|]. subst tl. inversion K2; subst. constructor.
      - pose proof (keeps_absent _ _ _ F1 D) as EQ. split; [now apply stack_rel_same|]. unfold top_prng. now rewrite EQ. }
    destruct SR as [SR TP]. constructor; auto.
    - rewrite TP. eapply dr_call; [exact F3|constructor].
    - intros p w r' OC. apply occurs_one in OC as [(-> & [= -> ->])|(p' & -> & OC)].
      + cbn. split; [exact F4|exact L].
      + destruct (F5 _ _ _ OC) as [A1 A2].
        rewrite app_length. split; [rewrite <- Nat.add_assoc; exact A1|].
        rewrite map_app, ids_app, <- app_assoc. exact A2.
    - intros p w e OC FE. apply occurs_one in OC as [(-> & [= -> <-])|(p' & -> & OC)].
      + split; [intros q0 []|auto].
      + destruct (F6 _ _ _ OC FE) as [A1 A2].
        destruct r as [v|e']; [discriminate|]. injection A2 as ->. split; [|auto].
        intros q0 I. apply in_app_or in I as [I|[<-|[]]]; auto.
  Qed.

  Lemma call_shape ex kd id fn args h h' r t : exec_ok ex -> pre h -> kind_fn kd fn ->
    call E c ex kd id fn args h = (h', r, t) -> shape h (fails r) t h'.
  Proof.
    intros X R KF. unfold call. destruct (call_n E c ex kd id fn args h) as [[h1 r1] t1] eqn:CN. intros [= <- <- <-].
    destruct (call_n_shape _ _ _ _ _ _ _ _ _ X KF CN) as [[-> I1]|(l & -> & F & L)]; [now apply shape_inert|].
    apply framed_shape; auto. intros e FE ->. now rewrite (answer_fatal kd (Err e) e).
  Qed.

  Lemma create_shape ex pr exe args h h' r t : exec_ok ex -> pre h ->
    create E c ex pr exe args h = (h', r, t) -> shape h (fails r) t h'.
  Proof.
    intros X R. unfold create. destruct (negb (pairing_ok pr exe)); [intros [= <- <- <-]; apply shape_inert; auto using inert_refl|].
    destruct (run_st c h _) as [h1 r1] eqn:RS. pose proof (run_st_inert _ _ _ _ RS) as I1.
    destruct r1 as [o|e]; [|intros [= <- <- <-]; now apply shape_inert].
    assert (S1 : forall o, shape h o [TCreated (cid E pr) exe] h1).
    { destruct I1 as (A & B & D). intros q. apply shape_leaf; auto; [now apply stack_rel_same|]. unfold top_prng. now rewrite D. }
    assert (R1 : pre h1) by (eapply shape_pre; [exact R|apply (S1 None)]).
    destruct pr as [d salt|asset].
    - destruct (contract_proto E c h1 _) as [h2 rp] eqn:CP. pose proof (proto_inert _ _ _ _ CP) as I2.
      assert (S2 : forall o, shape h o [TCreated (cid E (PreAddress d salt)) exe] h2).
      { intros q. eapply (shape_trans h [_] h1 q []); [apply S1|now apply shape_inert]. }
      destruct rp as [pv|e]; [|intros [= <- <- <-]; apply S2].
      destruct (pv <? 22); [destruct args; intros [= <- <- <-]; apply S2|].
      destruct (call E c ex KCtor _ _ _ h2) as [[h3 r3] t3] eqn:CL. intros [= <- <- <-].
      apply call_shape in CL; auto; [|eapply shape_pre; [exact R|apply (S2 None)]|reflexivity].
      eapply (shape_trans h [_] h2 _ t3); [apply S2|]. destruct r3; exact CL.
    - destruct (call E c ex KInit _ _ _ h1) as [[h3 r3] t3] eqn:CL. intros [= <- <- <-].
      apply call_shape in CL; auto; [|exact I].
      eapply (shape_trans h [_] h1 _ t3); [apply S1|]. destruct r3; exact CL.
  Qed.

  Lemma exec_shape n : exec_ok (exec E c n).
  Proof.
    induction n as [n IH] using lt_wf_ind.
    assert (X : exec_ok (match n with O => fun h _ => (h, Err e_fuel, []) | S m => exec E c m end)).
    { destruct n; [|apply IH; lia]. intros h p h' r t R [= <- <- <-]. apply shape_inert; auto using inert_refl. }
    assert (BI : forall h x k h' r t, pre h ->
      (forall h1 r1 t1, x = (h1, r1, t1) -> shape h (fails r1) t1 h1) ->
      (forall v h1 h2 r2 t2, pre h1 -> k v h1 = (h2, r2, t2) -> shape h1 (fails r2) t2 h2) ->
      bind x k = (h', r, t) -> shape h (fails r) t h').
    { intros h [[h1 r1] t1] k h' r t R A K. cbn. specialize (A _ _ _ eq_refl).
      destruct r1 as [v|e]; [|intros [= <- <- <-]; exact A].
      destruct (k v h1) as [[h2 r2] t2] eqn:KV. intros [= <- <- <-].
      eapply shape_trans; [exact A|]. apply (K v h1); auto. eapply shape_pre; [exact R|exact A]. }
    intros h p. revert h. induction p as [v|e|e|o k IHk|id fn args k IHk|id fn args k IHk|id args k IHk|pr exe args k IHk];
      intros h h' r t R.
    - destruct n; intros [= <- <- <-]; apply shape_inert; auto using inert_refl.
    - destruct n; intros [= <- <- <-]; apply shape_inert; auto using inert_refl.
    - destruct n; intros [= <- <- <-]; apply shape_inert; auto using inert_refl.
    - intros Q. assert (Q' : (let '(h1, r1, t1) := step E c h o in
          match r1 with Err e => (h1, Err e, t1) | Ok v => let '(h2, r2, t2) := exec E c n h1 (k v) in (h2, r2, t1 ++ t2) end)
          = (h', r, t)) by (destruct n; exact Q). clear Q.
      destruct (step E c h o) as [[h1 r1] t1] eqn:ST. apply step_shape in ST; auto.
      destruct r1 as [v|e]; [|injection Q' as <- <- <-; exact ST].
      destruct (exec E c n h1 (k v)) as [[h2 r2] t2] eqn:EX. injection Q' as <- <- <-.
      eapply shape_trans; [exact ST|]. apply (IHk v h1); auto. eapply shape_pre; eauto.
    - intros Q. eapply (BI h (call E c (match n with O => fun h _ => (h, Err e_fuel, []) | S m => exec E c m end) KCall id fn args h)
        (fun v h1 => exec E c n h1 (k v))); [exact R| | |destruct n; exact Q].
      + intros h1 r1 t1 CL. eapply call_shape; eauto. exact I.
      + intros v h1 h2 r2 t2 R1 K. eapply IHk; eauto.
    - intros Q. eapply (BI h (call E c (match n with O => fun h _ => (h, Err e_fuel, []) | S m => exec E c m end) KTry id fn args h)
        (fun v h1 => exec E c n h1 (k v))); [exact R| | |destruct n; exact Q].
      + intros h1 r1 t1 CL. eapply call_shape; eauto. exact I.
      + intros v h1 h2 r2 t2 R1 K. eapply IHk; eauto.
    - intros Q. eapply (BI h (call E c (match n with O => fun h _ => (h, Err e_fuel, []) | S m => exec E c m end) KAuth id s_check_auth args h)
        (fun v h1 => exec E c n h1 k)); [exact R| | |destruct n; exact Q].
      + intros h1 r1 t1 CL. eapply call_shape; eauto. reflexivity.
      + intros v h1 h2 r2 t2 R1 K. eapply IHk; eauto.
    - intros Q. eapply (BI h (create E c (match n with O => fun h _ => (h, Err e_fuel, []) | S m => exec E c m end) pr exe args h)
        (fun v h1 => exec E c n h1 (k v))); [exact R| | |destruct n; exact Q].
      + intros h1 r1 t1 CL. eapply create_shape; eauto.
      + intros v h1 h2 r2 t2 R1 K. eapply IHk; eauto.
  Qed.

  Theorem invoke_shape h f h' r t : h_stack h = [] -> invoke E c h f = (h', r, t) ->
    exists l, t = [TFrame None r l] /\ framed None None h r l h'.
  Proof.
    intros S. unfold invoke. intros W. apply with_frame_shape in W; [|intros _; exact S|].
    - destruct W as [(_ & _ & _ & W)|W]; [|exact W]. exfalso. rewrite S in W. cbn in W. unfold depth_limit in W. lia.
    - intros h1 r1 t1. assert (R : pre (set_stack h ({| cx_frame := FHost; cx_prng := None; cx_inst := None |} :: h_stack h)))
        by (unfold pre; cbn; now right).
      destruct f.
      + intros CL. eapply call_shape; eauto using exec_shape. exact I.
      + intros CL. eapply create_shape; eauto using exec_shape.
      + destruct (step E c _ (OUpload wasm)) as [[h2 r2] t2] eqn:ST. intros [= <- <- <-].
        apply step_shape in ST; auto. destruct r2 as [[v|o]|e]; cbn; try exact ST.
        destruct ST as [A1 A2 A3 A4 A5]; constructor; auto.
        intros p w e O F. destruct (A5 p w e O F) as [_ X]. discriminate.
  Qed.
End Shape.
