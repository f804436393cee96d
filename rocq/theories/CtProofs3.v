(* Proofs about CtModel: calls of built-in contracts, the contexts of account
   contracts, and authorizations by contracts. *)
From Coq Require Import ZArith Lia String List Bool Sorting.Sorted Sorting.Permutation.
From Verif Require Import Prelude ValModel ValSpec HeapModel HeapSpec TreeProofs HostFnProofs WideProofs ConvProofs FrameModel XdrModel MultisigModel DelegProofs CtModel CtSpec CtProofs CtProofs2.
Import ListNotations.
Open Scope Z_scope.
Ltac Zify.zify_post_hook ::= idtac.

Lemma to_val_iff t d v : type_ok t -> datum t d -> (to_val t d = Ok v <-> shows true t d v).
Proof.
  intros T D. destruct (to_val_shows t d T D) as (w & E & S). split.
  - intros H. rewrite E in H. injection H as <-. exact S.
  - intros H. rewrite E. f_equal. eapply shows_strictly_once; eauto.
Qed.
Lemma from_val_iff t d v : type_ok t -> sc_typed v -> (from_val t v = Ok d <-> shows false t d v).
Proof. intros T W. split; [now apply from_val_shows|now apply shows_from_val]. Qed.

Lemma datum_perm fs fs' l l' : NoDup (map fst fs) -> Permutation fs fs' -> map fst l' = map fst fs' -> Permutation l l' ->
  datum (YStruct fs) (DStruct l) -> datum (YStruct fs') (DStruct l').
Proof.
  intros N P M Q (M0 & D). cbn. split; auto. rewrite allP_forall in *. intros f I x Ix.
  apply (D f); [now rewrite P|now rewrite Q].
Qed.
Lemma shows_perm s fs fs' l l' v : Permutation fs fs' -> map fst l' = map fst fs' -> Permutation l l' ->
  shows s (YStruct fs) (DStruct l) v -> shows s (YStruct fs') (DStruct l') v.
Proof.
  intros P M Q S. inversion S as [| | | | | | | | | |fs0 l0 m ks M0 Km A P0 F| |]; subst.
  eapply sh_struct with (ks := ks); auto.
  - rewrite P0. now apply Permutation_map.
  - intros n t x w I1 I2 I3. eapply F; eauto; [now rewrite P|now rewrite Q].
Qed.

(* ----------------------------------------------------------------- dispatch *)

Lemma read_args_iff ts : Forall type_ok ts -> forall vs ds, Forall sc_typed vs -> length vs = length ts ->
  (read_args ts vs = Ok ds <-> args_show ts ds vs).
Proof.
  induction 1 as [|t ts T Ts IH]; intros [|v vs] ds W L; try discriminate; cbn [read_args].
  - split; intros H; [injection H as <-; constructor|inversion H; auto].
  - inversion W as [|? ? Wv Ws]; subst. injection L as L.
    destruct (from_val t v) as [d|] eqn:E; cbn [rbind].
    + destruct (read_args ts vs) as [l|] eqn:R; cbn [rbind].
      * split.
        -- intros H. injection H as <-. constructor; [now apply from_val_shows|now apply IH].
        -- intros H. inversion H as [|? ? ? ? ? ? H5 H6]; subst. apply (shows_from_val _ _ _ _ T) in H5.
           apply IH in H6; auto. congruence.
      * split; [discriminate|]. intros H. inversion H as [|? ? ? ? ? ? H5 H6]; subst. apply IH in H6; auto. congruence.
    + split; [discriminate|]. intros H. inversion H as [|? ? ? ? ? ? H5 H6]; subst. apply (shows_from_val _ _ _ _ T) in H5. congruence.
Qed.
Lemma args_show_length ts ds vs : args_show ts ds vs -> length vs = length ts.
Proof. induction 1; cbn; auto. Qed.

Lemma dispatch_iff fns f vs i ds : NoDup (map fst fns) -> (forall n ts, In (n, ts) fns -> Forall type_ok ts) ->
  Forall sc_typed vs ->
  (dispatch fns f vs = Ok (i, ds) <-> exists ts, nth_error fns i = Some (f, ts) /\ args_show ts ds vs).
Proof.
  intros N T W. unfold dispatch. split.
  - destruct (symbol_index_in_strs f (map fst fns)) as [j|] eqn:E; cbn [rbind]; [|discriminate].
    apply symbol_index_inv, nth_error_map_inv in E. destruct E as ([n ts] & E & Hn). cbn in Hn. subst n.
    rewrite E. destruct (Nat.eqb (length vs) (length ts)) eqn:L; [|discriminate]. apply Nat.eqb_eq in L.
    destruct (read_args ts vs) as [l|] eqn:R; cbn [rbind]; [|discriminate].
    intros H. injection H as <- <-. exists ts. split; auto.
    apply read_args_iff in R; auto. eapply T. eapply nth_error_In; eauto.
  - intros (ts & E & A). rewrite (symbol_index_ok f _ i N) by exact (map_nth_error fst _ _ E). cbn [rbind].
    rewrite E. rewrite (args_show_length _ _ _ A), Nat.eqb_refl.
    assert (R : read_args ts vs = Ok ds).
    { apply read_args_iff; auto; [eapply T; eapply nth_error_In; eauto|now apply args_show_length in A]. }
    now rewrite R.
Qed.
Lemma index_from_none s l : forall i, ~ In s l -> index_from i s l = None.
Proof.
  induction l as [|x r IH]; intros i N; cbn in *; auto. rewrite bytes_eqb_neq by intuition. apply IH. tauto.
Qed.
Lemma dispatch_unknown fns f vs : ~ In f (map fst fns) -> dispatch fns f vs = Err (ESys TValue CInvalidInput).
Proof. intros N. unfold dispatch, symbol_index_in_strs. now rewrite index_from_none. Qed.
Lemma dispatch_count fns f ts vs : NoDup (map fst fns) -> In (f, ts) fns -> length vs <> length ts ->
  dispatch fns f vs = Err (ESys TContext CUnexpectedSize).
Proof.
  intros N I L. destruct (In_nth_error _ _ I) as (i & E). unfold dispatch.
  rewrite (symbol_index_ok f _ i N) by exact (map_nth_error fst _ _ E). cbn [rbind]. rewrite E.
  rewrite (proj2 (Nat.eqb_neq _ _) L). reflexivity.
Qed.

(* ------------------------------------------------------------------ contexts *)

Section HinvInd.
  Variable P : hinv -> Prop.
  Hypothesis node : forall f u subs, (forall x, In x subs -> P x) -> P (HInv f u subs).
  Fixpoint hinv_ind_ (i : hinv) : P i.
  Proof.
    destruct i as [f u subs]. apply node. induction subs as [|y r IH]; cbn; intros x I; [tauto|].
    destruct I as [<-|I]; [apply hinv_ind_|exact (IH x I)].
  Qed.
End HinvInd.

Definition context_val (f : hfn) : res scval := let? d := context_dat f in to_val t_context d.
Fixpoint context_vals (l : list hfn) : res (list scval) :=
  match l with
  | [] => Ok []
  | f :: r => let? v := context_val f in let? vs := context_vals r in Ok (v :: vs)
  end.
Lemma context_vals_app a : forall b,
  context_vals (a ++ b) = (let? x := context_vals a in let? y := context_vals b in Ok (x ++ y)).
Proof.
  induction a as [|f a IH]; intros b; cbn [app context_vals rbind].
  - destruct (context_vals b); reflexivity.
  - destruct (context_val f) as [v|]; cbn [rbind]; auto. rewrite IH.
    destruct (context_vals a); cbn [rbind]; auto. destruct (context_vals b); reflexivity.
Qed.
Lemma push_contexts_vals i : forall out,
  push_contexts i out = (let? vs := context_vals (preorder i) in Ok (out ++ vs)).
Proof.
  induction i as [f u subs H] using hinv_ind_; intros out. cbn [push_contexts preorder context_vals].
  unfold context_val at 1. destruct (context_dat f) as [d|]; cbn [rbind]; auto.
  destruct (to_val t_context d) as [v|]; cbn [rbind]; auto.
  assert (G : forall l, incl l subs -> forall o, (fix go (l : list hinv) (out : list scval) : res (list scval) :=
     match l with
     | [] => Ok out
     | x :: r => let? out1 := push_contexts x out in go r out1
     end) l o = (let? vs := context_vals (flat_map preorder l) in Ok (o ++ vs))).
  { induction l as [|x r IH]; intros I o; cbn [flat_map].
    - cbn. now rewrite app_nil_r.
    - rewrite (H x) by (apply I; cbn; auto). rewrite context_vals_app.
      destruct (context_vals (preorder x)) as [a|]; cbn [rbind]; auto.
      rewrite IH by (intros y Hy; apply I; cbn; auto).
      destruct (context_vals (flat_map preorder r)) as [b|]; cbn [rbind]; auto. now rewrite app_assoc. }
  rewrite G by apply incl_refl. destruct (context_vals (flat_map preorder subs)); cbn [rbind]; auto.
  now rewrite <- app_assoc.
Qed.

Lemma executable_shown ex w : executable_value true ex w <-> ex <> ExStellarAsset /\ to_val t_executable (executable_dat ex) = Ok w.
Proof.
  split.
  - intros H. inversion H; subst; split; try discriminate; rewrite (H0 eq_refl); vm_compute; reflexivity.
  - intros (N & E). destruct ex; try congruence; vm_compute in E; injection E as <-.
    + apply ev_wasm. auto.
    + apply ev_ref. auto.
Qed.
Lemma context_val_spec f v : context_val f = Ok v <-> seen f v.
Proof.
  unfold context_val. split.
  - destruct f as [a n args|pre ex args]; cbn [context_dat].
    + cbn [rbind]. intros E. vm_compute in E. injection E as <-. exact (seen_call a n args).
    + destruct ex as [h| |o t]; cbn [rbind]; try discriminate;
        (destruct pre as [by_ salt|]; cbn [rbind]; [|discriminate]);
        (destruct args as [|a args]; cbn [rbind]; intros E; vm_compute in E; injection E as <-).
      * eapply (seen_create by_ salt (ExWasm h) _). now apply ev_wasm.
      * eapply (seen_ctor by_ salt (ExWasm h) _ (a :: args)); [discriminate|]. now apply ev_wasm.
      * eapply (seen_create by_ salt (ExExternalRef o t) _). now apply ev_ref.
      * eapply (seen_ctor by_ salt (ExExternalRef o t) _ (a :: args)); [discriminate|]. now apply ev_ref.
  - intros H. inversion H; subst.
    + vm_compute. reflexivity.
    + inversion H0; subst; rewrite (H1 eq_refl); vm_compute; reflexivity.
    + inversion H1; subst; rewrite (H2 eq_refl); (destruct args as [|a0 args]; [contradiction|]); vm_compute; reflexivity.
Qed.
Lemma context_val_err f : ~ authorizable f -> context_val f = Err (ESys TAuth CInvalidInput).
Proof.
  intros H. destruct f as [a n args|pre ex args]; [cbn in H; tauto|].
  unfold context_val. cbn [context_dat]. destruct ex; cbn [rbind]; auto;
    (destruct pre; cbn [rbind]; auto; exfalso; apply H; cbn; discriminate).
Qed.
Lemma authorizable_seen f : authorizable f <-> exists v, seen f v.
Proof.
  split.
  - destruct f as [a n args|[by_ salt|] ex args]; cbn; intros H.
    + eexists. constructor.
    + assert (exists w, executable_value true ex w) as (w & Hw).
      { destruct ex as [h| |o t]; [|congruence|]; eexists; [apply (ev_wasm true h [])|apply (ev_ref true o t [])]; auto. }
      destruct args as [|a args]; eexists; [apply seen_create; eauto|apply seen_ctor; eauto; discriminate].
    + contradiction.
  - intros (v & H). inversion H; subst; cbn; auto; intros ->;
      match goal with X : executable_value _ ExStellarAsset _ |- _ => inversion X end.
Qed.
Lemma context_vals_spec l vs : context_vals l = Ok vs <-> Forall2 seen l vs.
Proof.
  revert vs. induction l as [|f l IH]; intros vs; cbn [context_vals].
  - split; intros H; [injection H as <-; constructor|inversion H; auto].
  - split.
    + destruct (context_val f) as [v|] eqn:E; cbn [rbind]; [|discriminate].
      destruct (context_vals l) as [xs|] eqn:F; cbn [rbind]; [|discriminate].
      intros H. injection H as <-. constructor; [now apply context_val_spec|now apply IH].
    + intros H. inversion H as [|? v ? xs H1 H2]; subst. apply context_val_spec in H1. apply IH in H2.
      rewrite H1. cbn [rbind]. rewrite H2. reflexivity.
Qed.
Lemma context_vals_err l : (exists f, In f l /\ ~ authorizable f) -> context_vals l = Err (ESys TAuth CInvalidInput).
Proof.
  induction l as [|g l IH]; intros (f & I & N); cbn in I; [tauto|]. cbn [context_vals].
  destruct (context_val g) as [v|e] eqn:E; cbn [rbind].
  - destruct I as [<-|I].
    + rewrite (context_val_err g N) in E. discriminate.
    + rewrite IH by eauto. reflexivity.
  - assert (Ng : ~ authorizable g).
    { intros A. apply authorizable_seen in A. destruct A as (v & A). apply context_val_spec in A. congruence. }
    rewrite (context_val_err g Ng) in E. congruence.
Qed.

Lemma executable_value_inj s ex ex' w : executable_value s ex w -> executable_value s ex' w -> ex = ex'.
Proof. intros H H'. inversion H; subst; inversion H'; subst; auto; discriminate. Qed.
Lemma seen_inj f g v : seen f v -> seen g v -> same_but_deployer f g.
Proof.
  intros H H'. inversion H; subst; inversion H'; subst; try constructor;
    match goal with X : executable_value _ ?a ?w, Y : executable_value _ ?b ?w |- _ =>
      rewrite (executable_value_inj _ _ _ _ X Y); constructor end.
Qed.
