(* Proofs about CtModel: what is written and what is read. *)
From Coq Require Import ZArith Lia String List Bool Sorting.Sorted Sorting.Permutation.
From Verif Require Import Prelude ValModel ValSpec HeapModel HeapSpec TreeProofs HostFnProofs WideProofs ConvProofs FrameModel XdrModel MultisigModel DelegProofs CtModel CtSpec.
Import ListNotations.
Open Scope Z_scope.
Ltac Zify.zify_post_hook ::= idtac.

Lemma bytes_eqb_spec a b : bytes_eqb a b = true <-> a = b.
Proof.
  unfold bytes_eqb. rewrite <- (bytes_cmp_eq a b). destruct (bytes_cmp a b); split; congruence.
Qed.
Lemma bytes_eqb_refl a : bytes_eqb a a = true.
Proof. now apply bytes_eqb_spec. Qed.
Lemma bytes_eqb_neq a b : a <> b -> bytes_eqb a b = false.
Proof. intros H. destruct (bytes_eqb a b) eqn:E; auto. apply bytes_eqb_spec in E. congruence. Qed.

(* ------------------------------------------------------------------ sorting *)

Lemma insert_perm A (x : name * A) l : Permutation (insert x l) (x :: l).
Proof.
  induction l as [|y r IH]; cbn; auto.
  destruct (bytes_cmp (fst x) (fst y)); auto.
  rewrite IH. apply perm_swap.
Qed.
Lemma by_name_perm A (l : list (name * A)) : Permutation (by_name l) l.
Proof.
  induction l as [|x r IH]; cbn; auto.
  change (fold_right insert [] r) with (by_name r). rewrite insert_perm, IH. auto.
Qed.
Lemma insert_asc A (x : name * A) l : ~ In (fst x) (map fst l) -> asc (map fst l) ->
  asc (map fst (insert x l)).
Proof.
  unfold asc. induction l as [|y r IH]; intros N S; cbn in *.
  - repeat constructor.
  - inversion S as [|? ? S' F]; subst.
    rewrite bytes_cmp_lex. destruct (lex (fst x) (fst y)) eqn:E.
    + apply TreeProofs.lex_eq in E. exfalso. apply N. auto.
    + cbn. constructor; auto. constructor; auto.
      rewrite Forall_forall in *. intros z Hz. eapply lex_trans; eauto.
    + cbn. constructor; [apply IH; tauto|].
      assert (P : Permutation (map fst (insert x r)) (fst x :: map fst r))
        by (rewrite (Permutation_map fst (insert_perm _ x r)); auto).
      rewrite P. constructor; auto. now apply lex_gt.
Qed.
Lemma by_name_asc A (l : list (name * A)) : NoDup (map fst l) -> asc (map fst (by_name l)).
Proof.
  induction l as [|x r IH]; cbn; intros N; [constructor|].
  inversion N; subst. change (fold_right insert [] r) with (by_name r).
  apply insert_asc; auto. rewrite (Permutation_map fst (by_name_perm _ r)). auto.
Qed.

Lemma lex_irrefl a : lex a a <> Lt.
Proof. rewrite lex_refl. discriminate. Qed.
(* ascending lists with the same elements are equal *)
Lemma asc_unique l : forall m, asc l -> asc m -> Permutation l m -> l = m.
Proof.
  unfold asc. induction l as [|x l IH]; intros m L M P.
  - apply Permutation_nil in P. auto.
  - destruct m as [|y m]; [apply Permutation_sym, Permutation_nil in P; discriminate|].
    inversion L as [|? ? L' FL]; subst. inversion M as [|? ? M' FM]; subst.
    rewrite Forall_forall in FL, FM.
    assert (x = y).
    { assert (A : In x (y :: m)) by (rewrite <- P; cbn; auto).
      assert (B : In y (x :: l)) by (rewrite P; cbn; auto).
      cbn in A, B. destruct A as [A|A]; auto. destruct B as [B|B]; auto.
      exfalso. apply (lex_irrefl x). eapply lex_trans; [apply FL; exact B|apply FM; exact A]. }
    subst y. f_equal. apply IH; auto. eapply Permutation_cons_inv; eauto.
Qed.
Lemma asc_nodup l : asc l -> NoDup l.
Proof.
  unfold asc. induction 1 as [|x l S IH F]; constructor; auto.
  intros I. rewrite Forall_forall in F. apply (lex_irrefl x). auto.
Qed.

(* sorting does not look at what the names carry *)
Lemma insert_map A B (f : A -> B) x l :
  insert (fst x, f (snd x)) (map (fun p => (fst p, f (snd p))) l) = map (fun p => (fst p, f (snd p))) (insert x l).
Proof.
  induction l as [|y r IH]; cbn; auto. destruct (bytes_cmp (fst x) (fst y)); cbn; auto. now rewrite IH.
Qed.
Lemma by_name_map A B (f : A -> B) (l : list (name * A)) :
  by_name (map (fun p => (fst p, f (snd p))) l) = map (fun p => (fst p, f (snd p))) (by_name l).
Proof.
  induction l as [|x r IH]; cbn; auto.
  change (fold_right insert [] ?z) with (by_name z). rewrite IH. apply insert_map.
Qed.

(* ------------------------------------------------------------------- fields *)

Lemma field_in A n (l : list (name * A)) x : field n l = Some x -> In (n, x) l.
Proof.
  induction l as [|[m y] r IH]; cbn; [discriminate|].
  destruct (bytes_eqb n m) eqn:E; intros H; auto.
  apply bytes_eqb_spec in E. injection H as ->. subst; auto.
Qed.
Lemma field_of_in A n (l : list (name * A)) x : NoDup (map fst l) -> In (n, x) l -> field n l = Some x.
Proof.
  induction l as [|[m y] r IH]; cbn; intros N I; [tauto|]. inversion N; subst.
  destruct I as [I|I].
  - injection I as -> ->. now rewrite bytes_eqb_refl.
  - rewrite bytes_eqb_neq; auto. intros ->. apply H1. change m with (fst (m, x)). now apply in_map.
Qed.
Lemma field_some A n (l : list (name * A)) : In n (map fst l) -> exists x, field n l = Some x /\ In (n, x) l.
Proof.
  induction l as [|[m y] r IH]; cbn; intros I; [tauto|].
  destruct (bytes_eqb n m) eqn:E.
  - apply bytes_eqb_spec in E. subst. eauto.
  - destruct I as [I|I]; [subst; rewrite bytes_eqb_refl in E; discriminate|].
    destruct (IH I) as (x & F & G). eauto.
Qed.
Lemma nodup_fst_in A n (l : list (name * A)) x y : NoDup (map fst l) -> In (n, x) l -> In (n, y) l -> x = y.
Proof. intros N I J. apply (field_of_in _ _ _ _ N) in I. apply (field_of_in _ _ _ _ N) in J. congruence. Qed.

Lemma allP_forall A (P : A -> Prop) l : allP P l <-> (forall x, In x l -> P x).
Proof.
  induction l as [|y r IH]; cbn; split; try tauto.
  - intros [H1 H2] x [->|I]; auto. now apply IH.
  - intros H. split; auto. apply IH. auto.
Qed.

(* ------------------------------------------------- the loops, one at a time *)

Lemma all_ok_map A (r : list (name * A)) : all_ok (map (fun p => (fst p, Ok (snd p))) r) = Ok r.
Proof. induction r as [|[n x] t IH]; cbn in *; auto. now rewrite IH. Qed.
Lemma all_ok_inv A (l : list (name * res A)) r :
  all_ok l = Ok r -> l = map (fun p => (fst p, Ok (snd p))) r.
Proof.
  revert r. induction l as [|[n x] t IH]; intros r; cbn.
  - intros H. injection H as <-. auto.
  - destruct x as [x|e]; cbn [rbind]; [|discriminate].
    destruct (all_ok t) as [xs|e]; cbn [rbind]; [|discriminate].
    intros H. injection H as <-. cbn. f_equal. now apply IH.
Qed.

Lemma new_keys_ok l : Forall valid_symbol (map fst l) ->
  new_keys l = Ok (map (fun p => (SSymbol (fst p), snd p)) l).
Proof.
  induction l as [|[n v] t IH]; cbn; intros F; auto. inversion F; subst.
  unfold new_symbol. rewrite (proj2 (symbol_bytes_ok_spec n)) by assumption. cbn [rbind].
  rewrite IH by assumption. reflexivity.
Qed.
Lemma ascending_asc l : asc (map fst l) -> ascending l = true.
Proof.
  induction l as [|a r IH]; cbn [ascending]; auto. intros S. cbn in S. inversion S as [|? ? S' F]; subst.
  destruct r as [|b r]; auto. rewrite bytes_cmp_lex.
  cbn in F. inversion F as [|? ? E _]; subst. unfold name in *. rewrite E. apply IH. exact S'.
Qed.
Lemma map_new_ok l : Forall valid_symbol (map fst l) -> asc (map fst l) ->
  map_new_from_slices l = Ok (SMap (Some (map (fun p => (SSymbol (fst p), snd p)) l))).
Proof.
  intros V S. unfold map_new_from_slices. rewrite new_keys_ok by assumption. cbn [rbind].
  now rewrite ascending_asc.
Qed.

Lemma unpack_keys_spec ks : forall m vs, length m = length ks ->
  (unpack_keys ks m = Ok vs <-> m = combine (map SSymbol ks) vs /\ length vs = length ks).
Proof.
  induction ks as [|k ks IH]; intros m vs L; destruct m as [|[s v] m]; try discriminate; cbn in L.
  - cbn. split.
    + intros H. injection H as <-. auto.
    + intros (_ & H). destruct vs; [auto|discriminate].
  - cbn [unpack_keys]. injection L as L. destruct s;
      try (split; [discriminate|]; intros (H & _); destruct vs; cbn in H; discriminate).
    destruct (bytes_eqb b k) eqn:E.
    + apply bytes_eqb_spec in E. subst b.
      destruct (unpack_keys ks m) as [l|e] eqn:U; cbn [rbind].
      * apply (IH m l L) in U. destruct U as (-> & U). split.
        -- intros H. injection H as <-. cbn. split; auto.
        -- intros (H & Lv). destruct vs as [|w vs]; [discriminate|]. cbn in H, Lv. injection H as -> H. injection Lv as Lv.
           do 2 f_equal.
           clear -H U Lv. revert l vs H U Lv. induction ks as [|k ks IH]; intros [|a l] [|b vs]; cbn; intros; try discriminate; auto.
           injection H as -> H. f_equal. apply IH; congruence.
      * split; [discriminate|]. intros (H & Lv). destruct vs as [|w vs]; [discriminate|]. cbn in H, Lv. injection H as -> H.
        injection Lv as Lv. assert (X : unpack_keys ks m = Ok vs) by (apply IH; auto). congruence.
    + split; [discriminate|]. intros (H & Lv). destruct vs as [|w vs]; [discriminate|]. cbn in H. injection H as -> _ _.
      rewrite bytes_eqb_refl in E. discriminate.
Qed.
Lemma unpack_dense_spec ks m vs :
  unpack_dense ks m = Ok vs <-> m = combine (map SSymbol ks) vs /\ length vs = length ks.
Proof.
  unfold unpack_dense. destruct (Nat.eqb (length m) (length ks)) eqn:E.
  - apply Nat.eqb_eq in E. now apply unpack_keys_spec.
  - split; [discriminate|]. intros (-> & L). rewrite combine_length, map_length, L, Nat.min_id, Nat.eqb_refl in E. discriminate.
Qed.

Lemma read_fields_spec rd : forall vs xs, length vs = length rd ->
  (read_fields rd vs = Ok xs <->
   Forall2 (fun q x => fst x = fst (fst q) /\ snd (fst q) (snd q) = Ok (snd x)) (combine rd vs) xs).
Proof.
  induction rd as [|[n f] rd IH]; intros [|v vs] xs L; try discriminate; cbn.
  - split; intros H; [injection H as <-; constructor|inversion H; auto].
  - injection L as L. destruct (f v) as [x|e] eqn:E; cbn [rbind].
    + specialize (IH vs). destruct (read_fields rd vs) as [l|e] eqn:R; cbn [rbind].
      * split.
        -- intros H. injection H as <-. constructor; cbn; auto. now apply IH.
        -- intros H. inversion H as [|? [m y] ? ys [H1 H2] H3]; subst. cbn in *.
           apply IH in H3; auto. congruence.
      * split; [discriminate|]. intros H. inversion H as [|? [m y] ? ys [H1 H2] H3]; subst. apply IH in H3; auto. discriminate.
    + split; [discriminate|]. intros H. inversion H as [|? [m y] ? ys [H1 H2] H3]; subst. cbn in *. congruence.
Qed.

Lemma build_ok ns xs : (forall n, In n ns -> In n (map fst xs)) ->
  exists l, build ns xs = Ok l /\ map fst l = ns /\ (forall n x, In (n, x) l -> In (n, x) xs).
Proof.
  induction ns as [|n ns IH]; cbn; intros H.
  - exists []. cbn. intuition.
  - destruct (field_some _ n xs (H n (or_introl eq_refl))) as (x & F & I). rewrite F.
    destruct IH as (l & E & M & J); [auto|]. rewrite E. cbn. exists ((n, x) :: l). cbn. rewrite M. intuition; try congruence.
Qed.

(* ------------------------------------------------------------------ induction *)

Section TyInd.
  Variable P : ty -> Prop.
  Hypothesis leaf : forall t, (forall fs, t <> YStruct fs) -> (forall cs, t <> YEnum cs) -> P t.
  Hypothesis struct : forall fs, (forall n t, In (n, t) fs -> P t) -> P (YStruct fs).
  Hypothesis enum : forall cs, (forall n t, In (n, Some t) cs -> P t) -> P (YEnum cs).
  Fixpoint ty_rect_ (t : ty) : P t.
  Proof.
    destruct t; try (apply leaf; discriminate).
    - apply struct. induction fields as [|[m u] r IH]; cbn; intros n t I; [tauto|].
      destruct I as [I|I]; [injection I as _ <-; apply ty_rect_|exact (IH n t I)].
    - apply enum. induction cases as [|[m u] r IH]; cbn; intros n t I; [tauto|].
      destruct I as [I|I]; [|exact (IH n t I)]. destruct u as [u|]; [|discriminate].
      injection I as _ <-. apply ty_rect_.
  Qed.
End TyInd.
