(* The order of value trees is a total order; induction over trees. *)
From Coq Require Import ZArith Lia List Bool Sorted.
From Verif Require Import Prelude ValModel ValSpec ValProofs ContainerModel ContainerSpec HeapModel HeapSpec.
Import ListNotations.
Open Scope Z_scope.

Section TvalInd.
  Variable P : tval -> Prop.
  Hypothesis leaf : forall t, (forall l, t <> TVec l) -> (forall m, t <> TMap m) -> P t.
  Hypothesis vec : forall l, Forall P l -> P (TVec l).
  Hypothesis mp : forall m, Forall (fun p => P (fst p) /\ P (snd p)) m -> P (TMap m).
  Fixpoint tval_ind' (t : tval) : P t.
  Proof.
    destruct t; try (apply leaf; intros; discriminate).
    - apply vec. induction l as [|x l IH]; constructor; [apply tval_ind'|exact IH].
    - apply mp. induction m as [|[a b] m IH]; constructor; [split; apply tval_ind'|exact IH].
  Defined.
End TvalInd.

Section ScvalInd.
  Variable P : scval -> Prop.
  Hypothesis leaf : forall s, (forall l, s <> SVec (Some l)) -> (forall m, s <> SMap (Some m)) ->
     (forall e m, s <> SContractInstance e (Some m)) -> P s.
  Hypothesis vec : forall l, Forall P l -> P (SVec (Some l)).
  Hypothesis mp : forall m, Forall (fun p => P (fst p) /\ P (snd p)) m -> P (SMap (Some m)).
  Hypothesis inst : forall e m, Forall (fun p => P (fst p) /\ P (snd p)) m -> P (SContractInstance e (Some m)).
  Fixpoint scval_ind' (s : scval) : P s.
  Proof.
    destruct s; try (apply leaf; intros; discriminate).
    - destruct l as [l|]; [|apply leaf; intros; discriminate].
      apply vec. induction l as [|x l IH]; constructor; [apply scval_ind'|exact IH].
    - destruct m as [m|]; [|apply leaf; intros; discriminate].
      apply mp. induction m as [|[a b] m IH]; constructor; [split; apply scval_ind'|exact IH].
    - destruct storage as [m|]; [|apply leaf; intros; discriminate].
      apply inst. induction m as [|[a b] m IH]; constructor; [split; apply scval_ind'|exact IH].
  Defined.
End ScvalInd.

Lemma allP_Forall {A} (P : A -> Prop) l : allP P l <-> Forall P l.
Proof.
  induction l as [|x l IH]; simpl; [split; auto|].
  split; [intros [? ?]; constructor; tauto|].
  intros F. split; [exact (Forall_inv F)|apply IH; exact (Forall_inv_tail F)].
Qed.

(* ---------------------------------------------------- orders on a subset *)

Record total_on {A} (P : A -> Prop) (f : A -> A -> comparison) : Prop := {
  ton_eq : forall a b, P a -> P b -> f a b = Eq -> a = b;
  ton_refl : forall a, P a -> f a a = Eq;
  ton_sym : forall a b, P a -> P b -> f b a = CompOpp (f a b);
  ton_trans : forall a b c, P a -> P b -> P c -> f a b = Lt -> f b c = Lt -> f a c = Lt
}.

Lemma lexc_total {A} (P : A -> Prop) f : total_on P f -> total_on (Forall P) (lexc f).
Proof.
  intros [E R S T]. split.
  - intros a. induction a as [|x a IH]; intros [|y b] Pa Pb; simpl; try discriminate; auto.
    destruct (f x y) eqn:C; try discriminate. intros H.
    rewrite (E x y) by (try exact (Forall_inv Pa); try exact (Forall_inv Pb); exact C).
    f_equal. apply IH; auto; [exact (Forall_inv_tail Pa)|exact (Forall_inv_tail Pb)].
  - induction 1; simpl; auto. rewrite R; auto.
  - intros a. induction a as [|x a IH]; intros [|y b] Pa Pb; simpl; auto.
    rewrite (S x y) by (try exact (Forall_inv Pa); exact (Forall_inv Pb)).
    destruct (f x y); simpl; auto.
    apply IH; [exact (Forall_inv_tail Pa)|exact (Forall_inv_tail Pb)].
  - intros a. induction a as [|x a IH]; intros [|y b] [|z c] Pa Pb Pc; simpl; try discriminate; auto.
    pose proof (Forall_inv Pa) as Px. pose proof (Forall_inv Pb) as Py. pose proof (Forall_inv Pc) as Pz.
    destruct (f x y) eqn:C1; try discriminate; destruct (f y z) eqn:C2; try discriminate; intros H1 H2.
    + apply E in C1; auto. subst y. rewrite C2.
      exact (IH b c (Forall_inv_tail Pa) (Forall_inv_tail Pb) (Forall_inv_tail Pc) H1 H2).
    + apply E in C1; auto. subst y. now rewrite C2.
    + apply E in C2; auto. subst y. now rewrite C1.
    + now rewrite (T x y z).
Qed.

Lemma pairc_total {A} (P : A -> Prop) f :
  total_on P f -> total_on (fun p => P (fst p) /\ P (snd p)) (pairc f).
Proof.
  intros [E R S T]. split.
  - intros [a b] [c d] [Pa Pb] [Pc Pd]; simpl in *. destruct (f a c) eqn:C; try discriminate.
    intros H. f_equal; auto.
  - intros [a b] [Pa Pb]; simpl in *. rewrite R; auto.
  - intros [a b] [c d] [Pa Pb] [Pc Pd]; simpl in *. rewrite (S a c) by auto.
    destruct (f a c); simpl; auto.
  - intros [a b] [c d] [e g] [Pa Pb] [Pc Pd] [Pe Pg]; simpl in *.
    destruct (f a c) eqn:C1; try discriminate; destruct (f c e) eqn:C2; try discriminate; intros H1 H2.
    + apply E in C1; auto. subst c. rewrite C2. eauto.
    + apply E in C1; auto. subst c. now rewrite C2.
    + apply E in C2; auto. subst c. now rewrite C1.
    + now rewrite (T a c e).
Qed.

Lemma Zcompare_total : total_on (fun _ : Z => True) Z.compare.
Proof.
  split.
  - intros a b _ _. apply Z.compare_eq.
  - intros a _. apply Z.compare_refl.
  - intros a b _ _. apply Z.compare_antisym.
  - intros a b c _ _ _. rewrite !Z.compare_lt_iff. lia.
Qed.

Lemma lex_lexc a b : lex a b = lexc Z.compare a b.
Proof. revert b. induction a; destruct b; simpl; auto. Qed.

Lemma lex_total : total_on (fun _ : list Z => True) lex.
Proof.
  pose proof (lexc_total _ _ Zcompare_total) as [E R S T].
  assert (F : forall l : list Z, Forall (fun _ => True) l) by (induction l; constructor; auto).
  split; intros; rewrite ?lex_lexc in *; eauto.
Qed.

Lemma lex_refl a : lex a a = Eq.
Proof. apply (ton_refl _ _ lex_total); exact I. Qed.
Lemma lex_eq a b : lex a b = Eq -> a = b.
Proof. apply (ton_eq _ _ lex_total); exact I. Qed.

Lemma bytes_cmp_lex a b : bytes_cmp a b = lex a b.
Proof. reflexivity. Qed.

(* ---------------------------------------------------- trees *)

Definition is_vec (t : tval) := match t with TVec _ => true | _ => false end.
Definition is_map (t : tval) := match t with TMap _ => true | _ => false end.

Lemma ety_num_inj a b : ety_num a = ety_num b -> a = b.
Proof. destruct a, b; simpl; congruence. Qed.
Lemma ecode_num_inj a b : ecode_num a = ecode_num b -> a = b.
Proof. destruct a, b; simpl; congruence. Qed.

Lemma addr_key_inj a b : addr_key a = addr_key b -> a = b.
Proof. destruct a, b; simpl; congruence. Qed.

Lemma leaf_inj a b : trank a = trank b -> is_vec a = false -> is_map a = false ->
  tkey a = tkey b -> a = b.
Proof.
  destruct a as [x| |e|x|x|k x|x|x|x|x|x|x|x], b as [y| |e'|y|y|k' y|y|y|y|y|y|y|y];
    cbn [trank is_vec is_map tkey]; intros R V M K; try discriminate;
    try (destruct k; discriminate R); try (destruct k'; discriminate R); try congruence.
  - destruct x, y; congruence.
  - destruct e as [c|t c], e' as [c'|t' c'].
    + congruence.
    + destruct t'; discriminate.
    + destruct t; discriminate.
    + injection K as K1 K2. f_equal. f_equal; [now apply ety_num_inj|now apply ecode_num_inj].
  - injection K as ->. destruct k, k'; try discriminate R; reflexivity.
  - f_equal. now apply addr_key_inj.
Qed.

Lemma tcmp_unfold a b : tcmp a b =
  match trank a ?= trank b with
  | Eq => match a, b with
          | TVec x, TVec y => lexc tcmp x y
          | TMap x, TMap y => lexc (pairc tcmp) x y
          | _, _ => lex (tkey a) (tkey b)
          end
  | c => c
  end.
Proof. destruct a; reflexivity. Qed.

Lemma rank_vec t : trank t = 16 -> exists l, t = TVec l.
Proof. destruct t as [| | | | |[] x| | | | | | |]; simpl; try discriminate; eauto. Qed.
Lemma rank_map t : trank t = 17 -> exists l, t = TMap l.
Proof. destruct t as [| | | | |[] x| | | | | | |]; simpl; try discriminate; eauto. Qed.

Lemma tcmp_leaf a b : trank a = trank b -> is_vec a = false -> is_map a = false ->
  tcmp a b = lex (tkey a) (tkey b).
Proof.
  intros R V M. rewrite tcmp_unfold, R, Z.compare_refl. destruct a; try discriminate; reflexivity.
Qed.

Definition dle (n : nat) (t : tval) : Prop := (tdepth t <= n)%nat.

Lemma lmax_le l n : (lmax l <= n)%nat <-> Forall (fun x => (x <= n)%nat) l.
Proof.
  induction l as [|x l IH]; simpl; [split; [constructor|lia]|].
  split.
  - intros H. constructor; [lia|apply IH; lia].
  - intros F. pose proof (Forall_inv F). apply Forall_inv_tail in F. apply IH in F. simpl in *. lia.
Qed.

Lemma dle_vec n l : dle (S n) (TVec l) <-> Forall (dle n) l.
Proof.
  unfold dle. cbn [tdepth]. rewrite <- Nat.succ_le_mono, lmax_le.
  rewrite Forall_map. reflexivity.
Qed.
Lemma dle_map n m : dle (S n) (TMap m) <-> Forall (fun p => dle n (fst p) /\ dle n (snd p)) m.
Proof.
  unfold dle. cbn [tdepth]. rewrite <- Nat.succ_le_mono, lmax_le.
  rewrite Forall_map. split; intros F; eapply Forall_impl; try exact F; simpl; intros; lia.
Qed.
Lemma tdepth_pos t : (1 <= tdepth t)%nat.
Proof. destruct t; simpl; lia. Qed.

Lemma leaf_or a : (is_vec a = false /\ is_map a = false) \/ (exists l, a = TVec l) \/ (exists m, a = TMap m).
Proof. destruct a; simpl; eauto. Qed.

Lemma same_rank_leaf a b : trank a = trank b -> is_vec a = false -> is_map a = false ->
  is_vec b = false /\ is_map b = false.
Proof.
  destruct (leaf_or b) as [H|[[l ->]|[m ->]]]; auto; simpl; intros R.
  - apply rank_vec in R as [l' ->]. discriminate.
  - apply rank_map in R as [l' ->]. discriminate.
Qed.

Lemma tcmp_total_on n : total_on (dle n) tcmp.
Proof.
  induction n as [|n IH].
  { split; intros a; unfold dle at 1; pose proof (tdepth_pos a); lia. }
  pose proof (lexc_total _ _ IH) as LV. pose proof (lexc_total _ _ (pairc_total _ _ IH)) as LM.
  split.
  - intros a b Da Db C. rewrite tcmp_unfold in C.
    destruct (trank a ?= trank b) eqn:R; try discriminate. apply Z.compare_eq in R.
    destruct (leaf_or a) as [[V M]|[[l ->]|[m ->]]].
    + destruct (same_rank_leaf a b R V M).
      apply leaf_inj; auto. apply lex_eq. destruct a; try discriminate; exact C.
    + symmetry in R. apply rank_vec in R as [l' ->].
      apply dle_vec in Da, Db. f_equal. now apply (ton_eq _ _ LV).
    + symmetry in R. apply rank_map in R as [l' ->].
      apply dle_map in Da, Db. f_equal. now apply (ton_eq _ _ LM).
  - intros a Da. rewrite tcmp_unfold, Z.compare_refl.
    destruct (leaf_or a) as [[V M]|[[l ->]|[m ->]]].
    + destruct a; try discriminate; apply lex_refl.
    + apply dle_vec in Da. now apply (ton_refl _ _ LV).
    + apply dle_map in Da. now apply (ton_refl _ _ LM).
  - intros a b Da Db. rewrite !tcmp_unfold. rewrite (Z.compare_antisym (trank a) (trank b)).
    destruct (trank a ?= trank b) eqn:R; auto. apply Z.compare_eq in R. cbn [CompOpp].
    destruct (leaf_or a) as [[V M]|[[l ->]|[m ->]]].
    + destruct (same_rank_leaf a b R V M).
      destruct a; try discriminate; destruct b; try discriminate;
        apply (ton_sym _ _ lex_total); exact I.
    + symmetry in R. apply rank_vec in R as [l' ->].
      apply dle_vec in Da, Db. now apply (ton_sym _ _ LV).
    + symmetry in R. apply rank_map in R as [l' ->].
      apply dle_map in Da, Db. now apply (ton_sym _ _ LM).
  - intros a b c Da Db Dc. rewrite !tcmp_unfold.
    destruct (trank a ?= trank b) eqn:R1; try discriminate;
    destruct (trank b ?= trank c) eqn:R2; try discriminate; intros H1 H2;
    rewrite ?Z.compare_lt_iff, ?Z.compare_eq_iff in *.
    + destruct (leaf_or a) as [[V M]|[[l ->]|[m ->]]].
      * destruct (same_rank_leaf a b R1 V M) as [Vb Mb].
        assert (H1' : lex (tkey a) (tkey b) = Lt) by (destruct a; try discriminate; exact H1).
        assert (H2' : lex (tkey b) (tkey c) = Lt) by (destruct b; try discriminate; exact H2).
        rewrite R1, R2, Z.compare_refl.
        replace (match a with TVec x => _ | TMap x => _ | _ => _ end) with (lex (tkey a) (tkey c))
          by (destruct a; try discriminate; reflexivity).
        exact (ton_trans _ _ lex_total _ (tkey b) _ I I I H1' H2').
      * symmetry in R1. apply rank_vec in R1 as [lb ->]. symmetry in R2. apply rank_vec in R2 as [lc ->].
        cbn. apply dle_vec in Da, Db, Dc. exact (ton_trans _ _ LV _ _ _ Da Db Dc H1 H2).
      * symmetry in R1. apply rank_map in R1 as [lb ->]. symmetry in R2. apply rank_map in R2 as [lc ->].
        cbn. apply dle_map in Da, Db, Dc. exact (ton_trans _ _ LM _ _ _ Da Db Dc H1 H2).
    + rewrite R1. apply Z.compare_lt_iff in R2. now rewrite R2.
    + rewrite <- R2. apply Z.compare_lt_iff in R1. now rewrite R1.
    + assert (R : trank a < trank c) by lia. apply Z.compare_lt_iff in R. now rewrite R.
Qed.

Lemma tcmp_total : total_order tcmp.
Proof.
  assert (L : forall a b, dle (Nat.max (tdepth a) (tdepth b)) a /\ dle (Nat.max (tdepth a) (tdepth b)) b)
    by (unfold dle; lia).
  split.
  - intros a b. split; [|intros ->].
    + intros E. eapply (ton_eq _ _ (tcmp_total_on (Nat.max (tdepth a) (tdepth b)))); auto; apply L.
    + apply (ton_refl _ _ (tcmp_total_on (tdepth b))). unfold dle. lia.
  - intros a b. eapply (ton_sym _ _ (tcmp_total_on (Nat.max (tdepth a) (tdepth b)))); apply L.
  - intros a b c.
    apply (ton_trans _ _ (tcmp_total_on (Nat.max (tdepth a) (Nat.max (tdepth b) (tdepth c)))));
      unfold dle; lia.
Qed.

Lemma tcmp_refl a : tcmp a a = Eq.
Proof. now apply (to_eq _ tcmp_total). Qed.
