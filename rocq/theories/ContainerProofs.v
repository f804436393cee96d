From Coq Require Import ZArith Lia List Bool Sorted Arith.
From Verif Require Import Prelude ContainerModel ContainerSpec.
Import ListNotations.

(* ------------------------------------------------------------ binary search *)

Section BSearch.
  Context {A : Type}.
  Variables (f : A -> res comparison) (g : A -> comparison) (l : list A).

  Hypothesis f_g : forall i x c, nth_error l i = Some x -> f x = Ok c -> c = g x.

  Lemma loop_found : forall fuel size left right t i,
    bsearch_loop f l fuel size left right = (t, Ok (Found i)) ->
    exists x, nth_error l i = Some x /\ g x = Eq.
  Proof.
    induction fuel as [|fuel IH]; cbn [bsearch_loop]; cbv zeta; intros size left right t i H; [congruence|].
    destruct (Nat.ltb left right); [|congruence].
    destruct (nth_error l (left + size / 2)) as [x|] eqn:N; [|congruence].
    destruct (f x) as [[| |]|] eqn:F; try congruence.
    - inversion H; subst. exists x. split; auto. symmetry. eauto.
    - destruct (bsearch_loop f l fuel _ _ _) as [t' r'] eqn:L. inversion H; subst. eauto.
    - destruct (bsearch_loop f l fuel _ _ _) as [t' r'] eqn:L. inversion H; subst. eauto.
  Qed.

  Hypothesis mono : monotone g l.

  Lemma loop_missing : forall fuel size left right t i,
    (left <= right <= length l)%nat -> size = (right - left)%nat ->
    (forall j x, (j < left)%nat -> nth_error l j = Some x -> g x = Lt) ->
    (forall j x, (right <= j)%nat -> nth_error l j = Some x -> g x = Gt) ->
    bsearch_loop f l fuel size left right = (t, Ok (Missing i)) ->
    search_ok g l (Missing i).
  Proof.
    induction fuel as [|fuel IH]; cbn [bsearch_loop]; cbv zeta; intros size left right t i B Sz HL HR H; [congruence|].
    destruct (Nat.ltb left right) eqn:LT.
    2:{ inversion H; subst. apply Nat.ltb_ge in LT. assert (i = right) by lia. subst right.
        split; [lia|]. split; auto. }
    apply Nat.ltb_lt in LT.
    assert (M : (left <= left + size / 2 < right)%nat).
    { subst size. assert (0 < right - left)%nat by lia.
      pose proof (Nat.div_lt (right - left) 2). lia. }
    set (mid := (left + size / 2)%nat) in *.
    destruct (nth_error l mid) as [x|] eqn:N; [|congruence].
    destruct (f x) as [[| |]|] eqn:F; try congruence.
    - destruct (bsearch_loop f l fuel _ _ _) as [t' r'] eqn:L. inversion H; subst.
      eapply IH; [| reflexivity | | | exact L]; try lia; auto.
      intros j y Hj Ny. pose proof (f_g _ _ _ N F) as G.
      pose proof (mono j mid y x ltac:(lia) Ny N) as R. rewrite <- G in R.
      destruct (g y); simpl in R; auto; lia.
    - destruct (bsearch_loop f l fuel _ _ _) as [t' r'] eqn:L. inversion H; subst.
      eapply IH; [| reflexivity | | | exact L]; try lia; auto.
      intros j y Hj Ny. pose proof (f_g _ _ _ N F) as G.
      pose proof (mono mid j x y ltac:(lia) N Ny) as R. rewrite <- G in R.
      destruct (g y); simpl in R; auto; lia.
  Qed.

  Lemma bsearch_sound r : bsearch f l = Ok r -> search_ok g l r.
  Proof.
    unfold bsearch, bsearch_trace.
    destruct (bsearch_loop _ _ _ _ _ _) as [t r'] eqn:L. simpl. intros ->.
    destruct r as [i|i].
    - simpl. eapply loop_found; eauto.
    - eapply loop_missing; [| | | | exact L]; try lia.
      intros j x Hj Nx. apply nth_error_None in Hj. congruence.
  Qed.
End BSearch.

Section BSearchTotal.
  Context {A : Type}.
  Variables (f : A -> res comparison) (l : list A).

  Lemma loop_total : forall fuel size left right,
    (left <= right <= length l)%nat -> size = (right - left)%nat -> (size < fuel)%nat ->
    match snd (bsearch_loop f l fuel size left right) with
    | Ok _ => True
    | Err e => exists i x, nth_error l i = Some x /\ f x = Err e
    end.
  Proof.
    induction fuel as [|fuel IH]; cbn [bsearch_loop]; cbv zeta; intros size left right B Sz Fu; [lia|].
    destruct (Nat.ltb left right) eqn:LT; [|exact I].
    apply Nat.ltb_lt in LT.
    assert (M : (left <= left + size / 2 < right)%nat).
    { subst size. assert (0 < right - left)%nat by lia.
      pose proof (Nat.div_lt (right - left) 2). lia. }
    set (mid := (left + size / 2)%nat) in *.
    destruct (nth_error l mid) as [x|] eqn:N.
    2:{ apply nth_error_None in N. lia. }
    destruct (f x) as [[| |]|] eqn:F; simpl; eauto.
    - specialize (IH (right - (mid + 1)) (mid + 1) right)%nat.
      destruct (bsearch_loop f l fuel _ _ _) as [t' r']. simpl in *. apply IH; lia.
    - specialize (IH (mid - left) left mid)%nat.
      destruct (bsearch_loop f l fuel _ _ _) as [t' r']. simpl in *. apply IH; lia.
  Qed.

  Lemma bsearch_total :
    match bsearch f l with
    | Ok _ => True
    | Err e => exists i x, nth_error l i = Some x /\ f x = Err e
    end.
  Proof. unfold bsearch, bsearch_trace. apply loop_total; lia. Qed.

  Lemma loop_count : forall fuel size left right,
    size = (right - left)%nat ->
    (length (fst (bsearch_loop f l fuel size left right))
     <= match size with O => 0 | _ => S (Nat.log2 size) end)%nat.
  Proof.
    induction fuel as [|fuel IH]; intros size left right Sz.
    { simpl. lia. }
    cbn [bsearch_loop]. destruct (Nat.ltb left right) eqn:LT; [|simpl; lia].
    apply Nat.ltb_lt in LT.
    assert (P : (0 < size)%nat) by lia.
    assert (Q : forall s, (s <= size / 2)%nat ->
      (match s with O => 0 | _ => S (Nat.log2 s) end <= Nat.log2 size)%nat).
    { intros s Hs. destruct s as [|s']; [lia|].
      assert (2 <= size)%nat by (destruct size as [|[|]]; simpl in Hs; lia).
      rewrite <- (Nat.log2_double (S s')) by lia.
      apply Nat.log2_le_mono.
      pose proof (Nat.mul_div_le size 2). lia. }
    assert (D : (size / 2 < size)%nat) by (apply Nat.div_lt; lia).
    assert (E : (size - size / 2 - 1 <= size / 2)%nat).
    { pose proof (Nat.div_mod size 2 ltac:(lia)). pose proof (Nat.mod_upper_bound size 2). lia. }
    cbv zeta. destruct (nth_error l _) as [x|]; [|simpl; lia].
    destruct size as [|sz]; [lia|].
    destruct (f x) as [[| |]|]; simpl fst; simpl length; try lia.
    - specialize (IH (right - (left + S sz / 2 + 1)) (left + S sz / 2 + 1) right eq_refl)%nat.
      destruct (bsearch_loop f l fuel _ _ _) as [t' r']. cbn [fst length] in *.
      apply le_n_S. etransitivity; [exact IH|]. apply Q. lia.
    - specialize (IH (left + S sz / 2 - left) left (left + S sz / 2) eq_refl)%nat.
      destruct (bsearch_loop f l fuel _ _ _) as [t' r']. cbn [fst length] in *.
      apply le_n_S. etransitivity; [exact IH|]. apply Q. lia.
  Qed.

  Lemma bsearch_count :
    (length (fst (bsearch_trace f l)) <= S (Nat.log2 (length l)))%nat.
  Proof.
    unfold bsearch_trace. etransitivity; [apply loop_count; lia|].
    destruct (length l); lia.
  Qed.
End BSearchTotal.

(* ------------------------------------------------------------ sorted maps *)

Lemma Forall_firstn' {X} (Q : X -> Prop) n m : Forall Q m -> Forall Q (firstn n m).
Proof. revert n. induction m; intros [|n] F; simpl; auto. inversion F; auto. Qed.
Lemma Forall_skipn' {X} (Q : X -> Prop) n m : Forall Q m -> Forall Q (skipn n m).
Proof. revert n. induction m; intros [|n] F; simpl; auto. inversion F; auto. Qed.

Lemma nth_split_at {X} (m : list X) i x :
  nth_error m i = Some x -> m = firstn i m ++ x :: skipn (i + 1) m.
Proof.
  revert i. induction m as [|y m IH]; intros [|i]; simpl; try congruence.
  intros H. f_equal. apply IH; auto.
Qed.

Lemma SS_app {X} (R : X -> X -> Prop) a b :
  StronglySorted R (a ++ b) <->
  StronglySorted R a /\ StronglySorted R b /\ (forall x y, In x a -> In y b -> R x y).
Proof.
  induction a as [|x a IH]; simpl.
  - split; [intros; repeat split; auto using SSorted_nil; tauto | tauto].
  - split.
    + intros H. inversion H; subst. apply IH in H2 as (A1 & A2 & A3).
      rewrite Forall_app in H3. destruct H3 as [F1 F2]. rewrite Forall_forall in F2.
      split; [constructor; auto|]. split; auto.
      intros u v [<-|]; auto.
    + intros (H1 & H2 & H3). inversion H1; subst. constructor.
      * apply IH. split; auto.
      * apply Forall_app. split; auto. apply Forall_forall. auto.
Qed.

Section OM.
  Context {K V T : Type}.
  Variable cmp : K -> K -> res comparison.
  Variable tc : T -> T -> comparison.
  Variable kd : K -> T.
  Variable P : K -> Prop.
  Hypothesis TO : total_order tc.
  Hypothesis cmp_ok : forall a b o, P a -> P b -> cmp a b = Ok o -> o = tc (kd a) (kd b).

  Notation asc := (@keys_ascending K V T tc kd).
  Notation lookup := (@assoc K V T tc kd).
  Definition keysP (m : list (K * V)) : Prop := Forall (fun p => P (fst p)) m.

  Lemma tc_refl a : tc a a = Eq.
  Proof. apply (to_eq _ TO). reflexivity. Qed.
  Lemma tc_trans3 a b c : tc a b = Lt -> tc b c = Lt -> tc a c = Lt.
  Proof. apply (to_trans _ TO). Qed.
  Lemma tc_gt_lt a b : tc a b = Gt <-> tc b a = Lt.
  Proof. rewrite (to_sym _ TO a b). destruct (tc a b); simpl; split; congruence. Qed.

  Lemma check_sorted_sound m : keysP m -> check_sorted cmp m = Ok tt -> asc m.
  Proof.
    unfold keys_ascending. intros HP H.
    apply Sorted_StronglySorted.
    { intros p q r. apply tc_trans3. }
    induction m as [|a t IH]; [constructor|].
    inversion HP; subst. destruct t as [|b t'].
    - constructor; auto.
    - simpl in H. apply rbind_ok in H as (c & Hc & H). inversion H3; subst.
      pose proof (cmp_ok _ _ _ H2 H4 Hc) as E.
      destruct c; try congruence. constructor; auto.
  Qed.

  Lemma check_sorted_complete m :
    keysP m -> (forall a b, P a -> P b -> exists o, cmp a b = Ok o) ->
    asc m -> check_sorted cmp m = Ok tt.
  Proof.
    intros HP Tot. induction m as [|a t IH]; intros S; [reflexivity|].
    inversion HP; subst. inversion S; subst. destruct t as [|b t'].
    - reflexivity.
    - cbn [check_sorted]. pose proof (Forall_inv H2) as Pb. destruct (Tot (fst a) (fst b) H1 Pb) as [o Ho].
      rewrite Ho. pose proof (cmp_ok _ _ _ H1 Pb Ho) as ->. cbn [rbind].
      rewrite (Forall_inv H4). apply IH; auto.
  Qed.

  (* a construction fails only because of length, an unsorted pair, or a failing
     comparison *)
  Lemma omap_from_sound l m : keysP l -> omap_from cmp l = Ok m -> m = l /\ asc l /\ fits_u32 (length l) = true.
  Proof.
    unfold omap_from. intros HP. destruct (fits_u32 _); [|discriminate].
    intros H. apply rbind_ok in H as ([] & H & E). inversion E; subst.
    split; auto. split; auto. apply check_sorted_sound; auto.
  Qed.

  Lemma omap_from_iff l :
    keysP l -> (forall a b, P a -> P b -> exists o, cmp a b = Ok o) ->
    (omap_from cmp l = Ok l <-> asc l /\ (Z.of_nat (length l) <= u32_max)%Z).
  Proof.
    intros HP Tot. split.
    - intros H. apply omap_from_sound in H as (_ & S & F); auto. unfold fits_u32 in F. split; auto. lia.
    - intros [S F]. unfold omap_from, fits_u32. replace (_ <=? _)%Z with true by lia.
      rewrite check_sorted_complete; auto.
  Qed.

  (* searching a sorted map *)
  Lemma asc_monotone m k : asc m -> monotone (fun p => tc (kd (fst p)) k) m.
  Proof.
    intros S i j x y Hij Hx Hy.
    destruct (Nat.eq_dec i j) as [->|NE].
    { rewrite Hx in Hy. inversion Hy; subst. lia. }
    assert (L : tc (kd (fst x)) (kd (fst y)) = Lt).
    { unfold keys_ascending in S. revert m S i j Hx Hy Hij NE.
      induction m as [|p m IH]; intros S i j Hx Hy Hij NE; [destruct i; discriminate|].
      inversion S; subst. destruct i as [|i]; simpl in Hx.
      - inversion Hx; subst. destruct j as [|j]; [lia|]. simpl in Hy.
        apply nth_error_In in Hy. rewrite Forall_forall in H2. auto.
      - destruct j as [|j]; [lia|]. simpl in Hy. eapply (IH H1 i j); eauto; lia. }
    destruct (tc (kd (fst x)) k) eqn:E1; simpl; try lia.
    - apply (to_eq _ TO) in E1. subst k. apply tc_gt_lt in L. rewrite L. simpl. lia.
    - destruct (tc (kd (fst y)) k) eqn:E2; simpl; try lia.
      + apply (to_eq _ TO) in E2. subst k. congruence.
      + rewrite (tc_trans3 _ _ _ L E2) in E1. discriminate.
  Qed.

  Lemma find_sound m k r :
    keysP m -> P k -> asc m -> omap_find cmp m k = Ok r ->
    search_ok (fun p => tc (kd (fst p)) (kd k)) m r.
  Proof.
    intros HP Hk S H. unfold omap_find in H.
    eapply bsearch_sound; [| apply asc_monotone; exact S | exact H].
    intros i x c Nx Hc. apply nth_error_In in Nx.
    unfold keysP in HP. rewrite Forall_forall in HP. eapply cmp_ok; eauto.
  Qed.

  Lemma lookup_in m k v t :
    asc m -> In (k, v) m -> kd k = t -> lookup m t = Some v.
  Proof.
    intros S I <-. induction m as [|[k' v'] m IH]; [destruct I|].
    inversion S; subst. simpl. destruct I as [E|I].
    - inversion E; subst. rewrite tc_refl. reflexivity.
    - rewrite Forall_forall in H2. specialize (H2 _ I). simpl in H2. rewrite H2. auto.
  Qed.

  Lemma lookup_Some m t v : lookup m t = Some v -> exists k, In (k, v) m /\ kd k = t.
  Proof.
    induction m as [|[k' v'] m IH]; simpl; [congruence|].
    destruct (tc (kd k') t) eqn:E.
    - intros H; inversion H; subst. exists k'. apply (to_eq _ TO) in E. auto.
    - intros H. destruct (IH H) as (k & I & ?). eauto.
    - intros H. destruct (IH H) as (k & I & ?). eauto.
  Qed.

  Lemma lookup_none m t : (forall p, In p m -> tc (kd (fst p)) t <> Eq) -> lookup m t = None.
  Proof.
    induction m as [|[k' v'] m IH]; simpl; auto. intros H.
    destruct (tc (kd k') t) eqn:E; auto.
    exfalso. exact (H _ (or_introl eq_refl) E).
  Qed.

  Lemma lookup_app a b t :
    lookup (a ++ b) t = match lookup a t with Some v => Some v | None => lookup b t end.
  Proof.
    induction a as [|[k v] a IH]; simpl; auto. destruct (tc (kd k) t); auto.
  Qed.

  Lemma find_lookup m k r :
    keysP m -> P k -> asc m -> omap_find cmp m k = Ok r ->
    match r with
    | Found i => exists k' v, nth_error m i = Some (k', v) /\ kd k' = kd k /\ lookup m (kd k) = Some v
    | Missing _ => lookup m (kd k) = None
    end.
  Proof.
    intros HP Hk S H. pose proof (find_sound _ _ _ HP Hk S H) as F. destruct r as [i|i]; simpl in F.
    - destruct F as ([k' v] & N & E). simpl in E. apply (to_eq _ TO) in E.
      exists k', v. split; auto. split; auto.
      apply nth_error_In in N. eapply lookup_in; eauto.
    - destruct F as (_ & F1 & F2). apply lookup_none. intros p I E.
      apply In_nth_error in I as (j & N).
      destruct (Nat.lt_ge_cases j i) as [L|L].
      + rewrite (F1 _ _ L N) in E. discriminate.
      + rewrite (F2 _ _ L N) in E. discriminate.
  Qed.

  Lemma get_sound m k r :
    keysP m -> P k -> asc m -> omap_get cmp m k = Ok r -> r = lookup m (kd k).
  Proof.
    unfold omap_get. intros HP Hk S H. apply rbind_ok in H as (fr & Hf & H).
    pose proof (find_lookup _ _ _ HP Hk S Hf) as F. destruct fr.
    - destruct F as (k' & v & N & _ & L). rewrite N in H. inversion H. auto.
    - inversion H. auto.
  Qed.

  Lemma contains_sound m k r :
    keysP m -> P k -> asc m -> omap_contains cmp m k = Ok r ->
    (r = true <-> exists v, lookup m (kd k) = Some v).
  Proof.
    unfold omap_contains. intros HP Hk S H. apply rbind_ok in H as (fr & Hf & H).
    pose proof (find_lookup _ _ _ HP Hk S Hf) as F. inversion H; subst. destruct fr.
    - destruct F as (k' & v & N & _ & L). split; eauto.
    - rewrite F. split; [discriminate | intros (v & ?); discriminate].
  Qed.

  Lemma tc_eq_dec_lookup t k v m :
    lookup ((k, v) :: m) t = if match tc (kd k) t with Eq => true | _ => false end
                             then Some v else lookup m t.
  Proof. simpl. destruct (tc (kd k) t); auto. Qed.

  Lemma insert_sound m k v m' :
    keysP m -> P k -> asc m -> omap_insert cmp m k v = Ok m' ->
    keysP m' /\ asc m' /\ fits_u32 (length m') = true /\
    (forall t, lookup m' t = match tc (kd k) t with Eq => Some v | _ => lookup m t end) /\
    (forall p, In p m' -> p = (k, v) \/ In p m).
  Proof.
    unfold omap_insert. intros HP Hk S H. apply rbind_ok in H as (fr & Hf & H).
    pose proof (find_sound _ _ _ HP Hk S Hf) as F.
    assert (KP : forall a b, keysP (firstn a m ++ [(k, v)] ++ skipn b m)).
    { intros a b. unfold keysP. apply Forall_app. split; [apply Forall_firstn'; auto|].
      constructor; auto. apply Forall_skipn'; auto. }
    assert (IN : forall a b p, In p (firstn a m ++ [(k, v)] ++ skipn b m) -> p = (k, v) \/ In p m).
    { intros a b p I. apply in_app_or in I as [I|I].
      - right. rewrite <- (firstn_skipn a m). apply in_or_app; auto.
      - simpl in I. destruct I as [I|I]; auto. right. rewrite <- (firstn_skipn b m). apply in_or_app; auto. }
    destruct fr as [i|i].
    - apply omap_from_sound in H as (-> & S' & Fi); auto.
      split; auto. split; auto. split; auto. split; [|eauto].
      destruct F as ([k' v'] & N & E). simpl in E. apply (to_eq _ TO) in E.
      intros t. replace (lookup m t) with (lookup (firstn i m ++ (k', v') :: skipn (i + 1) m) t)
        by (f_equal; symmetry; apply nth_split_at; auto).
      rewrite !lookup_app. cbn [assoc app].
      rewrite E. destruct (lookup (firstn i m) t) eqn:L.
      + destruct (tc (kd k) t) eqn:ET; auto. exfalso.
        apply (to_eq _ TO) in ET. subst t.
        apply lookup_Some in L as (k2 & I & E2).
        rewrite (nth_split_at _ _ _ N) in S. apply SS_app in S as (_ & _ & S3).
        specialize (S3 _ _ I (or_introl eq_refl)). simpl in S3.
        rewrite E2, E, tc_refl in S3. discriminate.
      + destruct (tc (kd k) t); auto.
    - destruct (is_u32_max _); [discriminate|].
      apply omap_from_sound in H as (-> & S' & Fi); auto.
      split; auto. split; auto. split; auto. split; [|eauto].
      destruct F as (Li & F1 & F2). intros t.
      replace (lookup m t) with (lookup (firstn i m ++ skipn i m) t) by (f_equal; apply firstn_skipn).
      rewrite !lookup_app. cbn [assoc app].
      destruct (lookup (firstn i m) t) eqn:L; [|destruct (tc (kd k) t); auto].
      destruct (tc (kd k) t) eqn:ET; auto. exfalso.
      apply (to_eq _ TO) in ET. subst t.
      apply lookup_Some in L as (k2 & I & E2).
      apply SS_app in S' as (_ & _ & S3). specialize (S3 _ _ I (or_introl eq_refl)).
      simpl in S3. rewrite E2, tc_refl in S3. discriminate.
  Qed.

  Lemma insert_total m k v :
    keysP m -> P k -> asc m -> (forall a b, P a -> P b -> exists o, cmp a b = Ok o) ->
    (Z.of_nat (length m) < u32_max)%Z ->
    exists m', omap_insert cmp m k v = Ok m'.
  Proof.
    intros HP Hk S Tot Len. unfold omap_insert.
    pose proof (bsearch_total (fun p => cmp (fst p) k) m) as B.
    unfold omap_find. destruct (bsearch _ m) as [r|e] eqn:E.
    2:{ destruct B as (i & x & N & C). apply nth_error_In in N.
        unfold keysP in HP. rewrite Forall_forall in HP.
        destruct (Tot (fst x) k (HP _ N) Hk). congruence. }
    pose proof (find_sound _ _ _ HP Hk S E) as F.
    assert (KP : forall a b, keysP (firstn a m ++ [(k, v)] ++ skipn b m)).
    { intros a b. unfold keysP. apply Forall_app. split; [apply Forall_firstn'; auto|].
      constructor; auto. apply Forall_skipn'; auto. }
    cbn [rbind]. destruct r as [i|i].
    - destruct F as ([k' v'] & N & EK). cbn [fst] in EK. apply (to_eq _ TO) in EK.
      exists (firstn i m ++ [(k, v)] ++ skipn (i + 1) m). apply omap_from_iff; auto.
      pose proof (nth_split_at _ _ _ N) as Sp.
      split.
      + unfold keys_ascending in *. rewrite Sp in S. apply SS_app in S as (S1 & S2 & S3).
        inversion S2; subst. apply SS_app. split; auto. split.
        * constructor; auto. rewrite Forall_forall in *. intros y Iy. specialize (H2 _ Iy). cbn [fst] in *.
          rewrite <- EK. auto.
        * intros x y Ix [<-|Iy]; cbn [fst].
          { rewrite <- EK. apply (S3 x (k', v')); auto. left; auto. }
          apply S3; auto. right; auto.
      + assert (length (firstn i m ++ [(k, v)] ++ skipn (i + 1) m) = length m).
        { transitivity (length (firstn i m ++ (k', v') :: skipn (i + 1) m)); [rewrite !app_length; reflexivity|].
          f_equal; symmetry; exact Sp. }
        lia.
    - unfold is_u32_max. replace (_ =? _)%Z with false by lia.
      destruct F as (Li & F1 & F2).
      exists (firstn i m ++ [(k, v)] ++ skipn i m). apply omap_from_iff; auto.
      split.
      + unfold keys_ascending in *. rewrite <- (firstn_skipn i m) in S.
        apply SS_app in S as (S1 & S2 & S3).
        assert (A1 : forall x, In x (firstn i m) -> tc (kd (fst x)) (kd k) = Lt).
        { intros x Ix. apply In_nth_error in Ix as (j & N).
          assert (j < i)%nat.
          { assert (j < length (firstn i m))%nat by (apply nth_error_Some; congruence).
            rewrite firstn_length in H. lia. }
          apply (F1 j); auto. rewrite <- (firstn_skipn i m). rewrite nth_error_app1; auto.
          apply nth_error_Some. congruence. }
        assert (A2 : forall x, In x (skipn i m) -> tc (kd k) (kd (fst x)) = Lt).
        { intros x Ix. apply In_nth_error in Ix as (j & N). apply tc_gt_lt.
          apply (F2 (i + j)%nat); [lia|]. rewrite <- (firstn_skipn i m).
          rewrite nth_error_app2; rewrite firstn_length; [|lia].
          replace (i + j - Nat.min i (length m))%nat with j by lia. auto. }
        apply SS_app. split; auto. split.
        * constructor; auto. apply Forall_forall. auto.
        * intros x y Ix [<-|Iy]; [apply A1; auto | apply S3; auto].
      + rewrite !app_length. simpl.
        assert (length (firstn i m) + length (skipn i m) = length m)%nat.
        { rewrite <- app_length, firstn_skipn. auto. }
        lia.
  Qed.

  Lemma remove_sound m k r :
    keysP m -> P k -> asc m -> omap_remove cmp m k = Ok r ->
    match r with
    | None => lookup m (kd k) = None
    | Some (m', v) =>
        lookup m (kd k) = Some v /\ keysP m' /\ asc m' /\ fits_u32 (length m') = true /\
        (forall t, lookup m' t = match tc (kd k) t with Eq => None | _ => lookup m t end) /\
        (forall p, In p m' -> In p m)
    end.
  Proof.
    unfold omap_remove. intros HP Hk S H. apply rbind_ok in H as (fr & Hf & H).
    pose proof (find_lookup _ _ _ HP Hk S Hf) as F.
    destruct fr as [i|i]; [|inversion H; auto].
    destruct F as (k' & v & N & EK & L).
    apply rbind_ok in H as (new & Hn & H). rewrite N in H. inversion H; subst. clear H.
    pose proof (nth_split_at _ _ _ N) as Sp.
    assert (KP : keysP (firstn i m ++ skipn (i + 1) m)).
    { apply Forall_app. split; [apply Forall_firstn' | apply Forall_skipn']; auto. }
    assert (Hn' : omap_from cmp (firstn i m ++ skipn (i + 1) m) = Ok new).
    { destruct i; simpl in *; auto. }
    clear Hn. apply omap_from_sound in Hn' as (-> & S' & Fi); auto.
    split; auto. split; auto. split; auto. split; auto. split.
    - intros t. replace (lookup m t) with (lookup (firstn i m ++ (k', v) :: skipn (i + 1) m) t)
        by (f_equal; symmetry; exact Sp).
      rewrite !lookup_app. cbn [assoc]. rewrite EK.
      destruct (tc (kd k) t) eqn:ET; auto.
      apply (to_eq _ TO) in ET. subst t.
      unfold keys_ascending in S. rewrite Sp in S. apply SS_app in S as (S1 & S2 & S3).
      inversion S2; subst.
      rewrite lookup_none.
      2:{ intros p I. specialize (S3 _ _ I (or_introl eq_refl)). simpl in S3. rewrite EK in S3. congruence. }
      apply lookup_none. intros p I. rewrite Forall_forall in H2. specialize (H2 _ I). simpl in H2.
      rewrite EK in H2. intros E. apply tc_gt_lt in H2. congruence.
    - intros p I. rewrite Sp. apply in_app_or in I as [I|I]; apply in_or_app; simpl; auto.
  Qed.

  Lemma remove_total m k :
    keysP m -> P k -> asc m -> (forall a b, P a -> P b -> exists o, cmp a b = Ok o) ->
    (Z.of_nat (length m) <= u32_max)%Z ->
    exists r, omap_remove cmp m k = Ok r.
  Proof.
    intros HP Hk S Tot Len. unfold omap_remove.
    pose proof (bsearch_total (fun p => cmp (fst p) k) m) as B.
    unfold omap_find. destruct (bsearch _ m) as [r|e] eqn:E.
    2:{ destruct B as (i & x & N & C). apply nth_error_In in N.
        unfold keysP in HP. rewrite Forall_forall in HP.
        destruct (Tot (fst x) k (HP _ N) Hk). congruence. }
    pose proof (find_sound _ _ _ HP Hk S E) as F. simpl. destruct r as [i|i]; [|eauto].
    destruct F as ([k' v'] & N & EK).
    pose proof (nth_split_at _ _ _ N) as Sp.
    assert (O : omap_from cmp (firstn i m ++ skipn (i + 1) m) = Ok (firstn i m ++ skipn (i + 1) m)).
    { apply omap_from_iff; auto.
      - apply Forall_app. split; [apply Forall_firstn' | apply Forall_skipn']; auto.
      - split.
        + unfold keys_ascending in *. rewrite Sp in S. apply SS_app in S as (S1 & S2 & S3).
          inversion S2; subst. apply SS_app. split; auto. split; auto.
          intros; apply S3; auto. right; auto.
        + assert (length m = 1 + (length (firstn i m ++ skipn (i + 1) m)))%nat.
          { rewrite Sp at 1. rewrite !app_length. simpl. lia. }
          lia. }
    rewrite N. destruct i.
    - simpl in *. rewrite O. simpl. eauto.
    - cbn [Nat.ltb Nat.leb]. rewrite O. simpl. eauto.
  Qed.

  (* Canonical form: same content, same key meanings and values, in the same
     order. *)
  Lemma canonical {W} (vd : V -> W) m1 m2 :
    asc m1 -> asc m2 ->
    (forall t, option_map vd (lookup m1 t) = option_map vd (lookup m2 t)) ->
    map (fun p => (kd (fst p), vd (snd p))) m1 = map (fun p => (kd (fst p), vd (snd p))) m2.
  Proof.
    revert m2. induction m1 as [|[k1 v1] m1 IH]; intros [|[k2 v2] m2] S1 S2 E; auto.
    - specialize (E (kd k2)). simpl in E. rewrite tc_refl in E. discriminate.
    - specialize (E (kd k1)). simpl in E. rewrite tc_refl in E. discriminate.
    - inversion S1; subst. inversion S2; subst. rewrite Forall_forall in *.
      assert (EK : kd k1 = kd k2).
      { apply (to_eq _ TO). destruct (tc (kd k1) (kd k2)) eqn:C; auto; exfalso.
        - specialize (E (kd k1)). simpl in E. rewrite tc_refl in E.
          assert (C' : tc (kd k2) (kd k1) = Gt) by (apply tc_gt_lt; auto).
          rewrite C' in E. rewrite lookup_none in E; [discriminate|].
          intros p I. specialize (H4 _ I). simpl in H4.
          pose proof (tc_trans3 _ _ _ C H4) as X. apply tc_gt_lt in X. congruence.
        - specialize (E (kd k2)). simpl in E. rewrite tc_refl in E. rewrite C in E.
          rewrite lookup_none in E; [discriminate|].
          apply tc_gt_lt in C.
          intros p I. specialize (H2 _ I). simpl in H2.
          pose proof (tc_trans3 _ _ _ C H2) as X. apply tc_gt_lt in X. congruence. }
      simpl. f_equal.
      + f_equal; auto. specialize (E (kd k1)). simpl in E. rewrite tc_refl in E.
        rewrite EK, tc_refl in E. simpl in E. congruence.
      + apply IH; auto. intros t. specialize (E t). simpl in E.
        rewrite EK in E. destruct (tc (kd k2) t) eqn:C; auto.
        apply (to_eq _ TO) in C. subst t.
        rewrite !lookup_none; auto.
        * intros p I X. specialize (H4 _ I). simpl in H4. apply tc_gt_lt in H4. congruence.
        * intros p I X. specialize (H2 _ I). simpl in H2. rewrite EK in H2. apply tc_gt_lt in H2. congruence.
  Qed.
End OM.
