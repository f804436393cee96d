(* The sorted-map computations on words are the map operations on trees. *)
From Coq Require Import ZArith Lia List Bool Sorted.
From Verif Require Import Prelude ValModel ValSpec ValProofs SymbolProofs ContainerModel ContainerSpec ContainerProofs HeapModel
  HeapSpec TreeProofs HeapProofs ConvProofs HeapProofs2 HostFnModel HostFnSpec SeqProofs.
Import ListNotations.
Open Scope Z_scope.

Definition drel (h : heap) (p : Z * Z) (q : tval * tval) : Prop :=
  denotes h (fst p) (fst q) /\ denotes h (snd p) (snd q).

Lemma pairs_F2 h m ts : denotes_pairs h m ts <-> Forall2 (drel h) m ts.
Proof.
  split; induction 1; try constructor; auto.
  - split; assumption.
  - destruct x as [k v], y as [tk tv], H as [K V]. cbn in *. constructor; auto.
Qed.

Lemma tlt_lt a b : tlt a b = true <-> tcmp a b = Lt.
Proof. unfold tlt. destruct (tcmp a b); split; congruence. Qed.
Lemma tlt_ge a b : tcmp a b <> Lt -> tlt a b = false.
Proof. unfold tlt. destruct (tcmp a b); congruence. Qed.
Lemma tcmp_eq a b : tcmp a b = Eq <-> a = b.
Proof. apply (to_eq _ tcmp_total). Qed.
Lemma tcmp_gt a b : tcmp a b = Gt <-> tcmp b a = Lt.
Proof. rewrite (tcmp_sym a b). destruct (tcmp a b); cbn; split; congruence. Qed.
Lemma tcmp_trans a b c : tcmp a b = Lt -> tcmp b c = Lt -> tcmp a c = Lt.
Proof. apply (to_trans _ tcmp_total). Qed.

Lemma filter_all {A} (f : A -> bool) l : Forall (fun x => f x = true) l -> filter f l = l.
Proof. induction 1 as [|x l E F IH]; cbn; auto. rewrite E, IH. reflexivity. Qed.
Lemma filter_none {A} (f : A -> bool) l : Forall (fun x => f x = false) l -> filter f l = [].
Proof. induction 1 as [|x l E F IH]; cbn; auto. now rewrite E. Qed.

(* the three-way split of a sorted map around a key *)
Definition below (k : tval) (m : tmap) := Forall (fun p => tcmp (fst p) k = Lt) m.
Definition above (k : tval) (m : tmap) := Forall (fun p => tcmp k (fst p) = Lt) m.

Lemma split_put a mid b k v : below k a -> above k b -> (mid = [] \/ exists v0, mid = [(k, v0)]) ->
  map_put (a ++ mid ++ b) k v = a ++ (k, v) :: b.
Proof.
  intros L G M. unfold map_put. rewrite !filter_app.
  assert (R : forall t, tlt t t = false) by (intros t; apply tlt_ge; now rewrite tcmp_refl).
  rewrite (filter_all (fun p => tlt (fst p) k) a), (filter_none (fun p => tlt (fst p) k) b),
    (filter_none (fun p => tlt k (fst p)) a), (filter_all (fun p => tlt k (fst p)) b).
  - destruct M as [->|(v0 & ->)]; cbn; rewrite ?R, ?app_nil_r; reflexivity.
  - eapply Forall_impl; [|exact G]. intros p; cbn. apply tlt_lt.
  - eapply Forall_impl; [|exact L]. intros p P; cbn. apply tlt_ge. apply tcmp_gt in P. congruence.
  - eapply Forall_impl; [|exact G]. intros p P; cbn. apply tlt_ge. apply tcmp_gt in P. congruence.
  - eapply Forall_impl; [|exact L]. intros p; cbn. apply tlt_lt.
Qed.

Lemma split_del a mid b k : below k a -> above k b -> (mid = [] \/ exists v0, mid = [(k, v0)]) ->
  map_del (a ++ mid ++ b) k = a ++ b.
Proof.
  intros L G M. unfold map_del. rewrite !filter_app.
  rewrite (filter_all _ a), (filter_all _ b).
  - destruct M as [->|(v0 & ->)]; cbn; auto. unfold tlt. now rewrite tcmp_refl.
  - eapply Forall_impl; [|exact G]. intros p P; cbn. apply tlt_lt in P. rewrite P. apply orb_true_r.
  - eapply Forall_impl; [|exact L]. intros p P; cbn. apply tlt_lt in P. now rewrite P.
Qed.

Lemma assoc_below k a r : below k a -> map_get (a ++ r) k = map_get r k.
Proof.
  induction 1 as [|[k' v'] a E F IH]; cbn; auto. cbn in E. now rewrite E.
Qed.
Lemma assoc_above k b : above k b -> map_get b k = None.
Proof.
  induction 1 as [|[k' v'] a E F IH]; cbn; auto. cbn in E. apply tcmp_gt in E. now rewrite E.
Qed.

Lemma sorted_split (a : tmap) mid b : map_sorted (a ++ mid :: b) -> below (fst mid) a /\ above (fst mid) b.
Proof.
  unfold map_sorted, keys_ascending. intros S. apply SS_app in S as (_ & S & X). split.
  - apply Forall_forall. intros p I. apply (X p mid I). now left.
  - inversion S; subst. assumption.
Qed.

Lemma sorted_mid (a b : tmap) k v : map_sorted a -> map_sorted b -> below k a -> above k b ->
  map_sorted (a ++ (k, v) :: b).
Proof.
  unfold map_sorted, keys_ascending. intros A B' L G. apply SS_app. split; [exact A|]. split.
  - constructor; auto.
  - intros x y I [<-|J].
    + unfold below in L. rewrite Forall_forall in L. exact (L _ I).
    + unfold below, above in *. rewrite Forall_forall in *. eapply tcmp_trans; [exact (L _ I)|exact (G _ J)].
Qed.

Lemma sorted_app (a b : tmap) : map_sorted (a ++ b) -> map_sorted a /\ map_sorted b.
Proof. unfold map_sorted, keys_ascending. intros S. apply SS_app in S. tauto. Qed.
Lemma sorted_join (a b : tmap) k : map_sorted a -> map_sorted b -> below k a -> above k b -> map_sorted (a ++ b).
Proof.
  intros A B' L G. pose proof (sorted_mid a b k TVoid A B' L G) as S. unfold map_sorted, keys_ascending in *.
  apply SS_app in S as (S1 & S2 & S3). apply SS_app. split; [auto|]. split; [auto|].
  intros x y I J. apply S3; auto. now right.
Qed.

(* every sorted map splits around every key *)
Lemma key_split m k : map_sorted m -> exists a mid b, m = a ++ mid ++ b /\ below k a /\ above k b
  /\ (mid = [] \/ exists v0, mid = [(k, v0)]).
Proof.
  induction m as [|[k' v'] m IH]; intros S.
  - exists [], [], []. split; [reflexivity|]. split; [constructor|]. split; [constructor|left; reflexivity].
  - pose proof (sorted_split [] (k', v') m S) as [_ G]. cbn in G.
    assert (S' : map_sorted m) by exact (proj2 (sorted_app [(k', v')] m S)).
    destruct (tcmp k' k) eqn:C.
    + apply tcmp_eq in C. subst k'. exists [], [(k, v')], m. repeat split; eauto. constructor.
    + destruct (IH S') as (a & mid & b & -> & L & G' & M). exists ((k', v') :: a), mid, b.
      repeat split; auto. constructor; auto.
    + apply tcmp_gt in C. exists [], [], ((k', v') :: m). repeat split; [constructor| |left; reflexivity].
      constructor; auto. eapply Forall_impl; [|exact G]. intros p P. eapply tcmp_trans; eauto.
Qed.

Lemma put_sorted m k v : map_sorted m -> map_sorted (map_put m k v).
Proof.
  intros S. destruct (key_split m k S) as (a & mid & b & -> & L & G & M).
  rewrite split_put by auto. apply sorted_app in S as [A S]. apply sorted_app in S as [_ B'].
  now apply sorted_mid.
Qed.
Lemma del_sorted m k : map_sorted m -> map_sorted (map_del m k).
Proof.
  intros S. destruct (key_split m k S) as (a & mid & b & -> & L & G & M).
  rewrite split_del by auto. apply sorted_app in S as [A S]. apply sorted_app in S as [_ B'].
  now apply sorted_join with k.
Qed.

(* the finite-map laws *)
Lemma get_put m k v k' : map_sorted m ->
  map_get (map_put m k v) k' = match tcmp k k' with Eq => Some v | _ => map_get m k' end.
Proof.
  intros S. destruct (key_split m k S) as (a & mid & b & -> & L & G & M). rewrite split_put by auto.
  unfold map_get. rewrite !lookup_app. destruct (tcmp k k') eqn:C.
  - apply tcmp_eq in C. subst k'. change (assoc tcmp (fun t => t) a k) with (map_get a k).
    pose proof (assoc_below k a [] L) as E. rewrite app_nil_r in E. cbn in E. rewrite E. cbn. now rewrite tcmp_refl.
  - cbn. rewrite C. destruct (assoc tcmp _ a k'); auto.
    destruct M as [->|(v0 & ->)]; cbn; [reflexivity|]. now rewrite C.
  - cbn. rewrite C. destruct (assoc tcmp _ a k'); auto.
    destruct M as [->|(v0 & ->)]; cbn; [reflexivity|]. now rewrite C.
Qed.
Lemma get_del m k k' : map_sorted m ->
  map_get (map_del m k) k' = match tcmp k k' with Eq => None | _ => map_get m k' end.
Proof.
  intros S. destruct (key_split m k S) as (a & mid & b & -> & L & G & M). rewrite split_del by auto.
  unfold map_get. rewrite !lookup_app. destruct (tcmp k k') eqn:C.
  - apply tcmp_eq in C. subst k'. 
    pose proof (assoc_below k a [] L) as E. rewrite app_nil_r in E. unfold map_get in E. cbn in E. rewrite E.
    exact (assoc_above k b G).
  - destruct (assoc tcmp _ a k'); auto. destruct M as [->|(v0 & ->)]; cbn; [reflexivity|]. now rewrite C.
  - destruct (assoc tcmp _ a k'); auto. destruct M as [->|(v0 & ->)]; cbn; [reflexivity|]. now rewrite C.
Qed.
Lemma map_canonical m m' : map_sorted m -> map_sorted m' -> (forall k, map_get m k = map_get m' k) -> m = m'.
Proof.
  intros S S' E.
  pose proof (canonical tcmp (fun t => t) tcmp_total (fun v : tval => v) m m' S S') as C.
  assert (I : forall l : tmap, map (fun p => (fst p, snd p)) l = l).
  { intros l. induction l as [|[a b] l IH]; cbn; congruence. }
  rewrite !I in C. apply C. intros t. unfold map_get in E. now rewrite E.
Qed.

(* ------------------------------------------------- searching *)

Section Den.
  Variables (h : heap) (d : nat).
  Notation cmp := (cmp_val d h).

  Lemma find_den m ts k tk : denotes_pairs h m ts -> map_sorted ts -> denotes h k tk ->
    match omap_find cmp m k with
    | Ok (Found i) => exists v, nth_error ts i = Some (tk, v)
    | Ok (Missing i) => (i <= length ts)%nat /\ below tk (firstn i ts) /\ above tk (skipn i ts)
    | Err e => e = e_depth /\ (d < tdepth tk)%nat
    end.
  Proof.
    intros D S K. pose proof D as D2. apply pairs_F2 in D2.
    destruct (omap_find cmp m k) as [r|e] eqn:E.
    - assert (DL : denotes_list h (k :: map fst m) (tk :: map fst ts)) by (constructor; auto; now apply denotes_pairs_keys).
      destruct (kd_exists _ _ _ DL) as (kd & F & M). injection M as Mk Mm. inversion F as [|? ? Fk Fm]; subst.
      assert (HP : keysP (fun w => denotes h w (kd w)) m) by (unfold keysP; now rewrite Forall_map in Fm).
      assert (AS : keys_ascending tcmp kd m) by (now apply (asc_sorted kd m ts Mm)).
      pose proof (find_sound cmp tcmp kd (fun w => denotes h w (kd w)) tcmp_total
        (fun a b o => cmp_val_tc h d kd a b o) m k r HP Fk AS E) as SO.
      assert (N : forall i p, nth_error m i = Some p -> exists q, nth_error ts i = Some q /\ fst q = kd (fst p)).
      { intros i p Hp. pose proof (F2_nth (drel h) m ts i D2) as O. rewrite Hp in O.
        destruct (nth_error ts i) as [q|]; [|contradiction]. exists q. split; auto. destruct O as [O _].
        apply nth_error_In in Hp. unfold keysP in HP. rewrite Forall_forall in HP.
        exact (denotes_fun _ _ _ _ O (HP _ Hp)). }
      pose proof (Forall2_length _ _ _ D2) as LEN.
      destruct r as [i|i]; cbn in SO.
      + destruct SO as (p & Hp & C). destruct (N i p Hp) as ([q1 q2] & Hq & Eq). cbn in Eq. apply tcmp_eq in C.
        exists q2. congruence.
      + destruct SO as (Hi & LO & HI). split; [lia|].
        assert (NI : forall i q, nth_error ts i = Some q -> exists p, nth_error m i = Some p /\ fst q = kd (fst p)).
        { intros j q Hq. destruct (nth_error m j) as [p|] eqn:Hp.
          - destruct (N j p Hp) as (q' & Hq' & Eq). exists p. split; auto. congruence.
          - apply nth_error_None in Hp. assert (j < length ts)%nat by (apply nth_error_Some; congruence). lia. }
        split; apply Forall_forall; intros q I; apply In_nth_error in I as (j & Hj).
        * assert (J : (j < i)%nat).
          { assert (j < length (firstn i ts))%nat by (apply nth_error_Some; congruence). rewrite firstn_length in *. lia. }
          assert (Hj' : nth_error ts j = Some q).
          { rewrite <- (firstn_skipn i ts). rewrite nth_error_app1; auto. rewrite firstn_length. lia. }
          destruct (NI j q Hj') as (p & Hp & ->). exact (LO j p J Hp).
        * assert (Hj' : nth_error ts (i + j) = Some q).
          { rewrite <- (firstn_skipn i ts), nth_error_app2; rewrite firstn_length; [|lia].
            replace (i + j - Nat.min i (length ts))%nat with j by lia. exact Hj. }
          destruct (NI _ q Hj') as (p & Hp & ->). apply tcmp_gt. exact (HI (i + j)%nat p ltac:(lia) Hp).
    - unfold omap_find in E. pose proof (bsearch_total (fun p => cmp (fst p) k) m) as B'. rewrite E in B'.
      destruct B' as (i & p & Hp & C). pose proof (F2_nth (drel h) m ts i D2) as O. rewrite Hp in O.
      destruct (nth_error ts i) as [q|]; [|contradiction]. destruct O as [O _].
      pose proof (cmp_val_ok h d _ _ _ _ O K) as R. cbn in C. rewrite C in R. cbn in R. tauto.
  Qed.

  (* the split of both lists at a found position *)
  Lemma found_split (m : list (Z * Z)) ts i tk v : denotes_pairs h m ts -> map_sorted ts -> nth_error ts i = Some (tk, v) ->
    exists p, nth_error m i = Some p /\ denotes h (snd p) v
    /\ ts = firstn i ts ++ [(tk, v)] ++ skipn (i + 1) ts
    /\ below tk (firstn i ts) /\ above tk (skipn (i + 1) ts)
    /\ map_get ts tk = Some v.
  Proof.
    intros D S N. apply pairs_F2 in D. pose proof (F2_nth (drel h) m ts i D) as O. rewrite N in O.
    destruct (nth_error m i) as [p|]; [|contradiction]. exists p. split; auto. split; [exact (proj2 O)|].
    pose proof (nth_split_at ts i _ N) as Sp. split; [exact Sp|].
    rewrite Sp in S. apply sorted_split in S as [L G]. cbn in L, G. split; auto. split; auto.
    rewrite Sp, assoc_below by exact L. cbn. now rewrite tcmp_refl.
  Qed.

  Lemma from_den m ts : denotes_pairs h m ts -> map_sorted ts ->
    match omap_from cmp m with
    | Ok m' => m' = m /\ short m
    | Err e => (e = e_oob /\ ~ short m) \/ (e = e_depth /\ Exists (fun p => (d < tdepth (fst p))%nat) ts)
    end.
  Proof.
    intros D S. destruct (omap_from cmp m) as [m'|e] eqn:E.
    - destruct (omap_from_den _ _ _ _ _ D E) as (-> & Sh & _). auto.
    - unfold omap_from, fits_u32 in E. destruct (Z.leb_spec (Z.of_nat (length m)) u32_max) as [Sh|Sh].
      2:{ left. injection E as <-. split; auto. unfold short. lia. }
      right. destruct (check_sorted cmp m) as [[]|e'] eqn:C; cbn in E; [discriminate|]. injection E as ->.
      clear Sh. revert S C. induction D as [|k v tk tv m ts K V D IH]; intros S C; [discriminate|].
      cbn [check_sorted fst] in C. destruct D as [|k2 v2 tk2 tv2 m2 ts2 K2 V2 D2]; [discriminate|].
      cbn [fst] in C. pose proof (cmp_val_ok h d _ _ _ _ K K2) as R.
      destruct (cmp_val d h k k2) as [c|e2]; cbn [rbind] in C; cbn in R.
      + subst c. assert (LT : tcmp tk tk2 = Lt).
        { apply (sorted_split []) in S as [_ G]. exact (Forall_inv G). }
        rewrite LT in C. destruct (IH (proj2 (sorted_app [(tk, tv)] _ S)) C) as [-> X]. split; [reflexivity|].
        now apply Exists_cons_tl.
      + destruct R as (-> & X & _). injection C as <-. split; [reflexivity|]. now apply Exists_cons_hd.
  Qed.

  Lemma key_deep tk tv ts : Exists (fun p => (d < tdepth (fst p))%nat) ts ->
    (forall p, In p ts -> fst p = tk \/ In p tv) -> (d < tdepth tk)%nat \/ (d < tdepth (TMap tv))%nat.
  Proof.
    intros X I. apply Exists_exists in X as (p & Ip & Lp). destruct (I p Ip) as [<-|J]; [left; exact Lp|right].
    cbv beta in Lp. change (tdepth (TMap tv)) with (S (lmax (map (fun q => Nat.max (tdepth (fst q)) (tdepth (snd q))) tv))).
    assert (tdepth (fst p) <= lmax (map (fun q => Nat.max (tdepth (fst q)) (tdepth (snd q))) tv))%nat; [|lia].
    clear -J. induction tv as [|q tv IH]; [destruct J|]. unfold lmax in *.
    destruct J as [->|J]; cbn [map fold_right]; [lia|]. specialize (IH J). lia.
  Qed.

  Lemma insert_den m ts k v tk tv : denotes_pairs h m ts -> map_sorted ts -> short m ->
    denotes h k tk -> denotes h v tv ->
    match omap_insert cmp m k v with
    | Ok m' => denotes_pairs h m' (map_put ts tk tv) /\ short m'
    | Err e => len_ok (map_put ts tk tv) = false
               \/ (e = e_depth /\ ((d < tdepth tk)%nat \/ (d < tdepth (TMap ts))%nat))
    end.
  Proof.
    intros D S Sh K V. pose proof D as D2. apply pairs_F2 in D2. unfold omap_insert.
    pose proof (find_den m ts k tk D S K) as F. destruct (omap_find cmp m k) as [[i|i]|e]; cbn [rbind].
    - destruct F as (v0 & N). destruct (found_split m ts i tk v0 D S N) as (p & Np & Vp & Sp & L & G & _).
      assert (PE : map_put ts tk tv = firstn i ts ++ (tk, tv) :: skipn (i + 1) ts).
      { rewrite Sp at 1. apply split_put; eauto. }
      assert (DN : denotes_pairs h (firstn i m ++ [(k, v)] ++ skipn (i + 1) m) (map_put ts tk tv)).
      { rewrite PE. apply pairs_F2, Forall2_app; [now apply F2_firstn|]. constructor; [now split|]. now apply F2_skipn. }
      pose proof (from_den _ _ DN (put_sorted ts tk tv S)) as O.
      destruct (omap_from cmp _) as [m'|e].
      + destruct O as [-> O]. auto.
      + destruct O as [[-> O]|[-> O]].
        * exfalso. apply O. unfold short in *. apply nth_split_at in Np. rewrite Np in Sh.
          rewrite app_length in *. cbn in *. lia.
        * right. split; auto. apply (key_deep tk ts _ O). intros q I. rewrite PE in I. rewrite Sp.
          apply in_app_or in I as [I|[<-|I]]; [|left; reflexivity|]; right; apply in_or_app; auto.
          right. cbn. auto.
    - destruct F as (Hi & L & G).
      assert (PE : map_put ts tk tv = firstn i ts ++ (tk, tv) :: skipn i ts).
      { rewrite <- (firstn_skipn i ts) at 1. apply (split_put _ [] _); auto. }
      assert (DN : denotes_pairs h (firstn i m ++ [(k, v)] ++ skipn i m) (map_put ts tk tv)).
      { rewrite PE. apply pairs_F2, Forall2_app; [now apply F2_firstn|]. constructor; [now split|]. now apply F2_skipn. }
      pose proof (from_den _ _ DN (put_sorted ts tk tv S)) as O.
      assert (LE : length (map_put ts tk tv) = (1 + length m)%nat).
      { rewrite PE, app_length. cbn. rewrite firstn_length, skipn_length, (Forall2_length _ _ _ D2). lia. }
      destruct (is_u32_max (length m)) eqn:U.
      { left. unfold len_ok, is_u32_max in *. rewrite LE. lia. }
      destruct (omap_from cmp _) as [m'|e].
      + destruct O as [-> O]. auto.
      + destruct O as [[-> O]|[-> O]].
        * left. unfold len_ok, short in *. rewrite <- (Forall2_length _ _ _ (proj1 (pairs_F2 _ _ _) DN)). lia.
        * right. split; auto. apply (key_deep tk ts _ O). intros q I. rewrite PE in I. rewrite <- (firstn_skipn i ts).
          apply in_app_or in I as [I|[<-|I]]; [|left; reflexivity|]; right; apply in_or_app; auto.
    - right. destruct F as [-> F]. auto.
  Qed.

  Lemma missing_get ts i tk : below tk (firstn i ts) -> above tk (skipn i ts) -> map_get ts tk = None.
  Proof. intros L G. rewrite <- (firstn_skipn i ts), assoc_below by auto. now apply assoc_above. Qed.

  Lemma get_den m ts k tk : denotes_pairs h m ts -> map_sorted ts -> denotes h k tk ->
    match omap_get cmp m k with
    | Ok (Some w) => exists tv, map_get ts tk = Some tv /\ denotes h w tv
    | Ok None => map_get ts tk = None
    | Err e => e = e_depth /\ (d < tdepth tk)%nat
    end.
  Proof.
    intros D S K. unfold omap_get. pose proof (find_den m ts k tk D S K) as F.
    destruct (omap_find cmp m k) as [[i|i]|e]; cbn [rbind]; auto.
    - destruct F as (v0 & N). destruct (found_split m ts i tk v0 D S N) as ([k' w] & Np & Vp & _ & _ & _ & Gt').
      rewrite Np. eauto.
    - destruct F as (_ & L & G). exact (missing_get _ _ _ L G).
  Qed.

  Lemma contains_den m ts k tk : denotes_pairs h m ts -> map_sorted ts -> denotes h k tk ->
    match omap_contains cmp m k with
    | Ok b => b = match map_get ts tk with Some _ => true | None => false end
    | Err e => e = e_depth /\ (d < tdepth tk)%nat
    end.
  Proof.
    intros D S K. unfold omap_contains. pose proof (find_den m ts k tk D S K) as F.
    destruct (omap_find cmp m k) as [[i|i]|e]; cbn [rbind]; auto.
    - destruct F as (v0 & N). destruct (found_split m ts i tk v0 D S N) as ([k' w] & Np & Vp & _ & _ & _ & ->). reflexivity.
    - destruct F as (_ & L & G). now rewrite (missing_get _ _ _ L G).
  Qed.

  Lemma remove_den m ts k tk : denotes_pairs h m ts -> map_sorted ts -> short m -> denotes h k tk ->
    match omap_remove cmp m k with
    | Ok (Some (m', _)) => (exists v, map_get ts tk = Some v) /\ denotes_pairs h m' (map_del ts tk) /\ short m'
    | Ok None => map_get ts tk = None
    | Err e => e = e_depth /\ ((d < tdepth tk)%nat \/ (d < tdepth (TMap ts))%nat)
    end.
  Proof.
    intros D S Sh K. pose proof D as D2. apply pairs_F2 in D2. unfold omap_remove.
    pose proof (find_den m ts k tk D S K) as F. destruct (omap_find cmp m k) as [[i|i]|e]; cbn [rbind].
    - destruct F as (v0 & N). destruct (found_split m ts i tk v0 D S N) as ([k' w] & Np & Vp & Sp & L & G & Gt').
      replace (if Nat.ltb 0 i then omap_from cmp (firstn i m ++ skipn (i + 1) m) else omap_from cmp (skipn 1 m))
        with (omap_from cmp (firstn i m ++ skipn (i + 1) m)) by (destruct i; reflexivity).
      assert (PE : map_del ts tk = firstn i ts ++ skipn (i + 1) ts).
      { rewrite Sp at 1. apply split_del; eauto. }
      assert (DN : denotes_pairs h (firstn i m ++ skipn (i + 1) m) (map_del ts tk)).
      { rewrite PE. apply pairs_F2, Forall2_app; [now apply F2_firstn|]. now apply F2_skipn. }
      pose proof (from_den _ _ DN (del_sorted ts tk S)) as O.
      destruct (omap_from cmp _) as [m'|e]; cbn [rbind].
      + destruct O as [-> O]. rewrite Np. eauto.
      + destruct O as [[-> O]|[-> O]].
        * exfalso. apply O. unfold short in *. rewrite app_length, firstn_length, skipn_length. lia.
        * split; auto. apply (key_deep tk ts _ O). intros q I. right. rewrite Sp. rewrite PE in I.
          apply in_app_or in I as [I|I]; apply in_or_app; auto. right. cbn. auto.
    - destruct F as (_ & L & G). exact (missing_get _ _ _ L G).
    - destruct F as [-> F]. auto.
  Qed.
End Den.
