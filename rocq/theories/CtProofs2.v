(* Proofs about CtModel: what is written shows the datum, and a value is read as
   the datum it shows. *)
From Coq Require Import ZArith Lia String List Bool Sorting.Sorted Sorting.Permutation.
From Verif Require Import Prelude ValModel ValSpec HeapModel HeapSpec TreeProofs HostFnProofs WideProofs ConvProofs FrameModel XdrModel MultisigModel DelegProofs CtModel CtSpec CtProofs.
Import ListNotations.
Open Scope Z_scope.
Ltac Zify.zify_post_hook ::= idtac.

Lemma forall2_choice A B (R : A -> B -> Prop) l :
  (forall q, In q l -> exists x, R q x) -> exists xs, Forall2 R l xs.
Proof.
  induction l as [|q l IH]; intros H; [exists []; constructor|].
  destruct (H q (or_introl eq_refl)) as (x & Hx). destruct IH as (xs & F); [intros; apply H; cbn; auto|].
  exists (x :: xs). now constructor.
Qed.
Lemma forall2_left A B (R : A -> B -> Prop) l xs x : Forall2 R l xs -> In x xs -> exists q, In q l /\ R q x.
Proof.
  induction 1; cbn; [tauto|]. intros [<-|I]; eauto. destruct (IHForall2 I) as (q & ? & ?). eauto.
Qed.
Lemma same_fields A (l : list (name * A)) : forall l', map fst l' = map fst l -> NoDup (map fst l) ->
  (forall p, In p l' -> In p l) -> l' = l.
Proof.
  intros l' M N S.
  assert (G : forall k k', map fst k' = map fst k -> incl k l -> incl k' l -> k' = k).
  { induction k as [|[n x] k IH]; intros [|[n' x'] k'] M' I I'; try discriminate; auto. cbn in M'. injection M' as -> M'.
    f_equal.
    - f_equal. eapply (nodup_fst_in _ n l); eauto; [apply I'|apply I]; cbn; auto.
    - apply IH; auto; intros p Hp; [apply I|apply I']; cbn; auto. }
  apply G; auto. intros p; auto.
Qed.

Lemma combine_fst_snd A B (l : list (A * B)) : combine (map fst l) (map snd l) = l.
Proof. induction l as [|[a b] l IH]; cbn; congruence. Qed.

Lemma struct_readers fs :
  by_name (map (fun f : name * ty => (fst f, from_val (snd f))) fs)
  = map (fun p => (fst p, from_val (snd p))) (by_name fs).
Proof. apply (by_name_map _ _ from_val). Qed.
Lemma map_fst_pair A B (f : A -> B) (l : list (name * A)) : map fst (map (fun p => (fst p, f (snd p))) l) = map fst l.
Proof. rewrite map_map. now apply map_ext. Qed.

(* ------------------------------------------------------------------- writing *)

Lemma index_from_spec s l : forall i j, index_from i s l = Some j ->
  exists k, j = (i + k)%nat /\ nth_error l k = Some s.
Proof.
  induction l as [|x r IH]; intros i j; cbn; [discriminate|].
  destruct (bytes_eqb s x) eqn:E.
  - intros H. injection H as <-. apply bytes_eqb_spec in E. subst. exists O. cbn. split; auto; lia.
  - intros H. destruct (IH _ _ H) as (k & -> & N). exists (S k). cbn. split; auto; lia.
Qed.
Lemma index_from_nth s l : forall i k, NoDup l -> nth_error l k = Some s -> index_from i s l = Some (i + k)%nat.
Proof.
  induction l as [|x r IH]; intros i k N H; [destruct k; discriminate|]. inversion N; subst. cbn.
  destruct k as [|k]; cbn in H.
  - injection H as ->. rewrite bytes_eqb_refl. f_equal. lia.
  - rewrite bytes_eqb_neq. { rewrite (IH (S i) k) by assumption. f_equal. lia. }
    intros ->. apply H2. eapply nth_error_In; eauto.
Qed.
Lemma symbol_index_ok s l i : NoDup l -> nth_error l i = Some s -> symbol_index_in_strs s l = Ok i.
Proof. intros N H. unfold symbol_index_in_strs. now rewrite (index_from_nth s l 0 i N H). Qed.
Lemma symbol_index_inv s l i : symbol_index_in_strs s l = Ok i -> nth_error l i = Some s.
Proof.
  unfold symbol_index_in_strs. destruct (index_from 0 s l) as [j|] eqn:E; [|discriminate].
  intros H. injection H as <-. destruct (index_from_spec _ _ _ _ E) as (k & -> & N). exact N.
Qed.

Lemma nth_error_map_inv A B (f : A -> B) l i y : nth_error (map f l) i = Some y ->
  exists x, nth_error l i = Some x /\ f x = y.
Proof.
  revert i. induction l as [|a l IH]; intros [|i]; cbn; try discriminate; auto.
  intros H. injection H as <-. eauto.
Qed.

Lemma to_val_shows t : forall d, type_ok t -> datum t d -> exists v, to_val t d = Ok v /\ shows true t d v.
Proof.
  induction t using ty_rect_; intros d T D.
  - destruct t; try (exfalso; (eapply H; reflexivity) || (eapply H0; reflexivity)); destruct d; try contradiction;
      try (eexists; split; [reflexivity|constructor; auto]; fail).
    cbn in D. destruct (i128_split x D) as (Eh & El & R). cbn.
    eexists; split; [reflexivity|]. rewrite Eh, El.
    assert (X : x = x / B * 2 ^ 64 + x mod B).
    { change (2 ^ 64) with B. rewrite Z.mul_comm. apply Z.div_mod. unfold B. lia. }
    rewrite X at 1. constructor; auto. change (2 ^ 64) with B. apply Z.mod_pos_bound. unfold B. lia.
  - destruct d; try contradiction. cbn in D, T. destruct D as (M & D), T as (N & V & T).
    rewrite allP_forall in D, T. rename fields into l.
    assert (Nl : NoDup (map fst l)) by (rewrite M; auto).
    assert (G : forall gs, incl gs fs -> exists ws,
      map (fun f => (fst f, match field (fst f) l with Some x => to_val (snd f) x | None => Err e_convert end)) gs
        = map (fun p => (fst p, Ok (snd p))) ws
      /\ map fst ws = map fst gs
      /\ (forall n w, In (n, w) ws -> exists t x, In (n, t) gs /\ In (n, x) l /\ shows true t x w)).
    { induction gs as [|[n t] gs IH]; intros I.
      - exists []. cbn. intuition.
      - destruct IH as (ws & E & F & G); [intros p Hp; apply I; cbn; auto|].
        assert (It : In (n, t) fs) by (apply I; cbn; auto).
        assert (In n (map fst l)) as Hn by (rewrite M; change n with (fst (n, t)); now apply in_map).
        destruct (field_some _ n l Hn) as (x & Fx & Ix).
        destruct (H n t It x) as (w & Ew & Sw); [exact (T _ It)|exact (D _ It _ Ix)|].
        exists ((n, w) :: ws). cbn. rewrite Fx, Ew, E, F. split; [auto|split; [auto|]].
        intros n' w' [Hw|Hw].
        + injection Hw as <- <-. eauto 6.
        + destruct (G _ _ Hw) as (t' & x' & ? & ? & ?). eauto 6. }
    destruct (G fs (incl_refl _)) as (ws & E & F & W). cbn [to_val]. rewrite E, (by_name_map _ _ (fun w => Ok w)), all_ok_map.
    cbn [rbind].
    pose proof (by_name_perm _ ws) as Pw.
    assert (Pk : Permutation (map fst (by_name ws)) (map fst fs)) by (rewrite <- F; now apply Permutation_map).
    assert (Aw : asc (map fst (by_name ws))) by (apply by_name_asc; rewrite F; auto).
    rewrite map_new_ok; auto. 2: { rewrite Pk. auto. }
    eexists; split; [reflexivity|].
    eapply sh_struct with (ks := map fst (by_name ws)); auto.
    { rewrite !map_map. reflexivity. }
    intros n t x w It Ix Iw. apply in_map_iff in Iw. destruct Iw as ([n' w'] & Hw & Iw). cbn in Hw. injection Hw as -> ->.
    rewrite Pw in Iw. destruct (W _ _ Iw) as (t' & x' & I1 & I2 & S).
    rewrite (nodup_fst_in _ _ _ _ _ N It I1), (nodup_fst_in _ _ _ _ _ Nl Ix I2). exact S.
  - destruct d; try contradiction. cbn in D, T. destruct T as (N & V & T). rewrite allP_forall in T.
    cbn [to_val]. rename case into i.
    destruct (nth_error (map (fun c : name * option ty => match snd c with Some t => Some (datum t) | None => None end) cs) i) as [o|] eqn:E; [|contradiction].
    apply nth_error_map_inv in E. destruct E as ([n ot] & E & Eo). cbn in Eo.
    rewrite (map_nth_error _ _ _ E). cbn [fst snd].
    assert (In (n, ot) cs) as I by (eapply nth_error_In; eauto).
    assert (Vn : valid_symbol n).
    { rewrite Forall_forall in V. apply V. change n with (fst (n, ot)). now apply in_map. }
    destruct ot as [t|]; subst o.
    + destruct arg as [y|]; [|contradiction].
      destruct (H n t I y (T _ I) D) as (w & Ew & Sw).
      unfold new_symbol. rewrite (proj2 (symbol_bytes_ok_spec n) Vn). cbn [rbind]. rewrite Ew. cbn [rbind].
      eexists; split; [reflexivity|]. eapply sh_case_arg; eauto.
    + destruct arg as [y|]; [contradiction|].
      unfold new_symbol. rewrite (proj2 (symbol_bytes_ok_spec n) Vn). cbn [rbind].
      eexists; split; [reflexivity|]. eapply sh_case; eauto.
Qed.

(* ------------------------------------------------------------------- reading *)

Lemma plain_muxed a : plain a <-> is_muxed a = false.
Proof. destruct a; cbn; split; intros; auto; try discriminate; contradiction. Qed.

Lemma sc_typed_map m v w : optP (allP (fun p : scval * scval => sc_typed (fst p) /\ sc_typed (snd p))) (Some m) ->
  In (v, w) m -> sc_typed w.
Proof. cbn. rewrite allP_forall. intros H I. exact (proj2 (H _ I)). Qed.

Lemma from_val_shows t : forall v d, type_ok t -> sc_typed v -> from_val t v = Ok d -> shows false t d v.
Proof.
  induction t using ty_rect_; intros v d T W E.
  - destruct t; try (exfalso; (eapply H; reflexivity) || (eapply H0; reflexivity)); cbn in E;
      destruct v; cbn in E; try discriminate;
      try (injection E as <-; constructor; auto; fail).
    + destruct (is_muxed a) eqn:Em; [discriminate|]. injection E as <-. constructor. now apply plain_muxed.
    + destruct (Nat.eqb (length b) n) eqn:En; cbn in E; [|discriminate]. injection E as <-. constructor. now apply Nat.eqb_eq.
    + destruct l as [l|]; [|discriminate]. injection E as <-. constructor.
    + injection E as <-. cbn in W. destruct W as (W1 & W2). unfold i64_ok, u64_ok in *.
      rewrite i128_from_pieces_eq; auto. change B with (2 ^ 64). now constructor.
  - cbn [from_val] in E. destruct v; try discriminate. destruct m as [m|]; [|discriminate].
    cbn in T. destruct T as (N & V & T). rewrite allP_forall in T.
    rewrite struct_readers, map_fst_pair in E.
    destruct (unpack_dense (map fst (by_name fs)) m) as [vs|] eqn:U; cbn [rbind] in E; [|discriminate].
    apply unpack_dense_spec in U. destruct U as (Em & Lv).
    destruct (read_fields _ vs) as [xs|] eqn:R; cbn [rbind] in E; [|discriminate].
    destruct (build (map fst fs) xs) as [l|] eqn:Bl; cbn [rbind] in E; [|discriminate].
    injection E as <-.
    rewrite map_length in Lv.
    apply read_fields_spec in R; [|rewrite map_length; auto].
    assert (Nb : NoDup (map fst (by_name fs))) by (rewrite (Permutation_map fst (by_name_perm _ fs)); auto).
    assert (XS : map fst xs = map fst (by_name fs) /\ forall n t x w, In (n, t) (by_name fs) -> In (n, x) xs ->
              In (SSymbol n, w) m -> from_val t w = Ok x).
    { clear - R Em Lv Nb. revert vs xs m R Em Lv Nb. generalize (by_name fs).
      induction l as [|[n t] l IH]; intros [|v vs] xs m R Em Lv Nb; try discriminate; cbn in R.
      - inversion R; subst. cbn. split; auto. intros; contradiction.
      - inversion R as [|? [n' x] ? xs' [H1 H2] R']; subst. cbn in *. subst n'.
        injection Lv as Lv. inversion Nb as [|? ? Nn Nb']; subst.
        destruct (IH vs xs' _ R' eq_refl Lv Nb') as (M & S). split; [congruence|].
        assert (KS : forall w, In (SSymbol n, w) (combine (map SSymbol (map fst l)) vs) -> False).
        { intros w I. apply in_combine_l in I. apply in_map_iff in I. destruct I as (q & Hq & I). injection Hq as ->. auto. }
        intros n0 t0 x0 w0 I1 I2 I3.
        destruct (list_eq_dec Z.eq_dec n0 n) as [->|Ne].
        + destruct I1 as [I1|I1]; [|exfalso; apply Nn; change n with (fst (n, t0)); now apply in_map].
          destruct I2 as [I2|I2]; [|exfalso; apply Nn; rewrite <- M; change n with (fst (n, x0)); now apply in_map].
          destruct I3 as [I3|I3]; [|exfalso; eauto].
          congruence.
        + destruct I1 as [I1|I1]; [congruence|]. destruct I2 as [I2|I2]; [congruence|]. destruct I3 as [I3|I3]; [congruence|].
          eauto. }
    destruct XS as (Mx & XS).
    assert (Km : map fst m = map SSymbol (map fst (by_name fs))).
    { rewrite Em. clear -Lv. revert vs Lv. generalize (by_name fs). induction l as [|a l IH]; intros [|v vs] L; try discriminate; cbn; auto.
      f_equal. apply IH. cbn in L. lia. }
    assert (Hn : forall n, In n (map fst fs) -> In n (map fst xs)).
    { intros n I. rewrite Mx, (Permutation_map fst (by_name_perm _ fs)). exact I. }
    destruct (build_ok (map fst fs) xs Hn) as (l' & B1 & B2 & B3). rewrite Bl in B1. injection B1 as <-.
    eapply sh_struct with (ks := map fst (by_name fs)); auto.
    + now apply by_name_asc.
    + apply Permutation_map. apply by_name_perm.
    + intros n t x w I1 I2 I3. apply (H n t I1); [exact (T _ I1)|eapply sc_typed_map; [exact W|exact I3]|].
      eapply XS; eauto. rewrite by_name_perm. exact I1.
  - cbn [from_val] in E. destruct v; try discriminate. destruct l as [l|]; [|discriminate].
    destruct l as [|s r]; [discriminate|]. destruct s; try discriminate.
    cbn in T. destruct T as (N & V & T). rewrite allP_forall in T.
    destruct (symbol_index_in_strs b (map fst cs)) as [i|] eqn:I; cbn [rbind] in E; [|discriminate].
    apply symbol_index_inv, nth_error_map_inv in I. destruct I as ([n ot] & I & Hn). cbn in Hn. subst b.
    rewrite (map_nth_error _ _ _ I) in E. cbn [snd] in E. assert (J := nth_error_In _ _ I).
    destruct ot as [t|].
    + destruct r as [|x r]; [discriminate|]. destruct (from_val t x) as [y|] eqn:F; cbn [rbind] in E; [|discriminate].
      injection E as <-. eapply sh_case_arg; eauto; [|discriminate].
      apply (H n t J); auto. { exact (T _ J). } cbn in W. tauto.
    + injection E as <-. eapply sh_case; eauto. discriminate.
Qed.

Lemma shows_from_val s t : forall d v, type_ok t -> shows s t d v -> from_val t v = Ok d.
Proof.
  induction t using ty_rect_; intros d v T S.
  - destruct t; try (exfalso; (eapply H; reflexivity) || (eapply H0; reflexivity)); inversion S; subst; cbn; auto.
    + rewrite (proj1 (plain_muxed a)); auto.
    + rewrite Nat.eqb_refl. reflexivity.
    + rewrite i128_from_pieces_eq by assumption. reflexivity.
  - inversion S as [| | | | | | | | | |fs' l m ks M Km A P F| |]; subst.
    cbn in T. destruct T as (N & V & T). rewrite allP_forall in T.
    assert (ks = map fst (by_name fs)).
    { apply asc_unique; auto. { now apply by_name_asc. }
      rewrite P. symmetry. apply Permutation_map, by_name_perm. }
    subst ks. assert (Nl : NoDup (map fst l)) by (rewrite M; auto).
    assert (Lm : length m = length (by_name fs)) by (apply (f_equal (@length _)) in Km; rewrite !map_length in Km; auto).
    cbn [from_val]. rewrite struct_readers, map_fst_pair.
    assert (U : unpack_dense (map fst (by_name fs)) m = Ok (map snd m)).
    { apply unpack_dense_spec. split; [rewrite <- Km; symmetry; apply combine_fst_snd|rewrite !map_length; auto]. }
    rewrite U. cbn [rbind].
    assert (XS : exists xs, Forall2 (fun (q : (name * (scval -> res dat)) * scval) (x : name * dat) =>
        (fst x = fst (fst q) /\ snd (fst q) (snd q) = Ok (snd x)) /\ In x l)
        (combine (map (fun p => (fst p, from_val (snd p))) (by_name fs)) (map snd m)) xs).
    { apply forall2_choice. intros [[n f] w] I.
      assert (exists t, In (n, t) (by_name fs) /\ f = from_val t /\ In (SSymbol n, w) m) as (t & I1 & -> & I3).
      { clear - I Km. revert m Km I. generalize (by_name fs). induction l as [|[n' t'] l IH]; intros [|[k' w'] m] Km I; cbn in *; try discriminate; try contradiction.
        injection Km as -> Km. destruct I as [I|I].
        - injection I as -> <- ->. exists t'. auto.
        - destruct (IH m Km I) as (t & ? & ? & ?). exists t. auto. }
      rewrite by_name_perm in I1.
      assert (In n (map fst l)) as Hn by (rewrite M; change n with (fst (n, t)); now apply in_map).
      destruct (field_some _ n l Hn) as (x & _ & Ix).
      exists (n, x). cbn. split; auto. split; auto.
      apply (H n t I1); [exact (T _ I1)|]. eauto. }
    destruct XS as (xs & XS).
    assert (R : read_fields (map (fun p => (fst p, from_val (snd p))) (by_name fs)) (map snd m) = Ok xs).
    { apply read_fields_spec. { rewrite !map_length. auto. }
      clear -XS. induction XS; constructor; auto. tauto. }
    rewrite R. cbn [rbind].
    assert (Mx : map fst xs = map fst (by_name fs)).
    { clear -XS Lm. revert m xs Lm XS. generalize (by_name fs). induction l0 as [|a l0 IH]; intros [|b m] xs L X; try discriminate; cbn in *.
      - now inversion X.
      - inversion X as [|? x ? xs' [[E _] _] X']; subst. cbn. rewrite E. f_equal. eapply IH; eauto. }
    assert (Hn : forall n, In n (map fst fs) -> In n (map fst xs)).
    { intros n I. rewrite Mx, (Permutation_map fst (by_name_perm _ fs)). exact I. }
    destruct (build_ok (map fst fs) xs Hn) as (l' & B1 & B2 & B3). rewrite B1. cbn [rbind]. do 2 f_equal.
    apply same_fields; auto; [exact (eq_trans B2 (eq_sym M))|]. intros [n x] I. apply B3 in I.
    destruct (forall2_left _ _ _ _ _ _ XS I) as (q & _ & _ & Il). exact Il.
  - cbn in T. destruct T as (N & V & T). rewrite allP_forall in T.
    inversion S as [| | | | | | | | | | |cs' i n rest I _|cs' i n t x w rest I Sx _]; subst; cbn [from_val].
    + rewrite (symbol_index_ok n _ i N) by (apply (map_nth_error fst _ _ I)). cbn [rbind].
      rewrite (map_nth_error _ _ _ I). reflexivity.
    + rewrite (symbol_index_ok n _ i N) by (apply (map_nth_error fst _ _ I)). cbn [rbind].
      rewrite (map_nth_error _ _ _ I). cbn [snd]. assert (J := nth_error_In _ _ I).
      rewrite (H n t J x w (T _ J) Sx). reflexivity.
Qed.

(* --------------------------------------------------------------- consequences *)

Lemma shows_loosely s t : forall d v, shows s t d v -> shows false t d v.
Proof.
  induction t using ty_rect_; intros d v S.
  - destruct t; try (exfalso; (eapply H; reflexivity) || (eapply H0; reflexivity)); inversion S; subst; now constructor.
  - inversion S; subst. econstructor; eauto.
  - inversion S as [| | | | | | | | | | |cs' i n rest I _|cs' i n t x w rest I Sx _]; subst.
    + eapply sh_case; eauto. discriminate.
    + eapply sh_case_arg; eauto; [|discriminate]. eapply H; eauto. eapply nth_error_In; eauto.
Qed.

Lemma shows_strictly_once t : forall d v v', type_ok t -> shows true t d v -> shows true t d v' -> v = v'.
Proof.
  induction t using ty_rect_; intros d v v' T S S'.
  - destruct t; try (exfalso; (eapply H; reflexivity) || (eapply H0; reflexivity)); inversion S; subst; inversion S'; subst; auto.
    assert (hi0 = hi /\ lo0 = lo) by lia. f_equal; lia.
  - inversion S as [| | | | | | | | | |fs' l m ks M Km A P F| |]; subst.
    inversion S' as [| | | | | | | | | |fs' l' m' ks' M' Km' A' P' F'| |]; subst.
    cbn in T. destruct T as (N & V & T). rewrite allP_forall in T.
    assert (ks' = ks) by (apply asc_unique; auto; rewrite P; auto). subst ks'.
    do 2 f_equal.
    assert (Nl : NoDup (map fst l)) by (rewrite M; auto).
    assert (G : forall q q', map fst q = map fst q' -> incl q m -> incl q' m' -> q = q').
    { induction q as [|[k w] q IH]; intros [|[k' w'] q'] E I I'; try discriminate; auto. cbn in E. injection E as <- E.
      f_equal; [|apply IH; auto; intros p Hp; [apply I|apply I']; cbn; auto]. f_equal.
      assert (Iw : In (k, w) m) by (apply I; cbn; auto). assert (Iw' : In (k, w') m') by (apply I'; cbn; auto).
      assert (exists n, k = SSymbol n /\ In n (map fst fs)) as (n & -> & In_).
      { assert (Ik : In k (map SSymbol ks)) by (rewrite <- Km; change k with (fst (k, w)); now apply in_map).
        apply in_map_iff in Ik. destruct Ik as (n & <- & Ik). exists n. split; auto. now rewrite <- P. }
      destruct (field_some _ n fs In_) as (t & _ & It).
      assert (Hn : In n (map fst l)) by now rewrite M.
      destruct (field_some _ n l Hn) as (x & _ & Ix).
      apply (H n t It x); eauto. exact (T _ It). }
    apply G; try apply incl_refl. congruence.
  - cbn in T. destruct T as (N & V & T). rewrite allP_forall in T.
    inversion S as [| | | | | | | | | | |cs' i n rest I R|cs' i n t x w rest I Sx R]; subst;
    inversion S' as [| | | | | | | | | | |cs'' i' n' rest' I' R'|cs'' i' n' t' x' w' rest' I' Sx' R']; subst;
    rewrite (R eq_refl), (R' eq_refl).
    + congruence.
    + assert (n' = n /\ t' = t) as (-> & ->) by (split; congruence). rewrite (H n t (nth_error_In _ _ I) x w w'); auto. exact (T _ (nth_error_In _ _ I)).
Qed.

Lemma shows_no_enum t : forall d v, no_enum t -> shows false t d v -> shows true t d v.
Proof.
  induction t using ty_rect_; intros d v T S.
  - destruct t; try (exfalso; (eapply H; reflexivity) || (eapply H0; reflexivity)); inversion S; subst; now constructor.
  - cbn in T. rewrite allP_forall in T. inversion S; subst. econstructor; eauto. intros.
    eapply H; eauto. exact (T _ H0).
  - contradiction.
Qed.

Lemma shows_datum t : forall s d v, type_ok t -> sc_typed v -> shows s t d v -> datum t d.
Proof.
  induction t using ty_rect_; intros s d v T W S.
  - destruct t; try (exfalso; (eapply H; reflexivity) || (eapply H0; reflexivity)); inversion S; subst; cbn [datum]; auto.
    + cbn in W. unfold u32_max. lia.
    + change (- 2 ^ 127) with (- 2 ^ 63 * 2 ^ 64). change (2 ^ 127) with (2 ^ 63 * 2 ^ 64). nia.
  - inversion S as [| | | | | | | | | |fs' l m ks M Km A P F| |]; subst.
    cbn in T |- *. destruct T as (N & V & T). rewrite allP_forall in *. split; auto.
    intros [n t] I x Ix. cbn in *.
    assert (In n ks) as Hn by (rewrite P; change n with (fst (n, t)); now apply in_map).
    assert (Hm : In (SSymbol n) (map fst m)) by (rewrite Km; now apply in_map).
    apply in_map_iff in Hm. destruct Hm as ([k w] & Hk & Hm). cbn in Hk. subst k.
    apply (H n t I s x w); eauto. { exact (T _ I). } eapply sc_typed_map; eauto.
  - cbn in T |- *. destruct T as (N & V & T). rewrite allP_forall in T.
    inversion S as [| | | | | | | | | | |cs' i n rest I R|cs' i n t x w rest I Sx R]; subst;
      rewrite (map_nth_error _ _ _ I); cbn [snd]; auto.
    apply (H n t (nth_error_In _ _ I) s x w); [exact (T _ (nth_error_In _ _ I))|cbn in W; tauto|exact Sx].
Qed.
