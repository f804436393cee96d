(* What is accepted as a point, and what is returned for one. *)
From Coq Require Import ZArith Lia List Bool.
From Verif Require Import Prelude GuestModel FieldModel FieldSpec IntSpec IntProofs2 PointModel PointSpec PointProofs.
Import ListNotations.
Open Scope Z_scope.
Ltac Zify.zify_post_hook ::= idtac.

Definition pt_rd (g : group) (bs : list Z) : option point :=
  match elem_rd g (chunk (el_size g) 0 bs), elem_rd g (chunk (el_size g) 1 bs) with
  | Some x, Some y => Some (Aff x y)
  | _, _ => None
  end.

Lemma pt_size_two g : pt_size g = (el_size g * 2)%nat.
Proof. unfold pt_size. lia. Qed.

Lemma pt_rd_spec g bs x y : bytes bs -> length bs = pt_size g ->
  pt_rd g bs = Some (Aff x y)
  <-> exists bx by_, bs = bx ++ by_ /\ elem_bytes g bx x /\ elem_bytes g by_ y.
Proof.
  intros B Ln. rewrite pt_size_two in Ln. unfold pt_rd.
  assert (L0 := chunk_length _ 0 _ _ Ln ltac:(lia)). assert (L1 := chunk_length _ 1 _ _ Ln ltac:(lia)).
  assert (B0 := chunk_bytes (el_size g) 0 _ B). assert (B1 := chunk_bytes (el_size g) 1 _ B).
  split.
  - destruct (elem_rd g (chunk (el_size g) 0 bs)) as [x'|] eqn:E0; [|discriminate].
    destruct (elem_rd g (chunk (el_size g) 1 bs)) as [y'|] eqn:E1; [|discriminate].
    intros [= <- <-]. apply elem_rd_spec in E0, E1; try assumption.
    exists (chunk (el_size g) 0 bs), (chunk (el_size g) 1 bs).
    split; [apply chunk_halves; exact Ln|auto].
  - intros (bx & by_ & -> & Hx & Hy).
    destruct (elem_bytes_ok _ _ _ Hx) as [Bx Lx]. destruct (elem_bytes_ok _ _ _ Hy) as [By Ly].
    rewrite chunk_app0, chunk_app1 by assumption.
    apply elem_rd_spec in Hx, Hy; try assumption. rewrite Hx, Hy. reflexivity.
Qed.
Lemma pt_rd_aff g bs p : pt_rd g bs = Some p -> exists x y, p = Aff x y.
Proof.
  unfold pt_rd. destruct (elem_rd _ _); [|discriminate]. destruct (elem_rd _ _); [|discriminate].
  intros [= <-]. eauto.
Qed.

(* ---------------------------------------------------------- the top byte *)

Lemma fp_top c bs a : fp_bytes c bs a -> nth 0 bs 0 < match c with Bls => 32 | Bn => 64 end.
Proof.
  intros (B & Ln & E & H). destruct bs as [|b bs]; [destruct c; discriminate|].
  cbn [nth big_endian] in *. inversion B as [|? ? Hb Hbs]; subst.
  assert (R := big_endian_range bs Hbs).
  destruct c; cbn [fp_size length] in Ln; injection Ln as Ln; rewrite Ln in *;
    clear Ln B Hbs.
  - apply Z.nle_gt. intros C.
    assert (32 * 256 ^ Z.of_nat 47 <= b * 256 ^ Z.of_nat 47)
      by (apply Z.mul_le_mono_nonneg_r; [apply Z.pow_nonneg; lia|exact C]).
    assert (base Bls <= 32 * 256 ^ Z.of_nat 47) by (vm_compute; discriminate). lia.
  - apply Z.nle_gt. intros C.
    assert (64 * 256 ^ Z.of_nat 31 <= b * 256 ^ Z.of_nat 31)
      by (apply Z.mul_le_mono_nonneg_r; [apply Z.pow_nonneg; lia|exact C]).
    assert (base Bn <= 64 * 256 ^ Z.of_nat 31) by (vm_compute; discriminate). lia.
Qed.

Lemma fp_nonempty c bs a : fp_bytes c bs a -> exists b t, bs = b :: t.
Proof. intros (_ & Ln & _). destruct bs; [destruct c; discriminate|eauto]. Qed.

Lemma elem_top g bs e : elem_bytes g bs e ->
  nth 0 bs 0 < match curve_of g with Bls => 32 | Bn => 64 end.
Proof.
  destruct e as [a|a b]; cbn [elem_bytes].
  - intros [_ H]. exact (fp_top _ _ _ H).
  - intros [_ (hi & lo & -> & H & _)]. destruct (fp_nonempty _ _ _ H) as (z & t & ->).
    exact (fp_top _ _ _ H).
Qed.
Lemma elem_nonempty g bs e : elem_bytes g bs e -> exists b t, bs = b :: t.
Proof.
  intros H. apply elem_bytes_ok in H. destruct H as [_ H]. destruct bs; [|eauto].
  destruct g; discriminate.
Qed.

Lemma coords_top g bx by_ x : elem_bytes g bx x ->
  nth 0 (bx ++ by_) 0 < match curve_of g with Bls => 32 | Bn => 64 end.
Proof.
  intros H. destruct (elem_nonempty _ _ _ H) as (b & t & ->). exact (elem_top _ _ _ H).
Qed.

(* -------------------------------------------------------------- BLS12-381 *)

Lemma read_uncompressed_rd g bs : curve_of g = Bls -> length bs = pt_size g ->
  0 <= nth 0 bs 0 < 32 -> read_uncompressed g bs = pt_rd g bs.
Proof.
  intros Hc Ln H. destruct (top_byte _ H) as (T1 & T2 & T3).
  unfold read_uncompressed. rewrite T2, T3.
  assert (M : masked (chunk 48 0 bs) = chunk 48 0 bs).
  { destruct bs as [|b bs]; [reflexivity|]. cbn [nth] in T1.
    change (chunk 48 0 (b :: bs)) with (b :: firstn 47 bs). cbn [masked]. rewrite T1. reflexivity. }
  rewrite M, !read_be_rd. unfold pt_rd, elem_rd.
  destruct g; try discriminate; cbn [quad el_size fp_size curve_of].
  - destruct (rd _ _); [|reflexivity]. destruct (rd _ _); reflexivity.
  - change (el_size BlsG2) with (2 * 48)%nat. rewrite !chunk_chunk by lia.
    change (0 * 2 + 0)%nat with 0%nat. change (0 * 2 + 1)%nat with 1%nat.
    change (1 * 2 + 0)%nat with 2%nat. change (1 * 2 + 1)%nat with 3%nat.
    destruct (rd _ (chunk 48 0 bs)); [|reflexivity]. destruct (rd _ (chunk 48 1 bs)); [|reflexivity].
    destruct (rd _ (chunk 48 2 bs)); [|reflexivity]. destruct (rd _ (chunk 48 3 bs)); reflexivity.
Qed.

Lemma forallb_zero l : forallb (fun x => x =? 0) l = true <-> l = repeat 0 (length l).
Proof.
  induction l as [|x l IH]; [split; reflexivity|]. cbn [forallb length repeat].
  rewrite andb_true_iff, IH, Z.eqb_eq. split.
  - intros [-> H]. f_equal. exact H.
  - intros [= E1 E2]. auto.
Qed.

Lemma infinity_length g : length (infinity_bytes g) = pt_size g.
Proof. destruct g; reflexivity. Qed.
Lemma infinity_is_bytes g : bytes (infinity_bytes g).
Proof.
  unfold infinity_bytes. destruct (curve_of g); [constructor; [lia|]|];
    apply Forall_forall; intros x Hx; apply repeat_spec in Hx; lia.
Qed.

Lemma encodes_length g bs p : encodes g bs p -> length bs = pt_size g.
Proof.
  destruct p as [|x y]; cbn [encodes].
  - intros ->. apply infinity_length.
  - intros (_ & bx & by_ & -> & Hx & Hy). apply elem_bytes_ok in Hx, Hy.
    rewrite app_length. unfold pt_size. lia.
Qed.
Lemma encodes_bytes g bs p : encodes g bs p -> bytes bs.
Proof.
  destruct p as [|x y]; cbn [encodes].
  - intros ->. apply infinity_is_bytes.
  - intros (_ & bx & by_ & -> & Hx & Hy). apply elem_bytes_ok in Hx, Hy.
    apply bytes_app. tauto.
Qed.
Lemma encodes_point g bs p : encodes g bs p -> point_of g p.
Proof.
  destruct p as [|x y]; cbn [encodes point_of]; [auto|].
  intros (_ & bx & by_ & _ & Hx & Hy). split; eapply elem_bytes_of; eassumption.
Qed.

(* what the encoding alone decides *)
Lemma bls_read g bs p : curve_of g = Bls -> bytes bs ->
  (validate_point_encoding g bs = Ok tt /\ read_uncompressed g bs = Some p) <-> encodes g bs p.
Proof.
  intros Hc B. unfold validate_point_encoding.
  destruct (Nat.eqb (length bs) (pt_size g)) eqn:Ln; cbn [negb].
  2:{ apply Nat.eqb_neq in Ln. split; [intros [? _]; discriminate|].
      intros H. apply encodes_length in H. contradiction. }
  apply Nat.eqb_eq in Ln.
  destruct bs as [|b t]; [destruct g; discriminate|]. cbn [nth tl].
  inversion B as [|? ? Hb Ht]; subst.
  destruct (Z.land 224 b =? 64) eqn:F64.
  - destruct ((b =? 64) && forallb (fun x => x =? 0) t) eqn:I.
    + apply andb_prop in I. destruct I as [I1 I2]. apply Z.eqb_eq in I1. subst b.
      apply forallb_zero in I2.
      assert (E : 64 :: t = infinity_bytes g).
      { unfold infinity_bytes. rewrite Hc. f_equal. rewrite I2. f_equal.
        cbn [length] in Ln. lia. }
      rewrite E. assert (R : read_uncompressed g (infinity_bytes g) = Some Inf).
      { destruct g; try discriminate; vm_compute; reflexivity. }
      rewrite R. split.
      * intros [_ [= <-]]. reflexivity.
      * destruct p as [|x y]; [auto|]. cbn [encodes]. intros [H _]. contradiction.
    + split; [intros [? _]; discriminate|]. intros H. exfalso.
      destruct p as [|x y]; cbn [encodes] in H.
      * unfold infinity_bytes in H. rewrite Hc in H. injection H as -> ->.
        rewrite Z.eqb_refl in I. cbn [andb] in I.
        assert (forallb (fun x => x =? 0) (repeat 0 (pt_size g - 1)) = true)
          by (apply forallb_zero; rewrite repeat_length; reflexivity). congruence.
      * destruct H as (_ & bx & by_ & E & Hx & _). apply (coords_top _ _ by_) in Hx.
        rewrite <- E, Hc in Hx. cbn [nth] in Hx. apply Z.eqb_eq in F64.
        assert (F := flags_zero b Hb). assert (L : (b <? 32) = true) by (apply Z.ltb_lt; exact Hx).
        rewrite L, F64 in F. discriminate.
  - assert (NI : b :: t <> infinity_bytes g).
    { unfold infinity_bytes. rewrite Hc. intros [= -> _]. discriminate. }
    rewrite flags_zero by exact Hb. destruct (b <? 32) eqn:L.
    + apply Z.ltb_lt in L. rewrite read_uncompressed_rd; [|exact Hc|exact Ln|cbn [nth]; lia].
      split.
      * intros [_ H]. destruct (pt_rd_aff _ _ _ H) as (x & y & ->).
        apply pt_rd_spec in H; [|assumption|assumption]. split; assumption.
      * intros H. split; [reflexivity|]. destruct p as [|x y]; [contradiction|].
        destruct H as [_ H]. apply pt_rd_spec; assumption.
    + apply Z.ltb_ge in L. split; [intros [? _]; discriminate|]. intros H. exfalso.
      destruct p as [|x y]; [contradiction|].
      destruct H as (_ & bx & by_ & E & Hx & _). apply (coords_top _ _ by_) in Hx.
      rewrite <- E, Hc in Hx. cbn [nth] in Hx. lia.
Qed.

Lemma validate_err g bs : validate_point_encoding g bs = Ok tt
  \/ validate_point_encoding g bs = Err INVALID_INPUT.
Proof.
  unfold validate_point_encoding. destruct (negb _); [auto|].
  destruct (_ =? 64); [destruct (_ && _); auto|]. destruct (_ =? 0); auto.
Qed.

(* ------------------------------------------------------------------ BN254 *)

Lemma bn_read g bs p : curve_of g = Bn -> bytes bs ->
  (exists i, bn254_validate_flags_and_check_infinity g bs = Ok i
     /\ if i then p = Inf
        else exists x y, field_element_deserialize g (chunk (el_size g) 0 bs) = Ok x
             /\ field_element_deserialize g (chunk (el_size g) 1 bs) = Ok y /\ p = Aff x y)
  <-> encodes g bs p.
Proof.
  intros Hc B. unfold bn254_validate_flags_and_check_infinity.
  destruct (Nat.eqb (length bs) (pt_size g)) eqn:Ln; cbn [negb].
  2:{ apply Nat.eqb_neq in Ln. split; [intros (i & ? & _); discriminate|].
      intros H. apply encodes_length in H. contradiction. }
  apply Nat.eqb_eq in Ln.
  assert (Hb : 0 <= nth 0 bs 0 < 256).
  { destruct bs as [|b t]; [destruct g; discriminate|]. inversion B. assumption. }
  rewrite flags_bn by exact Hb.
  assert (Inf_iff : forallb (fun b => b =? 0) bs = true <-> bs = infinity_bytes g).
  { rewrite forallb_zero, Ln. unfold infinity_bytes. rewrite Hc. reflexivity. }
  destruct (nth 0 bs 0 <? 64) eqn:L; cbn [negb].
  - destruct (forallb (fun b => b =? 0) bs) eqn:I.
    + assert (E := proj1 Inf_iff eq_refl). split.
      * intros (i & [= <-] & ->). exact E.
      * intros H. exists true. split; [reflexivity|]. destruct p as [|x y]; [reflexivity|].
        destruct H as [H _]. contradiction.
    + assert (NI : bs <> infinity_bytes g) by (intros E; apply Inf_iff in E; discriminate).
      rewrite pt_size_two in Ln.
      assert (L0 := chunk_length _ 0 _ _ Ln ltac:(lia)). assert (L1 := chunk_length _ 1 _ _ Ln ltac:(lia)).
      assert (B0 := chunk_bytes (el_size g) 0 _ B). assert (B1 := chunk_bytes (el_size g) 1 _ B).
      split.
      * intros (i & [= <-] & x & y & Hx & Hy & ->).
        apply field_element_ok in Hx, Hy; try assumption. split; [exact NI|].
        exists (chunk (el_size g) 0 bs), (chunk (el_size g) 1 bs).
        split; [apply chunk_halves; exact Ln|auto].
      * intros H. destruct p as [|x y]; [contradiction|].
        destruct H as (_ & bx & by_ & -> & Hx & Hy).
        destruct (elem_bytes_ok _ _ _ Hx) as [Bx Lx]. destruct (elem_bytes_ok _ _ _ Hy) as [By Ly].
        exists false. split; [reflexivity|]. exists x, y.
        rewrite chunk_app0, chunk_app1 by assumption.
        rewrite !field_element_ok by assumption. auto.
  - apply Z.ltb_ge in L. split; [intros (i & ? & _); discriminate|]. intros H. exfalso.
    destruct p as [|x y]; cbn [encodes] in H.
    + rewrite H in L. unfold infinity_bytes in L. rewrite Hc in L.
      destruct g; try discriminate; vm_compute in L; apply L; reflexivity.
    + destruct H as (_ & bx & by_ & -> & Hx & _). apply (coords_top _ _ by_) in Hx.
      rewrite Hc in Hx. lia.
Qed.

(* ------------------------------------------------------------- acceptance *)

Section Lib.
Variable L : library.

Lemma affine_deserialize_err g bs m : (exists p, affine_deserialize L g bs m = Ok p)
  \/ affine_deserialize L g bs m = Err INVALID_INPUT.
Proof.
  unfold affine_deserialize. destruct (validate_err g bs) as [E|E]; rewrite E; cbn [rbind]; [|auto].
  destruct (read_uncompressed _ bs); [|auto].
  destruct (_ && negb (is_on_curve _ _)); [auto|]. destruct (_ && negb (in_subgroup _ _ _)); eauto.
Qed.

Lemma deserialize_err g bs m : (exists p, deserialize L g bs m = Ok p)
  \/ deserialize L g bs m = Err INVALID_INPUT.
Proof.
  destruct g; cbn [deserialize].
  - apply affine_deserialize_err.
  - apply affine_deserialize_err.
  - unfold bn254_g1_affine_deserialize, bn254_validate_flags_and_check_infinity.
    destruct (negb _); [auto|]. destruct (negb _); [auto|]. cbn [rbind].
    destruct (forallb _ bs); [eauto|].
    destruct (field_element_err BnG1 (chunk 32 0 bs)) as [E|(x & E)]; rewrite E; cbn [rbind]; [auto|].
    destruct (field_element_err BnG1 (chunk 32 1 bs)) as [E'|(y & E')]; rewrite E'; cbn [rbind]; [auto|].
    destruct (_ && _); eauto.
  - unfold bn254_g2_affine_deserialize, bn254_validate_flags_and_check_infinity.
    destruct (negb _); [auto|]. destruct (negb _); [auto|]. cbn [rbind].
    destruct (forallb _ bs); [eauto|].
    destruct (field_element_err BnG2 (chunk 64 0 bs)) as [E|(x & E)]; rewrite E; cbn [rbind]; [auto|].
    destruct (field_element_err BnG2 (chunk 64 1 bs)) as [E'|(y & E')]; rewrite E'; cbn [rbind]; [auto|].
    destruct (negb _); [auto|]. destruct (negb _); eauto.
Qed.

Lemma bls_accepts g bs m p : curve_of g = Bls -> bytes bs ->
  affine_deserialize L g bs m = Ok p <-> argument L g m bs p.
Proof.
  intros Hc B. unfold argument.
  assert (R := bls_read g bs). unfold affine_deserialize.
  destruct (validate_err g bs) as [E|E]; rewrite E; cbn [rbind].
  2:{ split; [discriminate|]. intros (_ & H & _). apply R in H; [|assumption|assumption].
      destruct H as [H _]. congruence. }
  destruct (read_uncompressed g bs) as [pt|] eqn:Er.
  2:{ split; [discriminate|]. intros (_ & H & _). apply R in H; [|assumption|assumption].
      destruct H as [_ H]. discriminate. }
  assert (En : encodes g bs pt) by (apply R; auto).
  assert (P := encodes_point _ _ _ En). assert (S := is_on_curve_solves g pt P).
  assert (Eq : encodes g bs p -> p = pt).
  { intros H. apply R in H; [|assumption|assumption]. destruct H as [_ H]. congruence. }
  assert (N2 : g <> BnG2) by (destruct g; discriminate).
  assert (N1 : g <> BnG1) by (destruct g; discriminate).
  split.
  - intros H.
    assert (Hp : p = pt).
    { destruct (_ && _) in H; [discriminate|]. destruct (_ && _) in H; [discriminate|]. congruence. }
    subst p. split; [exact B|]. split; [exact En|]. split.
    + intros [M|M]; [|contradiction]. apply S.
      destruct m; [congruence| |]; cbn [andb] in H; destruct (is_on_curve g pt); cbn [negb] in H; congruence.
    + intros [[M _]|M]; [|contradiction]. subst m. cbn [andb] in H.
      destruct (is_on_curve g pt); cbn [negb] in H; [|discriminate].
      destruct (in_subgroup L g pt); cbn [negb] in H; congruence.
  - intros (_ & He & D1 & D2). apply Eq in He. subst p.
    destruct m; cbn [andb].
    + reflexivity.
    + rewrite (proj2 S) by (apply D1; left; discriminate). reflexivity.
    + rewrite (proj2 S) by (apply D1; left; discriminate). cbn [negb].
      rewrite D2 by (left; auto). reflexivity.
Qed.

Lemma bn1_accepts bs m p : bytes bs ->
  bn254_g1_affine_deserialize bs m = Ok p <-> argument L BnG1 m bs p.
Proof.
  intros B. unfold argument. assert (R := bn_read BnG1 bs).
  unfold bn254_g1_affine_deserialize.
  change (el_size BnG1) with 32%nat in R.
  destruct (bn254_validate_flags_and_check_infinity BnG1 bs) as [i|e] eqn:Ev; cbn [rbind].
  2:{ split; [discriminate|]. intros (_ & H & _). apply R in H; [|reflexivity|assumption].
      destruct H as (i & H & _). discriminate. }
  destruct i.
  { split.
    - intros [= <-]. split; [exact B|]. split; [apply R; [reflexivity|assumption|]; exists true; split; reflexivity|].
      split; [intros _; exact I|]. intros [[_ H]|H]; congruence.
    - intros (_ & H & _). apply R in H; [|reflexivity|assumption].
      destruct H as (i & [= <-] & ->). reflexivity. }
  destruct (field_element_deserialize BnG1 (chunk 32 0 bs)) as [x|e] eqn:Ex; cbn [rbind].
  2:{ split; [discriminate|]. intros (_ & H & _). apply R in H; [|reflexivity|assumption].
      destruct H as (i & [= <-] & x & y & H & _). discriminate. }
  destruct (field_element_deserialize BnG1 (chunk 32 1 bs)) as [y|e] eqn:Ey; cbn [rbind].
  2:{ split; [discriminate|]. intros (_ & H & _). apply R in H; [|reflexivity|assumption].
      destruct H as (i & [= <-] & x' & y & _ & H & _). discriminate. }
  assert (En : encodes BnG1 bs (Aff x y)).
  { apply R; [reflexivity|assumption|]. exists false. split; [reflexivity|]. exists x, y. auto. }
  assert (P := encodes_point _ _ _ En). assert (S := is_on_curve_solves BnG1 _ P).
  assert (Eq : encodes BnG1 bs p -> p = Aff x y).
  { intros H. apply R in H; [|reflexivity|assumption].
    destruct H as (i & [= <-] & x' & y' & [= <-] & [= <-] & ->). reflexivity. }
  split.
  - intros H. assert (Hp : p = Aff x y) by (destruct (_ && _) in H; [discriminate|congruence]).
    subst p. split; [exact B|]. split; [exact En|]. split.
    + intros [M|M]; [|discriminate]. apply S.
      destruct m; [congruence| |]; cbn [andb] in H; destruct (is_on_curve BnG1 (Aff x y)); cbn [negb] in H; congruence.
    + intros [[_ M]|M]; congruence.
  - intros (_ & He & D1 & _). apply Eq in He. subst p.
    destruct m; [reflexivity| |]; rewrite (proj2 S) by (apply D1; left; discriminate); reflexivity.
Qed.

Lemma bn2_accepts bs m p : in_subgroup L BnG2 Inf = true -> bytes bs ->
  bn254_g2_affine_deserialize L bs = Ok p <-> argument L BnG2 m bs p.
Proof.
  intros HI B. unfold argument. assert (R := bn_read BnG2 bs).
  unfold bn254_g2_affine_deserialize.
  change (el_size BnG2) with 64%nat in R.
  destruct (bn254_validate_flags_and_check_infinity BnG2 bs) as [i|e] eqn:Ev; cbn [rbind].
  2:{ split; [discriminate|]. intros (_ & H & _). apply R in H; [|reflexivity|assumption].
      destruct H as (i & H & _). discriminate. }
  destruct i.
  { split.
    - intros [= <-]. split; [exact B|]. split; [apply R; [reflexivity|assumption|]; exists true; split; reflexivity|].
      split; [intros _; exact I|]. intros _. exact HI.
    - intros (_ & H & _). apply R in H; [|reflexivity|assumption].
      destruct H as (i & [= <-] & ->). reflexivity. }
  destruct (field_element_deserialize BnG2 (chunk 64 0 bs)) as [x|e] eqn:Ex; cbn [rbind].
  2:{ split; [discriminate|]. intros (_ & H & _). apply R in H; [|reflexivity|assumption].
      destruct H as (i & [= <-] & x & y & H & _). discriminate. }
  destruct (field_element_deserialize BnG2 (chunk 64 1 bs)) as [y|e] eqn:Ey; cbn [rbind].
  2:{ split; [discriminate|]. intros (_ & H & _). apply R in H; [|reflexivity|assumption].
      destruct H as (i & [= <-] & x' & y & _ & H & _). discriminate. }
  assert (En : encodes BnG2 bs (Aff x y)).
  { apply R; [reflexivity|assumption|]. exists false. split; [reflexivity|]. exists x, y. auto. }
  assert (P := encodes_point _ _ _ En). assert (S := is_on_curve_solves BnG2 _ P).
  assert (Eq : encodes BnG2 bs p -> p = Aff x y).
  { intros H. apply R in H; [|reflexivity|assumption].
    destruct H as (i & [= <-] & x' & y' & [= <-] & [= <-] & ->). reflexivity. }
  split.
  - intros H.
    destruct (is_on_curve BnG2 (Aff x y)) eqn:Ec; cbn [negb] in H; [|discriminate].
    destruct (in_subgroup L BnG2 (Aff x y)) eqn:Es; cbn [negb] in H; [|discriminate].
    injection H as <-. split; [exact B|]. split; [exact En|]. split.
    + intros _. apply S. reflexivity.
    + intros _. exact Es.
  - intros (_ & He & D1 & D2). apply Eq in He. subst p.
    rewrite (proj2 S) by (apply D1; right; reflexivity). cbn [negb].
    rewrite D2 by (right; reflexivity). reflexivity.
Qed.

Lemma accepts g bs m p : has_infinity L -> bytes bs ->
  deserialize L g bs m = Ok p <-> argument L g m bs p.
Proof.
  intros HI B. destruct g; cbn [deserialize].
  - apply bls_accepts; [reflexivity|exact B].
  - apply bls_accepts; [reflexivity|exact B].
  - apply bn1_accepts. exact B.
  - apply bn2_accepts; [apply HI|exact B].
Qed.
End Lib.

(* -------------------------------------------------- encodings are unique *)

Lemma encodes_det g bs p p' : encodes g bs p -> encodes g bs p' -> p = p'.
Proof.
  intros H H'. destruct p as [|x y], p' as [|x' y']; cbn [encodes] in H, H'.
  - reflexivity.
  - destruct H' as [N _]. contradiction.
  - destruct H as [N _]. contradiction.
  - destruct H as (_ & bx & by_ & E & Hx & Hy). destruct H' as (_ & bx' & by' & E' & Hx' & Hy').
    assert (bx = bx' /\ by_ = by') as [<- <-].
    { assert (A := elem_bytes_ok _ _ _ Hx). assert (A' := elem_bytes_ok _ _ _ Hx').
      rewrite E in E'. destruct A as [_ A], A' as [_ A'].
      rewrite <- (chunk_app0 (el_size g) bx by_ A), E', chunk_app0 by exact A'.
      split; [reflexivity|].
      assert (C := elem_bytes_ok _ _ _ Hy). assert (C' := elem_bytes_ok _ _ _ Hy').
      destruct C as [_ C], C' as [_ C'].
      rewrite <- (chunk_app1 (el_size g) bx by_ A C), E', chunk_app1 by assumption. reflexivity. }
    rewrite (elem_bytes_det _ _ _ _ Hx Hx'), (elem_bytes_det _ _ _ _ Hy Hy'). reflexivity.
Qed.

Lemma encodes_inj g bs bs' p : encodes g bs p -> encodes g bs' p -> bs = bs'.
Proof.
  destruct p as [|x y]; cbn [encodes]; [congruence|].
  intros (_ & bx & by_ & -> & Hx & Hy) (_ & bx' & by' & -> & Hx' & Hy').
  f_equal; eapply elem_bytes_inj; eassumption.
Qed.

(* --------------------------------------------------------------- writing *)

Lemma base_fits c : base c <= 256 ^ Z.of_nat (fp_size c).
Proof. destruct c; vm_compute; discriminate. Qed.

Lemma write_fp c a : reduced c a -> fp_bytes c (rev (le_bytes (fp_size c) a)) a.
Proof.
  intros [H0 H1]. assert (F := base_fits c). repeat split.
  - apply Forall_rev, le_bytes_bytes.
  - rewrite rev_length. apply le_bytes_length.
  - rewrite big_endian_le. apply Z.mod_small. lia.
  - exact H1.
Qed.

Lemma write_elem g e : elem_of g e -> elem_bytes g (field_element_serialize g e) e.
Proof.
  unfold field_element_serialize. destruct e as [a|a b]; cbn [elem_of elem_bytes].
  - intros [Q R]. split; [exact Q|]. apply write_fp. exact R.
  - intros (Q & Ra & Rb). split; [exact Q|]. rewrite rev_app_distr.
    exists (rev (le_bytes (fp_size (curve_of g)) b)), (rev (le_bytes (fp_size (curve_of g)) a)).
    split; [reflexivity|]. split; apply write_fp; assumption.
Qed.

Lemma write_elem_be_same g e : curve_of g = Bls -> write_elem_be e = field_element_serialize g e.
Proof.
  intros Hc. unfold write_elem_be, field_element_serialize, write_be. rewrite Hc.
  destruct e; [reflexivity|]. rewrite rev_app_distr. reflexivity.
Qed.

(* the pair of zeroes solves none of the equations *)
Lemma zeroes_off_curve g : ~ solves g (Aff (zero_elem g) (zero_elem g)).
Proof.
  intros H. apply is_on_curve_solves in H.
  - destruct g; vm_compute in H; discriminate.
  - assert (elem_of g (zero_elem g)) by (destruct g; repeat split; discriminate || reflexivity).
    split; assumption.
Qed.

Lemma serialize_encodes g p : on g p -> encodes g (serialize g p) p.
Proof.
  intros [P S]. destruct p as [|x y].
  - destruct g; reflexivity.
  - destruct P as [Px Py].
    assert (E : serialize g (Aff x y) = field_element_serialize g x ++ field_element_serialize g y).
    { unfold serialize. destruct (curve_of g) eqn:Hc.
      - cbn [serialize_bls]. rewrite !(write_elem_be_same g) by exact Hc. reflexivity.
      - reflexivity. }
    assert (Wx := write_elem g x Px). assert (Wy := write_elem g y Py).
    cbn [encodes]. split.
    2:{ exists (field_element_serialize g x), (field_element_serialize g y). auto. }
    rewrite E. intros C. destruct (curve_of g) eqn:Hc.
    + assert (T := coords_top g _ (field_element_serialize g y) _ Wx).
      rewrite C, Hc in T. unfold infinity_bytes in T. rewrite Hc in T. cbn [nth] in T. lia.
    + assert (Z0 : infinity_bytes g
                   = field_element_serialize g (zero_elem g) ++ field_element_serialize g (zero_elem g)).
      { destruct g; try discriminate; reflexivity. }
      assert (Hz : elem_of g (zero_elem g)) by (destruct g; repeat split; discriminate || reflexivity).
      assert (Wz := write_elem g _ Hz).
      rewrite Z0 in C.
      assert (Ax := elem_bytes_ok _ _ _ Wx). assert (Ay := elem_bytes_ok _ _ _ Wy).
      assert (Az := elem_bytes_ok _ _ _ Wz).
      destruct Ax as [_ Ax], Ay as [_ Ay], Az as [_ Az].
      assert (C0 := f_equal (chunk (el_size g) 0) C). assert (C1 := f_equal (chunk (el_size g) 1) C).
      rewrite !chunk_app0 in C0 by assumption. rewrite !chunk_app1 in C1 by assumption.
      rewrite C0 in Wx. rewrite C1 in Wy.
      rewrite (elem_bytes_det _ _ _ _ Wx Wz), (elem_bytes_det _ _ _ _ Wy Wz) in S.
      exact (zeroes_off_curve g S).
Qed.
