(* Reading and writing of points. *)
From Coq Require Import ZArith Lia List Bool.
From Verif Require Import Prelude GuestModel FieldModel FieldSpec IntSpec IntProofs2 PointModel PointSpec.
Import ListNotations.
Open Scope Z_scope.
Ltac Zify.zify_post_hook ::= idtac.

(* ----------------------------------------------------------------- bytes *)

Lemma byte_forall (P : Z -> bool) : forallb P (map Z.of_nat (seq 0 256)) = true ->
  forall b, 0 <= b < 256 -> P b = true.
Proof.
  intros H b Hb. rewrite forallb_forall in H. apply H. apply in_map_iff.
  exists (Z.to_nat b). split; [lia|]. apply in_seq. lia.
Qed.

Lemma flags_zero b : 0 <= b < 256 -> (Z.land 224 b =? 0) = (b <? 32).
Proof.
  intros H. apply Bool.eqb_prop.
  exact (byte_forall (fun b => eqb (Z.land 224 b =? 0) (b <? 32)) ltac:(vm_compute; reflexivity) b H).
Qed.
Lemma flags_bn b : 0 <= b < 256 -> (Z.land 192 b =? 0) = (b <? 64).
Proof.
  intros H. apply Bool.eqb_prop.
  exact (byte_forall (fun b => eqb (Z.land 192 b =? 0) (b <? 64)) ltac:(vm_compute; reflexivity) b H).
Qed.
Lemma top_byte b : 0 <= b < 32 -> Z.land b 31 = b /\ Z.testbit b 6 = false /\ Z.testbit b 7 = false.
Proof.
  intros H.
  assert (E := byte_forall (fun b => negb (b <? 32)
                 || ((Z.land b 31 =? b) && negb (Z.testbit b 6) && negb (Z.testbit b 7)))
                 ltac:(vm_compute; reflexivity) b ltac:(lia)).
  cbv beta in E. assert (Hl : (b <? 32) = true) by (apply Z.ltb_lt; lia). rewrite Hl in E.
  cbn [negb orb] in E. apply andb_prop in E. destruct E as [E E3].
  apply andb_prop in E. destruct E as [E1 E2]. apply Z.eqb_eq in E1.
  apply negb_true_iff in E2, E3. auto.
Qed.

Lemma bytes_app a b : bytes (a ++ b) <-> bytes a /\ bytes b.
Proof. unfold bytes. apply Forall_app. Qed.

Lemma skipn_skipn' {A} (l : list A) : forall a b, skipn a (skipn b l) = skipn (b + a) l.
Proof.
  intros a b. revert l a. induction b as [|b IH]; intros l a; [reflexivity|].
  destruct l as [|x l]; [rewrite !skipn_nil; reflexivity|]. cbn [skipn Nat.add]. apply IH.
Qed.

Lemma Forall_firstn' {A} (P : A -> Prop) n : forall l, Forall P l -> Forall P (firstn n l).
Proof.
  induction n as [|n IH]; intros l H; [constructor|].
  destruct H as [|x l Hx Hl]; [constructor|]. cbn [firstn]. constructor; auto.
Qed.
Lemma Forall_skipn' {A} (P : A -> Prop) n : forall l, Forall P l -> Forall P (skipn n l).
Proof.
  induction n as [|n IH]; intros l H; [exact H|].
  destruct H as [|x l Hx Hl]; [constructor|]. cbn [skipn]. auto.
Qed.

Lemma chunk_bytes n i bs : bytes bs -> bytes (chunk n i bs).
Proof. intros H. apply Forall_firstn', Forall_skipn'. exact H. Qed.
Lemma chunk_length n i bs k : length bs = (n * k)%nat -> (i < k)%nat -> length (chunk n i bs) = n.
Proof. intros E H. unfold chunk. rewrite firstn_length, skipn_length, E. nia. Qed.

Lemma chunk_chunk n k i j bs : (j < k)%nat ->
  chunk n j (chunk (k * n) i bs) = chunk n (i * k + j) bs.
Proof.
  intros H. unfold chunk. rewrite skipn_firstn_comm, firstn_firstn, skipn_skipn'.
  f_equal; [nia|]. f_equal. nia.
Qed.

Lemma chunk_halves n bs : length bs = (n * 2)%nat -> bs = chunk n 0 bs ++ chunk n 1 bs.
Proof.
  intros E. unfold chunk. rewrite Nat.mul_0_r, Nat.mul_1_r. cbn [skipn].
  rewrite (firstn_all2 (skipn n bs)) by (rewrite skipn_length; lia).
  symmetry. apply firstn_skipn.
Qed.
Lemma chunk_app0 n a b : length a = n -> chunk n 0 (a ++ b) = a.
Proof.
  intros E. unfold chunk. rewrite Nat.mul_0_r. cbn [skipn].
  rewrite firstn_app, E, Nat.sub_diag, firstn_O, app_nil_r. apply firstn_all2. lia.
Qed.
Lemma chunk_app1 n a b : length a = n -> length b = n -> chunk n 1 (a ++ b) = b.
Proof.
  intros E1 E2. unfold chunk. rewrite Nat.mul_1_r, skipn_app, E1, Nat.sub_diag.
  rewrite (skipn_all2 a) by lia. cbn [skipn app]. apply firstn_all2. lia.
Qed.

(* ----------------------------------------------------------- coordinates *)

Definition rd (q : Z) (bs : list Z) : option Z :=
  if big_endian bs <? q then Some (big_endian bs) else None.

Lemma read_be_rd q bs : read_be q bs = rd q bs.
Proof.
  unfold read_be, rd.
  assert (E : forall acc, fold_left (fun acc b => 256 * acc + b) bs acc
                = acc * 256 ^ Z.of_nat (length bs) + big_endian bs).
  { induction bs as [|b bs IH]; intros acc; cbn [fold_left big_endian length].
    - change (256 ^ Z.of_nat 0) with 1. ring.
    - rewrite IH, Nat2Z.inj_succ, Z.pow_succ_r by lia. ring. }
  rewrite E, Z.mul_0_l, Z.add_0_l. reflexivity.
Qed.

Lemma read_le_rd q bs : read_le q (rev bs) = rd q bs.
Proof.
  unfold read_le, rd.
  assert (E : fold_right (fun b acc => b + 256 * acc) 0 (rev bs) = big_endian bs).
  { rewrite fold_left_rev_right.
    assert (E : forall acc, fold_left (fun x y => y + 256 * x) bs acc
                = acc * 256 ^ Z.of_nat (length bs) + big_endian bs).
    { induction bs as [|b bs IH]; intros acc; cbn [fold_left big_endian length].
      - change (256 ^ Z.of_nat 0) with 1. ring.
      - rewrite IH, Nat2Z.inj_succ, Z.pow_succ_r by lia. ring. }
    rewrite E. ring. }
  rewrite E. reflexivity.
Qed.

Lemma rd_spec c bs v : bytes bs -> length bs = fp_size c ->
  rd (base c) bs = Some v <-> fp_bytes c bs v.
Proof.
  intros B Ln. unfold rd, fp_bytes. destruct (big_endian bs <? base c) eqn:E.
  - apply Z.ltb_lt in E. split; [intros [= <-]; auto|]. intros (_ & _ & <- & _). reflexivity.
  - apply Z.ltb_ge in E. split; [discriminate|]. intros (_ & _ & <- & H). lia.
Qed.

Definition elem_rd (g : group) (bs : list Z) : option elem :=
  let q := base (curve_of g) in
  let n := fp_size (curve_of g) in
  if quad g then
    match rd q (chunk n 0 bs), rd q (chunk n 1 bs) with
    | Some b, Some a => Some (E2 a b)
    | _, _ => None
    end
  else match rd q bs with Some a => Some (E1 a) | None => None end.

Lemma elem_rd_spec g bs e : bytes bs -> length bs = el_size g ->
  elem_rd g bs = Some e <-> elem_bytes g bs e.
Proof.
  intros B Ln. unfold elem_rd, elem_bytes, el_size in *. destruct (quad g) eqn:Q.
  - assert (Ln2 : length bs = (fp_size (curve_of g) * 2)%nat) by lia.
    assert (L0 := chunk_length _ 0 _ _ Ln2 ltac:(lia)). assert (L1 := chunk_length _ 1 _ _ Ln2 ltac:(lia)).
    assert (B0 := chunk_bytes (fp_size (curve_of g)) 0 _ B).
    assert (B1 := chunk_bytes (fp_size (curve_of g)) 1 _ B).
    split.
    + destruct (rd _ (chunk _ 0 bs)) as [b|] eqn:E0; [|discriminate].
      destruct (rd _ (chunk _ 1 bs)) as [a|] eqn:E1; [|discriminate].
      intros [= <-]. apply rd_spec in E0, E1; try assumption. split; [reflexivity|].
      exists (chunk (fp_size (curve_of g)) 0 bs), (chunk (fp_size (curve_of g)) 1 bs).
      split; [apply chunk_halves; exact Ln2|]. auto.
    + destruct e as [a|a b]; [intros [? _]; discriminate|].
      intros (_ & hi & lo & -> & H1 & H0).
      rewrite chunk_app0 by apply H1. rewrite chunk_app1; [|apply H1|apply H0].
      apply rd_spec in H0; [|apply H0|apply H0]. apply rd_spec in H1; [|apply H1|apply H1].
      rewrite H0, H1. reflexivity.
  - split.
    + destruct (rd _ bs) as [a|] eqn:E0; [|discriminate]. intros [= <-].
      apply rd_spec in E0; auto.
    + destruct e as [a|a b]; [|intros [? _]; discriminate].
      intros [_ H]. apply rd_spec in H; [|assumption|assumption]. rewrite H. reflexivity.
Qed.

Lemma elem_bytes_ok g bs e : elem_bytes g bs e -> bytes bs /\ length bs = el_size g.
Proof.
  unfold el_size. destruct e as [a|a b]; cbn [elem_bytes].
  - intros [-> (H1 & H2 & _)]. auto.
  - intros [-> (hi & lo & -> & (A1 & A2 & _) & (B1 & B2 & _))]. split.
    + apply bytes_app. auto.
    + rewrite app_length. lia.
Qed.

Lemma elem_bytes_of g bs e : elem_bytes g bs e -> elem_of g e.
Proof.
  destruct e as [a|a b]; cbn [elem_bytes elem_of]; unfold reduced.
  - intros [-> (H1 & H2 & <- & H4)]. assert (R := big_endian_range bs H1). split; [reflexivity|lia].
  - intros [-> (hi & lo & -> & (A1 & A2 & <- & A4) & (B1 & B2 & <- & B4))].
    assert (Ra := big_endian_range hi A1). assert (Rb := big_endian_range lo B1).
    repeat split; lia.
Qed.

Lemma elem_bytes_det g bs e e' : elem_bytes g bs e -> elem_bytes g bs e' -> e = e'.
Proof.
  intros H H'. destruct (elem_bytes_ok _ _ _ H) as [B Ln].
  apply elem_rd_spec in H, H'; try assumption. congruence.
Qed.

Lemma fp_bytes_inj c bs bs' a : fp_bytes c bs a -> fp_bytes c bs' a -> bs = bs'.
Proof.
  intros (B & Ln & E & _) (B' & Ln' & E' & _).
  apply big_endian_inj; [congruence|exact B|exact B'|congruence].
Qed.

Lemma elem_bytes_inj g bs bs' e : elem_bytes g bs e -> elem_bytes g bs' e -> bs = bs'.
Proof.
  destruct e as [a|a b]; cbn [elem_bytes].
  - intros [_ H] [_ H']. eapply fp_bytes_inj; eassumption.
  - intros [_ (hi & lo & -> & H1 & H2)] [_ (hi' & lo' & -> & H1' & H2')].
    f_equal; eapply fp_bytes_inj; eassumption.
Qed.

Lemma field_element_rd g bs : field_element_deserialize g bs
  = if Nat.eqb (length bs) (el_size g)
    then match elem_rd g bs with Some e => Ok e | None => Err INVALID_INPUT end
    else Err INVALID_INPUT.
Proof.
  unfold field_element_deserialize. destruct (Nat.eqb (length bs) (el_size g)) eqn:E; [|reflexivity].
  cbn [negb]. apply Nat.eqb_eq in E. unfold read_elem_le, elem_rd, el_size in *.
  destruct (quad g).
  - assert (Ln2 : length bs = (fp_size (curve_of g) * 2)%nat) by lia.
    assert (L0 := chunk_length _ 0 _ _ Ln2 ltac:(lia)). assert (L1 := chunk_length _ 1 _ _ Ln2 ltac:(lia)).
    assert (Er : rev bs = rev (chunk (fp_size (curve_of g)) 1 bs) ++ rev (chunk (fp_size (curve_of g)) 0 bs))
      by (rewrite <- rev_app_distr, <- chunk_halves by exact Ln2; reflexivity).
    rewrite Er. rewrite chunk_app0 by (rewrite rev_length; exact L1).
    rewrite chunk_app1 by (rewrite rev_length; assumption).
    rewrite !read_le_rd.
    destruct (rd _ (chunk _ 1 bs)), (rd _ (chunk _ 0 bs)); reflexivity.
  - rewrite read_le_rd. destruct (rd _ bs); reflexivity.
Qed.

Lemma field_element_ok g bs e : bytes bs ->
  field_element_deserialize g bs = Ok e <-> elem_bytes g bs e.
Proof.
  intros B. rewrite field_element_rd. destruct (Nat.eqb (length bs) (el_size g)) eqn:E.
  - apply Nat.eqb_eq in E. rewrite <- elem_rd_spec by assumption.
    destruct (elem_rd g bs); split; congruence.
  - split; [discriminate|]. intros H. apply elem_bytes_ok in H. apply Nat.eqb_neq in E. tauto.
Qed.
Lemma field_element_err g bs : field_element_deserialize g bs = Err INVALID_INPUT
  \/ exists e, field_element_deserialize g bs = Ok e.
Proof.
  rewrite field_element_rd. destruct (Nat.eqb _ _); [|auto]. destruct (elem_rd g bs); eauto.
Qed.

(* -------------------------------------------------------------- equation *)

Lemma eq_mod q a b : 0 < q -> (a mod q =? b mod q) = true <-> (q | a - b).
Proof.
  intros Hq. rewrite Z.eqb_eq, <- Z.mod_divide by lia. split; intros H.
  - rewrite Zminus_mod, H, Z.sub_diag. reflexivity.
  - replace a with (b + (a - b)) by ring. rewrite Z.add_mod, H, Z.add_0_r, Z.mod_mod by lia. reflexivity.
Qed.
Lemma divide_shift q a b k : a = b + q * k -> (q | a) <-> (q | b).
Proof.
  intros ->. split; intros [m H].
  - exists (m - k). lia.
  - exists (m + k). lia.
Qed.
Lemma mod_shift q a : 0 < q -> exists k, a mod q = a + q * k.
Proof. intros H. exists (- (a / q)). assert (E := Z.div_mod a q ltac:(lia)). lia. Qed.

Lemma base_pos c : 0 < base c.
Proof. destruct c; reflexivity. Qed.

Lemma on_curve_E1 q x y b : 0 < q ->
  eeqb (emul q (E1 y) (E1 y)) (eadd q (emul q (emul q (E1 x) (E1 x)) (E1 x)) (E1 b)) = true
  <-> (q | y * y - (x * x * x + b)).
Proof.
  intros Hq. cbn [emul eadd eeqb]. rewrite eq_mod by exact Hq.
  destruct (mod_shift q (x * x) Hq) as [k1 ->].
  destruct (mod_shift q ((x * x + q * k1) * x) Hq) as [k2 ->].
  apply divide_shift with (k := - (k1 * x) - k2). ring.
Qed.

Lemma on_curve_E2 q x0 x1 y0 y1 b0 b1 : 0 < q ->
  eeqb (emul q (E2 y0 y1) (E2 y0 y1))
       (eadd q (emul q (emul q (E2 x0 x1) (E2 x0 x1)) (E2 x0 x1)) (E2 b0 b1)) = true
  <-> (q | y0 * y0 - y1 * y1 - (x0 * x0 * x0 - 3 * x0 * x1 * x1 + b0))
      /\ (q | 2 * y0 * y1 - (3 * x0 * x0 * x1 - x1 * x1 * x1 + b1)).
Proof.
  intros Hq. cbn [emul eadd eeqb]. rewrite andb_true_iff, !eq_mod by exact Hq.
  destruct (mod_shift q (x0 * x0 - x1 * x1) Hq) as [k1 ->].
  destruct (mod_shift q (x0 * x1 + x1 * x0) Hq) as [k2 ->].
  match goal with |- context [?A mod q + b0] => destruct (mod_shift q A Hq) as [k3 ->] end.
  match goal with |- context [?A mod q + b1] => destruct (mod_shift q A Hq) as [k4 ->] end.
  split; intros [H1 H2]; split.
  - refine (proj1 (divide_shift q _ _ (- (k1 * x0) + k2 * x1 - k3) _) H1). ring.
  - refine (proj1 (divide_shift q _ _ (- (k1 * x1) - k2 * x0 - k4) _) H2). ring.
  - refine (proj2 (divide_shift q _ _ (- (k1 * x0) + k2 * x1 - k3) _) H1). ring.
  - refine (proj2 (divide_shift q _ _ (- (k1 * x1) - k2 * x0 - k4) _) H2). ring.
Qed.

(* the coefficient of the curve over BN254's quadratic extension is 3 / (9 + u) *)
Lemma bn_twist re im b0 b1 : coeff_b BnG2 = E2 b0 b1 ->
  (base Bn | re - b0) /\ (base Bn | im - b1)
  <-> (base Bn | 9 * re - im - 3) /\ (base Bn | re + 9 * im).
Proof.
  intros E.
  assert (C : (base Bn | 9 * b0 - b1 - 3) /\ (base Bn | b0 + 9 * b1)).
  { injection E as <- <-. split; apply Z.mod_divide; vm_compute; congruence. }
  clear E. destruct C as [C0 C1].
  assert (G : Znumtheory.rel_prime (base Bn) 82).
  { apply Znumtheory.Zgcd_1_rel_prime. vm_compute. reflexivity. }
  revert C0 C1 G. generalize (base Bn). intros q [c0 C0] [c1 C1] G. split.
  - intros [[k0 H0] [k1 H1]]. split.
    + exists (9 * k0 - k1 + c0). lia.
    + exists (k0 + 9 * k1 + c1). lia.
  - intros [[k0 H0] [k1 H1]]. split; apply Znumtheory.Gauss with (b := 82); try exact G.
    + exists (9 * (k0 - c0) + (k1 - c1)). lia.
    + exists (9 * (k1 - c1) - (k0 - c0)). lia.
Qed.

Lemma is_on_curve_solves g p : point_of g p -> is_on_curve g p = true <-> solves g p.
Proof.
  destruct p as [|x y]; [cbn; tauto|]. intros [Hx Hy]. unfold is_on_curve.
  assert (Hq := base_pos (curve_of g)).
  destruct x as [x|x0 x1], y as [y|y0 y1]; cbn [elem_of] in Hx, Hy;
    destruct Hx as [Qx _], Hy as [Qy _]; try congruence.
  - destruct (coeff_b g) as [b|] eqn:Eb; [|destruct g; discriminate].
    rewrite on_curve_E1 by exact Hq. rewrite Z.sub_add_distr.
    destruct g; try discriminate; injection Eb as <-; reflexivity.
  - destruct (coeff_b g) as [|b0 b1] eqn:Eb; [destruct g; discriminate|].
    rewrite on_curve_E2 by exact Hq. rewrite !Z.sub_add_distr.
    destruct g; try discriminate.
    + injection Eb as <- <-. reflexivity.
    + apply bn_twist. exact Eb.
Qed.
