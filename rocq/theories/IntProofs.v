(* Number functions: arithmetic on integers. *)
From Coq Require Import ZArith Lia List Bool.
From Verif Require Import Prelude ValModel ValSpec ValProofs WideProofs HeapModel HeapSpec HeapProofs
  ConvProofs HostFnModel HostFnProofs GuestModel IntModel IntSpec.
Import ListNotations.
Open Scope Z_scope.
Ltac Zify.zify_post_hook ::= idtac.

(* literals: keep powers opaque *)
Lemma p255 : 2 ^ 255 > 0. Proof. reflexivity. Qed.
Lemma p256_255 : 2 ^ 256 = 2 * 2 ^ 255. Proof. reflexivity. Qed.

Lemma wrap_in_range w x : in_range w (wrap w x).
Proof.
  destruct w; cbn [wrap in_range].
  - apply Z.mod_pos_bound. reflexivity.
  - unfold as_i256. cbv zeta. assert (B := Z.mod_pos_bound x (2 ^ 256) eq_refl).
    rewrite p256_255 in *. generalize dependent (x mod (2 * 2 ^ 255)). intros m B.
    destruct (Z.ltb_spec m (2 ^ 255)); lia.
Qed.

Lemma wrap_cong w x : exists k, wrap w x = x - k * 2 ^ 256.
Proof.
  assert (E := Z.mod_eq x (2 ^ 256)). destruct w; cbn [wrap].
  - exists (x / 2 ^ 256). rewrite E by discriminate. ring.
  - unfold as_i256. cbv zeta. rewrite E by discriminate.
    destruct (_ <? _); [exists (x / 2 ^ 256)|exists (x / 2 ^ 256 + 1)]; ring.
Qed.

Lemma in_range_unique w x y k : in_range w x -> in_range w y -> x - y = k * 2 ^ 256 -> x = y.
Proof.
  intros Hx Hy E. assert (k = 0); [|lia].
  assert (P := p255). rewrite p256_255 in *.
  destruct w; cbn [in_range] in *; [rewrite p256_255 in *|]; generalize dependent (2 ^ 255);
    intros; nia.
Qed.

Lemma wrap_id w x : in_range w x -> wrap w x = x.
Proof.
  intros H. destruct (wrap_cong w x) as [k E].
  apply (in_range_unique w _ _ (- k)); [apply wrap_in_range|exact H|]. rewrite E. ring.
Qed.

Lemma checked_spec w x :
  (in_range w x -> checked w x = Some x) /\ (~ in_range w x -> checked w x = None).
Proof.
  unfold checked. split; intros H.
  - rewrite wrap_id by exact H. rewrite Z.eqb_refl. reflexivity.
  - destruct (Z.eqb_spec (wrap w x) x) as [E|E]; [|reflexivity].
    exfalso. apply H. rewrite <- E. apply wrap_in_range.
Qed.

Lemma in_range_dec w x : {in_range w x} + {~ in_range w x}.
Proof.
  destruct w; cbn [in_range].
  - destruct (Z_le_dec 0 x); [destruct (Z_lt_dec x (2 ^ 256)); [left|right]|right]; tauto.
  - destruct (Z_le_dec (- 2 ^ 255) x); [destruct (Z_lt_dec x (2 ^ 255)); [left|right]|right]; tauto.
Qed.

Lemma checked_some w x z : checked w x = Some z -> z = x /\ in_range w x.
Proof.
  destruct (checked_spec w x) as [H1 H2]. destruct (in_range_dec w x) as [D|D].
  - rewrite H1 by exact D. intros E. split; [congruence|exact D].
  - rewrite H2 by exact D. discriminate.
Qed.

(* ------------------------------------------------------------- powers *)

(* no square is 2^255 *)
Lemma square_not b : b * b <> 2 ^ 255.
Proof.
  assert (G : forall b, 0 <= b -> b * b <> 2 ^ 255).
  { clear b. intros b Hb E.
    assert (H1 := Z.sqrt_spec (2 ^ 255) ltac:(discriminate)). cbv zeta in H1.
    assert (N : Z.sqrt (2 ^ 255) * Z.sqrt (2 ^ 255) <> 2 ^ 255).
    { vm_compute. discriminate. }
    assert (Hs : 0 <= Z.sqrt (2 ^ 255)) by apply Z.sqrt_nonneg.
    generalize dependent (Z.sqrt (2 ^ 255)). intros s H1 N Hs.
    generalize dependent (2 ^ 255). intros T E H1 N.
    destruct (Z.lt_trichotomy b s) as [L|[->|L]]; nia. }
  destruct (Z_le_dec 0 b) as [H|H]; [apply G; exact H|].
  replace (b * b) with ((- b) * (- b)) by ring. apply G. lia.
Qed.

Lemma pow_loop_sound w e : forall base acc z, pow_loop w e base acc = Some z ->
  z = acc * base ^ Zpos e /\ in_range w z.
Proof.
  induction e as [e IH|e IH|]; intros base acc z; cbn [pow_loop].
  - destruct (checked_mul w acc base) as [a|] eqn:Ea; [|discriminate].
    destruct (checked_mul w base base) as [b|] eqn:Eb; [|discriminate]. intros H.
    apply checked_some in Ea, Eb. destruct Ea as [-> _], Eb as [-> _].
    apply IH in H. destruct H as [-> R]. split; [|exact R].
    rewrite Pos2Z.inj_xI, Z.pow_add_r, Z.pow_1_r, Z.pow_mul_r, Z.pow_2_r by lia. ring.
  - destruct (checked_mul w base base) as [b|] eqn:Eb; [|discriminate]. intros H.
    apply checked_some in Eb. destruct Eb as [-> _].
    apply IH in H. destruct H as [-> R]. split; [|exact R].
    rewrite Pos2Z.inj_xO, Z.pow_mul_r, Z.pow_2_r by lia. ring.
  - intros H. apply checked_some in H. destruct H as [-> R].
    split; [rewrite Z.pow_1_r; reflexivity|exact R].
Qed.

(* growth: with a base of size two or more, products only grow *)
Lemma abs_pow_ge base e : 2 <= Z.abs base -> 1 <= e -> Z.abs base <= Z.abs (base ^ e).
Proof.
  intros Hb He. rewrite Z.abs_pow.
  rewrite <- (Z.pow_1_r (Z.abs base)) at 1. apply Z.pow_le_mono_r; lia.
Qed.

Definition pow_inv (base acc : Z) : Prop := (base < 0 -> acc = 1) /\ (acc = 0 -> base = 0).

Lemma abs_bound w z : in_range w z ->
  match w with WU => 0 <= z /\ Z.abs z <= 2 ^ 256 - 1 | WI => Z.abs z <= 2 ^ 255 end.
Proof. destruct w; cbn [in_range]; intros H; [split|]; lia. Qed.

(* the squares and partial products needed stay in range *)
Lemma square_in_range w acc base e : (acc = 0 -> base = 0) -> 1 <= e ->
  in_range w (acc * (base * base) ^ e) -> in_range w (base * base).
Proof.
  intros I2 He R.
  destruct (Z_lt_dec (Z.abs base) 2) as [Hs|Hs].
  { assert (base = 0 \/ base = 1 \/ base = -1) as [->|[->| ->]] by lia;
      destruct w; cbn [in_range]; split; reflexivity || discriminate. }
  assert (Ha : acc <> 0) by (intros E; apply I2 in E; lia).
  assert (G := abs_pow_ge (base * base) e ltac:(nia) He).
  assert (L : base * base <= Z.abs (acc * (base * base) ^ e)).
  { rewrite Z.abs_mul. assert (1 <= Z.abs acc) by lia. nia. }
  apply abs_bound in R. destruct w; cbn [in_range].
  - split; [nia|]. lia.
  - assert (N := square_not base). assert (P := p255). split; [nia|]. lia.
Qed.

Lemma product_in_range w acc base e : pow_inv base acc -> 1 <= e ->
  in_range w base -> in_range w acc ->
  in_range w (acc * base * (base * base) ^ e) -> in_range w (acc * base).
Proof.
  intros [I1 I2] He Rb Ra R.
  destruct (Z_lt_dec (Z.abs base) 2) as [Hs|Hs].
  { assert (base = 0 \/ base = 1 \/ base = -1) as [->|[->| ->]] by lia.
    - rewrite Z.mul_0_r. destruct w; cbn [in_range]; split; reflexivity || discriminate.
    - rewrite Z.mul_1_r. exact Ra.
    - rewrite I1 by lia. exact Rb. }
  assert (Ha : acc <> 0) by (intros E; apply I2 in E; lia).
  assert (G := abs_pow_ge (base * base) e ltac:(nia) He).
  assert (L : 2 * Z.abs (acc * base) <= Z.abs (acc * base * (base * base) ^ e)).
  { rewrite (Z.abs_mul (acc * base)). assert (0 <= Z.abs (acc * base)) by lia.
    assert (4 <= Z.abs ((base * base) ^ e)) by nia. nia. }
  apply abs_bound in R. destruct w; cbn [in_range].
  - destruct R as [_ R]. cbn [in_range] in Ra, Rb. split; [nia|]. lia.
  - assert (P := p255). lia.
Qed.

Lemma pow_loop_complete w e : forall base acc, pow_inv base acc ->
  in_range w base -> in_range w acc -> in_range w (acc * base ^ Zpos e) ->
  pow_loop w e base acc = Some (acc * base ^ Zpos e).
Proof.
  induction e as [e IH|e IH|]; intros base acc I Rb Ra R; cbn [pow_loop].
  - assert (E : acc * base ^ Zpos e~1 = acc * base * (base * base) ^ Zpos e).
    { rewrite Pos2Z.inj_xI, Z.pow_add_r, Z.pow_1_r, Z.pow_mul_r, Z.pow_2_r by lia. ring. }
    rewrite E in *.
    assert (Rp : in_range w (acc * base)) by (apply (product_in_range w acc base (Zpos e)); assumption || lia).
    assert (I2 : acc * base = 0 -> base = 0).
    { intros H. apply Z.mul_eq_0 in H. destruct H as [H|H]; [apply (proj2 I); exact H|exact H]. }
    assert (Rs : in_range w (base * base)).
    { apply (square_in_range w (acc * base) base (Zpos e)); [exact I2|lia|exact R]. }
    unfold checked_mul. rewrite (proj1 (checked_spec w _) Rp), (proj1 (checked_spec w _) Rs).
    apply IH; [|exact Rs|exact Rp|exact R].
    split; [nia|]. intros H. apply I2 in H. rewrite H. reflexivity.
  - assert (E : acc * base ^ Zpos e~0 = acc * (base * base) ^ Zpos e).
    { rewrite Pos2Z.inj_xO, Z.pow_mul_r, Z.pow_2_r by lia. ring. }
    rewrite E in *.
    assert (Rs : in_range w (base * base)).
    { apply (square_in_range w acc base (Zpos e)); [exact (proj2 I)|lia|exact R]. }
    unfold checked_mul. rewrite (proj1 (checked_spec w _) Rs).
    apply IH; [|exact Rs|exact Ra|exact R].
    split; [nia|]. intros H. apply (proj2 I) in H. rewrite H. reflexivity.
  - rewrite Z.pow_1_r in *. apply checked_spec. exact R.
Qed.

Lemma one_in_range w : in_range w 1.
Proof. destruct w; cbn [in_range]; split; reflexivity || discriminate. Qed.

Lemma checked_pow_spec w a n : in_range w a -> 0 <= n ->
  (in_range w (a ^ n) -> checked_pow w a n = Some (a ^ n))
  /\ (~ in_range w (a ^ n) -> checked_pow w a n = None).
Proof.
  intros Ra Hn. destruct n as [|e|e]; [| |lia]; cbn [checked_pow].
  - rewrite Z.pow_0_r. split; [reflexivity|]. intros H. exfalso. apply H, one_in_range.
  - split; intros H.
    + rewrite (pow_loop_complete w e a 1); [rewrite Z.mul_1_l; reflexivity| |exact Ra| |].
      * split; [reflexivity|discriminate].
      * apply one_in_range.
      * rewrite Z.mul_1_l. exact H.
    + destruct (pow_loop w e a 1) as [z|] eqn:E; [|reflexivity].
      apply pow_loop_sound in E. rewrite Z.mul_1_l in E. destruct E as [-> R]. contradiction.
Qed.

(* ---------------------------------------------------- division and shifts *)

Lemma no_division_spec w a b : no_division w a b = true <->
  b = 0 \/ (w = WI /\ a = - 2 ^ 255 /\ b = -1).
Proof.
  unfold no_division. rewrite orb_true_iff, Z.eqb_eq.
  destruct w; cbn [wmin]; [split; [intros [H|H]; [left; exact H|discriminate]|intros [H|[H _]]; [left; exact H|discriminate]]|].
  rewrite andb_true_iff, !Z.eqb_eq. tauto.
Qed.

Lemma div_meant a b : b <> 0 -> meant FDiv a b (Z.quot a b).
Proof.
  intros Hb. cbn [meant]. exists (Z.rem a b). refine (conj _ (conj _ _)).
  - apply Z.quot_rem'.
  - apply Z.rem_bound_abs. exact Hb.
  - rewrite Z.mul_comm. apply Z.rem_sign_mul. exact Hb.
Qed.

Lemma div_unique a b z z' : meant FDiv a b z -> meant FDiv a b z' -> z = z'.
Proof.
  intros (r & E & B & Sg) (r' & E' & B' & Sg').
  assert (Hb : b * (z - z') = r' - r) by lia.
  destruct (Z_lt_dec (Z.abs (r' - r)) (Z.abs b)) as [L|L].
  - rewrite <- Hb, Z.abs_mul in L. assert (Z.abs (z - z') = 0) by (clear - L; nia). lia.
  - exfalso. assert (Hr : r * r' < 0) by (clear - L B B'; nia).
    assert (Ha : a <> 0).
    { intros ->. assert (Hz : Z.abs (b * z) < Z.abs b) by (replace (b * z) with (- r) by lia; lia).
      rewrite Z.abs_mul in Hz. assert (Z.abs z = 0) by (clear - Hz; nia).
      assert (z = 0) by lia. subst z. assert (r = 0) by lia. subst r. lia. }
    assert (H1 := Z.mul_nonneg_nonneg _ _ Sg Sg').
    assert (H2 : 0 < a * a) by (clear - Ha; nia).
    assert (H3 := Z.mul_pos_neg _ _ H2 Hr). lia.
Qed.

Lemma quot_in_range w a b : in_range w a -> in_range w b -> no_division w a b = false ->
  in_range w (Z.quot a b).
Proof.
  intros Ra Rb Hn.
  assert (N : ~ (b = 0 \/ (w = WI /\ a = - 2 ^ 255 /\ b = -1))).
  { intros H. apply no_division_spec in H. congruence. }
  assert (Hb : b <> 0) by tauto.
  assert (P := p255).
  assert (Hq : Z.abs (Z.quot a b) = Z.abs a / Z.abs b).
  { rewrite <- Z.quot_abs by exact Hb. apply Z.quot_div_nonneg; lia. }
  assert (M := Z.mul_div_le (Z.abs a) (Z.abs b) ltac:(lia)). rewrite <- Hq in M.
  assert (Hpos : w = WU -> 0 <= Z.quot a b).
  { intros ->. cbn [in_range] in *. apply Z.quot_pos; lia. }
  assert (H1 : b = 1 -> Z.quot a b = a) by (intros ->; apply Z.quot_1_r).
  assert (Hm : b = -1 -> Z.quot a b = - a).
  { intros ->. change (-1) with (- (1)). rewrite Z.quot_opp_r, Z.quot_1_r by discriminate. reflexivity. }
  set (q := Z.quot a b) in *. clearbody q. clear Hq.
  destruct w; cbn [in_range] in *.
  - specialize (Hpos eq_refl). assert (q <= a) by (clear - M Hpos Ra Rb Hb; nia). lia.
  - destruct (Z.eq_dec b (-1)) as [->|Nb].
    + assert (a <> - 2 ^ 255) by tauto. rewrite Hm by reflexivity. lia.
    + destruct (Z.eq_dec b 1) as [->|Nb1]; [rewrite H1 by reflexivity; exact Ra|].
      assert (2 * Z.abs q <= Z.abs a) by (clear - M Hb Nb Nb1; nia). lia.
Qed.

Lemma rem_meant a b : b <> 0 ->
  meant FRem a b (if Z.rem a b <? 0 then (if b <? 0 then Z.rem a b - b else Z.rem a b + b) else Z.rem a b).
Proof.
  intros Hb. assert (E := Z.quot_rem' a b). assert (B := Z.rem_bound_abs a b Hb).
  set (r := Z.rem a b) in *. set (q := Z.quot a b) in *. clearbody q r. cbn [meant].
  destruct (Z.ltb_spec r 0); [destruct (Z.ltb_spec b 0)|]; (split; [|lia]).
  - exists (q + 1). rewrite E. ring.
  - exists (q - 1). rewrite E. ring.
  - exists q. exact E.
Qed.

Lemma rem_unique a b z z' : meant FRem a b z -> meant FRem a b z' -> z = z'.
Proof.
  intros [[q E] B] [[q' E'] B'].
  assert (Hb : b * (q - q') = z' - z) by lia.
  assert (L : Z.abs (z' - z) < Z.abs b) by lia.
  rewrite <- Hb, Z.abs_mul in L. assert (Z.abs (q - q') = 0) by nia.
  assert (q = q') by lia. subst q'. lia.
Qed.

Lemma rem_in_range w a b z : in_range w a -> in_range w b -> meant FRem a b z -> in_range w z.
Proof.
  intros Ra Rb [_ B]. assert (P := p255). destruct w; cbn [in_range] in *; lia.
Qed.

Lemma meant_unique w f a b z z' : in_range w z -> in_range w z' ->
  meant f a b z -> meant f a b z' -> z = z'.
Proof.
  intros R R' M M'. destruct f; cbn [meant] in *; try congruence.
  - exact (div_unique a b z z' M M').
  - exact (rem_unique a b z z' M M').
  - destruct M as [_ [k E]], M' as [_ [k' E']].
    apply (in_range_unique w z z' (k' - k)); [exact R|exact R'|]. rewrite E, E'. ring.
  - destruct M as [_ (k & E & B)], M' as [_ (k' & E' & B')].
    assert (Hb : 2 ^ b * (z - z') = k' - k) by lia.
    assert (L : Z.abs (k' - k) < 2 ^ b) by lia.
    rewrite <- Hb, Z.abs_mul in L. generalize dependent (2 ^ b). intros. nia.
Qed.

(* --------------------------------------------------------- every function *)

(* the second arguments there are *)
Definition second_range (w : wide) (f : fn) (b : Z) : Prop :=
  if by_u32 f then 0 <= b < 2 ^ 32 else in_range w b.

Lemma shr_in_range w a n : in_range w a -> 0 <= n -> in_range w (a / 2 ^ n).
Proof.
  intros R Hn. assert (Hp : 1 <= 2 ^ n).
  { assert (0 < 2 ^ n) by (apply Z.pow_pos_nonneg; lia). lia. }
  assert (D := Z.div_mod a (2 ^ n) ltac:(lia)). assert (B := Z.mod_pos_bound a (2 ^ n) ltac:(lia)).
  assert (P := p255). rewrite p256_255 in * || idtac.
  set (q := a / 2 ^ n) in *. set (m := a mod 2 ^ n) in *. clearbody q m.
  destruct w; cbn [in_range] in *; [rewrite p256_255 in *|]; generalize dependent (2 ^ 255);
    generalize dependent (2 ^ n); intros; nia.
Qed.

Lemma method_spec w f a b : in_range w a -> second_range w f b ->
  match method f w a b with
  | Some z => meant f a b z /\ in_range w z /\ ~ overflowing_rem w f a b
  | None => forall z, meant f a b z -> in_range w z -> overflowing_rem w f a b
  end.
Proof.
  intros Ra Rb.
  assert (Ex : forall x, (f = FAdd \/ f = FSub \/ f = FMul) -> (forall z, meant f a b z <-> z = x) ->
    match checked w x with
    | Some z => meant f a b z /\ in_range w z /\ ~ overflowing_rem w f a b
    | None => forall z, meant f a b z -> in_range w z -> overflowing_rem w f a b
    end).
  { intros x Hf M. destruct (checked w x) as [z|] eqn:E.
    - apply checked_some in E. destruct E as [-> R]. refine (conj _ (conj R _)); [apply M; reflexivity|].
      intros (_ & F & _). destruct Hf as [->|[->| ->]]; discriminate.
    - intros z Hz R. apply M in Hz. subst z. rewrite (proj1 (checked_spec w x) R) in E. discriminate. }
  destruct f; cbn [method].
  - apply Ex; [tauto|]. intros z. reflexivity.
  - apply Ex; [tauto|]. intros z. reflexivity.
  - apply Ex; [tauto|]. intros z. reflexivity.
  - unfold checked_div. destruct (no_division w a b) eqn:N.
    + apply no_division_spec in N. intros z M R. exfalso.
      destruct N as [->|(-> & -> & ->)].
      * destruct M as (r & _ & B & _). lia.
      * assert (z = 2 ^ 255).
        { apply (div_unique (- 2 ^ 255) (-1)); [exact M|]. exists 0.
          assert (P := p255). generalize dependent (2 ^ 255). intros. lia. }
        subst z. cbn [in_range] in R. lia.
    + assert (Hb : b <> 0).
      { intros ->. assert (no_division w a 0 = true) by (apply no_division_spec; tauto). congruence. }
      refine (conj (div_meant a b Hb) (conj _ _)).
      * apply quot_in_range; assumption.
      * intros (_ & F & _). discriminate.
  - unfold checked_rem_euclid. destruct (no_division w a b) eqn:N.
    + apply no_division_spec in N. intros z M R.
      destruct N as [->|(-> & -> & ->)].
      * destruct M as [_ B]. cbn in B. lia.
      * repeat split.
    + assert (Hb : b <> 0).
      { intros ->. assert (no_division w a 0 = true) by (apply no_division_spec; tauto). congruence. }
      assert (M := rem_meant a b Hb). refine (conj M (conj _ _)).
      * eapply rem_in_range; [exact Ra|exact Rb|exact M].
      * intros (-> & _ & -> & ->).
        assert (no_division WI (- 2 ^ 255) (-1) = true) by (apply no_division_spec; tauto). congruence.
  - cbn [second_range by_u32] in Rb. destruct (checked_pow_spec w a b Ra (proj1 Rb)) as [H1 H2].
    destruct (in_range_dec w (a ^ b)) as [D|D].
    + rewrite H1 by exact D. refine (conj eq_refl (conj D _)). intros (_ & F & _). discriminate.
    + rewrite H2 by exact D. cbn [meant]. intros z -> R. contradiction.
  - cbn [second_range by_u32] in Rb. unfold checked_shl. destruct (Z.ltb_spec b 256).
    + rewrite Z.shiftl_mul_pow2 by lia. refine (conj (conj H _) (conj _ _)).
      * exact (wrap_cong w (a * 2 ^ b)).
      * apply wrap_in_range.
      * intros (_ & F & _). discriminate.
    + intros z [L _]. lia.
  - cbn [second_range by_u32] in Rb. unfold checked_shr. destruct (Z.ltb_spec b 256).
    + rewrite Z.shiftr_div_pow2 by lia.
      assert (Hp : 0 < 2 ^ b) by (apply Z.pow_pos_nonneg; lia).
      refine (conj (conj H _) (conj _ _)).
      * exists (a mod 2 ^ b). split; [|apply Z.mod_pos_bound; exact Hp].
        rewrite (Z.div_mod a (2 ^ b)) at 1 by lia. ring.
      * apply shr_in_range; [exact Ra|lia].
      * intros (_ & F & _). discriminate.
    + intros z [L _]. lia.
Qed.
