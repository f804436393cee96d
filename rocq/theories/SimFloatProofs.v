(* Multiplying by a binary64 factor and rounding down: bounds. *)
From Coq Require Import ZArith Lia List Bool.
From Coq Require Import Floats.SpecFloat.
From Verif Require Import Prelude SimModel SimSpec.
Import ListNotations.
Open Scope Z_scope.
Ltac Zify.zify_post_hook ::= Z.div_mod_to_equations.

Lemma digits_bounds p : 2 ^ (Z.pos (digits2_pos p) - 1) <= Z.pos p < 2 ^ Z.pos (digits2_pos p).
Proof.
  induction p as [p IH|p IH|]; cbn [digits2_pos]; [| |cbn; lia].
  all: rewrite Pos2Z.inj_succ; replace (Z.succ (Z.pos (digits2_pos p)) - 1) with (Z.pos (digits2_pos p)) by lia;
    rewrite Z.pow_succ_r by lia;
    replace (Z.pos (digits2_pos p)) with (Z.succ (Z.pos (digits2_pos p) - 1)) in IH at 2 by lia;
    rewrite Z.pow_succ_r in IH by lia;
    replace (Z.pos (digits2_pos p)) with (Z.succ (Z.pos (digits2_pos p) - 1)) by lia; rewrite Z.pow_succ_r by lia; lia.
Qed.
Lemma digits_unique p d : 0 < d -> 2 ^ (d - 1) <= Z.pos p < 2 ^ d -> Z.pos (digits2_pos p) = d.
Proof.
  intros D [A B]. pose proof (digits_bounds p) as [C F].
  assert (d - 1 < Z.pos (digits2_pos p)) by (apply (Z.pow_lt_mono_r_iff 2); lia).
  assert (Z.pos (digits2_pos p) - 1 < d) by (apply (Z.pow_lt_mono_r_iff 2); lia). lia.
Qed.

(* Shifting right keeps the quotient and whether it was exact. *)
Definition shifted (m n : Z) (r : shr_record) : Prop :=
  shr_m r = m / 2 ^ n /\ (shr_r r || shr_s r = false <-> m mod 2 ^ n = 0).

Lemma shr_1_spec m n r : 0 <= m -> 0 <= n -> shifted m n r -> shifted m (n + 1) (shr_1 r).
Proof.
  intros M N [A B]. destruct r as [q r s]. cbn [shr_m shr_r shr_s] in *.
  assert (Q : 0 <= q) by (subst q; apply Z.div_pos; lia).
  assert (PN : 0 < 2 ^ n) by lia.
  assert (E1 : m / 2 ^ (n + 1) = q / 2).
  { rewrite Z.pow_add_r by lia. change (2 ^ 1) with 2. rewrite <- Z.div_div by lia. now rewrite A. }
  assert (E2 : m mod 2 ^ (n + 1) = 0 <-> m mod 2 ^ n = 0 /\ q mod 2 = 0).
  { rewrite Z.pow_add_r by lia. change (2 ^ 1) with 2. rewrite Z.rem_mul_r by lia. rewrite <- A.
    pose proof (Z.mod_pos_bound m (2 ^ n)). pose proof (Z.mod_pos_bound q 2). split; [intros H1|intros [-> ->]; lia].
    assert (2 ^ n * (q mod 2) = 0 \/ 0 < 2 ^ n * (q mod 2)) by nia. nia. }
  unfold shifted. rewrite E1, E2, <- B.
  destruct q as [|[p|p|]|]; cbn [shr_1 shr_m shr_r shr_s]; [| | | |lia].
  - split; [reflexivity|]. cbn. tauto.
  - split; [rewrite (Pos2Z.inj_xI p); lia|]. split; [discriminate|]. intros [_ X]. rewrite (Pos2Z.inj_xI p) in X. lia.
  - split; [rewrite (Pos2Z.inj_xO p); lia|]. cbn [orb]. rewrite (Pos2Z.inj_xO p). split; [intros X; split; auto; lia|tauto].
  - split; [reflexivity|]. split; [discriminate|]. intros [_ X]. discriminate.
Qed.
Lemma iter_shr m : 0 <= m -> forall p n r, 0 <= n -> shifted m n r -> shifted m (n + Z.pos p) (iter_pos shr_1 p r).
Proof.
  intros M. induction p as [p IH|p IH|]; intros n r N S0; cbn [iter_pos].
  - replace (n + Z.pos p~1) with (n + 1 + Z.pos p + Z.pos p) by lia. apply IH; [lia|]. apply IH; [lia|]. now apply shr_1_spec.
  - replace (n + Z.pos p~0) with (n + Z.pos p + Z.pos p) by lia. apply IH; [lia|]. now apply IH.
  - now apply shr_1_spec.
Qed.
Lemma shr_spec m e n : 0 <= m -> shifted m (Z.max 0 n) (fst (shr (shr_record_of_loc m loc_Exact) e n))
  /\ snd (shr (shr_record_of_loc m loc_Exact) e n) = e + Z.max 0 n.
Proof.
  intros M.
  assert (S0 : shifted m 0 (shr_record_of_loc m loc_Exact)).
  { unfold shifted. cbn. rewrite Z.div_1_r, Z.mod_1_r. tauto. }
  destruct n as [|p|p]; cbn [shr fst snd].
  - rewrite Z.max_l by lia. split; [exact S0|lia].
  - rewrite Z.max_r by lia. split; [|lia]. apply (iter_shr m M p 0 _); auto. lia.
  - rewrite Z.max_l by lia. split; [exact S0|lia].
Qed.

(* Rounding: the quotient, or one more if it was not exact. *)
Lemma round_spec m n r : shifted m n r ->
  let q := round_nearest_even (shr_m r) (loc_of_shr_record r) in
  q = m / 2 ^ n \/ (q = m / 2 ^ n + 1 /\ m mod 2 ^ n <> 0).
Proof.
  intros [A B]. destruct r as [q [] []]; cbn [shr_m shr_r shr_s loc_of_shr_record round_nearest_even] in *; subst q; cbn in B.
  - right. split; auto. intros X. apply B in X. discriminate.
  - destruct (Z.even _); [now left|right]. split; auto. intros X. apply B in X. discriminate.
  - now left.
  - now left.
Qed.

(* Integer parts of m * 2^e. *)
Definition down (m e : Z) : Z := if 0 <=? e then m * 2 ^ e else m / 2 ^ (- e).
Definition up (m e : Z) : Z := if 0 <=? e then m * 2 ^ e else - ((- m) / 2 ^ (- e)).

(* A rounded number: not negative, and in the form comparisons expect. *)
Definition canonical (x : f64) : Prop :=
  match x with
  | S754_finite s m e => s = false /\ Z.pos m < 2 ^ 53 /\ -1074 <= e /\ (2 ^ 52 <= Z.pos m \/ e = -1074)
  | S754_zero s | S754_infinity s => s = false
  | S754_nan => False
  end.
Definition part (x : f64) : Z := match x with S754_finite _ m e => down (Z.pos m) e | _ => 0 end.
Definition infinite (x : f64) : Prop := match x with S754_infinity _ => True | _ => False end.

Lemma round_aux M E : 2 ^ 52 <= Z.pos M ->
  let R := binary_round_aux 53 1024 false (Z.pos M) E loc_Exact in
  canonical R
  /\ (down (Z.pos M) E < 2 ^ 53 -> ~ infinite R /\ down (Z.pos M) E <= part R <= up (Z.pos M) E)
  /\ (2 ^ 53 <= down (Z.pos M) E -> infinite R \/ 2 ^ 53 <= part R).
Proof.
  intros MB. unfold binary_round_aux, shr_fexp. cbn [Zdigits2].
  pose proof (digits_bounds M) as [DL DU]. set (d := Z.pos (digits2_pos M)) in *.
  assert (D53 : 53 <= d). { assert (52 < d) by (apply (Z.pow_lt_mono_r_iff 2); lia). lia. }
  set (g := fexp 53 1024 (d + E)). assert (G : g = Z.max (d + E - 53) (-1074)) by reflexivity.
  assert (GE : E <= g) by lia.
  destruct (shr_spec (Z.pos M) E (g - E) ltac:(lia)) as [SH SE].
  destruct (shr (shr_record_of_loc (Z.pos M) loc_Exact) E (g - E)) as [r e1]. cbn [fst snd] in SH, SE.
  rewrite Z.max_r in SH, SE by lia. replace (E + (g - E)) with g in SE by lia. subst e1.
  pose proof (round_spec _ _ _ SH) as QS. cbv zeta in QS.
  set (q := round_nearest_even (shr_m r) (loc_of_shr_record r)) in *.
  set (n := g - E) in *. assert (N0 : 0 <= n) by lia. assert (PN : 0 < 2 ^ n) by lia.
  (* the quotient has at most 53 digits, and exactly 53 unless the exponent is the least *)
  assert (QU : Z.pos M / 2 ^ n < 2 ^ 53).
  { apply Z.div_lt_upper_bound; [lia|]. rewrite <- Z.pow_add_r by lia.
    eapply Z.lt_le_trans; [exact DU|]. apply Z.pow_le_mono_r; lia. }
  assert (QL : g = d + E - 53 -> 2 ^ 52 <= Z.pos M / 2 ^ n).
  { intros X. apply Z.div_le_lower_bound; [lia|]. rewrite <- Z.pow_add_r by lia.
    replace (n + 52) with (d - 1) by lia. exact DL. }
  assert (Q0 : 0 <= Z.pos M / 2 ^ n) by (apply Z.div_pos; lia).
  assert (QR : 0 <= q <= 2 ^ 53) by lia.
  (* the value q * 2^g, whichever way it is written *)
  assert (FIN : let R := (let '(mrs'', e'') := shr (shr_record_of_loc q loc_Exact) g (fexp 53 1024 (Zdigits2 q + g) - g) in
                 match shr_m mrs'' with
                 | 0 => S754_zero false
                 | Z.pos m => if e'' <=? 1024 - 53 then S754_finite false m e'' else S754_infinity false
                 | Z.neg _ => S754_nan end) in
      canonical R /\ (g <= 0 -> ~ infinite R /\ part R = down q g) /\ (infinite R \/ part R = down q g)).
  { cbv zeta. destruct (Z.eq_dec q (2 ^ 53)) as [Q53|Q53].
    - rewrite Q53. assert (Z53 : Zdigits2 (2 ^ 53) = 54) by reflexivity. rewrite Z53.
      assert (X : fexp 53 1024 (54 + g) - g = 1) by (unfold fexp, emin; lia). rewrite X.
      change (shr (shr_record_of_loc (2 ^ 53) loc_Exact) g 1)
        with ({| shr_m := 2 ^ 52; shr_r := false; shr_s := false |}, g + 1).
      cbv beta iota. cbn [shr_m]. change (2 ^ 52) with (Z.pos 4503599627370496). cbv iota.
      assert (DE : down (Z.pos 4503599627370496) (g + 1) = down (2 ^ 53) g).
      { unfold down. destruct (Z.leb_spec 0 g).
        - replace (0 <=? g + 1) with true by lia. rewrite Z.pow_add_r by lia. lia.
        - destruct (Z.leb_spec 0 (g + 1)).
          + replace g with (-1) by lia. reflexivity.
          + replace (- g) with (- (g + 1) + 1) by lia. rewrite Z.pow_add_r by lia.
            change (2 ^ 53) with (Z.pos 4503599627370496 * 2 ^ 1). rewrite Z.div_mul_cancel_r; [reflexivity|lia|lia]. }
      destruct (Z.leb_spec (g + 1) (1024 - 53)).
      + split; [|split; [|right; exact DE]].
        * cbn [canonical]. split; [reflexivity|]. split; [reflexivity|]. split; [lia|]. left. lia.
        * intros _. split; [tauto|exact DE].
      + split; [reflexivity|]. split; [intros; lia|left; exact I].
    - assert (X : fexp 53 1024 (Zdigits2 q + g) - g <= 0).
      { unfold fexp, emin. destruct q as [|p|]; cbn [Zdigits2]; [lia| |lia].
        pose proof (digits_bounds p) as [PL _].
        assert (Z.pos (digits2_pos p) - 1 < 53) by (apply (Z.pow_lt_mono_r_iff 2); lia). lia. }
      assert (NS : shr (shr_record_of_loc q loc_Exact) g (fexp 53 1024 (Zdigits2 q + g) - g)
                   = ({| shr_m := q; shr_r := false; shr_s := false |}, g)).
      { destruct (fexp 53 1024 (Zdigits2 q + g) - g); [reflexivity|lia|reflexivity]. }
      rewrite NS. cbn [shr_m]. destruct q as [|p|p]; [|clear NS|lia].
      + assert (g = -1074).
        { destruct (Z.eq_dec g (d + E - 53)) as [Y|]; [|lia]. specialize (QL Y). lia. }
        split; [reflexivity|]. split; [intros _; split; [tauto|]|right]; cbn; unfold down; destruct (0 <=? g); reflexivity.
      + destruct (Z.leb_spec g (1024 - 53)).
        * split; [|split; [intros _; split; [tauto|reflexivity]|right; reflexivity]].
          cbn [canonical]. split; [reflexivity|]. split; [lia|]. split; [lia|].
          destruct (Z.eq_dec g (d + E - 53)) as [Y|]; [specialize (QL Y)|]; lia.
        * split; [reflexivity|]. split; [lia|left; exact I]. }
  cbv zeta in FIN. cbv zeta. revert FIN.
  match goal with |- context [canonical ?x] => set (R := x) end.
  intros (CA & SMALL & ANY). split; [exact CA|].
  split.
  - intros LT.
    assert (DE : d + E <= 53).
    { unfold down in LT. destruct (Z.leb_spec 0 E).
      - assert (d - 1 + E < 53); [|lia]. apply (Z.pow_lt_mono_r_iff 2); [lia|lia|].
        rewrite Z.pow_add_r by lia. nia.
      - destruct (Z_lt_le_dec 53 (d + E)) as [X|]; [|lia]. exfalso.
        assert (2 ^ 53 <= Z.pos M / 2 ^ (- E)); [|lia]. apply Z.div_le_lower_bound; [lia|].
        rewrite <- Z.pow_add_r by lia. eapply Z.le_trans; [|exact DL]. apply Z.pow_le_mono_r; lia. }
    assert (G0 : g <= 0) by lia. destruct (SMALL G0) as [NI PE]. split; [exact NI|]. rewrite PE. clear SMALL ANY CA PE NI.
    assert (E0 : E <= 0) by lia.
    assert (DN : down (Z.pos M) E = Z.pos M / 2 ^ (- E)).
    { unfold down. destruct (Z.leb_spec 0 E); [|reflexivity]. replace E with 0 by lia. change (2 ^ 0) with 1. change (2 ^ (- 0)) with 1. now rewrite Z.div_1_r, Z.mul_1_r. }
    assert (UN : up (Z.pos M) E = - ((- Z.pos M) / 2 ^ (- E))).
    { unfold up. destruct (Z.leb_spec 0 E); [|reflexivity]. replace E with 0 by lia. change (2 ^ 0) with 1. change (2 ^ (- 0)) with 1. rewrite Z.div_1_r. lia. }
    assert (DQ : down q g = q / 2 ^ (- g)).
    { unfold down. destruct (Z.leb_spec 0 g); [|reflexivity]. replace g with 0 by lia. change (2 ^ 0) with 1. change (2 ^ (- 0)) with 1. now rewrite Z.div_1_r, Z.mul_1_r. }
    rewrite DN, UN, DQ. clear DN UN DQ R.
    replace (- E) with (n + - g) by lia. rewrite Z.pow_add_r by lia.
    set (a := 2 ^ n) in *. set (b := 2 ^ (- g)). assert (B0 : 0 < b) by (unfold b; lia).
    assert (DD : Z.pos M / (a * b) = Z.pos M / a / b) by (rewrite Z.div_div; lia).
    assert (CE : Z.pos M mod a <> 0 -> - (- Z.pos M / (a * b)) = Z.pos M / (a * b) + 1).
    { intros X. rewrite Z.div_opp_l_nz; [lia|nia|]. intros Y. apply X.
      rewrite Z.rem_mul_r in Y by lia. pose proof (Z.mod_pos_bound (Z.pos M) a). pose proof (Z.mod_pos_bound (Z.pos M / a) b). nia. }
    assert (CG : Z.pos M / (a * b) <= - (- Z.pos M / (a * b))).
    { assert (0 < a * b) by nia. pose proof (Z.mul_div_le (Z.pos M) (a * b)). pose proof (Z.mul_div_le (- Z.pos M) (a * b)). nia. }
    destruct QS as [-> | [-> X]].
    + rewrite <- DD. lia.
    + rewrite (CE X), DD. pose proof (Z.div_le_mono (Z.pos M / a) (Z.pos M / a + 1) b).
      assert ((Z.pos M / a + 1) / b <= Z.pos M / a / b + 1).
      {
        rewrite <- (Z.div_add (Z.pos M / a) 1 b) by lia. apply Z.div_le_mono; lia. }
      lia.
  - intros GEQ. destruct ANY as [I|P]; [now left|right]. rewrite P.
    assert (DE : 54 <= d + E).
    { unfold down in GEQ. destruct (Z.leb_spec 0 E).
      - assert (53 < d + E); [|lia]. apply (Z.pow_lt_mono_r_iff 2); [lia|lia|]. rewrite Z.pow_add_r by lia. nia.
      - destruct (Z_lt_le_dec (d + E) 54) as [X|]; [|lia]. exfalso.
        assert (Z.pos M / 2 ^ (- E) < 2 ^ 53); [|lia]. apply Z.div_lt_upper_bound; [lia|].
        rewrite <- Z.pow_add_r by lia. eapply Z.lt_le_trans; [exact DU|]. apply Z.pow_le_mono_r; lia. }
    assert (g = d + E - 53) by lia. specialize (QL H). unfold down. replace (0 <=? g) with true by lia.
    assert (2 ^ 1 <= 2 ^ g) by (apply Z.pow_le_mono_r; lia). nia.
Qed.

Lemma pow_ge1 n : 0 <= n -> 1 <= 2 ^ n.
Proof. intros. pose proof (Z.pow_pos_nonneg 2 n). lia. Qed.
Lemma down_shift a e k : 0 <= k -> down (a * 2 ^ k) (e - k) = down a e.
Proof.
  intros K. unfold down. destruct (Z.leb_spec 0 (e - k)).
  - replace (0 <=? e) with true by lia. rewrite <- Z.mul_assoc, <- Z.pow_add_r by lia. do 2 f_equal. lia.
  - destruct (Z.leb_spec 0 e).
    + replace k with (- (e - k) + e) at 1 by lia. rewrite Z.pow_add_r by lia.
      rewrite (Z.mul_comm (2 ^ _) (2 ^ e)), Z.mul_assoc, Z.div_mul; [reflexivity|]. pose proof (pow_ge1 (- (e - k))). lia.
    + replace (- (e - k)) with (- e + k) by lia. rewrite Z.pow_add_r by lia.
      rewrite Z.div_mul_cancel_r; [reflexivity| |]; pose proof (pow_ge1 k); pose proof (pow_ge1 (- e)); lia.
Qed.
Lemma up_down a e : up a e = - down (- a) e.
Proof. unfold up, down. destruct (0 <=? e); lia. Qed.
Lemma up_shift a e k : 0 <= k -> up (a * 2 ^ k) (e - k) = up a e.
Proof. intros K. rewrite !up_down, <- (down_shift (- a) e k K). do 2 f_equal. lia. Qed.
Lemma down_mono a b e : a <= b -> down a e <= down b e.
Proof.
  intros H. unfold down. destruct (Z.leb_spec 0 e).
  - pose proof (pow_ge1 e). nia.
  - apply Z.div_le_mono; [pose proof (pow_ge1 (- e))|]; lia.
Qed.
Lemma down_nonneg m e : 0 <= m -> 0 <= down m e.
Proof.
  intros H. unfold down. destruct (Z.leb_spec 0 e); [pose proof (pow_ge1 e); nia|].
  apply Z.div_pos; pose proof (pow_ge1 (- e)); lia.
Qed.

(* Integers below 2^53 are represented exactly. *)
Lemma shl_align_spec p e g : let '(m, e') := shl_align p e g in
  (e <= g -> m = p /\ e' = e) /\ (g < e -> Z.pos m = Z.pos p * 2 ^ (e - g) /\ e' = g).
Proof.
  unfold shl_align. destruct (g - e) as [|q|q] eqn:H.
  - split; [auto|lia].
  - split; [auto|lia].
  - split; [lia|]. intros _. split; [|lia]. unfold shift_pos. replace (e - g) with (Z.pos q) by lia. clear.
    induction q using Pos.peano_ind; [cbn; lia|].
    rewrite Pos.iter_succ, Pos2Z.inj_succ, Z.pow_succ_r, Pos2Z.inj_xO, IHq by lia. lia.
Qed.

Lemma of_int_spec v : 0 < v < 2 ^ 53 ->
  exists m k, f64_of_int v = S754_finite false m (- k) /\ 0 <= k /\ Z.pos m = v * 2 ^ k /\ 2 ^ 52 <= Z.pos m < 2 ^ 53.
Proof.
  intros [V1 V2]. destruct v as [|p|p]; try lia. unfold f64_of_int. cbn [binary_normalize]. unfold binary_round.
  pose proof (digits_bounds p) as [DL DU]. set (d := Z.pos (digits2_pos p)) in *.
  assert (D : 0 < d <= 53). { split; [lia|]. assert (d - 1 < 53) by (apply (Z.pow_lt_mono_r_iff 2); lia). lia. }
  assert (G : fexp 53 1024 (d + 0) = d - 53) by (unfold fexp, emin; lia). rewrite G.
  pose proof (shl_align_spec p 0 (d - 53)) as S0. destruct (shl_align p 0 (d - 53)) as [m e'].
  assert (ME : Z.pos m = Z.pos p * 2 ^ (53 - d) /\ e' = d - 53).
  { destruct (Z.eq_dec d 53) as [X|X].
    - destruct S0 as [S0 _]. destruct (S0 ltac:(lia)) as [-> ->]. rewrite X. split; [cbn; lia|lia].
    - destruct S0 as [_ S0]. destruct (S0 ltac:(lia)) as [-> ->]. split; [do 2 f_equal; lia|lia]. }
  destruct ME as [ME ->].
  assert (MB : 2 ^ 52 <= Z.pos m < 2 ^ 53).
  { rewrite ME. replace (2 ^ 52) with (2 ^ (d - 1) * 2 ^ (53 - d)) by (rewrite <- Z.pow_add_r by lia; f_equal; lia).
    replace (2 ^ 53) with (2 ^ d * 2 ^ (53 - d)) by (rewrite <- Z.pow_add_r by lia; f_equal; lia).
    pose proof (pow_ge1 (53 - d)). nia. }
  assert (DM : Z.pos (digits2_pos m) = 53) by (apply digits_unique; [lia|]; exact MB).
  exists m, (53 - d). split; [|split; [lia|split; [exact ME|exact MB]]].
  unfold binary_round_aux, shr_fexp. cbn [Zdigits2]. rewrite DM.
  assert (X : fexp 53 1024 (53 + (d - 53)) - (d - 53) = 0) by (unfold fexp, emin; lia). rewrite X.
  cbn [shr shr_record_of_loc shr_m loc_of_shr_record round_nearest_even shr_r shr_s Zdigits2]. rewrite DM, X. cbn [shr shr_m].
  replace (d - 53 <=? 1024 - 53) with true by lia. f_equal. lia.
Qed.

(* Comparing with a normal number. *)
Lemma compare_parts hm he R : 2 ^ 52 <= Z.pos hm < 2 ^ 53 -> -1074 <= he -> canonical R ->
  (SFltb (S754_finite false hm he) R = true -> infinite R \/ down (Z.pos hm) he <= part R)
  /\ (SFltb (S754_finite false hm he) R = false -> ~ infinite R /\ part R <= down (Z.pos hm) he).
Proof.
  intros HB HE CA. unfold SFltb. destruct R as [s|s| |s m e]; cbn [SFcompare canonical infinite part] in *.
  - split; [discriminate|]. intros _. split; [tauto|]. apply down_nonneg. lia.
  - subst s. split; [auto|discriminate].
  - contradiction.
  - destruct CA as (-> & MU & EL & NO).
    assert (LT : forall m1 e1 m2 e2, e1 < e2 -> m1 < 2 ^ 53 -> 2 ^ 52 <= m2 -> down m1 e1 <= down m2 e2).
    { intros m1 e1 m2 e2 L A B. rewrite <- (down_shift m2 e2 (e2 - e1)) by lia. replace (e2 - (e2 - e1)) with e1 by lia.
      apply down_mono. replace (e2 - e1) with ((e2 - e1 - 1) + 1) by lia. rewrite Z.pow_add_r by lia.
      pose proof (pow_ge1 (e2 - e1 - 1)). nia. }
    destruct (Z.compare_spec he e) as [<-|L|L].
    + change (Pos.compare_cont Eq hm m) with (Pos.compare hm m). destruct (Pos.compare_spec hm m) as [->|L|L].
      * split; [discriminate|]. intros _. split; [tauto|lia].
      * split; [|discriminate]. intros _. right. apply down_mono. lia.
      * split; [discriminate|]. intros _. split; [tauto|]. apply down_mono. lia.
    + split; [|discriminate]. intros _. right. destruct NO as [NO|NO]; [apply LT; lia|].
      exfalso. lia.
    + split; [discriminate|]. intros _. split; [tauto|]. apply LT; lia.
Qed.

Lemma not_below_zero R : canonical R -> SFltb R (S754_zero false) = false.
Proof. intros CA. destruct R as [s|s| |s m e]; cbn in *; try reflexivity; [now subst|destruct CA as [-> _]; reflexivity]. Qed.

(* The scaled value: rounded down and limited. *)
Lemma scaled_cases lo hm he hi R : 2 ^ 52 <= Z.pos hm < 2 ^ 53 -> -1074 <= he -> lo <= 0 -> 0 <= hi <= down (Z.pos hm) he ->
  down (Z.pos hm) he <= hi + 1 -> canonical R ->
  floor_as lo hi (f64_clamp (S754_zero false) (S754_finite false hm he) R)
  = (match R with S754_infinity _ => hi | _ => Z.min hi (part R) end).
Proof.
  intros HB HE L0 H0 H1 CA. unfold f64_clamp. rewrite (not_below_zero R CA).
  destruct (compare_parts hm he R HB HE CA) as [GT LE].
  destruct (SFltb _ R).
  - specialize (GT eq_refl). cbn [floor_as]. change (if 0 <=? he then Z.pos hm * 2 ^ he else Z.pos hm / 2 ^ (- he)) with (down (Z.pos hm) he).
    unfold clamp. destruct R; cbn [infinite part] in *; try (destruct GT as [[]|GT]); lia.
  - destruct (LE eq_refl) as [NI PR]. destruct R as [s|s| |s m e]; cbn [infinite part canonical floor_as] in *; try lia; try tauto.
    destruct CA as (-> & _). cbv iota. change (if 0 <=? e then Z.pos m * 2 ^ e else Z.pos m / 2 ^ (- e)) with (down (Z.pos m) e).
    pose proof (down_nonneg (Z.pos m) e). unfold clamp. lia.
Qed.

Lemma times_down_eq v m e : times_down v m e = down (v * m) e.
Proof.
  unfold times_down, down. destruct (Z.leb_spec 0 e).
  - rewrite Z.max_l, Z.max_r by lia. change (2 ^ 0) with 1. now rewrite Z.div_1_r.
  - rewrite Z.max_r, Z.max_l by lia. change (2 ^ 0) with 1. now rewrite Z.mul_1_r.
Qed.
Lemma times_up_eq v m e : times_up v m e = up (v * m) e.
Proof.
  unfold times_up, up. destruct (Z.leb_spec 0 e).
  - rewrite Z.max_l, Z.max_r by lia. change (2 ^ 0) with 1. rewrite Z.div_1_r. lia.
  - rewrite Z.max_r, Z.max_l by lia. change (2 ^ 0) with 1. now rewrite Z.mul_1_r.
Qed.
Lemma times_down_up v m e : times_down v m e <= times_up v m e.
Proof.
  rewrite times_down_eq, times_up_eq. unfold down, up. destruct (Z.leb_spec 0 e); [lia|].
  pose proof (pow_ge1 (- e)). pose proof (Z.mul_div_le (v * m) (2 ^ (- e))). pose proof (Z.mul_div_le (- (v * m)) (2 ^ (- e))). nia.
Qed.

Lemma product v m e : 0 < v < 2 ^ 53 ->
  let R := f64_mul (f64_of_int v) (S754_finite false m e) in
  canonical R
  /\ (times_down v (Z.pos m) e < 2 ^ 53 -> ~ infinite R /\ times_down v (Z.pos m) e <= part R <= times_up v (Z.pos m) e)
  /\ (2 ^ 53 <= times_down v (Z.pos m) e -> infinite R \/ 2 ^ 53 <= part R).
Proof.
  intros V. destruct (of_int_spec v V) as (mv & k & -> & K & MV & MB). unfold f64_mul. cbn [SFmul xorb].
  pose proof (round_aux (mv * m) (- k + e)) as RA. cbv zeta in *.
  assert (X : Z.pos (mv * m) = v * Z.pos m * 2 ^ k) by (rewrite Pos2Z.inj_mul, MV; lia).
  rewrite times_down_eq, times_up_eq.
  rewrite <- (down_shift (v * Z.pos m) e k K), <- (up_shift (v * Z.pos m) e k K), <- X.
  replace (e - k) with (- k + e) by lia. apply RA. rewrite Pos2Z.inj_mul. nia.
Qed.

(* 32 bits: exact up to the rounding of the product. *)
Lemma scaled_u32 v m e : 0 < v <= u32_max ->
  let s := floor_as 0 u32_max (f64_clamp (S754_zero false) (f64_of_int u32_max) (f64_mul (f64_of_int v) (S754_finite false m e))) in
  Z.min u32_max (times_down v (Z.pos m) e) <= s <= Z.min u32_max (times_up v (Z.pos m) e).
Proof.
  intros V. cbv zeta. unfold u32_max in V. destruct (product v m e ltac:(lia)) as (CA & LO & HI). cbv zeta in *.
  change (f64_of_int u32_max) with (S754_finite false 9007199252643840 (-21)).
  rewrite scaled_cases; auto; [|vm_compute; intuition congruence|lia|lia|vm_compute; intuition congruence|vm_compute; congruence].
  pose proof (times_down_up v (Z.pos m) e).
  destruct (Z_lt_le_dec (times_down v (Z.pos m) e) (2 ^ 53)) as [L|L].
  - destruct (LO L) as [NI B]. destruct (f64_mul _ _); cbn [infinite] in *; try lia; tauto.
  - specialize (HI L). unfold u32_max in *. destruct (f64_mul _ _); cbn [infinite] in *; try (destruct HI as [[]|HI]); lia.
Qed.
(* 64 bits: the same while the numbers are below 2^53. *)
Lemma scaled_i64 v m e : 0 < v < 2 ^ 53 -> times_down v (Z.pos m) e < 2 ^ 53 ->
  let s := floor_as i64_min i64_max (f64_clamp (S754_zero false) (f64_of_int i64_max) (f64_mul (f64_of_int v) (S754_finite false m e))) in
  times_down v (Z.pos m) e <= s <= times_up v (Z.pos m) e.
Proof.
  intros V L. cbv zeta. destruct (product v m e V) as (CA & LO & _). cbv zeta in *.
  change (f64_of_int i64_max) with (S754_finite false 4503599627370496 11).
  rewrite scaled_cases; auto; [|vm_compute; intuition congruence|lia|unfold i64_min; lia|vm_compute; intuition congruence|vm_compute; congruence].
  destruct (LO L) as [NI B]. unfold i64_max in *.
  assert (UD : times_up v (Z.pos m) e <= times_down v (Z.pos m) e + 1).
  { rewrite times_down_eq, times_up_eq. unfold down, up. destruct (Z.leb_spec 0 e); [lia|].
    set (a := v * Z.pos m). set (b := 2 ^ (- e)). assert (0 < b) by (unfold b; pose proof (pow_ge1 (- e)); lia).
    pose proof (Z.mod_pos_bound a b). pose proof (Z.div_mod a b). pose proof (Z.mod_pos_bound (- a) b).
    pose proof (Z.div_mod (- a) b). nia. }
  destruct (f64_mul _ _); cbn [infinite] in *; try lia; tauto.
Qed.
