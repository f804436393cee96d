From Coq Require Import ZArith Lia List Bool.
From Verif Require Import Prelude ValModel ValSpec ValProofs.
Import ListNotations.
Open Scope Z_scope.
Ltac Zify.zify_post_hook ::= Z.div_mod_to_equations.

Definition B : Z := 2 ^ 64.
Lemma B_eq : B = 18446744073709551616. Proof. reflexivity. Qed.
Lemma Bpos : 0 < B. Proof. reflexivity. Qed.
Lemma p128 : 2 ^ 128 = B * B. Proof. reflexivity. Qed.
Lemma p127 : 2 ^ 127 = 2 ^ 63 * B. Proof. reflexivity. Qed.
Lemma p256 : 2 ^ 256 = B * B * (B * B). Proof. reflexivity. Qed.
Lemma p255 : 2 ^ 255 = 2 ^ 63 * B * (B * B). Proof. reflexivity. Qed.
Lemma p63 : 2 ^ 63 = 9223372036854775808. Proof. reflexivity. Qed.

Lemma as_u64_eq x : as_u64 x = x mod B. Proof. reflexivity. Qed.

Lemma as_u64_range x : 0 <= as_u64 x < B.
Proof. rewrite as_u64_eq, B_eq. lia. Qed.

Lemma as_u64_small x : 0 <= x < B -> as_u64 x = x.
Proof. intros. rewrite as_u64_eq. now apply Z.mod_small. Qed.

Lemma as_u64_as_i64 x : as_i64 (as_u64 x) = as_i64 x.
Proof. unfold as_i64, as_u64. now rewrite Z.mod_mod by (compute; congruence). Qed.

Lemma as_i64_cases x : exists k, as_i64 x = x + k * B.
Proof.
  unfold as_i64. exists (if x mod 2 ^ 64 <? 2 ^ 63 then - (x / B) else - (x / B) - 1).
  change (2 ^ 64) with B. rewrite p63, B_eq. case_if; lia.
Qed.

Lemma as_i64_unique x y k : - 2 ^ 63 <= y < 2 ^ 63 -> x = y + k * B -> as_i64 x = y.
Proof.
  intros H E. unfold as_i64. change (2 ^ 64) with B.
  rewrite p63, B_eq in *. case_if; lia.
Qed.

Lemma shiftl_lor hi lo : 0 <= lo < B -> Z.lor (Z.shiftl hi 64) lo = hi * B + lo.
Proof. intros. rewrite lor_shift_low by (unfold B in *; lia). reflexivity. Qed.

Lemma shiftl_lor128 hi lo : 0 <= lo < B * B -> Z.lor (Z.shiftl hi 128) lo = hi * (B * B) + lo.
Proof. intros. rewrite lor_shift_low by (rewrite ?p128; lia). now rewrite p128. Qed.

Lemma shr64 x : Z.shiftr x 64 = x / B.
Proof. now rewrite Z.shiftr_div_pow2 by lia. Qed.
Lemma shr128 x : Z.shiftr x 128 = x / (B * B).
Proof. now rewrite Z.shiftr_div_pow2 by lia. Qed.

Lemma div_small2 a b m : 0 < m -> 0 <= b < m -> (a * m + b) / m = a.
Proof. intros. rewrite Z.div_add_l by lia. rewrite Z.div_small by lia. lia. Qed.
Lemma mod_small2 a b m : 0 <= b < m -> (a * m + b) mod m = b.
Proof. intros. rewrite Z.add_comm, Z.mod_add by lia. now apply Z.mod_small. Qed.

(* as_i128 / as_i256: the unique representative in the signed range. *)
Lemma as_i128_unique x y k : - 2 ^ 127 <= y < 2 ^ 127 -> x = y + k * 2 ^ 128 -> as_i128 x = y.
Proof.
  intros H ->. unfold as_i128. rewrite Z.mod_add by lia.
  assert (P : 2 ^ 128 = 2 * 2 ^ 127) by reflexivity. assert (0 < 2 ^ 127) by lia.
  set (h := 2 ^ 127) in *. rewrite P.
  destruct (Z.ltb_spec y 0).
  - assert (E : y mod (2 * h) = y + 2 * h) by (symmetry; apply Z.mod_unique with (-1); lia).
    rewrite E. destruct (Z.ltb_spec (y + 2 * h) h); lia.
  - rewrite Z.mod_small by lia. destruct (Z.ltb_spec y h); lia.
Qed.

Lemma as_i256_unique x y k : - 2 ^ 255 <= y < 2 ^ 255 -> x = y + k * 2 ^ 256 -> as_i256 x = y.
Proof.
  intros H ->. unfold as_i256. rewrite Z.mod_add by lia.
  assert (P : 2 ^ 256 = 2 * 2 ^ 255) by reflexivity. assert (0 < 2 ^ 255) by lia.
  set (h := 2 ^ 255) in *. rewrite P.
  destruct (Z.ltb_spec y 0).
  - assert (E : y mod (2 * h) = y + 2 * h) by (symmetry; apply Z.mod_unique with (-1); lia).
    rewrite E. destruct (Z.ltb_spec (y + 2 * h) h); lia.
  - rewrite Z.mod_small by lia. destruct (Z.ltb_spec y h); lia.
Qed.


Lemma divmodB x : x = (x / B) * B + x mod B /\ 0 <= x mod B < B.
Proof. rewrite B_eq. lia. Qed.

Lemma div_range lo hi m x : 0 < m -> lo * m <= x < hi * m -> lo <= x / m < hi.
Proof.
  intros. split; [apply Z.div_le_lower_bound; lia|apply Z.div_lt_upper_bound; lia].
Qed.

(* ---------------------------------------------------- 128 bits *)

Lemma u128_split u : 0 <= u < 2 ^ 128 ->
  u128_hi u = u / B /\ u128_lo u = u mod B /\ 0 <= u / B < B.
Proof.
  intros H. rewrite p128 in H. unfold u128_hi, u128_lo. rewrite shr64.
  assert (0 <= u / B < B) by (apply div_range; try apply Bpos; lia).
  rewrite as_u64_small by assumption. auto.
Qed.

Lemma u128_join_split u : 0 <= u < 2 ^ 128 -> u128_from_pieces (u128_hi u) (u128_lo u) = u.
Proof.
  intros H. destruct (u128_split u H) as (-> & -> & R). destruct (divmodB u).
  unfold u128_from_pieces. rewrite shiftl_lor; lia.
Qed.

Lemma u128_split_join hi lo : 0 <= hi < B -> 0 <= lo < B ->
  0 <= u128_from_pieces hi lo < 2 ^ 128
  /\ u128_hi (u128_from_pieces hi lo) = hi /\ u128_lo (u128_from_pieces hi lo) = lo.
Proof.
  intros H L. unfold u128_from_pieces. rewrite shiftl_lor by lia.
  assert (R : 0 <= hi * B + lo < 2 ^ 128) by (rewrite p128; nia).
  destruct (u128_split _ R) as (-> & -> & _).
  rewrite div_small2, mod_small2 by lia. auto.
Qed.

Lemma i128_split i : - 2 ^ 127 <= i < 2 ^ 127 ->
  i128_hi i = i / B /\ i128_lo i = i mod B /\ - 2 ^ 63 <= i / B < 2 ^ 63.
Proof.
  intros H. rewrite p127 in H. unfold i128_hi, i128_lo. rewrite shr64.
  assert (- 2 ^ 63 <= i / B < 2 ^ 63) by (apply div_range; rewrite ?B_eq in *; lia).
  rewrite as_i64_small by assumption. auto.
Qed.

Lemma i128_from_pieces_eq hi lo : - 2 ^ 63 <= hi < 2 ^ 63 -> 0 <= lo < B ->
  i128_from_pieces hi lo = hi * B + lo.
Proof.
  intros H L. unfold i128_from_pieces. rewrite shiftl_lor by lia.
  destruct (divmodB hi) as [E _]. rewrite as_u64_eq.
  eapply as_i128_unique with (k := - (hi / B)).
  - rewrite p127, p63 in *. rewrite B_eq in *. lia.
  - rewrite p128. set (q := hi / B) in *. set (r := hi mod B) in *. clearbody q r. subst hi. ring.
Qed.

Lemma i128_join_split i : - 2 ^ 127 <= i < 2 ^ 127 -> i128_from_pieces (i128_hi i) (i128_lo i) = i.
Proof.
  intros H. destruct (i128_split i H) as (-> & -> & R). destruct (divmodB i).
  rewrite i128_from_pieces_eq; lia.
Qed.

Lemma i128_split_join hi lo : - 2 ^ 63 <= hi < 2 ^ 63 -> 0 <= lo < B ->
  - 2 ^ 127 <= i128_from_pieces hi lo < 2 ^ 127
  /\ i128_hi (i128_from_pieces hi lo) = hi /\ i128_lo (i128_from_pieces hi lo) = lo.
Proof.
  intros H L. rewrite i128_from_pieces_eq by assumption.
  assert (R : - 2 ^ 127 <= hi * B + lo < 2 ^ 127).
  { rewrite p127, p63 in *. rewrite B_eq in *. lia. }
  destruct (i128_split _ R) as (-> & -> & _).
  rewrite div_small2, mod_small2 by lia. auto.
Qed.

(* ---------------------------------------------------- 256 bits *)


(* x as four base-B digits *)
Lemma four x :
  x = ((x / (B * B) / B * B + (x / (B * B)) mod B) * B + (x / B) mod B) * B + x mod B.
Proof.
  pose proof Bpos. rewrite <- Z.div_div by lia.
  destruct (divmodB x) as [E1 _]. destruct (divmodB (x / B)) as [E2 _].
  destruct (divmodB (x / B / B)) as [E3 _].
  rewrite <- E3. rewrite <- E2. exact E1.
Qed.

Lemma u256_pieces_eq u : 0 <= u < 2 ^ 256 ->
  u256_into_pieces u = (u / (B * B) / B, (u / (B * B)) mod B, (u / B) mod B, u mod B)
  /\ 0 <= u / (B * B) / B < B.
Proof.
  intros H. rewrite p256 in H. pose proof Bpos.
  assert (R : 0 <= u / (B * B) < B * B) by (apply div_range; nia).
  assert (R' : 0 <= u / (B * B) / B < B) by (apply div_range; try apply Bpos; lia).
  split; [|exact R'].
  unfold u256_into_pieces. rewrite shr128, !shr64, p128. rewrite !as_u64_eq.
  rewrite (Z.mod_small (u / (B * B) / B)) by lia.
  apply pair_eq; [apply pair_eq; [reflexivity|]|].
  - rewrite Z.rem_mul_r by lia. rewrite (Z.mul_comm B), Z.add_comm.
    rewrite div_small2 by (try apply Z.mod_pos_bound; lia). apply Z.mod_mod. lia.
  - rewrite Z.rem_mul_r by lia. rewrite (Z.mul_comm B), Z.add_comm.
    rewrite mod_small2 by (apply Z.mod_pos_bound; lia). reflexivity.
Qed.

Lemma u256_from_pieces_eq hh hl lh ll :
  0 <= hl < B -> 0 <= lh < B -> 0 <= ll < B ->
  u256_from_pieces hh hl lh ll = ((hh * B + hl) * B + lh) * B + ll.
Proof.
  intros. pose proof Bpos. unfold u256_from_pieces, u256_from_words.
  rewrite !shiftl_lor by lia. rewrite shiftl_lor128 by nia. ring.
Qed.

Lemma modB x : 0 <= x mod B < B.
Proof. apply Z.mod_pos_bound, Bpos. Qed.

Lemma u256_join_split u : 0 <= u < 2 ^ 256 ->
  let '(hh, hl, lh, ll) := u256_into_pieces u in u256_from_pieces hh hl lh ll = u.
Proof.
  intros H. destruct (u256_pieces_eq u H) as [-> R].
  rewrite u256_from_pieces_eq by apply modB. symmetry. apply four.
Qed.

Lemma four_digits hh hl lh ll :
  0 <= hl < B -> 0 <= lh < B -> 0 <= ll < B ->
  let x := ((hh * B + hl) * B + lh) * B + ll in
  (x / (B * B) / B, (x / (B * B)) mod B, (x / B) mod B, x mod B) = (hh, hl, lh, ll).
Proof.
  intros ? ? ? x. subst x. pose proof Bpos.
  rewrite <- !Z.div_div by lia.
  rewrite !div_small2 by lia. rewrite !mod_small2 by lia. reflexivity.
Qed.

Lemma u256_split_join hh hl lh ll :
  0 <= hh < B -> 0 <= hl < B -> 0 <= lh < B -> 0 <= ll < B ->
  0 <= u256_from_pieces hh hl lh ll < 2 ^ 256
  /\ u256_into_pieces (u256_from_pieces hh hl lh ll) = (hh, hl, lh, ll).
Proof.
  intros. pose proof Bpos. rewrite u256_from_pieces_eq by assumption.
  assert (R : 0 <= ((hh * B + hl) * B + lh) * B + ll < 2 ^ 256).
  { rewrite p256. assert (0 <= hh * B + hl < B * B) by nia.
    set (z := hh * B + hl) in *. assert (0 <= z * B + lh < B * B * B) by nia.
    set (y := z * B + lh) in *. nia. }
  split; [exact R|]. destruct (u256_pieces_eq _ R) as [-> _].
  now apply four_digits.
Qed.

Lemma i256_pieces_eq i : - 2 ^ 255 <= i < 2 ^ 255 ->
  i256_into_pieces i = (i / (B * B) / B, (i / (B * B)) mod B, (i / B) mod B, i mod B)
  /\ - 2 ^ 63 <= i / (B * B) / B < 2 ^ 63.
Proof.
  intros H. rewrite p255 in H. pose proof Bpos. assert (P63 : 0 < 2 ^ 63) by lia.
  assert (R : - (2 ^ 63 * B) <= i / (B * B) < 2 ^ 63 * B) by (apply div_range; nia).
  assert (R' : - 2 ^ 63 <= i / (B * B) / B < 2 ^ 63) by (apply div_range; try apply Bpos; lia).
  split; [|exact R'].
  unfold i256_into_pieces. rewrite shr128, !shr64. rewrite !as_u64_eq.
  rewrite as_i64_small by exact R'.
  assert (L : exists k, as_i128 i = i + k * (B * B)).
  { unfold as_i128. rewrite p128. destruct (Z.ltb_spec (i mod (B * B)) (2 ^ 127)) as [D|D].
    - exists (- (i / (B * B))). rewrite Z.mod_eq by nia. ring.
    - exists (- (i / (B * B)) - 1). rewrite Z.mod_eq by nia. ring. }
  destruct L as [k ->].
  apply pair_eq; [apply pair_eq; [reflexivity|]|].
  - rewrite Z.mul_assoc, Z.div_add by lia. rewrite Z.mod_add by lia. reflexivity.
  - rewrite Z.mul_assoc, Z.mod_add by lia. reflexivity.
Qed.

Lemma as_i128_mod x : as_i128 x mod (B * B) = x mod (B * B).
Proof.
  unfold as_i128. rewrite p128. pose proof Bpos.
  destruct (Z.ltb_spec (x mod (B * B)) (2 ^ 127)).
  - apply Z.mod_mod. nia.
  - replace (x mod (B * B) - B * B) with (x mod (B * B) + (-1) * (B * B)) by ring.
    rewrite Z.mod_add by nia. apply Z.mod_mod. nia.
Qed.

Lemma i256_from_pieces_eq hh hl lh ll :
  - 2 ^ 63 <= hh < 2 ^ 63 -> 0 <= hl < B -> 0 <= lh < B -> 0 <= ll < B ->
  i256_from_pieces hh hl lh ll = ((hh * B + hl) * B + lh) * B + ll.
Proof.
  intros. pose proof Bpos. unfold i256_from_pieces, i256_from_words.
  rewrite !shiftl_lor by lia. rewrite !p128, !as_i128_mod.
  assert (P63 : 2 * 2 ^ 63 = B) by reflexivity.
  assert (PM : 0 < B * B) by nia.
  rewrite (Z.mod_small (lh * B + ll)) by nia.
  rewrite shiftl_lor128 by nia.
  assert (M : (as_u64 hh * B + hl) mod (B * B) = hh * B + hl + (- (hh / B)) * (B * B)).
  { rewrite as_u64_eq. destruct (divmodB hh) as [E M].
    rewrite Z.mod_small by nia. set (q := hh / B) in *. set (r := hh mod B) in *.
    clearbody q r. subst hh. ring. }
  rewrite M. apply as_i256_unique with (k := - (hh / B)).
  - rewrite p255. assert (0 < 2 ^ 63) by lia. set (h := 2 ^ 63) in *. clearbody h.
    assert (- h * B <= hh * B + hl < h * B) by nia.
    set (z := hh * B + hl) in *. clearbody z.
    assert (- h * B * B <= z * B + lh < h * B * B) by nia.
    set (y := z * B + lh) in *. clearbody y. nia.
  - rewrite p256. ring.
Qed.

Lemma i256_join_split i : - 2 ^ 255 <= i < 2 ^ 255 ->
  let '(hh, hl, lh, ll) := i256_into_pieces i in i256_from_pieces hh hl lh ll = i.
Proof.
  intros H. destruct (i256_pieces_eq i H) as [-> R].
  rewrite i256_from_pieces_eq by (try exact R; apply modB). symmetry. apply four.
Qed.

Lemma i256_split_join hh hl lh ll :
  - 2 ^ 63 <= hh < 2 ^ 63 -> 0 <= hl < B -> 0 <= lh < B -> 0 <= ll < B ->
  - 2 ^ 255 <= i256_from_pieces hh hl lh ll < 2 ^ 255
  /\ i256_into_pieces (i256_from_pieces hh hl lh ll) = (hh, hl, lh, ll).
Proof.
  intros Hh Hl Lh Ll. pose proof Bpos. rewrite i256_from_pieces_eq by assumption.
  assert (R : - 2 ^ 255 <= ((hh * B + hl) * B + lh) * B + ll < 2 ^ 255).
  { rewrite p255. assert (0 < 2 ^ 63) by lia. set (h := 2 ^ 63) in *. clearbody h.
    assert (- h * B <= hh * B + hl < h * B) by nia.
    set (z := hh * B + hl) in *. clearbody z.
    assert (- h * B * B <= z * B + lh < h * B * B) by nia.
    set (y := z * B + lh) in *. clearbody y. nia. }
  split; [exact R|]. destruct (i256_pieces_eq _ R) as [-> _].
  now apply four_digits.
Qed.

(* ---------------------------------------------------- order *)

Lemma cmp_split x y a b c d m :
  0 < m -> 0 <= b < m -> 0 <= d < m -> x = a * m + b -> y = c * m + d ->
  (x ?= y) = match a ?= c with Eq => b ?= d | o => o end.
Proof.
  intros. subst. destruct (Z.compare_spec a c); subst.
  - destruct (Z.compare_spec b d); [subst; apply Z.compare_refl|..].
    + apply Z.compare_lt_iff. lia.
    + apply Z.compare_gt_iff. lia.
  - apply Z.compare_lt_iff. nia.
  - apply Z.compare_gt_iff. nia.
Qed.

Lemma lex2 a b c d : lex [a; b] [c; d] = match a ?= c with Eq => b ?= d | o => o end.
Proof. cbn [lex]. destruct (a ?= c); auto. destruct (b ?= d); auto. Qed.

Lemma u128_order x y : 0 <= x < 2 ^ 128 -> 0 <= y < 2 ^ 128 ->
  (x ?= y) = lex [u128_hi x; u128_lo x] [u128_hi y; u128_lo y].
Proof.
  intros X Y. destruct (u128_split x X) as (-> & -> & _), (u128_split y Y) as (-> & -> & _).
  rewrite lex2. destruct (divmodB x), (divmodB y).
  now apply cmp_split with (m := B).
Qed.

Lemma i128_order x y : - 2 ^ 127 <= x < 2 ^ 127 -> - 2 ^ 127 <= y < 2 ^ 127 ->
  (x ?= y) = lex [i128_hi x; i128_lo x] [i128_hi y; i128_lo y].
Proof.
  intros X Y. destruct (i128_split x X) as (-> & -> & _), (i128_split y Y) as (-> & -> & _).
  rewrite lex2. destruct (divmodB x), (divmodB y).
  now apply cmp_split with (m := B).
Qed.

Lemma four_order x y :
  (x ?= y) = lex [x / (B * B) / B; (x / (B * B)) mod B; (x / B) mod B; x mod B]
                 [y / (B * B) / B; (y / (B * B)) mod B; (y / B) mod B; y mod B].
Proof.
  pose proof Bpos as P. rewrite <- !Z.div_div by lia.
  destruct (divmodB x) as [Ex1 Mx1], (divmodB (x / B)) as [Ex2 Mx2], (divmodB (x / B / B)) as [Ex3 Mx3].
  destruct (divmodB y) as [Ey1 My1], (divmodB (y / B)) as [Ey2 My2], (divmodB (y / B / B)) as [Ey3 My3].
  rewrite (cmp_split x y _ _ _ _ B P Mx1 My1 Ex1 Ey1).
  rewrite (cmp_split (x / B) (y / B) _ _ _ _ B P Mx2 My2 Ex2 Ey2).
  rewrite (cmp_split (x / B / B) (y / B / B) _ _ _ _ B P Mx3 My3 Ex3 Ey3).
  cbn [lex]. repeat destruct (_ ?= _); reflexivity.
Qed.


Lemma u256_order x y : 0 <= x < 2 ^ 256 -> 0 <= y < 2 ^ 256 ->
  (x ?= y) = lex (list4 (u256_into_pieces x)) (list4 (u256_into_pieces y)).
Proof.
  intros X Y. destruct (u256_pieces_eq x X) as [-> _], (u256_pieces_eq y Y) as [-> _].
  apply four_order.
Qed.

Lemma i256_order x y : - 2 ^ 255 <= x < 2 ^ 255 -> - 2 ^ 255 <= y < 2 ^ 255 ->
  (x ?= y) = lex (list4 (i256_into_pieces x)) (list4 (i256_into_pieces y)).
Proof.
  intros X Y. destruct (i256_pieces_eq x X) as [-> _], (i256_pieces_eq y Y) as [-> _].
  apply four_order.
Qed.
