From Coq Require Import ZArith Lia List Bool.
From Verif Require Import Prelude ValModel ValSpec.
Import ListNotations.
Open Scope Z_scope.
Ltac Zify.zify_post_hook ::= Z.div_mod_to_equations.

Ltac pow2 :=
  change (2 ^ 6) with 64 in *;
  change (2 ^ 8) with 256 in *; change (2 ^ 24) with 16777216 in *;
  change (2 ^ 31) with 2147483648 in *; change (2 ^ 32) with 4294967296 in *;
  change (2 ^ 54) with 18014398509481984 in *;
  change (2 ^ 55) with 36028797018963968 in *;
  change (2 ^ 56) with 72057594037927936 in *;
  change (2 ^ 63) with 9223372036854775808 in *;
  change (2 ^ 64) with 18446744073709551616 in *.

(* ---------------------------------------------------- bits to arithmetic *)

Lemma land_shift_low x t n :
  0 <= n -> 0 <= t < 2 ^ n -> Z.land (Z.shiftl x n) t = 0.
Proof.
  intros Hn Ht. apply Z.bits_inj'. intros i Hi.
  rewrite Z.land_spec, Z.bits_0.
  destruct (Z.ltb_spec i n).
  - rewrite Z.shiftl_spec by lia. rewrite Z.testbit_neg_r by lia. reflexivity.
  - replace (Z.testbit t i) with false; [apply andb_false_r|].
    symmetry. destruct (Z.eq_dec t 0) as [->|]; [apply Z.bits_0|].
    apply Z.bits_above_log2; [lia|].
    apply Z.log2_lt_pow2; [lia|].
    eapply Z.lt_le_trans; [apply Ht|]. apply Z.pow_le_mono_r; lia.
Qed.

Lemma lor_shift_low x t n :
  0 <= n -> 0 <= t < 2 ^ n -> Z.lor (Z.shiftl x n) t = x * 2 ^ n + t.
Proof.
  intros Hn Ht.
  pose proof (land_shift_low x t n Hn Ht) as E.
  rewrite <- Z.lxor_lor by exact E.
  rewrite <- Z.add_nocarry_lxor by exact E.
  now rewrite Z.shiftl_mul_pow2 by lia.
Qed.

Lemma land_mask x n : 0 <= n -> Z.land x (2 ^ n - 1) = x mod 2 ^ n.
Proof.
  intros. replace (2 ^ n - 1) with (Z.ones n).
  - now apply Z.land_ones.
  - rewrite Z.ones_equiv. lia.
Qed.

Lemma shl64_8 x : shl64 x 8 = ((x mod 2 ^ 56) * 2 ^ 8).
Proof.
  unfold shl64, as_u64. rewrite Z.shiftl_mul_pow2 by lia. pow2. lia.
Qed.

Lemma from_body_and_tag_eq body t :
  from_body_and_tag body t = (body mod 2 ^ 56) * 2 ^ 8 + tag_num t.
Proof.
  unfold from_body_and_tag, TAG_BITS. rewrite shl64_8.
  rewrite <- (Z.shiftl_mul_pow2 _ 8) by lia.
  rewrite lor_shift_low; [now rewrite Z.shiftl_mul_pow2 by lia | lia | destruct t; simpl; lia].
Qed.

Lemma tag_num_range t : 0 <= tag_num t < 256.
Proof. destruct t; simpl; lia. Qed.

Lemma get_body_eq v : get_body v = v / 2 ^ 8.
Proof. unfold get_body, TAG_BITS. now rewrite Z.shiftr_div_pow2 by lia. Qed.

Lemma get_tag_u8_eq v : get_tag_u8 v = v mod 2 ^ 8.
Proof.
  unfold get_tag_u8, as_u8. change 255 with (2 ^ 8 - 1).
  rewrite land_mask by lia. pow2. lia.
Qed.

Lemma get_signed_body_eq v :
  word v -> get_signed_body v = (if v <? 2 ^ 63 then v else v - 2 ^ 64) / 2 ^ 8.
Proof.
  intros Hw. unfold get_signed_body, as_i64, TAG_BITS, word in *.
  rewrite Z.shiftr_div_pow2 by lia. rewrite Z.mod_small by lia. reflexivity.
Qed.

Lemma get_minor_eq v : get_minor v = (v / 2 ^ 8) mod 2 ^ 24.
Proof.
  unfold get_minor, as_u32. rewrite get_body_eq, land_mask by lia. pow2. lia.
Qed.

Lemma get_major_eq v : word v -> get_major v = v / 2 ^ 32.
Proof.
  unfold word. intros. unfold get_major, as_u32, MINOR_BITS.
  rewrite get_body_eq, Z.shiftr_div_pow2 by lia. pow2. lia.
Qed.

Lemma fmm_eq major minor t :
  0 <= major < 2 ^ 32 -> 0 <= minor < 2 ^ 24 ->
  from_major_minor_and_tag major minor t = major * 2 ^ 32 + minor * 2 ^ 8 + tag_num t.
Proof.
  intros. unfold from_major_minor_and_tag, MINOR_BITS.
  replace (shl64 major 24) with (Z.shiftl major 24).
  - rewrite lor_shift_low by lia. rewrite from_body_and_tag_eq. pow2. lia.
  - unfold shl64, as_u64. rewrite Z.shiftl_mul_pow2 by lia. pow2. lia.
Qed.

Lemma u64_split v : word v ->
  v = get_body v * 2 ^ 8 + get_tag_u8 v /\ 0 <= get_tag_u8 v < 2 ^ 8
  /\ 0 <= get_body v < 2 ^ 56.
Proof. unfold word. intros. rewrite get_body_eq, get_tag_u8_eq. pow2. lia. Qed.

(* ---------------------------------------------------- tags *)

Lemma tag_from_u8_num_check :
  forallb (fun t =>
     match t with
     | TgSmallCodeUpperBound | TgObjectCodeLowerBound | TgObjectCodeUpperBound | TgBad => true
     | _ => match tag_from_u8 (tag_num t) with
            | t' => tag_num t =? tag_num t'
            end
     end) all_tags = true.
Proof. vm_compute. reflexivity. Qed.

Definition real_tag (t : tag) : bool :=
  match t with
  | TgSmallCodeUpperBound | TgObjectCodeLowerBound | TgObjectCodeUpperBound | TgBad => false
  | _ => true
  end.

Lemma tag_num_inj a b : tag_num a = tag_num b -> a = b.
Proof. destruct a, b; simpl; intros H; try reflexivity; discriminate H. Qed.

Lemma tag_from_u8_num t : real_tag t = true -> tag_from_u8 (tag_num t) = t.
Proof. destruct t; simpl; intros H; try discriminate H; reflexivity. Qed.

Lemma tag_from_u8_real b : real_tag (tag_from_u8 b) = true -> tag_num (tag_from_u8 b) = b.
Proof.
  unfold tag_from_u8.
  destruct (negb _); [discriminate|].
  destruct (find _ all_tags) as [t|] eqn:F; [|discriminate].
  apply find_some in F. destruct F as [_ F]. intros _. lia.
Qed.

Lemma tag_from_u8_small b : 0 <= b < 15 -> real_tag (tag_from_u8 b) = true.
Proof.
  intros. assert (b = 0 \/ b = 1 \/ b = 2 \/ b = 3 \/ b = 4 \/ b = 5 \/ b = 6 \/ b = 7
    \/ b = 8 \/ b = 9 \/ b = 10 \/ b = 11 \/ b = 12 \/ b = 13 \/ b = 14) as D by lia.
  repeat (destruct D as [->|D]; [reflexivity|]). subst. reflexivity.
Qed.

Lemma tag_from_u8_obj b : 63 < b < 80 -> real_tag (tag_from_u8 b) = true.
Proof.
  intros. assert (b = 64 \/ b = 65 \/ b = 66 \/ b = 67 \/ b = 68 \/ b = 69 \/ b = 70 \/ b = 71
    \/ b = 72 \/ b = 73 \/ b = 74 \/ b = 75 \/ b = 76 \/ b = 77 \/ b = 78 \/ b = 79) as D by lia.
  repeat (destruct D as [->|D]; [reflexivity|]). subst. reflexivity.
Qed.

Lemma has_tag_get_tag v t : real_tag t = true -> has_tag v t = true <-> get_tag v = t.
Proof.
  intros R. unfold has_tag, get_tag. rewrite Z.eqb_eq. split.
  - intros ->. now apply tag_from_u8_num.
  - intros E. rewrite <- (tag_from_u8_real (get_tag_u8 v)); rewrite E; auto.
Qed.

Lemma get_tag_num v : real_tag (get_tag v) = true -> get_tag_u8 v = tag_num (get_tag v).
Proof. intros H. unfold get_tag in *. symmetry. now apply tag_from_u8_real. Qed.

Lemma get_tag_packed body t :
  real_tag t = true -> get_tag ((body mod 2 ^ 56) * 2 ^ 8 + tag_num t) = t.
Proof.
  intros R. unfold get_tag. rewrite get_tag_u8_eq.
  pose proof (tag_num_range t).
  replace ((body mod 2 ^ 56 * 2 ^ 8 + tag_num t) mod 2 ^ 8) with (tag_num t) by (pow2; lia).
  now apply tag_from_u8_num.
Qed.

Lemma word_packed body t : word ((body mod 2 ^ 56) * 2 ^ 8 + tag_num t).
Proof. unfold word. pose proof (tag_num_range t). pow2. lia. Qed.

(* ---------------------------------------------------- small numbers *)

Lemma is_small_u64_spec u : 0 <= u < 2 ^ 64 -> is_small_u64 u = true <-> 0 <= u < 2 ^ 56.
Proof.
  intros. unfold is_small_u64, TAG_BITS. rewrite shl64_8, Z.shiftr_div_pow2 by lia.
  rewrite Z.eqb_eq. pow2. lia.
Qed.

Lemma is_small_i64_spec i : - 2 ^ 63 <= i < 2 ^ 63 -> is_small_i64 i = true <-> - 2 ^ 55 <= i < 2 ^ 55.
Proof.
  intros. unfold is_small_i64, TAG_BITS, shl_i64, as_i64.
  rewrite Z.shiftl_mul_pow2, Z.shiftr_div_pow2 by lia.
  rewrite Z.eqb_eq. pow2.
  destruct (_ <? _) eqn:E; lia.
Qed.

Lemma is_small_u128_spec u : 0 <= u -> is_small_u128 u = true <-> 0 <= u < 2 ^ 56.
Proof.
  intros. unfold is_small_u128, as_u64. rewrite andb_true_iff, Z.eqb_eq.
  rewrite is_small_u64_spec by (pow2; lia). pow2. lia.
Qed.

Lemma as_i64_range x : - 2 ^ 63 <= as_i64 x < 2 ^ 63.
Proof. unfold as_i64. pow2. destruct (_ <? _) eqn:E; lia. Qed.

Lemma as_i64_small x : - 2 ^ 63 <= x < 2 ^ 63 -> as_i64 x = x.
Proof. intros. unfold as_i64. pow2. destruct (_ <? _) eqn:E; lia. Qed.

Lemma is_small_i128_spec i : is_small_i128 i = true <-> - 2 ^ 55 <= i < 2 ^ 55.
Proof.
  unfold is_small_i128. rewrite andb_true_iff, Z.eqb_eq.
  rewrite is_small_i64_spec by apply as_i64_range.
  split.
  - intros [H1 H2]. now rewrite H2.
  - intros. rewrite as_i64_small by (pow2; lia). lia.
Qed.

Lemma is_small_num_spec k x : num_range k x -> is_small_num k x = true <-> small_range k x.
Proof.
  destruct k; simpl; intros H; unfold small_range; simpl.
  - now apply is_small_u64_spec.
  - now apply is_small_i64_spec.
  - now apply is_small_u64_spec.
  - now apply is_small_u64_spec.
  - apply is_small_u128_spec; lia.
  - apply is_small_i128_spec.
  - apply is_small_u128_spec; lia.
  - apply is_small_i128_spec.
Qed.

Lemma small_tag_real k : real_tag (small_tag k) = true.
Proof. now destruct k. Qed.

Lemma small_to_num_packed k x :
  small_range k x -> small_to_num k ((x mod 2 ^ 56) * 2 ^ 8 + tag_num (small_tag k)) = Some x.
Proof.
  intros H. set (w := _ + _).
  assert (W : word w) by apply word_packed.
  assert (T : has_tag w (small_tag k) = true).
  { apply has_tag_get_tag; [apply small_tag_real|]. apply get_tag_packed, small_tag_real. }
  unfold small_to_num. rewrite T. f_equal.
  pose proof (tag_num_range (small_tag k)) as R.
  unfold small_range in H.
  destruct k; cbn [signed_num] in H;
    rewrite ?get_body_eq, ?(get_signed_body_eq _ W); unfold w; pow2;
    repeat match goal with |- context [if ?b then _ else _] => destruct b eqn:? end; lia.
Qed.

Lemma small_range_num_range k x : small_range k x -> num_range k x.
Proof.
  destruct k; unfold small_range, num_range; cbn [signed_num]; intros H;
    change (2 ^ 127) with 170141183460469231731687303715884105728;
    change (2 ^ 128) with 340282366920938463463374607431768211456;
    change (2 ^ 255) with (2 ^ 191 * 2 ^ 64); change (2 ^ 256) with (2 ^ 192 * 2 ^ 64);
    pow2; lia.
Qed.

Lemma num_to_small_spec k x :
  num_range k x ->
  (small_range k x /\ num_to_small k x = Some (word_of_atom (ANum k x)))
  \/ (~ small_range k x /\ num_to_small k x = None).
Proof.
  intros H. unfold num_to_small.
  pose proof (is_small_num_spec k x H) as E.
  destruct (is_small_num k x) eqn:S.
  - left. split; [now apply E|]. f_equal. rewrite from_body_and_tag_eq.
    cbn [word_of_atom]. unfold as_u64. f_equal. f_equal. pow2. lia.
  - right. split; [|reflexivity]. intros C. apply E in C. discriminate.
Qed.

Lemma small_num_roundtrip_lemma k x v :
  num_range k x -> num_to_small k x = Some v -> small_to_num k v = Some x.
Proof.
  intros H E. destruct (num_to_small_spec k x H) as [[S R]|[S R]]; rewrite R in E.
  - inversion E; subst. cbn [word_of_atom]. now apply small_to_num_packed.
  - discriminate.
Qed.

(* ---------------------------------------------------- errors *)

Lemma ety_of_num_num t : ety_of_num (ety_num t) = Some t.
Proof. now destruct t. Qed.
Lemma ecode_of_num_num c : ecode_of_num (ecode_num c) = Some c.
Proof. now destruct c. Qed.
Lemma ety_of_num_some n t : ety_of_num n = Some t -> ety_num t = n.
Proof. unfold ety_of_num. intros F. apply find_some in F. lia. Qed.
Lemma ecode_of_num_some n c : ecode_of_num n = Some c -> ecode_num c = n.
Proof. unfold ecode_of_num. intros F. apply find_some in F. lia. Qed.
Lemma ety_num_range t : 1 <= ety_num t <= 9.
Proof. destruct t; simpl; lia. Qed.
Lemma ecode_num_range c : 0 <= ecode_num c <= 9.
Proof. destruct c; simpl; lia. Qed.

Lemma as_i32_small x : - 2 ^ 31 <= x < 2 ^ 31 -> as_i32 x = x.
Proof. intros. unfold as_i32. pow2. destruct (_ <? _) eqn:E; lia. Qed.

Lemma as_i32_u32 x : 0 <= x < 2 ^ 32 ->
  (x < 2 ^ 31 /\ as_i32 x = x) \/ (2 ^ 31 <= x /\ as_i32 x = x - 2 ^ 32).
Proof. intros. unfold as_i32. pow2. destruct (_ <? _) eqn:E; lia. Qed.

Lemma val_of_error_word e :
  atom_ok (AErr e) -> val_of_error e = word_of_atom (AErr e).
Proof.
  destruct e as [c|t c]; simpl; intros H.
  - rewrite fmm_eq by (pow2; lia). simpl. lia.
  - pose proof (ety_num_range t). pose proof (ecode_num_range c).
    rewrite fmm_eq by (pow2; lia). simpl. lia.
Qed.

Lemma word_of_atom_word a : atom_ok a -> word (word_of_atom a).
Proof.
  unfold word. destruct a as [[]| |u|i|k x|e|t h]; cbn [atom_ok word_of_atom]; intros H; pow2; try lia.
  - apply (word_packed x (small_tag k)).
  - destruct e as [c|t c]; pow2; [lia|].
    pose proof (ety_num_range t). pose proof (ecode_num_range c). lia.
  - pose proof (tag_num_range t). lia.
Qed.

Lemma error_roundtrip_lemma e :
  atom_ok (AErr e) -> error_of_val (val_of_error e) = Some e.
Proof.
  intros H. pose proof (word_of_atom_word _ H) as W.
  rewrite (val_of_error_word e H). unfold error_of_val.
  rewrite get_minor_eq, get_major_eq by exact W.
  destruct e as [c|t c]; cbn [atom_ok word_of_atom] in *; pow2.
  - replace (((c * 4294967296 + 3) / 256) mod 16777216) with 0 by lia.
    cbn. f_equal. f_equal. lia.
  - pose proof (ety_num_range t) as R1. pose proof (ecode_num_range c) as R2.
    replace (((ecode_num c * 4294967296 + ety_num t * 256 + 3) / 256) mod 16777216)
      with (ety_num t) by lia.
    replace ((ecode_num c * 4294967296 + ety_num t * 256 + 3) / 4294967296)
      with (ecode_num c) by lia.
    rewrite !as_i32_small by (pow2; lia).
    destruct (ety_num t =? 0) eqn:E; [lia|].
    now rewrite ety_of_num_num, ecode_of_num_num.
Qed.

Lemma error_of_val_some v e :
  word v -> get_tag v = TgError -> error_of_val v = Some e ->
  atom_ok (AErr e) /\ v = word_of_atom (AErr e).
Proof.
  intros W T E. unfold error_of_val in E.
  rewrite get_minor_eq in E. rewrite get_major_eq in E by exact W.
  assert (U : get_tag_u8 v = 3) by (rewrite get_tag_num; rewrite T; reflexivity).
  rewrite get_tag_u8_eq in U. unfold word in W. pow2.
  set (mi := ((v / 256) mod 16777216)) in *.
  assert (0 <= mi < 16777216) by (unfold mi; lia).
  rewrite as_i32_small in E by (pow2; lia).
  destruct (mi =? 0) eqn:M.
  - inversion E; subst e. cbn [atom_ok word_of_atom]. pow2. lia.
  - destruct (ety_of_num mi) as [t|] eqn:ET; [|discriminate].
    destruct (ecode_of_num (as_i32 (v / 4294967296))) as [c|] eqn:EC; [|discriminate].
    inversion E; subst e. apply ety_of_num_some in ET. apply ecode_of_num_some in EC.
    cbn [atom_ok word_of_atom]. pow2. split; [exact I|].
    pose proof (ecode_num_range c).
    destruct (as_i32_u32 (v / 4294967296)) as [[? Q]|[? Q]]; pow2; try lia; rewrite Q in EC; lia.
Qed.

(* ---------------------------------------------------- goodness *)

Lemma u8_is_object_tag v : is_object v = true <-> In (get_tag v) object_tags.
Proof.
  unfold is_object, u8_is_object, get_tag. cbn [tag_num].
  pose proof (get_tag_u8_eq v) as E. set (b := get_tag_u8 v) in *.
  assert (0 <= b < 256) by (rewrite E; pow2; lia). clear E.
  split.
  - intros H1. assert (R : real_tag (tag_from_u8 b) = true) by (apply tag_from_u8_obj; lia).
    pose proof (tag_from_u8_real b R) as N.
    destruct (tag_from_u8 b); simpl in *; try discriminate R; try lia; tauto.
  - intros I. assert (R : real_tag (tag_from_u8 b) = true).
    { destruct (tag_from_u8 b); simpl in *; try reflexivity;
      repeat (destruct I as [I|I]; [discriminate|]); destruct I. }
    pose proof (tag_from_u8_real b R) as N.
    destruct (tag_from_u8 b); simpl in *; try lia;
      repeat (destruct I as [I|I]; [discriminate|]); destruct I.
Qed.

Lemma get_tag_from_num v t :
  real_tag t = true -> v mod 2 ^ 8 = tag_num t -> get_tag v = t.
Proof.
  intros R E. unfold get_tag. rewrite get_tag_u8_eq, E. now apply tag_from_u8_num.
Qed.

Definition tag_of_atom (a : atom) : tag :=
  match a with
  | ABool true => TgTrue | ABool false => TgFalse | AVoid => TgVoid
  | AU32 _ => TgU32Val | AI32 _ => TgI32Val | ANum k _ => small_tag k
  | AErr _ => TgError | AObj t _ => t
  end.

Lemma object_tag_real t : In t object_tags -> real_tag t = true.
Proof. destruct t; simpl; try reflexivity; intros I;
       repeat (destruct I as [I|I]; [discriminate|]); destruct I. Qed.

Lemma get_tag_word_of_atom a : atom_ok a -> get_tag (word_of_atom a) = tag_of_atom a.
Proof.
  intros H. destruct a as [[]| |u|i|k x|e|t h]; cbn [tag_of_atom word_of_atom atom_ok] in *;
    try reflexivity.
  - apply get_tag_from_num; [reflexivity|]. simpl tag_num. pow2. lia.
  - apply get_tag_from_num; [reflexivity|]. simpl tag_num. pow2. lia.
  - apply get_tag_packed, small_tag_real.
  - destruct e as [c|t c].
    + apply get_tag_from_num; [reflexivity|]. simpl tag_num. pow2. lia.
    + apply get_tag_from_num; [reflexivity|]. simpl tag_num. pow2. lia.
  - destruct H as [I R]. apply get_tag_from_num; [now apply object_tag_real|].
    pose proof (tag_num_range t). pow2. lia.
Qed.

Lemma good_word_of_atom a : atom_ok a -> is_good (word_of_atom a) = true.
Proof.
  intros H. unfold is_good. rewrite (get_tag_word_of_atom a H).
  pose proof (word_of_atom_word a H) as W.
  destruct a as [[]| |u|i|k x|e|t h]; cbn [tag_of_atom] in *; try reflexivity.
  - rewrite get_minor_eq. cbn [word_of_atom atom_ok] in *. pow2. lia.
  - rewrite get_minor_eq. cbn [word_of_atom atom_ok] in *. pow2. lia.
  - now destruct k.
  - rewrite <- (val_of_error_word e H), error_roundtrip_lemma by exact H. reflexivity.
  - assert (M : get_minor (word_of_atom (AObj t h)) = 0).
    { rewrite get_minor_eq. cbn [word_of_atom atom_ok] in *.
      pose proof (tag_num_range t). pow2. lia. }
    destruct H as [I _]. rewrite M.
    destruct t; simpl in I; try reflexivity;
      repeat (destruct I as [I|I]; [discriminate|]); destruct I.
Qed.

Lemma packed_of_body v t :
  word v -> get_tag v = t -> real_tag t = true -> v = get_body v * 2 ^ 8 + tag_num t.
Proof.
  intros W T R. destruct (u64_split v W) as (E & _ & _).
  rewrite get_tag_num in E by (now rewrite T). now rewrite T in E.
Qed.

Lemma num_of_word k v :
  word v -> get_tag v = small_tag k ->
  exists x, small_range k x /\ v = word_of_atom (ANum k x).
Proof.
  intros W T. pose proof (packed_of_body v _ W T (small_tag_real k)) as E.
  destruct (u64_split v W) as (_ & _ & B).
  exists (if signed_num k
          then (if get_body v <? 2 ^ 55 then get_body v else get_body v - 2 ^ 56)
          else get_body v).
  generalize dependent (get_body v). intros b E B.
  unfold small_range. cbn [word_of_atom]. pow2. rewrite E. clear E.
  destruct (signed_num k); [destruct (b <? 36028797018963968) eqn:?|]; lia.
Qed.

Lemma good_atom v :
  word v -> is_good v = true -> get_tag v <> TgSymbolSmall ->
  exists a, atom_ok a /\ v = word_of_atom a.
Proof.
  intros W G S. unfold is_good in G.
  destruct (u64_split v W) as (E & BT & BB).
  assert (MN : forall t, get_tag v = t -> real_tag t = true -> get_minor v = 0 ->
               v = get_major v * 2 ^ 32 + tag_num t /\ 0 <= get_major v < 2 ^ 32).
  { intros t T R M. pose proof (packed_of_body v t W T R) as P.
    rewrite get_minor_eq in M. rewrite get_major_eq by exact W.
    pose proof (tag_num_range t). unfold word in W. rewrite get_body_eq in P. pow2. lia. }
  destruct (get_tag v) eqn:T; try discriminate G; try congruence;
    try (match goal with
         | [ T : get_tag v = ?t |- _ ] =>
             destruct (MN t eq_refl eq_refl ltac:(lia)) as [P Q];
             exists (AObj t (get_major v)); cbn [atom_ok word_of_atom];
             split; [split; [simpl; tauto | lia] | exact P]
         end).
  - pose proof (packed_of_body v _ W T eq_refl) as P. simpl in P.
    exists (ABool false). split; [exact I|]. cbn. lia.
  - pose proof (packed_of_body v _ W T eq_refl) as P. simpl in P.
    exists (ABool true). split; [exact I|]. cbn. lia.
  - pose proof (packed_of_body v _ W T eq_refl) as P. simpl in P.
    exists AVoid. split; [exact I|]. cbn. lia.
  - destruct (error_of_val v) as [e|] eqn:EE; [|discriminate].
    exists (AErr e). now apply error_of_val_some.
  - destruct (MN _ eq_refl eq_refl ltac:(lia)) as [P Q].
    exists (AU32 (get_major v)). cbn [atom_ok word_of_atom]. simpl tag_num in P. lia.
  - destruct (MN _ eq_refl eq_refl ltac:(lia)) as [P Q].
    exists (AI32 (as_i32 (get_major v))). cbn [atom_ok word_of_atom]. simpl tag_num in P.
    destruct (as_i32_u32 _ Q) as [[? ->]|[? ->]]; pow2; lia.
  - destruct (num_of_word NU64 v W T) as (x & ? & ?). exists (ANum NU64 x); auto.
  - destruct (num_of_word NI64 v W T) as (x & ? & ?). exists (ANum NI64 x); auto.
  - destruct (num_of_word NTimepoint v W T) as (x & ? & ?). exists (ANum NTimepoint x); auto.
  - destruct (num_of_word NDuration v W T) as (x & ? & ?). exists (ANum NDuration x); auto.
  - destruct (num_of_word NU128 v W T) as (x & ? & ?). exists (ANum NU128 x); auto.
  - destruct (num_of_word NI128 v W T) as (x & ? & ?). exists (ANum NI128 x); auto.
  - destruct (num_of_word NU256 v W T) as (x & ? & ?). exists (ANum NU256 x); auto.
  - destruct (num_of_word NI256 v W T) as (x & ? & ?). exists (ANum NI256 x); auto.
Qed.

Lemma word_of_atom_inj a b :
  atom_ok a -> atom_ok b -> word_of_atom a = word_of_atom b -> a = b.
Proof.
  intros HA HB E.
  assert (T : tag_of_atom a = tag_of_atom b).
  { rewrite <- !get_tag_word_of_atom by assumption. now rewrite E. }
  assert (OT : forall t k, In t object_tags -> t = small_tag k -> False).
  { intros t k I ->. destruct k; simpl in I;
    repeat (destruct I as [I|I]; [discriminate|]); destruct I. }
  destruct a as [[]| |u|i|k x|e|t h], b as [[]| |u'|i'|k' x'|e'|t' h'];
    cbn [tag_of_atom] in T;
    try discriminate T; try reflexivity;
    try (destruct k; discriminate T); try (destruct k'; discriminate T);
    cbn [atom_ok word_of_atom] in *;
    try (subst; destruct HA as [I _]; simpl in I;
         repeat (destruct I as [I|I]; [discriminate|]); destruct I; fail);
    try (subst; destruct HB as [I _]; simpl in I;
         repeat (destruct I as [I|I]; [discriminate|]); destruct I; fail).
  - f_equal. pow2. lia.
  - f_equal. pow2. lia.
  - assert (k = k') as -> by (destruct k, k'; try reflexivity; discriminate T).
    f_equal. unfold small_range in *. pow2. destruct (signed_num k'); lia.
  - exfalso. subst. destruct HB as [I _]. eapply OT; [exact I|reflexivity].
  - pose proof (error_roundtrip_lemma e HA) as R1. pose proof (error_roundtrip_lemma e' HB) as R2.
    rewrite val_of_error_word in R1, R2 by assumption. cbn [word_of_atom] in R1, R2.
    rewrite E in R1. congruence.
  - exfalso. subst. destruct HA as [I _]. eapply OT; [exact I|reflexivity].
  - subst t'. f_equal. pow2. lia.
Qed.

(* Decoders return the atom's contents. *)
Lemma decode_bool v b : bool_of_val v = Some b -> get_tag v = if b then TgTrue else TgFalse.
Proof.
  unfold bool_of_val.
  destruct (has_tag v TgTrue) eqn:A; [|destruct (has_tag v TgFalse) eqn:B]; intros H; inversion H;
    now apply has_tag_get_tag.
Qed.

Lemma has_tag_atom a t : atom_ok a -> real_tag t = true ->
  has_tag (word_of_atom a) t = true <-> tag_of_atom a = t.
Proof. intros H R. rewrite has_tag_get_tag by exact R. now rewrite get_tag_word_of_atom. Qed.

Lemma u32_roundtrip u : 0 <= u < 2 ^ 32 ->
  val_of_u32 u = word_of_atom (AU32 u) /\ u32_of_val (word_of_atom (AU32 u)) = Some u.
Proof.
  intros H. split.
  - unfold val_of_u32. rewrite fmm_eq by (pow2; lia). simpl. lia.
  - unfold u32_of_val. assert (A : atom_ok (AU32 u)) by exact H.
    replace (has_tag _ _) with true by (symmetry; now apply has_tag_atom).
    f_equal. rewrite get_major_eq by (now apply word_of_atom_word). cbn. pow2. lia.
Qed.

Lemma i32_roundtrip i : - 2 ^ 31 <= i < 2 ^ 31 ->
  val_of_i32 i = word_of_atom (AI32 i) /\ i32_of_val (word_of_atom (AI32 i)) = Some i.
Proof.
  intros H. split.
  - unfold val_of_i32, as_u32. rewrite fmm_eq by (pow2; lia). simpl. lia.
  - unfold i32_of_val. assert (A : atom_ok (AI32 i)) by exact H.
    replace (has_tag _ _) with true by (symmetry; now apply has_tag_atom).
    f_equal. rewrite get_major_eq by (now apply word_of_atom_word). cbn [word_of_atom]. pow2.
    replace ((i mod 4294967296 * 4294967296 + 5) / 4294967296) with (i mod 4294967296) by lia.
    destruct (as_i32_u32 (i mod 4294967296)) as [[? ->]|[? ->]]; pow2; lia.
Qed.

Lemma bool_roundtrip b :
  val_of_bool b = word_of_atom (ABool b) /\ bool_of_val (word_of_atom (ABool b)) = Some b.
Proof. destruct b; split; vm_compute; reflexivity. Qed.
