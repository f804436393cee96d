(* Proofs about the scalar fields (FieldModel). *)
From Coq Require Import ZArith Znumtheory Zpow_facts Lia List Bool.
From Verif Require Import Prelude GuestModel FieldModel FieldSpec PrimeProofs FieldCert.
Import ListNotations.
Open Scope Z_scope.
Ltac Zify.zify_post_hook ::= idtac.

Lemma order_range c : 2 < order c < 2 ^ 255.
Proof. destruct c; vm_compute; split; reflexivity. Qed.

Lemma order_pos c : 0 < order c.
Proof. destruct c; reflexivity. Qed.

Lemma le_fold n : forall z,
  fold_right (fun b acc => b + 256 * acc) 0 (le_bytes n z) = z mod 256 ^ Z.of_nat n.
Proof.
  induction n as [|n IH]; intros z; cbn [le_bytes fold_right].
  - rewrite Z.mod_1_r. reflexivity.
  - rewrite IH. rewrite Nat2Z.inj_succ, Z.pow_succ_r by lia.
    rewrite Z.rem_mul_r; [reflexivity|lia|].
    apply Z.pow_pos_nonneg; lia.
Qed.

Lemma from_u256val_spec p v : u256_ok v -> from_u256val p v = value v mod p.
Proof.
  intros H. destruct v as [z|z]; cbn [from_u256val value u256_ok] in *;
    unfold from_le_bytes_mod_order; rewrite le_fold.
  - rewrite (Z.mod_small z); [reflexivity|].
    change (256 ^ Z.of_nat 8) with (2 ^ 64). split; [lia|].
    apply Z.lt_trans with (2 ^ 56); [lia|reflexivity].
  - rewrite (Z.mod_small z); [reflexivity|]. exact H.
Qed.

Lemma into_u256val_spec x : 0 <= x < 2 ^ 256 -> represents (into_u256val x) x.
Proof.
  intros H. unfold into_u256val, from_be_bytes, to_bytes_be.
  assert (E : fold_left (fun acc b => 256 * acc + b) (rev (le_bytes 32 x)) 0 = x).
  { transitivity (fold_right (fun b acc => b + 256 * acc) 0 (le_bytes 32 x)).
    - rewrite <- (rev_involutive (le_bytes 32 x)) at 2.
      rewrite fold_left_rev_right. generalize (rev (le_bytes 32 x)) 0.
      induction l as [|b l IH]; intros a; cbn [fold_left]; [reflexivity|].
      rewrite IH. f_equal. lia.
    - rewrite le_fold. apply Z.mod_small. exact H. }
  rewrite E. unfold u256val_of, represents.
  destruct (Z.ltb_spec x (2 ^ 56)); cbn [value]; split; auto.
Qed.

Lemma reduced_256 c x : 0 <= x mod order c < 2 ^ 256.
Proof.
  assert (H := Z.mod_pos_bound x (order c) (order_pos c)).
  assert (Hr := order_range c). split; [lia|].
  apply Z.lt_trans with (order c); [lia|].
  apply Z.lt_trans with (2 ^ 255); [lia|reflexivity].
Qed.

Lemma order_nz c : order c <> 0.
Proof. assert (H := order_pos c). lia. Qed.

Lemma fr_add_spec c l r : u256_ok l -> u256_ok r ->
  yields (fr_add c l r) ((value l + value r) mod order c).
Proof.
  intros Hl Hr. unfold fr_add, fadd. rewrite !from_u256val_spec by assumption.
  rewrite <- Z.add_mod by apply order_nz.
  eexists. split; [reflexivity|]. apply into_u256val_spec, reduced_256.
Qed.

Lemma fr_sub_spec c l r : u256_ok l -> u256_ok r ->
  yields (fr_sub c l r) ((value l - value r) mod order c).
Proof.
  intros Hl Hr. unfold fr_sub, fsub. rewrite !from_u256val_spec by assumption.
  rewrite <- Zminus_mod.
  eexists. split; [reflexivity|]. apply into_u256val_spec, reduced_256.
Qed.

Lemma fr_mul_spec c l r : u256_ok l -> u256_ok r ->
  yields (fr_mul c l r) ((value l * value r) mod order c).
Proof.
  intros Hl Hr. unfold fr_mul, fmul. rewrite !from_u256val_spec by assumption.
  rewrite <- Z.mul_mod by apply order_nz.
  eexists. split; [reflexivity|]. apply into_u256val_spec, reduced_256.
Qed.

Lemma fr_pow_spec c l n : u256_ok l -> 0 <= n ->
  yields (fr_pow c l n) (value l ^ n mod order c).
Proof.
  intros Hl Hn. unfold fr_pow. rewrite from_u256val_spec by assumption.
  rewrite fpow_spec by (apply order_nz || assumption).
  rewrite <- Zpower_mod by apply order_pos.
  eexists. split; [reflexivity|]. apply into_u256val_spec, reduced_256.
Qed.

(* ------------------------------------------------------------- inverses *)

(* the loop keeps u·x ≡ a and v·x ≡ b *)
Lemma euclid_sound x p : p <> 0 -> forall fuel a b u v r,
  (u * x) mod p = a mod p -> (v * x) mod p = b mod p ->
  euclid fuel a b u v = Some r -> (r * x) mod p = 1 mod p.
Proof.
  intros Hp. induction fuel as [|fuel IH]; intros a b u v r Hu Hv H; cbn [euclid] in H;
    [discriminate|].
  destruct (Z.eqb_spec b 0) as [->|Hb].
  - destruct (Z.eqb_spec a 1) as [->|]; [|discriminate].
    injection H as <-. exact Hu.
  - apply IH in H; [assumption|assumption|].
    rewrite Z.mul_sub_distr_r. rewrite Zminus_mod, Hu.
    rewrite <- Z.mul_assoc. rewrite (Z.mul_mod (a / b)) by assumption. rewrite Hv.
    rewrite <- Z.mul_mod by assumption. rewrite <- Zminus_mod.
    f_equal. assert (Hd := Z.div_mod a b Hb). lia.
Qed.

Lemma gcd_step a b : b <> 0 -> Z.gcd b (a mod b) = Z.gcd a b.
Proof.
  intros Hb. rewrite (Z.gcd_comm b), (Z.gcd_comm a). apply Z.gcd_mod. assumption.
Qed.

Lemma euclid_complete : forall k fuel a b u v,
  0 <= b -> 0 <= a < 2 ^ Z.of_nat k -> Z.gcd a b = 1 -> (b <= a)%Z ->
  (2 * k + 1 < fuel)%nat -> euclid fuel a b u v <> None.
Proof.
  induction k as [|k IH]; intros fuel a b u v Hb Ha Hg Hle Hf.
  - change (2 ^ Z.of_nat 0) with 1 in Ha. assert (a = 0) by lia. assert (b = 0) by lia.
    subst. cbn in Hg. discriminate.
  - rewrite Nat2Z.inj_succ, Z.pow_succ_r in Ha by lia.
    destruct fuel as [|fuel]; [lia|]. cbn [euclid].
    destruct (Z.eqb_spec b 0) as [->|Hb0].
    + rewrite Z.gcd_0_r, Z.abs_eq in Hg by lia. rewrite Hg. cbn. discriminate.
    + assert (Hm := Z.mod_pos_bound a b ltac:(lia)).
      assert (Hd := Z.div_mod a b Hb0).
      assert (Hq : 1 <= a / b) by (apply Z.div_le_lower_bound; lia).
      destruct fuel as [|fuel]; [lia|]. cbn [euclid].
      destruct (Z.eqb_spec (a mod b) 0) as [E0|Hm0].
      * rewrite <- gcd_step in Hg by assumption.
        rewrite E0 in Hg. rewrite Z.gcd_0_r, Z.abs_eq in Hg by lia. rewrite Hg. cbn. discriminate.
      * (* two steps: from (a, b) to (a mod b, b mod (a mod b)) *)
        assert (Hm2 := Z.mod_pos_bound b (a mod b) ltac:(lia)).
        apply IH; [lia| | |lia|lia].
        -- split; [lia|]. nia.
        -- rewrite gcd_step by assumption. rewrite gcd_step by assumption. exact Hg.
Qed.

Lemma finverse_sound_in fuel p a x : 1 < p -> finverse_in fuel p a = Some x ->
  0 <= x < p /\ (a * x) mod p = 1.
Proof.
  intros Hp H. unfold finverse_in in H.
  destruct (euclid fuel a p 1 0) as [u|] eqn:E; [|discriminate].
  injection H as <-. split; [apply Z.mod_pos_bound; lia|].
  assert (Hs : (u * a) mod p = 1 mod p).
  { eapply (euclid_sound a p ltac:(lia)); [| |exact E].
    - f_equal. lia.
    - rewrite Z.mul_0_l, Z.mod_0_l by lia. rewrite Z.mod_same by lia. reflexivity. }
  rewrite Z.mul_mod_idemp_r by lia. rewrite Z.mul_comm, Hs. apply Z.mod_small. lia.
Qed.

Lemma finverse_some_in fuel p a : (514 < fuel)%nat -> prime p -> p < 2 ^ 256 -> 0 < a < p ->
  exists x, finverse_in fuel p a = Some x.
Proof.
  intros Hf Hp Hlt Ha.
  assert (Hg : Z.gcd a p = 1).
  { apply Zgcd_1_rel_prime. apply rel_prime_sym. apply prime_rel_prime; [assumption|].
    intros Hd. apply Z.divide_pos_le in Hd; lia. }
  unfold finverse_in. destruct (euclid fuel a p 1 0) as [u|] eqn:E; [eauto|exfalso].
  (* the first step swaps the arguments *)
  destruct fuel as [|fuel]; [lia|]. cbn [euclid] in E.
  destruct (Z.eqb_spec p 0) as [|Hp0]; [lia|].
  rewrite (Z.mod_small a p) in E by lia.
  apply (euclid_complete 256 fuel p a 0 (1 - a / p * 0)) in E; [assumption|lia| | |lia|lia].
  - change (Z.of_nat 256) with 256. lia.
  - rewrite Z.gcd_comm. assumption.
Qed.

Lemma finverse_sound p a x : 1 < p -> finverse p a = Some x ->
  0 <= x < p /\ (a * x) mod p = 1.
Proof. exact (finverse_sound_in 600 p a x). Qed.

Lemma finverse_some p a : prime p -> p < 2 ^ 256 -> 0 < a < p ->
  exists x, finverse p a = Some x.
Proof. apply (finverse_some_in 600 p a). lia. Qed.

Lemma fr_inv_zero c l : u256_ok l -> value l mod order c = 0 ->
  fr_inv c l = Err (ESys TCrypto CInvalidInput).
Proof.
  intros Hl H. unfold fr_inv, inv_internal. rewrite from_u256val_spec by assumption.
  rewrite H. reflexivity.
Qed.

Lemma fr_inv_nonzero c l : u256_ok l -> value l mod order c <> 0 ->
  exists x, yields (fr_inv c l) x /\ 0 <= x < order c /\ (value l * x) mod order c = 1.
Proof.
  intros Hl H. unfold fr_inv, inv_internal. rewrite from_u256val_spec by assumption.
  assert (Hb := Z.mod_pos_bound (value l) (order c) (order_pos c)).
  destruct (Z.eqb_spec (value l mod order c) 0) as [|Hne]; [contradiction|].
  assert (Hr := order_range c).
  destruct (finverse_some (order c) (value l mod order c)) as [x E].
  - apply order_prime.
  - apply Z.lt_trans with (2 ^ 255); [lia|reflexivity].
  - lia.
  - rewrite E. cbn [rbind]. apply finverse_sound in E; [|lia]. destruct E as [Hx E].
    rewrite Z.mul_mod_idemp_l in E by lia.
    exists x. split; [|split; assumption].
    eexists. split; [reflexivity|]. apply into_u256val_spec.
    rewrite <- (Z.mod_small x (order c)) by assumption. apply reduced_256.
Qed.

Lemma inverse_unique p a x y : 1 < p -> 0 <= x < p -> 0 <= y < p ->
  (a * x) mod p = 1 -> (a * y) mod p = 1 -> x = y.
Proof.
  intros Hp Hx Hy Ex Ey.
  rewrite <- (Z.mod_small x p) by assumption. rewrite <- (Z.mod_small y p) by assumption.
  transitivity ((x * (a * y)) mod p).
  - rewrite <- Z.mul_mod_idemp_r by lia. rewrite Ey. f_equal. lia.
  - replace (x * (a * y)) with (y * (a * x)) by ring.
    rewrite <- Z.mul_mod_idemp_r by lia. rewrite Ex. f_equal. lia.
Qed.

Lemma represents_inj v w z : represents v z -> represents w z -> v = w.
Proof.
  unfold represents. destruct v as [a|a], w as [b|b]; cbn [value];
    intros [-> H1] [-> H2]; try reflexivity; exfalso; lia.
Qed.

Lemma yields_det r1 r2 z : yields r1 z -> yields r2 z -> r1 = r2.
Proof.
  intros (v & -> & Hv) (w & -> & Hw). f_equal. eapply represents_inj; eassumption.
Qed.

Lemma represents_ok v z : 0 <= z < 2 ^ 256 -> represents v z -> u256_ok v.
Proof.
  unfold represents, u256_ok. destruct v as [a|a]; cbn [value]; intros H [-> H2]; lia.
Qed.

(* ------------------------------------------------------------- the S-box *)

(* An exponent that undoes the fifth power: found once for each order. *)
Definition root5 (c : curve) : Z := 
  match c with
  | Bls => 20974350070050476191779096203274386335076221000211055129041463479975432473805
  | Bn => 17510594297471420177797124596205820070838691520332827474958563349260646796493
  end.

Lemma root5_ok c : exists k, 0 <= k /\ 5 * root5 c = 1 + k * (order c - 1).
Proof.
  exists ((5 * root5 c - 1) / (order c - 1)).
  destruct c; vm_compute; split; [discriminate|reflexivity|discriminate|reflexivity].
Qed.

Lemma pow_root5 c x : (x ^ 5) ^ root5 c mod order c = x mod order c.
Proof.
  destruct (root5_ok c) as (k & Hk & E).
  assert (Hp := order_pos c). assert (Hr := order_range c).
  rewrite <- Z.pow_mul_r; [|lia|destruct c; vm_compute; discriminate].
  rewrite E. rewrite Z.pow_add_r; [|lia|apply Z.mul_nonneg_nonneg; lia].
  rewrite Z.pow_1_r.
  destruct (Z.eq_dec (x mod order c) 0) as [E0|Hne].
  - rewrite Z.mul_mod by lia. rewrite E0. rewrite Z.mul_0_l. apply Z.mod_0_l. lia.
  - rewrite (Z.mul_comm k), Z.pow_mul_r by lia.
    rewrite Z.mul_mod by lia. rewrite (Zpower_mod (x ^ (order c - 1))) by lia.
    rewrite order_fermat by assumption. rewrite Z.pow_1_l by lia.
    rewrite (Z.mod_small 1) by lia. rewrite Z.mul_1_r. apply Z.mod_mod. lia.
Qed.

Lemma pow5_inj c x y : x ^ 5 mod order c = y ^ 5 mod order c -> x mod order c = y mod order c.
Proof.
  intros H. rewrite <- (pow_root5 c x), <- (pow_root5 c y).
  rewrite (Zpower_mod (x ^ 5)) by apply order_pos. rewrite H.
  rewrite <- Zpower_mod by apply order_pos. reflexivity.
Qed.

(* ------------------------------------------------------------ field laws *)

Lemma red_ok c a v : represents v (a mod order c) -> u256_ok v.
Proof. intros Hv. eapply represents_ok; [|exact Hv]. apply reduced_256. Qed.

Lemma rep_value v a : represents v a -> value v = a.
Proof. intros []; assumption. Qed.

Lemma law_add_comm c x y : u256_ok x -> u256_ok y -> fr_add c x y = fr_add c y x.
Proof.
  intros Hx Hy. eapply yields_det; [apply fr_add_spec; assumption|].
  rewrite Z.add_comm. apply fr_add_spec; assumption.
Qed.

Lemma law_mul_comm c x y : u256_ok x -> u256_ok y -> fr_mul c x y = fr_mul c y x.
Proof.
  intros Hx Hy. eapply yields_det; [apply fr_mul_spec; assumption|].
  rewrite Z.mul_comm. apply fr_mul_spec; assumption.
Qed.

Lemma law_add_assoc c x y z : u256_ok x -> u256_ok y -> u256_ok z ->
  rbind (fr_add c y z) (fun yz => fr_add c x yz)
  = rbind (fr_add c x y) (fun xy => fr_add c xy z).
Proof.
  intros Hx Hy Hz. assert (Hp := order_nz c).
  destruct (fr_add_spec c y z Hy Hz) as (v & -> & Rv).
  destruct (fr_add_spec c x y Hx Hy) as (w & -> & Rw).
  cbn [rbind].
  eapply yields_det; [apply fr_add_spec; [assumption|eapply red_ok; exact Rv]|].
  rewrite (rep_value _ _ Rv). rewrite Z.add_mod_idemp_r by assumption.
  rewrite Z.add_assoc. rewrite <- Z.add_mod_idemp_l by assumption.
  rewrite <- (rep_value _ _ Rw). apply fr_add_spec; [eapply red_ok; exact Rw|assumption].
Qed.

Lemma law_mul_assoc c x y z : u256_ok x -> u256_ok y -> u256_ok z ->
  rbind (fr_mul c y z) (fun yz => fr_mul c x yz)
  = rbind (fr_mul c x y) (fun xy => fr_mul c xy z).
Proof.
  intros Hx Hy Hz. assert (Hp := order_nz c).
  destruct (fr_mul_spec c y z Hy Hz) as (v & -> & Rv).
  destruct (fr_mul_spec c x y Hx Hy) as (w & -> & Rw).
  cbn [rbind].
  eapply yields_det; [apply fr_mul_spec; [assumption|eapply red_ok; exact Rv]|].
  rewrite (rep_value _ _ Rv). rewrite Z.mul_mod_idemp_r by assumption.
  rewrite Z.mul_assoc. rewrite <- Z.mul_mod_idemp_l by assumption.
  rewrite <- (rep_value _ _ Rw). apply fr_mul_spec; [eapply red_ok; exact Rw|assumption].
Qed.

Lemma law_distr c x y z : u256_ok x -> u256_ok y -> u256_ok z ->
  rbind (fr_add c y z) (fun yz => fr_mul c x yz)
  = rbind (fr_mul c x y) (fun xy => rbind (fr_mul c x z) (fun xz => fr_add c xy xz)).
Proof.
  intros Hx Hy Hz. assert (Hp := order_nz c).
  destruct (fr_add_spec c y z Hy Hz) as (v & -> & Rv).
  destruct (fr_mul_spec c x y Hx Hy) as (w & -> & Rw).
  destruct (fr_mul_spec c x z Hx Hz) as (u & -> & Ru).
  cbn [rbind].
  eapply yields_det; [apply fr_mul_spec; [assumption|eapply red_ok; exact Rv]|].
  rewrite (rep_value _ _ Rv). rewrite Z.mul_mod_idemp_r by assumption.
  rewrite Z.mul_add_distr_l. rewrite Z.add_mod by assumption.
  rewrite <- (rep_value _ _ Rw), <- (rep_value _ _ Ru).
  apply fr_add_spec; [eapply red_ok; exact Rw|eapply red_ok; exact Ru].
Qed.

Lemma law_sub_add c x y : u256_ok x -> u256_ok y ->
  rbind (fr_sub c x y) (fun d => fr_add c d y) = fr_add c x (U256S 0).
Proof.
  intros Hx Hy. assert (Hp := order_nz c).
  destruct (fr_sub_spec c x y Hx Hy) as (v & -> & Rv). cbn [rbind].
  eapply yields_det; [apply fr_add_spec; [eapply red_ok; exact Rv|assumption]|].
  rewrite (rep_value _ _ Rv). rewrite Z.add_mod_idemp_l by assumption.
  replace (value x - value y + value y) with (value x + value (U256S 0))
    by (change (value (U256S 0)) with 0; ring).
  apply fr_add_spec; [assumption|]. unfold u256_ok. split; [lia|reflexivity].
Qed.

Lemma zero_yields : yields (Ok (U256S 0)) 0.
Proof. exists (U256S 0). split; [reflexivity|]. split; reflexivity. Qed.

Lemma one_yields : yields (Ok (U256S 1)) 1.
Proof. exists (U256S 1). split; [reflexivity|]. split; reflexivity. Qed.

Lemma law_sub_self c x : u256_ok x -> fr_sub c x x = Ok (U256S 0).
Proof.
  intros Hx. eapply yields_det; [apply fr_sub_spec; assumption|].
  rewrite Z.sub_diag, Z.mod_0_l by apply order_nz. exact zero_yields.
Qed.

Lemma law_inv c x i : u256_ok x -> fr_inv c x = Ok i -> fr_mul c x i = Ok (U256S 1).
Proof.
  intros Hx Hi. destruct (Z.eq_dec (value x mod order c) 0) as [E0|Hne].
  - rewrite (fr_inv_zero c x Hx E0) in Hi. discriminate.
  - destruct (fr_inv_nonzero c x Hx Hne) as (k & (v & Ev & Rv) & Hk & E).
    rewrite Ev in Hi. injection Hi as <-.
    assert (Hv : u256_ok v).
    { apply (red_ok c k). rewrite Z.mod_small by assumption. exact Rv. }
    eapply yields_det; [apply fr_mul_spec; assumption|].
    rewrite (rep_value _ _ Rv), E. exact one_yields.
Qed.
