(* Fermat's theorem, and a primality test that the kernel can run:
   Pocklington's criterion, with certificates in the style of Pratt.  Used for
   the orders of the two scalar fields. *)
From Coq Require Import ZArith Znumtheory Zpow_facts Lia List Bool Permutation.
From Verif Require Import Prelude FieldModel.
Import ListNotations.
Open Scope Z_scope.
Ltac Zify.zify_post_hook ::= idtac.

(* ------------------------------------------------------------------ fpow *)

Lemma fpow_pos_spec p a n : p <> 0 -> fpow_pos p a n = a ^ Zpos n mod p.
Proof.
  intros Hp. induction n as [n IH|n IH|]; cbn [fpow_pos].
  - unfold fmul. rewrite IH. rewrite <- Z.mul_mod by assumption.
    rewrite Z.mul_mod_idemp_l by assumption.
    rewrite Pos2Z.inj_xI. rewrite Z.pow_add_r by lia. rewrite Z.pow_1_r.
    replace (2 * Zpos n) with (Zpos n + Zpos n) by lia.
    rewrite Z.pow_add_r by lia. reflexivity.
  - unfold fmul. rewrite IH. rewrite <- Z.mul_mod by assumption.
    rewrite Pos2Z.inj_xO. replace (2 * Zpos n) with (Zpos n + Zpos n) by lia.
    rewrite Z.pow_add_r by lia. reflexivity.
  - rewrite Z.pow_1_r. reflexivity.
Qed.

Lemma fpow_spec p a n : p <> 0 -> 0 <= n -> fpow p a n = a ^ n mod p.
Proof.
  intros Hp Hn. unfold fpow. destruct n as [|n|n].
  - reflexivity.
  - apply fpow_pos_spec; assumption.
  - lia.
Qed.

(* ------------------------------------------------------- Fermat's theorem *)

Lemma NoDup_map_in {A B} (f : A -> B) (l : list A) :
  (forall x y, In x l -> In y l -> f x = f y -> x = y) -> NoDup l -> NoDup (map f l).
Proof.
  induction l as [|x l IH]; intros Hf Hd; cbn [map]; [constructor|].
  inversion Hd; subst. constructor.
  - intros Hin. apply in_map_iff in Hin. destruct Hin as (y & E & Hy).
    assert (x = y) by (apply Hf; [left; reflexivity|right; assumption|symmetry; assumption]).
    subst. contradiction.
  - apply IH; [|assumption]. intros u v Hu Hv. apply Hf; right; assumption.
Qed.

Lemma prod_perm l l' : Permutation l l' -> fold_right Z.mul 1 l = fold_right Z.mul 1 l'.
Proof. induction 1; cbn [fold_right]; [reflexivity|rewrite IHPermutation; reflexivity|ring|congruence]. Qed.

Lemma prod_map a p (l : list Z) : 0 < p ->
  fold_right Z.mul 1 (map (fun k => (a * k) mod p) l) mod p
  = (a ^ Z.of_nat (length l) * fold_right Z.mul 1 l) mod p.
Proof.
  intros Hp. induction l as [|x l IH]; [rewrite Z.pow_0_r; reflexivity|].
  cbn [map fold_right length]. rewrite Z.mul_mod_idemp_l by lia.
  rewrite <- Z.mul_mod_idemp_r, IH, Z.mul_mod_idemp_r by lia.
  rewrite Nat2Z.inj_succ, Z.pow_succ_r by lia. f_equal. ring.
Qed.

Lemma prod_unit p l : Forall (fun x => rel_prime x p) l -> rel_prime (fold_right Z.mul 1 l) p.
Proof.
  induction 1 as [|x l Hx Hl IH]; cbn [fold_right]; [apply rel_prime_1|].
  apply rel_prime_sym, rel_prime_mult; apply rel_prime_sym; assumption.
Qed.

Lemma unit_below p x : prime p -> 1 <= x < p -> rel_prime x p.
Proof. intros [_ H] Hx. apply H. exact Hx. Qed.

Lemma cancel_unit p c x y : rel_prime c p -> (c * x) mod p = (c * y) mod p -> 0 < p -> (p | x - y).
Proof.
  intros Hc E Hp. apply Gauss with (b := c); [|apply rel_prime_sym; exact Hc].
  apply Z.mod_divide; [lia|]. replace (c * (x - y)) with (c * x - c * y) by ring.
  rewrite Zminus_mod, E, Z.sub_diag. reflexivity.
Qed.

Lemma small_multiple p d : (p | d) -> - p < d < p -> d = 0.
Proof. intros [k Hk] H. subst d. assert (k = 0) by nia. subst k. ring. Qed.

Theorem fermat p x : prime p -> x mod p <> 0 -> x ^ (p - 1) mod p = 1.
Proof.
  intros Hp Hx. assert (H2 := prime_ge_2 p Hp).
  set (N := Z.to_nat (p - 1)).
  set (U := map Z.of_nat (seq 1 N)).
  assert (HU : Forall (fun k => 1 <= k < p) U).
  { apply Forall_forall. intros k Hk. apply in_map_iff in Hk. destruct Hk as (i & <- & Hi).
    apply in_seq in Hi. lia. }
  assert (Hux : rel_prime x p).
  { apply rel_prime_sym. apply prime_rel_prime; [exact Hp|]. intros Hd. apply Hx.
    apply Z.mod_divide; [lia|exact Hd]. }
  assert (HN : NoDup U).
  { apply NoDup_map_in; [|apply seq_NoDup]. intros i j _ _ E. apply Nat2Z.inj. exact E. }
  assert (HM : NoDup (map (fun k => (x * k) mod p) U)).
  { apply NoDup_map_in; [|exact HN]. intros i j Hi Hj E.
    rewrite Forall_forall in HU. assert (Ri := HU i Hi). assert (Rj := HU j Hj).
    assert (D := cancel_unit p x i j Hux E ltac:(lia)).
    apply small_multiple in D; lia. }
  assert (P : Permutation (map (fun k => (x * k) mod p) U) U).
  { apply NoDup_Permutation_bis; [exact HM|rewrite map_length; lia|].
    intros y Hy. apply in_map_iff in Hy. destruct Hy as (k & <- & Hk).
    rewrite Forall_forall in HU. assert (Rk := HU k Hk).
    assert (B := Z.mod_pos_bound (x * k) p ltac:(lia)).
    assert (Hnz : (x * k) mod p <> 0).
    { intros E. apply Z.mod_divide in E; [|lia].
      apply Gauss in E; [|apply rel_prime_sym; exact Hux].
      apply small_multiple in E; lia. }
    apply in_map_iff. exists (Z.to_nat ((x * k) mod p)). split; [lia|]. apply in_seq. lia. }
  apply prod_perm in P.
  assert (E := prod_map x p U ltac:(lia)). rewrite P in E.
  assert (L : Z.of_nat (length U) = p - 1).
  { unfold U. rewrite map_length, seq_length. lia. }
  rewrite L in E.
  assert (R : rel_prime (fold_right Z.mul 1 U) p).
  { apply prod_unit. eapply Forall_impl; [|exact HU]. intros k Hk. apply unit_below; assumption. }
  revert E R. generalize (fold_right Z.mul 1 U). intros m E R.
  assert (D : (p | x ^ (p - 1) - 1)).
  { apply cancel_unit with (c := m); [exact R| |lia]. rewrite Z.mul_1_r, Z.mul_comm. symmetry. exact E. }
  apply Z.mod_divide in D; [|lia].
  assert (B := Z.mod_pos_bound (x ^ (p - 1)) p ltac:(lia)).
  rewrite Zminus_mod, (Z.mod_small 1) in D by lia.
  apply Z.mod_divide in D; [|lia]. apply small_multiple in D; lia.
Qed.

(* --------------------------------------------------------------- powers *)

Section Order.
Variables n a : Z.
Hypothesis Hn : 1 < n.
Let one (k : Z) := a ^ k mod n = 1.

Lemma pow_mult_one x k : 0 <= x -> 0 <= k -> one x -> one (x * k).
Proof.
  unfold one. intros Hx Hk H1. rewrite Z.pow_mul_r by lia.
  rewrite Zpower_mod by lia. rewrite H1. rewrite Z.pow_1_l by lia.
  apply Z.mod_small; lia.
Qed.

Lemma one_rem x y : 0 <= x -> 0 < y -> one x -> one y -> one (x mod y).
Proof.
  intros Hx Hy H1 H2.
  assert (Hd := Z.div_mod x y ltac:(lia)).
  assert (Hm := Z.mod_pos_bound x y Hy).
  assert (Hdv : 0 <= x / y) by (apply Z.div_pos; lia).
  unfold one in *.
  assert (E : a ^ x = a ^ (y * (x / y)) * a ^ (x mod y)).
  { rewrite <- Z.pow_add_r; [rewrite <- Hd; reflexivity| |exact (proj1 Hm)].
    apply Z.mul_nonneg_nonneg; [apply Z.lt_le_incl; exact Hy|exact Hdv]. }
  rewrite E in H1.
  rewrite Z.mul_mod in H1 by lia.
  assert (H3 := pow_mult_one y (x / y) ltac:(lia) Hdv H2). unfold one in H3.
  rewrite H3 in H1. rewrite Z.mul_1_l, Z.mod_mod in H1 by lia. exact H1.
Qed.

Lemma one_gcd : forall y, 0 <= y -> forall x, 0 <= x -> one x -> one y -> one (Z.gcd x y).
Proof.
  refine (Zlt_0_ind (fun y => forall x, 0 <= x -> one x -> one y -> one (Z.gcd x y)) _).
  intros y IH Hy x Hx H1 H2.
  destruct (Z.eq_dec y 0) as [->|Hne].
  - rewrite Z.gcd_0_r. rewrite Z.abs_eq by lia. exact H1.
  - rewrite Z.gcd_comm. rewrite <- Z.gcd_mod by lia. rewrite Z.gcd_comm.
    apply IH; [apply Z.mod_pos_bound; lia|assumption|assumption|].
    apply one_rem; [assumption|lia|assumption|assumption].
Qed.

End Order.

Lemma prime_divisor_exists : forall m, 1 < m -> exists q, prime q /\ (q | m).
Proof.
  assert (W : forall m, 0 <= m -> 1 < m -> exists q, prime q /\ (q | m)).
  2:{ intros m Hm. apply W; lia. }
  refine (Zlt_0_ind (fun m => 1 < m -> exists q, prime q /\ (q | m)) _).
  intros m IH H0 Hm. destruct (prime_dec m) as [Hp|Hp].
  - exists m. split; [assumption|apply Z.divide_refl].
  - destruct (not_prime_divide m Hm Hp) as (k & Hk & Hd).
    destruct (IH k ltac:(lia) ltac:(lia)) as (q & Hqp & Hqd).
    exists q. split; [assumption|]. eapply Z.divide_trans; eassumption.
Qed.

(* ------------------------------------------------------------ Pocklington *)

Section Pocklington.
Variables n a F : Z.
Hypothesis Hn : 1 < n.
Hypothesis HF : (F | n - 1).
Hypothesis Hsq : n <= F * F.
Hypothesis HF0 : 0 < F.
Hypothesis Hord : a ^ (n - 1) mod n = 1.
Hypothesis Hq : forall q, prime q -> (q | F) -> Z.gcd (a ^ ((n - 1) / q) - 1) n = 1.

Lemma mod_one_divides p k : (p | n) -> a ^ k mod n = 1 -> (p | a ^ k - 1).
Proof.
  intros Hp E. apply Z.divide_trans with n; [exact Hp|]. apply Z.mod_divide; [lia|].
  rewrite Zminus_mod, E, (Z.mod_small 1), Z.sub_diag by lia. reflexivity.
Qed.

Lemma factor_large p : prime p -> (p | n) -> (F | p - 1).
Proof.
  intros Hp Hd. assert (H2 := prime_ge_2 p Hp).
  assert (One : forall k, a ^ k mod p = 1 <-> (p | a ^ k - 1)).
  { intros k. rewrite <- Z.mod_divide by lia. rewrite Zminus_mod, (Z.mod_small 1) by lia.
    assert (B := Z.mod_pos_bound (a ^ k) p ltac:(lia)). split; intros E.
    - rewrite E, Z.sub_diag. reflexivity.
    - apply Z.mod_divide in E; [|lia]. apply small_multiple in E; lia. }
  assert (E1 : a ^ (n - 1) mod p = 1).
  { apply One, mod_one_divides; assumption. }
  assert (Ha : a mod p <> 0).
  { intros E. rewrite Zpower_mod, E, Z.pow_0_l, Z.mod_0_l in E1 by lia. discriminate. }
  assert (E2 := fermat p a Hp Ha).
  assert (E3 := one_gcd p a ltac:(lia) (p - 1) ltac:(lia) (n - 1) ltac:(lia) E1 E2).
  assert (Dp : (Z.gcd (n - 1) (p - 1) | p - 1)) by apply Z.gcd_divide_r.
  apply Z.divide_trans with (Z.gcd (n - 1) (p - 1)); [|exact Dp].
  assert (Dn : (Z.gcd (n - 1) (p - 1) | n - 1)) by apply Z.gcd_divide_l.
  assert (G0 := Z.gcd_nonneg (n - 1) (p - 1)).
  destruct Dn as [m Hm]. revert E3 Hm G0. generalize (Z.gcd (n - 1) (p - 1)). intros d E3 Hm G0.
  assert (Hm0 : 0 < m) by (clear - Hm G0 Hn; nia).
  destruct (Z.eq_dec (Z.gcd F m) 1) as [G|G].
  - apply Gauss with (b := m).
    + rewrite <- Hm. exact HF.
    + apply Zgcd_1_rel_prime. exact G.
  - exfalso. assert (G1 : 1 < Z.gcd F m).
    { assert (Z.gcd F m <> 0) by (intros E; apply Z.gcd_eq_0_l in E; lia).
      assert (0 <= Z.gcd F m) by apply Z.gcd_nonneg. lia. }
    destruct (prime_divisor_exists _ G1) as (q & Pq & Dq).
    assert (Hq2 := prime_ge_2 q Pq).
    assert (DF : (q | F)) by (apply Z.divide_trans with (Z.gcd F m); [exact Dq|apply Z.gcd_divide_l]).
    assert (DM : (q | m)) by (apply Z.divide_trans with (Z.gcd F m); [exact Dq|apply Z.gcd_divide_r]).
    destruct DM as [k Hk].
    assert (Eq : (n - 1) / q = d * k).
    { rewrite Hm, Hk. replace (k * q * d) with (d * k * q) by ring. apply Z.div_mul. lia. }
    assert (Hk0 : 0 <= k) by (clear - Hm0 Hk Hq2; nia).
    assert (E4 : a ^ (d * k) mod p = 1) by (apply pow_mult_one; [lia|exact G0|exact Hk0|exact E3]).
    apply One in E4. rewrite <- Eq in E4.
    assert (D1 : (p | 1)).
    { rewrite <- (Hq q Pq DF). apply Z.gcd_greatest; [exact E4|exact Hd]. }
    apply Z.divide_1_r_nonneg in D1; lia.
Qed.

Lemma pocklington : prime n.
Proof.
  destruct (prime_dec n) as [H|H]; [exact H|exfalso].
  destruct (not_prime_divide n Hn H) as (k & Hk & Hd).
  (* one of k and n / k is at most the root of n *)
  destruct Hd as [m Hm].
  assert (Small : exists d, 1 < d /\ (d | n) /\ d * d <= n).
  { destruct (Z.le_gt_cases k m).
    - exists k. split; [lia|]. split; [exists m; exact Hm|clear - Hm H0 Hk; nia].
    - exists m. split; [clear - Hm Hk Hn; nia|]. split; [exists k; lia|].
      assert (0 < m) by (clear - Hm Hk Hn; nia). clear - Hm H0 Hk H1. nia. }
  destruct Small as (d & Hd1 & Hdn & Hdd).
  destruct (prime_divisor_exists d Hd1) as (p & Pp & Dp).
  assert (Hp2 := prime_ge_2 p Pp).
  assert (Hle : p <= d) by (apply Z.divide_pos_le; [lia|exact Dp]).
  assert (D := factor_large p Pp (Z.divide_trans _ _ _ Dp Hdn)).
  assert (F <= p - 1) by (apply Z.divide_pos_le; [lia|exact D]).
  clear - H0 Hle Hdd Hsq HF0 Hp2. nia.
Qed.
End Pocklington.

(* ---------------------------------------------------------- certificates *)

(* A certificate: a number, a base, and known primes (with multiplicity) whose
   product divides the number less one and is at least its root. *)
Definition check_one (known : list Z) (c : Z * Z * list Z) : bool :=
  let '(n, a, fs) := c in
  let F := fold_right Z.mul 1 fs in
  let qs := nodup Z.eq_dec fs in
  let G := fold_right Z.mul 1 qs in
  (1 <? n) && ((n - 1) mod F =? 0) && (n <=? F * F) && ((n - 1) mod G =? 0)
  && forallb (fun q => existsb (Z.eqb q) known) fs
  && (let b := fpow n a ((n - 1) / G) in
      forallb (fun q => Z.gcd (fpow n b (G / q) - 1) n =? 1) qs
      && match qs with
         | q :: _ => fpow n (fpow n b (G / q)) q =? 1
         | [] => false
         end).

Fixpoint check_all (known : list Z) (cs : list (Z * Z * list Z)) : bool :=
  match cs with
  | [] => true
  | c :: cs => check_one known c && check_all (fst (fst c) :: known) cs
  end.

Lemma prime_in_product q fs :
  prime q -> Forall prime fs -> (q | fold_right Z.mul 1 fs) -> In q fs.
Proof.
  intros Hq Hf. induction fs as [|f fs IH]; cbn [fold_right]; intros Hd.
  - apply Z.divide_1_r_nonneg in Hd; [|apply prime_ge_2 in Hq; lia].
    subst. apply prime_ge_2 in Hq. lia.
  - inversion Hf; subst. apply prime_mult in Hd; [|assumption].
    destruct Hd as [Hd|Hd].
    + left. symmetry. apply prime_div_prime; assumption.
    + right. apply IH; assumption.
Qed.

Lemma prod_divides q fs : In q fs -> (q | fold_right Z.mul 1 fs).
Proof.
  induction fs as [|f fs IH]; cbn [fold_right In]; [intros []|]; intros [E|H].
  - subst f. exists (fold_right Z.mul 1 fs). ring.
  - apply Z.divide_mul_r. apply IH. exact H.
Qed.

Lemma prod_pos fs : Forall prime fs -> 0 < fold_right Z.mul 1 fs.
Proof.
  induction 1 as [|q fs Hq Hfs IH]; cbn [fold_right]; [lia|].
  apply prime_ge_2 in Hq. nia.
Qed.

(* the shared powers are the powers meant *)
Lemma shared n a G q : 1 < n -> 0 < G -> 1 < q -> (G | n - 1) -> (q | G) ->
  fpow n (fpow n a ((n - 1) / G)) (G / q) = a ^ ((n - 1) / q) mod n.
Proof.
  intros Hn HG Hq1 [k Hk] [m Hm].
  assert (Hk0 : 0 < k) by (clear - Hk HG Hn; nia). assert (Hm0 : 0 < m) by (clear - Hm HG Hq1; nia).
  assert (E1 : (n - 1) / G = k) by (rewrite Hk; apply Z.div_mul; lia).
  assert (E2 : G / q = m) by (rewrite Hm; apply Z.div_mul; lia).
  assert (E3 : (n - 1) / q = k * m).
  { rewrite Hk, Hm. replace (k * (m * q)) with (k * m * q) by ring. apply Z.div_mul. lia. }
  rewrite E1, E2, E3. rewrite !fpow_spec by lia. rewrite <- Zpower_mod by lia.
  rewrite Z.pow_mul_r by lia. reflexivity.
Qed.

Lemma gcd_mod_one x n : 1 < n -> Z.gcd (x mod n - 1) n = Z.gcd (x - 1) n.
Proof.
  intros Hn. rewrite (Z.gcd_comm (x mod n - 1)), (Z.gcd_comm (x - 1)).
  replace (x - 1) with (x mod n - 1 + (x / n) * n).
  - rewrite Z.gcd_add_mult_diag_r. reflexivity.
  - assert (H := Z.div_mod x n ltac:(lia)). lia.
Qed.

Lemma check_one_prime known n a fs :
  Forall prime known -> check_one known (n, a, fs) = true -> prime n.
Proof.
  intros Hk H. unfold check_one in H.
  repeat (apply andb_prop in H; destruct H as [H ?]).
  rename H0 into Hlast, H1 into Hfs, H2 into HG, H3 into Hsq, H4 into HF. rename H into H1.
  apply Z.ltb_lt in H1. apply Z.leb_le in Hsq. apply Z.eqb_eq in HF, HG.
  apply andb_prop in Hlast. destruct Hlast as [Hqs Hone].
  assert (Hpr : Forall prime fs).
  { apply Forall_forall. intros q Hq. rewrite forallb_forall in Hfs.
    specialize (Hfs q Hq). apply existsb_exists in Hfs. destruct Hfs as (x & Hx & E).
    apply Z.eqb_eq in E. subst. rewrite Forall_forall in Hk. apply Hk. assumption. }
  assert (Hpq : Forall prime (nodup Z.eq_dec fs)).
  { apply Forall_forall. intros q Hq. apply nodup_In in Hq. rewrite Forall_forall in Hpr. auto. }
  assert (PF := prod_pos fs Hpr). assert (PG := prod_pos _ Hpq).
  apply Z.mod_divide in HF; [|lia]. apply Z.mod_divide in HG; [|lia].
  assert (In_q : forall q, In q (nodup Z.eq_dec fs) ->
            fpow n (fpow n a ((n - 1) / fold_right Z.mul 1 (nodup Z.eq_dec fs)))
                   (fold_right Z.mul 1 (nodup Z.eq_dec fs) / q) = a ^ ((n - 1) / q) mod n).
  { intros q Hq. apply shared; [exact H1|exact PG| |exact HG|apply prod_divides; exact Hq].
    rewrite Forall_forall in Hpq. specialize (Hpq q Hq). apply prime_ge_2 in Hpq. lia. }
  apply (pocklington n a (fold_right Z.mul 1 fs)); [exact H1|exact HF|exact Hsq|exact PF| |].
  - destruct (nodup Z.eq_dec fs) as [|q qs] eqn:Eq; [discriminate|].
    apply Z.eqb_eq in Hone. rewrite In_q in Hone by (left; reflexivity).
    assert (Pq : prime q) by (inversion Hpq; assumption). apply prime_ge_2 in Pq.
    assert (Dq : (q | n - 1)).
    { eapply Z.divide_trans; [|exact HG]. apply prod_divides. left. reflexivity. }
    rewrite fpow_spec in Hone by lia. rewrite <- Zpower_mod in Hone by lia.
    rewrite <- Z.pow_mul_r in Hone; [|apply Z.div_pos; lia|lia].
    destruct Dq as [k Hk']. replace ((n - 1) / q * q) with (n - 1) in Hone; [exact Hone|].
    rewrite Hk', Z.div_mul by lia. reflexivity.
  - intros q Pq Dq. assert (Hin := prime_in_product q fs Pq Hpr Dq).
    apply (nodup_In Z.eq_dec) in Hin.
    rewrite forallb_forall in Hqs. specialize (Hqs q Hin). apply Z.eqb_eq in Hqs.
    rewrite In_q in Hqs by exact Hin. rewrite gcd_mod_one in Hqs by exact H1. exact Hqs.
Qed.

Lemma check_all_primes cs : forall known,
  Forall prime known -> check_all known cs = true -> Forall (fun c => prime (fst (fst c))) cs.
Proof.
  induction cs as [|[[n a] fs] cs IH]; intros known Hk H; [constructor|].
  cbn [check_all] in H. apply andb_prop in H. destruct H as [H1 H2].
  assert (Hp := check_one_prime _ _ _ _ Hk H1).
  constructor; [exact Hp|].
  apply (IH (n :: known)); [constructor; assumption|exact H2].
Qed.
