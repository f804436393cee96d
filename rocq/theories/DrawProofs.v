(* Fairness of ranged draws and of shuffling. *)
From Coq Require Import ZArith Lia List Bool Permutation.
From Verif Require Import Prelude PrngModel PrngProofs DrawSpec.
Import ListNotations.
Open Scope Z_scope.
Ltac Zify.zify_post_hook ::= idtac.

Lemma run_list c n : let l := map (fun i => c + Z.of_nat i) (seq 0 n) in
  NoDup l /\ length l = n /\ forall x, In x l <-> c <= x < c + Z.of_nat n.
Proof.
  cbv zeta. split; [|split].
  - apply FinFun.Injective_map_NoDup; [intros a b H; lia|apply seq_NoDup].
  - now rewrite map_length, seq_length.
  - intros x. rewrite in_map_iff. split.
    + intros (i & <- & I). apply in_seq in I. lia.
    + intros H. exists (Z.to_nat (x - c)). split; [lia|]. apply in_seq. lia.
Qed.

Lemma words_of_value w r k q : 0 < r <= w -> 0 <= k < r -> 0 <= q -> q * r <= w ->
  exists c, forall x, (c <= x < c + q) <-> (0 <= x < w /\ x * r / w = k /\ x * r mod w < q * r).
Proof.
  intros R K Q W. exists ((k * w + r - 1) / r). rewrite (Z.mul_comm q r) in W.
  pose proof (Z.div_mod (k * w + r - 1) r ltac:(lia)) as C.
  pose proof (Z.mod_pos_bound (k * w + r - 1) r ltac:(lia)) as Cm.
  set (c := (k * w + r - 1) / r) in *. set (n := (k * w + r - 1) mod r) in *. clearbody c n.
  assert (KW : 0 <= k * w) by (apply Z.mul_nonneg_nonneg; lia).
  assert (KR : (k + 1) * w <= r * w) by (apply Z.mul_le_mono_nonneg_r; lia).
  rewrite Z.mul_add_distr_r, Z.mul_1_l in KR.
  assert (Ekw : w * k = k * w) by lia. set (kw := k * w) in *. clearbody kw.
  intros x. split.
  - intros [X1 X2].
    assert (A0 : r * c <= r * x) by (apply Z.mul_le_mono_nonneg_l; lia).
    assert (B0 : r * x <= r * (c + q - 1)) by (apply Z.mul_le_mono_nonneg_l; lia).
    rewrite Z.mul_sub_distr_l, Z.mul_add_distr_l, Z.mul_1_r in B0.
    rewrite (Z.mul_comm x r), (Z.mul_comm q r).
    assert (X3 : 0 <= x).
    { destruct (Z.le_gt_cases 0 x) as [G|G]; [exact G|].
      pose proof (Z.mul_neg_pos x r G ltac:(lia)). lia. }
    assert (X4 : x < w).
    { apply (Z.mul_lt_mono_pos_l r); lia. }
    set (rx := r * x) in *. set (rc := r * c) in *. set (rq := r * q) in *. clearbody rx rc rq.
    assert (D : rx / w = k) by (symmetry; apply Z.div_unique with (r := rx - kw); [lia|]; subst; lia).
    assert (M : rx mod w = rx - kw) by (symmetry; apply Z.mod_unique with (q := k); [lia|]; lia).
    rewrite D, M. lia.
  - intros (X & D & M). rewrite (Z.mul_comm x r), (Z.mul_comm q r) in *.
    pose proof (Z.div_mod (r * x) w ltac:(lia)) as E. rewrite D in E.
    pose proof (Z.mod_pos_bound (r * x) w ltac:(lia)) as Em.
    set (s := r * x mod w) in *. clearbody s. clear D. split.
    + destruct (Z.le_gt_cases c x) as [G|G]; [exact G|].
      assert (r * x <= r * (c - 1)) by (apply Z.mul_le_mono_nonneg_l; lia).
      rewrite Z.mul_sub_distr_l, Z.mul_1_r in *. lia.
    + destruct (Z.lt_ge_cases x (c + q)) as [G|G]; [exact G|].
      assert (r * (c + q) <= r * x) by (apply Z.mul_le_mono_nonneg_l; lia).
      rewrite Z.mul_add_distr_l in *. lia.
Qed.

Lemma uniform_one w lo hi x out :
  match uniform w lo hi [x] with
  | Some (v, rest) => rest = [] /\ uniform w lo hi (x :: out) = Some (v, out)
  | None => uniform w lo hi (x :: out) = uniform w lo hi out
  end.
Proof.
  unfold uniform. destruct (_ =? 0) eqn:E; [easy|]. cbn [reject].
  destruct (_ <=? _); [easy|]. reflexivity.
Qed.

Lemma reject_fair w lo r q v : 0 < r < w -> 0 <= q -> q * r <= w -> 0 <= lo -> lo + r <= w -> lo <= v < lo + r ->
  exactly q (fun x => word w x /\ reject w r (q * r - 1) lo [x] = Some (v, [])).
Proof.
  intros R Q QR Lo Hi V. unfold word. cbn [reject].
  destruct (words_of_value w r (v - lo) q ltac:(lia) ltac:(lia) Q QR) as [c C].
  destruct (run_list c (Z.to_nat q)) as (L1 & L2 & L3).
  eexists. split; [exact L1|]. split; [rewrite L2; apply Z2Nat.id; exact Q|].
  intros x. rewrite L3, Z2Nat.id by exact Q. rewrite C. clear L1 L2 L3 C.
  assert (B : 0 <= x < w -> 0 <= x * r / w < r).
  { intros X. split; [apply Z.div_pos; [apply Z.mul_nonneg_nonneg|]; lia|]. apply Z.div_lt_upper_bound; [lia|].
    apply Z.mul_lt_mono_pos_r; lia. }
  set (s := x * r mod w) in *. set (d := x * r / w) in *. set (qr := q * r) in *. clearbody s d qr. split.
  - intros (X & D & M). split; [exact X|]. subst d.
    assert (LE : (s <=? qr - 1) = true) by (apply Z.leb_le; lia).
    rewrite LE, Z.mod_small by lia. do 2 f_equal. lia.
  - intros (X & D). specialize (B X).
    destruct (s <=? qr - 1) eqn:LE; [|discriminate]. apply Z.leb_le in LE.
    injection D as D. rewrite Z.mod_small in D by lia. repeat split; lia.
Qed.

Lemma uniform_fair w lo hi v : 0 <= lo <= hi -> hi < w -> lo <= v <= hi ->
  exactly (w / (hi - lo + 1)) (fun x => word w x /\ uniform w lo hi [x] = Some (v, [])).
Proof.
  intros L H V. unfold uniform.
  assert (Em : (hi - lo) mod w = hi - lo) by (apply Z.mod_small; lia). rewrite Em.
  destruct (Z.eq_dec (hi - lo + 1) w) as [F|F].
  - rewrite F, Z.mod_same, Z.div_same by lia. cbn [Z.eqb]. exists [v]. split; [|split].
    + constructor; [easy|constructor].
    + reflexivity.
    + intros x. cbn. unfold word. split.
      * intros [<-|[]]. split; [lia|reflexivity].
      * intros [_ [= ->]]. now left.
  - rewrite (Z.mod_small (hi - lo + 1)) by lia. clear Em.
    assert (R : 0 < hi - lo + 1 < w) by lia. assert (LR : lo + (hi - lo + 1) <= w) by lia.
    assert (VR : lo <= v < lo + (hi - lo + 1)) by lia.
    set (r := hi - lo + 1) in *. clearbody r. clear H V F.
    assert (E0 : (r =? 0) = false) by lia. rewrite E0.
    assert (T : (w - 1 - r + 1) mod r = w mod r).
    { replace (w - 1 - r + 1) with (w + (-1) * r) by lia. apply Z.mod_add. lia. }
    rewrite T.
    pose proof (Z.div_mod w r ltac:(lia)) as W. pose proof (Z.mod_pos_bound w r ltac:(lia)) as Wm.
    pose proof (Z.div_pos w r ltac:(lia) ltac:(lia)) as Q.
    replace (w - 1 - w mod r) with (w / r * r - 1) by (rewrite (Z.mul_comm (w / r) r); lia).
    apply reject_fair; try assumption; lia.
Qed.

Lemma share_bound n : 0 < n < 2 ^ 32 -> 0 < share n /\ share n * n <= 2 ^ 32.
Proof.
  intros N. unfold share. pose proof (Z.log2_spec n ltac:(lia)) as [A B].
  assert (L : 0 <= Z.log2 n <= 31).
  { split; [apply Z.log2_nonneg|]. assert (Z.log2 n < 32); [|lia]. apply Z.log2_lt_pow2; lia. }
  split; [apply Z.pow_pos_nonneg; lia|].
  assert (E : 2 ^ 32 = 2 ^ (31 - Z.log2 n) * 2 ^ Z.succ (Z.log2 n)).
  { rewrite <- Z.pow_add_r by lia. f_equal. lia. }
  rewrite E. apply Z.mul_le_mono_nonneg_l; [apply Z.pow_nonneg; lia|lia].
Qed.

Lemma single_fair n v : 0 < n < 2 ^ 32 -> 0 <= v < n ->
  exactly (share n) (fun x => word (2 ^ 32) x /\ single 0 (n - 1) [x] = Some (v, [])).
Proof.
  intros N V. destruct (share_bound n N) as [S1 S2]. unfold single. cbv zeta.
  rewrite (Z.mod_small (n - 1 - 0)) by lia. rewrite (Z.mod_small (n - 1 - 0 + 1)) by lia.
  replace (n - 1 - 0 + 1) with n by lia.
  assert (E0 : (n =? 0) = false) by lia. rewrite E0. fold (share n). rewrite (Z.mul_comm n (share n)).
  apply reject_fair; lia.
Qed.

Lemma single_one lo hi x out :
  match single lo hi [x] with
  | Some (v, rest) => rest = [] /\ single lo hi (x :: out) = Some (v, out)
  | None => single lo hi (x :: out) = single lo hi out
  end.
Proof.
  unfold single. destruct (_ =? 0) eqn:E; [easy|]. cbn [reject].
  destruct (_ <=? _); [easy|]. reflexivity.
Qed.

(* ------------------------------------------------------------ shuffling *)

Lemma exactly_iff {A} n (P Q : A -> Prop) : (forall x, P x <-> Q x) -> exactly n P -> exactly n Q.
Proof. intros H (l & N & L & I). exists l. split; [exact N|]. split; [exact L|]. intros x. now rewrite I. Qed.

Lemma NoDup_app_intro {A} (l m : list A) : NoDup l -> NoDup m -> (forall x, In x l -> ~ In x m) -> NoDup (l ++ m).
Proof.
  intros L M D. induction L as [|a l N L IH]; [exact M|]. cbn. constructor.
  - rewrite in_app_iff. intros [H|H]; [contradiction|]. apply (D a); [now left|exact H].
  - apply IH. intros x I. apply D. now right.
Qed.

Lemma exactly_pairs {A} n m (P : A -> Prop) (Q : list A -> Prop) : exactly n P -> exactly m Q ->
  exactly (n * m) (fun o => exists x o', o = x :: o' /\ P x /\ Q o').
Proof.
  intros (l & N & L & I) (k & N' & L' & I').
  exists (flat_map (fun x => map (cons x) k) l). split; [|split].
  - clear L I. induction N as [|a l Na N IH]; [constructor|]. cbn. apply NoDup_app_intro.
    + apply FinFun.Injective_map_NoDup; [intros u v H; now injection H|exact N'].
    + exact IH.
    + intros o H H'. apply in_map_iff in H as (u & <- & _).
      apply in_flat_map in H' as (b & Hb & H'). apply in_map_iff in H' as (v & [= -> _] & _). contradiction.
  - subst n m. clear. induction l as [|a l IH]; [reflexivity|]. cbn [flat_map].
    rewrite app_length, map_length. cbn [length]. lia.
  - intros o. rewrite in_flat_map. split.
    + intros (x & X & H). apply in_map_iff in H as (o' & <- & O'). exists x, o'.
      split; [reflexivity|]. split; [now apply I|now apply I'].
    + intros (x & o' & -> & X & O'). exists x. split; [now apply I|]. apply in_map. now apply I'.
Qed.

Lemma single_uses lo hi out v rest : single lo hi out = Some (v, rest) ->
  (length rest < length out)%nat.
Proof.
  revert v rest. induction out as [|x out IH]; intros v rest U.
  - unfold single in U. destruct (_ =? 0); discriminate.
  - pose proof (single_one lo hi x out) as O. destruct (single lo hi [x]) as [[y s]|].
    + destruct O as [_ O]. rewrite O in U. injection U as <- <-. cbn. lia.
    + rewrite O in U. apply IH in U. cbn. lia.
Qed.

Lemma shuffle_uses {A} i : forall (l l' : list A) out rest, shuffle_from i l out = Some (l', rest) ->
  (i + length rest <= length out)%nat.
Proof.
  induction i as [|i IH]; intros l l' out rest S; cbn [shuffle_from] in S.
  - injection S as _ <-. lia.
  - destruct (single _ _ _) as [[j o]|] eqn:U; [|discriminate].
    apply single_uses in U. apply IH in S. lia.
Qed.

Lemma swap_length {A} (l : list A) i j : length (swap l i j) = length l.
Proof. apply Permutation_length, swap_perm. Qed.

Lemma nth_swap {A} (l : list A) i j k : (i < length l)%nat -> (j < length l)%nat ->
  nth_error (swap l i j) k =
  if Nat.eqb k j then nth_error l i else if Nat.eqb k i then nth_error l j else nth_error l k.
Proof.
  intros I J. unfold swap.
  destruct (nth_error l i) as [x|] eqn:X; [|apply nth_error_None in X; lia].
  destruct (nth_error l j) as [y|] eqn:Y; [|apply nth_error_None in Y; lia].
  assert (Len : length (set_nth l i y) = length l).
  { unfold set_nth. rewrite app_length. cbn [length]. rewrite firstn_length, skipn_length. lia. }
  rewrite nth_set_nth by lia. rewrite (Nat.eqb_sym j k). destruct (Nat.eqb_spec k j) as [->|Kj]; [reflexivity|].
  rewrite nth_set_nth by lia. rewrite (Nat.eqb_sym i k). destruct (Nat.eqb_spec k i) as [->|Ki]; reflexivity.
Qed.
