From Coq Require Import ZArith Lia List Bool Permutation.
From Verif Require Import Prelude PrngModel.
Import ListNotations.
Open Scope Z_scope.

Lemma reject_range w range zone low : forall out v out', 0 < range -> range <= w -> (forall x, In x out -> 0 <= x < w) ->
  0 <= low -> low + range <= w -> reject w range zone low out = Some (v, out') -> low <= v < low + range.
Proof.
  induction out as [|x out IH]; cbn [reject]; [discriminate|]. intros v out' R RW O L LW.
  destruct (x * range mod w <=? zone).
  - intros H. injection H as <- <-. specialize (O x (or_introl eq_refl)).
    assert (D : 0 <= x * range / w < range).
    { split; [apply Z.div_pos; nia|]. apply Z.div_lt_upper_bound; nia. }
    rewrite Z.mod_small by lia. lia.
  - intros H. eapply IH; eauto. intros y I. apply O. now right.
Qed.

Lemma uniform_range w lo hi out v out' : 0 < w -> 0 <= lo <= hi -> hi < w -> (forall x, In x out -> 0 <= x < w) ->
  uniform w lo hi out = Some (v, out') -> lo <= v <= hi.
Proof.
  intros W LH HW O. unfold uniform. rewrite (Z.mod_small (hi - lo)) by lia.
  destruct (Z.eqb_spec ((hi - lo + 1) mod w) 0) as [Z0|NZ].
  - destruct (Z.eq_dec (hi - lo + 1) w) as [EQ|NE]; [|rewrite Z.mod_small in Z0 by lia; lia].
    destruct out as [|x out]; [discriminate|]. intros [= <- <-]. specialize (O x (or_introl eq_refl)). lia.
  - assert (LT : hi - lo + 1 < w).
    { destruct (Z.eq_dec (hi - lo + 1) w) as [EQ|NE]; [|lia]. rewrite EQ, Z_mod_same_full in NZ. lia. }
    rewrite Z.mod_small by lia. intros H. apply reject_range in H; auto; lia.
Qed.

Lemma single_range lo hi out v out' : 0 <= lo <= hi -> hi < 2 ^ 32 -> (forall x, In x out -> 0 <= x < 2 ^ 32) ->
  single lo hi out = Some (v, out') -> lo <= v <= hi.
Proof.
  intros LH HW O. unfold single. cbv zeta. set (w := 2 ^ 32) in *. assert (W : 0 < w) by reflexivity. clearbody w.
  rewrite (Z.mod_small (hi - lo)) by lia.
  destruct (Z.eqb_spec ((hi - lo + 1) mod w) 0) as [Z0|NZ].
  - destruct (Z.eq_dec (hi - lo + 1) w) as [EQ|NE]; [|rewrite Z.mod_small in Z0 by lia; lia].
    destruct out as [|x out]; [discriminate|]. intros [= <- <-]. specialize (O x (or_introl eq_refl)). lia.
  - assert (LT : hi - lo + 1 < w).
    { destruct (Z.eq_dec (hi - lo + 1) w) as [EQ|NE]; [|lia]. rewrite EQ, Z_mod_same_full in NZ. lia. }
    rewrite Z.mod_small by lia. intros H. apply reject_range in H; auto; lia.
Qed.

Lemma nth_error_split3 {A} (l : list A) i x : nth_error l i = Some x -> l = firstn i l ++ x :: skipn (S i) l.
Proof.
  revert i. induction l as [|y l IH]; intros [|i]; cbn; try discriminate; [congruence|]. intros H. f_equal. now apply IH.
Qed.
Lemma set_nth_perm {A} (l : list A) i x y : nth_error l i = Some x -> Permutation (x :: set_nth l i y) (y :: l).
Proof.
  intros H. rewrite (nth_error_split3 l i x H) at 2. unfold set_nth.
  rewrite <- Permutation_middle. rewrite perm_swap. apply perm_skip. apply Permutation_middle.
Qed.
Lemma nth_set_nth {A} (l : list A) i j x : (i < length l)%nat ->
  nth_error (set_nth l i x) j = if Nat.eqb i j then Some x else nth_error l j.
Proof.
  revert i j. induction l as [|y l IH]; intros i j L; [cbn in L; lia|]. destruct i as [|i], j as [|j]; cbn; auto.
  apply IH. cbn in L. lia.
Qed.
Lemma swap_perm {A} (l : list A) i j : Permutation (swap l i j) l.
Proof.
  unfold swap. destruct (nth_error l i) as [x|] eqn:X; [|reflexivity]. destruct (nth_error l j) as [y|] eqn:Y; [|reflexivity].
  pose proof (set_nth_perm l i x y X) as P1.
  assert (Y' : nth_error (set_nth l i y) j = Some y).
  { rewrite nth_set_nth; [destruct (Nat.eqb i j); auto|]. apply nth_error_Some. congruence. }
  pose proof (set_nth_perm (set_nth l i y) j y x Y') as P2.
  apply (Permutation_cons_inv (a := y)). rewrite P2. exact P1.
Qed.
Lemma shuffle_perm {A} : forall i (l l' : list A) out out', shuffle_from i l out = Some (l', out') -> Permutation l' l.
Proof.
  induction i as [|i IH]; cbn [shuffle_from]; intros l l' out out'.
  - intros [= <- <-]. reflexivity.
  - destruct (single 0 (Z.of_nat (S i)) out) as [[j o]|]; [|discriminate]. intros H.
    rewrite (IH _ _ _ _ H). apply swap_perm.
Qed.

(* every swap of a shuffle is inside the vector *)
Lemma shuffle_index n out j out' : Z.of_nat n < 2 ^ 32 -> (forall x, In x out -> 0 <= x < 2 ^ 32) ->
  single 0 (Z.of_nat n) out = Some (j, out') -> (Z.to_nat j <= n)%nat.
Proof. intros L O U. apply single_range in U; auto; lia. Qed.
