(* Every order is reached by a shuffle, and by equally many words. *)
From Coq Require Import ZArith Lia List Bool Permutation.
From Verif Require Import Prelude PrngModel PrngProofs DrawSpec DrawProofs.
Import ListNotations.
Open Scope Z_scope.
Ltac Zify.zify_post_hook ::= idtac.

Lemma nth_error_same {A} : forall l m : list A, (forall k, nth_error l k = nth_error m k) -> l = m.
Proof.
  induction l as [|a l IH]; intros [|b m] H; auto.
  - discriminate (H O).
  - discriminate (H O).
  - pose proof (H O) as E. injection E as ->. f_equal. apply IH. intros k. exact (H (S k)).
Qed.

(* a shuffle of the first i + 1 places leaves the later ones alone *)
Lemma shuffle_keeps {A} i : forall (l l' : list A) out rest k, (i < length l)%nat -> Z.of_nat i + 1 < 2 ^ 32 ->
  Forall (word (2 ^ 32)) out -> shuffle_from i l out = Some (l', rest) -> (i < k)%nat ->
  nth_error l' k = nth_error l k.
Proof.
  induction i as [|i IH]; intros l l' out rest k L B O S K; cbn [shuffle_from] in S.
  - injection S as -> _. reflexivity.
  - destruct (single _ _ _) as [[j o]|] eqn:U; [|discriminate].
    assert (J : (Z.to_nat j <= Datatypes.S i)%nat).
    { eapply shuffle_index; [lia| |exact U]. rewrite Forall_forall in O. exact O. }
    assert (O' : Forall (word (2 ^ 32)) o).
    { clear - U O. induction out as [|x out IHo]; [unfold single in U; destruct (_ =? 0); discriminate|].
      inversion_clear O. pose proof (single_one 0 (Z.of_nat (Datatypes.S i)) x out) as E.
      destruct (single _ _ [x]) as [[y s]|].
      - destruct E as [_ E]. rewrite E in U. injection U as _ <-. assumption.
      - rewrite E in U. auto. }
    assert (H : nth_error l' k = nth_error (swap l (Datatypes.S i) (Z.to_nat j)) k).
    { eapply IH; [rewrite swap_length; lia|lia|exact O'|exact S|lia]. }
    rewrite H.
    rewrite nth_swap by lia.
    destruct (Nat.eqb_spec k (Z.to_nat j)); [lia|]. destruct (Nat.eqb_spec k (Datatypes.S i)); [lia|]. reflexivity.
Qed.

Lemma shuffle_ways {A} i : forall l l' : list A, NoDup l -> Permutation l l' -> (i < length l)%nat ->
  Z.of_nat i + 1 < 2 ^ 32 -> (forall k, (i < k)%nat -> nth_error l k = nth_error l' k) ->
  exactly (ways i) (fun out => length out = i /\ Forall (word (2 ^ 32)) out
                               /\ shuffle_from i l out = Some (l', [])).
Proof.
  induction i as [|i IH]; intros l l' N P L B K.
  - cbn [ways]. exists [[]]. split; [constructor; [easy|constructor]|]. split; [reflexivity|].
    assert (E : l = l').
    { destruct l as [|a t]; [cbn in L; lia|]. destruct l' as [|b t'].
      { apply Permutation_length in P. discriminate. }
      assert (t = t').
      { apply nth_error_same. intros k. exact (K (S k) ltac:(lia)). }
      subst t'. f_equal.
      change (a :: t) with ([a] ++ t) in P. change (b :: t) with ([b] ++ t) in P.
      apply Permutation_app_inv_r in P. apply Permutation_length_1 in P. exact P. }
    subst l'. intros o. cbn. split.
    + intros [<-|[]]. auto.
    + intros (O & _). destruct o; [auto|discriminate].
  - assert (L' : length l' = length l) by (symmetry; now apply Permutation_length).
    destruct (nth_error l' (S i)) as [y|] eqn:Y; [|apply nth_error_None in Y; lia].
    assert (I : In y l).
    { eapply Permutation_in; [symmetry; exact P|]. eapply nth_error_In. exact Y. }
    destruct (In_nth_error l y I) as [j J].
    assert (JL : (j < length l)%nat) by (apply nth_error_Some; congruence).
    assert (Ji : (j <= S i)%nat).
    { destruct (Nat.le_gt_cases j (S i)) as [G|G]; [exact G|]. exfalso.
      pose proof (K j G) as E. rewrite J in E.
      assert (N' : NoDup l') by (eapply Permutation_NoDup; [exact P|exact N]).
      assert (j = S i); [|lia].
      apply (proj1 (NoDup_nth_error l') N'); [lia|congruence]. }
    assert (IHs : exactly (ways i) (fun out => length out = i /\ Forall (word (2 ^ 32)) out
                    /\ shuffle_from i (swap l (S i) j) out = Some (l', []))).
    { apply IH.
      - eapply Permutation_NoDup; [|exact N]. symmetry. apply swap_perm.
      - rewrite swap_perm. exact P.
      - rewrite swap_length. lia.
      - lia.
      - intros k Hk. rewrite nth_swap by lia. destruct (Nat.eqb_spec k j) as [->|Kj].
        + assert (j = S i) by lia. subst j. congruence.
        + destruct (Nat.eqb_spec k (S i)) as [->|Ki]; [congruence|]. apply K. lia. }
    assert (F := single_fair (Z.of_nat (S i) + 1) (Z.of_nat j) ltac:(lia) ltac:(lia)).
    cbn [ways]. rewrite Z.add_simpl_r in F.
    eapply exactly_iff; [|exact (exactly_pairs _ _ _ _ F IHs)].
    intros o. split.
    + intros (x & o' & -> & (X & U) & O1 & O2 & O3). cbn [length shuffle_from].
      split; [lia|]. split; [now constructor|].
      pose proof (single_one 0 (Z.of_nat (S i)) x o') as E. rewrite U in E.
      destruct E as [_ E]. rewrite E, Nat2Z.id. exact O3.
    + intros (O1 & O2 & O3). destruct o as [|x o']; [discriminate|].
      exists x, o'. split; [reflexivity|]. inversion_clear O2 as [|? ? X O2'].
      cbn [shuffle_from] in O3. cbn [length] in O1.
      pose proof (single_one 0 (Z.of_nat (S i)) x o') as E.
      destruct (single 0 (Z.of_nat (S i)) [x]) as [[v s]|] eqn:U.
      * destruct E as [-> E]. rewrite E in O3.
        assert (V : 0 <= v <= Z.of_nat (S i)).
        { eapply single_range; [| | |exact U]; [lia|lia| ].
          intros z [<-|[]]. exact X. }
        assert (VJ : v = Z.of_nat j).
        { assert (Q : nth_error l' (S i) = nth_error (swap l (S i) (Z.to_nat v)) (S i)).
          { eapply shuffle_keeps; [|  |exact O2'|exact O3|]; [rewrite swap_length; lia|lia|lia]. }
          rewrite nth_swap in Q by lia. rewrite Y in Q.
          assert (Q' : nth_error l (Z.to_nat v) = Some y).
          { destruct (Nat.eqb_spec (S i) (Z.to_nat v)) as [e|e]; [rewrite <- e; auto|].
            rewrite Nat.eqb_refl in Q. auto. }
          assert (Z.to_nat v = j); [|lia].
          apply (proj1 (NoDup_nth_error l) N); [lia|congruence]. }
        subst v. rewrite Nat2Z.id in O3.
        split; [split; [exact X|reflexivity]|]. split; [lia|]. split; [exact O2'|exact O3].
      * exfalso. rewrite E in O3.
        destruct (single _ _ o') as [[v s]|] eqn:U'; [|discriminate].
        apply single_uses in U'. apply shuffle_uses in O3. cbn [length] in O3. lia.
Qed.

Lemma ways_pos i : Z.of_nat i + 1 < 2 ^ 32 -> 0 < ways i.
Proof.
  induction i as [|i IH]; intros B; [reflexivity|]. cbn [ways].
  apply Z.mul_pos_pos; [|apply IH; lia]. apply share_bound. lia.
Qed.
