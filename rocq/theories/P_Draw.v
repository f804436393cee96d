(* C86: random choices are fair.  Nothing is assumed of the generator: the theorems count the
   words it may put out. *)
From Coq Require Import ZArith Lia List Bool Permutation.
From Verif Require Import Prelude PrngModel PrngProofs DrawSpec DrawProofs DrawProofs2.
Import ListNotations.
Open Scope Z_scope.
Ltac Zify.zify_post_hook ::= idtac.

(* Each number of the range is drawn for the same, positive number of words. *)
Theorem C86_fair_draw :
  forall lo hi, 0 <= lo <= hi -> hi < 2 ^ 64 ->
  0 < 2 ^ 64 / (hi - lo + 1)
  /\ forall v, lo <= v <= hi ->
     exactly (2 ^ 64 / (hi - lo + 1))
       (fun x => word (2 ^ 64) x /\ u64_in_inclusive_range lo hi [x] = Ok (Some (v, []))).
Proof.
  intros lo hi L H. split; [apply Z.div_str_pos; lia|]. intros v V.
  eapply exactly_iff; [|exact (uniform_fair (2 ^ 64) lo hi v L H V)].
  intros x. unfold u64_in_inclusive_range. assert (G : (lo >? hi) = false) by lia. rewrite G.
  split; intros [X U]; (split; [exact X|]); [now rewrite U|now injection U].
Qed.
Print Assumptions C86_fair_draw.

(* Any other word is passed over: the draw goes on as if it had not come. *)
Theorem C86_redraw :
  forall lo hi x out, lo <= hi ->
  match u64_in_inclusive_range lo hi [x] with
  | Ok (Some (v, _)) => u64_in_inclusive_range lo hi (x :: out) = Ok (Some (v, out))
  | _ => u64_in_inclusive_range lo hi (x :: out) = u64_in_inclusive_range lo hi out
  end.
Proof.
  intros lo hi x out L. unfold u64_in_inclusive_range.
  assert (G : (lo >? hi) = false) by lia. rewrite G.
  pose proof (uniform_one (2 ^ 64) lo hi x out) as E.
  destruct (uniform (2 ^ 64) lo hi [x]) as [[v s]|]; [|now rewrite E]. destruct E as [_ E]. now rewrite E.
Qed.
Print Assumptions C86_redraw.

(* Each order of a vector comes out of shuffling for the same, positive number of word
   sequences (of the shortest length; longer ones contain words that are passed over). *)
Theorem C86_fair_shuffle :
  forall A (l l' : list A), NoDup l -> Z.of_nat (length l) < 2 ^ 32 -> Permutation l l' ->
  0 < ways (length l - 1)
  /\ exactly (ways (length l - 1))
       (fun out => length out = (length l - 1)%nat /\ Forall (word (2 ^ 32)) out
                   /\ vec_shuffle l out = Some (l', [])).
Proof.
  intros A l l' N B P. split; [apply ways_pos; lia|]. unfold vec_shuffle.
  destruct l as [|a t].
  - apply Permutation_nil in P. subst l'. exists [[]]. split; [constructor; [easy|constructor]|].
    split; [reflexivity|]. intros o. cbn. split.
    + intros [<-|[]]. auto.
    + intros (O & _). destruct o; [auto|discriminate].
  - apply shuffle_ways; auto; cbn [length] in *; try lia.
    intros k K. apply Permutation_length in P. cbn [length] in P.
    rewrite (proj2 (nth_error_None (a :: t) k)) by (cbn [length]; lia).
    symmetry. apply nth_error_None. lia.
Qed.
Print Assumptions C86_fair_shuffle.

(* Non-trivial cases: a range that does not divide 2^64, with a word passed over; and two
   orders of three elements. *)
Example C86_hyp :
  2 ^ 64 / (9 - 4 + 1) = 3074457345618258602
  /\ u64_in_inclusive_range 4 9 [2 ^ 63] = Ok (Some (7, []))
  /\ u64_in_inclusive_range 4 9 [3074457345618258602] = Ok None
  /\ ways 2 = 2 ^ 30 * 2 ^ 30
  /\ vec_shuffle [1; 2; 3] [2863311531; 0] = Some ([2; 1; 3], [])
  /\ vec_shuffle [1; 2; 3] [2 ^ 32 - 2; 2863311531; 0] = Some ([2; 1; 3], [])
  /\ vec_shuffle [1; 2; 3] [0; 2 ^ 31] = Some ([3; 2; 1], []).
Proof. vm_compute. repeat split. Qed.
