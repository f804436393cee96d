(* C68: the Poseidon host functions compute the published permutations, and
   these permute the states. *)
From Coq Require Import ZArith Znumtheory Lia List Bool String.
From Verif Require Import Prelude FieldModel FieldSpec FieldCert FieldProofs PoseidonModel
  PoseidonSpec PoseidonProofs PoseidonProofs2 PoseidonProofs3 PoseidonProofs4.
Import ListNotations.
Open Scope Z_scope.
Ltac Zify.zify_post_hook ::= idtac.

Definition fails {A} (r : res A) : Prop := exists e, r = Err e.

Lemma host_field s c : names_field s c -> field_of s = Some c.
Proof. apply field_of_spec. Qed.

(* Poseidon: parameters are accepted exactly when they fit together, and then
   the result represents the published permutation of the inputs' residues. *)
Theorem C68_poseidon_meaning : forall field c input t d rf rp mds rcs,
  names_field field c -> 0 <= rf < 2 ^ 32 -> 0 <= rp < 2 ^ 32 ->
  Forall u256_ok input -> Forall (Forall u256_ok) mds -> Forall (Forall u256_ok) rcs ->
  let p := order c in
  let run := poseidon_permutation (vec input) field t d rf rp (mat mds) (mat rcs) in
  (poseidon_accepts input t d rf rp mds rcs ->
   exists out, run = Ok (vec out)
     /\ Forall2 represents out
          (poseidon p (map (residues p) mds) (Z.to_nat rf) (Z.to_nat rp)
             (map (residues p) rcs) (residues p input)))
  /\ (~ poseidon_accepts input t d rf rp mds rcs -> fails run).
Proof.
  intros field c input t d rf rp mds rcs Hf Hrf Hrp Hi Hm Hr p run.
  unfold run, poseidon_permutation. rewrite (host_field _ _ Hf).
  apply poseidon_host; try assumption; lia.
Qed.
Print Assumptions C68_poseidon_meaning.

(* Poseidon2 likewise. *)
Theorem C68_poseidon2_meaning : forall field c input t d rf rp diag rcs,
  names_field field c -> 0 <= rf < 2 ^ 32 -> 0 <= rp < 2 ^ 32 ->
  Forall u256_ok input -> Forall u256_ok diag -> Forall (Forall u256_ok) rcs ->
  let p := order c in
  let run := poseidon2_permutation (vec input) field t d rf rp (vec diag) (mat rcs) in
  (poseidon2_accepts input t d rf rp diag rcs ->
   exists out, run = Ok (vec out)
     /\ Forall2 represents out
          (poseidon2 p (Z.to_nat t) (residues p diag) (Z.to_nat rf) (Z.to_nat rp)
             (map (residues p) rcs) (residues p input)))
  /\ (~ poseidon2_accepts input t d rf rp diag rcs -> fails run).
Proof.
  intros field c input t d rf rp diag rcs Hf Hrf Hrp Hi Hm Hr p run.
  unfold run, poseidon2_permutation. rewrite (host_field _ _ Hf).
  apply poseidon2_host; try assumption; lia.
Qed.
Print Assumptions C68_poseidon2_meaning.

(* Nothing but the two field names, vectors of U256 values and vectors of such
   vectors is ever accepted. *)
Theorem C68_only_scalars_accepted : forall input field t d rf rp m rcs out,
  (poseidon_permutation input field t d rf rp m rcs = Ok out ->
   (exists c, names_field field c) /\ (exists vs, input = vec vs)
   /\ (exists rows, m = mat rows) /\ (exists rows, rcs = mat rows))
  /\ (poseidon2_permutation input field t d rf rp m rcs = Ok out ->
      (exists c, names_field field c) /\ (exists vs, input = vec vs)
      /\ (exists ds, m = vec ds) /\ (exists rows, rcs = mat rows)).
Proof.
  intros input field t d rf rp m rcs out.
  unfold poseidon_permutation, poseidon2_permutation.
  destruct (field_of field) as [c|] eqn:E; [|split; discriminate].
  apply field_of_spec in E. split; intros H.
  - split; [exists c; exact E|]. exact (poseidon_types _ _ _ _ _ _ _ _ _ H).
  - split; [exists c; exact E|]. exact (poseidon2_types _ _ _ _ _ _ _ _ _ H).
Qed.
Print Assumptions C68_only_scalars_accepted.

(* ---------------------------------------------------------- permutations *)

Lemma represent_state c ys : Forall (fun a => 0 <= a < order c) ys ->
  exists vs, Forall u256_ok vs /\ residues (order c) vs = ys /\ List.length vs = List.length ys.
Proof.
  induction 1 as [|y ys Hy Hys IH]; [exists []; repeat split; constructor|].
  destruct IH as (vs & Hv & E & Hl).
  assert (H256 : 0 <= y < 2 ^ 256).
  { rewrite <- (Z.mod_small y (order c)) by exact Hy. apply reduced_256. }
  assert (Hr := into_u256val_spec y H256).
  exists (into_u256val y :: vs). refine (conj _ (conj _ _)).
  - constructor; [|exact Hv]. exact (represents_ok _ _ H256 Hr).
  - cbn [residues map]. unfold residues in E. rewrite E. f_equal.
    destruct Hr as [-> _]. apply Z.mod_small. exact Hy.
  - cbn [List.length]. rewrite Hl. reflexivity.
Qed.

Lemma vec_inj a b : vec a = vec b -> a = b.
Proof.
  revert b. induction a as [|x a IH]; intros [|y b] H; try discriminate; [reflexivity|].
  cbn [vec map] in H. injection H as -> H. f_equal. apply IH. exact H.
Qed.

Lemma represents_all_det out xs ys :
  Forall2 represents out xs -> Forall2 represents out ys -> xs = ys.
Proof.
  intros H. revert ys. induction H as [|v x out xs [Hv _] H IH]; intros ys H2;
    inversion H2; subst; [reflexivity|].
  f_equal; [|apply IH; assumption].
  match goal with H : represents _ _ |- _ => destruct H as [-> _] end. reflexivity.
Qed.

Lemma forall2_repr_len out xs : Forall2 represents out xs -> List.length out = List.length xs.
Proof. induction 1; cbn [List.length]; congruence. Qed.

(* With an invertible matrix, Poseidon with fixed parameters is a permutation
   of the states: two inputs have the same image only when they agree modulo
   the order, and every state is an image. *)
Theorem C68_poseidon_permutes : forall field c t d rf rp mds rcs,
  names_field field c -> 0 <= rf < 2 ^ 32 -> 0 <= rp < 2 ^ 32 ->
  Forall (Forall u256_ok) mds -> Forall (Forall u256_ok) rcs ->
  let p := order c in
  let run input := poseidon_permutation (vec input) field t d rf rp (mat mds) (mat rcs) in
  nonsingular p (Z.to_nat t) (map (residues p) mds) ->
  (forall x y out, Forall u256_ok x -> Forall u256_ok y ->
     run x = Ok out -> run y = Ok out -> residues p x = residues p y)
  /\ (forall some target, poseidon_accepts some t d rf rp mds rcs ->
        len target = t -> Forall (fun a => 0 <= a < p) target ->
        exists x out, Forall u256_ok x /\ run x = Ok (vec out)
                      /\ Forall2 represents out target).
Proof.
  intros field c t d rf rp mds rcs Hf Hrf Hrp Hm Hr p run Hns.
  assert (Hp : 1 < p) by (assert (H := order_range c); unfold p; lia).
  assert (Perm : forall x, poseidon_accepts x t d rf rp mds rcs ->
     permutes c (Z.to_nat t)
       (poseidon p (map (residues p) mds) (Z.to_nat rf) (Z.to_nat rp) (map (residues p) rcs))).
  { intros x (_ & _ & _ & Hx & Hlm & _ & Hk & _). apply poseidon_permutes.
    - rewrite map_length. unfold len in Hlm. lia.
    - intros _. exact Hns.
    - apply Forall_map. eapply Forall_impl; [|exact Hk]. intros k E. cbv beta in *.
      unfold residues. rewrite map_length. unfold len in E. lia. }
  assert (St : forall x, poseidon_accepts x t d rf rp mds rcs ->
                 state c (Z.to_nat t) (residues p x)).
  { intros x (_ & _ & _ & Hx & _). split.
    - unfold residues. rewrite map_length. unfold len in Hx. lia.
    - apply residues_red. fold p. lia. }
  split.
  - intros x y out Hx Hy Ex Ey.
    destruct (C68_poseidon_meaning field c x t d rf rp mds rcs Hf Hrf Hrp Hx Hm Hr) as [Ox Bx].
    destruct (C68_poseidon_meaning field c y t d rf rp mds rcs Hf Hrf Hrp Hy Hm Hr) as [Oy By].
    fold p in Ox, Bx, Oy, By. unfold run in Ex, Ey.
    assert (Dec : forall z, (~ poseidon_accepts z t d rf rp mds rcs ->
               fails (poseidon_permutation (vec z) field t d rf rp (mat mds) (mat rcs))) ->
             poseidon_permutation (vec z) field t d rf rp (mat mds) (mat rcs) = Ok out ->
             ~ ~ poseidon_accepts z t d rf rp mds rcs).
    { intros z Hz E Hn. destruct (Hz Hn) as [e Ee]. congruence. }
    apply Dec in Bx; [|exact Ex]. apply Dec in By; [|exact Ey]. clear Dec.
    destruct (list_eq_dec Z.eq_dec (residues p x) (residues p y)) as [E|N]; [exact E|exfalso].
    apply Bx. intros Ax. apply By. intros Ay. apply N.
    destruct (Ox Ax) as (o1 & E1 & F1). destruct (Oy Ay) as (o2 & E2 & F2).
    rewrite Ex in E1. rewrite Ey in E2. rewrite E1 in E2. injection E2 as E2.
    apply vec_inj in E2. subst o2.
    apply (proj2 (Perm x Ax)); [apply St; assumption|apply St; assumption|].
    exact (represents_all_det _ _ _ F1 F2).
  - intros some target Ha Hl Hred.
    destruct (permutes_onto c (Z.to_nat t) _ (Perm some Ha) target) as (z & [Zl Zr] & Ez).
    { split; [unfold len in Hl; lia|exact Hred]. }
    destruct (represent_state c z Zr) as (x & Hx & Er & Hxl). fold p in Er.
    exists x.
    assert (Hax : poseidon_accepts x t d rf rp mds rcs).
    { destruct Ha as (H1 & H2 & H3 & H4 & H5).
      refine (conj H1 (conj H2 (conj H3 (conj _ H5)))). unfold len in *. lia. }
    destruct (C68_poseidon_meaning field c x t d rf rp mds rcs Hf Hrf Hrp Hx Hm Hr) as [Ox _].
    destruct (Ox Hax) as (out & E & HF). exists out. refine (conj Hx (conj E _)).
    fold p in HF. rewrite Er, Ez in HF. exact HF.
Qed.
Print Assumptions C68_poseidon_permutes.

(* Poseidon2 is a permutation of the states for states of two and three
   elements whatever the caller's diagonal, and for larger ones whenever the
   internal matrix is invertible; its external matrices always are. *)
Theorem C68_poseidon2_permutes : forall field c t d rf rp diag rcs,
  names_field field c -> 0 <= rf < 2 ^ 32 -> 0 <= rp < 2 ^ 32 ->
  Forall u256_ok diag -> Forall (Forall u256_ok) rcs ->
  let p := order c in
  let n := Z.to_nat t in
  let run input := poseidon2_permutation (vec input) field t d rf rp (vec diag) (mat rcs) in
  t = 2 \/ t = 3 \/ rp = 0 \/ nonsingular p n (internal_matrix n (residues p diag)) ->
  (forall x y out, Forall u256_ok x -> Forall u256_ok y ->
     run x = Ok out -> run y = Ok out -> residues p x = residues p y)
  /\ (forall some target, poseidon2_accepts some t d rf rp diag rcs ->
        len target = t -> Forall (fun a => 0 <= a < p) target ->
        exists x out, Forall u256_ok x /\ run x = Ok (vec out)
                      /\ Forall2 represents out target).
Proof.
  intros field c t d rf rp diag rcs Hf Hrf Hrp Hm Hr p n run Hns.
  assert (Hp : 1 < p) by (assert (H := order_range c); unfold p; lia).
  assert (Perm : forall x, poseidon2_accepts x t d rf rp diag rcs ->
     permutes c n
       (poseidon2 p n (residues p diag) (Z.to_nat rf) (Z.to_nat rp) (map (residues p) rcs))).
  { intros x (_ & _ & _ & Ht & Hx & Hlm & _ & H1 & H2 & H3).
    assert (Hhalf : Z.to_nat (rf / 2) = Nat.div (Z.to_nat rf) 2).
    { rewrite Z2Nat.inj_div by lia. reflexivity. }
    rewrite Hhalf in H1, H2, H3.
    assert (Tr : forall l, Forall (fun k : list u256val => len k = t) l ->
              Forall (fun k => List.length k = n) (map (residues p) l)).
    { intros l Hl. apply Forall_map. eapply Forall_impl; [|exact Hl]. intros k E. cbv beta in *.
      unfold residues. rewrite map_length. unfold len in E. unfold n. lia. }
    apply poseidon2_permutes.
    - exact Ht.
    - intros Hpos. fold n. destruct Hns as [E|[E|[E|E]]]; [| |lia|exact E].
      + apply internal_small_nonsingular. left. exact E.
      + apply internal_small_nonsingular. right. exact E.
    - rewrite firstn_map. apply Tr. exact H1.
    - rewrite skipn_map, firstn_map. apply Forall_map.
      eapply Forall_impl; [|exact H2]. intros k E. cbv beta in *.
      unfold residues. rewrite map_length. unfold len in E. lia.
    - rewrite skipn_map. apply Tr. exact H3. }
  assert (St : forall x, poseidon2_accepts x t d rf rp diag rcs -> state c n (residues p x)).
  { intros x (_ & _ & _ & _ & Hx & _). split.
    - unfold residues. rewrite map_length. unfold len in Hx. unfold n. lia.
    - apply residues_red. fold p. lia. }
  split.
  - intros x y out Hx Hy Ex Ey.
    destruct (C68_poseidon2_meaning field c x t d rf rp diag rcs Hf Hrf Hrp Hx Hm Hr) as [Ox Bx].
    destruct (C68_poseidon2_meaning field c y t d rf rp diag rcs Hf Hrf Hrp Hy Hm Hr) as [Oy By].
    fold p n in Ox, Bx, Oy, By. unfold run in Ex, Ey.
    assert (Dec : forall z, (~ poseidon2_accepts z t d rf rp diag rcs ->
               fails (poseidon2_permutation (vec z) field t d rf rp (vec diag) (mat rcs))) ->
             poseidon2_permutation (vec z) field t d rf rp (vec diag) (mat rcs) = Ok out ->
             ~ ~ poseidon2_accepts z t d rf rp diag rcs).
    { intros z Hz E Hn. destruct (Hz Hn) as [e Ee]. congruence. }
    apply Dec in Bx; [|exact Ex]. apply Dec in By; [|exact Ey]. clear Dec.
    destruct (list_eq_dec Z.eq_dec (residues p x) (residues p y)) as [E|N]; [exact E|exfalso].
    apply Bx. intros Ax. apply By. intros Ay. apply N.
    destruct (Ox Ax) as (o1 & E1 & F1). destruct (Oy Ay) as (o2 & E2 & F2).
    rewrite Ex in E1. rewrite Ey in E2. rewrite E1 in E2. injection E2 as E2.
    apply vec_inj in E2. subst o2.
    apply (proj2 (Perm x Ax)); [apply St; assumption|apply St; assumption|].
    exact (represents_all_det _ _ _ F1 F2).
  - intros some target Ha Hl Hred.
    destruct (permutes_onto c n _ (Perm some Ha) target) as (z & [Zl Zr] & Ez).
    { split; [unfold len in Hl; unfold n; lia|exact Hred]. }
    destruct (represent_state c z Zr) as (x & Hx & Er & Hxl). fold p in Er.
    exists x.
    assert (Hax : poseidon2_accepts x t d rf rp diag rcs).
    { destruct Ha as (H1 & H2 & H3 & H4 & H5 & H6).
      refine (conj H1 (conj H2 (conj H3 (conj H4 (conj _ H6))))). unfold len, n in *. lia. }
    destruct (C68_poseidon2_meaning field c x t d rf rp diag rcs Hf Hrf Hrp Hx Hm Hr) as [Ox _].
    destruct (Ox Hax) as (out & E & HF). exists out. refine (conj Hx (conj E _)).
    fold p n in HF. rewrite Er, Ez in HF. exact HF.
Qed.
Print Assumptions C68_poseidon2_permutes.

(* Finding: for states of two and three elements the diagonal the caller
   passes has no influence on the result, only its length is looked at. *)
Theorem C68_small_states_ignore_the_diagonal : forall field input t d rf rp diag diag' rcs,
  t = 2 \/ t = 3 -> 0 <= rf < 2 ^ 32 -> 0 <= rp < 2 ^ 32 ->
  Forall u256_ok input -> Forall u256_ok diag -> Forall u256_ok diag' ->
  Forall (Forall u256_ok) rcs -> len diag = len diag' ->
  forall out,
  poseidon2_permutation (vec input) field t d rf rp (vec diag) (mat rcs) = Ok out ->
  poseidon2_permutation (vec input) field t d rf rp (vec diag') (mat rcs) = Ok out.
Proof.
  intros field input t d rf rp diag diag' rcs Ht Hrf Hrp Hi Hd Hd' Hr Hl out H.
  unfold poseidon2_permutation in *.
  destruct (field_of field) as [c|]; [|discriminate].
  unfold poseidon2_impl in *. cbv zeta in *.
  rewrite !scalars_vec, rows_mat in * by assumption. cbn [rbind] in *.
  set (p := order c) in *.
  assert (Hp : 1 < p) by (assert (Hx := order_range c); unfold p; lia).
  assert (Hin : reduced p (residues p input)) by (apply residues_red; lia).
  assert (Hdi : reduced p (residues p diag)) by (apply residues_red; lia).
  assert (Hdi' : reduced p (residues p diag')) by (apply residues_red; lia).
  destruct (p2_spec p t d rf rp (residues p diag) (map (residues p) rcs) (residues p input)
              Hp (proj1 Hrf) (proj1 Hrp) Hin Hdi) as [Hok Hbad].
  destruct (p2_spec p t d rf rp (residues p diag') (map (residues p) rcs) (residues p input)
              Hp (proj1 Hrf) (proj1 Hrp) Hin Hdi') as [Hok' _].
  destruct (new_params Z (fun m => Z.of_nat (List.length m)) t d rf rp
              (residues p diag) (map (residues p) rcs)) as [ps|e]; [|discriminate].
  cbn [rbind] in *.
  destruct (p2_permutation Z 0 (fadd p) (fmul p) (fpow p) ps (residues p input))
    as [o|e]; [|discriminate]. cbn [rbind] in H.
  specialize (Hbad o eq_refl). specialize (Hok Hbad).
  assert (Ha' : poseidon2_accepts (residues p input) t d rf rp (residues p diag')
                  (map (residues p) rcs)).
  { destruct Hbad as (H1 & H2 & H3 & H4 & H5 & H6 & H7).
    refine (conj H1 (conj H2 (conj H3 (conj H4 (conj H5 (conj _ H7)))))).
    unfold residues in *. rewrite len_map in *. congruence. }
  specialize (Hok' Ha').
  assert (Eq : poseidon2 p (Z.to_nat t) (residues p diag') (Z.to_nat rf) (Z.to_nat rp)
                 (map (residues p) rcs) (residues p input)
               = poseidon2 p (Z.to_nat t) (residues p diag) (Z.to_nat rf) (Z.to_nat rp)
                   (map (residues p) rcs) (residues p input)).
  { unfold poseidon2.
    assert (Em : internal_matrix (Z.to_nat t) (residues p diag')
                 = internal_matrix (Z.to_nat t) (residues p diag)).
    { destruct Ht as [-> | ->]; reflexivity. }
    rewrite Em. reflexivity. }
  rewrite Eq in Hok'. injection Hok as ->.
  destruct (new_params Z (fun m => Z.of_nat (List.length m)) t d rf rp
              (residues p diag') (map (residues p) rcs)) as [ps'|e]; [|discriminate].
  cbn [rbind] in *. rewrite Hok'. exact H.
Qed.
Print Assumptions C68_small_states_ignore_the_diagonal.

(* ---------------------------------------------------------------- examples *)

(* two full rounds and one partial one on two elements *)
Definition ex_mds : list (list u256val) := [[U256S 2; U256S 1]; [U256S 1; U256S 3]].
Definition ex_rcs : list (list u256val) :=
  [[U256S 7; U256S 8]; [U256O (2 ^ 255); U256S 9]; [U256S 1; U256S 0]].
Definition ex_in : list u256val := [U256S 3; U256O (2 ^ 256 - 1)].

Example ex_accepts : poseidon_accepts ex_in 2 5 2 1 ex_mds ex_rcs.
Proof.
  unfold poseidon_accepts. refine (conj eq_refl (conj _ _)); [exists 1; reflexivity|].
  refine (conj eq_refl (conj eq_refl (conj eq_refl (conj eq_refl _)))).
  refine (conj _ (conj _ _)); [repeat constructor|intros _; repeat constructor|reflexivity].
Qed.

Example ex_values : Forall u256_ok ex_in /\ Forall (Forall u256_ok) ex_mds
  /\ Forall (Forall u256_ok) ex_rcs.
Proof. repeat constructor; discriminate. Qed.

Example ex_mds_nonsingular : nonsingular (order Bn) 2 (map (residues (order Bn)) ex_mds).
Proof.
  apply (inverse_nonsingular _ _ 5 [[3; -1]; [-1; 2]]).
  - apply order_prime.
  - vm_compute. split; reflexivity.
  - vm_compute. reflexivity.
Qed.

Example ex_runs : exists a b,
  poseidon_permutation (vec ex_in) "BN254" 2 5 2 1 (mat ex_mds) (mat ex_rcs)
  = Ok (vec [U256O a; U256O b]) /\ a <> b.
Proof. do 2 eexists. split; [vm_compute; reflexivity|discriminate]. Qed.

(* the same with a matrix row too short, an odd number of full rounds, another
   degree, a missing row of constants, an unknown field *)
Example ex_refused :
  fails (poseidon_permutation (vec ex_in) "BN254" 2 5 2 1 (mat [[U256S 2]; [U256S 1; U256S 3]]) (mat ex_rcs))
  /\ fails (poseidon_permutation (vec ex_in) "BN254" 2 5 1 2 (mat ex_mds) (mat ex_rcs))
  /\ fails (poseidon_permutation (vec ex_in) "BN254" 2 3 2 1 (mat ex_mds) (mat ex_rcs))
  /\ fails (poseidon_permutation (vec ex_in) "BN254" 2 5 2 2 (mat ex_mds) (mat ex_rcs))
  /\ fails (poseidon_permutation (vec ex_in) "BN128" 2 5 2 1 (mat ex_mds) (mat ex_rcs)).
Proof. repeat split; eexists; vm_compute; reflexivity. Qed.

Example ex2_accepts : poseidon2_accepts ex_in 2 5 2 1 [U256S 4; U256S 6] ex_rcs.
Proof.
  unfold poseidon2_accepts. refine (conj eq_refl (conj _ _)); [exists 1; reflexivity|].
  refine (conj eq_refl (conj _ (conj eq_refl (conj eq_refl (conj eq_refl _))))).
  - left. reflexivity.
  - cbn. repeat constructor.
Qed.

(* a state of four elements, whose diagonal does matter *)
Definition ex4_in : list u256val := [U256S 0; U256S 1; U256S 2; U256S 3].
Definition ex4_rcs : list (list u256val) := [ex4_in; [U256S 5]; ex4_in].

Example ex4_runs : exists a b,
  poseidon2_permutation (vec ex4_in) "BLS12_381" 4 5 2 1 (vec ex4_in) (mat ex4_rcs) = Ok a
  /\ poseidon2_permutation (vec ex4_in) "BLS12_381" 4 5 2 1
       (vec [U256S 0; U256S 1; U256S 2; U256S 4]) (mat ex4_rcs) = Ok b
  /\ a <> b.
Proof. do 2 eexists. split; [vm_compute; reflexivity|]. split; [vm_compute; reflexivity|]. discriminate. Qed.

(* and whose internal matrix, with diagonal 1, 1, 1, 2, is invertible *)
Example ex4_nonsingular : nonsingular (order Bls) 4 (internal_matrix 4 [1; 1; 1; 2]).
Proof.
  apply (inverse_nonsingular _ _ 9
           [[7; -2; -2; -1]; [-2; 7; -2; -1]; [-2; -2; 7; -1]; [-1; -1; -1; 4]]).
  - apply order_prime.
  - vm_compute. split; reflexivity.
  - vm_compute. reflexivity.
Qed.
