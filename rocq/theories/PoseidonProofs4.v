(* The permutations as host functions: arguments are vectors of U256 values,
   results are representations of residues. *)
From Coq Require Import ZArith Lia List Bool String.
From Verif Require Import Prelude FieldModel FieldSpec PrimeProofs FieldCert FieldProofs
  PoseidonModel PoseidonSpec PoseidonProofs PoseidonProofs2.
Import ListNotations.
Open Scope Z_scope.
Ltac Zify.zify_post_hook ::= idtac.

(* ------------------------------------------------------ reading arguments *)

Lemma scalars_vec p vs : Forall u256_ok vs -> scalars_of p (vec vs) = Ok (residues p vs).
Proof.
  induction 1 as [|v vs Hv Hvs IH]; [reflexivity|].
  cbn [vec map scalars_of residues]. unfold vec in IH. rewrite IH. cbn [rbind].
  rewrite from_u256val_spec by assumption. reflexivity.
Qed.

Lemma scalars_inv p : forall l r, scalars_of p l = Ok r -> exists vs, l = vec vs.
Proof.
  induction l as [|h l IH]; intros r H; [exists []; reflexivity|].
  destruct h as [v|h|n]; cbn [scalars_of] in H; try discriminate.
  destruct (scalars_of p l) as [r'|e] eqn:E; [|discriminate].
  destruct (IH r' eq_refl) as [vs ->]. exists (v :: vs). reflexivity.
Qed.

Lemma rows_mat p m : Forall (Forall u256_ok) m -> rows_of p (mat m) = Ok (map (residues p) m).
Proof.
  induction 1 as [|r m Hr Hm IH]; [reflexivity|].
  cbn [mat map rows_of]. rewrite scalars_vec by assumption. cbn [rbind].
  unfold mat in IH. rewrite IH. reflexivity.
Qed.

Lemma rows_inv p : forall l r, rows_of p l = Ok r -> exists m, l = mat m.
Proof.
  induction l as [|h l IH]; intros r H; [exists []; reflexivity|].
  destruct h as [v|h|n]; cbn [rows_of] in H; try discriminate.
  destruct (scalars_of p h) as [x|e] eqn:Eh; [|discriminate]. cbn [rbind] in H.
  destruct (rows_of p l) as [r'|e] eqn:E; [|discriminate].
  destruct (scalars_inv p h x Eh) as [vs ->].
  destruct (IH r' eq_refl) as [m ->]. exists (vs :: m). reflexivity.
Qed.

(* -------------------------------------------- acceptance only sees lengths *)

Lemma len_map {A B} (f : A -> B) l : len (map f l) = len l.
Proof. unfold len. rewrite map_length. reflexivity. Qed.

Lemma Forall_len {A B} (f : A -> B) (Q : Z -> Prop) m :
  Forall (fun k => Q (len k)) (map (map f) m) <-> Forall (fun k => Q (len k)) m.
Proof.
  rewrite Forall_map. split; intros H; (eapply Forall_impl; [|exact H]); intros k Hk;
    cbv beta in *; rewrite len_map in *; assumption.
Qed.

Lemma poseidon_accepts_map {A B} (f : A -> B) input t d rf rp mds rcs :
  poseidon_accepts (map f input) t d rf rp (map (map f) mds) (map (map f) rcs)
  <-> poseidon_accepts input t d rf rp mds rcs.
Proof.
  unfold poseidon_accepts. rewrite !len_map.
  rewrite (Forall_len f (fun n => n = t) mds), (Forall_len f (fun n => n = t) rcs). reflexivity.
Qed.

Lemma poseidon2_accepts_map {A B} (f : A -> B) input t d rf rp diag rcs :
  poseidon2_accepts (map f input) t d rf rp (map f diag) (map (map f) rcs)
  <-> poseidon2_accepts input t d rf rp diag rcs.
Proof.
  unfold poseidon2_accepts. cbv zeta. rewrite !len_map, !skipn_map, !firstn_map.
  rewrite (Forall_len f (fun n => n = t) (firstn _ _)),
    (Forall_len f (fun n => n = t) (skipn _ _)), (Forall_len f (fun n => 0 < n)). reflexivity.
Qed.

(* ----------------------------------------------------- results are reduced *)

Lemma residues_red p vs : 0 < p -> reduced p (residues p vs).
Proof.
  intros Hp. apply Forall_map. apply Forall_forall. intros v _. apply Z.mod_pos_bound. exact Hp.
Qed.

Lemma fold_keeps {A B} (P : A -> Prop) (f : A -> B -> A) ks :
  (forall x k, P (f x k)) -> forall x, P x -> P (fold_left f ks x).
Proof.
  intros Hf. induction ks as [|k ks IH]; intros x Hx; cbn [fold_left]; [exact Hx|].
  apply IH, Hf.
Qed.

Lemma in_rounds_red p full part rf rp rcs x :
  (forall x k, reduced p (full x k)) -> (forall x k, reduced p (part x k)) ->
  reduced p x -> reduced p (in_rounds full part rf rp rcs x).
Proof.
  intros Hf Hg Hx. unfold in_rounds. cbv zeta.
  apply fold_keeps; [exact Hf|]. apply fold_keeps; [exact Hg|]. apply fold_keeps; [exact Hf|].
  exact Hx.
Qed.

Lemma poseidon_red p mds rf rp rcs x : 0 < p -> reduced p x ->
  reduced p (poseidon p mds rf rp rcs x).
Proof.
  intros Hp Hx. unfold poseidon. apply in_rounds_red; [| |exact Hx];
    intros; apply mat_vec_red; exact Hp.
Qed.

Lemma poseidon2_red p t diag rf rp rcs x : 0 < p ->
  reduced p (poseidon2 p t diag rf rp rcs x).
Proof.
  intros Hp. unfold poseidon2. apply in_rounds_red; intros; apply mat_vec_red; exact Hp.
Qed.

Lemma vec_of_reduced c xs : reduced (order c) xs ->
  exists out, vec_of_scalars xs = vec out /\ Forall2 represents out xs.
Proof.
  induction 1 as [|x xs Hx Hxs IH]; [exists []; split; [reflexivity|constructor]|].
  destruct IH as (out & E & HF). exists (into_u256val x :: out). split.
  - unfold vec_of_scalars, vec in *. cbn [map]. rewrite E. reflexivity.
  - constructor; [|exact HF]. apply into_u256val_spec.
    rewrite <- (Z.mod_small x (order c)) by exact Hx. apply reduced_256.
Qed.

(* ------------------------------------------------------------------- whole *)

Lemma field_of_spec s c : field_of s = Some c <-> names_field s c.
Proof.
  unfold field_of, names_field.
  destruct (String.eqb_spec s "BLS12_381") as [->|N1].
  { split; [intros H; injection H as <-; left; split; reflexivity|].
    intros [[_ ->]|[E _]]; [reflexivity|discriminate]. }
  destruct (String.eqb_spec s "BN254") as [->|N2].
  { split; [intros H; injection H as <-; right; split; reflexivity|].
    intros [[E _]|[_ ->]]; [discriminate|reflexivity]. }
  split; [discriminate|]. intros [[E _]|[E _]]; contradiction.
Qed.

Lemma ok_or_err {A} (r : res A) : (exists a, r = Ok a) \/ (exists e, r = Err e).
Proof. destruct r; [left|right]; eexists; reflexivity. Qed.


Lemma poseidon_host c input t d rf rp mds rcs :
  0 <= rf -> 0 <= rp ->
  Forall u256_ok input -> Forall (Forall u256_ok) mds -> Forall (Forall u256_ok) rcs ->
  let p := order c in
  (poseidon_accepts input t d rf rp mds rcs ->
   exists out,
     poseidon_impl c (vec input) t d rf rp (mat mds) (mat rcs) = Ok (vec out)
     /\ Forall2 represents out
          (poseidon p (map (residues p) mds) (Z.to_nat rf) (Z.to_nat rp)
             (map (residues p) rcs) (residues p input)))
  /\ (~ poseidon_accepts input t d rf rp mds rcs ->
      exists e, poseidon_impl c (vec input) t d rf rp (mat mds) (mat rcs) = Err e).
Proof.
  intros Hrf Hrp Hi Hm Hr p.
  assert (Hp : 1 < p) by (assert (H := order_range c); unfold p; lia).
  unfold poseidon_impl. fold p.
  rewrite scalars_vec, rows_mat, rows_mat by assumption. cbn [rbind]. cbv zeta. cbn [rbind].
  assert (Hin : reduced p (residues p input)) by (apply residues_red; lia).
  assert (HA := poseidon_accepts_map (fun v => value v mod p) input t d rf rp mds rcs).
  change (map (map (fun v => value v mod p)) mds) with (map (residues p) mds) in HA.
  change (map (map (fun v => value v mod p)) rcs) with (map (residues p) rcs) in HA.
  change (map (fun v => value v mod p) input) with (residues p input) in HA.
  split.
  - intros Ha. pose proof Ha as (_ & _ & _ & _ & Hlen & _). apply HA in Ha.
    assert (Hlm : len (map (residues p) mds) = t) by (rewrite len_map; exact Hlen).
    destruct (p1_spec p Hp t _ Hlm d rf rp (map (residues p) rcs) (residues p input)
                Hrf Hrp Hin) as [Hok _].
    specialize (Hok Ha).
    destruct (vec_of_reduced c (poseidon p (map (residues p) mds) (Z.to_nat rf) (Z.to_nat rp)
                 (map (residues p) rcs) (residues p input))) as (out & E & HF).
    { apply poseidon_red; [fold p; lia|exact Hin]. }
    exists out. split; [|exact HF]. rewrite <- E.
    destruct (new_params Z (fun m => Z.of_nat (List.length m)) t d rf rp
                (map (residues p) mds) (map (residues p) rcs)) as [ps|e]; [|discriminate].
    cbn [rbind] in *. rewrite Hok. reflexivity.
  - intros Ha.
    destruct (new_params Z (fun m => Z.of_nat (List.length m)) t d rf rp
                (map (residues p) mds) (map (residues p) rcs)) as [ps|e] eqn:En;
      cbn [rbind]; [|exists e; reflexivity].
    pose proof (new_params_inv _ _ _ _ _ _ _ _ En) as (_ & Hlm & _).
    destruct (p1_spec p Hp t _ Hlm d rf rp (map (residues p) rcs) (residues p input)
                Hrf Hrp Hin) as [_ Hbad].
    rewrite En in Hbad. cbn [rbind] in Hbad.
    destruct (p1_permutation Z 0 (fadd p) (fmul p) (fpow p) ps (residues p input))
      as [out|e]; cbn [rbind]; [|exists e; reflexivity].
    exfalso. apply Ha, HA. exact (Hbad out eq_refl).
Qed.

Lemma poseidon2_host c input t d rf rp diag rcs :
  0 <= rf -> 0 <= rp ->
  Forall u256_ok input -> Forall u256_ok diag -> Forall (Forall u256_ok) rcs ->
  let p := order c in
  (poseidon2_accepts input t d rf rp diag rcs ->
   exists out,
     poseidon2_impl c (vec input) t d rf rp (vec diag) (mat rcs) = Ok (vec out)
     /\ Forall2 represents out
          (poseidon2 p (Z.to_nat t) (residues p diag) (Z.to_nat rf) (Z.to_nat rp)
             (map (residues p) rcs) (residues p input)))
  /\ (~ poseidon2_accepts input t d rf rp diag rcs ->
      exists e, poseidon2_impl c (vec input) t d rf rp (vec diag) (mat rcs) = Err e).
Proof.
  intros Hrf Hrp Hi Hm Hr p.
  assert (Hp : 1 < p) by (assert (H := order_range c); unfold p; lia).
  unfold poseidon2_impl. fold p.
  rewrite !scalars_vec, rows_mat by assumption. cbn [rbind]. cbv zeta. cbn [rbind].
  assert (Hin : reduced p (residues p input)) by (apply residues_red; lia).
  assert (Hdi : reduced p (residues p diag)) by (apply residues_red; lia).
  assert (HA := poseidon2_accepts_map (fun v => value v mod p) input t d rf rp diag rcs).
  change (map (map (fun v => value v mod p)) rcs) with (map (residues p) rcs) in HA.
  change (map (fun v => value v mod p) input) with (residues p input) in HA.
  change (map (fun v => value v mod p) diag) with (residues p diag) in HA.
  destruct (p2_spec p t d rf rp (residues p diag) (map (residues p) rcs) (residues p input)
              Hp Hrf Hrp Hin Hdi) as [Hok Hbad].
  split.
  - intros Ha. apply HA in Ha. specialize (Hok Ha).
    destruct (vec_of_reduced c (poseidon2 p (Z.to_nat t) (residues p diag) (Z.to_nat rf)
                 (Z.to_nat rp) (map (residues p) rcs) (residues p input))) as (out & E & HF).
    { apply poseidon2_red. fold p; lia. }
    exists out. split; [|exact HF]. rewrite <- E.
    destruct (new_params Z (fun m => Z.of_nat (List.length m)) t d rf rp
                (residues p diag) (map (residues p) rcs)) as [ps|e]; [|discriminate].
    cbn [rbind] in *. rewrite Hok. reflexivity.
  - intros Ha.
    destruct (new_params Z (fun m => Z.of_nat (List.length m)) t d rf rp
                (residues p diag) (map (residues p) rcs)) as [ps|e];
      cbn [rbind] in *; [|exists e; reflexivity].
    destruct (p2_permutation Z 0 (fadd p) (fmul p) (fpow p) ps (residues p input))
      as [out|e]; cbn [rbind]; [|exists e; reflexivity].
    exfalso. apply Ha, HA. exact (Hbad out eq_refl).
Qed.

Lemma poseidon_types c input t d rf rp mds rcs out :
  poseidon_impl c input t d rf rp mds rcs = Ok out ->
  (exists vs, input = vec vs) /\ (exists m, mds = mat m) /\ (exists k, rcs = mat k).
Proof.
  unfold poseidon_impl. cbv zeta.
  destruct (scalars_of (order c) input) as [i|] eqn:Ei; [|discriminate].
  destruct (rows_of (order c) mds) as [m|] eqn:Em; [|discriminate].
  destruct (rows_of (order c) rcs) as [k|] eqn:Ek; [|discriminate].
  intros _. exact (conj (scalars_inv _ _ _ Ei) (conj (rows_inv _ _ _ Em) (rows_inv _ _ _ Ek))).
Qed.

Lemma poseidon2_types c input t d rf rp diag rcs out :
  poseidon2_impl c input t d rf rp diag rcs = Ok out ->
  (exists vs, input = vec vs) /\ (exists ds, diag = vec ds) /\ (exists k, rcs = mat k).
Proof.
  unfold poseidon2_impl. cbv zeta.
  destruct (scalars_of (order c) input) as [i|] eqn:Ei; [|discriminate].
  destruct (scalars_of (order c) diag) as [m|] eqn:Em; [|discriminate].
  destruct (rows_of (order c) rcs) as [k|] eqn:Ek; [|discriminate].
  intros _. exact (conj (scalars_inv _ _ _ Ei) (conj (scalars_inv _ _ _ Em) (rows_inv _ _ _ Ek))).
Qed.
