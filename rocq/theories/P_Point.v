(* C70: the functions on curve points accept exactly the encodings of points
   they demand, and answer with encodings of the library's results. *)
From Coq Require Import ZArith Lia List Bool.
From Verif Require Import Prelude GuestModel FieldModel FieldSpec FieldProofs IntSpec PointModel PointSpec PointProofs PointProofs2.
Import ListNotations.
Open Scope Z_scope.
Ltac Zify.zify_post_hook ::= idtac.

(* -------------------------------------------------------- auxiliary facts *)

Lemma accept L g m bs p : has_infinity L -> argument L g m bs p -> deserialize L g bs m = Ok p.
Proof. intros HI H. apply accepts; [exact HI|apply H|exact H]. Qed.
Lemma refuse L g m bs : has_infinity L -> bytes bs -> (forall p, ~ argument L g m bs p) ->
  deserialize L g bs m = Err INVALID_INPUT.
Proof.
  intros HI B N. destruct (deserialize_err L g bs m) as [(p & E)|E]; [|exact E].
  apply accepts in E; [|exact HI|exact B]. destruct (N p E).
Qed.
Lemma argument_on L g m bs p : argument L g m bs p -> m <> NoCheck -> on g p.
Proof.
  intros (_ & E & D & _) M. split; [eapply encodes_point; exact E|]. apply D. left. exact M.
Qed.
Lemma argument_inside L g bs p : closed L ->
  argument L g CheckOnCurveAndInSubgroup bs p -> inside L g p.
Proof.
  intros (_ & _ & _ & _ & _ & _ & C) A.
  assert (O := argument_on _ _ _ _ _ A ltac:(discriminate)). split; [exact O|].
  destruct A as (_ & _ & _ & D). destruct g.
  - apply D. left. split; [reflexivity|discriminate].
  - apply D. left. split; [reflexivity|discriminate].
  - apply C. exact O.
  - apply D. right. reflexivity.
Qed.
Lemma on_argument L g p : has_infinity L -> g <> BnG2 -> on g p ->
  argument L g CheckOnCurve (serialize g p) p.
Proof.
  intros HI N O. assert (E := serialize_encodes g p O).
  split; [eapply encodes_bytes; exact E|]. split; [exact E|]. split.
  - intros _. apply O.
  - intros [[M _]|M]; [discriminate|contradiction].
Qed.
Lemma inside_argument L g p m : inside L g p -> argument L g m (serialize g p) p.
Proof.
  intros [O S]. assert (E := serialize_encodes g p O).
  split; [eapply encodes_bytes; exact E|]. split; [exact E|]. split; intros _; [apply O|exact S].
Qed.

(* ----------------------------------------------------- what is accepted *)

(* One byte string per point and one point per byte string; every point of the
   curve has one. *)
Theorem C70_encodings_are_unique g :
  (forall bs p p', encodes g bs p -> encodes g bs p' -> p = p')
  /\ (forall bs bs' p, encodes g bs p -> encodes g bs' p -> bs = bs')
  /\ (forall p, on g p -> exists bs, encodes g bs p).
Proof.
  split; [exact (encodes_det g)|]. split; [exact (encodes_inj g)|].
  intros p O. exists (serialize g p). apply serialize_encodes. exact O.
Qed.
Print Assumptions C70_encodings_are_unique.

(* A byte string is taken for the point it encodes, provided the point is what
   the function demands; every other byte string is refused. *)
Theorem C70_accepted_exactly L g m bs : has_infinity L -> bytes bs ->
  (forall p, deserialize L g bs m = Ok p <-> argument L g m bs p)
  /\ ((forall p, ~ argument L g m bs p) -> deserialize L g bs m = Err INVALID_INPUT).
Proof.
  intros HI B. split; [intros p; apply accepts; assumption|]. apply refuse; assumption.
Qed.
Print Assumptions C70_accepted_exactly.

(* the moduli of the fields are those of the curves' families *)
Theorem C70_parameters :
  bls_modulus bls_x (base Bls) /\ bls_order bls_x (order Bls)
  /\ bn_modulus bn_x (base Bn) /\ bn_order bn_x (order Bn).
Proof. repeat split; vm_compute; reflexivity. Qed.
Print Assumptions C70_parameters.

(* ------------------------------------------------------------ the answers *)

Theorem C70_is_on_curve L g bs : has_infinity L -> g <> BnG2 -> bytes bs ->
  (forall p, encodes g bs p ->
     exists b, g_is_on_curve L g bs = Ok b /\ (b = true <-> solves g p))
  /\ ((forall p, ~ encodes g bs p) -> g_is_on_curve L g bs = Err INVALID_INPUT).
Proof.
  intros HI N B.
  assert (A : forall p, argument L g NoCheck bs p <-> encodes g bs p).
  { intros p. split; [intros (_ & E & _); exact E|]. intros E. split; [exact B|]. split; [exact E|].
    split; [intros [M|M]; congruence|]. intros [[M _]|M]; congruence. }
  unfold g_is_on_curve. split.
  - intros p E. rewrite (accept L g NoCheck bs p HI) by (apply A; exact E). cbn [rbind].
    exists (is_on_curve g p). split; [reflexivity|].
    apply is_on_curve_solves. eapply encodes_point. exact E.
  - intros E. rewrite refuse; [reflexivity|exact HI|exact B|].
    intros p H. apply A in H. exact (E p H).
Qed.
Print Assumptions C70_is_on_curve.

Theorem C70_is_in_subgroup L g bs : has_infinity L -> curve_of g = Bls -> bytes bs ->
  (forall p, encodes g bs p -> solves g p ->
     g_is_in_subgroup L g bs = Ok (in_subgroup L g p))
  /\ ((forall p, encodes g bs p -> ~ solves g p) -> g_is_in_subgroup L g bs = Err INVALID_INPUT).
Proof.
  intros HI Hc B. unfold g_is_in_subgroup. split.
  - intros p E S. rewrite (accept L g CheckOnCurve bs p HI); [reflexivity|].
    split; [exact B|]. split; [exact E|]. split; [auto|].
    intros [[M _]|M]; [discriminate|]. subst g. discriminate.
  - intros N. rewrite refuse; [reflexivity|exact HI|exact B|].
    intros p (_ & E & D & _). apply (N p E), D. left. discriminate.
Qed.
Print Assumptions C70_is_in_subgroup.

Theorem C70_add L g a b : closed L -> bytes a -> bytes b ->
  (forall p p', argument L g CheckOnCurve a p -> argument L g CheckOnCurve b p' ->
     exists r, g_add L g a b = Ok r /\ encodes g r (add_points L g p p'))
  /\ ((forall p, ~ argument L g CheckOnCurve a p) \/ (forall p, ~ argument L g CheckOnCurve b p) ->
      g_add L g a b = Err INVALID_INPUT).
Proof.
  intros C Ba Bb. assert (HI : has_infinity L) by apply C. unfold g_add. split.
  - intros p p' A A'. rewrite (accept _ _ _ _ _ HI A), (accept _ _ _ _ _ HI A'). cbn [rbind].
    eexists. split; [reflexivity|]. apply serialize_encodes.
    apply C; eapply argument_on; try eassumption; discriminate.
  - intros [N|N].
    + rewrite refuse by assumption. reflexivity.
    + destruct (deserialize_err L g a CheckOnCurve) as [(p & E)|E]; rewrite E; cbn [rbind]; [|reflexivity].
      rewrite refuse by assumption. reflexivity.
Qed.
Print Assumptions C70_add.

(* the points whose multiples are taken: in the subgroup on BLS12-381; BN254's
   first group has no other points *)
Definition factor_mode (g : group) : mode :=
  match curve_of g with Bls => CheckOnCurveAndInSubgroup | Bn => CheckOnCurve end.

Lemma factor_inside L g bs p : closed L -> argument L g (factor_mode g) bs p -> inside L g p.
Proof.
  intros C A. apply (argument_inside L g bs); [exact C|].
  destruct A as (B & E & D1 & D2). split; [exact B|]. split; [exact E|]. split.
  - intros _. apply D1. left. unfold factor_mode. destruct (curve_of g); discriminate.
  - intros [[_ N]|N].
    + destruct g; [apply D2; left; auto|apply D2; left; auto|contradiction|apply D2; right; reflexivity].
    + apply D2. right. exact N.
Qed.

Theorem C70_mul L g a s : closed L -> bytes a -> u256_ok s ->
  (forall p, argument L g (factor_mode g) a p ->
     exists r, g_mul L g a s = Ok r
       /\ encodes g r (mul_point L g p (value s mod order (curve_of g))))
  /\ ((forall p, ~ argument L g (factor_mode g) a p) -> g_mul L g a s = Err INVALID_INPUT).
Proof.
  intros C Ba Hs. assert (HI : has_infinity L) by apply C. unfold g_mul.
  fold (factor_mode g). split.
  - intros p A. rewrite (accept _ _ _ _ _ HI A). cbn [rbind].
    rewrite from_u256val_spec by exact Hs.
    eexists. split; [reflexivity|]. apply serialize_encodes. apply C.
    apply (factor_inside L g a); assumption.
  - intros N. rewrite refuse by assumption. reflexivity.
Qed.
Print Assumptions C70_mul.

Lemma points_of_spec L g vs ps : has_infinity L -> Forall pval_ok vs ->
  points_of L g vs = Ok ps <-> Forall2 (is_point L g) vs ps.
Proof.
  intros HI. revert ps. induction vs as [|v vs IH]; intros ps F; cbn [points_of].
  - split; [intros [= <-]; constructor|]. inversion 1. reflexivity.
  - inversion F as [|? ? Fv Fs]; subst. destruct v as [bs|u|n].
    + cbn [pval_ok] in Fv. split.
      * destruct (deserialize L g bs CheckOnCurveAndInSubgroup) as [p|e] eqn:E; cbn [rbind]; [|discriminate].
        destruct (points_of L g vs) as [ps'|e] eqn:E'; cbn [rbind]; [|discriminate].
        intros [= <-]. constructor; [|apply IH; auto].
        exists bs. split; [reflexivity|]. apply accepts; assumption.
      * intros H. inversion H as [|? p ? ps' (bs' & E0 & A) H']; subst. injection E0 as <-.
        rewrite (accept _ _ _ _ _ HI A). cbn [rbind]. apply IH in H'; [|exact Fs]. rewrite H'. reflexivity.
    + split; [discriminate|]. intros H. inversion H as [|? ? ? ? (bs & E & _)]. discriminate.
    + split; [discriminate|]. intros H. inversion H as [|? ? ? ? (bs & E & _)]. discriminate.
Qed.

Lemma frs_of_spec g vs ns : Forall pval_ok vs ->
  frs_of (curve_of g) vs = Ok ns <-> Forall2 (is_scalar g) vs ns.
Proof.
  revert ns. induction vs as [|v vs IH]; intros ns F; cbn [frs_of].
  - split; [intros [= <-]; constructor|]. inversion 1. reflexivity.
  - inversion F as [|? ? Fv Fs]; subst. destruct v as [bs|u|n].
    + split; [discriminate|]. intros H. inversion H as [|? ? ? ? (u & E & _)]. discriminate.
    + cbn [pval_ok] in Fv. rewrite from_u256val_spec by exact Fv. split.
      * destruct (frs_of (curve_of g) vs) as [ns'|e] eqn:E'; cbn [rbind]; [|discriminate].
        intros [= <-]. constructor; [|apply IH; auto]. exists u. auto.
      * intros H. inversion H as [|? n ? ns' (u' & E0 & ->) H']; subst. injection E0 as <-.
        apply IH in H'; [|exact Fs]. rewrite H'. reflexivity.
    + split; [discriminate|]. intros H. inversion H as [|? ? ? ? (u & E & _)]. discriminate.
Qed.

Lemma Forall2_len {A B} (R : A -> B -> Prop) l l' : Forall2 R l l' -> length l = length l'.
Proof. induction 1; cbn [length]; congruence. Qed.

(* Sums of multiples: as many points as scalars, at least one, all of them
   acceptable. *)
Theorem C70_msm L g vp vs r : closed L -> Forall pval_ok vp -> Forall pval_ok vs ->
  g_msm L g vp vs = Ok r
  <-> exists ps ns, Forall2 (is_point L g) vp ps /\ Forall2 (is_scalar g) vs ns
      /\ length vp = length vs /\ vp <> []
      /\ encodes g r (msm_points L g ps ns).
Proof.
  intros C Fp Fs. assert (HI : has_infinity L) by apply C. unfold g_msm.
  assert (In : forall ps, Forall2 (is_point L g) vp ps -> Forall (inside L g) ps).
  { clear Fp. intros ps H. induction H as [|v p vp' ps' (bs & _ & A) H IH]; constructor; auto.
    exact (argument_inside L g bs p C A). }
  split.
  - destruct (points_of L g vp) as [ps|e] eqn:Ep; cbn [rbind]; [|discriminate].
    destruct (frs_of (curve_of g) vs) as [ns|e] eqn:En; cbn [rbind]; [|discriminate].
    apply points_of_spec in Ep; [|exact HI|exact Fp]. apply frs_of_spec in En; [|exact Fs].
    assert (L1 := Forall2_len _ _ _ Ep). assert (L2 := Forall2_len _ _ _ En).
    destruct (negb _ || _) eqn:E; [discriminate|]. apply orb_false_elim in E. destruct E as [E1 E2].
    apply negb_false_iff, Nat.eqb_eq in E1. apply Nat.eqb_neq in E2.
    intros [= <-]. exists ps, ns. split; [exact Ep|]. split; [exact En|]. split; [congruence|].
    split; [intros ->; cbn [length] in *; congruence|].
    apply serialize_encodes. apply C. apply In. exact Ep.
  - intros (ps & ns & Hp & Hn & Hl & Hne & He).
    assert (L1 := Forall2_len _ _ _ Hp). assert (L2 := Forall2_len _ _ _ Hn).
    assert (Hi := In ps Hp).
    apply points_of_spec in Hp; [|exact HI|exact Fp]. apply frs_of_spec in Hn; [|exact Fs].
    rewrite Hp, Hn. cbn [rbind].
    assert (E1 : Nat.eqb (length ps) (length ns) = true) by (apply Nat.eqb_eq; congruence).
    assert (E2 : Nat.eqb (length ps) 0 = false).
    { apply Nat.eqb_neq. intros E. apply Hne. destruct vp; [reflexivity|]. rewrite <- L1 in E. discriminate. }
    rewrite E1, E2. cbn [negb orb]. f_equal. apply (encodes_inj g _ _ (msm_points L g ps ns)); [|exact He].
    apply serialize_encodes. apply C. exact Hi.
Qed.
Print Assumptions C70_msm.

Definition group1 (c : curve) : group := match c with Bls => BlsG1 | Bn => BnG1 end.
Definition group2 (c : curve) : group := match c with Bls => BlsG2 | Bn => BnG2 end.

(* Pairing checks: as many points of the first group as of the second, at least
   one, all of them acceptable. *)
Theorem C70_pairing L c v1 v2 b : has_infinity L -> Forall pval_ok v1 -> Forall pval_ok v2 ->
  multi_pairing_check L c v1 v2 = Ok b
  <-> exists ps qs, Forall2 (is_point L (group1 c)) v1 ps /\ Forall2 (is_point L (group2 c)) v2 qs
      /\ length v1 = length v2 /\ v1 <> []
      /\ pairing_is_one L c ps qs = Some b.
Proof.
  intros HI F1 F2. unfold multi_pairing_check. fold (group1 c). fold (group2 c). split.
  - destruct (negb (Nat.eqb (length v1) (length v2)) || Nat.eqb (length v1) 0) eqn:E; [discriminate|].
    apply orb_false_elim in E. destruct E as [E1 E2].
    apply negb_false_iff, Nat.eqb_eq in E1. apply Nat.eqb_neq in E2.
    destruct (points_of L (group1 c) v1) as [ps|e] eqn:Ep; cbn [rbind]; [|discriminate].
    destruct (points_of L (group2 c) v2) as [qs|e] eqn:Eq; cbn [rbind]; [|discriminate].
    apply points_of_spec in Ep, Eq; try assumption.
    destruct (negb _ || _); [discriminate|].
    destruct (pairing_is_one L c ps qs) as [b'|] eqn:Er; [|discriminate]. intros [= <-].
    exists ps, qs. repeat split; try assumption. intros ->. apply E2. reflexivity.
  - intros (ps & qs & H1 & H2 & Hl & Hne & Hr).
    assert (L1 := Forall2_len _ _ _ H1). assert (L2 := Forall2_len _ _ _ H2).
    apply points_of_spec in H1, H2; try assumption.
    assert (E2 : Nat.eqb (length v1) 0 = false).
    { apply Nat.eqb_neq. intros E. apply Hne. destruct v1; [reflexivity|discriminate]. }
    rewrite Hl, Nat.eqb_refl, <- Hl, E2. cbn [negb orb]. rewrite H1, H2. cbn [rbind].
    assert (E3 : Nat.eqb (length ps) (length qs) = true) by (apply Nat.eqb_eq; congruence).
    rewrite E3, <- L1, E2, Hr. reflexivity.
Qed.
Print Assumptions C70_pairing.

(* Maps to the curves: from elements of the field, and from byte strings with a
   tag of 1 to 255 bytes. *)
Theorem C70_map L g bs : closed L -> bytes bs ->
  (forall e p, elem_bytes g bs e -> map_elem L g e = Some p ->
     exists r, map_to_group L g bs = Ok r /\ encodes g r p)
  /\ ((forall e, ~ elem_bytes g bs e) -> map_to_group L g bs = Err INVALID_INPUT).
Proof.
  intros C B. unfold map_to_group. split.
  - intros e p He Hm. assert (O := elem_bytes_of _ _ _ He).
    apply field_element_ok in He; [|exact B]. rewrite He. cbn [rbind]. rewrite Hm.
    eexists. split; [reflexivity|]. apply serialize_encodes.
    destruct C as (_ & _ & _ & C & _). exact (C g e p O Hm).
  - intros N. destruct (field_element_err g bs) as [E|(e & E)]; [rewrite E; reflexivity|].
    apply field_element_ok in E; [|exact B]. destruct (N e E).
Qed.
Print Assumptions C70_map.

Theorem C70_hash L g msg dst : closed L ->
  (forall p, (1 <= length dst <= 255)%nat -> hash_bytes L g msg dst = Some p ->
     exists r, hash_to_group L g msg dst = Ok r /\ encodes g r p)
  /\ (~ (1 <= length dst <= 255)%nat -> hash_to_group L g msg dst = Err INVALID_INPUT).
Proof.
  intros C. unfold hash_to_group. split.
  - intros p Hd Hh.
    assert (E1 : Nat.eqb (length dst) 0 = false) by (apply Nat.eqb_neq; lia).
    assert (E2 : Nat.ltb 255 (length dst) = false) by (apply Nat.ltb_ge; lia).
    rewrite E1, E2, Hh. cbn [orb]. eexists. split; [reflexivity|]. apply serialize_encodes.
    destruct C as (_ & _ & _ & _ & C & _). exact (proj1 (C g msg dst p Hh)).
  - intros Hd. destruct (Nat.eqb (length dst) 0) eqn:E1; [reflexivity|].
    apply Nat.eqb_neq in E1.
    assert (E2 : Nat.ltb 255 (length dst) = true) by (apply Nat.ltb_lt; lia).
    rewrite E2. reflexivity.
Qed.
Print Assumptions C70_hash.

(* Results are arguments again: sums and mapped elements are points of the
   curve, multiples, sums of multiples and hashed strings points of the group. *)
Theorem C70_results_are_arguments L g r : closed L -> g <> BnG2 ->
  ((forall a b, bytes a -> bytes b -> g_add L g a b = Ok r ->
      exists p, argument L g CheckOnCurve r p)
   /\ (forall bs, bytes bs -> map_to_group L g bs = Ok r ->
      exists p, argument L g CheckOnCurve r p))
  /\ ((forall a s, bytes a -> u256_ok s -> g_mul L g a s = Ok r ->
      exists p, argument L g CheckOnCurveAndInSubgroup r p)
   /\ (forall vp vs, Forall pval_ok vp -> Forall pval_ok vs -> g_msm L g vp vs = Ok r ->
      exists p, argument L g CheckOnCurveAndInSubgroup r p)
   /\ (forall msg dst, hash_to_group L g msg dst = Ok r ->
      exists p, argument L g CheckOnCurveAndInSubgroup r p)).
Proof.
  intros C N. assert (HI : has_infinity L) by apply C.
  refine (conj (conj _ _) (conj _ (conj _ _))).
  - intros a b Ba Bb H. unfold g_add in H.
    destruct (deserialize L g a CheckOnCurve) as [p|] eqn:Ea; cbn [rbind] in H; [|discriminate].
    destruct (deserialize L g b CheckOnCurve) as [p'|] eqn:Eb; cbn [rbind] in H; [|discriminate].
    injection H as <-. apply accepts in Ea, Eb; try assumption.
    eexists. apply on_argument; [exact HI|exact N|].
    apply C; eapply argument_on; try eassumption; discriminate.
  - intros bs B H. unfold map_to_group in H.
    destruct (field_element_deserialize g bs) as [e|] eqn:E; cbn [rbind] in H; [|discriminate].
    destruct (map_elem L g e) as [p|] eqn:Em; [|discriminate]. injection H as <-.
    apply field_element_ok in E; [|exact B]. apply elem_bytes_of in E.
    exists p. apply on_argument; [exact HI|exact N|].
    destruct C as (_ & _ & _ & C & _). exact (C g e p E Em).
  - intros a s Ba Hs H. unfold g_mul in H. fold (factor_mode g) in H.
    destruct (deserialize L g a (factor_mode g)) as [p|] eqn:Ea; cbn [rbind] in H; [|discriminate].
    injection H as <-. apply accepts in Ea; try assumption.
    eexists. apply inside_argument. apply C. apply (factor_inside L g a); assumption.
  - intros vp vs Fp Fs H. apply C70_msm in H; try assumption.
    destruct H as (ps & ns & Hp & _ & _ & _ & E).
    exists (msm_points L g ps ns).
    assert (I : inside L g (msm_points L g ps ns)).
    { apply C. clear E Fp. induction Hp as [|v p vp' ps' (bs & _ & A) Hp IH]; constructor; auto.
      exact (argument_inside L g bs p C A). }
    rewrite (encodes_inj g r (serialize g (msm_points L g ps ns)) _ E (serialize_encodes g _ (proj1 I))).
    apply inside_argument. exact I.
  - intros msg dst H. unfold hash_to_group in H. destruct (_ || _) in H; [discriminate|].
    destruct (hash_bytes L g msg dst) as [p|] eqn:Eh; [|discriminate]. injection H as <-.
    exists p. apply inside_argument. destruct C as (_ & _ & _ & _ & C & _). exact (C g msg dst p Eh).
Qed.
Print Assumptions C70_results_are_arguments.

(* --------------------------------------------------------------- examples *)

(* a library of the required kind *)
Definition lib0 : library := {|
  in_subgroup := fun _ _ => true;
  add_points := fun _ p p' => match p with Inf => p' | _ => p end;
  mul_point := fun _ p n => if n =? 0 then Inf else p;
  msm_points := fun _ ps _ => match ps with p :: _ => p | [] => Inf end;
  pairing_is_one := fun _ ps _ => Some (Nat.eqb (length ps) 1);
  map_elem := fun g e => match g with BlsG1 => Some (Aff (E1 0) (E1 2)) | _ => None end;
  hash_bytes := fun _ _ _ => Some Inf
|}.

Example point_on : on BlsG1 (Aff (E1 0) (E1 2)).
Proof.
  split; [repeat split; vm_compute; congruence|]. exists 0. reflexivity.
Qed.
Example lib0_closed : closed lib0.
Proof.
  repeat apply conj; cbn [lib0 add_points mul_point msm_points map_elem hash_bytes in_subgroup].
  - intros g p p' H H'. destruct p; assumption.
  - intros g p n H. destruct (n =? 0); [|exact H]. repeat split.
  - intros g ps ns H. destruct H as [|p ps Hp _]; [repeat split|exact Hp].
  - intros g e p _. destruct g; try discriminate. intros [= <-]. exact point_on.
  - intros g m d p [= <-]. repeat split.
  - intros g. reflexivity.
  - reflexivity.
Qed.

Definition zeros (n : nat) : list Z := repeat 0 n.
(* (1, 2) of BN254, the base of its first group *)
Definition bn_one : list Z := zeros 31 ++ [1] ++ zeros 31 ++ [2].
Definition bn_off : list Z := zeros 31 ++ [1] ++ zeros 31 ++ [3].
(* (0, 2) of BLS12-381 *)
Definition bls_two : list Z := zeros 95 ++ [2].
Example bn_one_argument : argument lib0 BnG1 CheckOnCurve bn_one (Aff (E1 1) (E1 2)).
Proof.
  apply (C70_accepted_exactly lib0 BnG1 CheckOnCurve bn_one);
    [apply lib0_closed|repeat constructor; vm_compute; congruence|vm_compute; reflexivity].
Qed.
Example bn_add_example : g_add lib0 BnG1 (zeros 64) bn_one = Ok bn_one
  /\ g_add lib0 BnG1 bn_off bn_one = Err INVALID_INPUT
  /\ g_is_on_curve lib0 BnG1 bn_off = Ok false
  /\ g_is_on_curve lib0 BnG1 bn_one = Ok true.
Proof. repeat split; vm_compute; reflexivity. Qed.
Example bls_examples :
  g_add lib0 BlsG1 (64 :: zeros 95) bls_two = Ok bls_two
  /\ g_is_on_curve lib0 BlsG1 (128 :: zeros 95) = Err INVALID_INPUT
  /\ g_is_on_curve lib0 BlsG1 (64 :: zeros 94 ++ [1]) = Err INVALID_INPUT
  /\ g_is_on_curve lib0 BlsG1 (zeros 94) = Err INVALID_INPUT
  /\ g_is_in_subgroup lib0 BlsG1 bls_two = Ok true
  /\ map_to_group lib0 BlsG1 (zeros 47 ++ [7]) = Ok bls_two
  /\ hash_to_group lib0 BlsG1 [1; 2] [] = Err INVALID_INPUT
  /\ hash_to_group lib0 BlsG1 [1; 2] [3] = Ok (64 :: zeros 95)
  /\ g_mul lib0 BlsG1 bls_two (U256S 0) = Ok (64 :: zeros 95)
  /\ g_msm lib0 BlsG1 [PBytes bls_two] [PU256 (U256S 5)] = Ok bls_two
  /\ g_msm lib0 BlsG1 [] [] = Err INVALID_INPUT.
Proof. repeat split; vm_compute; reflexivity. Qed.

(* the modulus itself is no coordinate *)
Example modulus_refused :
  g_is_on_curve lib0 BnG1 (rev (le_bytes 32 (base Bn)) ++ zeros 31 ++ [2]) = Err INVALID_INPUT
  /\ g_is_on_curve lib0 BlsG1 (rev (le_bytes 48 (base Bls)) ++ zeros 47 ++ [2]) = Err INVALID_INPUT.
Proof. repeat split; vm_compute; reflexivity. Qed.

(* the base of BN254's second group, paired with (1, 2) *)
Definition bn_two : point :=
  Aff (E2 10857046999023057135944570762232829481370756359578518086990519993285655852781
          11559732032986387107991004021392285783925812861821192530917403151452391805634)
      (E2 8495653923123431417604973247489272438418190587263600148770280649306958101930
          4082367875863433681332203403145435568316851327593401208105741076214120093531).
Example bn_pairing_example :
  is_on_curve BnG2 bn_two = true
  /\ multi_pairing_check lib0 Bn [PBytes bn_one] [PBytes (serialize BnG2 bn_two)] = Ok true
  /\ multi_pairing_check lib0 Bn [PBytes bn_one] [] = Err INVALID_INPUT.
Proof. repeat split; vm_compute; reflexivity. Qed.
