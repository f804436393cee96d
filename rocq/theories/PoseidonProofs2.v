(* The permutations as a whole: which parameters are accepted, and what is
   computed then. *)
From Coq Require Import ZArith Lia List Bool String.
From Verif Require Import Prelude FieldModel FieldSpec PrimeProofs PoseidonModel PoseidonSpec
  PoseidonProofs.
Import ListNotations.
Open Scope Z_scope.
Ltac Zify.zify_post_hook ::= idtac.

Lemma segments {A} (l : list A) a b :
  l = firstn a l ++ firstn b (skipn a l) ++ skipn (a + b) l.
Proof.
  rewrite <- (firstn_skipn a l) at 1. f_equal.
  rewrite <- (firstn_skipn b (skipn a l)) at 1. f_equal.
  revert l. induction a as [|a IH]; intros l; [reflexivity|].
  destruct l as [|x l]; cbn [skipn plus]; [apply skipn_nil|]. apply IH.
Qed.

Lemma Forall_or {A} (P : A -> Prop) (l : list A) :
  (forall x, P x \/ ~ P x) -> Forall P l \/ ~ Forall P l.
Proof.
  intros Hd. induction l as [|x l IH]; [left; constructor|].
  destruct (Hd x) as [Hx|Hx]; [destruct IH as [Hl|Hl]|].
  - left. constructor; assumption.
  - right. intros H. inversion H; subst. contradiction.
  - right. intros H. inversion H; subst. contradiction.
Qed.

Lemma firstn_skipn_all {A} (l : list A) n k : List.length l = (n + k)%nat ->
  firstn k (skipn n l) = skipn n l.
Proof. intros H. apply firstn_all2. rewrite skipn_length. lia. Qed.

Lemma even_mod rf : (rf mod 2 =? 0) = true <-> Z.Even rf.
Proof.
  rewrite Z.eqb_eq. split.
  - intros H. exists (rf / 2). assert (Hd := Z.div_mod rf 2 ltac:(lia)). lia.
  - intros [k ->]. rewrite Z.mul_comm. apply Z.mod_mul. lia.
Qed.

Lemma half_nat rf : 0 <= rf -> Z.to_nat (rf / 2) = (Z.to_nat rf / 2)%nat.
Proof. intros H. rewrite Z2Nat.inj_div by lia. reflexivity. Qed.

Lemma even_half rf : Z.Even rf -> rf = rf / 2 + rf / 2.
Proof.
  intros [k ->]. rewrite (Z.mul_comm 2), Z.div_mul by lia. lia.
Qed.

(* ------------------------------------------------------ new_params *)

Lemma new_params_ok {M} (mlen : M -> Z) t d rf rp m (rcs : list (list Z)) :
  d = 5 -> mlen m = t -> Z.Even rf -> rf + rp < 2 ^ 32 -> len rcs = rf + rp ->
  new_params Z mlen t d rf rp m rcs = Ok (mkparams t 5 (rf / 2) rp (rf + rp) m rcs).
Proof.
  intros -> Hm He Ho Hl. unfold new_params. cbn [existsb sbox_degrees].
  change (5 =? 5) with true. cbn [orb negb].
  rewrite Hm, Z.eqb_refl. cbn [negb].
  apply even_mod in He. rewrite He. cbn [negb]. cbv zeta.
  destruct (Z.ltb_spec (2 ^ 32 - 1) (rf + rp)); [lia|].
  unfold len in Hl. rewrite Hl, Z.eqb_refl. reflexivity.
Qed.

Lemma new_params_inv {M} (mlen : M -> Z) t d rf rp m (rcs : list (list Z)) ps :
  new_params Z mlen t d rf rp m rcs = Ok ps ->
  d = 5 /\ mlen m = t /\ Z.Even rf /\ rf + rp < 2 ^ 32 /\ len rcs = rf + rp
  /\ ps = mkparams t 5 (rf / 2) rp (rf + rp) m rcs.
Proof.
  unfold new_params. cbn [existsb sbox_degrees].
  destruct (Z.eqb_spec d 5) as [->|]; cbn [orb negb]; [|discriminate].
  destruct (Z.eqb_spec (mlen m) t) as [Hm|]; cbn [negb]; [|discriminate].
  destruct (rf mod 2 =? 0) eqn:He; cbn [negb]; [|discriminate]. cbv zeta.
  destruct (Z.ltb_spec (2 ^ 32 - 1) (rf + rp)) as [|Ho]; [discriminate|].
  destruct (Z.eqb_spec (Z.of_nat (List.length rcs)) (rf + rp)) as [Hl|]; cbn [negb];
    [|discriminate].
  intros H. injection H as <-. apply even_mod in He.
  refine (conj eq_refl (conj Hm (conj He (conj _ (conj Hl eq_refl))))). lia.
Qed.

(* ---------------------------------------------------------------- Poseidon *)

Section P1.
Variable p : Z.
Hypothesis Hp : 1 < p.
Variable t : Z.
Variable mds : list (list Z).
Hypothesis Hmds : len mds = t.

Let inv (x : list Z) : Prop := len x = t /\ reduced p x.
Let rows : Prop := Forall (fun row => len row = t) mds.
Let good (k : list Z) : Prop := len k = t /\ rows.
Let goodp (k : list Z) : Prop := len k = t /\ rows /\ 0 < t.
Let full (x k : list Z) := mat_vec p mds (fifth_all p (add_all p x k)).
Let part (x k : list Z) := mat_vec p mds (fifth_first p (add_all p x k)).

Lemma rows_dec : rows \/ ~ rows.
Proof. apply Forall_or. intros x. destruct (Z.eq_dec (len x) t); auto. Qed.

Lemma good_dec k : good k \/ ~ good k.
Proof.
  unfold good. destruct (Z.eq_dec (len k) t), rows_dec; tauto.
Qed.

Lemma goodp_dec k : goodp k \/ ~ goodp k.
Proof.
  unfold goodp. destruct (Z.eq_dec (len k) t), rows_dec, (Z_lt_dec 0 t); tauto.
Qed.

Lemma mul_ok x : len x = t -> rows ->
  matmul Z 0 (fadd p) (fmul p) mds x = Ok (mat_vec p mds x).
Proof.
  intros Hx Hr. unfold matmul. unfold len in *. rewrite Hx, Hmds, Z.eqb_refl. cbn [negb].
  apply matmul_rows_ok; [lia|assumption].
Qed.

Lemma mul_bad x : len x = t -> ~ rows ->
  exists e, matmul Z 0 (fadd p) (fmul p) mds x = Err e.
Proof.
  intros Hx Hr. unfold matmul. unfold len in *. rewrite Hx, Hmds, Z.eqb_refl. cbn [negb].
  apply matmul_rows_bad. exact Hr.
Qed.

Lemma inv_mat x : inv (mat_vec p mds x).
Proof.
  split; [unfold len in *; rewrite mat_vec_len; assumption|apply mat_vec_red; lia].
Qed.

Lemma full_ok k x : good k -> inv x ->
  p1_full Z 0 (fadd p) (fmul p) (fpow p) 5 mds k x = Ok (full x k) /\ inv (full x k).
Proof.
  intros [Hk Hr] [Hx Hx']. split; [|apply inv_mat].
  unfold p1_full. rewrite add_rc_ok by lia. cbn [rbind].
  rewrite sbox_spec by lia. apply mul_ok; [|assumption].
  unfold len in *. rewrite fifth_all_len, add_all_len; [assumption|unfold len; lia].
Qed.

Lemma full_bad k x : ~ good k -> inv x ->
  exists e, p1_full Z 0 (fadd p) (fmul p) (fpow p) 5 mds k x = Err e.
Proof.
  intros Hg [Hx Hx']. unfold p1_full. destruct (Z.eq_dec (len x) (len k)) as [E|E].
  - rewrite add_rc_ok by lia. cbn [rbind]. rewrite sbox_spec by lia. apply mul_bad.
    + unfold len in *. rewrite fifth_all_len, add_all_len; [assumption|exact E].
    + intros Hr. apply Hg. split; [lia|assumption].
  - destruct (add_rc_bad p x k E) as [e ->]. cbn [rbind]. eauto.
Qed.

Lemma part_ok k x : goodp k -> inv x ->
  p1_partial Z 0 (fadd p) (fmul p) (fpow p) 5 mds k x = Ok (part x k) /\ inv (part x k).
Proof.
  intros (Hk & Hr & Ht) [Hx Hx']. split; [|apply inv_mat].
  unfold p1_partial. rewrite add_rc_ok by lia. cbn [rbind].
  assert (Hl : len (add_all p x k) = t).
  { unfold len in *. rewrite add_all_len; [assumption|unfold len; lia]. }
  unfold part. destruct (add_all p x k) as [|a y]; [unfold len in Hl; cbn in Hl; lia|].
  cbn [fifth_first]. rewrite sbox_p_spec by lia. apply mul_ok; [exact Hl|assumption].
Qed.

Lemma part_bad k x : ~ goodp k -> inv x ->
  exists e, p1_partial Z 0 (fadd p) (fmul p) (fpow p) 5 mds k x = Err e.
Proof.
  intros Hg [Hx Hx']. unfold p1_partial. destruct (Z.eq_dec (len x) (len k)) as [E|E].
  - rewrite add_rc_ok by lia. cbn [rbind].
    assert (Hl : len (add_all p x k) = t).
    { unfold len in *. rewrite add_all_len; [assumption|exact E]. }
    destruct (add_all p x k) as [|a y]; [eauto|].
    apply mul_bad; [exact Hl|]. intros Hr. apply Hg. refine (conj _ (conj Hr _)); [lia|].
    unfold len in Hl. cbn [List.length] in Hl. lia.
  - destruct (add_rc_bad p x k E) as [e ->]. cbn [rbind]. eauto.
Qed.

Lemma p1_spec d rf rp rcs input : 0 <= rf -> 0 <= rp -> reduced p input ->
  let run := rbind (new_params Z (fun m => Z.of_nat (List.length m)) t d rf rp mds rcs)
                   (fun ps => p1_permutation Z 0 (fadd p) (fmul p) (fpow p) ps input) in
  (poseidon_accepts input t d rf rp mds rcs ->
   run = Ok (poseidon p mds (Z.to_nat rf) (Z.to_nat rp) rcs input))
  /\ (forall out, run = Ok out -> poseidon_accepts input t d rf rp mds rcs).
Proof.
  intros Hrf Hrp Hin run.
  (* the three segments *)
  set (a := Z.to_nat (rf / 2)). set (b := Z.to_nat rp).
  assert (Hhalf : 0 <= rf / 2) by (apply Z.div_pos; lia).
  assert (Hend : Z.to_nat (rf / 2 + rp) = (a + b)%nat) by (apply Z2Nat.inj_add; lia).
  assert (Core : d = 5 -> Z.Even rf -> rf + rp < 2 ^ 32 -> len input = t -> len rcs = rf + rp ->
    run = (let? s := rounds_loop Z (p1_full Z 0 (fadd p) (fmul p) (fpow p) 5 mds) rcs 0 a input in
           let? s := rounds_loop Z (p1_partial Z 0 (fadd p) (fmul p) (fpow p) 5 mds) rcs a b s in
           rounds_loop Z (p1_full Z 0 (fadd p) (fmul p) (fpow p) 5 mds) rcs (a + b) a s)
    /\ List.length rcs = (a + b + a)%nat).
  { intros -> He Ho Hi Hl. unfold run.
    rewrite new_params_ok by (assumption || reflexivity). cbn [rbind].
    unfold p1_permutation. cbn [pt pd pfb prp prounds pmat prc].
    unfold len in Hi. rewrite Hi, Z.eqb_refl. cbn [negb]. cbv zeta.
    rewrite Hend. fold a.
    replace (a + b - a)%nat with b by lia.
    assert (Hrr : Z.to_nat (rf + rp) = (a + b + a)%nat).
    { apply even_half in He. unfold a, b. rewrite He at 1. lia. }
    rewrite Hrr. replace (a + b + a - (a + b))%nat with a by lia.
    split; [reflexivity|]. unfold len in Hl. lia. }
  assert (Hlast : List.length rcs = (a + b + a)%nat ->
                  firstn a (skipn (a + b) rcs) = skipn (a + b) rcs).
  { intros Hl. apply firstn_skipn_all. exact Hl. }
  split.
  - intros (Hd & He & Ho & Hi & Hm & Hl & Hk & Hr & Ht).
    destruct (Core Hd He Ho Hi Hl) as [-> HL].
    assert (Hsub : forall P : list Z -> Prop, Forall P rcs ->
      Forall P (firstn a (skipn 0 rcs)) /\ Forall P (firstn b (skipn a rcs))
      /\ Forall P (firstn a (skipn (a + b) rcs))).
    { intros P HP. rewrite Hlast by assumption. rewrite (segments rcs a b) in HP.
      apply Forall_app in HP. destruct HP as [H1 HP]. apply Forall_app in HP.
      cbn [skipn]. tauto. }
    assert (Hgood : Forall good rcs).
    { apply Forall_forall. intros k Hin'. rewrite Forall_forall in Hk.
      split; [apply Hk; assumption|]. apply Hr. unfold len in Hl.
      destruct rcs; [destruct Hin'|cbn [List.length] in Hl; lia]. }
    destruct (Hsub _ Hgood) as (G1 & _ & G3).
    assert (G2 : Forall goodp (firstn b (skipn a rcs))).
    { destruct (Hsub _ Hgood) as (_ & G2 & _).
      apply Forall_forall. intros k Hk'. rewrite Forall_forall in G2.
      destruct (G2 k Hk') as [Hk1 Hk2]. refine (conj Hk1 (conj Hk2 _)).
      apply Ht. destruct b eqn:Eb; [destruct Hk'|]. unfold b in Eb. lia. }
    destruct (rounds_ok inv good (p1_full Z 0 (fadd p) (fmul p) (fpow p) 5 mds) full full_ok
                rcs a 0 input ltac:(lia) (conj Hi Hin) G1) as [-> I1].
    cbn [rbind].
    destruct (rounds_ok inv goodp (p1_partial Z 0 (fadd p) (fmul p) (fpow p) 5 mds) part
                part_ok rcs b a _ ltac:(lia) I1 G2) as [-> I2].
    cbn [rbind].
    destruct (rounds_ok inv good (p1_full Z 0 (fadd p) (fmul p) (fpow p) 5 mds) full full_ok
                rcs a (a + b) _ ltac:(lia) I2 G3) as [-> I3].
    f_equal. unfold poseidon, in_rounds. rewrite <- half_nat by assumption.
    fold a b. rewrite Hlast by assumption. reflexivity.
  - intros out Hrun.
    destruct (new_params Z (fun m => Z.of_nat (List.length m)) t d rf rp mds rcs)
      as [ps|e] eqn:En; [|discriminate].
    apply new_params_inv in En. destruct En as (Hd & Hm & He & Ho & Hl & Eps).
    assert (Hi : len input = t).
    { unfold run in Hrun. cbn [rbind] in Hrun. unfold p1_permutation in Hrun. rewrite Eps in Hrun.
      cbn [pt] in Hrun. unfold len.
      destruct (Z.eqb_spec (Z.of_nat (List.length input)) t) as [E|E]; [exact E|].
      discriminate. }
    destruct (Core Hd He Ho Hi Hl) as [E HL]. rewrite E in Hrun. clear E.
    destruct (Forall_or good (firstn a (skipn 0 rcs)) good_dec) as [G1|G1].
    2:{ destruct (rounds_bad inv good (p1_full Z 0 (fadd p) (fmul p) (fpow p) 5 mds) full
          full_ok good_dec full_bad rcs a 0 input ltac:(lia) (conj Hi Hin) G1) as [e E].
        rewrite E in Hrun. discriminate. }
    destruct (rounds_ok inv good (p1_full Z 0 (fadd p) (fmul p) (fpow p) 5 mds) full full_ok
                rcs a 0 input ltac:(lia) (conj Hi Hin) G1) as [E1 I1].
    rewrite E1 in Hrun. cbn [rbind] in Hrun. clear E1.
    destruct (Forall_or goodp (firstn b (skipn a rcs)) goodp_dec) as [G2|G2].
    2:{ destruct (rounds_bad inv goodp (p1_partial Z 0 (fadd p) (fmul p) (fpow p) 5 mds) part
          part_ok goodp_dec part_bad rcs b a _ ltac:(lia) I1 G2) as [e E].
        rewrite E in Hrun. discriminate. }
    destruct (rounds_ok inv goodp (p1_partial Z 0 (fadd p) (fmul p) (fpow p) 5 mds) part
                part_ok rcs b a _ ltac:(lia) I1 G2) as [E2 I2].
    rewrite E2 in Hrun. cbn [rbind] in Hrun. clear E2.
    destruct (Forall_or good (firstn a (skipn (a + b) rcs)) good_dec) as [G3|G3].
    2:{ destruct (rounds_bad inv good (p1_full Z 0 (fadd p) (fmul p) (fpow p) 5 mds) full
          full_ok good_dec full_bad rcs a (a + b) _ ltac:(lia) I2 G3) as [e E].
        rewrite E in Hrun. discriminate. }
    assert (Hall : Forall good rcs).
    { rewrite (segments rcs a b). apply Forall_app. split; [exact G1|]. apply Forall_app.
      split; [|rewrite Hlast in G3 by assumption; exact G3].
      eapply Forall_impl; [|exact G2]. intros k (Hk1 & Hk2 & _). split; assumption. }
    refine (conj Hd (conj He (conj Ho (conj Hi (conj Hmds (conj Hl (conj _ (conj _ _)))))))).
    + eapply Forall_impl; [|exact Hall]. intros k [Hk _]. exact Hk.
    + intros Hpos. unfold len in Hl. destruct rcs as [|k rcs']; [cbn [List.length] in Hl; lia|].
      inversion Hall as [|? ? Hk]; subst. apply Hk.
    + intros Hpos. destruct b as [|b'] eqn:Eb; [unfold b in Eb; lia|].
      assert (Hne : firstn (S b') (skipn a rcs) <> []).
      { intros E. apply (f_equal (@List.length _)) in E.
        rewrite firstn_length, skipn_length in E. cbn [List.length] in E. lia. }
      destruct (firstn (S b') (skipn a rcs)) as [|k l]; [contradiction|].
      inversion G2 as [|? ? (_ & _ & Hk)]; subst. exact Hk.
Qed.

End P1.

(* --------------------------------------------------------------- Poseidon2 *)

Section P2.
Variable p : Z.
Hypothesis Hp : 1 < p.
Variable t : Z.
Hypothesis Ht : In t sizes.
Variable diag : list Z.
Hypothesis Hdiag : len diag = t.
Hypothesis Hdr : reduced p diag.

Let inv (x : list Z) : Prop := len x = t /\ reduced p x.
Let good (k : list Z) : Prop := len k = t.
Let goodp (k : list Z) : Prop := 0 < len k.
Let ext := external_matrix (Z.to_nat t).
Let int := internal_matrix (Z.to_nat t) diag.
Let full (x k : list Z) := mat_vec p ext (fifth_all p (add_all p x k)).
Let part (x k : list Z) := mat_vec p int (fifth_first p (add_first p x k)).

Lemma t_pos : 1 < t.
Proof.
  cbn [sizes In] in Ht.
  repeat (destruct Ht as [<-|Ht']; [lia|clear Ht; rename Ht' into Ht]). contradiction.
Qed.

Lemma inv_ext x : inv (mat_vec p ext x).
Proof.
  assert (H := t_pos). split; [|apply mat_vec_red; lia].
  unfold len, ext, external_matrix. rewrite mat_vec_len, matrix_len. lia.
Qed.

Lemma inv_int x : inv (mat_vec p int x).
Proof.
  assert (H := t_pos). split; [|apply mat_vec_red; lia].
  unfold len, int, internal_matrix. rewrite mat_vec_len, matrix_len. lia.
Qed.

Lemma full2_ok k x : good k -> inv x ->
  p2_full Z 0 (fadd p) (fpow p) 5 t k x = Ok (full x k) /\ inv (full x k).
Proof.
  intros Hk [Hx Hx']. split; [|apply inv_ext].
  unfold good in Hk. unfold p2_full. rewrite add_rc_ok by lia. cbn [rbind].
  rewrite sbox_spec by lia. apply ext_spec; [lia|assumption| |apply fifth_all_red; lia].
  unfold len in *. rewrite fifth_all_len, add_all_len; [assumption|unfold len; lia].
Qed.

Lemma full2_bad k x : ~ good k -> inv x ->
  exists e, p2_full Z 0 (fadd p) (fpow p) 5 t k x = Err e.
Proof.
  intros Hg [Hx Hx']. unfold p2_full.
  destruct (add_rc_bad p x k) as [e ->]; [intros E; apply Hg; unfold good; lia|].
  cbn [rbind]. eauto.
Qed.

Lemma part2_ok k x : goodp k -> inv x ->
  p2_partial Z (fadd p) (fmul p) (fpow p) 5 t diag k x = Ok (part x k) /\ inv (part x k).
Proof.
  intros Hk [Hx Hx']. split; [|apply inv_int]. assert (Htp := t_pos).
  unfold p2_partial, part. destruct k as [|k0 k]; [unfold goodp, len in Hk; cbn in Hk; lia|].
  destruct x as [|x0 x]; [unfold len in Hx; cbn in Hx; lia|].
  cbn [add_first fifth_first]. rewrite sbox_p_spec by lia.
  unfold fadd at 2. apply int_spec; try assumption; try lia.
  inversion Hx'; subst. constructor; [apply Z.mod_pos_bound; lia|assumption].
Qed.

Lemma part2_bad k x : ~ goodp k -> inv x ->
  exists e, p2_partial Z (fadd p) (fmul p) (fpow p) 5 t diag k x = Err e.
Proof.
  intros Hg _. unfold p2_partial. destruct k as [|k0 k]; [eauto|].
  exfalso. apply Hg. unfold goodp, len. cbn [List.length]. lia.
Qed.

Lemma good2_dec k : good k \/ ~ good k.
Proof. unfold good. destruct (Z.eq_dec (len k) t); auto. Qed.

Lemma goodp2_dec k : goodp k \/ ~ goodp k.
Proof. unfold goodp. destruct (Z_lt_dec 0 (len k)); auto. Qed.

Lemma p2_core rf rp rcs input : 0 <= rf -> 0 <= rp -> reduced p input ->
  Z.Even rf -> rf + rp < 2 ^ 32 -> len input = t -> len rcs = rf + rp ->
  let run := p2_permutation Z 0 (fadd p) (fmul p) (fpow p)
               (mkparams t 5 (rf / 2) rp (rf + rp) diag rcs) input in
  let half := Z.to_nat (rf / 2) in
  let segs := Forall (fun k => len k = t) (firstn half rcs)
     /\ Forall (fun k => 0 < len k) (firstn (Z.to_nat rp) (skipn half rcs))
     /\ Forall (fun k => len k = t) (skipn (half + Z.to_nat rp) rcs) in
  (segs -> run = Ok (poseidon2 p (Z.to_nat t) diag (Z.to_nat rf) (Z.to_nat rp) rcs input))
  /\ (forall out, run = Ok out -> segs).
Proof.
  intros Hrf Hrp Hin He Ho Hi Hl run a segs. set (b := Z.to_nat rp) in *.
  assert (Hhalf : 0 <= rf / 2) by (apply Z.div_pos; lia).
  assert (Hend : Z.to_nat (rf / 2 + rp) = (a + b)%nat) by (apply Z2Nat.inj_add; lia).
  assert (Hrr : Z.to_nat (rf + rp) = (a + b + a)%nat).
  { apply even_half in He. unfold a, b. rewrite He at 1. lia. }
  assert (HL : List.length rcs = (a + b + a)%nat) by (unfold len in Hl; lia).
  assert (Hlast : firstn a (skipn (a + b) rcs) = skipn (a + b) rcs).
  { apply firstn_skipn_all. exact HL. }
  assert (I0 : inv (mat_vec p ext input)) by apply inv_ext.
  assert (E : run =
    (let? s := rounds_loop Z (p2_full Z 0 (fadd p) (fpow p) 5 t) rcs 0 a (mat_vec p ext input) in
     let? s := rounds_loop Z (p2_partial Z (fadd p) (fmul p) (fpow p) 5 t diag) rcs a b s in
     rounds_loop Z (p2_full Z 0 (fadd p) (fpow p) 5 t) rcs (a + b) a s)).
  { unfold run, p2_permutation. cbn [pt pd pfb prp prounds pmat prc].
    unfold len in Hi. rewrite Hi, Z.eqb_refl. cbn [negb]. cbv zeta.
    rewrite Hend. fold a. replace (a + b - a)%nat with b by lia.
    rewrite Hrr. replace (a + b + a - (a + b))%nat with a by lia.
    rewrite ext_spec by (assumption || lia). cbn [rbind]. reflexivity. }
  rewrite E. clear E run. split.
  - intros (G1 & G2 & G3).
    destruct (rounds_ok inv good (p2_full Z 0 (fadd p) (fpow p) 5 t) full full2_ok
                rcs a 0 _ ltac:(lia) I0 G1) as [-> I1].
    cbn [rbind].
    destruct (rounds_ok inv goodp (p2_partial Z (fadd p) (fmul p) (fpow p) 5 t diag) part
                part2_ok rcs b a _ ltac:(lia) I1 G2) as [-> I2].
    cbn [rbind]. rewrite <- Hlast in G3.
    destruct (rounds_ok inv good (p2_full Z 0 (fadd p) (fpow p) 5 t) full full2_ok
                rcs a (a + b) _ ltac:(lia) I2 G3) as [-> I3].
    f_equal. unfold poseidon2, in_rounds. rewrite <- half_nat by assumption.
    fold a b. rewrite Hlast. reflexivity.
  - intros out Hrun.
    destruct (Forall_or good (firstn a (skipn 0 rcs)) good2_dec) as [G1|G1].
    2:{ destruct (rounds_bad inv good (p2_full Z 0 (fadd p) (fpow p) 5 t) full
          full2_ok good2_dec full2_bad rcs a 0 _ ltac:(lia) I0 G1) as [e E].
        rewrite E in Hrun. discriminate. }
    destruct (rounds_ok inv good (p2_full Z 0 (fadd p) (fpow p) 5 t) full full2_ok
                rcs a 0 _ ltac:(lia) I0 G1) as [E1 I1].
    rewrite E1 in Hrun. cbn [rbind] in Hrun. clear E1.
    destruct (Forall_or goodp (firstn b (skipn a rcs)) goodp2_dec) as [G2|G2].
    2:{ destruct (rounds_bad inv goodp (p2_partial Z (fadd p) (fmul p) (fpow p) 5 t diag) part
          part2_ok goodp2_dec part2_bad rcs b a _ ltac:(lia) I1 G2) as [e E].
        rewrite E in Hrun. discriminate. }
    destruct (rounds_ok inv goodp (p2_partial Z (fadd p) (fmul p) (fpow p) 5 t diag) part
                part2_ok rcs b a _ ltac:(lia) I1 G2) as [E2 I2].
    rewrite E2 in Hrun. cbn [rbind] in Hrun. clear E2.
    destruct (Forall_or good (firstn a (skipn (a + b) rcs)) good2_dec) as [G3|G3].
    2:{ destruct (rounds_bad inv good (p2_full Z 0 (fadd p) (fpow p) 5 t) full
          full2_ok good2_dec full2_bad rcs a (a + b) _ ltac:(lia) I2 G3) as [e E].
        rewrite E in Hrun. discriminate. }
    rewrite Hlast in G3. exact (conj G1 (conj G2 G3)).
Qed.

End P2.

Lemma p2_spec p t d rf rp diag rcs input : 1 < p ->
  0 <= rf -> 0 <= rp -> reduced p input -> reduced p diag ->
  let run := rbind (new_params Z (fun m => Z.of_nat (List.length m)) t d rf rp diag rcs)
                   (fun ps => p2_permutation Z 0 (fadd p) (fmul p) (fpow p) ps input) in
  (poseidon2_accepts input t d rf rp diag rcs ->
   run = Ok (poseidon2 p (Z.to_nat t) diag (Z.to_nat rf) (Z.to_nat rp) rcs input))
  /\ (forall out, run = Ok out -> poseidon2_accepts input t d rf rp diag rcs).
Proof.
  intros Hp Hrf Hrp Hin Hdr run. split.
  - intros (Hd & He & Ho & Ht & Hi & Hm & Hl & Hs).
    unfold run. rewrite new_params_ok by assumption. cbn [rbind].
    apply p2_core; assumption.
  - intros out Hrun.
    destruct (new_params Z (fun m => Z.of_nat (List.length m)) t d rf rp diag rcs)
      as [ps|e] eqn:En; [|discriminate].
    apply new_params_inv in En. destruct En as (Hd & Hm & He & Ho & Hl & Eps).
    unfold run in Hrun. cbn [rbind] in Hrun. rewrite Eps in Hrun.
    assert (Hi : len input = t).
    { unfold p2_permutation in Hrun. cbn [pt] in Hrun. unfold len.
      destruct (Z.eqb_spec (Z.of_nat (List.length input)) t) as [E|E]; [exact E|].
      discriminate. }
    assert (Ht : In t sizes).
    { destruct (in_dec Z.eq_dec t sizes) as [Ht|Ht]; [exact Ht|exfalso].
      destruct (ext_other p t input Ht) as [e E].
      unfold p2_permutation in Hrun. cbn [pt] in Hrun.
      unfold len in Hi. rewrite Hi, Z.eqb_refl in Hrun. cbn [negb] in Hrun. cbv zeta in Hrun.
      rewrite E in Hrun. discriminate. }
    refine (conj Hd (conj He (conj Ho (conj Ht (conj Hi (conj Hm (conj Hl _))))))).
    exact (proj2 (p2_core p Hp t Ht diag Hm Hdr rf rp rcs input Hrf Hrp Hin He Ho Hi Hl)
             out Hrun).
Qed.
