(* Reading, validating and displaying assets. *)
From Coq Require Import ZArith Lia List Bool.
From Verif Require Import Prelude ValModel HeapModel FrameModel AuthModel XdrModel StrkeyModel StrkeySpec
  StrkeyProofs StrkeyProofs2 AssetModel AssetSpec.
Import ListNotations.
Open Scope Z_scope.
Ltac Zify.zify_post_hook ::= idtac.

(* ------------------------------------------------------------------- XDR *)

Lemma take_iff n b p r : take n b = Ok (p, r) <-> b = p ++ r /\ length p = n.
Proof.
  unfold take. destruct (Nat.ltb_spec (length b) n) as [H|H].
  - split; [discriminate|]. intros [-> L]. rewrite app_length in H. lia.
  - split.
    + intros E. injection E as <- <-. split; [symmetry; apply firstn_skipn | apply firstn_length_le; lia].
    + intros [-> <-]. rewrite firstn_app, Nat.sub_diag, firstn_all, skipn_app, Nat.sub_diag, skipn_all.
      cbn [firstn skipn app]. now rewrite app_nil_r.
Qed.
Lemma disc_iff b d r k : are_bytes b -> 0 <= k < 4 ->
  (read_disc b = Ok (d, r) /\ d = k) <-> (b = [0; 0; 0; k] ++ r /\ d = k).
Proof.
  intros B K. unfold read_disc. split.
  - intros [E D]. subst d. destruct (take 4 b) as [[p q]|] eqn:T; [|discriminate].
    cbn [rbind fst snd] in E. injection E as E1 ->.
    apply take_iff in T as [-> L]. apply are_bytes_app in B as [Bp _].
    rewrite of_be_number in E1. split; [|reflexivity]. f_equal.
    apply number_inj; [exact L | exact Bp | repeat constructor; lia |].
    rewrite E1. cbn [number length]. rewrite !Z.mul_0_l. change (256 ^ Z.of_nat 0) with 1. lia.
  - intros [-> ->]. split; [|reflexivity].
    rewrite (proj2 (take_iff 4 ([0; 0; 0; k] ++ r) [0; 0; 0; k] r)) by (split; reflexivity).
    cbn [rbind fst snd]. reflexivity.
Qed.
Definition sized (a : xasset) : Prop :=
  match a with
  | XNative => True
  | XAlpha4 c i => length c = 4%nat /\ length i = 32%nat
  | XAlpha12 c i => length c = 12%nat /\ length i = 32%nat
  end.
Lemma read_account_iff b i r : are_bytes b ->
  read_account_id b = Ok (i, r) <-> b = [0; 0; 0; 0] ++ i ++ r /\ length i = 32%nat.
Proof.
  intros B. unfold read_account_id. split.
  - intros E. destruct (read_disc b) as [[d q]|] eqn:D; [|discriminate]. cbn [rbind fst snd] in E.
    destruct (Z.eqb_spec d 0) as [->|]; [|discriminate].
    destruct (proj1 (disc_iff b 0 q 0 B ltac:(lia)) (conj D eq_refl)) as [-> _].
    apply take_iff in E as [-> L]. auto.
  - intros [-> L]. destruct (proj2 (disc_iff _ 0 (i ++ r) 0 B ltac:(lia)) (conj eq_refl eq_refl)) as [D _].
    rewrite D. cbn [rbind fst snd]. rewrite Z.eqb_refl. now apply take_iff.
Qed.
Lemma read_credit_iff n b c i r : are_bytes b ->
  read_credit n b = Ok (c, i, r) <->
  b = c ++ [0; 0; 0; 0] ++ i ++ r /\ length c = n /\ length i = 32%nat.
Proof.
  intros B. unfold read_credit. split.
  - intros E. destruct (take n b) as [[p q]|] eqn:T; [|discriminate]. cbn [rbind fst snd] in E.
    apply take_iff in T as [-> L]. apply are_bytes_app in B as [_ Bq].
    destruct (read_account_id q) as [[i' r']|] eqn:A; [|discriminate]. cbn [rbind fst snd] in E.
    injection E as -> -> ->. apply read_account_iff in A as [-> Li]; [|exact Bq]. auto.
  - intros (-> & L & Li). rewrite (proj2 (take_iff n _ c _) (conj eq_refl L)). cbn [rbind fst snd].
    apply are_bytes_app in B as [_ Bq].
    rewrite (proj2 (read_account_iff _ i r Bq) (conj eq_refl Li)). reflexivity.
Qed.
Lemma at_end_iff {A} (x y : A) r : at_end x r = Ok y <-> x = y /\ r = [].
Proof. destruct r; cbn; split; try discriminate; [intros E; injection E; auto | intros [-> _]; auto | intros [_ E]; discriminate]. Qed.

Lemma asset_from_xdr_iff b a : are_bytes b ->
  asset_from_xdr b = Ok a <-> b = asset_to_xdr a /\ sized a.
Proof.
  intros B. unfold asset_from_xdr. split.
  - intros E. destruct (read_disc b) as [[d q]|] eqn:D; [|discriminate]. cbn [rbind fst snd] in E.
    destruct (Z.eqb_spec d 0) as [->|N0].
    { destruct (proj1 (disc_iff b 0 q 0 B ltac:(lia)) (conj D eq_refl)) as [-> _].
      apply at_end_iff in E as [<- ->]. cbn; auto. }
    destruct (Z.eqb_spec d 1) as [->|N1].
    { destruct (proj1 (disc_iff b 1 q 1 B ltac:(lia)) (conj D eq_refl)) as [-> _].
      apply are_bytes_app in B as [_ B].
      destruct (read_credit 4 q) as [[[c i] r]|] eqn:C; [|discriminate]. cbn [rbind fst snd] in E.
      apply at_end_iff in E as [<- ->]. apply read_credit_iff in C as (-> & Lc & Li); [|exact B].
      rewrite app_nil_r. cbn [sized asset_to_xdr]. auto. }
    destruct (Z.eqb_spec d 2) as [->|N2]; [|discriminate].
    { destruct (proj1 (disc_iff b 2 q 2 B ltac:(lia)) (conj D eq_refl)) as [-> _].
      apply are_bytes_app in B as [_ B].
      destruct (read_credit 12 q) as [[[c i] r]|] eqn:C; [|discriminate]. cbn [rbind fst snd] in E.
      apply at_end_iff in E as [<- ->]. apply read_credit_iff in C as (-> & Lc & Li); [|exact B].
      rewrite app_nil_r. cbn [sized asset_to_xdr]. auto. }
  - intros [-> S]. destruct a as [|c i|c i]; cbn [asset_to_xdr sized] in *.
    + reflexivity.
    + change (x32 1) with [0; 0; 0; 1] in *. change (x32 0) with [0; 0; 0; 0] in *.
      destruct (proj2 (disc_iff _ 1 (c ++ [0; 0; 0; 0] ++ i) 1 B ltac:(lia)) (conj eq_refl eq_refl)) as [D _].
      rewrite D. cbn [rbind fst snd]. cbn [Z.eqb Pos.eqb].
      apply are_bytes_app in B as [_ B].
      rewrite (proj2 (read_credit_iff 4 (c ++ [0; 0; 0; 0] ++ i) c i [] B)) by (rewrite app_nil_r; tauto).
      reflexivity.
    + change (x32 2) with [0; 0; 0; 2] in *. change (x32 0) with [0; 0; 0; 0] in *.
      destruct (proj2 (disc_iff _ 2 (c ++ [0; 0; 0; 0] ++ i) 2 B ltac:(lia)) (conj eq_refl eq_refl)) as [D _].
      rewrite D. cbn [rbind fst snd]. cbn [Z.eqb Pos.eqb].
      apply are_bytes_app in B as [_ B].
      rewrite (proj2 (read_credit_iff 12 (c ++ [0; 0; 0; 0] ++ i) c i [] B)) by (rewrite app_nil_r; tauto).
      reflexivity.
Qed.
Lemma asset_from_xdr_err b e : asset_from_xdr b = Err e -> e = e_xdr_short \/ e = e_xdr_bad.
Proof.
  assert (T : forall n b e, take n b = Err e -> e = e_xdr_short)
    by (intros n b' e'; unfold take; destruct (_ <? _)%nat; congruence).
  assert (D : forall b e, read_disc b = Err e -> e = e_xdr_short).
  { intros b' e'. unfold read_disc. destruct (take 4 b') as [[]|x] eqn:Q; cbn [rbind]; [discriminate|].
    intros E. injection E as <-. eapply T; eauto. }
  assert (C : forall n b e, read_credit n b = Err e -> e = e_xdr_short \/ e = e_xdr_bad).
  { intros n b' e'. unfold read_credit. destruct (take n b') as [[p q]|x] eqn:Q; cbn [rbind fst snd].
    - unfold read_account_id. destruct (read_disc q) as [[d r]|x] eqn:Q2; cbn [rbind fst snd].
      + destruct (d =? 0); cbn [rbind]; [|intros E; injection E as <-; auto].
        destruct (take 32 r) as [[]|x] eqn:Q3; cbn [rbind]; [discriminate|].
        intros E. injection E as <-. left. eapply T; eauto.
      + intros E. injection E as <-. left. eapply D; eauto.
    - intros E. injection E as <-. left. eapply T; eauto. }
  assert (N : forall A (x : A) r e, at_end x r = Err e -> e = e_xdr_bad)
    by (intros A x [] e'; cbn; congruence).
  unfold asset_from_xdr. destruct (read_disc b) as [[d q]|x] eqn:Q; cbn [rbind fst snd].
  - destruct (d =? 0); [intros E; right; eapply N; eauto|].
    destruct (d =? 1).
    { destruct (read_credit 4 q) as [[[]]|x] eqn:Q2; cbn [rbind fst snd];
        [intros E; right; eapply N; eauto | intros E; injection E as <-; eauto]. }
    destruct (d =? 2); [|intros E; injection E as <-; auto].
    destruct (read_credit 12 q) as [[[]]|x] eqn:Q2; cbn [rbind fst snd];
      [intros E; right; eapply N; eauto | intros E; injection E as <-; eauto].
  - intros E. injection E as <-. left. eapply D; eauto.
Qed.

(* ------------------------------------------------------------ validation *)

Lemma alnum_iff c : is_ascii_alphanumeric c = true <-> alphanumeric c.
Proof. unfold is_ascii_alphanumeric, alphanumeric. rewrite !orb_true_iff, !andb_true_iff, !Z.leb_le. lia. Qed.
Lemma scan_zeros l : forall k n, scan_code true k l = Ok n <-> l = repeat 0 (length l) /\ n = k.
Proof.
  induction l as [|c l IH]; intros k n; cbn [scan_code length repeat].
  - split; [intros E; injection E as <-; auto | intros [_ ->]; auto].
  - destruct (Z.eqb_spec c 0) as [->|N].
    + rewrite IH. split; [intros [E ->]; split; congruence | intros [E ->]; split; congruence].
    + split; [discriminate|]. intros [E _]. injection E as E _. contradiction.
Qed.
Lemma scan_iff l : forall k n, scan_code false k l = Ok n <->
  exists p z, l = p ++ repeat 0 z /\ Forall alphanumeric p /\ n = k + Z.of_nat (length p).
Proof.
  induction l as [|c l IH]; intros k n; cbn [scan_code].
  - split.
    + intros E. injection E as <-. exists [], 0%nat. cbn. repeat split; [constructor | lia].
    + intros (p & z & E & _ & ->). symmetry in E. apply app_eq_nil in E as [-> _]. cbn. f_equal. lia.
  - destruct (Z.eqb_spec c 0) as [->|N].
    + rewrite scan_zeros. split.
      * intros [E ->]. exists [], (S (length l)). cbn [app repeat length].
        repeat split; [congruence | constructor | lia].
      * intros (p & z & E & A & ->). destruct p as [|x p].
        -- cbn [app length] in *. destruct z as [|z]; [discriminate|]. cbn [repeat] in E.
           injection E as ->. rewrite repeat_length. split; [reflexivity | lia].
        -- cbn [app] in E. injection E as <- _. inversion A as [|? ? A0 _]. unfold alphanumeric in A0. lia.
    + destruct ((127 <? c) || negb (is_ascii_alphanumeric c)) eqn:V.
      * split; [discriminate|]. intros (p & z & E & A & _). destruct p as [|x p].
        -- destruct z; cbn in E; [discriminate|]. injection E as E _. contradiction.
        -- cbn [app] in E. injection E as <- _. inversion A as [|? ? A0 _]; subst.
           apply alnum_iff in A0 as A1. rewrite A1 in V. unfold alphanumeric in A0.
           apply orb_true_iff in V as [V|V]; [apply Z.ltb_lt in V; lia | discriminate].
      * apply orb_false_iff in V as [_ V]. apply negb_false_iff, alnum_iff in V.
        rewrite IH. split.
        -- intros (p & z & -> & A & ->). exists (c :: p), z. cbn [app length].
           repeat split; [constructor; assumption | lia].
        -- intros (p & z & E & A & ->). destruct p as [|x p].
           ++ destruct z; cbn in E; [discriminate|]. injection E as E _. contradiction.
           ++ cbn [app] in E. injection E as <- ->. inversion A; subst.
              exists p, z. repeat split; [assumption | cbn [length]; lia].
Qed.
Lemma validate_iff c : validate_asset_code c = Ok tt <->
  exists p, c = fill (length c) p /\ Forall alphanumeric p /\
            (1 <= length p <= length c)%nat /\ (4 < length c -> 4 < length p)%nat.
Proof.
  unfold validate_asset_code, fill. split.
  - intros E. destruct (scan_code false 0 c) as [n|] eqn:S; [|discriminate]. cbn [rbind] in E.
    apply scan_iff in S as (p & z & -> & A & ->).
    destruct (Z.eqb_spec (0 + Z.of_nat (length p)) 0) as [|N0]; [discriminate|].
    match type of E with (if ?b then _ else _) = _ => destruct b eqn:V; [discriminate|] end.
    rewrite app_length, repeat_length in *. exists p. split.
    { do 2 f_equal. lia. }
    split; [exact A|]. split; [lia|]. intros L.
    apply andb_false_iff in V as [V|V]; [apply Z.leb_gt in V; lia | apply Nat.ltb_ge in V; lia].
  - intros (p & E & A & L & F).
    rewrite (proj2 (scan_iff c 0 (Z.of_nat (length p)))) by (exists p, (length c - length p)%nat; auto).
    cbn [rbind]. replace (Z.of_nat (length p) =? 0) with false by (symmetry; apply Z.eqb_neq; lia).
    replace ((Z.of_nat (length p) <=? 4) && (4 <? length c)%nat) with false; [reflexivity|].
    symmetry. apply andb_false_iff. destruct (Nat.ltb_spec 4 (length c)) as [H|H]; [|auto].
    left. apply Z.leb_gt. specialize (F H). lia.
Qed.
Lemma validate_err a e : validate_asset a = Err e -> e = e_xdr_bad.
Proof.
  assert (S : forall l h k e, scan_code h k l = Err e -> e = e_xdr_bad).
  { induction l as [|c l IH]; intros h k e'; cbn [scan_code]; [discriminate|].
    destruct (c =? 0); [apply IH|]. destruct h; [congruence|].
    destruct (_ || _); [congruence | apply IH]. }
  assert (V : forall c e, validate_asset_code c = Err e -> e = e_xdr_bad).
  { intros c e'. unfold validate_asset_code. destruct (scan_code false 0 c) as [n|x] eqn:Q; cbn [rbind].
    - destruct (n =? 0); [congruence|]. destruct (_ && _); congruence.
    - intros E. injection E as <-. eapply S; eauto. }
  destruct a; cbn [validate_asset]; [discriminate | apply V | apply V].
Qed.

(* the asset behind the XDR *)
Definition x_of (a : asset) : xasset :=
  match a with
  | Lumens => XNative
  | Issued c i => if (length c <=? 4)%nat then XAlpha4 (fill 4 c) i else XAlpha12 (fill 12 c) i
  end.
Lemma fill_length n l : (length l <= n)%nat -> length (fill n l) = n.
Proof. unfold fill. rewrite app_length, repeat_length. lia. Qed.
Lemma alnum_bytes l : Forall alphanumeric l -> are_bytes l.
Proof. apply Forall_impl. unfold alphanumeric. lia. Qed.
Lemma zeros_bytes n : are_bytes (repeat 0 n).
Proof. induction n; constructor; [lia | assumption]. Qed.
Lemma asset_bytes_x a : asset_bytes a = asset_to_xdr (x_of a).
Proof.
  destruct a as [|c i]; [reflexivity|]. cbn [asset_bytes x_of].
  destruct (length c <=? 4)%nat; cbn [asset_to_xdr]; rewrite <- app_assoc; reflexivity.
Qed.
Lemma asset_bytes_bytes a : proper a -> are_bytes (asset_bytes a).
Proof.
  destruct a as [|c i]; cbn [proper asset_bytes]; [intros _; repeat constructor; lia|].
  intros (L & A & Li & Bi). apply are_bytes_app. split.
  - destruct (length c <=? 4)%nat; apply are_bytes_app; (split; [repeat constructor; lia|]);
      apply are_bytes_app; (split; [now apply alnum_bytes | apply zeros_bytes]).
  - apply are_bytes_app. split; [repeat constructor; lia | exact Bi].
Qed.
Lemma x_of_sized a : proper a -> sized (x_of a).
Proof.
  destruct a as [|c i]; cbn [proper x_of]; [constructor|]. intros (L & A & Li & Bi).
  destruct (Nat.leb_spec (length c) 4); cbn [sized]; rewrite fill_length by lia; auto.
Qed.
Lemma decode_valid b x : are_bytes b ->
  (asset_from_xdr b = Ok x /\ validate_asset x = Ok tt) <->
  exists a, proper a /\ b = asset_bytes a /\ x = x_of a.
Proof.
  intros B. rewrite asset_from_xdr_iff by exact B. split.
  - intros [[-> S] V]. destruct x as [|c i|c i]; cbn [validate_asset sized asset_to_xdr] in *.
    + exists Lumens. cbn. auto.
    + destruct S as [Lc Li]. apply validate_iff in V as (p & E & A & L & _). rewrite Lc in *.
      exists (Issued p i). assert (Lb : (length p <=? 4)%nat = true) by (apply Nat.leb_le; lia).
      cbn [proper asset_bytes x_of]. rewrite Lb, <- E.
      apply are_bytes_app in B as [_ B]. apply are_bytes_app in B as [_ B]. apply are_bytes_app in B as [_ B].
      (split; [split; [lia | auto] | split; [now rewrite <- app_assoc | reflexivity]]).
    + destruct S as [Lc Li]. apply validate_iff in V as (p & E & A & L & F). rewrite Lc in *.
      exists (Issued p i). assert (Lb : (length p <=? 4)%nat = false) by (apply Nat.leb_gt; lia).
      cbn [proper asset_bytes x_of]. rewrite Lb, <- E.
      apply are_bytes_app in B as [_ B]. apply are_bytes_app in B as [_ B]. apply are_bytes_app in B as [_ B].
      (split; [split; [lia | auto] | split; [now rewrite <- app_assoc | reflexivity]]).
  - intros (a & P & -> & ->). split; [split; [apply asset_bytes_x | now apply x_of_sized]|].
    destruct a as [|c i]; [reflexivity|]. cbn [x_of proper] in *. destruct P as (L & A & _).
    destruct (Nat.leb_spec (length c) 4) as [H|H]; cbn [validate_asset]; apply validate_iff; exists c;
      rewrite fill_length by lia; (split; [reflexivity | split; [exact A | lia]]).
Qed.
Lemma x_of_inj a b : proper a -> proper b -> x_of a = x_of b -> a = b.
Proof.
  assert (G : forall n c d, Forall alphanumeric c -> Forall alphanumeric d -> fill n c = fill n d -> c = d).
  { intros n c d. unfold fill. generalize (n - length c)%nat (n - length d)%nat. clear n.
    revert d. induction c as [|x c IH]; intros [|y d] u v A B E.
    - reflexivity.
    - exfalso. inversion B as [|? ? B0 _]; subst. destruct u; cbn in E; [discriminate|].
      injection E as E _. unfold alphanumeric in B0. lia.
    - exfalso. inversion A as [|? ? A0 _]; subst. destruct v; cbn in E; [discriminate|].
      injection E as E _. unfold alphanumeric in A0. lia.
    - cbn [app] in E. injection E as <- E. inversion A; inversion B; subst. f_equal. eapply IH; eauto. }
  destruct a as [|c i], b as [|d j]; cbn [x_of proper]; intros P Q E.
  - reflexivity.
  - destruct (length d <=? 4)%nat; discriminate.
  - destruct (length c <=? 4)%nat; discriminate.
  - destruct P as (_ & A & _), Q as (_ & B & _).
    destruct (length c <=? 4)%nat, (length d <=? 4)%nat; try discriminate.
    + assert (fill 4 c = fill 4 d /\ i = j) as [E1 ->] by (split; congruence). f_equal. eapply G; eauto.
    + assert (fill 12 c = fill 12 d /\ i = j) as [E1 ->] by (split; congruence). f_equal. eapply G; eauto.
Qed.
Lemma asset_bytes_inj a b : proper a -> proper b -> asset_bytes a = asset_bytes b -> a = b.
Proof.
  intros P Q E. apply x_of_inj; [exact P | exact Q|].
  pose proof (asset_bytes_bytes b Q) as B.
  destruct (proj2 (decode_valid _ (x_of a) B) (ex_intro _ a (conj P (conj (eq_sym E) eq_refl)))) as [Ea _].
  destruct (proj2 (decode_valid _ (x_of b) B) (ex_intro _ b (conj Q (conj eq_refl eq_refl)))) as [Eb _].
  congruence.
Qed.

(* --------------------------------------------------------------- display *)

Definition unit_of (x : Z) : list Z := if is_escaped x then escape x else [x].
Lemma until_zero_app p z : Forall (fun x => x <> 0) p -> until_zero (p ++ repeat 0 z) = p.
Proof.
  induction 1 as [|x p N _ IH]; cbn [app until_zero].
  - destruct z; reflexivity.
  - apply Z.eqb_neq in N. rewrite N, IH. reflexivity.
Qed.
Lemma render4 l : forall i, render_from 4 i l = flat_map unit_of (until_zero l).
Proof.
  induction l as [|x l IH]; intros i; [reflexivity|]. cbn [render_from until_zero].
  change (4 =? 4)%nat with true. rewrite andb_true_r. destruct (x =? 0); [reflexivity|].
  cbn [andb flat_map]. unfold unit_of at 1. rewrite IH. destruct (is_escaped x); reflexivity.
Qed.
Lemma render12_late l : forall i, (4 < i)%nat -> render_from 12 i l = flat_map unit_of (until_zero l).
Proof.
  induction l as [|x l IH]; intros i H; [reflexivity|]. cbn [render_from until_zero].
  change (12 =? 4)%nat with false. change (12 =? 12)%nat with true. rewrite andb_false_r, andb_true_r.
  replace (4 <? i)%nat with true by (symmetry; now apply Nat.ltb_lt). rewrite andb_true_r.
  destruct (x =? 0); [reflexivity|].
  cbn [flat_map]. unfold unit_of at 1. rewrite IH by lia. destruct (is_escaped x); reflexivity.
Qed.
Lemma render12 a b c d e l : render_from 12 0 (a :: b :: c :: d :: e :: l) =
  flat_map unit_of ([a; b; c; d; e] ++ until_zero l).
Proof.
  assert (S : forall x i r, (i <= 4)%nat ->
    render_from 12 i (x :: r) = unit_of x ++ render_from 12 (S i) r).
  { intros x i r H. cbn [render_from]. change (12 =? 4)%nat with false. change (12 =? 12)%nat with true.
    replace (4 <? i)%nat with false by (symmetry; now apply Nat.ltb_ge). rewrite !andb_false_r.
    unfold unit_of. destruct (is_escaped x); reflexivity. }
  rewrite !S by lia. rewrite render12_late by lia. cbn [app flat_map]. reflexivity.
Qed.
Lemma render_significant c : length c = 4%nat \/ length c = 12%nat ->
  render_sep0011_asset_code c = Ok (flat_map unit_of (significant c)).
Proof.
  intros H. unfold render_sep0011_asset_code, significant. destruct H as [H|H]; rewrite H.
  - cbn [Nat.eqb negb andb]. now rewrite render4.
  - change (12 =? 4)%nat with false. change (12 =? 12)%nat with true. cbn [negb andb].
    destruct c as [|x1 [|x2 [|x3 [|x4 [|x5 c]]]]]; try discriminate H. cbn [firstn skipn].
    now rewrite render12.
Qed.
Lemma alnum_unit l : Forall alphanumeric l -> flat_map unit_of l = l.
Proof.
  induction 1 as [|x l A _ IH]; [reflexivity|]. cbn [flat_map]. rewrite IH. unfold unit_of.
  replace (is_escaped x) with false; [reflexivity|]. symmetry. unfold is_escaped, alphanumeric in *.
  rewrite !orb_false_iff, !andb_false_iff, !Z.eqb_neq, !Z.leb_gt. lia.
Qed.
Lemma alnum_nonzero l : Forall alphanumeric l -> Forall (fun x => x <> 0) l.
Proof. apply Forall_impl. unfold alphanumeric. lia. Qed.
Lemma significant_fill c n : Forall alphanumeric c ->
  (n = 4 /\ length c <= 4 \/ n = 12 /\ 5 <= length c <= 12)%nat -> significant (fill n c) = c.
Proof.
  intros A [[-> L]|[-> L]]; unfold significant; rewrite fill_length by lia.
  - change (4 =? 4)%nat with true. cbv iota. apply until_zero_app, alnum_nonzero, A.
  - change (12 =? 4)%nat with false. cbv iota. unfold fill.
    rewrite firstn_app, skipn_app. replace (5 - length c)%nat with 0%nat by lia.
    rewrite firstn_O, skipn_O, app_nil_r, until_zero_app; [apply firstn_skipn|].
    apply alnum_nonzero. rewrite <- (firstn_skipn 5 c) in A. apply Forall_app in A. tauto.
Qed.

Lemma hex_inj u v : 0 <= u < 16 -> 0 <= v < 16 -> hex u = hex v -> u = v.
Proof. unfold hex. intros Hu Hv. destruct (Z.ltb_spec u 10), (Z.ltb_spec v 10); lia. Qed.
Lemma units_inj l : forall m, are_bytes l -> are_bytes m ->
  flat_map unit_of l = flat_map unit_of m -> l = m.
Proof.
  induction l as [|x l IH]; intros [|y m] Bl Bm E.
  - reflexivity.
  - exfalso. cbn [flat_map] in E. unfold unit_of at 1 in E. destruct (is_escaped y); discriminate.
  - exfalso. cbn [flat_map] in E. unfold unit_of at 1 in E. destruct (is_escaped x); discriminate.
  - inversion Bl as [|? ? Bx Bl']; inversion Bm as [|? ? By Bm']; subst.
    cbn [flat_map] in E. unfold unit_of at 1 3 in E.
    destruct (is_escaped x) eqn:Ex, (is_escaped y) eqn:Ey; unfold escape in E; cbn [app] in E.
    + injection E as E1 E2 E3.
      assert (D : forall z, 0 <= z < 256 -> 0 <= z / 16 < 16).
      { intros z Hz. split; [apply Z.div_pos; lia | apply Z.div_lt_upper_bound; lia]. }
      apply hex_inj in E1; [|now apply D|now apply D].
      apply hex_inj in E2; [|apply Z.mod_pos_bound; lia|apply Z.mod_pos_bound; lia].
      assert (x = y) as <- by (rewrite (Z.div_mod x 16), (Z.div_mod y 16) by lia; congruence).
      f_equal. apply IH; assumption.
    + exfalso. injection E as E _. subst y. discriminate Ey.
    + exfalso. injection E as E _. subst x. discriminate Ex.
    + injection E as -> E. f_equal. apply IH; assumption.
Qed.
Lemma until_zero_length l : (length (until_zero l) <= length l)%nat.
Proof. induction l as [|x l IH]; cbn [until_zero length]; [lia|]. destruct (x =? 0); cbn [length]; lia. Qed.
Lemma until_zero_bytes l : are_bytes l -> are_bytes (until_zero l).
Proof.
  induction 1 as [|x l B _ IH]; cbn [until_zero]; [constructor|]. destruct (x =? 0); constructor; assumption.
Qed.
Lemma significant_bytes c : are_bytes c -> are_bytes (significant c).
Proof.
  intros B. unfold significant. destruct (length c =? 4)%nat; [now apply until_zero_bytes|].
  rewrite <- (firstn_skipn 5 c) in B. apply are_bytes_app in B as [B1 B2].
  apply are_bytes_app. split; [exact B1 | now apply until_zero_bytes].
Qed.
