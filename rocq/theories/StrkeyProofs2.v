(* Strkeys as a whole: one spelling for each address, mistakes detected. *)
From Coq Require Import ZArith Lia List Bool.
From Verif Require Import Prelude ValModel HeapModel StrkeyModel StrkeySpec StrkeyProofs.
Import ListNotations.
Open Scope Z_scope.
Ltac Zify.zify_post_hook ::= idtac.

Definition body (ver : Z) (p : list Z) : list bool := flat_map (bits 8) (ver :: p).
Definition core (ver : Z) (p : list Z) : list bool :=
  flat_map (bits 8) (ver :: p ++ checksum (ver :: p)).

Lemma bytes_ranged l : are_bytes l -> ranged 8 l.
Proof. exact (fun H => H). Qed.
Lemma number_bytes l : are_bytes l -> number 256 l = num (flat_map (bits 8) l).
Proof. exact (number_bits 8 l). Qed.
Lemma are_bytes_app a b : are_bytes (a ++ b) <-> are_bytes a /\ are_bytes b.
Proof. apply Forall_app. Qed.
Lemma crc_range l : are_bytes l -> 0 <= crc l < 2 ^ 16.
Proof. intros B. unfold crc. rewrite crc_as_bits by exact B. apply crc_bits_range. lia. Qed.
Lemma word_bytes c : 0 <= c < 2 ^ 16 -> are_bytes [c mod 256; c / 256].
Proof.
  intros H. constructor; [apply Z.mod_pos_bound; lia|]. constructor; [|constructor].
  split; [apply Z.div_pos; lia | apply Z.div_lt_upper_bound; lia].
Qed.
Lemma checksum_bytes l : are_bytes l -> are_bytes (checksum l).
Proof. intros B. apply word_bytes, crc_range, B. Qed.
Lemma core_bytes ver p : are_bytes (ver :: p) -> are_bytes (ver :: p ++ checksum (ver :: p)).
Proof.
  intros B. change (ver :: p ++ checksum (ver :: p)) with ((ver :: p) ++ checksum (ver :: p)).
  apply are_bytes_app. split; [exact B | apply checksum_bytes, B].
Qed.

Lemma is_strkey_writes ver p s : are_bytes (ver :: p) ->
  (is_strkey ver p s <-> writes s (core ver p)).
Proof.
  intros B. pose proof (core_bytes ver p B) as CB. split.
  - intros (ds & c & k & F & C & E & L & K).
    rewrite number_bytes in C by exact B. apply checksum_iff in C.
    assert (c = crc (ver :: p)) as -> by (rewrite C; symmetry; apply crc_as_bits, B).
    exists ds, (Z.to_nat k). split; [exact F|]. split; [lia|].
    pose proof (letters_length _ _ F) as Ln. apply num_inj.
    + unfold core. rewrite app_length, !flat_bits_length, repeat_length.
      cbn [length]. rewrite app_length. cbn [checksum length]. lia.
    + rewrite num_app, num_zeros, repeat_length, Z2Nat.id, Z.add_0_r by lia.
      change (ver :: p ++ [crc (ver :: p) mod 256; crc (ver :: p) / 256])
        with (ver :: p ++ checksum (ver :: p)) in E.
      rewrite number_bytes in E by exact CB.
      change 32 with (2 ^ Z.of_nat 5) in E.
      rewrite number_bits in E by (eapply letters_ranged; exact F). exact E.
  - intros (ds & k & F & K & E).
    exists ds, (crc (ver :: p)), (Z.of_nat k). split; [exact F|].
    split. { rewrite number_bytes by exact B. apply checksum_iff. apply crc_as_bits, B. }
    pose proof (letters_length _ _ F) as Ln.
    split.
    + change (ver :: p ++ [crc (ver :: p) mod 256; crc (ver :: p) / 256])
        with (ver :: p ++ checksum (ver :: p)).
      rewrite number_bytes by exact CB. change 32 with (2 ^ Z.of_nat 5).
      rewrite number_bits by (eapply letters_ranged; exact F).
      rewrite E, num_app, num_zeros, repeat_length, Z.add_0_r. reflexivity.
    + apply (f_equal (@length bool)) in E. unfold core in E.
      rewrite app_length, !flat_bits_length, repeat_length in E.
      cbn [length] in E. rewrite app_length in E. cbn [checksum length] in E. lia.
Qed.
Lemma encode_iff ver p s : encode ver p = s <-> writes s (core ver p).
Proof. apply encode32_iff. Qed.

Lemma bytes_eqb_eq a b : bytes_eqb a b = true <-> a = b.
Proof. unfold bytes_eqb. destruct (list_eq_dec Z.eq_dec a b); split; congruence. Qed.
Lemma decode_iff s ver p :
  decode s = Some (ver, p) <-> are_bytes (ver :: p) /\ writes s (core ver p).
Proof.
  unfold decode. split.
  - intros E. destruct (decode32 s) as [d|] eqn:D; [|discriminate].
    apply decode32_iff in D as [B W].
    destruct (length d <? 3)%nat eqn:L; [discriminate|]. apply Nat.ltb_ge in L.
    destruct (bytes_eqb _ _) eqn:Q; [|discriminate]. apply bytes_eqb_eq in Q.
    destruct (firstn (length d - 2) d) as [|v q] eqn:F; [discriminate|].
    injection E as -> ->.
    assert (d = ver :: p ++ checksum (ver :: p)) as ->.
    { rewrite <- (firstn_skipn (length d - 2) d), F, Q. reflexivity. }
    split; [|exact W].
    apply (are_bytes_app (ver :: p) (checksum (ver :: p))) in B. tauto.
  - intros [B W]. pose proof (core_bytes ver p B) as CB.
    rewrite (proj2 (decode32_iff s (ver :: p ++ checksum (ver :: p))) (conj CB W)).
    set (d := ver :: p ++ checksum (ver :: p)).
    assert (Ld : length d = (length p + 3)%nat)
      by (unfold d; cbn [length]; rewrite app_length; cbn [checksum length]; lia).
    replace (length d <? 3)%nat with false by (symmetry; apply Nat.ltb_ge; lia).
    replace (length d - 2)%nat with (length (ver :: p)) by (cbn [length]; lia).
    change d with ((ver :: p) ++ checksum (ver :: p)).
    rewrite firstn_app, Nat.sub_diag, firstn_all, skipn_app, Nat.sub_diag, skipn_all.
    cbn [firstn skipn]. rewrite app_nil_r. cbn [app].
    replace (bytes_eqb (checksum (ver :: p)) (checksum (ver :: p))) with true
      by (symmetry; now apply bytes_eqb_eq). reflexivity.
Qed.
Lemma decode_encode ver p : are_bytes (ver :: p) -> decode (encode ver p) = Some (ver, p).
Proof. intros B. apply decode_iff. split; [exact B|]. now apply encode_iff. Qed.

(* a muxed account's id *)
Lemma of_be_number l : of_be l = number 256 l.
Proof.
  assert (G : forall l a, fold_left (fun a b => 256 * a + b) l a
                          = a * 256 ^ Z.of_nat (length l) + number 256 l).
  { clear l. induction l as [|b l IH]; intros a; cbn [fold_left number length].
    - change (256 ^ Z.of_nat 0) with 1. lia.
    - rewrite IH, Nat2Z.inj_succ, Z.pow_succ_r by lia. ring. }
  unfold of_be. rewrite G. lia.
Qed.
Lemma be_bytes_bytes n x : are_bytes (be_bytes n x).
Proof.
  unfold be_bytes. apply Forall_forall. intros b H. apply in_map_iff in H as (i & <- & _).
  apply Z.mod_pos_bound. lia.
Qed.
Lemma be_bytes_length n x : length (be_bytes n x) = n.
Proof. unfold be_bytes. now rewrite map_length, seq_length. Qed.
Lemma be_bytes_number x : 0 <= x < 2 ^ 64 -> number 256 (be_bytes 8 x) = x.
Proof.
  intros H.
  assert (S : forall k, 0 <= k -> (x / 256 ^ k) mod 256 = x / 256 ^ k - 256 * (x / 256 ^ (k + 1))).
  { intros k Hk. rewrite Z.mod_eq by lia. rewrite Z.div_div by lia.
    rewrite Z.pow_add_r by lia. reflexivity. }
  assert (T : x / 256 ^ 8 = 0) by (apply Z.div_small; change (256 ^ 8) with (2 ^ 64); exact H).
  change (be_bytes 8 x) with
    [(x / 256 ^ 7) mod 256; (x / 256 ^ 6) mod 256; (x / 256 ^ 5) mod 256; (x / 256 ^ 4) mod 256;
     (x / 256 ^ 3) mod 256; (x / 256 ^ 2) mod 256; (x / 256 ^ 1) mod 256; (x / 256 ^ 0) mod 256].
  rewrite (S 7), (S 6), (S 5), (S 4), (S 3), (S 2), (S 1), (S 0) by lia.
  change (7 + 1) with 8. change (6 + 1) with 7. change (5 + 1) with 6. change (4 + 1) with 5.
  change (3 + 1) with 4. change (2 + 1) with 3. change (1 + 1) with 2. change (0 + 1) with 1.
  rewrite T. replace (x / 256 ^ 0) with x by (change (256 ^ 0) with 1; now rewrite Z.div_1_r).
  generalize (x / 256 ^ 7) (x / 256 ^ 6) (x / 256 ^ 5) (x / 256 ^ 4) (x / 256 ^ 3)
             (x / 256 ^ 2) (x / 256 ^ 1). intros.
  cbn [number length]. change (Z.of_nat 7) with 7. change (Z.of_nat 6) with 6. change (Z.of_nat 5) with 5.
  change (Z.of_nat 4) with 4. change (Z.of_nat 3) with 3. change (Z.of_nat 2) with 2.
  change (Z.of_nat 1) with 1. change (Z.of_nat 0) with 0. ring.
Qed.
Lemma number_inj a b : length a = length b -> are_bytes a -> are_bytes b ->
  number 256 a = number 256 b -> a = b.
Proof.
  intros L A B E. rewrite !number_bytes in E by assumption.
  apply (flat_bits_inj 8); try assumption.
  apply num_inj; [rewrite !flat_bits_length; congruence | exact E].
Qed.
Lemma number_bound l : are_bytes l -> 0 <= number 256 l < 256 ^ Z.of_nat (length l).
Proof.
  intros B. rewrite number_bytes by exact B. pose proof (num_bound (flat_map (bits 8) l)) as N.
  rewrite flat_bits_length in N. replace (256 ^ Z.of_nat (length l)) with (2 ^ Z.of_nat (8 * length l)); [exact N|].
  change 256 with (2 ^ 8). rewrite <- Z.pow_mul_r by lia. f_equal. lia.
Qed.

(* ------------------------------------------------ the strkey of an address *)

Definition kind_of (a : addr) : strkey_kind :=
  match a with
  | AAccount k => KPublicKey k
  | AContract i => KContract i
  | AMuxed i k => KMuxed i k
  | AOther _ _ => KOther
  end.
Lemma spelled_iff a s : writable a -> (spelled a s <-> kind_to_string (kind_of a) = s).
Proof.
  intros W. destruct a as [k|k|i k|d p]; cbn [spelled kind_of kind_to_string].
  - destruct W as [L B]. rewrite encode_iff. apply (is_strkey_writes 48). constructor; [lia | exact B].
  - destruct W as [L B]. rewrite encode_iff. apply (is_strkey_writes 16). constructor; [lia | exact B].
  - destruct W as (L & B & R). rewrite encode_iff. split.
    + intros (t & Lt & Bt & <- & H).
      assert (t = be_bytes 8 (number 256 t)) as E.
      { apply number_inj; [rewrite be_bytes_length; exact Lt | exact Bt | apply be_bytes_bytes |].
        now rewrite be_bytes_number. }
      rewrite <- E. apply (is_strkey_writes 96) in H; [exact H|].
      constructor; [lia|]. apply are_bytes_app. auto.
    + intros H. exists (be_bytes 8 i). split; [apply be_bytes_length|]. split; [apply be_bytes_bytes|].
      split; [now apply be_bytes_number|]. apply (is_strkey_writes 96); [|exact H].
      constructor; [lia|]. apply are_bytes_app. split; [exact B | apply be_bytes_bytes].
  - destruct W.
Qed.
Lemma from_string_iff s a : writable a ->
  (kind_from_string s = Some (kind_of a) <-> kind_to_string (kind_of a) = s).
Proof.
  intros W. unfold kind_from_string. split.
  - intros E. destruct (decode s) as [[ver p]|] eqn:D; [|discriminate].
    apply decode_iff in D as [B Wr]. apply encode_iff in Wr. subst s.
    destruct (Z.eqb_spec ver v_public_key) as [->|N1].
    { destruct (length p =? 32)%nat; [|discriminate].
      destruct a; cbn [kind_of] in E; try discriminate. injection E as ->. reflexivity. }
    destruct (Z.eqb_spec ver v_contract) as [->|N2].
    { destruct (length p =? 32)%nat; [|discriminate].
      destruct a; cbn [kind_of] in E; try discriminate. injection E as ->. reflexivity. }
    destruct (Z.eqb_spec ver v_muxed) as [->|N3].
    { destruct (length p =? 40)%nat eqn:L; [|discriminate]. apply Nat.eqb_eq in L.
      destruct a as [| |i k|]; cbn [kind_of] in E; try discriminate.
      set (f := firstn 32 p) in *. set (g := skipn 32 p) in *.
      assert (Ef : f ++ g = p) by apply firstn_skipn.
      assert (Ei : i = of_be g /\ k = f) by (split; congruence). destruct Ei as [-> ->].
      cbn [kind_of kind_to_string]. f_equal. rewrite <- Ef. f_equal.
      assert (Bt : are_bytes g) by (inversion B as [|? ? _ Bp]; rewrite <- Ef in Bp; apply are_bytes_app in Bp; tauto).
      assert (Lt : length g = 8%nat) by (unfold g; rewrite skipn_length; lia).
      rewrite of_be_number.
      apply number_inj; [now rewrite be_bytes_length | apply be_bytes_bytes | exact Bt |].
      apply be_bytes_number. pose proof (number_bound _ Bt) as R. rewrite Lt in R. exact R. }
    destruct a; cbn [kind_of] in E; try discriminate. destruct W.
  - intros <-. destruct a as [k|k|i k|d p]; cbn [kind_of kind_to_string].
    + destruct W as [L B]. rewrite decode_encode by (constructor; [unfold v_public_key; lia | exact B]).
      rewrite Z.eqb_refl. now rewrite (proj2 (Nat.eqb_eq _ _) L).
    + destruct W as [L B]. rewrite decode_encode by (constructor; [unfold v_contract; lia | exact B]).
      change (v_contract =? v_public_key) with false. rewrite Z.eqb_refl. cbv iota.
      now rewrite (proj2 (Nat.eqb_eq _ _) L).
    + destruct W as (L & B & R).
      rewrite decode_encode by
        (constructor; [unfold v_muxed; lia | apply are_bytes_app; split; [exact B | apply be_bytes_bytes]]).
      change (v_muxed =? v_public_key) with false. change (v_muxed =? v_contract) with false.
      rewrite Z.eqb_refl. cbv iota.
      rewrite app_length, be_bytes_length, L. change (32 + 8 =? 40)%nat with true. cbv iota.
      rewrite <- L, firstn_app, Nat.sub_diag, firstn_all, skipn_app, Nat.sub_diag, skipn_all.
      cbn [firstn skipn app]. rewrite app_nil_r, of_be_number, be_bytes_number by exact R. reflexivity.
    + destruct W.
Qed.
(* whatever is parsed is writable *)
Definition addr_of (k : strkey_kind) : addr :=
  match k with
  | KPublicKey k => AAccount k
  | KContract i => AContract i
  | KMuxed i k => AMuxed i k
  | KOther => AOther 0 []
  end.
Lemma from_string_writable s k : kind_from_string s = Some k -> k <> KOther ->
  writable (addr_of k) /\ kind_of (addr_of k) = k.
Proof.
  unfold kind_from_string. intros E N.
  destruct (decode s) as [[ver p]|] eqn:D; [|discriminate].
  apply decode_iff in D as [B _]. inversion B as [|? ? _ Bp]; subst.
  destruct (ver =? v_public_key).
  { destruct (length p =? 32)%nat eqn:L; [|discriminate]. apply Nat.eqb_eq in L.
    injection E as <-. cbn. auto. }
  destruct (ver =? v_contract).
  { destruct (length p =? 32)%nat eqn:L; [|discriminate]. apply Nat.eqb_eq in L.
    injection E as <-. cbn. auto. }
  destruct (ver =? v_muxed).
  { destruct (length p =? 40)%nat eqn:L; [|discriminate]. apply Nat.eqb_eq in L.
    assert (Lt : length (skipn 32 p) = 8%nat) by (rewrite skipn_length; lia).
    assert (Lf : length (firstn 32 p) = 32%nat) by (rewrite firstn_length; lia).
    rewrite <- (firstn_skipn 32 p) in Bp. apply are_bytes_app in Bp as [Bk Bt].
    set (f := firstn 32 p) in *. set (g := skipn 32 p) in *.
    assert (k = KMuxed (of_be g) f) as -> by congruence.
    cbn [addr_of kind_of writable]. repeat split.
    - exact Lf.
    - exact Bk.
    - rewrite of_be_number. apply (number_bound _ Bt).
    - rewrite of_be_number. pose proof (number_bound _ Bt) as R. rewrite Lt in R. apply R. }
  injection E as <-. contradiction.
Qed.

Lemma spelled_length a s : writable a -> spelled a s ->
  length s = match a with AMuxed _ _ => 69%nat | _ => 56%nat end.
Proof.
  intros W S. destruct a as [k|k|i k|d p]; cbn [spelled] in S.
  - destruct W as [L _], S as (? & ? & ? & _ & _ & _ & E & K). rewrite L in E. lia.
  - destruct W as [L _], S as (? & ? & ? & _ & _ & _ & E & K). rewrite L in E. lia.
  - destruct W as (L & _), S as (t & Lt & _ & _ & ? & ? & ? & _ & _ & _ & E & K).
    rewrite app_length, L, Lt in E. lia.
  - destruct W.
Qed.

Lemma scaddress_iff s a (m : bool) :
  (strkey_to_scaddress (Some (HOString s)) m = Ok a <->
   writable a /\ (is_muxed a -> m = true) /\ spelled a s).
Proof.
  unfold strkey_to_scaddress. cbn beta iota.
  set (vl := if m then _ else _). split.
  - intros E. destruct (negb vl) eqn:V; [discriminate|].
    destruct (kind_from_string s) as [k|] eqn:K; [|discriminate].
    assert (N : k <> KOther) by (intros ->; discriminate).
    destruct (from_string_writable s k K N) as [W Q].
    assert (S : spelled (addr_of k) s).
    { apply spelled_iff; [exact W|]. apply from_string_iff; [exact W|]. now rewrite Q. }
    assert (A : a = addr_of k /\ (is_muxed a -> m = true)).
    { destruct k; [injection E as <- | injection E as <- | destruct m; [injection E as <-|discriminate] | discriminate];
        cbn; tauto. }
    destruct A as [-> A]. auto.
  - intros (W & M & S).
    pose proof (spelled_length a s W S) as L.
    assert (K : kind_from_string s = Some (kind_of a)) by
      (apply from_string_iff; [exact W|]; now apply spelled_iff).
    rewrite K.
    assert (V : vl = true).
    { unfold vl, key_len, muxed_key_len. rewrite L.
      destruct a; [destruct m; reflexivity | destruct m; reflexivity | | destruct W].
      rewrite (M I). reflexivity. }
    rewrite V. cbn [negb].
    destruct a; [reflexivity | reflexivity | | destruct W].
    cbn [kind_of]. rewrite (M I). reflexivity.
Qed.
Lemma scaddress_bytes s m : strkey_to_scaddress (Some (HOBytes s)) m = strkey_to_scaddress (Some (HOString s)) m.
Proof. reflexivity. Qed.
Lemma scaddress_err s m e : strkey_to_scaddress (Some (HOString s)) m = Err e -> e = e_val_invalid.
Proof.
  unfold strkey_to_scaddress. cbn beta iota. set (vl := if m then _ else _).
  destruct (negb vl); [congruence|].
  destruct (kind_from_string s) as [[]|]; try congruence; destruct m; congruence.
Qed.

(* ---------------------------------------------------------------- mistakes *)

Lemma xorl_length a b : length a = length b -> length (xorl a b) = length a.
Proof. intros L. unfold xorl. rewrite map_length, combine_length. lia. Qed.
Lemma xorl_app a b c d : length a = length c -> xorl (a ++ b) (c ++ d) = xorl a c ++ xorl b d.
Proof.
  revert c. induction a as [|x a IH]; intros [|y c] L; cbn [length] in L; try lia; [reflexivity|].
  unfold xorl in *. cbn [app combine map]. f_equal. apply IH. lia.
Qed.
Lemma xorl_self a : xorl a a = repeat false (length a).
Proof.
  unfold xorl. induction a as [|x a IH]; [reflexivity|]. cbn [combine map fst snd length repeat].
  rewrite IH. destruct x; reflexivity.
Qed.
Lemma xorl_zero a : forall b, length a = length b -> xorl a b = repeat false (length a) -> a = b.
Proof.
  unfold xorl. induction a as [|x a IH]; intros [|y b] L E; cbn [length] in L; try lia; [reflexivity|].
  cbn [combine map fst snd length repeat] in E. injection E as E1 E2.
  f_equal; [destruct x, y; try reflexivity; discriminate E1 | apply IH; [lia | exact E2]].
Qed.
Lemma xorl_bits n a b : xorl (bits n a) (bits n b) = bits n (Z.lxor a b).
Proof.
  induction n as [|n IH]; [reflexivity|]. unfold xorl in *. cbn [bits combine map fst snd].
  rewrite IH, Z.lxor_spec. reflexivity.
Qed.
Definition ck (c : Z) : list bool := bits 8 c ++ bits 8 (c / 256).
Lemma bits_mod n x : bits n (x mod 2 ^ Z.of_nat n) = bits n x.
Proof.
  apply num_inj; [now rewrite !bits_length|]. rewrite !num_bits. apply Z.mod_mod. lia.
Qed.
Lemma div_lxor a b : Z.lxor a b / 256 = Z.lxor (a / 256) (b / 256).
Proof. change 256 with (2 ^ 8). rewrite <- !Z.shiftr_div_pow2 by lia. apply Z.shiftr_lxor. Qed.
Lemma xorl_ck a b : xorl (ck a) (ck b) = ck (Z.lxor a b).
Proof.
  unfold ck. rewrite xorl_app by (now rewrite !bits_length). now rewrite !xorl_bits, div_lxor.
Qed.
Lemma ck_length c : length (ck c) = 16%nat.
Proof. unfold ck. now rewrite app_length, !bits_length. Qed.
Lemma ck_checksum l : flat_map (bits 8) (checksum l) = ck (crc l).
Proof.
  unfold checksum, ck. cbn [flat_map]. rewrite app_nil_r. f_equal. exact (bits_mod 8 (crc l)).
Qed.
Lemma core_split ver p : are_bytes (ver :: p) ->
  core ver p = body ver p ++ ck (crc_bits 0 (body ver p)).
Proof.
  intros B. unfold core, body. change (ver :: p ++ checksum (ver :: p)) with ((ver :: p) ++ checksum (ver :: p)).
  rewrite flat_map_app, ck_checksum. unfold crc. now rewrite crc_as_bits by exact B.
Qed.

Lemma shift_zero s : 0 <= s < 2 ^ 16 -> crc_shift s = 0 -> s = 0.
Proof.
  intros H E. rewrite shift_generator in E by exact H.
  destruct (Z.testbit s 15) eqn:T.
  - exfalso. apply (f_equal (fun z => Z.testbit z 0)) in E.
    rewrite Z.lxor_spec, Z.testbit_even_0, Z.bits_0 in E. discriminate.
  - rewrite Z.lxor_0_r in E. lia.
Qed.
Lemma crc_trailing n s : 0 <= s < 2 ^ 16 -> crc_bits s (repeat false n) = 0 -> s = 0.
Proof.
  revert s. induction n as [|n IH]; intros s H E; [exact E|].
  cbn [repeat] in E. change (crc_bits s (false :: repeat false n))
    with (crc_bits (crc_bit s false) (repeat false n)) in E.
  unfold crc_bit in E. rewrite Z.lxor_0_r in E.
  apply shift_zero; [exact H|]. apply IH; [apply shift_range | exact E].
Qed.
Lemma crc_leading n l : crc_bits 0 (repeat false n ++ l) = crc_bits 0 l.
Proof.
  unfold crc_bits. rewrite fold_left_app. f_equal. induction n; [reflexivity|]. exact IHn.
Qed.
Lemma crc_bits_app s a b : crc_bits s (a ++ b) = crc_bits (crc_bits s a) b.
Proof. apply fold_left_app. Qed.
Lemma ck_zero c : 0 <= c < 2 ^ 16 -> ck c = repeat false 16 -> c = 0.
Proof.
  intros H E. unfold ck in E. change (repeat false 16) with (repeat false 8 ++ repeat false 8) in E.
  apply app_split in E as [E1 E2]; [|now rewrite bits_length].
  apply (f_equal num) in E1, E2. rewrite num_bits, num_zeros in E1, E2.
  change (2 ^ Z.of_nat 8) with 256 in *. rewrite (Z.mod_small (c / 256)) in E2.
  - pose proof (Z.div_mod c 256). lia.
  - split; [apply Z.div_pos; lia | apply Z.div_lt_upper_bound; lia].
Qed.

(* two letters' worth of bits, wherever they meet the end of the payload *)
Fixpoint boolls_eqb (a b : list bool) : bool :=
  match a, b with
  | [], [] => true
  | x :: a, y :: b => if Bool.eqb x y then boolls_eqb a b else false
  | _, _ => false
  end.
Lemma boolls_eqb_refl a : boolls_eqb a a = true.
Proof. induction a as [|[] a IH]; cbn; auto. Qed.
Definition pattern_ok (p : list bool) : bool :=
  negb (crc_bits 0 p =? 0) &&
  forallb (fun j => negb (boolls_eqb (ck (crc_bits 0 (firstn j p))) (skipn j p ++ repeat false (6 + j))))
          [3; 4; 8; 9]%nat.
(* every pattern, the states of the register after its prefixes being computed once *)
Definition leaf_ok (p : list bool) (states : list Z) : bool :=
  negb (nth 0 states 0 =? 0) &&
  forallb (fun j => negb (boolls_eqb (ck (nth (10 - j) states 0)) (skipn j p ++ repeat false (6 + j))))
          [3; 4; 8; 9]%nat.
Fixpoint tree_ok (n : nat) (p : list bool) (states : list Z) : bool :=
  match n with
  | O => forallb negb p || leaf_ok p states
  | S n' => tree_ok n' (p ++ [false]) (crc_bit (hd 0 states) false :: states) &&
            tree_ok n' (p ++ [true]) (crc_bit (hd 0 states) true :: states)
  end.
Lemma patterns_checked : tree_ok 10 [] [0] = true.
Proof. vm_cast_no_check (eq_refl true). Qed.
Fixpoint states_from (states : list Z) (q : list bool) : list Z :=
  match q with
  | [] => states
  | b :: q => states_from (crc_bit (hd 0 states) b :: states) q
  end.
Lemma tree_all n : forall p states, tree_ok n p states = true -> forall q, length q = n ->
  forallb negb (p ++ q) = true \/ leaf_ok (p ++ q) (states_from states q) = true.
Proof.
  induction n as [|n IH]; intros p states T q L.
  - destruct q; [|discriminate]. rewrite app_nil_r. cbn [tree_ok] in T. apply orb_true_iff. exact T.
  - destruct q as [|b q]; [discriminate|]. injection L as L. cbn [tree_ok] in T.
    apply andb_true_iff in T as [T0 T1]. cbn [states_from].
    replace (p ++ b :: q) with ((p ++ [b]) ++ q) by (now rewrite <- app_assoc).
    destruct b; [apply IH; assumption | apply IH; assumption].
Qed.
Lemma pattern_check p : length p = 10%nat -> p <> repeat false 10 -> pattern_ok p = true.
Proof.
  intros L N.
  destruct (tree_all 10 [] [0] patterns_checked p L) as [T|T].
  - exfalso. apply N. cbn [app] in T. apply zeros_iff in T. rewrite L in T. exact T.
  - destruct p as [|b0 [|b1 [|b2 [|b3 [|b4 [|b5 [|b6 [|b7 [|b8 [|b9 [|]]]]]]]]]]]; try discriminate L.
    revert T. cbn [app]. unfold leaf_ok, pattern_ok, crc_bits. cbn [states_from hd].
    generalize crc_bit as f. intros f.
    cbn [forallb Nat.sub nth firstn fold_left]. intros T. exact T.
Qed.

Lemma codeword_pattern (D : list bool) pos p rest k :
  (length D = 264 \/ length D = 328)%nat -> (exists i, pos = (5 * i)%nat) -> length p = 10%nat ->
  repeat false pos ++ p ++ repeat false rest = D ++ ck (crc_bits 0 D) ++ repeat false k ->
  p = repeat false 10.
Proof.
  intros LD [i Hi] Lp E.
  destruct (list_eq_dec bool_dec p (repeat false 10)) as [Q|N]; [exact Q|exfalso].
  pose proof (pattern_check p Lp N) as OK. unfold pattern_ok in OK.
  apply andb_true_iff in OK as [OK1 OK2].
  pose proof (f_equal (@length bool) E) as LE.
  rewrite !app_length, !repeat_length, ck_length, Lp in LE.
  pose proof (crc_bits_range D 0 ltac:(lia)) as R.
  assert (rz : forall a b, repeat false (a + b) = repeat false a ++ repeat false b)
    by (intros; apply repeat_app).
  destruct (Nat.le_gt_cases (pos + 10) (length D)) as [A|A].
  - (* inside the payload *)
    assert (A1 : D = repeat false pos ++ p ++ repeat false (length D - pos - 10)
                 /\ repeat false (16 + k) = ck (crc_bits 0 D) ++ repeat false k).
    { replace rest with ((length D - pos - 10) + (16 + k))%nat in E by lia.
      rewrite rz in E. rewrite !app_assoc in E. rewrite <- (app_assoc D) in E.
      apply app_split in E; [|rewrite !app_length, !repeat_length, Lp; lia].
      destruct E as [E1 E2]. rewrite <- E1 at 1. rewrite <- app_assoc. auto. }
    destruct A1 as [ED EC]. rewrite rz in EC.
    apply app_split in EC as [EC _]; [|now rewrite repeat_length, ck_length].
    symmetry in EC. apply ck_zero in EC; [|exact R].
    rewrite ED, crc_leading, crc_bits_app in EC.
    apply crc_trailing in EC; [|apply crc_bits_range; lia].
    rewrite EC in OK1. discriminate.
  - destruct (Nat.le_gt_cases (length D) pos) as [A'|A'].
    + (* after the payload *)
      assert (A1 : D = repeat false (length D) /\
        repeat false (pos - length D) ++ p ++ repeat false rest = ck (crc_bits 0 D) ++ repeat false k).
      { replace pos with (length D + (pos - length D))%nat in E by lia.
        rewrite rz, <- app_assoc in E. apply app_split in E; [|now rewrite repeat_length].
        destruct E as [E1 E2]. rewrite <- E1 at 1. auto. }
      destruct A1 as [ED EC].
      assert (C0 : crc_bits 0 D = 0).
      { rewrite ED, <- (app_nil_r (repeat false (length D))), crc_leading. reflexivity. }
      rewrite C0 in EC. change (ck 0) with (repeat false 16) in EC. rewrite <- rz in EC.
      replace (16 + k)%nat with ((pos - length D) + (10 + rest))%nat in EC by lia.
      rewrite rz in EC. apply app_inv_head in EC. rewrite rz in EC.
      apply app_split in EC as [EC _]; [contradiction | now rewrite repeat_length].
    + (* across its end *)
      set (j := (length D - pos)%nat).
      assert (J : In j [3; 4; 8; 9]%nat) by (cbn [In]; lia).
      rewrite <- (firstn_skipn j p) in E.
      assert (Lj : length (firstn j p) = j) by (rewrite firstn_length; lia).
      rewrite <- !app_assoc in E. rewrite app_assoc in E.
      apply app_split in E as [E1 E2]; [|rewrite app_length, repeat_length, Lj; lia].
      rewrite <- E1, crc_leading in E2.
      replace rest with ((6 + j) + k)%nat in E2 by lia.
      rewrite rz, app_assoc in E2.
      apply app_split in E2 as [E2 _];
        [|rewrite app_length, skipn_length, repeat_length, ck_length; lia].
      rewrite forallb_forall in OK2. specialize (OK2 j J).
      rewrite E2, boolls_eqb_refl in OK2. discriminate.
Qed.

(* the difference of two strkeys of the same length is such a word *)
Lemma detect ver p ver' p' s s' i :
  are_bytes (ver :: p) -> are_bytes (ver' :: p') ->
  (length p = 32 \/ length p = 40)%nat -> length p' = length p ->
  writes s (core ver p) -> writes s' (core ver' p') ->
  length s = length s' -> (i + 2 <= length s)%nat ->
  firstn i s = firstn i s' -> skipn (i + 2) s = skipn (i + 2) s' -> s = s'.
Proof.
  intros B B' Lp Lp' (vs & k & F & K & E) (vs' & k' & F' & K' & E') Ls Hi H1 H2.
  pose proof (letters_length _ _ F) as LF. pose proof (letters_length _ _ F') as LF'.
  rewrite core_split in E, E' by assumption.
  assert (LB : length (body ver p) = (8 * S (length p))%nat)
    by (unfold body; rewrite flat_bits_length; reflexivity).
  assert (LB' : length (body ver' p') = (8 * S (length p))%nat)
    by (unfold body; rewrite flat_bits_length; cbn [length]; congruence).
  assert (k' = k) as ->.
  { apply (f_equal (@length bool)) in E, E'.
    rewrite flat_bits_length, !app_length, repeat_length, ck_length in E, E'. lia. }
  (* letters that agree have values that agree *)
  assert (V1 : firstn i vs = firstn i vs').
  { assert (G : forall n s t u v, Forall2 letter s u -> Forall2 letter t v ->
              firstn n s = firstn n t -> length s = length t -> firstn n u = firstn n v).
    { clear. induction n as [|n IH]; intros s t u v Hs Ht E L; [reflexivity|].
      destruct Hs as [|c x s u Hc Hs], Ht as [|d y t v Hd Ht]; cbn [length] in L; try lia; [reflexivity|].
      cbn [firstn] in *. injection E as -> E. f_equal; [eapply letter_fun; eauto | eapply IH; eauto]. }
    eapply G; eauto. }
  assert (V2 : skipn (i + 2) vs = skipn (i + 2) vs').
  { assert (G : forall n s t u v, Forall2 letter s u -> Forall2 letter t v ->
              skipn n s = skipn n t -> length s = length t -> skipn n u = skipn n v).
    { clear. induction n as [|n IH]; intros s t u v Hs Ht E L.
      - cbn [skipn] in *. subst t. revert u v Hs Ht. induction s as [|c s IH]; intros u v Hs Ht;
          inversion Hs; inversion Ht; subst; [reflexivity|].
        f_equal; [eapply letter_fun; eauto | apply IH; auto].
      - destruct Hs as [|c x s u Hc Hs], Ht as [|d y t v Hd Ht]; cbn [length] in L; try lia; [reflexivity|].
        cbn [skipn] in *. eapply IH; eauto. }
    eapply G; eauto. }
  set (D := xorl (body ver p) (body ver' p')).
  assert (LD : length D = (8 * S (length p))%nat) by (unfold D; rewrite xorl_length; congruence).
  assert (X : xorl (flat_map (bits 5) vs) (flat_map (bits 5) vs') = D ++ ck (crc_bits 0 D) ++ repeat false k).
  { rewrite E, E', <- !app_assoc.
    rewrite xorl_app by congruence. rewrite xorl_app by (now rewrite !ck_length).
    rewrite xorl_ck, xorl_self, repeat_length. unfold D.
    rewrite <- (crc_bits_linear (body ver p) (body ver' p') 0 0) by congruence. reflexivity. }
  assert (S1 : forall l : list Z, (i + 2 <= length l)%nat ->
             l = firstn i l ++ firstn 2 (skipn i l) ++ skipn (i + 2) l).
  { intros l _. rewrite <- (firstn_skipn i l) at 1. f_equal.
    rewrite <- (firstn_skipn 2 (skipn i l)) at 1. f_equal.
    clear. revert l. induction i as [|i IH]; intros l; [reflexivity|].
    destruct l as [|x l]; [now rewrite !skipn_nil|]. cbn [skipn Nat.add]. apply IH. }
  set (m := firstn 2 (skipn i vs)). set (m' := firstn 2 (skipn i vs')).
  assert (Lm : length m = 2%nat) by (unfold m; rewrite firstn_length, skipn_length; lia).
  assert (Lm' : length m' = 2%nat) by (unfold m'; rewrite firstn_length, skipn_length; lia).
  pose proof (S1 vs ltac:(lia)) as P. pose proof (S1 vs' ltac:(lia)) as P'.
  fold m in P. fold m' in P'. rewrite <- V1, <- V2 in P'.
  set (q := xorl (flat_map (bits 5) m) (flat_map (bits 5) m')).
  assert (Lq : length q = 10%nat)
    by (unfold q; rewrite xorl_length; rewrite !flat_bits_length; lia).
  assert (Y : xorl (flat_map (bits 5) vs) (flat_map (bits 5) vs') =
              repeat false (5 * i) ++ q ++ repeat false (5 * length (skipn (i + 2) vs))).
  { rewrite P, P' at 1. rewrite !flat_map_app.
    rewrite xorl_app by reflexivity.
    rewrite xorl_app by (rewrite !flat_bits_length; lia).
    rewrite !xorl_self, !flat_bits_length, firstn_length. fold q.
    rewrite Nat.min_l by lia. reflexivity. }
  rewrite X in Y. symmetry in Y.
  apply codeword_pattern in Y; [| rewrite LD; lia | exists i; reflexivity | exact Lq].
  assert (m = m') as M.
  { apply (flat_bits_inj 5); [congruence | | |].
    - unfold m. pose proof (letters_ranged _ _ F) as Rg. rewrite P in Rg. fold m in Rg.
      apply Forall_app in Rg as [_ Rg]. apply Forall_app in Rg as [Rg _]. exact Rg.
    - pose proof (letters_ranged _ _ F') as Rg. rewrite P' in Rg.
      apply Forall_app in Rg as [_ Rg]. apply Forall_app in Rg as [Rg _]. exact Rg.
    - apply xorl_zero; [rewrite !flat_bits_length; congruence|].
      rewrite flat_bits_length, Lm. exact Y. }
  assert (vs = vs') as <- by congruence.
  eapply letters_inj; eauto.
Qed.
