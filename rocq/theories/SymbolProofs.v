From Coq Require Import ZArith Lia List Bool.
From Verif Require Import Prelude ValModel ValSpec ValProofs.
Import ListNotations.
Open Scope Z_scope.
Ltac Zify.zify_post_hook ::= Z.div_mod_to_equations.

Lemma some_inj {A} (x y : A) : Some x = Some y -> x = y.
Proof. congruence. Qed.

Lemma encode_byte_spec b c :
  encode_byte b = Some c -> sym_char b /\ 1 <= c <= 63 /\ decode_code c = Some b.
Proof.
  intros H. assert (X : sym_char b /\ 1 <= c <= 63 /\
    ((b = 95 /\ c = 1) \/ (48 <= b <= 57 /\ c = 2 + (b - 48))
     \/ (65 <= b <= 90 /\ c = 12 + (b - 65)) \/ (97 <= b <= 122 /\ c = 38 + (b - 97)))).
  { revert H. unfold encode_byte, sym_char.
    repeat case_if; intros H; try discriminate H; apply some_inj in H; lia. }
  destruct X as (S & R & D). split; [exact S|]. split; [exact R|].
  unfold decode_code. repeat case_if; try (apply f_equal; lia); lia.
Qed.

Lemma encode_byte_some b : sym_char b -> exists c, encode_byte b = Some c.
Proof.
  unfold encode_byte, sym_char. intros H.
  destruct (b =? 95) eqn:E1; [eauto|].
  destruct ((48 <=? b) && (b <=? 57)) eqn:E2; [eauto|].
  destruct ((65 <=? b) && (b <=? 90)) eqn:E3; [eauto|].
  destruct ((97 <=? b) && (b <=? 122)) eqn:E4; [eauto|]. lia.
Qed.

Lemma decode_code_spec c ch : decode_code c = Some ch -> encode_byte ch = Some c /\ sym_char ch.
Proof.
  unfold decode_code. intros H.
  assert (D : encode_byte ch = Some c).
  { unfold encode_byte.
    destruct (c =? 1) eqn:D1; [inversion H; subst; cbn; f_equal; lia|].
    destruct ((2 <=? c) && (c <=? 11)) eqn:D2; [|destruct ((12 <=? c) && (c <=? 37)) eqn:D3;
      [|destruct ((38 <=? c) && (c <=? 63)) eqn:D4; [|discriminate]]]; apply some_inj in H; subst ch;
    repeat match goal with |- context [if ?b then _ else _] => destruct b eqn:? end;
    try (f_equal; lia); lia. }
  split; [exact D|]. now apply encode_byte_spec in D.
Qed.

(* Codes as base-64 digits. *)
Fixpoint codes (bs : list Z) : option (list Z) :=
  match bs with
  | [] => Some []
  | b :: r => match encode_byte b, codes r with
              | Some c, Some cs => Some (c :: cs)
              | _, _ => None
              end
  end.

Fixpoint dval (ds : list Z) : Z :=
  match ds with
  | [] => 0
  | d :: r => d * 64 ^ (Z.of_nat (length r)) + dval r
  end.

Definition digit (d : Z) : Prop := 0 <= d < 64.

Lemma pow64_pos n : 0 < 64 ^ Z.of_nat n.
Proof. apply Z.pow_pos_nonneg; lia. Qed.

Lemma dval_bound ds : Forall digit ds -> 0 <= dval ds < 64 ^ Z.of_nat (length ds).
Proof.
  induction 1 as [|d r D F IH]; cbn [dval length]; [cbn; lia|].
  rewrite Nat2Z.inj_succ, Z.pow_succ_r by lia.
  unfold digit in D. pose proof (pow64_pos (length r)). nia.
Qed.

Lemma dval_app a b : dval (a ++ b) = dval a * 64 ^ Z.of_nat (length b) + dval b.
Proof.
  induction a as [|x a IH]; cbn [dval app]; [lia|].
  rewrite IH, app_length, Nat2Z.inj_add, Z.pow_add_r by lia. lia.
Qed.

Lemma dval_zeros n : dval (repeat 0 n) = 0.
Proof. induction n; cbn [dval repeat]; lia. Qed.

Lemma codes_digits bs cs : codes bs = Some cs -> Forall (fun c => 1 <= c < 64) cs /\ length cs = length bs.
Proof.
  revert cs. induction bs as [|b r IH]; cbn [codes]; intros cs H; [inversion H; auto|].
  destruct (encode_byte b) eqn:E; [|discriminate].
  destruct (codes r) eqn:C; [|discriminate]. inversion H; subst.
  destruct (IH _ eq_refl). apply encode_byte_spec in E. split; [constructor; [lia|auto]|cbn; lia].
Qed.

Lemma symbol_accum_spec bs acc :
  0 <= acc ->
  acc * 64 ^ Z.of_nat (length bs) + 64 ^ Z.of_nat (length bs) <= 2 ^ 60 ->
  symbol_accum acc bs =
  option_map (fun cs => acc * 64 ^ Z.of_nat (length bs) + dval cs) (codes bs).
Proof.
  revert acc. induction bs as [|b r IH]; intros acc Ha Hb; cbn [symbol_accum codes length].
  - cbn. f_equal. lia.
  - destruct (encode_byte b) as [c|] eqn:E; [|reflexivity].
    destruct (encode_byte_spec b c E) as (_ & Hc & _).
    cbn [length] in Hb. rewrite Nat2Z.inj_succ, Z.pow_succ_r in Hb by lia.
    pose proof (pow64_pos (length r)) as P.
    assert (HS : Z.lor (shl64 acc CODE_BITS) c = acc * 64 + c).
    { unfold CODE_BITS, shl64, as_u64.
      rewrite Z.mod_small.
      - rewrite lor_shift_low by (cbn; lia). cbn. lia.
      - rewrite Z.shiftl_mul_pow2 by lia. change (2 ^ 60) with 1152921504606846976 in Hb. pow2. nia. }
    rewrite HS. rewrite IH; [|lia|].
    + destruct (codes r) as [cs|] eqn:C; [|reflexivity]. cbn [option_map]. f_equal.
      destruct (codes_digits _ _ C) as [_ L]. cbn [dval].
      rewrite L, Nat2Z.inj_succ, Z.pow_succ_r by lia. lia.
    + nia.
Qed.

Definition decode_list (ds : list Z) : list Z :=
  flat_map (fun d => match decode_code d with Some c => [c] | None => [] end) ds.

Lemma decode_list_cons d r :
  decode_list (d :: r)
  = match decode_code d with Some c => c :: decode_list r | None => decode_list r end.
Proof. unfold decode_list. cbn [flat_map]. now destruct (decode_code d). Qed.

Lemma window_eq junk d r :
  0 <= junk < 1024 -> digit d -> 0 <= r < 2 ^ 48 ->
  Z.land (Z.shiftr (junk * 2 ^ 54 + d * 2 ^ 48 + r) 48) 63 = d.
Proof.
  unfold digit. intros. change 63 with (2 ^ 6 - 1). rewrite land_mask, Z.shiftr_div_pow2 by lia.
  change (2 ^ 48) with 281474976710656 in *. pow2. lia.
Qed.

Lemma shift_eq junk d r :
  0 <= junk < 1024 -> digit d -> 0 <= r < 2 ^ 48 ->
  shl64 (junk * 2 ^ 54 + d * 2 ^ 48 + r) 6
  = ((junk * 64 + d) mod 1024) * 2 ^ 54 + r * 64.
Proof.
  unfold digit. intros. unfold shl64, as_u64. rewrite Z.shiftl_mul_pow2 by lia.
  change (2 ^ 48) with 281474976710656 in *. pow2. lia.
Qed.

Lemma symbol_iter_junk f junk : 0 <= junk < 1024 -> symbol_iter f (junk * 2 ^ 54) = [].
Proof.
  revert junk. induction f as [|f IH]; intros junk H; cbn [symbol_iter]; [reflexivity|].
  destruct (_ =? 0); [reflexivity|].
  replace (junk * 2 ^ 54) with (junk * 2 ^ 54 + 0 * 2 ^ 48 + 0) by lia.
  rewrite window_eq by (unfold digit; lia). cbn [decode_code].
  change (decode_code 0) with (@None Z).
  unfold CODE_BITS. rewrite shift_eq by (unfold digit; lia).
  rewrite Z.mul_0_l, !Z.add_0_r.
  apply IH. lia.
Qed.

Lemma decode_list_zero ds : Forall digit ds -> dval ds = 0 -> decode_list ds = [].
Proof.
  induction 1 as [|d r D F IH]; cbn [dval]; intros H; [reflexivity|].
  pose proof (dval_bound r F). pose proof (pow64_pos (length r)). unfold digit in D.
  assert (d = 0) by nia. subst d. rewrite decode_list_cons, IH by lia. reflexivity.
Qed.

Lemma symbol_iter_digits ds : forall f junk,
  Forall digit ds -> (length ds <= 9)%nat -> (length ds <= f)%nat -> 0 <= junk < 1024 ->
  symbol_iter f (junk * 2 ^ 54 + dval ds * 64 ^ (9 - Z.of_nat (length ds))) = decode_list ds.
Proof.
  induction ds as [|d r IH]; intros f junk F L9 Lf J.
  - cbn [dval]. rewrite Z.mul_0_l, Z.add_0_r. now apply symbol_iter_junk.
  - destruct f as [|f]; [cbn in Lf; lia|].
    inversion F as [|? ? D F']; subst.
    cbn [symbol_iter]. cbn [length] in *.
    pose proof (dval_bound r F') as B.
    assert (X : dval (d :: r) * 64 ^ (9 - Z.of_nat (S (length r)))
                = d * 2 ^ 48 + dval r * 64 ^ (8 - Z.of_nat (length r))).
    { cbn [dval]. replace (9 - Z.of_nat (S (length r))) with (8 - Z.of_nat (length r)) by lia.
      rewrite Z.mul_add_distr_r. f_equal. rewrite <- Z.mul_assoc, <- Z.pow_add_r by lia.
      replace (Z.of_nat (length r) + (8 - Z.of_nat (length r))) with 8 by lia. reflexivity. }
    rewrite X. rewrite Z.add_assoc.
    assert (R : 0 <= dval r * 64 ^ (8 - Z.of_nat (length r)) < 2 ^ 48).
    { change (2 ^ 48) with (64 ^ 8).
      assert (E8 : 64 ^ 8 = 64 ^ Z.of_nat (length r) * 64 ^ (8 - Z.of_nat (length r)))
        by (rewrite <- Z.pow_add_r by lia; f_equal; lia).
      rewrite E8.
      assert (0 < 64 ^ (8 - Z.of_nat (length r))) by (apply Z.pow_pos_nonneg; lia). nia. }
    set (q := dval r * 64 ^ (8 - Z.of_nat (length r))) in *.
    destruct (_ =? 0) eqn:Z0.
    + change (2 ^ 48) with 281474976710656 in *. pow2. unfold digit in D.
      assert (d = 0 /\ q = 0 /\ junk = 0) as (-> & Q & ->) by lia.
      symmetry. apply decode_list_zero; [exact F|].
      cbn [dval]. unfold q in Q.
      assert (0 < 64 ^ (8 - Z.of_nat (length r))) by (apply Z.pow_pos_nonneg; lia). nia.
    + rewrite window_eq by assumption.
      unfold CODE_BITS. rewrite shift_eq by assumption.
      assert (Q : q * 64 = dval r * 64 ^ (9 - Z.of_nat (length r))).
      { unfold q. replace (9 - Z.of_nat (length r)) with (Z.succ (8 - Z.of_nat (length r))) by lia.
        rewrite Z.pow_succ_r by lia. lia. }
      rewrite Q. rewrite IH by (try assumption; lia).
      now rewrite decode_list_cons.
Qed.

(* Any 54-bit body is nine base-64 digits. *)
Fixpoint digits (n : nat) (x : Z) : list Z :=
  match n with
  | O => []
  | S m => (x / 64 ^ Z.of_nat m) mod 64 :: digits m x
  end.

Lemma digits_length n x : length (digits n x) = n.
Proof. induction n; cbn; congruence. Qed.

Lemma digits_digit n x : Forall digit (digits n x).
Proof. induction n; cbn [digits]; constructor; auto. unfold digit. lia. Qed.

Lemma dval_digits n x : 0 <= x -> dval (digits n x) = x mod 64 ^ Z.of_nat n.
Proof.
  intros Hx. induction n as [|n IH]; cbn [digits dval].
  - cbn. now rewrite Z.mod_1_r.
  - rewrite IH, digits_length. rewrite Nat2Z.inj_succ, Z.pow_succ_r by lia.
    pose proof (pow64_pos n) as P. set (q := 64 ^ Z.of_nat n) in *.
    rewrite (Z.mul_comm 64 q).
    rewrite Z.rem_mul_r by lia. lia.
Qed.

Lemma symbol_body_ok_spec body : 0 <= body -> symbol_body_ok body = true <-> body < 2 ^ 54.
Proof.
  intros. unfold symbol_body_ok, SMALL_MASK. rewrite land_mask, Z.eqb_eq by lia. pow2. lia.
Qed.

Lemma symbol_chars_digits body :
  0 <= body < 2 ^ 54 ->
  symbol_small_chars (from_body_and_tag body TgSymbolSmall) = decode_list (digits 9 body).
Proof.
  intros H. unfold symbol_small_chars.
  rewrite get_body_eq, from_body_and_tag_eq.
  replace ((body mod 2 ^ 56 * 2 ^ 8 + tag_num TgSymbolSmall) / 2 ^ 8) with body
    by (cbn [tag_num]; pow2; lia).
  rewrite <- (symbol_iter_digits (digits 9 body) 11 0).
  - rewrite digits_length. rewrite dval_digits by lia.
    change (64 ^ Z.of_nat 9) with (2 ^ 54). change (9 - Z.of_nat 9) with 0.
    f_equal. rewrite Z.mod_small by lia. cbn. lia.
  - apply digits_digit.
  - rewrite digits_length. lia.
  - rewrite digits_length. lia.
  - lia.
Qed.

Lemma decode_list_app a b : decode_list (a ++ b) = decode_list a ++ decode_list b.
Proof. apply flat_map_app. Qed.

Lemma decode_list_zeros n : decode_list (repeat 0 n) = [].
Proof. induction n; cbn; auto. Qed.

Lemma decode_codes bs cs : codes bs = Some cs -> decode_list cs = bs.
Proof.
  revert cs. induction bs as [|b r IH]; cbn [codes]; intros cs H; [inversion H; reflexivity|].
  destruct (encode_byte b) eqn:E; [|discriminate].
  destruct (codes r) eqn:C; [|discriminate]. inversion H; subst.
  rewrite decode_list_cons. apply encode_byte_spec in E as (_ & _ & ->).
  f_equal. now apply IH.
Qed.

Lemma codes_some bs : Forall sym_char bs <-> exists cs, codes bs = Some cs.
Proof.
  induction bs as [|b r IH]; cbn [codes].
  - split; eauto.
  - split.
    + intros F. inversion F; subst. destruct (encode_byte_some b) as [c ->]; [assumption|].
      destruct IH as [IH _]. destruct IH as [cs ->]; [assumption|]. eauto.
    + intros [cs H]. destruct (encode_byte b) eqn:E; [|discriminate].
      destruct (codes r) eqn:C; [|discriminate].
      constructor; [now apply encode_byte_spec in E|]. apply IH. eauto.
Qed.

Lemma symbol_small_from_bytes_spec bs :
  ((length bs <= 9)%nat /\ Forall sym_char bs /\
   exists cs, codes bs = Some cs
     /\ symbol_small_from_bytes bs = Some (from_body_and_tag (dval cs) TgSymbolSmall)
     /\ 0 <= dval cs < 2 ^ 54)
  \/ (~ ((length bs <= 9)%nat /\ Forall sym_char bs) /\ symbol_small_from_bytes bs = None).
Proof.
  unfold symbol_small_from_bytes, MAX_SMALL_CHARS.
  destruct (Nat.ltb_spec 9 (length bs)) as [L|L].
  - right. split; [lia|reflexivity].
  - assert (P : 64 ^ Z.of_nat (length bs) <= 64 ^ 9) by (apply Z.pow_le_mono_r; lia).
    rewrite symbol_accum_spec; [|lia|].
    2:{ change (64 ^ 9) with 18014398509481984 in P.
        change (2 ^ 60) with 1152921504606846976. lia. }
    destruct (codes bs) as [cs|] eqn:C; cbn [option_map].
    + left. split; [lia|]. split; [apply codes_some; eauto|].
      exists cs. split; [reflexivity|]. split; [f_equal; f_equal; lia|].
      destruct (codes_digits _ _ C) as [F LC].
      assert (B : 0 <= dval cs < 64 ^ Z.of_nat (length cs)).
      { apply dval_bound. eapply Forall_impl; [|exact F]. unfold digit. intros; cbn in *; lia. }
      rewrite LC in B. change (2 ^ 54) with (64 ^ 9). lia.
    + right. split; [|reflexivity]. intros [_ F]. apply codes_some in F. destruct F. congruence.
Qed.

Lemma symbol_roundtrip_lemma bs v :
  symbol_small_from_bytes bs = Some v ->
  symbol_small_chars v = bs /\ word v /\ get_tag v = TgSymbolSmall /\ is_good v = true.
Proof.
  intros E. destruct (symbol_small_from_bytes_spec bs) as [(L & F & cs & C & S & B)|[_ S]];
    [|congruence].
  rewrite S in E. inversion E; subst v; clear E S.
  assert (W : word (from_body_and_tag (dval cs) TgSymbolSmall)).
  { rewrite from_body_and_tag_eq. apply word_packed. }
  assert (T : get_tag (from_body_and_tag (dval cs) TgSymbolSmall) = TgSymbolSmall).
  { rewrite from_body_and_tag_eq. now apply get_tag_packed. }
  split; [|split; [exact W|split; [exact T|]]].
  - rewrite symbol_chars_digits by exact B.
    destruct (codes_digits _ _ C) as [Fc Lc].
    assert (D : digits 9 (dval cs) = repeat 0 (9 - length cs) ++ cs).
    { assert (U : forall n ds x, Forall digit ds -> length ds = n -> x = dval ds ->
              digits n x = ds).
      { clear. induction n as [|n IH]; intros ds x F L ->; [now destruct ds|].
        destruct ds as [|d r]; [discriminate|]. inversion F; subst. cbn in L.
        assert (Lr : length r = n) by lia.
        pose proof (dval_bound r ltac:(assumption)) as B. rewrite Lr in B.
        pose proof (pow64_pos n) as P. unfold digit in *.
        assert (digits n (dval (d :: r)) = digits n (dval r)) as Q.
        { assert (G : forall m y k, (m <= n)%nat -> digits m (k * 64 ^ Z.of_nat n + y) = digits m y).
          { intros m y k. induction m as [|m IHm]; intros Hm; cbn [digits]; [reflexivity|].
            rewrite IHm by lia. f_equal.
            replace (Z.of_nat n) with (Z.of_nat m + (1 + (Z.of_nat n - Z.of_nat m - 1))) by lia.
            rewrite !Z.pow_add_r by lia. pose proof (pow64_pos m).
            set (z := 64 ^ (Z.of_nat n - Z.of_nat m - 1)).
            replace (k * (64 ^ Z.of_nat m * (64 ^ 1 * z)) + y)
              with ((k * z * 64) * 64 ^ Z.of_nat m + y) by lia.
            rewrite Z.div_add_l by lia. rewrite Z.add_comm.
            now rewrite Z.mod_add by lia. }
          cbn [dval]. rewrite Lr. now apply G. }
        cbn [digits]. rewrite Q. f_equal.
        - cbn [dval]. rewrite Lr. rewrite Z.div_add_l by lia.
          rewrite (Z.div_small (dval r)) by lia. rewrite Z.add_0_r. now apply Z.mod_small.
        - now apply IH. }
      apply U.
      - apply Forall_app. split.
        + clear. induction (9 - length cs)%nat; cbn; constructor; auto. unfold digit; lia.
        + eapply Forall_impl; [|exact Fc]. unfold digit; cbn; intros; lia.
      - rewrite app_length, repeat_length. lia.
      - rewrite dval_app, dval_zeros. lia. }
    rewrite D, decode_list_app, decode_list_zeros. cbn. now apply decode_codes.
  - unfold is_good. rewrite T. apply symbol_body_ok_spec; rewrite get_body_eq, from_body_and_tag_eq;
      cbn [tag_num]; pow2; lia.
Qed.

Lemma symbol_refused_lemma bs :
  symbol_small_from_bytes bs = None <-> ~ ((length bs <= 9)%nat /\ Forall sym_char bs).
Proof.
  destruct (symbol_small_from_bytes_spec bs) as [(L & F & cs & C & S & B)|[N S]];
    rewrite S; split; intros; try discriminate; try tauto.
Qed.

Lemma symbol_small_some bs :
  (length bs <= 9)%nat -> Forall sym_char bs -> exists v, symbol_small_from_bytes bs = Some v.
Proof.
  intros L F. destruct (symbol_small_from_bytes_spec bs) as [(_ & _ & cs & C & S & B)|[N S]];
    [eauto|tauto].
Qed.

(* Every good symbol word spells a valid string of at most nine characters. *)
Lemma decode_list_chars ds : Forall sym_char (decode_list ds) /\ (length (decode_list ds) <= length ds)%nat.
Proof.
  induction ds as [|d r [IH1 IH2]]; [split; [constructor|cbn; lia]|].
  rewrite decode_list_cons. destruct (decode_code d) eqn:D; cbn [length].
  - split; [constructor; [now apply decode_code_spec in D|exact IH1]|lia].
  - split; [exact IH1|lia].
Qed.

Lemma good_symbol_chars v :
  word v -> get_tag v = TgSymbolSmall -> is_good v = true ->
  Forall sym_char (symbol_small_chars v) /\ (length (symbol_small_chars v) <= 9)%nat.
Proof.
  intros W T G. unfold is_good in G. rewrite T in G.
  destruct (u64_split v W) as (_ & _ & B).
  apply symbol_body_ok_spec in G; [|lia].
  pose proof (packed_of_body v _ W T eq_refl) as P.
  assert (V : v = from_body_and_tag (get_body v) TgSymbolSmall).
  { rewrite from_body_and_tag_eq. rewrite P at 1. f_equal. f_equal. pow2. lia. }
  rewrite V, symbol_chars_digits by (pow2; lia).
  destruct (decode_list_chars (digits 9 (get_body v))) as [F L].
  rewrite digits_length in L. auto.
Qed.

Lemma cut_at_zero_chars l k : Forall sym_char l -> cut_at_zero (l ++ repeat 0 k) = l.
Proof.
  induction 1 as [|x r X F IH]; cbn [app cut_at_zero].
  - destruct k; reflexivity.
  - destruct (x =? 0) eqn:E; [unfold sym_char in X; lia|]. now rewrite IH.
Qed.

Lemma symbol_str_chars v :
  word v -> get_tag v = TgSymbolSmall -> is_good v = true ->
  symbol_str v = symbol_small_chars v.
Proof.
  intros W T G. destruct (good_symbol_chars v W T G) as [F L].
  unfold symbol_str, SCSYMBOL_LIMIT. rewrite firstn_all2 by lia.
  now apply cut_at_zero_chars.
Qed.

(* The in-word form of a string and the words denoting it. *)
Lemma symbol_chars_reencode v :
  word v -> get_tag v = TgSymbolSmall -> is_good v = true ->
  exists w, symbol_small_from_bytes (symbol_small_chars v) = Some w
            /\ symbol_small_chars w = symbol_small_chars v.
Proof.
  intros W T G. destruct (good_symbol_chars v W T G) as [F L].
  destruct (symbol_small_some _ L F) as [w Hw]. exists w. split; [exact Hw|].
  now apply symbol_roundtrip_lemma in Hw.
Qed.

Lemma symbol_inj a b v :
  symbol_small_from_bytes a = Some v -> symbol_small_from_bytes b = Some v -> a = b.
Proof.
  intros A B. apply symbol_roundtrip_lemma in A, B. destruct A as [<- _], B as [<- _]. reflexivity.
Qed.
