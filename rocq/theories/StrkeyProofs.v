(* Bits, base 32 and the checksum of strkeys. *)
From Coq Require Import ZArith Lia List Bool.
From Verif Require Import Prelude ValModel HeapModel StrkeyModel StrkeySpec.
Import ListNotations.
Open Scope Z_scope.
Ltac Zify.zify_post_hook ::= idtac.

(* ------------------------------------------------------------------ bits *)

Lemma num_acc l : forall a,
  fold_left (fun a b => 2 * a + Z.b2z b) l a = a * 2 ^ Z.of_nat (length l) + num l.
Proof.
  unfold num. induction l as [|b l IH]; intros a; cbn [fold_left length].
  - change (2 ^ Z.of_nat 0) with 1. lia.
  - rewrite IH, (IH (2 * 0 + Z.b2z b)), Nat2Z.inj_succ, Z.pow_succ_r by lia. ring.
Qed.
Lemma num_app l m : num (l ++ m) = num l * 2 ^ Z.of_nat (length m) + num m.
Proof. unfold num at 1. rewrite fold_left_app, num_acc. reflexivity. Qed.
Lemma num_cons b l : num (b :: l) = Z.b2z b * 2 ^ Z.of_nat (length l) + num l.
Proof. change (b :: l) with ([b] ++ l). rewrite num_app. reflexivity. Qed.
Lemma num_bound l : 0 <= num l < 2 ^ Z.of_nat (length l).
Proof.
  induction l as [|b l IH]; [cbn; lia|]. rewrite num_cons. cbn [length].
  rewrite Nat2Z.inj_succ, Z.pow_succ_r by lia. destruct b; cbn [Z.b2z]; lia.
Qed.
Lemma num_zeros n : num (repeat false n) = 0.
Proof. induction n; [reflexivity|]. cbn [repeat]. rewrite num_cons, IHn. reflexivity. Qed.

Lemma bits_length n x : length (bits n x) = n.
Proof. induction n; cbn [bits length]; lia. Qed.
Lemma num_bits n x : num (bits n x) = x mod 2 ^ Z.of_nat n.
Proof.
  induction n as [|n IH].
  - cbn. now rewrite Z.mod_1_r.
  - cbn [bits]. rewrite num_cons, bits_length, IH, Nat2Z.inj_succ, Z.pow_succ_r by lia.
    rewrite Z.testbit_spec' by lia.
    rewrite (Z.mul_comm 2), Z.rem_mul_r by lia. lia.
Qed.
Lemma num_inj l : forall m, length l = length m -> num l = num m -> l = m.
Proof.
  induction l as [|b l IH]; intros [|c m] L E; cbn [length] in L; try lia; [reflexivity|].
  rewrite !num_cons in E. injection L as L.
  pose proof (num_bound l) as Bl. pose proof (num_bound m) as Bm. rewrite <- L in *.
  assert (b = c) by (destruct b, c; cbn [Z.b2z] in E; try reflexivity; lia).
  subst c. f_equal. apply IH; [assumption|lia].
Qed.
Lemma bits_num l : bits (length l) (num l) = l.
Proof.
  apply num_inj; [apply bits_length|]. rewrite num_bits. apply Z.mod_small, num_bound.
Qed.
Lemma bits_inj n x y : 0 <= x < 2 ^ Z.of_nat n -> 0 <= y < 2 ^ Z.of_nat n ->
  bits n x = bits n y -> x = y.
Proof.
  intros Hx Hy E. apply (f_equal num) in E. rewrite !num_bits, !Z.mod_small in E; assumption.
Qed.

Lemma app_split {A} (a b c d : list A) : length a = length c -> a ++ b = c ++ d -> a = c /\ b = d.
Proof.
  revert c. induction a as [|x a IH]; intros [|y c] L E; cbn [length] in L; try lia; [auto|].
  cbn [app] in E. injection E as -> E. destruct (IH c ltac:(lia) E) as [-> ->]. auto.
Qed.
Lemma flat_bits_length w l : length (flat_map (bits w) l) = (w * length l)%nat.
Proof.
  induction l as [|x l IH]; cbn [flat_map length]; [lia|]. rewrite app_length, bits_length, IH. lia.
Qed.
Definition ranged (w : nat) (l : list Z) : Prop := Forall (fun x => 0 <= x < 2 ^ Z.of_nat w) l.
Lemma number_bits w l : ranged w l -> number (2 ^ Z.of_nat w) l = num (flat_map (bits w) l).
Proof.
  induction 1 as [|x l Hx _ IH]; [reflexivity|]. cbn [number flat_map].
  rewrite num_app, num_bits, Z.mod_small, IH, flat_bits_length by assumption.
  rewrite <- Z.pow_mul_r by lia. do 3 f_equal. lia.
Qed.
Lemma flat_bits_inj w l : forall m, length l = length m -> ranged w l -> ranged w m ->
  flat_map (bits w) l = flat_map (bits w) m -> l = m.
Proof.
  induction l as [|x l IH]; intros [|y m] L Rl Rm E; cbn [length] in L; try lia; [reflexivity|].
  inversion Rl; inversion Rm; subst. cbn [flat_map] in E.
  assert (E1 : bits w x = bits w y).
  { apply (f_equal (firstn w)) in E.
    rewrite !firstn_app, !bits_length, Nat.sub_diag in E. cbn [firstn] in E.
    rewrite !app_nil_r, !firstn_all2 in E by (rewrite bits_length; lia). exact E. }
  rewrite E1 in E. apply app_inv_head in E.
  f_equal; [eapply bits_inj; eauto | apply IH; auto].
Qed.

(* --------------------------------------------------------------- base 32 *)

Lemma value32_letter c v : value32 c = Some v <-> letter c v.
Proof.
  unfold value32, letter. split.
  - intros E. destruct ((65 <=? c) && (c <=? 90)) eqn:A.
    + injection E as <-. left. lia.
    + destruct ((50 <=? c) && (c <=? 55)) eqn:B; [|discriminate]. injection E as <-. right. lia.
  - intros [[H ->]|[H ->]].
    + replace ((65 <=? 65 + v) && (65 + v <=? 90)) with true by lia. f_equal. lia.
    + replace ((65 <=? 50 + (v - 26)) && (50 + (v - 26) <=? 90)) with false by lia.
      replace ((50 <=? 50 + (v - 26)) && (50 + (v - 26) <=? 55)) with true by lia. f_equal. lia.
Qed.
Lemma symbol32_letter v : 0 <= v < 32 -> letter (symbol32 v) v.
Proof. intros H. unfold symbol32, letter. destruct (Z.ltb_spec v 26); lia. Qed.
Lemma letter_range c v : letter c v -> 0 <= v < 32.
Proof. unfold letter. lia. Qed.
Lemma letter_fun c v w : letter c v -> letter c w -> v = w.
Proof. unfold letter. lia. Qed.
Lemma letter_inj c d v : letter c v -> letter d v -> c = d.
Proof. unfold letter. lia. Qed.
Lemma values32_letters s : forall vs, values32 s = Some vs <-> Forall2 letter s vs.
Proof.
  induction s as [|c s IH]; intros vs; cbn [values32].
  - split; [intros [= <-]; constructor | intros H; inversion H; reflexivity].
  - split.
    + intros E. destruct (value32 c) as [v|] eqn:V; [|discriminate].
      destruct (values32 s) as [t|] eqn:T; [|discriminate]. injection E as <-.
      constructor; [now apply value32_letter | now apply IH].
    + intros H. inversion H as [|? v ? t Hv Ht]; subst.
      apply value32_letter in Hv. apply IH in Ht. now rewrite Hv, Ht.
Qed.
Lemma letters_length s vs : Forall2 letter s vs -> length s = length vs.
Proof. induction 1; cbn [length]; congruence. Qed.
Lemma letters_ranged s vs : Forall2 letter s vs -> ranged 5 vs.
Proof. induction 1; constructor; [eapply letter_range; eauto | assumption]. Qed.
Lemma letters_inj s : forall t vs, Forall2 letter s vs -> Forall2 letter t vs -> s = t.
Proof.
  induction s as [|c s IH]; intros t vs H K.
  - inversion H; subst. inversion K; reflexivity.
  - inversion H; subst. inversion K; subst. f_equal; [eapply letter_inj; eauto | eapply IH; eauto].
Qed.

(* s writes the bits l, and fewer than five zeros more *)
Definition writes (s : list Z) (l : list bool) : Prop :=
  exists vs k, Forall2 letter s vs /\ (k < 5)%nat /\ flat_map (bits 5) vs = l ++ repeat false k.

Lemma num5 a b c d e : 0 <= num [a; b; c; d; e] < 32.
Proof. apply (num_bound [a; b; c; d; e]). Qed.
Lemma bits5 a b c d e : bits 5 (num [a; b; c; d; e]) = [a; b; c; d; e].
Proof. exact (bits_num [a; b; c; d; e]). Qed.
Lemma writes_cons a b c d e r s :
  writes s r -> writes (symbol32 (num [a; b; c; d; e]) :: s) (a :: b :: c :: d :: e :: r).
Proof.
  intros (vs & k & F & K & E). exists (num [a; b; c; d; e] :: vs), k.
  split; [constructor; [apply symbol32_letter, num5 | assumption]|]. split; [assumption|].
  cbn [flat_map]. rewrite bits5, E. reflexivity.
Qed.
Lemma group5_writes l : writes (group5 l) l.
Proof.
  remember (length l) as n eqn:N. revert l N.
  induction n as [n IH] using lt_wf_ind; intros l N.
  destruct l as [|a [|b [|c [|d [|e r]]]]].
  - exists [], 0%nat. repeat split; [constructor | lia].
  - exists [num [a; false; false; false; false]], 4%nat.
    split; [constructor; [apply symbol32_letter, num5 | constructor]|]. split; [lia|].
    cbn [flat_map]. rewrite app_nil_r. apply bits5.
  - exists [num [a; b; false; false; false]], 3%nat.
    split; [constructor; [apply symbol32_letter, num5 | constructor]|]. split; [lia|].
    cbn [flat_map]. rewrite app_nil_r. apply bits5.
  - exists [num [a; b; c; false; false]], 2%nat.
    split; [constructor; [apply symbol32_letter, num5 | constructor]|]. split; [lia|].
    cbn [flat_map]. rewrite app_nil_r. apply bits5.
  - exists [num [a; b; c; d; false]], 1%nat.
    split; [constructor; [apply symbol32_letter, num5 | constructor]|]. split; [lia|].
    cbn [flat_map]. rewrite app_nil_r. apply bits5.
  - apply writes_cons. apply (IH (length r)); [cbn [length] in N; lia | reflexivity].
Qed.

Lemma zeros_iff (l : list bool) : forallb negb l = true <-> l = repeat false (length l).
Proof.
  induction l as [|b l IH]; cbn [forallb length repeat]; [tauto|].
  rewrite andb_true_iff, IH. destruct b; cbn [negb]; split.
  - intros [H _]; discriminate.
  - intros H; discriminate.
  - intros [_ H]. congruence.
  - intros H. injection H as H. auto.
Qed.
Lemma group8_short l d : (length l < 8)%nat ->
  (if (length l <? 5)%nat && forallb negb l then Some [] else None) = Some d <->
  (are_bytes d /\ exists k, (k < 5)%nat /\ l = flat_map (bits 8) d ++ repeat false k).
Proof.
  intros L. split.
  - intros E. destruct ((length l <? 5)%nat && forallb negb l) eqn:C; [|discriminate].
    injection E as <-. apply andb_true_iff in C as [C1 C2]. apply Nat.ltb_lt in C1.
    apply zeros_iff in C2. split; [constructor|]. exists (length l). auto.
  - intros (_ & k & K & ->).
    destruct d as [|x d].
    + cbn [flat_map app]. rewrite repeat_length.
      replace (k <? 5)%nat with true by (symmetry; now apply Nat.ltb_lt).
      replace (forallb negb (repeat false k)) with true; [reflexivity|].
      symmetry. apply zeros_iff. now rewrite repeat_length.
    + exfalso. rewrite app_length, flat_bits_length in L. cbn [length] in L. lia.
Qed.
Lemma num8 a b c d e f g h : 0 <= num [a; b; c; d; e; f; g; h] < 256.
Proof. apply (num_bound [a; b; c; d; e; f; g; h]). Qed.
Lemma bits8 a b c d e f g h :
  bits 8 (num [a; b; c; d; e; f; g; h]) = [a; b; c; d; e; f; g; h].
Proof. exact (bits_num [a; b; c; d; e; f; g; h]). Qed.
Lemma group8_iff l : forall d, group8 l = Some d <->
  (are_bytes d /\ exists k, (k < 5)%nat /\ l = flat_map (bits 8) d ++ repeat false k).
Proof.
  remember (length l) as n eqn:N. revert l N.
  induction n as [n IH] using lt_wf_ind; intros l N dd.
  destruct l as [|a [|b [|c [|d [|e [|f [|g [|h r]]]]]]]];
    try (apply group8_short; cbn [length]; lia).
  cbn [group8]. cbn [length] in N.
  assert (IHr : forall t, group8 r = Some t <->
    (are_bytes t /\ exists k, (k < 5)%nat /\ r = flat_map (bits 8) t ++ repeat false k))
    by (intros t; apply (IH (length r)); [lia | reflexivity]).
  split.
  - intros E. destruct (group8 r) as [t|] eqn:T; [|discriminate]. injection E as <-.
    destruct (proj1 (IHr t) eq_refl) as (Bt & k & K & ->). split; [constructor; [apply num8 | assumption]|].
    exists k. split; [assumption|]. cbn [flat_map].
    rewrite bits8. reflexivity.
  - intros (Bd & k & K & E). destruct dd as [|x dd].
    { cbn [flat_map app] in E. apply (f_equal (@length bool)) in E.
      rewrite repeat_length in E. cbn [length] in E. lia. }
    inversion Bd as [|? ? Bx Bdd]; subst. cbn [flat_map] in E.
    rewrite <- app_assoc in E.
    destruct (app_split [a; b; c; d; e; f; g; h] r (bits 8 x) (flat_map (bits 8) dd ++ repeat false k))
      as [X R]; [now rewrite bits_length | exact E |].
    assert (T : group8 r = Some dd) by (apply IHr; eauto).
    rewrite T, X, num_bits. change (2 ^ Z.of_nat 8) with 256. rewrite Z.mod_small by assumption.
    reflexivity.
Qed.

Lemma decode32_iff s d :
  decode32 s = Some d <-> are_bytes d /\ writes s (flat_map (bits 8) d).
Proof.
  unfold decode32. split.
  - intros E. destruct (values32 s) as [vs|] eqn:V; [|discriminate].
    apply values32_letters in V. apply group8_iff in E as (B & k & K & E).
    split; [assumption|]. exists vs, k. auto.
  - intros (B & vs & k & F & K & E). apply values32_letters in F. rewrite F.
    apply group8_iff. split; [assumption|]. eauto.
Qed.
Lemma writes_unique s t l : writes s l -> writes t l -> s = t.
Proof.
  intros (vs & k & F & K & E) (ws & j & G & J & D).
  assert (L : length vs = length ws /\ k = j).
  { pose proof (f_equal (@length bool) E) as LE. pose proof (f_equal (@length bool) D) as LD.
    rewrite flat_bits_length, app_length, repeat_length in LE, LD. lia. }
  destruct L as [L ->]. assert (vs = ws) as ->.
  { apply (flat_bits_inj 5); eauto using letters_ranged. congruence. }
  eapply letters_inj; eauto.
Qed.
Lemma encode32_iff s d : encode32 d = s <-> writes s (flat_map (bits 8) d).
Proof.
  unfold encode32. split.
  - intros <-. apply group5_writes.
  - intros W. eapply writes_unique; [apply group5_writes | exact W].
Qed.

(* ------------------------------------------------------------------- crc *)

Lemma shift_linear a b : crc_shift (Z.lxor a b) = Z.lxor (crc_shift a) (crc_shift b).
Proof.
  unfold crc_shift. rewrite Z.lxor_spec.
  assert (D : Z.land (2 * Z.lxor a b) 65535 =
              Z.lxor (Z.land (2 * a) 65535) (Z.land (2 * b) 65535)).
  { apply Z.bits_inj'. intros n Hn. rewrite Z.lxor_spec, !Z.land_spec.
    rewrite !(Z.mul_comm 2). destruct (Z.eq_dec n 0) as [->|Nn].
    - rewrite !Z.testbit_even_0 || rewrite <- !Z.mul_comm with (n := 2), !Z.testbit_even_0. reflexivity.
    - replace n with (Z.succ (n - 1)) by lia. rewrite <- !(Z.mul_comm 2).
      rewrite !Z.double_bits_succ, Z.lxor_spec.
      destruct (Z.testbit a (n - 1)), (Z.testbit b (n - 1)), (Z.testbit 65535 (Z.succ (n - 1))); reflexivity. }
  rewrite D. set (x := Z.land (2 * a) 65535). set (y := Z.land (2 * b) 65535).
  destruct (Z.testbit a 15), (Z.testbit b 15); cbn [xorb].
  - rewrite (Z.lxor_assoc x 4129), <- (Z.lxor_assoc 4129 y), (Z.lxor_comm 4129 y), Z.lxor_assoc.
    rewrite Z.lxor_nilpotent, Z.lxor_0_r. reflexivity.
  - rewrite !Z.lxor_assoc. f_equal. apply Z.lxor_comm.
  - rewrite !Z.lxor_assoc. reflexivity.
  - reflexivity.
Qed.
Lemma iter_S {A} n (f : A -> A) x : Nat.iter (S n) f x = f (Nat.iter n f x).
Proof. reflexivity. Qed.
Lemma iter_linear n a b :
  Nat.iter n crc_shift (Z.lxor a b) = Z.lxor (Nat.iter n crc_shift a) (Nat.iter n crc_shift b).
Proof. induction n; [reflexivity|]. rewrite !iter_S, IHn. apply shift_linear. Qed.

Definition crc_bit (s : Z) (b : bool) : Z := crc_shift (Z.lxor s (if b then 32768 else 0)).
Definition crc_bits (s : Z) (l : list bool) : Z := fold_left crc_bit l s.
Definition xorl (l m : list bool) : list bool := map (fun p => xorb (fst p) (snd p)) (combine l m).

Lemma lxor_swap a b c d : Z.lxor (Z.lxor a b) (Z.lxor c d) = Z.lxor (Z.lxor a c) (Z.lxor b d).
Proof.
  apply Z.bits_inj'. intros n _. rewrite !Z.lxor_spec.
  destruct (Z.testbit a n), (Z.testbit b n), (Z.testbit c n), (Z.testbit d n); reflexivity.
Qed.
Lemma lxor_cancel v u w g :
  Z.lxor (Z.lxor v u) (Z.lxor (Z.lxor w u) g) = Z.lxor (Z.lxor v w) g.
Proof.
  apply Z.bits_inj'. intros n _. rewrite !Z.lxor_spec.
  destruct (Z.testbit u n), (Z.testbit v n), (Z.testbit w n), (Z.testbit g n); reflexivity.
Qed.
Lemma crc_bit_linear a b x y :
  crc_bit (Z.lxor a b) (xorb x y) = Z.lxor (crc_bit a x) (crc_bit b y).
Proof.
  unfold crc_bit. rewrite <- shift_linear, lxor_swap. do 2 f_equal. destruct x, y; reflexivity.
Qed.
Lemma crc_bits_linear l : forall m a b, length l = length m ->
  crc_bits (Z.lxor a b) (xorl l m) = Z.lxor (crc_bits a l) (crc_bits b m).
Proof.
  unfold crc_bits, xorl. induction l as [|x l IH]; intros [|y m] a b L; cbn [length] in L; try lia;
    [reflexivity|].
  cbn [combine map fold_left fst snd]. rewrite crc_bit_linear. apply IH. lia.
Qed.
Lemma crc_bits_zeros n s : crc_bits s (repeat false n) = Nat.iter n crc_shift s.
Proof.
  revert s. induction n as [|n IH]; intros s; [reflexivity|].
  cbn [repeat]. unfold crc_bits in *. cbn [fold_left]. rewrite IH. unfold crc_bit.
  rewrite Z.lxor_0_r. clear IH. induction n; [reflexivity|].
  rewrite iter_S, IHn. reflexivity.
Qed.
Lemma xorl_zeros l n : length l = n -> xorl l (repeat false n) = l.
Proof.
  intros <-. unfold xorl. induction l as [|b l IH]; [reflexivity|].
  cbn [length repeat combine map fst snd]. rewrite IH. destruct b; reflexivity.
Qed.
Lemma crc_bits_start s l : crc_bits s l = Z.lxor (crc_bits 0 l) (Nat.iter (length l) crc_shift s).
Proof.
  rewrite <- crc_bits_zeros, <- crc_bits_linear by (now rewrite repeat_length).
  now rewrite xorl_zeros.
Qed.

Definition byte_table_ok : bool :=
  forallb (fun b => Nat.iter 8 crc_shift (256 * b) =? crc_bits 0 (bits 8 b))
          (map Z.of_nat (seq 0 256)).
Lemma byte_table : byte_table_ok = true.
Proof. vm_compute. reflexivity. Qed.
Lemma in_range n x : 0 <= x < Z.of_nat n -> In x (map Z.of_nat (seq 0 n)).
Proof.
  intros H. apply in_map_iff. exists (Z.to_nat x). split; [lia|]. apply in_seq. lia.
Qed.
Lemma crc_byte_bits s b : 0 <= b < 256 -> crc_byte s b = crc_bits s (bits 8 b).
Proof.
  intros H. unfold crc_byte. rewrite iter_linear, crc_bits_start, bits_length, Z.lxor_comm.
  f_equal. pose proof byte_table as T. unfold byte_table_ok in T. rewrite forallb_forall in T.
  apply Z.eqb_eq, T, in_range. exact H.
Qed.
Lemma crc_as_bits l : are_bytes l -> forall s, fold_left crc_byte l s = crc_bits s (flat_map (bits 8) l).
Proof.
  induction 1 as [|b l B _ IH]; intros s; [reflexivity|].
  cbn [fold_left flat_map]. unfold crc_bits in *. rewrite fold_left_app, IH.
  rewrite crc_byte_bits by exact B. reflexivity.
Qed.

Lemma lxor_range a b n : 0 <= n -> 0 <= a < 2 ^ n -> 0 <= b < 2 ^ n -> 0 <= Z.lxor a b < 2 ^ n.
Proof.
  intros Hn Ha Hb. split; [apply Z.lxor_nonneg; lia|].
  destruct (Z.eq_dec (Z.lxor a b) 0) as [->|N]; [lia|].
  apply Z.log2_lt_pow2; [pose proof (proj2 (Z.lxor_nonneg a b)); lia|].
  pose proof (Z.log2_lxor a b ltac:(lia) ltac:(lia)) as L.
  assert (Z.log2 a < n \/ a = 0) by (destruct (Z.eq_dec a 0); [tauto|left; apply Z.log2_lt_pow2; lia]).
  assert (Z.log2 b < n \/ b = 0) by (destruct (Z.eq_dec b 0); [tauto|left; apply Z.log2_lt_pow2; lia]).
  assert (0 < n).
  { destruct (Z.eq_dec n 0) as [->|]; [|lia]. change (2 ^ 0) with 1 in *.
    exfalso. apply N. replace a with 0 by lia. replace b with 0 by lia. reflexivity. }
  destruct H as [H| ->], H0 as [H0| ->]; cbn [Z.log2] in L; lia.
Qed.
Lemma land_range a : 0 <= Z.land a 65535 < 2 ^ 16.
Proof.
  change 65535 with (Z.ones 16). rewrite Z.land_ones by lia. apply Z.mod_pos_bound. lia.
Qed.
Lemma shift_range s : 0 <= crc_shift s < 2 ^ 16.
Proof.
  unfold crc_shift. destruct (Z.testbit s 15); [|apply land_range].
  apply lxor_range; [lia | apply land_range | lia].
Qed.
Lemma crc_bits_range l : forall s, 0 <= s < 2 ^ 16 -> 0 <= crc_bits s l < 2 ^ 16.
Proof.
  induction l as [|b l IH]; intros s H; [exact H|]. apply (IH (crc_bit s b)). apply shift_range.
Qed.

(* the register after l is the remainder of l times x^16 *)
Lemma double_lxor a b : 2 * Z.lxor a b = Z.lxor (2 * a) (2 * b).
Proof.
  apply Z.bits_inj'. intros n Hn. rewrite Z.lxor_spec. destruct (Z.eq_dec n 0) as [->|N].
  - rewrite !Z.testbit_even_0. reflexivity.
  - replace n with (Z.succ (n - 1)) by lia. now rewrite !Z.double_bits_succ, Z.lxor_spec.
Qed.
Lemma shift_generator t : 0 <= t < 2 ^ 16 ->
  crc_shift t = Z.lxor (2 * t) (if Z.testbit t 15 then generator else 0).
Proof.
  intros H. unfold crc_shift. change 65535 with (Z.ones 16).
  rewrite Z.land_ones by lia. change (2 ^ 16) with (2 * 2 ^ 15) in *.
  destruct (Z.testbit t 15) eqn:T.
  - assert (A : t / 2 ^ 15 = 1).
    { pose proof (Z.testbit_spec' t 15 ltac:(lia)) as S. rewrite T in S. cbn [Z.b2z] in S.
      assert (0 <= t / 2 ^ 15 < 2) by (split; [apply Z.div_pos; lia | apply Z.div_lt_upper_bound; lia]).
      rewrite Z.mod_small in S by lia. lia. }
    rewrite Z.mul_mod_distr_l by lia.
    replace (t mod 2 ^ 15) with (t - 2 ^ 15) by (rewrite Z.mod_eq, A by lia; lia).
    replace (2 * (t - 2 ^ 15)) with (Z.lxor (2 * t) (2 ^ 16)).
    + rewrite Z.lxor_assoc. reflexivity.
    + replace t with (Z.lxor (t - 2 ^ 15) (2 ^ 15)) at 1.
      * rewrite double_lxor, Z.lxor_assoc. change (2 * 2 ^ 15) with (2 ^ 16).
        now rewrite Z.lxor_nilpotent, Z.lxor_0_r.
      * rewrite <- Z.add_nocarry_lxor; [lia|].
        apply Z.bits_inj'. intros n Hn. rewrite Z.land_spec, Z.bits_0, Z.pow2_bits_eqb by lia.
        destruct (Z.eqb_spec 15 n) as [<-|N]; [|apply andb_false_r].
        rewrite andb_true_r. apply Z.testbit_false; [lia|].
        rewrite Z.div_small by (rewrite <- (Z.mod_small 0 2) by lia; pose proof (Z.div_mod t (2^15) ltac:(lia)); rewrite A in *; pose proof (Z.mod_pos_bound t (2^15) ltac:(lia)); lia).
        reflexivity.
  - assert (A : t / 2 ^ 15 = 0).
    { pose proof (Z.testbit_spec' t 15 ltac:(lia)) as S. rewrite T in S. cbn [Z.b2z] in S.
      assert (0 <= t / 2 ^ 15 < 2) by (split; [apply Z.div_pos; lia | apply Z.div_lt_upper_bound; lia]).
      rewrite Z.mod_small in S by lia. lia. }
    rewrite Z.lxor_0_r, Z.mul_mod_distr_l by lia. f_equal. rewrite Z.mod_eq, A by lia. lia.
Qed.
Lemma tg_snoc q b : times_generator (q ++ [b]) = Z.lxor (2 * times_generator q) (if b then generator else 0).
Proof. unfold times_generator. now rewrite fold_left_app. Qed.
Lemma num_snoc l b : num (l ++ [b]) = 2 * num l + Z.b2z b.
Proof. 
  rewrite num_app. change (2 ^ Z.of_nat (length [b])) with 2.
  change (num [b]) with (2 * 0 + Z.b2z b). lia.
Qed.
Lemma crc_bits_snoc s l b : crc_bits s (l ++ [b]) = crc_bit (crc_bits s l) b.
Proof. unfold crc_bits. now rewrite fold_left_app. Qed.
Lemma shifted_bit m (b : bool) : (2 * m + Z.b2z b) * 2 ^ 16 =
  Z.lxor (2 * (m * 2 ^ 16)) (2 * (if b then 32768 else 0)).
Proof.
  replace (2 * (if b then 32768 else 0)) with (Z.shiftl (Z.b2z b) 16) by (destruct b; reflexivity).
  rewrite <- !Z.shiftl_mul_pow2 by lia.
  replace (2 * Z.shiftl m 16) with (Z.shiftl (2 * m) 16) by (rewrite !Z.shiftl_mul_pow2 by lia; ring).
  rewrite <- Z.shiftl_lxor. f_equal.
  destruct b; cbn [Z.b2z].
  - rewrite <- Z.add_nocarry_lxor; [reflexivity|].
    apply Z.bits_inj'. intros n Hn. rewrite Z.land_spec, Z.bits_0.
    destruct (Z.eq_dec n 0) as [->|N]; [now rewrite Z.testbit_even_0|].
    change 1 with (2 ^ 0). rewrite Z.pow2_bits_false by lia. apply andb_false_r.
  - now rewrite Z.lxor_0_r, Z.add_0_r.
Qed.
Lemma crc_is_remainder l : is_checksum (num l) (crc_bits 0 l).
Proof.
  split; [apply crc_bits_range; lia|].
  induction l as [|b l IH] using rev_ind; [exists []; reflexivity|].
  destruct IH as [q IH]. rewrite num_snoc, crc_bits_snoc, shifted_bit.
  pose proof (crc_bits_range l 0 ltac:(lia)) as R.
  set (s := crc_bits 0 l) in *. unfold crc_bit.
  assert (R' : 0 <= Z.lxor s (if b then 32768 else 0) < 2 ^ 16)
    by (apply lxor_range; [lia | exact R | destruct b; lia]).
  rewrite shift_generator by exact R'.
  set (t := Z.testbit (Z.lxor s (if b then 32768 else 0)) 15).
  exists (q ++ [t]). rewrite tg_snoc, <- IH, !double_lxor.
  apply lxor_cancel.
Qed.

(* there is only one remainder *)
Lemma tg_nonneg q : 0 <= times_generator q.
Proof.
  induction q as [|b q IH] using rev_ind; [cbn; lia|]. rewrite tg_snoc.
  apply Z.lxor_nonneg. destruct b; unfold generator; lia.
Qed.
Lemma lxor_large a b : 2 ^ 17 <= a -> 0 <= b < 2 ^ 17 -> 2 ^ 16 <= Z.lxor a b.
Proof.
  intros Ha Hb.
  assert (L : 17 <= Z.log2 a) by (apply Z.log2_le_pow2; lia).
  assert (N : 0 <= Z.lxor a b) by (apply Z.lxor_nonneg; lia).
  assert (B : Z.testbit (Z.lxor a b) (Z.log2 a) = true).
  { rewrite Z.lxor_spec, Z.bit_log2 by lia. rewrite Z.bits_above_log2; [reflexivity|lia|].
    destruct (Z.eq_dec b 0) as [->|]; [cbn; lia|].
    assert (Z.log2 b < 17) by (apply Z.log2_lt_pow2; lia). lia. }
  destruct (Z.lt_ge_cases (Z.lxor a b) (2 ^ 16)) as [S|S]; [|exact S]. exfalso.
  destruct (Z.eq_dec (Z.lxor a b) 0) as [Q|Q]; [rewrite Q, Z.bits_0 in B; discriminate|].
  rewrite Z.bits_above_log2 in B; [discriminate|lia|].
  apply Z.lt_le_trans with 17; [|lia]. apply Z.log2_lt_pow2; [lia|]. apply Z.lt_trans with (2 ^ 16); [exact S | reflexivity].
Qed.
Lemma tg_large q : times_generator q = 0 \/ 2 ^ 16 <= times_generator q.
Proof.
  induction q as [|b q IH] using rev_ind; [left; reflexivity|].
  rewrite tg_snoc. destruct IH as [-> | IH].
  - destruct b; [right; cbn; unfold generator; lia | left; reflexivity].
  - right. apply lxor_large; [lia|]. destruct b; unfold generator; lia.
Qed.
Lemma tg_pad n q : times_generator (repeat false n ++ q) = times_generator q.
Proof.
  unfold times_generator. rewrite fold_left_app. f_equal.
  induction n; [reflexivity|]. exact IHn.
Qed.
Lemma tg_linear_acc q : forall r a b, length q = length r ->
  let f := fun acc (b : bool) => Z.lxor (2 * acc) (if b then generator else 0) in
  fold_left f (xorl q r) (Z.lxor a b) = Z.lxor (fold_left f q a) (fold_left f r b).
Proof.
  induction q as [|x q IH]; intros [|y r] a b L f; cbn [length] in L; try lia; [reflexivity|].
  unfold xorl in *. cbn [combine map fold_left fst snd]. unfold f at 2 4 6.
  rewrite <- IH by lia. f_equal. rewrite double_lxor, lxor_swap. f_equal.
  destruct x, y; cbn [xorb]; rewrite ?Z.lxor_nilpotent, ?Z.lxor_0_r, ?Z.lxor_0_l; reflexivity.
Qed.
Lemma tg_sum q r : exists t, Z.lxor (times_generator q) (times_generator r) = times_generator t.
Proof.
  set (n := Nat.max (length q) (length r)).
  rewrite <- (tg_pad (n - length q) q), <- (tg_pad (n - length r) r).
  exists (xorl (repeat false (n - length q) ++ q) (repeat false (n - length r) ++ r)).
  symmetry. apply (tg_linear_acc _ _ 0 0). rewrite !app_length, !repeat_length. lia.
Qed.
Lemma checksum_unique m c d : is_checksum m c -> is_checksum m d -> c = d.
Proof.
  intros [Rc [q Eq]] [Rd [r Er]]. destruct (tg_sum q r) as [t T].
  rewrite <- Eq, <- Er, lxor_swap, Z.lxor_nilpotent, Z.lxor_0_l in T.
  pose proof (lxor_range c d 16 ltac:(lia) Rc Rd) as R.
  destruct (tg_large t) as [Z0|Z0]; [|lia].
  apply Z.lxor_eq. lia.
Qed.
Lemma checksum_iff l c : is_checksum (num l) c <-> c = crc_bits 0 l.
Proof.
  split.
  - intros H. eapply checksum_unique; [exact H | apply crc_is_remainder].
  - intros ->. apply crc_is_remainder.
Qed.
