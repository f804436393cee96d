From Coq Require Import ZArith Lia List Bool.
From Verif Require Import Prelude FeesModel FeesSpec.
Import ListNotations.
Open Scope Z_scope.
Ltac Zify.zify_post_hook ::= Z.div_mod_to_equations.

(* ------------------------------------------------------ rounding up *)

Lemma div_ceil_spec a b : 0 < b -> ceil_quotient a b (div_ceil a b).
Proof.
  intros. unfold ceil_quotient, div_ceil. destruct (Z.eqb_spec (a mod b) 0) as [E|E].
  - pose proof (Z.div_mod a b). nia.
  - pose proof (Z.div_mod a b). pose proof (Z.mod_pos_bound a b). nia.
Qed.

Lemma ceil_unique n d p q : 0 < d -> ceil_quotient n d p -> ceil_quotient n d q -> p = q.
Proof. unfold ceil_quotient. intros. nia. Qed.

Lemma ceil_mono n m d p q : 0 < d -> n <= m -> ceil_quotient n d p -> ceil_quotient m d q -> p <= q.
Proof. unfold ceil_quotient. intros. nia. Qed.

Lemma ceil_nonneg n d q : 0 < d -> 0 <= n -> ceil_quotient n d q -> 0 <= q.
Proof. unfold ceil_quotient. intros. nia. Qed.

Lemma ceil_le_num n d q : 0 < d -> 0 <= n -> ceil_quotient n d q -> q <= n.
Proof. unfold ceil_quotient. intros. nia. Qed.

Lemma ceil_subadd n m d p q r : 0 < d ->
  ceil_quotient n d p -> ceil_quotient m d q -> ceil_quotient (n + m) d r -> r <= p + q.
Proof. unfold ceil_quotient. intros. nia. Qed.

Lemma div_ceil_mono a b d : 0 < d -> a <= b -> div_ceil a d <= div_ceil b d.
Proof. intros. apply (ceil_mono a b d); auto using div_ceil_spec. Qed.
Lemma div_ceil_nonneg a d : 0 < d -> 0 <= a -> 0 <= div_ceil a d.
Proof. intros. eapply ceil_nonneg; [|eassumption|now apply div_ceil_spec]; lia. Qed.
Lemma div_ceil_le a d : 0 < d -> 0 <= a -> div_ceil a d <= a.
Proof. intros. eapply ceil_le_num; [|eassumption|now apply div_ceil_spec]; lia. Qed.
Lemma div_ceil_0 d : 0 < d -> div_ceil 0 d = 0.
Proof. intros. unfold div_ceil. now rewrite Z.div_0_l, Z.mod_0_l by lia. Qed.
Lemma div_ceil_add a b d : 0 < d -> div_ceil (a + b) d <= div_ceil a d + div_ceil b d.
Proof. intros. apply (ceil_subadd a b d); try apply div_ceil_spec; assumption. Qed.

(* ------------------------------------------------------ saturation *)

Definition M := i64_max.
Lemma sat_nonneg x : 0 <= x -> sat_i64 x = Z.min M x.
Proof. unfold M. unfold_widths. lia. Qed.
Lemma sat_range x : i64_min <= sat_i64 x <= i64_max.
Proof. unfold_widths. lia. Qed.
Lemma sat_mono x y : x <= y -> sat_i64 x <= sat_i64 y.
Proof. unfold_widths. lia. Qed.
Lemma sat_id x : i64_min <= x <= i64_max -> sat_i64 x = x.
Proof. unfold_widths. lia. Qed.
Lemma sat_u32_mono x y : x <= y -> sat_u32 x <= sat_u32 y.
Proof. unfold_widths. lia. Qed.
Lemma M_pos : 0 < M. Proof. reflexivity. Qed.

Lemma mul_nonneg_mono a b c d : 0 <= a <= b -> 0 <= c <= d -> 0 <= a * c <= b * d.
Proof. nia. Qed.

Lemma fpi_nonneg v r inc : 0 <= v -> 0 <= r -> 0 <= compute_fee_per_increment v r inc <= M.
Proof.
  intros. unfold compute_fee_per_increment.
  assert (0 <= v * r) by nia. rewrite sat_nonneg by assumption.
  assert (0 <= Z.min M (v * r)) by (pose proof M_pos; lia).
  split; [apply div_ceil_nonneg; lia|].
  pose proof (div_ceil_le (Z.min M (v * r)) (Z.max inc 1)). lia.
Qed.

Lemma fpi_mono v w r s inc : 0 <= v <= w -> 0 <= r <= s ->
  compute_fee_per_increment v r inc <= compute_fee_per_increment w s inc.
Proof.
  intros. unfold compute_fee_per_increment. apply div_ceil_mono; [lia|].
  apply sat_mono. now apply mul_nonneg_mono.
Qed.

Lemma fpi_exact v r inc : 0 <= v -> 0 <= r -> 0 < inc -> v * r <= M ->
  ceil_quotient (v * r) inc (compute_fee_per_increment v r inc).
Proof.
  intros. unfold compute_fee_per_increment.
  rewrite sat_nonneg by nia. rewrite Z.min_r by lia. rewrite Z.max_l by lia.
  now apply div_ceil_spec.
Qed.

Lemma fpi_zero r inc : 0 < inc -> compute_fee_per_increment 0 r inc = 0.
Proof. intros. unfold compute_fee_per_increment. rewrite Z.mul_0_l. apply div_ceil_0. lia. Qed.

(* ------------------------------------------------------ C32 *)

Ltac fields H := unfold ok_resources, ok_fees, resources_le, fees_le, products_fit, rate in H.

Definition nonref r c := fst (compute_transaction_resource_fee r c).
Definition ref r c := snd (compute_transaction_resource_fee r c).

Lemma resource_fee_nonneg r c :
  ok_resources r -> ok_fees c ->
  0 <= fst (compute_transaction_resource_fee r c) <= i64_max
  /\ 0 <= snd (compute_transaction_resource_fee r c) <= i64_max.
Proof.
  intros Hr Hc. fields Hr. fields Hc.
  destruct Hr as (R1 & R2 & R3 & R4 & R5 & R6 & R7).
  destruct Hc as (F1 & F2 & F3 & F4 & F5 & F6 & F7 & F8).
  unfold in_u32 in *.
  unfold compute_transaction_resource_fee; cbn [fst snd].
  split; [|apply fpi_nonneg; lia].
  split; [|apply sat_range].
  assert (A : forall x y, 0 <= x -> 0 <= y -> 0 <= sat_i64 (x + y)).
  { intros. rewrite sat_nonneg by lia. pose proof M_pos; lia. }
  assert (Bm : forall x y, 0 <= x -> 0 <= y -> 0 <= sat_i64 (x * y)).
  { intros. rewrite sat_nonneg by nia. pose proof M_pos. assert (0 <= x * y) by nia. lia. }
  assert (0 <= sat_u32 (r_tx_size r + TX_BASE_RESULT_SIZE)) by (unfold TX_BASE_RESULT_SIZE; unfold_widths; lia).
  repeat apply A; try (apply Bm; lia); apply fpi_nonneg; lia.
Qed.

Lemma resource_fee_mono r s c d :
  ok_resources r -> ok_resources s -> ok_fees c -> ok_fees d ->
  resources_le r s -> fees_le c d ->
  fst (compute_transaction_resource_fee r c) <= fst (compute_transaction_resource_fee s d)
  /\ snd (compute_transaction_resource_fee r c) <= snd (compute_transaction_resource_fee s d).
Proof.
  intros Hr Hs Hc Hd Lr Lc. fields Hr. fields Hs. fields Hc. fields Hd. fields Lr. fields Lc.
  destruct Hr as (R1 & R2 & R3 & R4 & R5 & R6 & R7).
  destruct Hc as (F1 & F2 & F3 & F4 & F5 & F6 & F7 & F8).
  destruct Lr as (L1 & L2 & L3 & L4 & L5 & L6 & L7).
  destruct Lc as (G1 & G2 & G3 & G4 & G5 & G6 & G7 & G8).
  clear Hs Hd. unfold in_u32 in *.
  unfold compute_transaction_resource_fee; cbn [fst snd].
  split; [|apply fpi_mono; lia].
  assert (0 <= sat_u32 (r_tx_size r + TX_BASE_RESULT_SIZE) <= sat_u32 (r_tx_size s + TX_BASE_RESULT_SIZE))
    by (unfold TX_BASE_RESULT_SIZE; unfold_widths; lia).
  repeat (apply sat_mono; apply Z.add_le_mono);
    try (apply fpi_mono; lia); try (apply sat_mono; apply mul_nonneg_mono; lia).
Qed.

Lemma min_sum x y : 0 <= x -> 0 <= y -> sat_i64 (Z.min M x + y) = Z.min M (x + y).
Proof. intros. rewrite sat_nonneg by (pose proof M_pos; lia). lia. Qed.

Lemma resource_fee_exact r c :
  ok_resources r -> ok_fees c -> products_fit r c ->
  exists k, exact_components r c k
  /\ fst (compute_transaction_resource_fee r c)
     = Z.min i64_max (k_instructions k + k_read_entries k + k_write_entries k + k_read_bytes k
                      + k_write_bytes k + k_history k + k_bandwidth k)
  /\ snd (compute_transaction_resource_fee r c) = k_events k.
Proof.
  intros Hr Hc Hp. fields Hr. fields Hc. fields Hp.
  destruct Hr as (R1 & R2 & R3 & R4 & R5 & R6 & R7).
  destruct Hc as (F1 & F2 & F3 & F4 & F5 & F6 & F7 & F8).
  destruct Hp as (P1 & P2 & P3 & P4 & P5 & P6 & P7 & P8 & P9).
  unfold in_u32 in *.
  assert (TX : sat_u32 (r_tx_size r + TX_BASE_RESULT_SIZE) = r_tx_size r + 300)
    by (unfold TX_BASE_RESULT_SIZE; unfold_widths; lia).
  exists {| k_instructions := compute_fee_per_increment (r_instructions r) (f_instruction_increment c) 10000;
            k_read_entries := r_disk_read_entries r * f_disk_read_entry c;
            k_write_entries := r_write_entries r * f_write_entry c;
            k_read_bytes := compute_fee_per_increment (r_disk_read_bytes r) (f_disk_read_1kb c) 1024;
            k_write_bytes := compute_fee_per_increment (r_write_bytes r) (f_write_1kb c) 1024;
            k_history := compute_fee_per_increment (r_tx_size r + 300) (f_historical_1kb c) 1024;
            k_bandwidth := compute_fee_per_increment (r_tx_size r) (f_tx_size_1kb c) 1024;
            k_events := compute_fee_per_increment (r_events_size r) (f_event_1kb c) 1024 |}.
  cbn [k_instructions k_read_entries k_write_entries k_read_bytes k_write_bytes k_history k_bandwidth k_events].
  split.
  { unfold exact_components; cbn. repeat split; try reflexivity; apply fpi_exact; try lia; assumption. }
  split; [|reflexivity].
  unfold compute_transaction_resource_fee; cbn [fst snd]. rewrite TX.
  unfold INSTRUCTIONS_INCREMENT, DATA_SIZE_1KB_INCREMENT.
  rewrite (Z.mul_comm (f_disk_read_entry c)), (Z.mul_comm (f_write_entry c)).
  assert (N1 : 0 <= r_disk_read_entries r * f_disk_read_entry c) by nia.
  assert (N2 : 0 <= r_write_entries r * f_write_entry c) by nia.
  rewrite (sat_nonneg (r_disk_read_entries r * f_disk_read_entry c)) by exact N1.
  rewrite (sat_nonneg (r_write_entries r * f_write_entry c)) by exact N2.
  unfold M. rewrite (Z.min_r _ (r_disk_read_entries r * f_disk_read_entry c)) by lia.
  rewrite (Z.min_r _ (r_write_entries r * f_write_entry c)) by lia.
  pose proof (fpi_nonneg (r_instructions r) (f_instruction_increment c) 10000) as A1.
  pose proof (fpi_nonneg (r_disk_read_bytes r) (f_disk_read_1kb c) 1024) as A2.
  pose proof (fpi_nonneg (r_write_bytes r) (f_write_1kb c) 1024) as A3.
  pose proof (fpi_nonneg (r_tx_size r + 300) (f_historical_1kb c) 1024) as A4.
  pose proof (fpi_nonneg (r_tx_size r) (f_tx_size_1kb c) 1024) as A5.
  specialize (A1 ltac:(lia) ltac:(lia)). specialize (A2 ltac:(lia) ltac:(lia)).
  specialize (A3 ltac:(lia) ltac:(lia)). specialize (A4 ltac:(lia) ltac:(lia)).
  specialize (A5 ltac:(lia) ltac:(lia)).
  repeat match goal with |- context [compute_fee_per_increment ?a ?b ?c] =>
    generalize dependent (compute_fee_per_increment a b c); intros end.
  fold M. rewrite (sat_nonneg (_ + _ * f_disk_read_entry c)) by lia.
  rewrite !min_sum by lia. reflexivity.
Qed.

(* ------------------------------------------------------ C34 *)

Lemma clamp_fee_i128_mono x y : 0 <= x -> x <= y -> clamp_fee_i128 x <= clamp_fee_i128 y.
Proof. intros. unfold clamp_fee_i128. unfold_widths. repeat case_if; lia. Qed.
Lemma clamp_fee_i128_nonneg x : 0 <= clamp_fee_i128 x <= i64_max.
Proof. unfold clamp_fee_i128. unfold_widths. repeat case_if; lia. Qed.
Lemma sat_i128_mono x y : x <= y -> sat_i128 x <= sat_i128 y.
Proof. unfold sat_i128, clamp. lia. Qed.
Lemma sat_i128_nonneg x : 0 <= x -> 0 <= sat_i128 x <= x.
Proof. unfold sat_i128, clamp. lia. Qed.

Lemma sat_i128_id x : - 2 ^ 127 <= x <= 2 ^ 127 - 1 -> sat_i128 x = x.
Proof. unfold sat_i128, clamp. lia. Qed.

Lemma rent_write_min s c : 1000 <= compute_rent_write_fee_per_1kb s c.
Proof. unfold compute_rent_write_fee_per_1kb, MINIMUM_RENT_WRITE_FEE_PER_1KB. lia. Qed.

Section RentWrite.
  Variable c : rent_write_config.
  Hypothesis Hc : sane_write_config c.

  Let mult := clamp_fee_i64 (sat_i64 (w_fee_high c - w_fee_low c)).

  Lemma mult_range : 0 <= mult <= w_fee_high c - w_fee_low c /\ mult <= i64_max.
  Proof.
    destruct Hc as (T & L & H & G & LE). unfold mult, clamp_fee_i64.
    unfold_widths. case_if; lia.
  Qed.

  Lemma below s : 0 <= s < w_target_size c ->
    w_fee_low c <= sat_i64 (clamp_fee_i128 (div_ceil (sat_i128 (mult * s)) (Z.max (w_target_size c) 1)) + w_fee_low c)
    <= w_fee_high c.
  Proof.
    intros S. pose proof mult_range as [Mr Mm]. destruct Hc as (T & L & H & G & LE).
    rewrite Z.max_l by lia. set (t := w_target_size c) in *.
    assert (N : 0 <= mult * s) by nia. pose proof (sat_i128_nonneg _ N) as [S0 S1].
    set (x := sat_i128 (mult * s)) in *.
    assert (D : 0 <= div_ceil x t <= mult).
    { split; [apply div_ceil_nonneg; lia|].
      pose proof (div_ceil_spec x t ltac:(lia)) as Q. unfold ceil_quotient in Q. nia. }
    set (q := div_ceil x t) in *. clearbody q. unfold clamp_fee_i128. unfold_widths.
    repeat case_if; lia.
  Qed.

  Lemma above s : 0 <= s -> w_target_size c <= s -> in_i64 s ->
    w_fee_high c <= sat_i64 (w_fee_high c +
      clamp_fee_i128 (div_ceil (sat_i128 (sat_i128 (mult * sat_i64 (s - w_target_size c)) * w_growth c))
                               (Z.max (w_target_size c) 1))).
  Proof.
    intros S0 S1 S2. destruct Hc as (T & L & H & G & LE).
    pose proof (clamp_fee_i128_nonneg (div_ceil (sat_i128 (sat_i128 (mult * sat_i64 (s - w_target_size c)) * w_growth c))
                               (Z.max (w_target_size c) 1))) as N.
    set (q := clamp_fee_i128 _) in *. clearbody q. unfold_widths. lia.
  Qed.

  Lemma rent_write_mono s1 s2 :
    0 <= s1 -> s1 <= s2 -> in_i64 s2 ->
    compute_rent_write_fee_per_1kb s1 c <= compute_rent_write_fee_per_1kb s2 c.
  Proof.
    intros S1 S12 S2. unfold compute_rent_write_fee_per_1kb.
    change (clamp_fee_i64 (sat_i64 (w_fee_high c - w_fee_low c))) with mult. cbv zeta.
    apply Z.max_le_compat_r.
    pose proof mult_range as [Mr Mm].
    destruct (Z.ltb_spec s1 (w_target_size c)) as [A|A], (Z.ltb_spec s2 (w_target_size c)) as [B|B]; try lia.
    - apply sat_mono. apply Z.add_le_mono_r. apply clamp_fee_i128_mono.
      + apply div_ceil_nonneg; [lia|]. apply sat_i128_nonneg. nia.
      + apply div_ceil_mono; [lia|]. apply sat_i128_mono. nia.
    - etransitivity; [apply below; lia|]. apply above; lia || assumption.
    - apply sat_mono. apply Z.add_le_mono_l. destruct Hc as (T & L & H & G & LE).
      assert (P : 0 <= sat_i64 (s1 - w_target_size c) <= sat_i64 (s2 - w_target_size c)).
      { split; [rewrite sat_nonneg by lia; pose proof M_pos; lia|apply sat_mono; lia]. }
      assert (Q : 0 <= sat_i128 (mult * sat_i64 (s1 - w_target_size c)) <= sat_i128 (mult * sat_i64 (s2 - w_target_size c))).
      { split; [apply sat_i128_nonneg; nia|apply sat_i128_mono; nia]. }
      unfold in_u32 in G.
      apply clamp_fee_i128_mono.
      + apply div_ceil_nonneg; [lia|]. apply sat_i128_nonneg. nia.
      + apply div_ceil_mono; [lia|]. apply sat_i128_mono. nia.
  Qed.

  Lemma rent_write_at_zero : 0 < w_target_size c ->
    compute_rent_write_fee_per_1kb 0 c = Z.max (w_fee_low c) 1000.
  Proof.
    intros T0. unfold compute_rent_write_fee_per_1kb.
    destruct (Z.ltb_spec 0 (w_target_size c)) as [A|A]; [|lia].
    rewrite Z.mul_0_r. change (sat_i128 0) with 0. rewrite div_ceil_0 by lia.
    change (clamp_fee_i128 0) with 0. destruct Hc as (T & L & H & G & LE).
    f_equal. unfold_widths. lia.
  Qed.

  Lemma rent_write_at_target : 
    compute_rent_write_fee_per_1kb (w_target_size c) c = Z.max (w_fee_high c) 1000.
  Proof.
    unfold compute_rent_write_fee_per_1kb. rewrite Z.ltb_irrefl.
    rewrite Z.sub_diag. change (sat_i64 0) with 0. rewrite Z.mul_0_r.
    change (sat_i128 0) with 0. rewrite Z.mul_0_l. change (sat_i128 0) with 0.
    rewrite div_ceil_0 by lia.
    change (clamp_fee_i128 0) with 0. destruct Hc as (T & L & H & G & LE).
    f_equal. unfold_widths. lia.
  Qed.

  Lemma mult_exact : w_fee_high c - w_fee_low c <= i64_max ->
    mult = w_fee_high c - w_fee_low c.
  Proof.
    intros W. destruct Hc as (T & L & H & G & LE). unfold mult, clamp_fee_i64.
    rewrite sat_id by (unfold_widths; lia). case_if; lia.
  Qed.

  Lemma rent_write_below_exact s q :
    w_fee_high c - w_fee_low c <= i64_max -> 0 <= s < w_target_size c ->
    ceil_quotient ((w_fee_high c - w_fee_low c) * s) (w_target_size c) q ->
    compute_rent_write_fee_per_1kb s c = Z.max (w_fee_low c + q) 1000.
  Proof.
    intros W S Q. unfold compute_rent_write_fee_per_1kb.
    change (clamp_fee_i64 (sat_i64 (w_fee_high c - w_fee_low c))) with mult. cbv zeta.
    rewrite (mult_exact W). destruct Hc as (T & L & H & G & LE).
    destruct (Z.ltb_spec s (w_target_size c)) as [A|A]; [|lia].
    set (D := w_fee_high c - w_fee_low c) in *. set (t := w_target_size c) in *.
    assert (P : 0 <= D * s <= i64_max * i64_max) by (unfold in_i64 in T; nia).
    replace (sat_i128 (D * s)) with (D * s) by (symmetry; apply sat_i128_id; change i64_max with 9223372036854775807 in *; lia).
    rewrite (Z.max_l t 1) by lia.
    rewrite (ceil_unique (D * s) t (div_ceil (D * s) t) q) by (first [lia | assumption | apply div_ceil_spec; lia]).
    assert (R : 0 <= q <= D).
    { split; [apply (ceil_nonneg (D * s) t q); [lia|lia|exact Q]|]. unfold ceil_quotient in Q. nia. }
    rewrite (Z.add_comm (clamp_fee_i128 q)). unfold clamp_fee_i128, MINIMUM_RENT_WRITE_FEE_PER_1KB.
    subst D. f_equal. unfold in_i64 in *.
    repeat case_if; try lia; apply sat_id; lia.
  Qed.

  Lemma rent_write_above_exact s q :
    w_fee_high c - w_fee_low c <= i64_max -> 0 < w_target_size c <= s -> in_i64 s ->
    (w_fee_high c - w_fee_low c) * (s - w_target_size c) * w_growth c <= 2 ^ 127 - 1 ->
    ceil_quotient ((w_fee_high c - w_fee_low c) * (s - w_target_size c) * w_growth c) (w_target_size c) q ->
    w_fee_high c + q <= i64_max -> q <= i64_max ->
    compute_rent_write_fee_per_1kb s c = Z.max (w_fee_high c + q) 1000.
  Proof.
    intros W S I NO Q F F'. unfold compute_rent_write_fee_per_1kb.
    change (clamp_fee_i64 (sat_i64 (w_fee_high c - w_fee_low c))) with mult. cbv zeta.
    rewrite (mult_exact W). destruct Hc as (T & L & H & G & LE).
    destruct (Z.ltb_spec s (w_target_size c)) as [A|A]; [lia|].
    set (D := w_fee_high c - w_fee_low c) in *. set (t := w_target_size c) in *.
    unfold in_i64, in_u32 in *.
    rewrite (sat_id (s - t)) by (unfold i64_min, i64_max in *; lia).
    assert (P : 0 <= D * (s - t) <= i64_max * i64_max) by nia.
    replace (sat_i128 (D * (s - t))) with (D * (s - t)) by (symmetry; apply sat_i128_id; change i64_max with 9223372036854775807 in *; lia).
    assert (P' : 0 <= D * (s - t) * w_growth c) by nia.
    set (X := D * (s - t) * w_growth c) in *.
    replace (sat_i128 X) with X by (symmetry; apply sat_i128_id; clearbody X; lia).
    rewrite (Z.max_l t 1) by lia.
    rewrite (ceil_unique X t (div_ceil X t) q) by (first [lia | assumption | apply div_ceil_spec; lia]).
    assert (R : 0 <= q) by (apply (ceil_nonneg X t q); [lia|lia|exact Q]).
    unfold clamp_fee_i128, MINIMUM_RENT_WRITE_FEE_PER_1KB.
    clearbody X. f_equal. repeat case_if; try lia. apply sat_id. lia.
  Qed.
End RentWrite.

(* ------------------------------------------------------ C33 *)

Lemma rent_fee_nonneg p s l c : ok_rent c -> 0 <= s -> 0 <= l ->
  0 <= rent_fee_for_size_and_ledgers p s l c <= M.
Proof.
  intros (C1 & C2 & C3 & C4 & C5) S L. unfold rate in *. unfold rent_fee_for_size_and_ledgers.
  assert (N1 : 0 <= s * c_rent_1kb c) by nia. rewrite (sat_nonneg (s * _)) by exact N1.
  pose proof M_pos. assert (0 <= Z.min M (s * c_rent_1kb c) * l) by (apply Z.mul_nonneg_nonneg; lia).
  rewrite sat_nonneg by assumption.
  set (d := Z.max _ 1). assert (0 < d) by (subst d; lia).
  split; [apply div_ceil_nonneg; lia|].
  pose proof (div_ceil_le (Z.min M (Z.min M (s * c_rent_1kb c) * l)) d). lia.
Qed.

Lemma rent_fee_mono p s s' l l' c : ok_rent c -> 0 <= s <= s' -> 0 <= l <= l' ->
  rent_fee_for_size_and_ledgers p s l c <= rent_fee_for_size_and_ledgers p s' l' c.
Proof.
  intros (C1 & C2 & C3 & C4 & C5) S L. unfold rate in *. unfold rent_fee_for_size_and_ledgers.
  apply div_ceil_mono; [lia|]. apply sat_mono.
  assert (0 <= s * c_rent_1kb c <= s' * c_rent_1kb c) by (apply mul_nonneg_mono; lia).
  apply mul_nonneg_mono; [|lia]. rewrite !sat_nonneg by lia. pose proof M_pos. lia.
Qed.

Lemma rent_fee_zero_size p l c : rent_fee_for_size_and_ledgers p 0 l c = 0.
Proof.
  unfold rent_fee_for_size_and_ledgers.
  change (sat_i64 (sat_i64 (0 * c_rent_1kb c) * l)) with 0. apply div_ceil_0. lia.
Qed.
Lemma rent_fee_zero_ledgers p s c : rent_fee_for_size_and_ledgers p s 0 c = 0.
Proof.
  unfold rent_fee_for_size_and_ledgers. rewrite Z.mul_0_r. change (sat_i64 0) with 0.
  apply div_ceil_0. lia.
Qed.

Lemma rent_fee_split p s l m c : ok_rent c -> 0 <= s -> 0 <= l -> 0 <= m ->
  rent_fee_for_size_and_ledgers p s (l + m) c
  <= rent_fee_for_size_and_ledgers p s l c + rent_fee_for_size_and_ledgers p s m c.
Proof.
  intros (C1 & C2 & C3 & C4 & C5) S L Hm. unfold rate in *. unfold rent_fee_for_size_and_ledgers.
  set (d := Z.max _ 1). assert (0 < d) by (subst d; lia). clearbody d.
  assert (0 <= s * c_rent_1kb c) by nia. rewrite (sat_nonneg (s * _)) by assumption.
  pose proof M_pos. set (z := Z.min M (s * c_rent_1kb c)) in *. assert (0 <= z) by lia. clearbody z.
  assert (0 <= z * l) by nia. assert (0 <= z * m) by nia.
  rewrite Z.mul_add_distr_l, !sat_nonneg by lia.
  etransitivity; [|apply div_ceil_add; assumption]. apply div_ceil_mono; lia.
Qed.

Lemma div_ceil3_nonneg x : 0 <= x -> 0 <= div_ceil x 3 <= x.
Proof. intros. split; [apply div_ceil_nonneg; lia|apply div_ceil_le; lia]. Qed.

Lemma chk_u32_sub_nonneg a b d : chk_u32 (a - b) = Some d -> 0 <= d /\ d = a - b.
Proof. unfold chk_u32. intros H. apply chk_Some in H. lia. Qed.

Lemma ext_nonneg e cur d : extension_ledgers e cur = Some d -> 0 <= d.
Proof. unfold extension_ledgers, exclusive_ledger_diff. intros H. apply chk_u32_sub_nonneg in H. lia. Qed.

Lemma prepaid_nonneg e cur d : prepaid_ledgers e cur = Some d -> 0 <= d.
Proof.
  unfold prepaid_ledgers, inclusive_ledger_diff, exclusive_ledger_diff.
  destruct (entry_is_new e); [discriminate|].
  destruct (chk_u32 _) eqn:E; [|discriminate]. apply chk_u32_sub_nonneg in E.
  cbn. intros [= <-]. unfold_widths. lia.
Qed.

(* per-entry fee before the code discount *)
Definition ext_fee (e : rent_change) (c : rent_config) (cur : Z) : Z :=
  match extension_ledgers e cur with
  | Some l => rent_fee_for_size_and_ledgers (e_persistent e) (e_new_size e) l c
  | None => 0
  end.
Definition top_up_fee (e : rent_change) (c : rent_config) (cur : Z) : Z :=
  match prepaid_ledgers e cur, size_increase e with
  | Some l, Some s => rent_fee_for_size_and_ledgers (e_persistent e) s l c
  | _, _ => 0
  end.
Definition raw_fee (e : rent_change) (c : rent_config) (cur : Z) : Z :=
  ext_fee e c cur + top_up_fee e c cur.

Lemma raw_parts e c cur : ok_rent c -> ok_change e ->
  0 <= ext_fee e c cur <= M /\ 0 <= top_up_fee e c cur <= M.
Proof.
  intros C (O1 & O2 & O3 & O4). unfold in_u32, ext_fee, top_up_fee in *. pose proof M_pos. split.
  - destruct (extension_ledgers e cur) eqn:E; [|lia]. apply ext_nonneg in E.
    apply rent_fee_nonneg; auto; lia.
  - destruct (prepaid_ledgers e cur) eqn:E; [|lia]. apply prepaid_nonneg in E.
    destruct (size_increase e) eqn:F; [|lia]. unfold size_increase in F.
    apply chk_u32_sub_nonneg in F. apply rent_fee_nonneg; auto; lia.
Qed.

Lemma entry_fee_raw e c cur : ok_rent c -> ok_change e ->
  rent_fee_per_entry_change e c cur
  = (if e_code e then div_ceil (Z.min M (raw_fee e c cur)) 3 else Z.min M (raw_fee e c cur))
  /\ 0 <= raw_fee e c cur.
Proof.
  intros C O. destruct (raw_parts e c cur C O) as [A B].
  unfold rent_fee_per_entry_change, raw_fee, CODE_ENTRY_RENT_DISCOUNT_FACTOR.
  set (x := ext_fee e c cur) in *.
  split; [|lia].
  assert (E1 : (match extension_ledgers e cur with
     | Some l => sat_i64 (0 + rent_fee_for_size_and_ledgers (e_persistent e) (e_new_size e) l c)
     | None => 0 end) = x).
  { subst x. unfold ext_fee in *. destruct (extension_ledgers e cur); [|reflexivity].
    rewrite sat_nonneg by lia. lia. }
  rewrite E1. clearbody x. clear E1. unfold top_up_fee in *.
  destruct (prepaid_ledgers e cur); [destruct (size_increase e)|];
    rewrite ?sat_nonneg by lia; destruct (e_code e); try reflexivity;
    rewrite ?Z.add_0_r, ?Z.min_r by lia; reflexivity.
Qed.

Lemma entry_fee_nonneg e c cur : ok_rent c -> ok_change e ->
  0 <= rent_fee_per_entry_change e c cur <= M.
Proof.
  intros C O. destruct (entry_fee_raw e c cur C O) as [-> N]. pose proof M_pos.
  assert (0 <= Z.min M (raw_fee e c cur)) by lia.
  destruct (e_code e); [|lia]. pose proof (div_ceil3_nonneg (Z.min M (raw_fee e c cur))). lia.
Qed.

(* order in the list *)
Fixpoint sum_fee (es : list rent_change) c cur : Z :=
  match es with [] => 0 | e :: r => rent_fee_per_entry_change e c cur + sum_fee r c cur end.
Fixpoint count_ext (es : list rent_change) : Z :=
  match es with [] => 0 | e :: r => (if e_old_live e <? e_new_live e then 1 else 0) + count_ext r end.

Lemma count_nonneg es : 0 <= count_ext es.
Proof. induction es; cbn; [lia|]. case_if; lia. Qed.

Lemma sum_fee_nonneg es c cur : ok_rent c -> Forall ok_change es -> 0 <= sum_fee es c cur.
Proof.
  intros C. induction 1; cbn; [lia|].
  pose proof (entry_fee_nonneg x c cur C ltac:(assumption)). lia.
Qed.

Lemma rent_loop_eq es c cur : ok_rent c -> Forall ok_change es -> forall f n k,
  0 <= f -> 0 <= n -> 0 <= k ->
  rent_loop es c cur (Z.min M f) (Z.min M n) (Z.min u32_max k)
  = (Z.min M (f + sum_fee es c cur), Z.min M (n + count_ext es), Z.min u32_max (k + 48 * count_ext es)).
Proof.
  intros C. induction 1 as [|e r O F IH]; intros f n k Hf Hn Hk; cbn [rent_loop sum_fee count_ext].
  - repeat f_equal; lia.
  - pose proof (entry_fee_nonneg e c cur C O) as [N _].
    rewrite min_sum by lia.
    destruct (e_old_live e <? e_new_live e).
    + rewrite min_sum by lia.
      assert (K : sat_u32 (Z.min u32_max k + TTL_ENTRY_SIZE) = Z.min u32_max (k + 48))
        by (unfold TTL_ENTRY_SIZE; unfold_widths; lia).
      rewrite K, IH by lia. apply pair_eq; [apply pair_eq|]; f_equal; lia.
    + rewrite IH by lia. apply pair_eq; [apply pair_eq|]; f_equal; lia.
Qed.

Definition ttl_write_fee (n : Z) (c : rent_config) : Z :=
  Z.min M (c_write_entry c * Z.min M n)
  + compute_fee_per_increment (Z.min u32_max (48 * n)) (c_write_1kb c) 1024.

Lemma compute_rent_fee_eq es c cur : ok_rent c -> Forall ok_change es ->
  compute_rent_fee es c cur
  = Z.min M (sum_fee es c cur + ttl_write_fee (count_ext es) c).
Proof.
  intros C F. pose proof C as (C1 & C2 & C3 & C4 & C5). unfold rate in *.
  unfold compute_rent_fee. pose proof M_pos.
  change (rent_loop es c cur 0 0 0) with (rent_loop es c cur (Z.min M 0) (Z.min M 0) (Z.min u32_max 0)).
  rewrite rent_loop_eq by (auto; lia). cbv beta iota.
  pose proof (sum_fee_nonneg es c cur C F). pose proof (count_nonneg es).
  rewrite !Z.add_0_l. set (S := sum_fee es c cur) in *. set (n := count_ext es) in *.
  assert (0 <= c_write_entry c * Z.min M n) by (apply Z.mul_nonneg_nonneg; lia).
  rewrite (sat_nonneg (c_write_entry c * _)) by assumption.
  assert (0 <= Z.min M (c_write_entry c * Z.min M n)) by lia.
  rewrite min_sum by lia. unfold DATA_SIZE_1KB_INCREMENT, ttl_write_fee.
  assert (0 <= Z.min u32_max (48 * n)) by (unfold_widths; lia).
  pose proof (fpi_nonneg (Z.min u32_max (48 * n)) (c_write_1kb c) 1024).
  rewrite min_sum by lia. f_equal. lia.
Qed.

Lemma ttl_write_nonneg n c : ok_rent c -> 0 <= n -> 0 <= ttl_write_fee n c.
Proof.
  intros (C1 & C2 & C3 & C4 & C5) Hn. unfold rate in *. unfold ttl_write_fee. pose proof M_pos.
  assert (0 <= c_write_entry c * Z.min M n) by (apply Z.mul_nonneg_nonneg; lia).
  pose proof (fpi_nonneg (Z.min u32_max (48 * n)) (c_write_1kb c) 1024
    ltac:(unfold_widths; lia) ltac:(lia)). lia.
Qed.

Lemma ttl_write_mono n m c : ok_rent c -> 0 <= n <= m -> ttl_write_fee n c <= ttl_write_fee m c.
Proof.
  intros (C1 & C2 & C3 & C4 & C5) Hn. unfold rate in *. unfold ttl_write_fee. pose proof M_pos.
  apply Z.add_le_mono.
  - apply Z.min_le_compat_l. apply Z.mul_le_mono_nonneg_l; lia.
  - apply fpi_mono; [unfold_widths; lia|lia].
Qed.

Lemma ttl_write_subadd n m c : ok_rent c -> 0 <= n -> 0 <= m ->
  ttl_write_fee (n + m) c <= ttl_write_fee n c + ttl_write_fee m c.
Proof.
  intros (C1 & C2 & C3 & C4 & C5) Hn Hm. unfold rate in *. unfold ttl_write_fee. pose proof M_pos.
  set (w := c_write_entry c) in *. set (b := c_write_1kb c) in *.
  assert (A : Z.min M (w * Z.min M (n + m)) <= Z.min M (w * Z.min M n) + Z.min M (w * Z.min M m)).
  { assert (0 <= w * Z.min M n) by (apply Z.mul_nonneg_nonneg; lia).
    assert (0 <= w * Z.min M m) by (apply Z.mul_nonneg_nonneg; lia).
    assert (w * Z.min M (n + m) <= w * Z.min M n + w * Z.min M m).
    { rewrite <- Z.mul_add_distr_l. apply Z.mul_le_mono_nonneg_l; lia. }
    lia. }
  assert (Bd : compute_fee_per_increment (Z.min u32_max (48 * (n + m))) b 1024
            <= compute_fee_per_increment (Z.min u32_max (48 * n)) b 1024
               + compute_fee_per_increment (Z.min u32_max (48 * m)) b 1024).
  { unfold compute_fee_per_increment. change (Z.max 1024 1) with 1024.
    etransitivity; [|apply div_ceil_add; lia]. apply div_ceil_mono; [lia|].
    assert (0 <= Z.min u32_max (48 * n)) by (unfold_widths; lia).
    assert (0 <= Z.min u32_max (48 * m)) by (unfold_widths; lia).
    assert (Z.min u32_max (48 * (n + m)) <= Z.min u32_max (48 * n) + Z.min u32_max (48 * m)) by (unfold_widths; lia).
    set (x := Z.min u32_max (48 * n)) in *. set (y := Z.min u32_max (48 * m)) in *.
    set (z := Z.min u32_max (48 * (n + m))) in *.
    assert (0 <= z) by (subst z; unfold_widths; lia). clearbody x y z.
    rewrite !sat_nonneg by nia. assert (z * b <= x * b + y * b) by nia. 
    assert (0 <= x * b) by nia. assert (0 <= y * b) by nia. lia. }
  lia.
Qed.

Lemma ttl_write_zero c : ttl_write_fee 0 c = 0.
Proof.
  unfold ttl_write_fee. change (Z.min M 0) with 0. rewrite Z.mul_0_r.
  change (48 * 0) with 0. change (Z.min u32_max 0) with 0. rewrite fpi_zero by lia. reflexivity.
Qed.

(* results *)
Lemma rent_total_nonneg es c cur : ok_rent c -> Forall ok_change es ->
  0 <= compute_rent_fee es c cur <= i64_max.
Proof.
  intros C F. rewrite compute_rent_fee_eq by assumption.
  pose proof (sum_fee_nonneg es c cur C F).
  pose proof (ttl_write_nonneg (count_ext es) c C (count_nonneg es)).
  pose proof M_pos. unfold M in *. lia.
Qed.

Lemma rent_total_bounds_each es e c cur : ok_rent c -> Forall ok_change es -> In e es ->
  rent_fee_per_entry_change e c cur <= compute_rent_fee es c cur.
Proof.
  intros C F I. rewrite compute_rent_fee_eq by assumption.
  pose proof (ttl_write_nonneg (count_ext es) c C (count_nonneg es)).
  assert (rent_fee_per_entry_change e c cur <= sum_fee es c cur).
  { clear - C F I. induction F as [|x r O F IH]; [destruct I|]. cbn.
    pose proof (sum_fee_nonneg r c cur C F). pose proof (entry_fee_nonneg x c cur C O).
    destruct I as [->|I]; [lia|]. specialize (IH I). lia. }
  rewrite Forall_forall in F. pose proof (entry_fee_nonneg e c cur C (F e I)). lia.
Qed.

Lemma entry_is_new_spec e : entry_is_new e = true <-> is_new e.
Proof. unfold entry_is_new, is_new. lia. Qed.

Lemma rent_zero_entry e c cur :
  ok_change e -> ~ is_new e -> e_new_live e <= e_old_live e -> e_new_size e <= e_old_size e ->
  rent_fee_per_entry_change e c cur = 0.
Proof.
  intros O N L S. unfold rent_fee_per_entry_change.
  assert (NW : entry_is_new e = false).
  { destruct (entry_is_new e) eqn:E; [|reflexivity]. apply entry_is_new_spec in E. tauto. }
  assert (E1 : match extension_ledgers e cur with
    | Some l => sat_i64 (0 + rent_fee_for_size_and_ledgers (e_persistent e) (e_new_size e) l c)
    | None => 0 end = 0).
  { unfold extension_ledgers, exclusive_ledger_diff. rewrite NW.
    destruct (chk_u32 _) eqn:E; [|reflexivity]. apply chk_u32_sub_nonneg in E.
    assert (z = 0) by lia. subst z. rewrite rent_fee_zero_ledgers. reflexivity. }
  rewrite E1.
  assert (E2 : match prepaid_ledgers e cur, size_increase e with
    | Some l, Some s => sat_i64 (0 + rent_fee_for_size_and_ledgers (e_persistent e) s l c)
    | _, _ => 0 end = 0).
  { destruct (prepaid_ledgers e cur); [|reflexivity].
    unfold size_increase. destruct (chk_u32 _) eqn:E; [|reflexivity].
    apply chk_u32_sub_nonneg in E. assert (z0 = 0) by lia. subst z0.
    rewrite rent_fee_zero_size. reflexivity. }
  rewrite E2. destruct (e_code e); [|reflexivity]. now rewrite div_ceil_0.
Qed.

Lemma rent_zero_total es c cur : ok_rent c -> Forall ok_change es ->
  Forall (fun e => ~ is_new e /\ e_new_live e <= e_old_live e /\ e_new_size e <= e_old_size e) es ->
  compute_rent_fee es c cur = 0.
Proof.
  intros C F Q. rewrite compute_rent_fee_eq by assumption.
  assert (Z1 : sum_fee es c cur = 0).
  { clear C. induction F as [|x r O F IH]; [reflexivity|]. inversion Q as [|? ? (N & L & S) Q']; subst.
    cbn. rewrite IH by assumption. rewrite rent_zero_entry by assumption. reflexivity. }
  assert (Z2 : count_ext es = 0).
  { clear - Q. induction Q as [|x r (N & L & S) Q IH]; [reflexivity|]. cbn. rewrite IH. case_if; lia. }
  rewrite Z1, Z2, ttl_write_zero. reflexivity.
Qed.

Lemma raw_mono e f c cur : ok_rent c -> ok_change e -> ok_change f -> change_le e f -> in_u32 cur ->
  raw_fee e c cur <= raw_fee f c cur.
Proof.
  intros C (E1 & E2 & E3 & E4) (F1 & F2 & F3 & F4) (P & K & S & L & NS & NL) HC.
  unfold raw_fee, ext_fee, top_up_fee. unfold in_u32 in *. pose proof M_pos.
  apply Z.add_le_mono.
  - unfold extension_ledgers, exclusive_ledger_diff, entry_is_new. rewrite S, L, P.
    set (b := if (e_old_size f =? 0) && (e_old_live f =? 0) then sat_u32 (cur - 1) else e_old_live f).
    destruct (chk_u32 (e_new_live e - b)) eqn:A.
    + apply chk_u32_sub_nonneg in A. unfold chk_u32.
      destruct (chk 0 u32_max (e_new_live f - b)) eqn:D.
      * apply chk_Some in D. apply rent_fee_mono; auto; lia.
      * apply chk_None in D. assert (0 <= b) by (subst b; case_if; unfold_widths; lia). lia.
    + destruct (chk_u32 (e_new_live f - b)) eqn:D; [|lia]. apply chk_u32_sub_nonneg in D.
      apply rent_fee_nonneg; auto; lia.
  - unfold prepaid_ledgers, entry_is_new, size_increase. rewrite S, L, P.
    destruct (if (e_old_size f =? 0) && (e_old_live f =? 0) then None
              else inclusive_ledger_diff cur (e_old_live f)) eqn:I; [|lia].
    assert (0 <= z).
    { revert I. case_if; [discriminate|]. unfold inclusive_ledger_diff, exclusive_ledger_diff.
      destruct (chk_u32 _) eqn:Q; [|discriminate]. apply chk_u32_sub_nonneg in Q.
      cbn. intros [= <-]. unfold_widths. lia. }
    unfold chk_u32. destruct (chk 0 u32_max (e_new_size e - _)) eqn:A.
    + apply chk_Some in A. destruct (chk 0 u32_max (e_new_size f - _)) eqn:D.
      * apply chk_Some in D. apply rent_fee_mono; auto; lia.
      * apply chk_None in D. lia.
    + destruct (chk 0 u32_max (e_new_size f - _)) eqn:D; [|lia]. apply chk_Some in D.
      apply rent_fee_nonneg; auto; lia.
Qed.

Lemma entry_fee_mono e f c cur : ok_rent c -> ok_change e -> ok_change f -> change_le e f -> in_u32 cur ->
  rent_fee_per_entry_change e c cur <= rent_fee_per_entry_change f c cur.
Proof.
  intros C E F L H. pose proof (raw_mono e f c cur C E F L H).
  destruct (entry_fee_raw e c cur C E) as [-> _], (entry_fee_raw f c cur C F) as [-> _].
  destruct L as (_ & -> & _). destruct (e_code f); [apply div_ceil_mono|]; lia.
Qed.

Lemma rent_total_mono es fs c cur : ok_rent c -> Forall ok_change es -> Forall ok_change fs ->
  Forall2 change_le es fs -> in_u32 cur ->
  compute_rent_fee es c cur <= compute_rent_fee fs c cur.
Proof.
  intros C E F L H. rewrite !compute_rent_fee_eq by assumption.
  assert (sum_fee es c cur <= sum_fee fs c cur /\ count_ext es <= count_ext fs) as [A B].
  { induction L as [|e f r s LE L IH]; [split; reflexivity|].
    inversion E; inversion F; subst. destruct IH as [I1 I2]; auto. cbn. split.
    - pose proof (entry_fee_mono e f c cur). lia.
    - destruct LE as (_ & _ & _ & EL & _ & NL). rewrite EL. repeat case_if; lia. }
  pose proof (ttl_write_mono (count_ext es) (count_ext fs) c C ltac:(pose proof (count_nonneg es); lia)).
  lia.
Qed.

Lemma rent_total_app es fs c cur : ok_rent c -> Forall ok_change es -> Forall ok_change fs ->
  compute_rent_fee es c cur <= compute_rent_fee (es ++ fs) c cur.
Proof.
  intros C E F. rewrite !compute_rent_fee_eq by (try apply Forall_app; auto).
  assert (A : sum_fee (es ++ fs) c cur = sum_fee es c cur + sum_fee fs c cur).
  { clear. induction es; cbn; lia. }
  assert (B : count_ext (es ++ fs) = count_ext es + count_ext fs).
  { clear. induction es; cbn; lia. }
  rewrite A, B. pose proof (count_nonneg es). pose proof (count_nonneg fs).
  pose proof (ttl_write_mono (count_ext es) (count_ext es + count_ext fs) c C ltac:(lia)).
  pose proof (sum_fee_nonneg fs c cur C F). lia.
Qed.

Lemma code_discount e c cur : ok_rent c -> ok_change e -> e_code e = true ->
  let plain := {| e_persistent := e_persistent e; e_code := false; e_old_size := e_old_size e;
                  e_new_size := e_new_size e; e_old_live := e_old_live e; e_new_live := e_new_live e |} in
  ceil_quotient (rent_fee_per_entry_change plain c cur) 3 (rent_fee_per_entry_change e c cur).
Proof.
  intros C O K plain.
  assert (O' : ok_change plain) by exact O.
  destruct (entry_fee_raw e c cur C O) as [-> _], (entry_fee_raw plain c cur C O') as [-> _].
  rewrite K. cbn [e_code plain]. change (raw_fee plain c cur) with (raw_fee e c cur).
  apply div_ceil_spec. lia.
Qed.

Lemma raw_split w a b c cur cur' : ok_rent c -> ok_change w -> ok_change a -> ok_change b ->
  two_steps w a b -> 0 < cur -> in_u32 cur -> in_u32 cur' -> cur <= e_new_live a + 1 ->
  raw_fee w c cur <= raw_fee a c cur + raw_fee b c cur'.
Proof.
  intros C (W1 & W2 & W3 & W4) (A1 & A2 & A3 & A4) (B1 & B2 & B3 & B4)
    (P1 & P2 & K1 & K2 & S1 & S2 & S3 & S4 & L1 & L2 & L3 & LE & LP) H0 HC HC' HV.
  unfold in_u32 in *. unfold raw_fee.
  assert (PP : top_up_fee w c cur = top_up_fee a c cur).
  { unfold top_up_fee, prepaid_ledgers, entry_is_new, size_increase. now rewrite S1, S2, L1, P1. }
  rewrite PP. clear PP.
  assert (PB : 0 <= top_up_fee b c cur').
  { apply raw_parts; [assumption|]. split; [|split; [|split]]; assumption. }
  set (pa := top_up_fee a c cur). clearbody pa.
  set (pb := top_up_fee b c cur') in *. clearbody pb.
  assert (NB : entry_is_new b = false).
  { unfold entry_is_new. rewrite <- L2. destruct (Z.eqb_spec (e_new_live a) 0); lia. }
  unfold ext_fee, extension_ledgers, exclusive_ledger_diff. rewrite NB.
  assert (NWA : entry_is_new w = entry_is_new a) by (unfold entry_is_new; now rewrite S1, L1).
  rewrite <- NWA, L1, L3, <- L2, P1, P2, S2, S4.
  set (start := if entry_is_new w then sat_u32 (cur - 1) else e_old_live w).
  assert (ST : 0 <= start <= e_new_live a).
  { subst start. case_if; unfold_widths; lia. }
  unfold chk_u32.
  replace (chk 0 u32_max (e_new_live w - start)) with (Some (e_new_live w - start))
    by (symmetry; apply chk_Some; lia).
  replace (chk 0 u32_max (e_new_live a - start)) with (Some (e_new_live a - start))
    by (symmetry; apply chk_Some; lia).
  replace (chk 0 u32_max (e_new_live w - e_new_live a)) with (Some (e_new_live w - e_new_live a))
    by (symmetry; apply chk_Some; lia).
  pose proof (rent_fee_split (e_persistent w) (e_new_size w) (e_new_live a - start)
    (e_new_live w - e_new_live a) c C ltac:(lia) ltac:(lia) ltac:(lia)) as SP.
  replace (e_new_live a - start + (e_new_live w - e_new_live a)) with (e_new_live w - start) in SP by lia.
  lia.
Qed.

Lemma entry_split w a b c cur cur' : ok_rent c -> ok_change w -> ok_change a -> ok_change b ->
  two_steps w a b -> 0 < cur -> in_u32 cur -> in_u32 cur' -> cur <= e_new_live a + 1 ->
  rent_fee_per_entry_change w c cur
  <= rent_fee_per_entry_change a c cur + rent_fee_per_entry_change b c cur'.
Proof.
  intros C W A B T H0 HC HC' HV. pose proof (raw_split w a b c cur cur' C W A B T H0 HC HC' HV) as R.
  destruct (entry_fee_raw w c cur C W) as [-> Nw], (entry_fee_raw a c cur C A) as [-> Na],
    (entry_fee_raw b c cur' C B) as [-> Nb].
  destruct T as (_ & _ & -> & -> & _). pose proof M_pos.
  destruct (e_code w); [|lia].
  etransitivity; [|apply div_ceil_add; lia]. apply div_ceil_mono; lia.
Qed.

Lemma rent_total_split ws as_ bs c cur cur' : ok_rent c ->
  Forall ok_change ws -> Forall ok_change as_ -> Forall ok_change bs ->
  length ws = length as_ -> length ws = length bs ->
  (forall i w a b, nth_error ws i = Some w -> nth_error as_ i = Some a -> nth_error bs i = Some b ->
     two_steps w a b /\ cur <= e_new_live a + 1) ->
  0 < cur -> in_u32 cur -> in_u32 cur' ->
  compute_rent_fee ws c cur <= compute_rent_fee as_ c cur + compute_rent_fee bs c cur'.
Proof.
  intros C W A B LA LB T H0 HC HC'. rewrite !compute_rent_fee_eq by assumption.
  assert (sum_fee ws c cur <= sum_fee as_ c cur + sum_fee bs c cur'
          /\ count_ext ws <= count_ext as_ + count_ext bs) as [X Y].
  { revert as_ bs A B LA LB T. induction W as [|w r O W IH]; intros as_ bs A B LA LB T.
    - destruct as_, bs; try discriminate. cbn. lia.
    - destruct as_ as [|a as_], bs as [|b bs]; try discriminate.
      inversion A as [|? ? A1 A2]; inversion B as [|? ? B1 B2]; subst.
      destruct (IH as_ bs A2 B2) as [I1 I2]; [cbn in *; lia|cbn in *; lia| |].
      + intros i w' a' b' Hw Ha Hb. apply (T (S i)); assumption.
      + destruct (T 0%nat w a b eq_refl eq_refl eq_refl) as [TS V].
        pose proof (entry_split w a b c cur cur' C O A1 B1 TS H0 HC HC' V).
        cbn [sum_fee count_ext]. split; [lia|].
        destruct TS as (_ & _ & _ & _ & _ & _ & _ & _ & L1 & L2 & L3 & LE & _).
        repeat case_if; lia. }
  pose proof (count_nonneg ws). pose proof (count_nonneg as_). pose proof (count_nonneg bs).
  pose proof (ttl_write_mono (count_ext ws) (count_ext as_ + count_ext bs) c C ltac:(lia)).
  pose proof (ttl_write_subadd (count_ext as_) (count_ext bs) c C ltac:(lia) ltac:(lia)).
  pose proof (ttl_write_nonneg (count_ext as_) c C ltac:(lia)).
  pose proof (ttl_write_nonneg (count_ext bs) c C ltac:(lia)).
  pose proof (sum_fee_nonneg as_ c cur C A). pose proof (sum_fee_nonneg bs c cur' C B).
  pose proof M_pos. lia.
Qed.

(* ------------------------------------------------------ the exact rent *)

Lemma rent_fee_exact (p : bool) s l c : ok_rent c -> 0 <= s -> 0 <= l ->
  let d := 1024 * (if p then c_persistent_denom c else c_temporary_denom c) in
  0 < d <= i64_max -> s * c_rent_1kb c * l <= i64_max ->
  ceil_quotient (s * c_rent_1kb c * l) d (rent_fee_for_size_and_ledgers p s l c).
Proof.
  intros (C1 & C2 & C3 & C4 & C5) S L d D B. unfold rate in *. unfold rent_fee_for_size_and_ledgers.
  change DATA_SIZE_1KB_INCREMENT with 1024. cbv zeta. fold d.
  assert (Ed : Z.max (sat_i64 d) 1 = d) by (rewrite sat_nonneg by lia; unfold M; lia). rewrite Ed.
  assert (N : 0 <= s * c_rent_1kb c) by nia.
  assert (E : sat_i64 (sat_i64 (s * c_rent_1kb c) * l) = s * c_rent_1kb c * l).
  { destruct (Z.eq_dec l 0) as [->|L1]; [rewrite !Z.mul_0_r; reflexivity|].
    set (z := s * c_rent_1kb c) in *. clearbody z.
    assert (z <= z * l) by nia. rewrite (sat_nonneg z) by lia. unfold M. rewrite Z.min_r by lia.
    rewrite sat_nonneg by lia. unfold M. lia. }
  rewrite E. apply div_ceil_spec. lia.
Qed.

Lemma fresh_eq e : entry_is_new e = fresh e.
Proof. reflexivity. Qed.

Lemma ext_fee_exact e c cur : ok_rent c -> ok_change e -> 1 <= cur <= u32_max ->
  0 < rent_rate c e <= i64_max ->
  e_new_size e * c_rent_1kb c * ledgers_added cur e <= i64_max ->
  ceil_quotient (e_new_size e * c_rent_1kb c * ledgers_added cur e) (rent_rate c e) (ext_fee e c cur).
Proof.
  intros C (O1 & O2 & O3 & O4) Cu D B. unfold ext_fee, extension_ledgers, exclusive_ledger_diff.
  rewrite fresh_eq. unfold in_u32 in *.
  set (b := if fresh e then sat_u32 (cur - 1) else e_old_live e).
  assert (Eb : b = if fresh e then cur - 1 else e_old_live e).
  { subst b. destruct (fresh e); [|reflexivity]. unfold_widths. lia. }
  unfold ledgers_added in *. rewrite <- Eb in *.
  assert (Hb : 0 <= b) by (rewrite Eb; destruct (fresh e); lia).
  clearbody b. clear Eb.
  destruct (chk_u32 (e_new_live e - b)) eqn:E.
  - apply chk_u32_sub_nonneg in E. destruct E as [E0 E]. rewrite <- E in *. rewrite Z.max_r in * by lia.
    apply rent_fee_exact; auto; lia.
  - unfold chk_u32, chk in E. destruct ((_ <=? _) && _) eqn:F; [discriminate|].
    assert (e_new_live e - b < 0) by (unfold_widths; lia).
    rewrite Z.max_l by lia. rewrite Z.mul_0_r. unfold ceil_quotient. lia.
Qed.

Lemma top_up_exact e c cur : ok_rent c -> ok_change e -> 1 <= cur <= u32_max ->
  0 < rent_rate c e <= i64_max ->
  bytes_added e * c_rent_1kb c * ledgers_held cur e <= i64_max ->
  ceil_quotient (bytes_added e * c_rent_1kb c * ledgers_held cur e) (rent_rate c e) (top_up_fee e c cur).
Proof.
  intros C (O1 & O2 & O3 & O4) Cu D B.
  unfold top_up_fee, prepaid_ledgers, inclusive_ledger_diff, exclusive_ledger_diff, size_increase.
  rewrite fresh_eq. unfold in_u32 in *. unfold ledgers_held, bytes_added in *.
  assert (Z0 : ceil_quotient 0 (rent_rate c e) 0) by (unfold ceil_quotient; lia).
  destruct (fresh e); [rewrite Z.mul_0_r; exact Z0|].
  destruct (chk_u32 (e_old_live e - cur)) eqn:E; cbn [option_map].
  - apply chk_u32_sub_nonneg in E. destruct E as [E0 E].
    assert (Es : sat_u32 (z + 1) = z + 1) by (unfold_widths; lia). rewrite Es.
    replace (e_old_live e - cur + 1) with (z + 1) in * by lia. rewrite (Z.max_r 0 (z + 1)) in * by lia.
    destruct (chk_u32 (e_new_size e - e_old_size e)) eqn:F.
    + apply chk_u32_sub_nonneg in F. destruct F as [F0 F]. rewrite <- F in *. rewrite Z.max_r in * by lia.
      apply rent_fee_exact; auto; lia.
    + unfold chk_u32, chk in F. destruct ((_ <=? _) && _) eqn:G; [discriminate|].
      assert (e_new_size e - e_old_size e < 0) by (unfold_widths; lia).
      rewrite Z.max_l by lia. exact Z0.
  - unfold chk_u32, chk in E. destruct ((_ <=? _) && _) eqn:G; [discriminate|].
    assert (e_old_live e - cur < 0) by (unfold_widths; lia).
    rewrite (Z.max_l 0 (e_old_live e - cur + 1)) by lia. rewrite Z.mul_0_r. exact Z0.
Qed.

Lemma entry_owes e c cur : ok_rent c -> ok_change e -> 1 <= cur <= u32_max -> rent_fits c cur e ->
  owes c cur e (rent_fee_per_entry_change e c cur).
Proof.
  intros C O Cu [D B]. pose proof O as (O1 & O2 & O3 & O4). unfold in_u32 in *.
  pose proof C as (_ & R & _). unfold rate in R.
  set (n1 := e_new_size e * c_rent_1kb c * ledgers_added cur e) in *.
  set (n2 := bytes_added e * c_rent_1kb c * ledgers_held cur e) in *.
  assert (N1 : 0 <= n1).
  { subst n1. apply Z.mul_nonneg_nonneg; [nia|unfold ledgers_added; lia]. }
  assert (N2 : 0 <= n2).
  { subst n2. apply Z.mul_nonneg_nonneg; [apply Z.mul_nonneg_nonneg; [unfold bytes_added|]; lia|].
    unfold ledgers_held. destruct (fresh e); lia. }
  pose proof (ext_fee_exact e c cur C O Cu D ltac:(fold n1; lia)) as X. fold n1 in X.
  pose proof (top_up_exact e c cur C O Cu D ltac:(fold n2; lia)) as G. fold n2 in G.
  exists (ext_fee e c cur), (top_up_fee e c cur). fold n1 n2. split; [exact X|]. split; [exact G|].
  destruct (entry_fee_raw e c cur C O) as [-> N].
  assert (raw_fee e c cur <= M).
  { pose proof (ceil_le_num _ _ _ (proj1 D) N1 X). pose proof (ceil_le_num _ _ _ (proj1 D) N2 G).
    unfold raw_fee, M. lia. }
  rewrite Z.min_r by assumption. unfold raw_fee.
  destruct (e_code e); [apply div_ceil_spec; lia|reflexivity].
Qed.

Lemma count_ext_longer es : count_ext es = lives_longer es.
Proof.
  unfold lives_longer. induction es as [|e r IH]; [reflexivity|]. cbn [count_ext filter]. rewrite IH.
  destruct (e_old_live e <? e_new_live e); cbn [length]; lia.
Qed.

Lemma rent_exact es c cur : ok_rent c -> Forall ok_change es -> 1 <= cur <= u32_max ->
  Forall (rent_fits c cur) es ->
  48 * lives_longer es <= u32_max ->
  48 * lives_longer es * c_write_1kb c <= i64_max ->
  exists qs w,
    Forall2 (owes c cur) es qs
    /\ ceil_quotient (48 * lives_longer es * c_write_1kb c) 1024 w
    /\ compute_rent_fee es c cur
       = Z.min i64_max (fold_right Z.add 0 qs + c_write_entry c * lives_longer es + w).
Proof.
  intros C F Cu Fit K W. pose proof C as (R1 & R2 & R3 & _). unfold rate in *.
  exists (map (fun e => rent_fee_per_entry_change e c cur) es),
    (compute_fee_per_increment (48 * lives_longer es) (c_write_1kb c) 1024).
  pose proof (count_nonneg es) as CN. rewrite count_ext_longer in CN.
  split; [|split].
  - clear K W CN. induction F as [|e r O F IH]; inversion_clear Fit; cbn; constructor; auto using entry_owes.
  - apply fpi_exact; unfold M; lia.
  - assert (L1 : 0 <= fold_right Z.add 0 (map (fun e => rent_fee_per_entry_change e c cur) es)
                 /\ sum_fee es c cur = fold_right Z.add 0 (map (fun e => rent_fee_per_entry_change e c cur) es)).
    { split.
      - clear - C F. induction F as [|e r O F IH]; cbn; [lia|].
        pose proof (entry_fee_nonneg e c cur C O). lia.
      - clear. induction es as [|e r IH]; cbn; [reflexivity|]. lia. }
    destruct L1 as [L0 L1].
    rewrite compute_rent_fee_eq by assumption. rewrite L1, count_ext_longer. unfold ttl_write_fee.
    rewrite (Z.min_r u32_max) by lia.
    assert (lives_longer es <= M) by (unfold M, u32_max, i64_max in *; lia).
    rewrite (Z.min_r M (lives_longer es)) by lia.
    pose proof (fpi_nonneg (48 * lives_longer es) (c_write_1kb c) 1024 ltac:(lia) ltac:(lia)).
    assert (0 <= c_write_entry c * lives_longer es) by (apply Z.mul_nonneg_nonneg; lia).
    unfold M in *. lia.
Qed.
