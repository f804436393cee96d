(* Properties C32, C33, C34: fees. *)
From Coq Require Import ZArith Lia List Bool.
From Verif Require Import Prelude FeesModel FeesSpec FeesProofs.
Import ListNotations.
Open Scope Z_scope.

(* ---------------------------------------------------------------- C32 *)

Theorem C32_resource_fees_nonnegative :
  forall r c, ok_resources r -> ok_fees c ->
  0 <= fst (compute_transaction_resource_fee r c) <= i64_max
  /\ 0 <= snd (compute_transaction_resource_fee r c) <= i64_max.
Proof. exact resource_fee_nonneg. Qed.
Print Assumptions C32_resource_fees_nonnegative.

Theorem C32_resource_fees_monotone :
  forall r s c d, ok_resources r -> ok_resources s -> ok_fees c -> ok_fees d ->
  resources_le r s -> fees_le c d ->
  fst (compute_transaction_resource_fee r c) <= fst (compute_transaction_resource_fee s d)
  /\ snd (compute_transaction_resource_fee r c) <= snd (compute_transaction_resource_fee s d).
Proof. exact resource_fee_mono. Qed.
Print Assumptions C32_resource_fees_monotone.

(* Each component is its exact quotient rounded up; the total is the exact sum,
   capped at the largest int64 instead of wrapping. *)
Theorem C32_resource_fees_exact :
  forall r c, ok_resources r -> ok_fees c -> products_fit r c ->
  exists k, exact_components r c k
  /\ fst (compute_transaction_resource_fee r c)
     = Z.min i64_max (k_instructions k + k_read_entries k + k_write_entries k + k_read_bytes k
                      + k_write_bytes k + k_history k + k_bandwidth k)
  /\ snd (compute_transaction_resource_fee r c) = k_events k.
Proof. exact resource_fee_exact. Qed.
Print Assumptions C32_resource_fees_exact.

Definition ex_res := {| r_instructions := 1000001; r_disk_read_entries := 5; r_write_entries := 3;
  r_disk_read_bytes := 1025; r_write_bytes := 2048; r_events_size := 100; r_tx_size := 700 |}.
Definition ex_fees := {| f_instruction_increment := 25; f_disk_read_entry := 6250;
  f_write_entry := 10000; f_disk_read_1kb := 1786; f_write_1kb := 3500; f_historical_1kb := 16235;
  f_event_1kb := 10000; f_tx_size_1kb := 1624 |}.
Example C32_hyp : ok_resources ex_res /\ ok_fees ex_fees /\ products_fit ex_res ex_fees
  /\ compute_transaction_resource_fee ex_res ex_fees = (89505, 977).
Proof. vm_compute. intuition congruence. Qed.

(* ---------------------------------------------------------------- C33 *)

Theorem C33_rent_nonnegative :
  forall es c cur, ok_rent c -> Forall ok_change es -> 0 <= compute_rent_fee es c cur <= i64_max.
Proof. exact rent_total_nonneg. Qed.
Print Assumptions C33_rent_nonnegative.

(* Nothing extended, nothing grown, nothing created: no rent. *)
Theorem C33_no_change_no_rent :
  forall es c cur, ok_rent c -> Forall ok_change es ->
  Forall (fun e => ~ is_new e /\ e_new_live e <= e_old_live e /\ e_new_size e <= e_old_size e) es ->
  compute_rent_fee es c cur = 0.
Proof. exact rent_zero_total. Qed.
Print Assumptions C33_no_change_no_rent.

(* Larger or longer-living entries never cost less; nor do more entries. *)
Theorem C33_rent_monotone :
  forall es fs c cur, ok_rent c -> Forall ok_change es -> Forall ok_change fs ->
  Forall2 change_le es fs -> in_u32 cur ->
  compute_rent_fee es c cur <= compute_rent_fee fs c cur.
Proof. exact rent_total_mono. Qed.
Print Assumptions C33_rent_monotone.

Theorem C33_rent_monotone_in_entries :
  forall es fs c cur, ok_rent c -> Forall ok_change es -> Forall ok_change fs ->
  compute_rent_fee es c cur <= compute_rent_fee (es ++ fs) c cur.
Proof. exact rent_total_app. Qed.
Print Assumptions C33_rent_monotone_in_entries.

(* Every entry's own rent is included in the total. *)
Theorem C33_rent_covers_each_entry :
  forall es e c cur, ok_rent c -> Forall ok_change es -> In e es ->
  rent_fee_per_entry_change e c cur <= compute_rent_fee es c cur.
Proof. exact rent_total_bounds_each. Qed.
Print Assumptions C33_rent_covers_each_entry.

(* Splitting an extension into two transactions (the second at any ledger) never
   makes it cheaper. *)
Theorem C33_splitting_never_cheaper :
  forall ws as_ bs c cur cur', ok_rent c ->
  Forall ok_change ws -> Forall ok_change as_ -> Forall ok_change bs ->
  length ws = length as_ -> length ws = length bs ->
  (forall i w a b, nth_error ws i = Some w -> nth_error as_ i = Some a -> nth_error bs i = Some b ->
     two_steps w a b /\ cur <= e_new_live a + 1) ->
  0 < cur -> in_u32 cur -> in_u32 cur' ->
  compute_rent_fee ws c cur <= compute_rent_fee as_ c cur + compute_rent_fee bs c cur'.
Proof. exact rent_total_split. Qed.
Print Assumptions C33_splitting_never_cheaper.

(* A code entry pays one third (rounded up) of what the same data entry pays. *)
Theorem C33_code_discount :
  forall e c cur, ok_rent c -> ok_change e -> e_code e = true ->
  let plain := {| e_persistent := e_persistent e; e_code := false; e_old_size := e_old_size e;
                  e_new_size := e_new_size e; e_old_live := e_old_live e; e_new_live := e_new_live e |} in
  ceil_quotient (rent_fee_per_entry_change plain c cur) 3 (rent_fee_per_entry_change e c cur).
Proof. exact code_discount. Qed.
Print Assumptions C33_code_discount.

(* The exact amount: every entry owes what its added ledgers and its added bytes come to at
   the rate of its own kind, and every prolonged entry also pays for rewriting its record.
   Side conditions: the products stay within 64 bits. *)
Theorem C33_rent_exact :
  forall es c cur, ok_rent c -> Forall ok_change es -> 1 <= cur <= u32_max ->
  Forall (rent_fits c cur) es ->
  48 * lives_longer es <= u32_max -> 48 * lives_longer es * c_write_1kb c <= i64_max ->
  exists qs w,
    Forall2 (owes c cur) es qs
    /\ ceil_quotient (48 * lives_longer es * c_write_1kb c) 1024 w
    /\ compute_rent_fee es c cur
       = Z.min i64_max (fold_right Z.add 0 qs + c_write_entry c * lives_longer es + w).
Proof. exact rent_exact. Qed.
Print Assumptions C33_rent_exact.

(* and what an entry owes is a single number *)
Theorem C33_rent_unique :
  forall c cur e p q, 0 < rent_rate c e -> owes c cur e p -> owes c cur e q -> p = q.
Proof.
  intros c cur e p q D (x & g & X & G & P) (x' & g' & X' & G' & Q).
  assert (x = x') by (eapply ceil_unique; eauto). assert (g = g') by (eapply ceil_unique; eauto).
  subst x' g'. destruct (e_code e); [|congruence]. eapply ceil_unique; [|exact P|exact Q]. lia.
Qed.
Print Assumptions C33_rent_unique.

Definition ex_rent := {| c_write_1kb := 3500; c_rent_1kb := 11800; c_write_entry := 10000;
  c_persistent_denom := 2103; c_temporary_denom := 4206 |}.
Definition ex_change o n ol nl := {| e_persistent := true; e_code := false; e_old_size := o;
  e_new_size := n; e_old_live := ol; e_new_live := nl |}.
Definition ex_module := {| e_persistent := true; e_code := true; e_old_size := 0;
  e_new_size := 40000; e_old_live := 0; e_new_live := 124000 |}.
Definition ex_temporary := {| e_persistent := false; e_code := false; e_old_size := 200;
  e_new_size := 350; e_old_live := 4100; e_new_live := 4100 |}.
Example C33_exact_hyp :
  let es := [ex_change 100 300 5000 9000; ex_module; ex_temporary] in
  ok_rent ex_rent /\ Forall ok_change es /\ Forall (rent_fits ex_rent 4000) es
  /\ lives_longer es = 2
  /\ Forall2 (owes ex_rent 4000) es [7674; 8767311; 42]
  /\ ceil_quotient (48 * 2 * 3500) 1024 329
  /\ compute_rent_fee es ex_rent 4000 = 7674 + 8767311 + 42 + 10000 * 2 + 329.
Proof.
  cbv zeta. split; [vm_compute; intuition congruence|].
  split; [repeat constructor; vm_compute; intuition congruence|].
  split; [repeat constructor; vm_compute; intuition congruence|].
  split; [reflexivity|]. split.
  - constructor; [|constructor; [|constructor; [|constructor]]].
    + exists 6576, 1098. vm_compute. intuition congruence.
    + exists 26301932, 0. vm_compute. intuition congruence.
    + exists 0, 42. vm_compute. intuition congruence.
  - split; [vm_compute; intuition congruence|]. reflexivity.
Qed.

Example C33_hyp :
  ok_rent ex_rent /\ ok_change (ex_change 100 300 5000 9000)
  /\ two_steps (ex_change 100 300 5000 9000) (ex_change 100 300 5000 7000) (ex_change 300 300 7000 9000)
  /\ compute_rent_fee [ex_change 100 300 5000 9000] ex_rent 4000 = 17839
  /\ change_le (ex_change 100 300 5000 7000) (ex_change 100 300 5000 9000).
Proof. vm_compute. intuition congruence. Qed.

(* ---------------------------------------------------------------- C34 *)

Theorem C34_rent_write_fee_minimum :
  forall s c, 1000 <= compute_rent_write_fee_per_1kb s c.
Proof. exact rent_write_min. Qed.
Print Assumptions C34_rent_write_fee_minimum.

Theorem C34_rent_write_fee_monotone :
  forall c, sane_write_config c -> forall s1 s2, 0 <= s1 -> s1 <= s2 -> in_i64 s2 ->
  compute_rent_write_fee_per_1kb s1 c <= compute_rent_write_fee_per_1kb s2 c.
Proof. exact rent_write_mono. Qed.
Print Assumptions C34_rent_write_fee_monotone.

Theorem C34_rent_write_fee_end_points :
  forall c, sane_write_config c ->
  (0 < w_target_size c -> compute_rent_write_fee_per_1kb 0 c = Z.max (w_fee_low c) 1000)
  /\ compute_rent_write_fee_per_1kb (w_target_size c) c = Z.max (w_fee_high c) 1000.
Proof. intros c H. split; [exact (rent_write_at_zero c H)|exact (rent_write_at_target c H)]. Qed.
Print Assumptions C34_rent_write_fee_end_points.

(* Between the end points the fee is the straight line from low to high; past the
   target the slope is multiplied by the growth factor.  Side conditions: the
   products stay within the 128-bit and the sums within the 64-bit range. *)
Theorem C34_rent_write_fee_slopes :
  forall c, sane_write_config c -> w_fee_high c - w_fee_low c <= i64_max ->
  (forall s q, 0 <= s < w_target_size c ->
     ceil_quotient ((w_fee_high c - w_fee_low c) * s) (w_target_size c) q ->
     compute_rent_write_fee_per_1kb s c = Z.max (w_fee_low c + q) 1000)
  /\ (forall s q, 0 < w_target_size c <= s -> in_i64 s ->
     (w_fee_high c - w_fee_low c) * (s - w_target_size c) * w_growth c <= 2 ^ 127 - 1 ->
     ceil_quotient ((w_fee_high c - w_fee_low c) * (s - w_target_size c) * w_growth c)
                   (w_target_size c) q ->
     w_fee_high c + q <= i64_max -> q <= i64_max ->
     compute_rent_write_fee_per_1kb s c = Z.max (w_fee_high c + q) 1000).
Proof.
  intros c H W. split; intros s q.
  - exact (rent_write_below_exact c H s q W).
  - exact (rent_write_above_exact c H s q W).
Qed.
Print Assumptions C34_rent_write_fee_slopes.

Definition ex_wc := {| w_target_size := 3000000000; w_fee_low := -17000; w_fee_high := 10000; w_growth := 5000 |}.
Example C34_hyp : sane_write_config ex_wc
  /\ compute_rent_write_fee_per_1kb 2500000000 ex_wc = 5500
  /\ compute_rent_write_fee_per_1kb 3100000000 ex_wc = 4510000.
Proof. vm_compute. intuition congruence. Qed.

(* Without the side condition on the configuration monotonicity is false: with a
   high fee below the low fee the interpolation slope is clamped to int64 max. *)
Theorem C34_monotone_needs_sane_config_refuted :
  exists c s1 s2, 0 <= s1 /\ s1 <= s2 /\ in_i64 s2
    /\ compute_rent_write_fee_per_1kb s2 c < compute_rent_write_fee_per_1kb s1 c.
Proof.
  exists {| w_target_size := 1000; w_fee_low := 5000; w_fee_high := 2000; w_growth := 10 |}, 10, 1000.
  vm_compute. intuition congruence.
Qed.
Print Assumptions C34_monotone_needs_sane_config_refuted.
