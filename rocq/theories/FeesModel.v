(* soroban-env-host/src/fees.rs.  u32 and i64 values are Z; every saturating_*,
   checked_* and clamp of the source appears explicitly. *)
From Coq Require Import ZArith List Bool.
From Verif Require Import Prelude.
Import ListNotations.
Open Scope Z_scope.

(* fees.rs:9-23 *)
Definition TX_BASE_RESULT_SIZE : Z := 300.
Definition TTL_ENTRY_SIZE : Z := 48.
Definition INSTRUCTIONS_INCREMENT : Z := 10000.
Definition DATA_SIZE_1KB_INCREMENT : Z := 1024.
Definition MINIMUM_RENT_WRITE_FEE_PER_1KB : Z := 1000.
Definition CODE_ENTRY_RENT_DISCOUNT_FACTOR : Z := 3.

(* i128 saturating operations *)
Definition sat_i128 (x : Z) : Z := clamp (- 2 ^ 127) (2 ^ 127 - 1) x.

(* num_integer::div_ceil, divisor positive at every use *)
Definition div_ceil (a b : Z) : Z :=
  let q := a / b in if a mod b =? 0 then q else q + 1.

(* fees.rs:26-43 *)
Record tx_resources := {
  r_instructions : Z;
  r_disk_read_entries : Z;
  r_write_entries : Z;
  r_disk_read_bytes : Z;
  r_write_bytes : Z;
  r_events_size : Z;
  r_tx_size : Z
}.

(* fees.rs:51-70 *)
Record fee_config := {
  f_instruction_increment : Z;
  f_disk_read_entry : Z;
  f_write_entry : Z;
  f_disk_read_1kb : Z;
  f_write_1kb : Z;
  f_historical_1kb : Z;
  f_event_1kb : Z;
  f_tx_size_1kb : Z
}.

(* fees.rs:418-421 *)
Definition compute_fee_per_increment (value rate increment : Z) : Z :=
  div_ceil (sat_i64 (value * rate)) (Z.max increment 1).

(* fees.rs:149-205; returns (non_refundable, refundable) *)
Definition compute_transaction_resource_fee (r : tx_resources) (c : fee_config) : Z * Z :=
  let compute_fee :=
    compute_fee_per_increment (r_instructions r) (f_instruction_increment c) INSTRUCTIONS_INCREMENT in
  let ledger_read_entry_fee := sat_i64 (f_disk_read_entry c * r_disk_read_entries r) in
  let ledger_write_entry_fee := sat_i64 (f_write_entry c * r_write_entries r) in
  let ledger_read_bytes_fee :=
    compute_fee_per_increment (r_disk_read_bytes r) (f_disk_read_1kb c) DATA_SIZE_1KB_INCREMENT in
  let ledger_write_bytes_fee :=
    compute_fee_per_increment (r_write_bytes r) (f_write_1kb c) DATA_SIZE_1KB_INCREMENT in
  let historical_fee :=
    compute_fee_per_increment (sat_u32 (r_tx_size r + TX_BASE_RESULT_SIZE))
      (f_historical_1kb c) DATA_SIZE_1KB_INCREMENT in
  let events_fee :=
    compute_fee_per_increment (r_events_size r) (f_event_1kb c) DATA_SIZE_1KB_INCREMENT in
  let bandwidth_fee :=
    compute_fee_per_increment (r_tx_size r) (f_tx_size_1kb c) DATA_SIZE_1KB_INCREMENT in
  let refundable_fee := events_fee in
  let non_refundable_fee :=
    sat_i64 (sat_i64 (sat_i64 (sat_i64 (sat_i64 (sat_i64
      (compute_fee + ledger_read_entry_fee) + ledger_write_entry_fee)
      + ledger_read_bytes_fee) + ledger_write_bytes_fee) + historical_fee)
      + bandwidth_fee) in
  (non_refundable_fee, refundable_fee).

(* fees.rs:213-227 *)
Definition clamp_fee_i64 (x : Z) : Z := if x <? 0 then i64_max else x.
(* fees.rs:229-237 *)
Definition clamp_fee_i128 (x : Z) : Z :=
  if x <? 0 then i64_max else if x <=? i64_max then x else i64_max.

(* fees.rs:76-90 *)
Record rent_write_config := {
  w_target_size : Z;
  w_fee_low : Z;
  w_fee_high : Z;
  w_growth : Z
}.

(* fees.rs:245-280 *)
Definition compute_rent_write_fee_per_1kb (state_size : Z) (c : rent_write_config) : Z :=
  let mult := clamp_fee_i64 (sat_i64 (w_fee_high c - w_fee_low c)) in
  let fee :=
    if state_size <? w_target_size c then
      let f := clamp_fee_i128
                 (div_ceil (sat_i128 (mult * state_size)) (Z.max (w_target_size c) 1)) in
      sat_i64 (f + w_fee_low c)
    else
      let past := sat_i64 (state_size - w_target_size c) in
      let post := clamp_fee_i128
                    (div_ceil (sat_i128 (sat_i128 (mult * past) * w_growth c))
                              (Z.max (w_target_size c) 1)) in
      sat_i64 (w_fee_high c + post) in
  Z.max fee MINIMUM_RENT_WRITE_FEE_PER_1KB.

(* fees.rs:97-117 *)
Record rent_change := {
  e_persistent : bool;
  e_code : bool;
  e_old_size : Z;
  e_new_size : Z;
  e_old_live : Z;
  e_new_live : Z
}.

(* fees.rs:125-147 *)
Record rent_config := {
  c_write_1kb : Z;
  c_rent_1kb : Z;
  c_write_entry : Z;
  c_persistent_denom : Z;
  c_temporary_denom : Z
}.

(* fees.rs:324-331; u32 checked_sub *)
Definition exclusive_ledger_diff (lo hi : Z) : option Z := chk_u32 (hi - lo).
Definition inclusive_ledger_diff (lo hi : Z) : option Z :=
  option_map (fun d => sat_u32 (d + 1)) (exclusive_ledger_diff lo hi).

(* fees.rs:334-336 *)
Definition entry_is_new (e : rent_change) : bool :=
  (e_old_size e =? 0) && (e_old_live e =? 0).
(* fees.rs:338-345 *)
Definition extension_ledgers (e : rent_change) (cur : Z) : option Z :=
  let before := if entry_is_new e then sat_u32 (cur - 1) else e_old_live e in
  exclusive_ledger_diff before (e_new_live e).
(* fees.rs:347-353 *)
Definition prepaid_ledgers (e : rent_change) (cur : Z) : option Z :=
  if entry_is_new e then None else inclusive_ledger_diff cur (e_old_live e).
(* fees.rs:355-357 *)
Definition size_increase (e : rent_change) : option Z := chk_u32 (e_new_size e - e_old_size e).

(* fees.rs:397-416 *)
Definition rent_fee_for_size_and_ledgers (persistent : bool) (size ledgers : Z) (c : rent_config) : Z :=
  let num := sat_i64 (sat_i64 (size * c_rent_1kb c) * ledgers) in
  let coef := if persistent then c_persistent_denom c else c_temporary_denom c in
  let denom := sat_i64 (DATA_SIZE_1KB_INCREMENT * coef) in
  div_ceil num (Z.max denom 1).

(* fees.rs:360-395 *)
Definition rent_fee_per_entry_change (e : rent_change) (c : rent_config) (cur : Z) : Z :=
  let fee1 :=
    match extension_ledgers e cur with
    | Some l => sat_i64 (0 + rent_fee_for_size_and_ledgers (e_persistent e) (e_new_size e) l c)
    | None => 0
    end in
  let fee2 :=
    match prepaid_ledgers e cur, size_increase e with
    | Some l, Some s => sat_i64 (fee1 + rent_fee_for_size_and_ledgers (e_persistent e) s l c)
    | _, _ => fee1
    end in
  if e_code e then div_ceil fee2 CODE_ENTRY_RENT_DISCOUNT_FACTOR else fee2.

(* fees.rs:290-321: the accumulating loop, then the two TTL-entry write fees *)
Fixpoint rent_loop (es : list rent_change) (c : rent_config) (cur : Z)
    (fee extended key_bytes : Z) : Z * Z * Z :=
  match es with
  | [] => (fee, extended, key_bytes)
  | e :: r =>
      let fee := sat_i64 (fee + rent_fee_per_entry_change e c cur) in
      if e_old_live e <? e_new_live e
      then rent_loop r c cur fee (sat_i64 (extended + 1)) (sat_u32 (key_bytes + TTL_ENTRY_SIZE))
      else rent_loop r c cur fee extended key_bytes
  end.
Definition compute_rent_fee (es : list rent_change) (c : rent_config) (cur : Z) : Z :=
  let '(fee, extended, key_bytes) := rent_loop es c cur 0 0 0 in
  let fee := sat_i64 (fee + sat_i64 (c_write_entry c * extended)) in
  sat_i64 (fee + compute_fee_per_increment key_bytes (c_write_1kb c) DATA_SIZE_1KB_INCREMENT).
