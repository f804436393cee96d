(* Vocabulary for the fee properties. *)
From Coq Require Import ZArith List Bool.
From Verif Require Import Prelude FeesModel.
Import ListNotations.
Open Scope Z_scope.

(* q is n/d rounded up. *)
Definition ceil_quotient (n d q : Z) : Prop := (q - 1) * d < n <= q * d.

Definition rate (x : Z) : Prop := 0 <= x <= i64_max.

Definition ok_resources (r : tx_resources) : Prop :=
  in_u32 (r_instructions r) /\ in_u32 (r_disk_read_entries r) /\ in_u32 (r_write_entries r)
  /\ in_u32 (r_disk_read_bytes r) /\ in_u32 (r_write_bytes r) /\ in_u32 (r_events_size r)
  /\ in_u32 (r_tx_size r).

Definition ok_fees (c : fee_config) : Prop :=
  rate (f_instruction_increment c) /\ rate (f_disk_read_entry c) /\ rate (f_write_entry c)
  /\ rate (f_disk_read_1kb c) /\ rate (f_write_1kb c) /\ rate (f_historical_1kb c)
  /\ rate (f_event_1kb c) /\ rate (f_tx_size_1kb c).

(* Component-wise order of consumption and of rates. *)
Definition resources_le (r s : tx_resources) : Prop :=
  r_instructions r <= r_instructions s /\ r_disk_read_entries r <= r_disk_read_entries s
  /\ r_write_entries r <= r_write_entries s /\ r_disk_read_bytes r <= r_disk_read_bytes s
  /\ r_write_bytes r <= r_write_bytes s /\ r_events_size r <= r_events_size s
  /\ r_tx_size r <= r_tx_size s.

Definition fees_le (c d : fee_config) : Prop :=
  f_instruction_increment c <= f_instruction_increment d
  /\ f_disk_read_entry c <= f_disk_read_entry d /\ f_write_entry c <= f_write_entry d
  /\ f_disk_read_1kb c <= f_disk_read_1kb d /\ f_write_1kb c <= f_write_1kb d
  /\ f_historical_1kb c <= f_historical_1kb d /\ f_event_1kb c <= f_event_1kb d
  /\ f_tx_size_1kb c <= f_tx_size_1kb d.

(* What the components ought to be, with unbounded integers. *)
Record components := {
  k_instructions : Z; k_read_entries : Z; k_write_entries : Z; k_read_bytes : Z;
  k_write_bytes : Z; k_history : Z; k_bandwidth : Z; k_events : Z
}.
Definition exact_components (r : tx_resources) (c : fee_config) (k : components) : Prop :=
  ceil_quotient (r_instructions r * f_instruction_increment c) 10000 (k_instructions k)
  /\ k_read_entries k = r_disk_read_entries r * f_disk_read_entry c
  /\ k_write_entries k = r_write_entries r * f_write_entry c
  /\ ceil_quotient (r_disk_read_bytes r * f_disk_read_1kb c) 1024 (k_read_bytes k)
  /\ ceil_quotient (r_write_bytes r * f_write_1kb c) 1024 (k_write_bytes k)
  /\ ceil_quotient ((r_tx_size r + 300) * f_historical_1kb c) 1024 (k_history k)
  /\ ceil_quotient (r_tx_size r * f_tx_size_1kb c) 1024 (k_bandwidth k)
  /\ ceil_quotient (r_events_size r * f_event_1kb c) 1024 (k_events k).

(* No intermediate product overflows int64 (nor the size uint32). *)
Definition products_fit (r : tx_resources) (c : fee_config) : Prop :=
  r_instructions r * f_instruction_increment c <= i64_max
  /\ r_disk_read_entries r * f_disk_read_entry c <= i64_max
  /\ r_write_entries r * f_write_entry c <= i64_max
  /\ r_disk_read_bytes r * f_disk_read_1kb c <= i64_max
  /\ r_write_bytes r * f_write_1kb c <= i64_max
  /\ r_tx_size r + 300 <= u32_max
  /\ (r_tx_size r + 300) * f_historical_1kb c <= i64_max
  /\ r_tx_size r * f_tx_size_1kb c <= i64_max
  /\ r_events_size r * f_event_1kb c <= i64_max.

(* Rent *)
Definition ok_change (e : rent_change) : Prop :=
  in_u32 (e_old_size e) /\ in_u32 (e_new_size e) /\ in_u32 (e_old_live e) /\ in_u32 (e_new_live e).
Definition ok_rent (c : rent_config) : Prop :=
  rate (c_write_1kb c) /\ rate (c_rent_1kb c) /\ rate (c_write_entry c)
  /\ rate (c_persistent_denom c) /\ rate (c_temporary_denom c).

(* A new entry has no past: both its old size and old live-until are zero. *)
Definition is_new (e : rent_change) : Prop := e_old_size e = 0 /\ e_old_live e = 0.

(* What one entry owes, in exact arithmetic.  Time is counted in ledgers: an entry that is
   new pays for the current ledger up to its new live-until; any other pays for the ledgers
   past its old live-until.  Growth is paid over what was already paid for: the current
   ledger up to the old live-until. *)
Definition fresh (e : rent_change) : bool := (e_old_size e =? 0) && (e_old_live e =? 0).
Definition ledgers_added (cur : Z) (e : rent_change) : Z :=
  Z.max 0 (e_new_live e - (if fresh e then cur - 1 else e_old_live e)).
Definition ledgers_held (cur : Z) (e : rent_change) : Z :=
  if fresh e then 0 else Z.max 0 (e_old_live e - cur + 1).
Definition bytes_added (e : rent_change) : Z := Z.max 0 (e_new_size e - e_old_size e).
Definition rent_rate (c : rent_config) (e : rent_change) : Z :=
  1024 * (if e_persistent e then c_persistent_denom c else c_temporary_denom c).

(* The two parts are each rounded up; code pays a third of the sum, rounded up. *)
Definition owes (c : rent_config) (cur : Z) (e : rent_change) (q : Z) : Prop :=
  exists x g,
    ceil_quotient (e_new_size e * c_rent_1kb c * ledgers_added cur e) (rent_rate c e) x
    /\ ceil_quotient (bytes_added e * c_rent_1kb c * ledgers_held cur e) (rent_rate c e) g
    /\ (if e_code e then ceil_quotient (x + g) 3 q else q = x + g).

(* The figures stay within 64 bits. *)
Definition rent_fits (c : rent_config) (cur : Z) (e : rent_change) : Prop :=
  0 < rent_rate c e <= i64_max
  /\ e_new_size e * c_rent_1kb c * ledgers_added cur e
     + bytes_added e * c_rent_1kb c * ledgers_held cur e <= i64_max.

(* How many entries live longer than before: each has its 48-byte live-until record rewritten. *)
Definition lives_longer (es : list rent_change) : Z :=
  Z.of_nat (length (filter (fun e => e_old_live e <? e_new_live e) es)).

(* Same entry and same past, but at least as large and living at least as long. *)
Definition change_le (e f : rent_change) : Prop :=
  e_persistent e = e_persistent f /\ e_code e = e_code f
  /\ e_old_size e = e_old_size f /\ e_old_live e = e_old_live f
  /\ e_new_size e <= e_new_size f /\ e_new_live e <= e_new_live f.

(* The change `w` done in two steps: first `a` (all of the resize, part of the
   extension), later `b` (the rest of the extension). *)
Definition two_steps (w a b : rent_change) : Prop :=
  e_persistent a = e_persistent w /\ e_persistent b = e_persistent w
  /\ e_code a = e_code w /\ e_code b = e_code w
  /\ e_old_size a = e_old_size w /\ e_new_size a = e_new_size w
  /\ e_old_size b = e_new_size w /\ e_new_size b = e_new_size w
  /\ e_old_live a = e_old_live w /\ e_new_live a = e_old_live b
  /\ e_new_live b = e_new_live w
  /\ e_old_live w <= e_new_live a <= e_new_live w /\ 0 < e_new_live a.

(* Rent write fee configuration with the high fee not below the low fee. *)
Definition sane_write_config (c : rent_write_config) : Prop :=
  in_i64 (w_target_size c) /\ in_i64 (w_fee_low c) /\ in_i64 (w_fee_high c)
  /\ in_u32 (w_growth c) /\ w_fee_low c <= w_fee_high c.
