(* What a network has configured, in its own words. *)
From Coq Require Import ZArith List Bool.
From Verif Require Import Prelude FeesModel FeesSpec StorageModel BudgetModel BudgetSpec NetModel.
Import ListNotations.
Open Scope Z_scope.

(* The ten settings of a ledger. *)
Record settings := {
  t_compute : compute_setting;
  t_ledger : ledger_setting;
  t_write_1kb : Z;
  t_historical_1kb : Z;
  t_events_1kb : Z;
  t_tx_size_1kb : Z;
  t_archival : archival_setting;
  t_cpu_params : list (Z * Z);
  t_mem_params : list (Z * Z);
  t_sizes : list Z
}.

Definition has (s : snapshot) (i : setting_id) (c : setting) : Prop :=
  s (KSetting i) = NOk (Some (LSetting c)).
Definition holds (s : snapshot) (t : settings) : Prop :=
  has s IdCompute (StCompute (t_compute t)) /\ has s IdLedgerCost (StLedgerCost (t_ledger t))
  /\ has s IdLedgerCostExt (StLedgerCostExt (t_write_1kb t))
  /\ has s IdHistorical (StHistorical (t_historical_1kb t))
  /\ has s IdEvents (StEvents (t_events_1kb t)) /\ has s IdBandwidth (StBandwidth (t_tx_size_1kb t))
  /\ has s IdArchival (StArchival (t_archival t))
  /\ has s IdCpuParams (StCpuParams (t_cpu_params t)) /\ has s IdMemParams (StMemParams (t_mem_params t))
  /\ has s IdStateSizes (StStateSizes (t_sizes t)).

(* The settings that are read. *)
Definition is_read (i : setting_id) : Prop := match i with IdOther _ => False | _ => True end.

Definition sum (l : list Z) : Z := fold_right Z.add 0 l.
Definition sizes_ok (w : list Z) : Prop := Forall (fun x => 0 <= x <= u64_max) w.
(* q is the average, rounded down *)
Definition average (w : list Z) (q : Z) : Prop :=
  q * Z.of_nat (length w) <= sum w < (q + 1) * Z.of_nat (length w).

(* The network's prices for a transaction's resources, with unbounded integers. *)
Definition network_price (t : settings) (r : tx_resources) (k : components) : Prop :=
  ceil_quotient (r_instructions r * co_fee_rate (t_compute t)) 10000 (k_instructions k)
  /\ k_read_entries k = r_disk_read_entries r * lc_fee_disk_read_entry (t_ledger t)
  /\ k_write_entries k = r_write_entries r * lc_fee_write_entry (t_ledger t)
  /\ ceil_quotient (r_disk_read_bytes r * lc_fee_disk_read_1kb (t_ledger t)) 1024 (k_read_bytes k)
  /\ ceil_quotient (r_write_bytes r * t_write_1kb t) 1024 (k_write_bytes k)
  /\ ceil_quotient ((r_tx_size r + 300) * t_historical_1kb t) 1024 (k_history k)
  /\ ceil_quotient (r_tx_size r * t_tx_size_1kb t) 1024 (k_bandwidth k)
  /\ ceil_quotient (r_events_size r * t_events_1kb t) 1024 (k_events k).
