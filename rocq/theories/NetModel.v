(* soroban-simulation/src/network_config.rs: the network's configuration, as a
   simulation loads it from a snapshot of the ledger.
   A snapshot answers keys with its own error, nothing, or an entry; the
   live-until ledger of an entry is not read and is left out, and so are the
   texts of errors.  Of each setting only the fields that are read are modelled. *)
From Coq Require Import ZArith List Bool.
From Verif Require Import Prelude FeesModel StorageModel BudgetModel.
Import ListNotations.
Open Scope Z_scope.

(* ------------------------------------------------- external: settings (XDR) *)

(* ConfigSettingId, those that are read and the others *)
Inductive setting_id :=
| IdCompute | IdLedgerCost | IdLedgerCostExt | IdHistorical | IdEvents | IdBandwidth
| IdArchival | IdCpuParams | IdMemParams | IdStateSizes | IdOther (n : Z).

Record compute_setting := { co_max_instructions : Z; co_fee_rate : Z; co_memory_limit : Z }.
Record ledger_setting := {
  lc_fee_disk_read_entry : Z; lc_fee_write_entry : Z; lc_fee_disk_read_1kb : Z;
  lc_state_target : Z; lc_rent_low : Z; lc_rent_high : Z; lc_growth : Z }.
Record archival_setting := {
  ar_max_ttl : Z; ar_min_temp : Z; ar_min_persistent : Z;
  ar_persistent_denom : Z; ar_temp_denom : Z }.

(* ConfigSettingEntry *)
Inductive setting :=
| StCompute (s : compute_setting)
| StLedgerCost (s : ledger_setting)
| StLedgerCostExt (fee_write_1kb : Z)
| StHistorical (fee_historical_1kb : Z)
| StEvents (fee_events_1kb : Z)
| StBandwidth (fee_tx_size_1kb : Z)
| StArchival (s : archival_setting)
| StCpuParams (p : list (Z * Z))
| StMemParams (p : list (Z * Z))
| StStateSizes (w : list Z)
| StOther (n : Z).

Inductive ledger_key := KSetting (i : setting_id) | KElse (n : Z).
Inductive ledger_entry := LSetting (s : setting) | LElse (n : Z).

Inductive nerr :=
| NSource (n : Z)          (* the snapshot's own error *)
| NMissing (i : setting_id)
| NNotSetting (i : setting_id)
| NWrongSetting (i : setting_id)
| NEmptyWindow
| NTooLarge
| NBudget (e : err).
Inductive nres (A : Type) := NOk (a : A) | NErr (e : nerr).
Arguments NOk {A} a.
Arguments NErr {A} e.
Definition nbind {A B} (x : nres A) (f : A -> nres B) : nres B :=
  match x with NOk a => f a | NErr e => NErr e end.
Notation "'let!' x := e 'in' f" := (nbind e (fun x => f)) (at level 200, x pattern, right associativity).

(* storage.rs, SnapshotSource::get *)
Definition snapshot := ledger_key -> nres (option ledger_entry).

(* ------------------------------------------------------------------ loading *)

(* network_config.rs:35-54 *)
Definition load_configuration_setting (s : snapshot) (i : setting_id) : nres setting :=
  let! e := s (KSetting i) in
  match e with
  | None => NErr (NMissing i)
  | Some (LSetting c) => NOk c
  | Some (LElse _) => NErr (NNotSetting i)
  end.

(* network_config.rs:56-66, the macro load_setting!: `pick` is its pattern *)
Definition load_setting {A} (s : snapshot) (i : setting_id) (pick : setting -> option A) : nres A :=
  let! c := load_configuration_setting s i in
  match pick c with Some a => NOk a | None => NErr (NWrongSetting i) end.

Definition pick_compute c := match c with StCompute s => Some s | _ => None end.
Definition pick_ledger c := match c with StLedgerCost s => Some s | _ => None end.
Definition pick_ext c := match c with StLedgerCostExt s => Some s | _ => None end.
Definition pick_historical c := match c with StHistorical s => Some s | _ => None end.
Definition pick_events c := match c with StEvents s => Some s | _ => None end.
Definition pick_bandwidth c := match c with StBandwidth s => Some s | _ => None end.
Definition pick_archival c := match c with StArchival s => Some s | _ => None end.
Definition pick_cpu c := match c with StCpuParams s => Some s | _ => None end.
Definition pick_mem c := match c with StMemParams s => Some s | _ => None end.
Definition pick_sizes c := match c with StStateSizes s => Some s | _ => None end.

(* network_config.rs:68-80 *)
Definition size_sum (w : list Z) : Z := fold_left (fun a x => sat_u64 (a + x)) w 0.
Definition load_bucket_list_size_from_snapshot (s : snapshot) : nres Z :=
  let! w := load_setting s IdStateSizes pick_sizes in
  match w with
  | [] => NErr NEmptyWindow
  | _ => NOk (size_sum w / Z.of_nat (length w))
  end.

(* network_config.rs:21-33 *)
Record network_config := {
  n_fees : fee_config;
  n_rent : rent_config;
  n_max_instructions : Z;
  n_memory_limit : Z;
  n_cpu_params : list (Z * Z);
  n_mem_params : list (Z * Z);
  n_min_temp : Z;
  n_min_persistent : Z;
  n_max_ttl : Z
}.

(* network_config.rs:87-139 *)
Definition load_from_snapshot (s : snapshot) : nres network_config :=
  let! compute := load_setting s IdCompute pick_compute in
  let! ledger := load_setting s IdLedgerCost pick_ledger in
  let! ext := load_setting s IdLedgerCostExt pick_ext in
  let! historical := load_setting s IdHistorical pick_historical in
  let! events := load_setting s IdEvents pick_events in
  let! bandwidth := load_setting s IdBandwidth pick_bandwidth in
  let! archival := load_setting s IdArchival pick_archival in
  let! cpu_params := load_setting s IdCpuParams pick_cpu in
  let! mem_params := load_setting s IdMemParams pick_mem in
  let write := {| w_target_size := lc_state_target ledger; w_fee_low := lc_rent_low ledger;
                  w_fee_high := lc_rent_high ledger; w_growth := lc_growth ledger |} in
  let! size := load_bucket_list_size_from_snapshot s in
  if i64_max <? size then NErr NTooLarge
  else
    let rent_1kb := compute_rent_write_fee_per_1kb size write in
    NOk {| n_fees := {| f_instruction_increment := co_fee_rate compute;
                        f_disk_read_entry := lc_fee_disk_read_entry ledger;
                        f_write_entry := lc_fee_write_entry ledger;
                        f_disk_read_1kb := lc_fee_disk_read_1kb ledger;
                        f_write_1kb := ext;
                        f_historical_1kb := historical;
                        f_event_1kb := events;
                        f_tx_size_1kb := bandwidth |};
           n_rent := {| c_write_1kb := ext;
                        c_rent_1kb := rent_1kb;
                        c_write_entry := lc_fee_write_entry ledger;
                        c_persistent_denom := ar_persistent_denom archival;
                        c_temporary_denom := ar_temp_denom archival |};
           n_max_instructions := co_max_instructions compute;
           n_memory_limit := co_memory_limit compute;
           n_cpu_params := cpu_params;
           n_mem_params := mem_params;
           n_min_temp := ar_min_temp archival;
           n_min_persistent := ar_min_persistent archival;
           n_max_ttl := ar_max_ttl archival |}.

(* network_config.rs:146-150 *)
Definition fill_config_fields_in_ledger_info (n : network_config) (li : linfo) : linfo :=
  {| li_seq := li_seq li; li_min_temp := n_min_temp n;
     li_min_persistent := n_min_persistent n; li_max_ttl := n_max_ttl n |}.

(* budget.rs:1371-1375 *)
Definition set_shadow_limit (d : dim) (l : Z) : dim :=
  {| d_models := d_models d; d_limit := d_limit d; d_net := d_net d; d_peak := d_peak d;
     d_sh_limit := l; d_sh_net := d_sh_net d |}.

(* network_config.rs:15-16, 152-166, budget.rs:1277-1289; `as u64` of an i64 *)
Definition as_u64 (x : Z) : Z := x mod 2 ^ 64.
Definition create_budget (n : network_config) : nres budget :=
  let cpu_limit := as_u64 (n_max_instructions n) in
  let mem_limit := n_memory_limit n in
  let cpu_shadow_limit := sat_u64 (cpu_limit * 10) in
  let mem_shadow_limit := sat_u64 (mem_limit * 2) in
  match budget_of_configs cpu_limit mem_limit (n_cpu_params n) (n_mem_params n) with
  | Err e => NErr (NBudget e)
  | Ok b => NOk (set_dims b (set_shadow_limit (cpu b) cpu_shadow_limit)
                            (set_shadow_limit (mem b) mem_shadow_limit))
  end.
