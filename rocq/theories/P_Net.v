(* C83: a simulation runs with the limits and prices of the network. *)
From Coq Require Import ZArith NArith Lia List Bool.
From Verif Require Import Prelude FeesModel FeesSpec FeesProofs StorageModel BudgetModel BudgetSpec
  BudgetProofs BudgetProofs2 P_Fees NetModel NetSpec.
Import ListNotations.
Open Scope Z_scope.

Ltac nb H x E := match type of H with nbind ?e _ = NOk _ => destruct e as [x|] eqn:E; cbn [nbind] in H; [|discriminate H] end.

Lemma load_has {A} s i (pick : setting -> option A) a : load_setting s i pick = NOk a ->
  exists c, has s i c /\ pick c = Some a.
Proof.
  unfold load_setting, load_configuration_setting, has. destruct (s (KSetting i)) as [[[c|]|]|]; cbn; try discriminate.
  intros H. exists c. split; auto. destruct (pick c); congruence.
Qed.
Lemma has_load {A} s i c (pick : setting -> option A) a : has s i c -> pick c = Some a -> load_setting s i pick = NOk a.
Proof. unfold has, load_setting, load_configuration_setting. intros -> P. cbn. now rewrite P. Qed.

Lemma sum_nonneg w : sizes_ok w -> 0 <= sum w.
Proof. unfold sum. induction 1; cbn; lia. Qed.
Lemma size_sum_min w : sizes_ok w -> size_sum w = Z.min u64_max (sum w).
Proof.
  intros O. unfold size_sum.
  assert (G : forall a, 0 <= a <= u64_max -> fold_left (fun a x => sat_u64 (a + x)) w a = Z.min u64_max (a + sum w)).
  { induction O as [|x w Hx O IH]; intros a Ha; cbn [fold_left sum fold_right].
    - lia.
    - pose proof (sum_nonneg w O) as P. fold (sum w).
      rewrite IH by (unfold sat_u64, clamp; lia). unfold sat_u64, clamp. lia. }
  rewrite G by (unfold u64_max; lia). reflexivity.
Qed.

Definition write_of (t : settings) : rent_write_config :=
  {| w_target_size := lc_state_target (t_ledger t); w_fee_low := lc_rent_low (t_ledger t);
     w_fee_high := lc_rent_high (t_ledger t); w_growth := lc_growth (t_ledger t) |}.

Lemma loads s t : holds s t -> load_from_snapshot s =
  match t_sizes t with
  | [] => NErr NEmptyWindow
  | w => let size := size_sum w / Z.of_nat (length w) in
    if i64_max <? size then NErr NTooLarge
    else NOk {| n_fees := {| f_instruction_increment := co_fee_rate (t_compute t);
                        f_disk_read_entry := lc_fee_disk_read_entry (t_ledger t);
                        f_write_entry := lc_fee_write_entry (t_ledger t);
                        f_disk_read_1kb := lc_fee_disk_read_1kb (t_ledger t);
                        f_write_1kb := t_write_1kb t;
                        f_historical_1kb := t_historical_1kb t;
                        f_event_1kb := t_events_1kb t;
                        f_tx_size_1kb := t_tx_size_1kb t |};
           n_rent := {| c_write_1kb := t_write_1kb t;
                        c_rent_1kb := compute_rent_write_fee_per_1kb size (write_of t);
                        c_write_entry := lc_fee_write_entry (t_ledger t);
                        c_persistent_denom := ar_persistent_denom (t_archival t);
                        c_temporary_denom := ar_temp_denom (t_archival t) |};
           n_max_instructions := co_max_instructions (t_compute t);
           n_memory_limit := co_memory_limit (t_compute t);
           n_cpu_params := t_cpu_params t;
           n_mem_params := t_mem_params t;
           n_min_temp := ar_min_temp (t_archival t);
           n_min_persistent := ar_min_persistent (t_archival t);
           n_max_ttl := ar_max_ttl (t_archival t) |}
  end.
Proof.
  intros (A & B & C & D & E & F & G & H & I & J). unfold load_from_snapshot, load_bucket_list_size_from_snapshot.
  rewrite (has_load s _ _ pick_compute _ A eq_refl), (has_load s _ _ pick_ledger _ B eq_refl),
    (has_load s _ _ pick_ext _ C eq_refl), (has_load s _ _ pick_historical _ D eq_refl),
    (has_load s _ _ pick_events _ E eq_refl), (has_load s _ _ pick_bandwidth _ F eq_refl),
    (has_load s _ _ pick_archival _ G eq_refl), (has_load s _ _ pick_cpu _ H eq_refl),
    (has_load s _ _ pick_mem _ I eq_refl), (has_load s _ _ pick_sizes _ J eq_refl).
  cbn [nbind]. destruct (t_sizes t) as [|x w]; reflexivity.
Qed.

Lemma loaded_holds s n : load_from_snapshot s = NOk n -> exists t, holds s t.
Proof.
  unfold load_from_snapshot. intros H.
  nb H co E1. nb H lc E2. nb H xt E3. nb H hi E4. nb H ev E5. nb H ba E6. nb H ar E7. nb H cp E8. nb H mp E9. nb H sz E10.
  unfold load_bucket_list_size_from_snapshot in E10. nb E10 w E11. clear H E10.
  apply load_has in E1 as (c1 & H1 & P1), E2 as (c2 & H2 & P2), E3 as (c3 & H3 & P3), E4 as (c4 & H4 & P4),
    E5 as (c5 & H5 & P5), E6 as (c6 & H6 & P6), E7 as (c7 & H7 & P7), E8 as (c8 & H8 & P8), E9 as (c9 & H9 & P9),
    E11 as (c10 & H10 & P10).
  destruct c1; try discriminate P1. destruct c2; try discriminate P2. destruct c3; try discriminate P3.
  destruct c4; try discriminate P4. destruct c5; try discriminate P5. destruct c6; try discriminate P6.
  destruct c7; try discriminate P7. destruct c8; try discriminate P8. destruct c9; try discriminate P9.
  destruct c10; try discriminate P10.
  eexists {| t_compute := _; t_ledger := _; t_write_1kb := _; t_historical_1kb := _; t_events_1kb := _;
    t_tx_size_1kb := _; t_archival := _; t_cpu_params := _; t_mem_params := _; t_sizes := _ |}.
  unfold holds. cbn. repeat (split; [eassumption|]). eassumption.
Qed.

(* ---------------------------------------------------------------- C83 *)

(* Loading succeeds exactly on snapshots that hold the ten settings, with at
   least one size, the average (of the capped sum) within 63 bits. *)
Theorem C83_loads_exactly_when_configured :
  forall s, (forall t, holds s t -> sizes_ok (t_sizes t)) ->
  (exists n, load_from_snapshot s = NOk n)
  <-> (exists t, holds s t /\ t_sizes t <> []
       /\ Z.min u64_max (sum (t_sizes t)) < (i64_max + 1) * Z.of_nat (length (t_sizes t))).
Proof.
  intros s O. split.
  - intros (n & L). destruct (loaded_holds s n L) as (t & Ht). exists t. rewrite (loads s t Ht) in L.
    specialize (O t Ht). rewrite <- (size_sum_min _ O). destruct (t_sizes t) as [|x w]; [discriminate|].
    split; auto. split; [discriminate|]. cbn zeta in L. destruct (Z.ltb_spec i64_max (size_sum (x :: w) / Z.of_nat (length (x :: w)))); [discriminate|].
    assert (P : 0 < Z.of_nat (length (x :: w))) by (cbn [length]; lia).
    pose proof (Z.mod_pos_bound (size_sum (x :: w)) _ P). pose proof (Z.div_mod (size_sum (x :: w)) (Z.of_nat (length (x :: w)))). nia.
  - intros (t & Ht & N & B). rewrite (loads s t Ht). specialize (O t Ht). rewrite <- (size_sum_min _ O) in B.
    destruct (t_sizes t) as [|x w]; [congruence|]. cbn zeta.
    destruct (Z.ltb_spec i64_max (size_sum (x :: w) / Z.of_nat (length (x :: w)))) as [X|X]; [exfalso|eauto].
    assert (P : 0 < Z.of_nat (length (x :: w))) by (cbn [length]; lia).
    pose proof (Z.mod_pos_bound (size_sum (x :: w)) _ P). pose proof (Z.div_mod (size_sum (x :: w)) (Z.of_nat (length (x :: w)))). nia.
Qed.
Print Assumptions C83_loads_exactly_when_configured.

(* Nothing else of the ledger is looked at. *)
Theorem C83_only_the_settings_matter :
  forall s s', (forall i, is_read i -> s (KSetting i) = s' (KSetting i)) -> load_from_snapshot s = load_from_snapshot s'.
Proof.
  intros s s' E.
  assert (L : forall A i (pick : setting -> option A), is_read i -> load_setting s i pick = load_setting s' i pick).
  { intros A i pick R. unfold load_setting, load_configuration_setting. now rewrite (E i R). }
  unfold load_from_snapshot, load_bucket_list_size_from_snapshot.
  repeat (rewrite L by exact I). reflexivity.
Qed.
Print Assumptions C83_only_the_settings_matter.

(* A transaction is charged for its resources what the settings say, each
   resource at its own price, rounded up. *)
Theorem C83_prices_are_the_networks :
  forall s t n r k, holds s t -> load_from_snapshot s = NOk n ->
  ok_resources r -> ok_fees (n_fees n) -> products_fit r (n_fees n) -> network_price t r k ->
  compute_transaction_resource_fee r (n_fees n)
  = (Z.min i64_max (k_instructions k + k_read_entries k + k_write_entries k + k_read_bytes k
                    + k_write_bytes k + k_history k + k_bandwidth k), k_events k).
Proof.
  intros s t n r k H L R F P K. destruct (C32_resource_fees_exact r (n_fees n) R F P) as (k' & X & Y & Z').
  rewrite (loads s t H) in L. destruct (t_sizes t); [discriminate|]. cbn zeta in L.
  destruct (i64_max <? _); [discriminate|]. injection L as L. apply (f_equal n_fees) in L. cbn [n_fees] in L.
  rewrite <- L in X. unfold exact_components in X.
  cbn [f_instruction_increment f_disk_read_entry f_write_entry f_disk_read_1kb f_write_1kb f_historical_1kb f_event_1kb f_tx_size_1kb] in X.
  destruct X as (X1 & X2 & X3 & X4 & X5 & X6 & X7 & X8), K as (K1 & K2 & K3 & K4 & K5 & K6 & K7 & K8).
  assert (E1 := ceil_unique _ 10000 _ _ eq_refl X1 K1). assert (E4 := ceil_unique _ 1024 _ _ eq_refl X4 K4).
  assert (E5 := ceil_unique _ 1024 _ _ eq_refl X5 K5). assert (E6 := ceil_unique _ 1024 _ _ eq_refl X6 K6).
  assert (E7 := ceil_unique _ 1024 _ _ eq_refl X7 K7). assert (E8 := ceil_unique _ 1024 _ _ eq_refl X8 K8).
  rewrite (surjective_pairing (compute_transaction_resource_fee r (n_fees n))), Y, Z'.
  rewrite E1, E4, E5, E6, E7, E8, X2, X3, K2, K3. reflexivity.
Qed.
Print Assumptions C83_prices_are_the_networks.

(* Rent, lifetimes and limits: every number is the one the network set; the
   price of rent is the one for the average of the recorded sizes of the state. *)
Theorem C83_rent_and_lifetimes_are_the_networks :
  forall s t n, holds s t -> load_from_snapshot s = NOk n ->
  c_write_1kb (n_rent n) = t_write_1kb t
  /\ c_write_entry (n_rent n) = lc_fee_write_entry (t_ledger t)
  /\ c_persistent_denom (n_rent n) = ar_persistent_denom (t_archival t)
  /\ c_temporary_denom (n_rent n) = ar_temp_denom (t_archival t)
  /\ (forall q, sizes_ok (t_sizes t) -> sum (t_sizes t) <= u64_max -> average (t_sizes t) q ->
      c_rent_1kb (n_rent n) = compute_rent_write_fee_per_1kb q
        {| w_target_size := lc_state_target (t_ledger t); w_fee_low := lc_rent_low (t_ledger t);
           w_fee_high := lc_rent_high (t_ledger t); w_growth := lc_growth (t_ledger t) |})
  /\ (forall li, let li' := fill_config_fields_in_ledger_info n li in
      li_seq li' = li_seq li /\ li_min_temp li' = ar_min_temp (t_archival t)
      /\ li_min_persistent li' = ar_min_persistent (t_archival t) /\ li_max_ttl li' = ar_max_ttl (t_archival t)).
Proof.
  intros s t n H L. rewrite (loads s t H) in L. destruct (t_sizes t) as [|x w] eqn:W; [discriminate|]. cbn zeta in L.
  destruct (i64_max <? _); [discriminate|]. injection L as <-. cbn [n_rent c_write_1kb c_write_entry c_persistent_denom c_temporary_denom c_rent_1kb].
  do 4 (split; [reflexivity|]). split; [|intros li; cbn; auto].
  intros q O S A. f_equal.
  change (Z.pos (Pos.of_succ_nat (length w))) with (Z.of_nat (length (x :: w))). rewrite (size_sum_min _ O). rewrite Z.min_r by lia. unfold average in A.
  set (k := Z.of_nat (length (x :: w))) in *. set (v := sum (x :: w)) in *. clearbody k v.
  symmetry. apply Z.div_unique with (v - k * q); [left; nia|nia].
Qed.
Print Assumptions C83_rent_and_lifetimes_are_the_networks.

(* A larger state never makes rent cheaper. *)
Lemma sum_le w w' : Forall2 Z.le w w' -> sum w <= sum w'.
Proof. unfold sum. induction 1; cbn; lia. Qed.
Lemma fit n t s : holds s t -> load_from_snapshot s = NOk n -> exists size,
  size = size_sum (t_sizes t) / Z.of_nat (length (t_sizes t)) /\ size <= i64_max /\ t_sizes t <> []
  /\ c_rent_1kb (n_rent n) = compute_rent_write_fee_per_1kb size (write_of t).
Proof.
  intros H L. rewrite (loads s t H) in L. destruct (t_sizes t) as [|x w] eqn:W; [discriminate|]. cbn zeta in L.
  destruct (Z.ltb_spec i64_max (size_sum (x :: w) / Z.of_nat (length (x :: w)))); [discriminate|]. injection L as <-.
  eexists. split; [reflexivity|]. split; auto. split; [discriminate|reflexivity].
Qed.
Theorem C83_rent_grows_with_the_state :
  forall s t n s' t' n', holds s t -> load_from_snapshot s = NOk n -> holds s' t' -> load_from_snapshot s' = NOk n' ->
  t_ledger t = t_ledger t' -> sizes_ok (t_sizes t) -> sizes_ok (t_sizes t') -> Forall2 Z.le (t_sizes t) (t_sizes t') ->
  in_i64 (lc_state_target (t_ledger t)) -> in_i64 (lc_rent_low (t_ledger t)) -> in_i64 (lc_rent_high (t_ledger t)) ->
  in_u32 (lc_growth (t_ledger t)) -> lc_rent_low (t_ledger t) <= lc_rent_high (t_ledger t) ->
  c_rent_1kb (n_rent n) <= c_rent_1kb (n_rent n').
Proof.
  intros s t n s' t' n' H L H' L' E O O' LE T1 T2 T3 T4 T5.
  destruct (fit n t s H L) as (q & Q & _ & N & ->). destruct (fit n' t' s' H' L') as (q' & Q' & B' & N' & ->).
  unfold write_of. rewrite <- E. rewrite (size_sum_min _ O) in Q. rewrite (size_sum_min _ O') in Q'.
  pose proof (sum_le _ _ LE) as SL. pose proof (sum_nonneg _ O) as SN. pose proof (sum_nonneg _ O') as SN'.
  assert (LL : length (t_sizes t) = length (t_sizes t')) by (clear - LE; induction LE; cbn; congruence).
  rewrite <- LL in Q'.
  assert (P : 0 < Z.of_nat (length (t_sizes t))) by (destruct (t_sizes t); [congruence|cbn [length]; lia]).
  apply C34_rent_write_fee_monotone.
  - unfold sane_write_config. cbn. auto.
  - subst q. apply Z.div_pos; [unfold u64_max; lia|lia].
  - subst q q'. apply Z.div_le_mono; lia.
  - assert (0 <= q') by (subst q'; apply Z.div_pos; [unfold u64_max; lia|lia]). unfold in_i64, i64_min in *. lia.
Qed.
Print Assumptions C83_rent_grows_with_the_state.

(* The budget: whatever metered work a simulation does, and whatever diagnostics
   it does besides, it consumes at most what the network allows a transaction
   if no charge failed; diagnostics have ten times the instructions and twice
   the memory to themselves. *)
Theorem C83_limits_are_the_networks :
  forall s t n b, holds s t -> load_from_snapshot s = NOk n -> create_budget n = NOk b ->
  in_i64 (co_max_instructions (t_compute t)) -> 0 <= co_max_instructions (t_compute t) ->
  in_u32 (co_memory_limit (t_compute t)) ->
  Forall (fun p => in_i64 (fst p) /\ in_i64 (snd p)) (t_cpu_params t ++ t_mem_params t) ->
  d_sh_limit (cpu b) = Z.min u64_max (10 * co_max_instructions (t_compute t))
  /\ d_sh_limit (mem b) = 2 * co_memory_limit (t_compute t)
  /\ (exists c, budget_of_configs (co_max_instructions (t_compute t)) (co_memory_limit (t_compute t))
                 (t_cpu_params t) (t_mem_params t) = Ok c /\ same_metered b c)
  /\ forall p b' l r, run p b = (b', l, r) -> all_succeeded l ->
     d_net (cpu b') <= co_max_instructions (t_compute t)
     /\ d_peak (mem b') <= co_memory_limit (t_compute t).
Proof.
  intros s t n b H L B I1 I2 I3 F. rewrite (loads s t H) in L. destruct (t_sizes t) as [|x w]; [discriminate|]. cbn zeta in L.
  destruct (i64_max <? _); [discriminate|]. injection L as <-. unfold create_budget in B.
  cbn [n_max_instructions n_memory_limit n_cpu_params n_mem_params] in B.
  assert (A : as_u64 (co_max_instructions (t_compute t)) = co_max_instructions (t_compute t)).
  { unfold as_u64. apply Z.mod_small. unfold in_i64, i64_max in I1. lia. }
  rewrite A in B. set (cl := co_max_instructions (t_compute t)) in *. set (ml := co_memory_limit (t_compute t)) in *.
  destruct (budget_of_configs cl ml (t_cpu_params t) (t_mem_params t)) as [c|] eqn:C; [|discriminate]. injection B as <-.
  cbn [cpu mem set_dims d_sh_limit set_shadow_limit].
  assert (SM : same_metered (set_dims c (set_shadow_limit (cpu c) (sat_u64 (cl * 10))) (set_shadow_limit (mem c) (sat_u64 (ml * 2)))) c).
  { unfold same_metered. cbn. intuition. }
  assert (FR : fresh c).
  { exists cl, ml, (t_cpu_params t), (t_mem_params t). unfold in_i64, in_u64, in_u32, i64_max, u64_max, u32_max in *. repeat split; auto; lia. }
  destruct (fresh_ok c FR) as (OK & SH & _).
  assert (LIM : d_limit (cpu c) = cl /\ d_limit (mem c) = ml).
  { unfold budget_of_configs, dim_of_config in C. destruct (load_models _ (t_cpu_params t)); [|discriminate].
    cbn [rbind] in C. destruct (load_models _ (t_mem_params t)); [|discriminate]. cbn [rbind] in C. injection C as <-. auto. }
  split; [|split; [|split; [eauto|]]].
  - unfold sat_u64, clamp, u64_max. lia.
  - unfold sat_u64, clamp. unfold in_u32, u32_max, u64_max in *. lia.
  - intros p b' l r R AS.
    pose proof (erase p _ c (sm_ok _ _ OK (sm_sym _ _ SM)) SH SM) as K. rewrite R in K.
    destruct (run (without_shadow p) c) as [[c' l'] r'] eqn:R'. destruct K as (K & E1 & E2). cbn [fst snd] in K, E1, E2. subst l' r'.
    destruct (run_within_limits _ c c' l r FR R' AS) as (W1 & _ & W2 & _).
    destruct LIM as [-> ->] in W1, W2. destruct K as (_ & _ & _ & _ & K1 & _ & _ & K2 & _). lia.
Qed.
Print Assumptions C83_limits_are_the_networks.

(* ---------------------------------------------------------------- a case *)

Definition x_settings : settings := {|
  t_compute := {| co_max_instructions := 100000000; co_fee_rate := 25; co_memory_limit := 41943040 |};
  t_ledger := {| lc_fee_disk_read_entry := 6250; lc_fee_write_entry := 10000; lc_fee_disk_read_1kb := 1786;
                 lc_state_target := 3000000; lc_rent_low := 1000; lc_rent_high := 10000; lc_growth := 5 |};
  t_write_1kb := 3500; t_historical_1kb := 16235; t_events_1kb := 200; t_tx_size_1kb := 1624;
  t_archival := {| ar_max_ttl := 3110400; ar_min_temp := 17280; ar_min_persistent := 2073600;
                   ar_persistent_denom := 1215; ar_temp_denom := 2430 |};
  t_cpu_params := [(4, 0); (434, 16)]; t_mem_params := [(0, 0); (16, 128)];
  t_sizes := [1000000; 2000000; 1500001] |}.
Definition x_with (t : settings) : snapshot := fun k =>
  match k with
  | KSetting IdCompute => NOk (Some (LSetting (StCompute (t_compute t))))
  | KSetting IdLedgerCost => NOk (Some (LSetting (StLedgerCost (t_ledger t))))
  | KSetting IdLedgerCostExt => NOk (Some (LSetting (StLedgerCostExt (t_write_1kb t))))
  | KSetting IdHistorical => NOk (Some (LSetting (StHistorical (t_historical_1kb t))))
  | KSetting IdEvents => NOk (Some (LSetting (StEvents (t_events_1kb t))))
  | KSetting IdBandwidth => NOk (Some (LSetting (StBandwidth (t_tx_size_1kb t))))
  | KSetting IdArchival => NOk (Some (LSetting (StArchival (t_archival t))))
  | KSetting IdCpuParams => NOk (Some (LSetting (StCpuParams (t_cpu_params t))))
  | KSetting IdMemParams => NOk (Some (LSetting (StMemParams (t_mem_params t))))
  | KSetting IdStateSizes => NOk (Some (LSetting (StStateSizes (t_sizes t))))
  | KSetting (IdOther n) => NErr (NSource n)
  | KElse n => if n =? 0 then NOk (Some (LElse 0)) else NOk None
  end.
Lemma x_holds t : holds (x_with t) t.
Proof. unfold holds, has. repeat (split; [reflexivity|]). reflexivity. Qed.

Example C83_hyp :
  exists n b, holds (x_with x_settings) x_settings /\ load_from_snapshot (x_with x_settings) = NOk n
  /\ create_budget n = NOk b /\ sizes_ok (t_sizes x_settings) /\ average (t_sizes x_settings) 1500000
  /\ ok_fees (n_fees n) /\ products_fit ex_res (n_fees n) /\ c_rent_1kb (n_rent n) = 5500
  /\ compute_transaction_resource_fee ex_res (n_fees n) = (89505, 20)
  /\ d_limit (cpu b) = 100000000 /\ d_sh_limit (cpu b) = 1000000000.
Proof.
  do 2 eexists. split; [apply x_holds|]. split; [lazy; reflexivity|]. split; [lazy; reflexivity|].
  split; [repeat constructor; unfold u64_max; lia|]. split; [unfold average; cbn; lia|].
  split; [unfold ok_fees, rate, i64_max; cbn; lia|].
  split; [unfold products_fit, i64_max, u32_max; cbn; lia|].
  split; [lazy; reflexivity|]. split; [lazy; reflexivity|]. split; lazy; reflexivity.
Qed.

(* The conditions are needed.  A sum over 64 bits is capped, so a window of sizes
   whose average does not fit is accepted, at a lower average; and a negative
   limit of instructions is read as an enormous one. *)
Theorem C83_capped_average_refuted :
  exists s t n, holds s t /\ sizes_ok (t_sizes t) /\ load_from_snapshot s = NOk n
  /\ (forall q, average (t_sizes t) q -> i64_max < q).
Proof.
  exists (x_with {| t_compute := t_compute x_settings; t_ledger := t_ledger x_settings; t_write_1kb := 0;
    t_historical_1kb := 0; t_events_1kb := 0; t_tx_size_1kb := 0; t_archival := t_archival x_settings;
    t_cpu_params := []; t_mem_params := []; t_sizes := [u64_max; u64_max] |}).
  do 2 eexists. split; [apply x_holds|]. split; [repeat constructor; unfold u64_max; lia|].
  split; [lazy; reflexivity|]. unfold average. cbn [t_sizes sum fold_right length]. unfold u64_max, i64_max. intros q. lia.
Qed.
Print Assumptions C83_capped_average_refuted.
Theorem C83_negative_limit_refuted :
  exists s t n b, holds s t /\ load_from_snapshot s = NOk n /\ create_budget n = NOk b
  /\ co_max_instructions (t_compute t) < 0 /\ d_limit (cpu b) = u64_max.
Proof.
  exists (x_with {| t_compute := {| co_max_instructions := -1; co_fee_rate := 1; co_memory_limit := 1 |};
    t_ledger := t_ledger x_settings; t_write_1kb := 0; t_historical_1kb := 0; t_events_1kb := 0; t_tx_size_1kb := 0;
    t_archival := t_archival x_settings; t_cpu_params := []; t_mem_params := []; t_sizes := [1] |}).
  do 3 eexists. split; [apply x_holds|]. split; [lazy; reflexivity|]. split; [lazy; reflexivity|]. split; [cbn; lia|reflexivity].
Qed.
Print Assumptions C83_negative_limit_refuted.
