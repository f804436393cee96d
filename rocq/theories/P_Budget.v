(* Properties C28 (limits), C29 (shadow work), C30 (fuel), C31 (depth),
   C53 (linear memory of frames). *)
From Coq Require Import ZArith NArith Lia List Bool.
From Verif Require Import Prelude BudgetModel BudgetSpec BudgetProofs BudgetProofs2.
Import ListNotations.
Open Scope Z_scope.

(* A concrete configuration: cpu limit 1000, memory limit 5000; WasmInsnExec
   costs 4 cpu, MemAlloc 10 + input/2 cpu and input bytes, MemCpy 3 cpu. *)
Definition ex_cpu_params : list (Z * Z) := [(4, 0); (10, 64); (3, 0)].
Definition ex_mem_params : list (Z * Z) := [(0, 0); (0, 128); (7, 0)].
Definition ex_budget : budget :=
  match budget_of_configs 1000 5000 ex_cpu_params ex_mem_params with
  | Ok b => b
  | Err _ => {| cpu := {| d_models := []; d_limit := 0; d_net := 0; d_peak := 0; d_sh_limit := 0; d_sh_net := 0 |};
                mem := {| d_models := []; d_limit := 0; d_net := 0; d_peak := 0; d_sh_limit := 0; d_sh_net := 0 |};
                trackers := []; meter_count := 0; in_shadow := false; depth := 0; frames := [] |}
  end.

Example ex_fresh : fresh ex_budget.
Proof.
  exists 1000, 5000, ex_cpu_params, ex_mem_params.
  repeat split; try (unfold in_u64, u64_max; lia); try reflexivity.
  repeat constructor; cbv; intuition congruence.
Qed.

(* A call tree: a contract call whose VM grows its memory twice, does diagnostic
   work, runs some wasm and copies memory, inside a caller that is itself a frame. *)
Definition ex_prog : prog :=
  Invoke (Ret (Ok tt)) (Charge 2 1 (Some 0%N) Ret)
    (Invoke (Grow 0 100 (Some 1000%N) (fun _ => Ret (Ok tt))) (Ret (Ok tt))
       (Grow 100 300 None (fun _ =>
        Shadow (Charge 1 1 (Some 900%N) Ret)
         (Nested (Wasm [5%N; 20%N] Ret) (fun _ => Charge 2 2 (Some 1%N) Ret)))) Ret)
    Ret.

(* ---------------------------------------------------------------- C28 *)

(* From a freshly configured budget, whatever the host does (charging, growing
   VM memory, calling contracts, diagnostic work, reacting to results in any
   way): if no metered charge failed, consumption is within both limits. *)
Theorem C28_within_limits :
  forall p b b' l r, fresh b -> run p b = (b', l, r) -> all_succeeded l ->
  d_net (cpu b') <= d_limit (cpu b)
  /\ d_net (mem b') <= d_peak (mem b')
  /\ d_peak (mem b') <= d_limit (mem b)
  /\ d_net (cpu b') = Z.min u64_max (total (sat_price (d_models (cpu b))) l)
  /\ d_limit (cpu b') = d_limit (cpu b) /\ d_limit (mem b') = d_limit (mem b).
Proof. exact run_within_limits. Qed.
Print Assumptions C28_within_limits.

(* With any realistic limit the consumed cpu is the exact sum of the configured
   prices: saturation never hides a cost. *)
Theorem C28_consumption_is_exact :
  forall p b b' l r, fresh b -> run p b = (b', l, r) -> all_succeeded l ->
  d_limit (cpu b) < 2 ^ 57 - 1 ->
  d_net (cpu b') = total (price (d_models (cpu b))) l.
Proof. exact run_exact_total. Qed.
Print Assumptions C28_consumption_is_exact.

(* A charge succeeds exactly when both new totals are within their limits, and
   otherwise fails with (Budget, ExceededLimit). *)
Theorem C28_charge_outcome :
  forall b ty it i, ok_budget b -> in_shadow b = false -> input_shape b ty i ->
  let fits d := Z.min u64_max (d_net d + sat_price (d_models d) ty it i) <= d_limit d in
  (snd (charge b ty it i) = Ok tt <-> fits (cpu b) /\ fits (mem b))
  /\ (~ (fits (cpu b) /\ fits (mem b)) ->
      snd (charge b ty it i) = Err (ESys TBudget CExceededLimit)).
Proof. exact charge_outcome. Qed.
Print Assumptions C28_charge_outcome.

(* The saturating price is the exact price unless it is astronomically large,
   and never more than it. *)
Theorem C28_price_exact :
  forall m it i, in_u64 (cm_const m) -> in_u64 (cm_lin m) -> 0 <= it ->
  match i with Some i => 0 <= i | None => True end ->
  evaluate m it i <= exact_cost m it i
  /\ (evaluate m it i < 2 ^ 57 - 1 -> evaluate m it i = exact_cost m it i).
Proof. exact evaluate_exact. Qed.
Print Assumptions C28_price_exact.

(* Consumed cpu and the memory peak never decrease, whatever happens. *)
Theorem C28_never_decreases :
  forall p b b' l r, ok_budget b -> in_shadow b = false -> run p b = (b', l, r) ->
  d_net (cpu b) <= d_net (cpu b') /\ d_peak (cpu b) <= d_peak (cpu b')
  /\ d_peak (mem b) <= d_peak (mem b') /\ d_net (mem b') <= d_peak (mem b')
  /\ d_limit (cpu b') = d_limit (cpu b) /\ d_limit (mem b') = d_limit (mem b).
Proof. exact run_monotone. Qed.
Print Assumptions C28_never_decreases.

Theorem C28_charge_never_lowers :
  forall b ty it i, ok_budget b ->
  d_net (mem b) <= d_net (mem (fst (charge b ty it i)))
  /\ d_net (cpu b) <= d_net (cpu (fst (charge b ty it i))).
Proof. exact charge_never_lowers. Qed.
Print Assumptions C28_charge_never_lowers.

(* Once the cpu limit is exceeded every later charge fails. *)
Theorem C28_exceeded_stays_exceeded :
  forall b ty it i, ok_budget b -> in_shadow b = false -> input_shape b ty i -> 0 <= it ->
  d_limit (cpu b) < d_net (cpu b) ->
  snd (charge b ty it i) = Err (ESys TBudget CExceededLimit).
Proof. exact exceeded_sticky. Qed.
Print Assumptions C28_exceeded_stays_exceeded.

Example C28_hyp :
  exists b' l, run ex_prog ex_budget = (b', l, Ok tt) /\ all_succeeded l
  /\ d_net (cpu b') = 279 /\ d_net (mem b') = 21 /\ d_peak (mem b') = 321
  /\ length l = 5%nat /\ d_sh_net (mem b') = 900.
Proof.
  eexists _, _. split; [vm_compute; reflexivity|].
  split; [repeat constructor|]. vm_compute. auto.
Qed.

Example C28_hyp_exceeded :
  snd (charge ex_budget 1 1 (Some 2000)) = Err (ESys TBudget CExceededLimit)
  /\ input_shape ex_budget 1 (Some 2000).
Proof. split; [reflexivity|]. vm_compute. split; discriminate. Qed.

(* ---------------------------------------------------------------- C29 *)

(* A host with diagnostics enabled and one without agree on everything metered
   code and the embedder can see: results, each metered charge, final state. *)
Theorem C29_shadow_work_is_invisible :
  forall p b b1 l1 r1 b2 l2 r2, ok_budget b -> in_shadow b = false ->
  run p b = (b1, l1, r1) -> run (without_shadow p) b = (b2, l2, r2) ->
  same_metered b1 b2 /\ l1 = l2 /\ r1 = r2.
Proof.
  intros p b b1 l1 r1 b2 l2 r2 OK E H1 H2.
  pose proof (erase p b b OK E (sm_refl b)) as K. rewrite H1, H2 in K. exact K.
Qed.
Print Assumptions C29_shadow_work_is_invisible.

(* Work done entirely in shadow mode changes nothing metered. *)
Theorem C29_shadow_changes_nothing_metered :
  forall p b, ok_budget b -> in_shadow b = true -> same_metered b (fst (fst (run p b))).
Proof. exact run_shadow. Qed.
Print Assumptions C29_shadow_changes_nothing_metered.

Example C29_hyp : ok_budget ex_budget /\ in_shadow ex_budget = false
  /\ fst (fst (run ex_prog ex_budget)) <> fst (fst (run (without_shadow ex_prog) ex_budget))
  /\ ok_budget (set_shadow ex_budget true)
  /\ fst (fst (run ex_prog (set_shadow ex_budget true))) <> set_shadow ex_budget true.
Proof.
  assert (OK := proj1 (fresh_ok _ ex_fresh)).
  split; [exact OK|]. split; [reflexivity|]. split; [vm_compute; discriminate|].
  split; [apply ok_set_shadow; exact OK|]. vm_compute; discriminate.
Qed.

(* ---------------------------------------------------------------- C30 *)

(* The fuel given to the VM, priced in cpu instructions, is at most what remains
   and falls short of it by less than the price of one unit. *)
Theorem C30_fuel_matches_remaining_budget :
  forall b f m, ok_budget b -> nth_error (d_models (cpu b)) WasmInsnExec = Some m ->
  add_fuel_to_vm b clean_fuel = Ok f ->
  let price := Z.max (cm_const m) 1 in
  fu_total f * price <= get_remaining (cpu b) < (fu_total f + 1) * price.
Proof. exact fuel_bounds. Qed.
Print Assumptions C30_fuel_matches_remaining_budget.

(* However the VM spends that fuel (including running out), settling it charges
   exactly what it used and stays within the limit. wasm instructions are free of
   memory cost in every network configuration; that is the only assumption on
   the cost models. *)
Theorem C30_settling_fuel_never_exceeds :
  forall b f ds mc mm,
  ok_budget b -> in_shadow b = false -> input_shape b WasmInsnExec None ->
  d_net (cpu b) <= d_limit (cpu b) -> d_net (mem b) <= d_limit (mem b) ->
  nth_error (d_models (cpu b)) WasmInsnExec = Some mc ->
  nth_error (d_models (mem b)) WasmInsnExec = Some mm -> cm_const mm = 0 ->
  add_fuel_to_vm b clean_fuel = Ok f ->
  let used := fu_consumed (burn_all f ds) in
  let (b', r) := return_fuel_to_host b (burn_all f ds) in
  r = Ok clean_fuel
  /\ 0 <= used <= fu_total f
  /\ d_net (cpu b') = d_net (cpu b) + cm_const mc * used
  /\ d_net (cpu b') <= d_limit (cpu b) /\ d_net (mem b') = d_net (mem b).
Proof. exact settle_ok. Qed.
Print Assumptions C30_settling_fuel_never_exceeds.

Theorem C30_no_fuel_when_exhausted :
  forall b f, ok_budget b -> d_limit (cpu b) <= d_net (cpu b) ->
  add_fuel_to_vm b clean_fuel = Ok f -> fu_total f = 0.
Proof. exact no_fuel_when_over. Qed.
Print Assumptions C30_no_fuel_when_exhausted.

Definition ex_spent : budget := fst (charge ex_budget 1 1 (Some 101)).
Example C30_hyp :
  ok_budget ex_spent /\ in_shadow ex_spent = false /\ input_shape ex_spent WasmInsnExec None
  /\ d_net (cpu ex_spent) = 60 /\ d_net (mem ex_spent) = 101
  /\ add_fuel_to_vm ex_spent clean_fuel = Ok {| fu_total := 235; fu_consumed := 0 |}
  /\ fu_consumed (burn_all {| fu_total := 235; fu_consumed := 0 |} [100; 130; 6; 1]%N) = 230.
Proof.
  split; [|repeat split; reflexivity].
  exact (proj1 (charge_good ex_budget 1 1 (Some 101) (proj1 (fresh_ok _ ex_fresh)) eq_refl)).
Qed.

(* ---------------------------------------------------------------- C31 *)

(* Whatever is run, with whatever failures at whatever level, in normal or
   shadow mode, the depth allowance afterwards is what it was before. *)
Theorem C31_depth_restored :
  forall p b b' l r, ok_budget b -> run p b = (b', l, r) -> depth b' = depth b.
Proof. exact run_depth. Qed.
Print Assumptions C31_depth_restored.

(* Nesting deeper than the allowance fails with (Context, ExceededLimit), without
   running the innermost work and without changing anything. *)
Theorem C31_too_deep_fails :
  forall p n b, ok_budget b -> depth b < Z.of_nat n ->
  run (nest n p) b = (b, [], Err (ESys TContext CExceededLimit)).
Proof. exact nest_too_deep. Qed.
Print Assumptions C31_too_deep_fails.

(* Nesting within the allowance runs the innermost work with what is left. *)
Theorem C31_within_depth_runs :
  forall p n b, ok_budget b -> Z.of_nat n <= depth b ->
  run (nest n p) b =
  (set_depth (fst (fst (run p (set_depth b (depth b - Z.of_nat n))))) (depth b),
   snd (fst (run p (set_depth b (depth b - Z.of_nat n)))),
   snd (run p (set_depth b (depth b - Z.of_nat n)))).
Proof. exact nest_fits. Qed.
Print Assumptions C31_within_depth_runs.

Example C31_hyp :
  ok_budget ex_budget /\ depth ex_budget = 100
  /\ snd (run (nest 100 (Charge 2 1 (Some 0%N) Ret)) ex_budget) = Ok tt
  /\ snd (run (nest 101 (Charge 2 1 (Some 0%N) Ret)) ex_budget) = Err (ESys TContext CExceededLimit).
Proof.
  split; [exact (proj1 (fresh_ok _ ex_fresh))|]. repeat split; vm_compute; reflexivity.
Qed.

(* ---------------------------------------------------------------- C53 *)

(* Net memory, less what live frames own, moves only by charges that are not VM
   linear memory - and by linear memory whose VM never got its frame. Frames
   below the current one are untouched and the current one never shrinks. *)
Theorem C53_linear_memory_accounting :
  forall p b b' l r, ok_budget b -> in_shadow b = false -> run p b = (b', l, r) ->
  d_net (mem b') - sum (frames b') = d_net (mem b) - sum (frames b) + other_memory l + lost l
  /\ length (frames b') = length (frames b) /\ tl (frames b') = tl (frames b)
  /\ top b <= top b'.
Proof. exact linear_memory. Qed.
Print Assumptions C53_linear_memory_accounting.

(* A whole top-level invocation whose frames could all be pushed gives back all
   VM linear memory, whether it succeeded or failed. *)
Theorem C53_invocation_returns_all_linear_memory :
  forall p b b' l r, ok_budget b -> in_shadow b = false -> frames b = [] ->
  run p b = (b', l, r) -> lost l = 0 ->
  frames b' = [] /\ d_net (mem b') = d_net (mem b) + other_memory l.
Proof.
  intros p b b' l r OK E F H L. destruct (linear_memory _ _ _ _ _ OK E H) as (A & B & _).
  rewrite F in *. destruct (frames b'); [|discriminate]. simpl in *. split; [reflexivity|lia].
Qed.
Print Assumptions C53_invocation_returns_all_linear_memory.

(* Finding: a VM instantiated when the context stack is already full has its
   linear memory removed from the caller's books before the push fails, so it is
   never given back, although the failure is one a contract may catch. *)
Theorem C53_memory_lost_when_stack_full_refuted :
  exists p b b' l r, ok_budget b /\ in_shadow b = false
  /\ run p b = (b', l, r) /\ r = Err (ESys TContext CExceededLimit)
  /\ frames b' = frames b /\ other_memory l = 0 /\ d_net (mem b) + 100 = d_net (mem b').
Proof.
  exists (Invoke (Grow 0 100 None (fun _ => Ret (Ok tt))) (Ret (Ok tt)) (Ret (Ok tt)) Ret),
         (set_frames ex_budget (repeat 0 100)).
  eexists _, _, _. split.
  - pose proof (proj1 (fresh_ok _ ex_fresh)) as (O1&O2&O3&O4&O5&O6&O7).
    split; [exact O1|]. split; [exact O2|]. split; [exact O3|]. split; [exact O4|].
    split; [apply Forall_forall; intros x Hx; apply repeat_spec in Hx; lia|].
    split; [vm_compute; discriminate|exact O7].
  - split; [reflexivity|]. split; [vm_compute; reflexivity|]. vm_compute. repeat split; reflexivity.
Qed.
Print Assumptions C53_memory_lost_when_stack_full_refuted.

Example C53_hyp :
  exists b' l, run ex_prog ex_budget = (b', l, Ok tt) /\ lost l = 0 /\ other_memory l = 21
  /\ frames ex_budget = [] /\ d_peak (mem b') = 321.
Proof. eexists _, _. split; [vm_compute; reflexivity|]. vm_compute. auto. Qed.
