(* C87: the itemised tallies of the budget account for all that was consumed. *)
From Coq Require Import ZArith NArith Lia List Bool.
From Verif Require Import Prelude BudgetModel BudgetSpec BudgetProofs2 TallySpec TallyProofs P_Budget.
Import ListNotations.
Open Scope Z_scope.

(* Whatever the host does from a freshly configured budget, if no metered charge failed: the
   number of charges is counted, and the record of each cost type holds the sums, over the
   charges of that type, of iterations, of inputs times iterations, and of the prices in cpu and
   memory.  (Each sum stops at the largest value its field can hold.) *)
Theorem C87_tallies_exact :
  forall p b b' l r, fresh b -> run p b = (b', l, r) -> all_succeeded l ->
  meter_count b' = Z.min u32_max (total once l)
  /\ length (trackers b') = n_cost_types
  /\ forall ty t, nth_error (trackers b') ty = Some t ->
     t_iterations t = Z.min u64_max (total (of_type ty iterations) l)
     /\ match t_inputs t with Some x => x | None => 0 end
        = Z.min u64_max (total (of_type ty inputs) l)
     /\ t_cpu t = Z.min u64_max (total (of_type ty (sat_price (d_models (cpu b)))) l)
     /\ t_mem t = Z.min u64_max (total (of_type ty (sat_price (d_models (mem b)))) l).
Proof. exact tallies_exact. Qed.
Print Assumptions C87_tallies_exact.

(* The cpu figures of the tallies add up to the cpu consumed: nothing is charged unrecorded. *)
Theorem C87_tallies_add_up :
  forall p b b' l r, fresh b -> run p b = (b', l, r) -> all_succeeded l ->
  d_limit (cpu b) < u64_max ->
  sum (map t_cpu (trackers b')) = d_net (cpu b').
Proof. exact tallies_add_up. Qed.
Print Assumptions C87_tallies_add_up.

(* The run of C28's example: five charges of three types, cpu 279 in all. *)
Example C87_hyp :
  exists b' l, run ex_prog ex_budget = (b', l, Ok tt) /\ all_succeeded l
  /\ meter_count b' = 5 /\ sum (map t_cpu (trackers b')) = 279
  /\ d_net (cpu b') = 279 /\ d_limit (cpu ex_budget) = 1000
  /\ option_map t_iterations (nth_error (trackers b') 0) = Some (total (of_type 0 iterations) l).
Proof.
  eexists _, _. split; [vm_compute; reflexivity|].
  split; [repeat constructor|]. vm_compute. repeat split; reflexivity.
Qed.
