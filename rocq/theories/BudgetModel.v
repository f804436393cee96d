(* Model of the metering budget: soroban-env-host/src/budget.rs,
   budget/dimension.rs, budget/model.rs, budget/limits.rs, budget/wasmi_helper.rs,
   vm/fuel_refillable.rs and the linear-memory bookkeeping of host/frame.rs.

   Line numbers refer to /repo. Not modelled: RefCell borrow failures
   (try_borrow_*_or_err), the time tracker, tracing spans, test-only counters. *)
From Coq Require Import ZArith NArith Lia List Bool.
From Verif Require Import Prelude.
Import ListNotations.
Open Scope Z_scope.

(* ------------------------------------------------------------ cost models *)

(* budget/model.rs:88-92 MeteredCostComponent; lin_term is scaled by 2^7. *)
Record cost_model := { cm_const : Z; cm_lin : Z }.

(* budget/model.rs:24 COST_MODEL_LIN_TERM_SCALE_BITS, ScaledU64::unscale. *)
Definition scale_bits : Z := 7.
Definition unscale (x : Z) : Z := Z.shiftr x scale_bits.

(* budget/model.rs:117-133 HostCostModel::evaluate. *)
Definition evaluate (m : cost_model) (iterations : Z) (input : option Z) : Z :=
  let c := sat_u64 (cm_const m * iterations) in
  match input with
  | Some i =>
      if cm_lin m =? 0 then c
      else sat_u64 (c + unscale (sat_u64 (sat_u64 (cm_lin m * i) * iterations)))
  | None => c
  end.

(* budget/model.rs:94-106 TryFrom<&ContractCostParamEntry>; a parameter entry is
   the pair (const_term, linear_term) of signed 64-bit integers. *)
Definition model_of_param (p : Z * Z) : res cost_model :=
  if (fst p <? 0) || (snd p <? 0) then Err (ESys TContext CInvalidInput)
  else Ok {| cm_const := fst p; cm_lin := snd p |}.

(* -------------------------------------------------------------- dimensions *)

(* budget/dimension.rs:12-45 BudgetDimension. *)
Record dim := {
  d_models : list cost_model;
  d_limit : Z;
  d_net : Z;
  d_peak : Z;
  d_sh_limit : Z;
  d_sh_net : Z
}.

(* ContractCostType::variants().len() and the two types the host itself names. *)
Definition n_cost_types : nat := 86.
Definition WasmInsnExec : nat := 0.
Definition MemAlloc : nat := 1.

(* budget/dimension.rs:84-104 try_from_config: parameters beyond the known cost
   types are an error; missing ones keep the default (zero) model. *)
Fixpoint load_models (slots : nat) (ps : list (Z * Z)) : res (list cost_model) :=
  match ps, slots with
  | [], _ => Ok (repeat {| cm_const := 0; cm_lin := 0 |} slots)
  | _ :: _, O => Err (ESys TBudget CInternalError)
  | p :: ps, S n => let? m := model_of_param p in let? ms := load_models n ps in Ok (m :: ms)
  end.

Definition dim_of_config (ps : list (Z * Z)) (limit : Z) : res dim :=
  let? ms := load_models n_cost_types ps in
  Ok {| d_models := ms; d_limit := limit; d_net := 0; d_peak := 0;
        d_sh_limit := limit; d_sh_net := 0 |}.

(* budget/dimension.rs:106-118 get_cost_model. *)
Definition get_cost_model (d : dim) (ty : nat) : res cost_model :=
  opt_res (nth_error (d_models d) ty) (ESys TBudget CInternalError).

(* budget/dimension.rs:141-143 get_remaining. *)
Definition get_remaining (d : dim) : Z := sat_u64 (d_limit d - d_net d).

(* budget/dimension.rs:160-162 refund. *)
Definition refund (d : dim) (amount : Z) : dim :=
  {| d_models := d_models d; d_limit := d_limit d; d_net := sat_u64 (d_net d - amount);
     d_peak := d_peak d; d_sh_limit := d_sh_limit d; d_sh_net := d_sh_net d |}.

(* budget/dimension.rs:164-176 check_budget_limit. *)
Definition check_limit (d : dim) (shadow : bool) : res unit :=
  let over := if shadow then d_sh_limit d <? d_sh_net d else d_limit d <? d_net d in
  if over then Err (ESys TBudget CExceededLimit) else Ok tt.

(* budget/dimension.rs:184-210 charge: the new dimension and the amount. *)
Definition dim_charge (d : dim) (ty : nat) (it : Z) (input : option Z) (shadow : bool)
  : res (dim * Z) :=
  let? m := get_cost_model d ty in
  let a := evaluate m it input in
  Ok (if shadow
      then {| d_models := d_models d; d_limit := d_limit d; d_net := d_net d; d_peak := d_peak d;
              d_sh_limit := d_sh_limit d; d_sh_net := sat_u64 (d_sh_net d + a) |}
      else let n := sat_u64 (d_net d + a) in
           {| d_models := d_models d; d_limit := d_limit d; d_net := n;
              d_peak := Z.max (d_peak d) n; d_sh_limit := d_sh_limit d; d_sh_net := d_sh_net d |}, a).

(* budget/dimension.rs:212-222 get_cost. *)
Definition get_cost (d : dim) (ty : nat) (it : Z) (input : option Z) : res Z :=
  let? m := get_cost_model d ty in Ok (evaluate m it input).

(* ------------------------------------------------------------------ budget *)

(* budget.rs:26-32 CostTracker. *)
Record tracker := { t_iterations : Z; t_inputs : option Z; t_cpu : Z; t_mem : Z }.

(* budget.rs:186-195 BudgetImpl (fuel_costs not modelled), together with the
   linear_mem_charged field of each host context on the stack, innermost first
   (host/frame.rs:95-105). *)
Record budget := {
  cpu : dim;
  mem : dim;
  trackers : list tracker;
  meter_count : Z;
  in_shadow : bool;
  depth : Z;
  frames : list Z
}.

Definition set_dims b c m := {| cpu := c; mem := m; trackers := trackers b;
  meter_count := meter_count b; in_shadow := in_shadow b; depth := depth b; frames := frames b |}.
Definition set_track b t n := {| cpu := cpu b; mem := mem b; trackers := t;
  meter_count := n; in_shadow := in_shadow b; depth := depth b; frames := frames b |}.
Definition set_shadow b s := {| cpu := cpu b; mem := mem b; trackers := trackers b;
  meter_count := meter_count b; in_shadow := s; depth := depth b; frames := frames b |}.
Definition set_depth b d := {| cpu := cpu b; mem := mem b; trackers := trackers b;
  meter_count := meter_count b; in_shadow := in_shadow b; depth := d; frames := frames b |}.
Definition set_frames b f := {| cpu := cpu b; mem := mem b; trackers := trackers b;
  meter_count := meter_count b; in_shadow := in_shadow b; depth := depth b; frames := f |}.

(* budget.rs:46-152 BudgetTracker::default: which cost types carry an input. *)
Definition default_takes_input : list bool :=
  [false; true; true; true; false; false; true; true; true; false; true; true; true; false; true;
   false; false; false; false; false; false; false; true; true; true; true; true; true; true; true;
   true; true; true; false; true; true; true; false; true; true; true; true; true; false; false;
   false; false; false; false; false; false; false; false; false; false; true; false; true; false;
   false; true; false; true; true; false; false; false; false; true; false; false; false; false;
   false; false; false; false; false; true; true; false; false; false; false; true; false].

(* budget/limits.rs:41. *)
Definition default_host_depth_limit : Z := 100.

(* budget.rs:198-212, 1260-1272 try_from_configs (no context on the stack yet). *)
Definition budget_of_configs (cpu_limit mem_limit : Z) (cpu_params mem_params : list (Z * Z))
  : res budget :=
  let? c := dim_of_config cpu_params cpu_limit in
  let? m := dim_of_config mem_params mem_limit in
  Ok {| cpu := c; mem := m;
        trackers := map (fun b : bool => {| t_iterations := 0;
           t_inputs := if b then Some 0 else None; t_cpu := 0; t_mem := 0 |}) default_takes_input;
        meter_count := 0; in_shadow := false; depth := default_host_depth_limit; frames := [] |}.

Fixpoint upd {A} (l : list A) (n : nat) (x : A) : list A :=
  match l, n with
  | [], _ => []
  | _ :: l, O => x :: l
  | a :: l, S n => a :: upd l n x
  end.

(* budget.rs:235-284 BudgetImpl::charge. The &mut self state is returned with
   the result because earlier updates stay when a later step fails. *)
Definition charge (b : budget) (ty : nat) (it : Z) (input : option Z) : budget * res unit :=
  match nth_error (trackers b) ty with
  | None => (b, Err (ESys TBudget CInternalError))
  | Some t =>
      let t1 := {| t_iterations := sat_u64 (t_iterations t + it); t_inputs := t_inputs t;
                   t_cpu := t_cpu t; t_mem := t_mem t |} in
      let t2 :=
        if in_shadow b then Ok t
        else match t_inputs t, input with
             | None, None => Ok t1
             | Some x, Some i => Ok {| t_iterations := t_iterations t1;
                 t_inputs := Some (sat_u64 (x + sat_u64 (i * it)));
                 t_cpu := t_cpu t; t_mem := t_mem t |}
             | _, _ => Err (ESys TBudget CInternalError)
             end in
      let count := if in_shadow b then meter_count b else sat_u32 (meter_count b + 1) in
      match t2 with
      | Err e => (set_track b (upd (trackers b) ty t1) count, Err e)
      | Ok t2 =>
          let b0 := set_track b (upd (trackers b) ty t2) count in
          match dim_charge (cpu b) ty it input (in_shadow b) with
          | Err e => (b0, Err e)
          | Ok (c, ca) =>
              let t3 := if in_shadow b then t2
                        else {| t_iterations := t_iterations t2; t_inputs := t_inputs t2;
                                t_cpu := sat_u64 (t_cpu t2 + ca); t_mem := t_mem t2 |} in
              let b1 := set_track (set_dims b c (mem b)) (upd (trackers b) ty t3) count in
              match check_limit c (in_shadow b) with
              | Err e => (b1, Err e)
              | Ok _ =>
                  match dim_charge (mem b) ty it input (in_shadow b) with
                  | Err e => (b1, Err e)
                  | Ok (m, ma) =>
                      let t4 := if in_shadow b then t3
                                else {| t_iterations := t_iterations t3; t_inputs := t_inputs t3;
                                        t_cpu := t_cpu t3; t_mem := sat_u64 (t_mem t3 + ma) |} in
                      (set_track (set_dims b c m) (upd (trackers b) ty t4) count,
                       check_limit m (in_shadow b))
                  end
              end
          end
      end
  end.

(* budget.rs:286-303 get_wasmi_fuel_remaining. *)
Definition fuel_remaining (b : budget) : res Z :=
  let? m := get_cost_model (cpu b) WasmInsnExec in
  Ok (get_remaining (cpu b) / Z.max (cm_const m) 1).

(* ------------------------------------------------------------------ VM fuel *)

(* The wasmi store's fuel counters (external; only these two are used). *)
Record fuel := { fu_total : Z; fu_consumed : Z }.
Definition clean_fuel : fuel := {| fu_total := 0; fu_consumed := 0 |}.

(* vm/fuel_refillable.rs:22-33 add_fuel_to_vm. *)
Definition add_fuel_to_vm (b : budget) (f : fuel) : res fuel :=
  if (fu_consumed f =? 0) && (fu_total f =? 0)
  then let? x := fuel_remaining b in Ok {| fu_total := x; fu_consumed := 0 |}
  else Err (ESys TWasmVm CInternalError).

(* wasmi's fuel consumption (external): consuming more than is left traps and
   consumes nothing. *)
Definition burn (f : fuel) (delta : N) : fuel * bool :=
  if fu_consumed f + Z.of_N delta <=? fu_total f
  then ({| fu_total := fu_total f; fu_consumed := fu_consumed f + Z.of_N delta |}, true)
  else (f, false).

Fixpoint burn_all (f : fuel) (ds : list N) : fuel :=
  match ds with
  | [] => f
  | d :: ds => match burn f d with (f', true) => burn_all f' ds | (f', false) => f' end
  end.

(* vm/fuel_refillable.rs:35-41 return_fuel_to_host. *)
Definition return_fuel_to_host (b : budget) (f : fuel) : budget * res fuel :=
  let (b', r) := charge b WasmInsnExec (fu_consumed f) None in
  (b', rmap (fun _ => clean_fuel) r).

(* ------------------------------------------------------------------ depth *)

(* budget/limits.rs:83-94 enter. *)
Definition enter (b : budget) : res budget :=
  match chk_u32 (depth b - 1) with
  | Some d => Ok (set_depth b d)
  | None => Err (ESys TContext CExceededLimit)
  end.

(* budget/limits.rs:98-103 leave. *)
Definition leave (b : budget) : res budget :=
  match chk_u32 (depth b + 1) with
  | Some d => Ok (set_depth b d)
  | None => Err (ESys TContext CInternalError)
  end.

(* -------------------------------------------------- linear memory of frames *)

Definition top (b : budget) : Z := hd 0 (frames b).

(* host/frame.rs:221-227 charge_current_frame_linear_mem. *)
Definition charge_frame (b : budget) (amount : Z) : budget :=
  match frames b with
  | [] => b
  | f :: fs => set_frames b (sat_u64 (f + amount) :: fs)
  end.

(* host/frame.rs:206-216 reclaim_frame_linear_mem_since. *)
Definition reclaim (b : budget) (mark : Z) : budget * Z :=
  match frames b with
  | [] => (b, 0)
  | f :: fs => (set_frames b (mark :: fs), sat_u64 (f - mark))
  end.

(* budget/wasmi_helper.rs:27-83 ResourceLimiter::memory_growing; [false] stands
   for MemoryError::OutOfBoundsGrowth. *)
Definition memory_growing (b : budget) (current desired : Z) (maximum : option Z)
  : budget * bool :=
  let delta := sat_u64 (desired - current) in
  let allow := if get_remaining (mem b) <? delta then false
               else match maximum with Some m => desired <=? m | None => true end in
  if allow then
    match charge b MemAlloc 1 (Some delta) with
    | (b1, Err _) => (b1, false)
    | (b1, Ok _) =>
        if in_shadow b1 then (b1, true)
        else match get_cost (mem b1) MemAlloc 1 (Some delta) with
             | Err _ => (b1, false)
             | Ok charged => (charge_frame b1 charged, true)
             end
    end
  else (b, false).

(* host/frame.rs:277-289, tail of pop_context: drop the frame and return the
   linear memory it was charged. *)
Definition pop_frame (b : budget) : budget :=
  match frames b with
  | [] => b
  | f :: fs =>
      let b1 := set_frames b fs in
      if f =? 0 then b1 else set_dims b1 (cpu b1) (refund (mem b1) f)
  end.

(* ---------------------------------------------------------------- programs *)

(* Arbitrary host activity as seen by the budget. Continuations receive every
   result, so a program may react to failures in any way; this covers both code
   that propagates errors and code that swallows them. *)
Inductive prog :=
| Ret (r : res unit)
  (* Budget::charge / bulk_charge, budget.rs:1305-1323 *)
| Charge (ty : nat) (it : N) (input : option N) (k : res unit -> prog)
  (* cpu consumed, peak memory, cpu remaining, memory remaining: budget.rs:1410-1436 *)
| Observe (k : Z -> Z -> Z -> Z -> prog)
  (* Budget::with_shadow_mode, budget.rs:1343-1365: nothing comes back *)
| Shadow (body k : prog)
  (* DepthLimiter::with_limited_depth, budget/limits.rs:71-80 *)
| Nested (body : prog) (k : res unit -> prog)
  (* a memory growth requested by the running VM *)
| Grow (current desired : N) (maximum : option N) (k : bool -> prog)
  (* a stretch of VM execution between two host calls *)
| Wasm (burns : list N) (k : res unit -> prog)
  (* host/frame.rs:902-979 call_contract_fn and 466-641 with_frame: instantiate
     the VM, push its context (which itself charges), run it, pop *)
| Invoke (inst pushing body : prog) (k : res unit -> prog).

(* What happened, for stating properties: each metered (non-shadow) charge, with
   whether it was VM linear memory attributed to a frame, the amount by which the
   net memory rose, and its outcome; and linear memory that was attributed to a
   VM whose frame could not be pushed. *)
Inductive entry :=
| LCharge (linear : bool) (ty : nat) (it : Z) (input : option Z) (rose : Z) (r : res unit)
| LLost (amount : Z).

Definition lg (b b' : budget) (linear : bool) (ty : nat) (it : Z) (input : option Z)
  (r : res unit) : list entry :=
  if in_shadow b then []
  else [LCharge linear ty it input (d_net (mem b') - d_net (mem b)) r].

Definition on (o : option N) : option Z := option_map Z.of_N o.

Fixpoint run (p : prog) (b : budget) : budget * list entry * res unit :=
  match p with
  | Ret r => (b, [], r)
  | Charge ty it input k =>
      let (b1, r) := charge b ty (Z.of_N it) (on input) in
      match run (k r) b1 with
      | (b2, l, r2) => (b2, lg b b1 false ty (Z.of_N it) (on input) r ++ l, r2)
      end
  | Observe k =>
      run (k (d_net (cpu b)) (d_peak (mem b)) (get_remaining (cpu b)) (get_remaining (mem b))) b
  | Shadow body k =>
      let prev := in_shadow b in
      let b1 := set_shadow b true in
      let b2 :=
        match check_limit (cpu b1) true, check_limit (mem b1) true with
        | Ok _, Ok _ => fst (fst (run body b1))
        | _, _ => b1
        end in
      run k (set_shadow b2 prev)
  | Nested body k =>
      match enter b with
      | Err e => run (k (Err e)) b
      | Ok b1 =>
          match run body b1 with
          | (b2, l, r) =>
              match leave b2 with
              | Err e =>
                  match run (k (Err e)) b2 with (b3, l3, r3) => (b3, l ++ l3, r3) end
              | Ok b3 =>
                  match run (k r) b3 with (b4, l4, r4) => (b4, l ++ l4, r4) end
              end
          end
      end
  | Grow cur des mx k =>
      let delta := sat_u64 (Z.of_N des - Z.of_N cur) in
      let (b1, ok) := memory_growing b (Z.of_N cur) (Z.of_N des) (on mx) in
      let tried := negb (get_remaining (mem b) <? delta)
                   && match mx with Some m => (des <=? m)%N | None => true end in
      match run (k ok) b1 with
      | (b2, l, r) =>
          (b2, (if tried
                then lg b b1 (ok && match frames b with [] => false | _ => true end)
                       MemAlloc 1 (Some delta)
                       (if ok then Ok tt else Err (ESys TBudget CExceededLimit))
                else []) ++ l, r)
      end
  | Wasm burns k =>
      match add_fuel_to_vm b clean_fuel with
      | Err e => run (k (Err e)) b
      | Ok f =>
          let f' := burn_all f burns in
          let (b1, r) := return_fuel_to_host b f' in
          match run (k (rmap (fun _ => tt) r)) b1 with
          | (b2, l, r2) =>
              (b2, lg b b1 false WasmInsnExec (fu_consumed f') None (rmap (fun _ => tt) r) ++ l, r2)
          end
      end
  | Invoke inst pushing body k =>
      let mark := top b in
      match run inst b with
      | (b1, l1, Err e) =>
          match run (k (Err e)) b1 with (b2, l2, r2) => (b2, l1 ++ l2, r2) end
      | (b1, l1, Ok _) =>
          let (b2, charged) := reclaim b1 mark in
          let '(b3, l3, r3) :=
            if default_host_depth_limit <=? Z.of_nat (length (frames b2))
            then (b2, [], Err (ESys TContext CExceededLimit))
            else run pushing b2 in
          match r3 with
          | Err e =>
              match run (k (Err e)) b3 with
              | (b4, l4, r4) => (b4, l1 ++ l3 ++ LLost charged :: l4, r4)
              end
          | Ok _ =>
              match run body (set_frames b3 (charged :: frames b3)) with
              | (b4, l4, r4) =>
                  match run (k r4) (pop_frame b4) with
                  | (b5, l5, r5) => (b5, l1 ++ l3 ++ l4 ++ l5, r5)
                  end
              end
          end
      end
  end.
