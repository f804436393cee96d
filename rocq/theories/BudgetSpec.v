(* Vocabulary for the budget properties C28-C31 and C53, independent of how the
   budget is implemented. *)
From Coq Require Import ZArith NArith Lia List Bool.
From Verif Require Import Prelude BudgetModel.
Import ListNotations.
Open Scope Z_scope.

(* The configured price of one charge, in exact integers: a constant part per
   iteration and a part proportional to the input, in 128ths. *)
Definition exact_cost (m : cost_model) (it : Z) (input : option Z) : Z :=
  cm_const m * it + match input with Some i => cm_lin m * i * it / 128 | None => 0 end.

(* Price of a charge under a table of cost models. *)
Definition price (ms : list cost_model) (ty : nat) (it : Z) (input : option Z) : Z :=
  match nth_error ms ty with Some m => exact_cost m it input | None => 0 end.

(* The same price, as computed with 64-bit saturating arithmetic. *)
Definition sat_price (ms : list cost_model) (ty : nat) (it : Z) (input : option Z) : Z :=
  match nth_error ms ty with Some m => evaluate m it input | None => 0 end.

(* Sum of a quantity over the metered charges of a run. *)
Fixpoint total (f : nat -> Z -> option Z -> Z) (l : list entry) : Z :=
  match l with
  | [] => 0
  | LCharge _ ty it i _ _ :: l => f ty it i + total f l
  | LLost _ :: l => total f l
  end.

(* Every metered charge of the run succeeded. *)
Definition all_succeeded (l : list entry) : Prop :=
  Forall (fun e => match e with LCharge _ _ _ _ _ r => r = Ok tt | LLost _ => True end) l.

(* Net memory added by charges other than VM linear memory. *)
Fixpoint other_memory (l : list entry) : Z :=
  match l with
  | [] => 0
  | LCharge false _ _ _ rose _ :: l => rose + other_memory l
  | _ :: l => other_memory l
  end.

(* VM linear memory whose frame could not be pushed. *)
Fixpoint lost (l : list entry) : Z :=
  match l with
  | [] => 0
  | LLost a :: l => a + lost l
  | _ :: l => lost l
  end.

Fixpoint sum (l : list Z) : Z := match l with [] => 0 | x :: l => x + sum l end.

(* A budget any program can be in. *)
Definition ok_dim (d : dim) : Prop :=
  length (d_models d) = n_cost_types
  /\ Forall (fun m => in_u64 (cm_const m) /\ in_u64 (cm_lin m)) (d_models d)
  /\ in_u64 (d_limit d) /\ in_u64 (d_net d) /\ in_u64 (d_peak d)
  /\ d_net d <= d_peak d.

Definition ok_budget (b : budget) : Prop :=
  ok_dim (cpu b) /\ ok_dim (mem b)
  /\ length (trackers b) = n_cost_types
  /\ in_u32 (depth b)
  /\ Forall (Z.le 0) (frames b) /\ sum (frames b) <= d_net (mem b)
  /\ d_limit (mem b) < u64_max.

(* A freshly configured budget. *)
Definition fresh (b : budget) : Prop :=
  exists cl ml cp mp, in_u64 cl /\ 0 <= ml < u64_max
  /\ Forall (fun p => in_i64 (fst p) /\ in_i64 (snd p)) (cp ++ mp)
  /\ budget_of_configs cl ml cp mp = Ok b.

(* What metered code, and the embedder, can see of a budget: everything except
   the shadow counters. *)
Definition same_metered (a b : budget) : Prop :=
  d_models (cpu a) = d_models (cpu b) /\ d_models (mem a) = d_models (mem b)
  /\ d_limit (cpu a) = d_limit (cpu b) /\ d_limit (mem a) = d_limit (mem b)
  /\ d_net (cpu a) = d_net (cpu b) /\ d_net (mem a) = d_net (mem b)
  /\ d_peak (cpu a) = d_peak (cpu b) /\ d_peak (mem a) = d_peak (mem b)
  /\ trackers a = trackers b /\ meter_count a = meter_count b
  /\ in_shadow a = in_shadow b /\ depth a = depth b /\ frames a = frames b.

(* The same program on a host without diagnostics: no shadow blocks at all. *)
Fixpoint without_shadow (p : prog) : prog :=
  match p with
  | Ret r => Ret r
  | Charge ty it i k => Charge ty it i (fun r => without_shadow (k r))
  | Observe k => Observe (fun a b c d => without_shadow (k a b c d))
  | Shadow _ k => without_shadow k
  | Nested p k => Nested (without_shadow p) (fun r => without_shadow (k r))
  | Grow c d m k => Grow c d m (fun r => without_shadow (k r))
  | Wasm bs k => Wasm bs (fun r => without_shadow (k r))
  | Invoke i p b k => Invoke (without_shadow i) (without_shadow p) (without_shadow b)
                        (fun r => without_shadow (k r))
  end.

(* n levels of depth-limited recursion around p. *)
Fixpoint nest (n : nat) (p : prog) : prog :=
  match n with O => p | S n => Nested (nest n p) Ret end.

(* Cost type ty is charged with an input exactly when the tracker expects one. *)
Definition input_shape (b : budget) (ty : nat) (input : option Z) : Prop :=
  match nth_error (trackers b) ty with
  | Some t => (t_inputs t = None <-> input = None)
  | None => False
  end.

Definition input_in_u64 (input : option Z) : Prop :=
  match input with Some i => in_u64 i | None => True end.
