(* What the budget's itemised tallies should say of a run (C87): sums over the metered charges
   of the run, by cost type. *)
From Coq Require Import ZArith List Bool.
From Verif Require Import Prelude BudgetModel BudgetSpec.
Import ListNotations.
Open Scope Z_scope.

(* a quantity of the charges of one cost type only *)
Definition of_type (ty : nat) (f : nat -> Z -> option Z -> Z) : nat -> Z -> option Z -> Z :=
  fun t it i => if Nat.eqb t ty then f t it i else 0.

Definition iterations : nat -> Z -> option Z -> Z := fun _ it _ => it.
Definition inputs : nat -> Z -> option Z -> Z :=
  fun _ it i => match i with Some i => i * it | None => 0 end.
Definition once : nat -> Z -> option Z -> Z := fun _ _ _ => 1.
