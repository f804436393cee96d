(* C67: scalar functions compute in the prime field of the group's order. *)
From Coq Require Import ZArith Znumtheory Lia List Bool.
From Verif Require Import Prelude FieldModel FieldSpec FieldCert FieldProofs.
Import ListNotations.
Open Scope Z_scope.
Ltac Zify.zify_post_hook ::= idtac.

(* Addition, subtraction, multiplication and powers never fail and return the
   representation of the exact result reduced modulo the order, for every pair
   of U256 values, reduced or not. *)
Theorem C67_arithmetic_is_modular : forall c l r n,
  u256_ok l -> u256_ok r -> 0 <= n < 2 ^ 64 ->
  yields (fr_add c l r) ((value l + value r) mod order c)
  /\ yields (fr_sub c l r) ((value l - value r) mod order c)
  /\ yields (fr_mul c l r) ((value l * value r) mod order c)
  /\ yields (fr_pow c l n) (value l ^ n mod order c).
Proof.
  intros c l r n Hl Hr Hn.
  refine (conj _ (conj _ (conj _ _))).
  - apply fr_add_spec; assumption.
  - apply fr_sub_spec; assumption.
  - apply fr_mul_spec; assumption.
  - apply fr_pow_spec; [assumption|lia].
Qed.
Print Assumptions C67_arithmetic_is_modular.

(* Inversion fails on the multiples of the order, and only there; otherwise it
   returns the only reduced number whose product with the input is one. *)
Theorem C67_inverse : forall c l,
  u256_ok l ->
  (value l mod order c = 0 -> fr_inv c l = Err (ESys TCrypto CInvalidInput))
  /\ (value l mod order c <> 0 ->
      exists x, yields (fr_inv c l) x /\ 0 <= x < order c
                /\ (value l * x) mod order c = 1
                /\ forall y, 0 <= y < order c -> (value l * y) mod order c = 1 -> y = x).
Proof.
  intros c l Hl. split.
  - apply fr_inv_zero. assumption.
  - intros H. destruct (fr_inv_nonzero c l Hl H) as (x & Hy & Hx & E).
    exists x. refine (conj Hy (conj Hx (conj E _))).
    intros y Hyr Ey. assert (Hr := order_range c).
    apply (inverse_unique (order c) (value l)); assumption || lia.
Qed.
Print Assumptions C67_inverse.

(* The moduli are primes: the scalars do form a field. *)
Theorem C67_orders_are_prime : prime (order Bls) /\ prime (order Bn).
Proof. split; apply order_prime. Qed.
Print Assumptions C67_orders_are_prime.

(* Only the residue of an input matters: congruent inputs give the same
   result, success or failure, and the very same value. *)
Theorem C67_only_residues_matter : forall c l l' r r' n,
  u256_ok l -> u256_ok l' -> u256_ok r -> u256_ok r' -> 0 <= n < 2 ^ 64 ->
  value l mod order c = value l' mod order c ->
  value r mod order c = value r' mod order c ->
  fr_add c l r = fr_add c l' r' /\ fr_sub c l r = fr_sub c l' r'
  /\ fr_mul c l r = fr_mul c l' r' /\ fr_pow c l n = fr_pow c l' n
  /\ fr_inv c l = fr_inv c l'.
Proof.
  intros c l l' r r' n Hl Hl' Hr Hr' Hn El Er.
  unfold fr_add, fr_sub, fr_mul, fr_pow, fr_inv.
  rewrite !from_u256val_spec by assumption. rewrite El, Er.
  repeat (split; [reflexivity|]). reflexivity.
Qed.
Print Assumptions C67_only_residues_matter.

(* Calls compose as in a field: what one call returns can be fed to the next. *)
Theorem C67_field_laws : forall c x y z,
  u256_ok x -> u256_ok y -> u256_ok z ->
  (* commutativity *)
  fr_add c x y = fr_add c y x
  /\ fr_mul c x y = fr_mul c y x
  (* associativity *)
  /\ rbind (fr_add c y z) (fun yz => fr_add c x yz)
     = rbind (fr_add c x y) (fun xy => fr_add c xy z)
  /\ rbind (fr_mul c y z) (fun yz => fr_mul c x yz)
     = rbind (fr_mul c x y) (fun xy => fr_mul c xy z)
  (* distributivity *)
  /\ rbind (fr_add c y z) (fun yz => fr_mul c x yz)
     = rbind (fr_mul c x y) (fun xy => rbind (fr_mul c x z) (fun xz => fr_add c xy xz))
  (* subtraction undoes addition *)
  /\ rbind (fr_sub c x y) (fun d => fr_add c d y) = fr_add c x (U256S 0)
  /\ fr_sub c x x = Ok (U256S 0)
  (* inversion undoes multiplication *)
  /\ (forall i, fr_inv c x = Ok i -> fr_mul c x i = Ok (U256S 1)).
Proof.
  intros c x y z Hx Hy Hz.
  exact (conj (law_add_comm c x y Hx Hy) (conj (law_mul_comm c x y Hx Hy)
        (conj (law_add_assoc c x y z Hx Hy Hz) (conj (law_mul_assoc c x y z Hx Hy Hz)
        (conj (law_distr c x y z Hx Hy Hz) (conj (law_sub_add c x y Hx Hy)
        (conj (law_sub_self c x Hx) (fun i => law_inv c x i Hx)))))))).
Qed.
Print Assumptions C67_field_laws.

(* Concrete cases: an unreduced argument, the largest U256, an inverse. *)
Example C67_ex_wraps :
  fr_add Bn (U256O (order Bn - 1)) (U256S 3) = Ok (U256S 2)
  /\ fr_mul Bls (U256O (2 ^ 256 - 1)) (U256S 2)
     = Ok (U256O ((2 ^ 256 - 1) * 2 mod order Bls))
  /\ fr_inv Bn (U256O (order Bn)) = Err (ESys TCrypto CInvalidInput)
  /\ fr_inv Bls (U256S 2) = Ok (U256O ((order Bls + 1) / 2))
  /\ fr_pow Bls (U256S 0) 0 = Ok (U256S 1)
  /\ fr_sub Bls (U256S 0) (U256S 1) = Ok (U256O (order Bls - 1)).
Proof. vm_compute. repeat split. Qed.

Example C67_ex_hyps : u256_ok (U256O (2 ^ 256 - 1)) /\ u256_ok (U256S 3)
  /\ value (U256O (order Bn + 3)) mod order Bn = value (U256S 3) mod order Bn
  /\ value (U256S 3) mod order Bn <> 0.
Proof. vm_compute. repeat split; discriminate. Qed.
