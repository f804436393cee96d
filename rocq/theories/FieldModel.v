(* Scalar fields of the two pairing curves.

   Modelled files of soroban-env-host/src: crypto/metered_scalar.rs, the fr_*
   functions of crypto/bls12_381.rs and crypto/bn254.rs, and the host
   functions that call them in host.rs and host/num.rs.

   The arithmetic of the fields themselves is the external arkworks library.
   It is modelled by arithmetic on integers modulo the order of the group:
   an element of the field is its representative between 0 and the order.
   Budget charges are left out (BudgetModel has the budget). *)
From Coq Require Import ZArith Lia List Bool.
From Verif Require Import Prelude GuestModel.
Import ListNotations.
Open Scope Z_scope.

(* ---------------------------------------------------------------- fields *)

(* The two scalar types that implement MeteredScalar:
   crypto/metered_scalar.rs:42-136 *)
Inductive curve := Bls | Bn.

(* ark_bls12_381::Fr::MODULUS and ark_bn254::Fr::MODULUS (external constants:
   the published orders of the groups) *)
Definition order (c : curve) : Z :=
  match c with
  | Bls => 52435875175126190479447740508185965837690552500527637822603658699938581184513
  | Bn => 21888242871839275222246405745257275088548364400416034343698204186575808495617
  end.

(* add_assign, sub_assign and mul_assign of ark_ff (external), as called by
   crypto/bls12_381.rs:735-751 and crypto/bn254.rs:476-492 *)
Definition fadd (p a b : Z) : Z := (a + b) mod p.
Definition fsub (p a b : Z) : Z := (a - b) mod p.
Definition fmul (p a b : Z) : Z := (a * b) mod p.

(* Field::pow of ark_ff (external): square and multiply over the bits of the
   exponent, from the top *)
Fixpoint fpow_pos (p a : Z) (n : positive) : Z :=
  match n with
  | xH => a mod p
  | xO n => let h := fpow_pos p a n in fmul p h h
  | xI n => let h := fpow_pos p a n in fmul p (fmul p h h) a
  end.

Definition fpow (p a n : Z) : Z :=
  match n with
  | Zpos n => fpow_pos p a n
  | _ => 1 mod p
  end.

(* Field::inverse of ark_ff (external).  It runs a binary extended Euclid; the
   model runs the plain one, which finds the same residue. Fuel 600 exceeds
   the number of divisions of two 256-bit numbers. *)
Fixpoint euclid (fuel : nat) (a b u v : Z) : option Z :=
  match fuel with
  | O => None
  | S fuel =>
      if b =? 0 then (if a =? 1 then Some u else None)
      else euclid fuel b (a mod b) v (u - (a / b) * v)
  end.

Definition finverse_in (fuel : nat) (p a : Z) : option Z :=
  match euclid fuel a p 1 0 with Some u => Some (u mod p) | None => None end.

Definition finverse (p a : Z) : option Z := finverse_in 600 p a.

(* ------------------------------------------------- U256 values and scalars *)

(* U256Val: the small form holds up to 56 bits, the object form any U256
   (soroban-env-common/src/num.rs U256Small, U256Object; C01) *)
Inductive u256val := U256S (z : Z) | U256O (z : Z).

(* ark_ff::PrimeField::from_le_bytes_mod_order (external) *)
Definition from_le_bytes_mod_order (p : Z) (bs : list Z) : Z :=
  fold_right (fun b acc => b + 256 * acc) 0 bs mod p.

(* MeteredScalar::from_u256val: crypto/metered_scalar.rs:60-71, 108-119 *)
Definition from_u256val (p : Z) (v : u256val) : Z :=
  match v with
  | U256S z => from_le_bytes_mod_order p (le_bytes 8 z)
  | U256O z => from_le_bytes_mod_order p (le_bytes 32 z)
  end.

(* U256::from_be_bytes (ethnum, external) *)
Definition from_be_bytes (bs : list Z) : Z :=
  fold_left (fun acc b => 256 * acc + b) bs 0.

(* BigInteger::to_bytes_be of a 4-word big integer (ark_ff, external) *)
Definition to_bytes_be (x : Z) : list Z := rev (le_bytes 32 x).

(* U256Val::try_from_val(host, &U256): host/conversion.rs and
   soroban-env-common/src/num.rs; small when it fits 56 bits *)
Definition u256val_of (u : Z) : u256val :=
  if u <? 2 ^ 56 then U256S u else U256O u.

(* MeteredScalar::into_u256val: crypto/metered_scalar.rs:73-87, 121-135 *)
Definition into_u256val (x : Z) : u256val := u256val_of (from_be_bytes (to_bytes_be x)).

(* ------------------------------------------------ scalar host functions *)

(* impl_bls12_381_fr_arith_host_fns!, impl_bn254_fr_arith_host_fns!
   (host/num.rs:73-105) and host.rs:3254-3256, 3326-3328 *)
Definition fr_add (c : curve) (l r : u256val) : res u256val :=
  let p := order c in Ok (into_u256val (fadd p (from_u256val p l) (from_u256val p r))).
Definition fr_sub (c : curve) (l r : u256val) : res u256val :=
  let p := order c in Ok (into_u256val (fsub p (from_u256val p l) (from_u256val p r))).
Definition fr_mul (c : curve) (l r : u256val) : res u256val :=
  let p := order c in Ok (into_u256val (fmul p (from_u256val p l) (from_u256val p r))).

(* bls12_381_fr_pow, bn254_fr_pow: host.rs:3258-3268, 3330-3340 *)
Definition fr_pow (c : curve) (l : u256val) (n : Z) : res u256val :=
  let p := order c in Ok (into_u256val (fpow p (from_u256val p l) n)).

(* fr_inv_internal, bn254_fr_inv_internal: crypto/bls12_381.rs:761-782,
   crypto/bn254.rs:502-520 *)
Definition inv_internal (p a : Z) : res Z :=
  if a =? 0 then Err (ESys TCrypto CInvalidInput)
  else match finverse p a with
       | Some x => Ok x
       | None => Err (ESys TCrypto CInternalError)
       end.

(* bls12_381_fr_inv, bn254_fr_inv: host.rs:3270-3278, 3342-3350 *)
Definition fr_inv (c : curve) (l : u256val) : res u256val :=
  let p := order c in
  let? x := inv_internal p (from_u256val p l) in Ok (into_u256val x).
