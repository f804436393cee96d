(* The orders of the two scalar fields are prime: a chain of certificates, each
   listing enough prime factors of the number less one and a base, accepted by
   the checker of PrimeProofs.  *)
From Coq Require Import ZArith Znumtheory Lia List Bool.
From Verif Require Import Prelude FieldModel PrimeProofs.
Import ListNotations.
Open Scope Z_scope.

Definition certificates : list (Z * Z * list Z) :=
  [(3, 2, [2]);
   (5, 2, [2; 2]);
   (11, 2, [5]);
   (19, 2, [3; 3]);
   (71, 7, [2; 5]);
   (73, 2, [3; 3]);
   (89, 2, [11]);
   (179, 2, [89]);
   (229, 2, [19]);
   (359, 2, [179]);
   (853, 2, [71]);
   (1607, 2, [73]);
   (93001, 2, [3; 5; 5; 5]);
   (110573, 2, [359]);
   (906349, 2, [1607]);
   (2653753, 2, [110573]);
   (63690073, 2, [2653753]);
   (254760293, 2, [63690073]);
   (639533339, 2, [229; 853]);
   (12048837557, 2, [2; 93001]);
   (5156902474397, 2, [12048837557]);
   (1670836401704629, 2, [5156902474397]);
   (65865678001877903, 2, [639533339]);
   (13818364434197438864469338081, 2, [65865678001877903]);
   (21888242871839275222246405745257275088548364400416034343698204186575808495617, 2,
     [1670836401704629; 13818364434197438864469338081]);
   (52435875175126190479447740508185965837690552500527637822603658699938581184513, 5,
     [2; 2; 2; 2; 2; 2; 2; 2; 2; 2; 2; 2; 2; 2; 2; 2; 2; 2; 2; 2; 2; 2; 2; 2; 2; 2; 2; 2;
     2; 2; 2; 2; 906349; 906349; 254760293; 254760293])].

Lemma certificates_ok : check_all [2] certificates = true.
Proof. vm_cast_no_check (eq_refl true). Qed.

Lemma order_prime c : prime (order c).
Proof.
  assert (H : existsb (fun x => fst (fst x) =? order c) certificates = true)
    by (destruct c; vm_compute; reflexivity).
  apply existsb_exists in H. destruct H as (x & Hx & E).
  apply Z.eqb_eq in E. rewrite <- E.
  assert (HF := check_all_primes certificates [2]
                  (Forall_cons _ prime_2 (Forall_nil _)) certificates_ok).
  rewrite Forall_forall in HF. exact (HF x Hx).
Qed.

Lemma order_fermat c x : x mod order c <> 0 -> x ^ (order c - 1) mod order c = 1.
Proof. apply fermat, order_prime. Qed.
