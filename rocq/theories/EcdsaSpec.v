(* Signatures and keys as byte strings, independently of the code that reads
   them. *)
From Coq Require Import ZArith List Bool.
From Verif Require Import Prelude IntSpec PointSpec EcdsaModel.
Import ListNotations.
Open Scope Z_scope.

(* 64 bytes: r and s, big-endian, positive and below the order *)
Definition signature_bytes (c : ecurve) (bs : list Z) (r s : Z) : Prop :=
  exists br bs', bs = br ++ bs' /\ bytes br /\ bytes bs' /\ length br = 32%nat /\ length bs' = 32%nat
    /\ big_endian br = r /\ big_endian bs' = s
    /\ 0 < r < ec_order c /\ 0 < s < ec_order c.

(* the lower of the two values of s with which a signature verifies *)
Definition low (c : ecurve) (s : Z) : Prop := 2 * s < ec_order c.

(* 65 bytes: a four, then both coordinates of a point of the curve *)
Definition key_bytes (bs : list Z) (x y : Z) : Prop :=
  exists bx by_, bs = 4 :: bx ++ by_ /\ bytes bx /\ bytes by_ /\ length bx = 32%nat /\ length by_ = 32%nat
    /\ big_endian bx = x /\ big_endian by_ = y
    /\ x < r1_modulus /\ y < r1_modulus
    /\ (r1_modulus | y * y - x * x * x + 3 * x - r1_b).

(* 2^256 - 2^224 + 2^192 + 2^96 - 1, the modulus of P-256; the orders as
   published, in hexadecimal digits of 32 bits *)
Definition words (l : list Z) : Z := fold_left (fun acc w => 2 ^ 32 * acc + w) l 0.
Definition p256_modulus : Z := 2 ^ 256 - 2 ^ 224 + 2 ^ 192 + 2 ^ 96 - 1.
