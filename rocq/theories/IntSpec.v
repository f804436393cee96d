(* What the number functions mean, on integers. *)
From Coq Require Import ZArith List Bool.
From Verif Require Import Prelude ValModel ValSpec HeapModel HeapSpec IntModel.
Import ListNotations.
Open Scope Z_scope.

(* [z] is the integer the function [f] stands for on [a] and [b] *)
Definition meant (f : fn) (a b z : Z) : Prop :=
  match f with
  | FAdd => z = a + b
  | FSub => z = a - b
  | FMul => z = a * b
  | FDiv => (* rounded towards zero: the rest has the sign of [a] *)
      exists rest, a = b * z + rest /\ Z.abs rest < Z.abs b /\ 0 <= a * rest
  | FRem => (* Euclidean remainder *)
      (exists q, a = b * q + z) /\ 0 <= z < Z.abs b
  | FPow => z = a ^ b
  | FShl => (* bits that leave the 256 are lost *)
      b < 256 /\ exists lost, z = a * 2 ^ b - lost * 2 ^ 256
  | FShr => (* rounded down *)
      b < 256 /\ exists lost, a = z * 2 ^ b + lost /\ 0 <= lost < 2 ^ b
  end.

Definition in_range (w : wide) (z : Z) : Prop :=
  match w with
  | WU => 0 <= z < 2 ^ 256
  | WI => - 2 ^ 255 <= z < 2 ^ 255
  end.

(* the remainder of the least number by minus one counts as an overflow *)
Definition overflowing_rem (w : wide) (f : fn) (a b : Z) : Prop :=
  w = WI /\ f = FRem /\ a = - 2 ^ 255 /\ b = -1.

(* the word [v] is the argument [b]: a U32 for powers and shifts *)
Definition second (w : wide) (f : fn) (h : heap) (v b : Z) : Prop :=
  denotes h v (if by_u32 f then TU32 b else TNum (kind w) b).

(* the canonical word for the number [z] *)
Definition returned (w : wide) (h : heap) (v z : Z) : Prop :=
  denotes h v (TNum (kind w) z) /\ (is_object v = false <-> small_range (kind w) z).

(* the number 32 bytes stand for: big-endian, two's complement if signed *)
Fixpoint big_endian (bs : list Z) : Z :=
  match bs with
  | [] => 0
  | b :: bs => b * 256 ^ Z.of_nat (length bs) + big_endian bs
  end.
Definition bytes_mean (w : wide) (bs : list Z) (z : Z) : Prop :=
  length bs = 32%nat /\ in_range w z
  /\ (z = big_endian bs \/ (w = WI /\ z = big_endian bs - 2 ^ 256)).
