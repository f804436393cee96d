(* What the strkey of an address is (SEP-23), in arithmetic. *)
From Coq Require Import ZArith List Bool.
From Verif Require Import HeapModel.
Import ListNotations.
Open Scope Z_scope.

(* digits, the most significant first *)
Fixpoint number (base : Z) (digits : list Z) : Z :=
  match digits with
  | [] => 0
  | d :: r => d * base ^ Z.of_nat (length r) + number base r
  end.
Definition are_bytes (l : list Z) : Prop := Forall (fun b => 0 <= b < 256) l.

(* 'A'..'Z' are 0 to 25, '2'..'7' are 26 to 31 *)
Definition letter (c v : Z) : Prop :=
  (0 <= v <= 25 /\ c = 65 + v) \/ (26 <= v <= 31 /\ c = 50 + (v - 26)).

(* Polynomials over the field of two elements, written as numbers: bit i is the
   coefficient of x^i, so that addition is the exclusive or and multiplication by
   x^n is multiplication by 2^n.  The checksum of a message is the remainder of
   its product by x^16 divided by x^16 + x^12 + x^5 + 1: it is of a lower degree,
   and added to that product gives a multiple. *)
Definition generator : Z := 2 ^ 16 + 2 ^ 12 + 2 ^ 5 + 1.
Definition times_generator (q : list bool) : Z :=
  fold_left (fun acc (b : bool) => Z.lxor (2 * acc) (if b then generator else 0)) q 0.
Definition is_checksum (message c : Z) : Prop :=
  0 <= c < 2 ^ 16 /\ exists q, Z.lxor (message * 2 ^ 16) c = times_generator q.

(* the string: the version, the payload and the checksum, low byte first, as one
   number written in base 32, after fewer than five zero bits at its end *)
Definition is_strkey (version : Z) (payload s : list Z) : Prop :=
  exists digits c k,
    Forall2 letter s digits /\
    is_checksum (number 256 (version :: payload)) c /\
    number 32 digits = number 256 (version :: payload ++ [c mod 256; c / 256]) * 2 ^ k /\
    5 * Z.of_nat (length s) = 8 * (Z.of_nat (length payload) + 3) + k /\ 0 <= k < 5.

(* an address that is written as a strkey, and its strkey *)
Definition writable (a : addr) : Prop :=
  match a with
  | AAccount k | AContract k => length k = 32%nat /\ are_bytes k
  | AMuxed i k => length k = 32%nat /\ are_bytes k /\ 0 <= i < 2 ^ 64
  | AOther _ _ => False
  end.
Definition is_muxed (a : addr) : Prop := match a with AMuxed _ _ => True | _ => False end.
Definition spelled (a : addr) (s : list Z) : Prop :=
  match a with
  | AAccount k => is_strkey (6 * 8) k s
  | AContract i => is_strkey (2 * 8) i s
  | AMuxed i k =>
      exists t, length t = 8%nat /\ are_bytes t /\ number 256 t = i /\ is_strkey (12 * 8) (k ++ t) s
  | AOther _ _ => False
  end.
