(* What users of the scalar functions rely on: U256 values stand for integers,
   and results are integers modulo the order of the group. *)
From Coq Require Import ZArith List Bool.
From Verif Require Import Prelude FieldModel.
Open Scope Z_scope.

(* the integer a value stands for *)
Definition value (v : u256val) : Z := match v with U256S z => z | U256O z => z end.

(* values that exist: the small form has 56 bits, the object form 256 *)
Definition u256_ok (v : u256val) : Prop :=
  match v with
  | U256S z => 0 <= z < 2 ^ 56
  | U256O z => 0 <= z < 2 ^ 256
  end.

(* [v] is the one value the host hands out for the integer [z]: small when
   [z] fits 56 bits, an object otherwise *)
Definition represents (v : u256val) (z : Z) : Prop :=
  value v = z /\ match v with U256S _ => z < 2 ^ 56 | U256O _ => 2 ^ 56 <= z end.

(* a call that succeeds with the representation of [z] *)
Definition yields (r : res u256val) (z : Z) : Prop :=
  exists v, r = Ok v /\ represents v z.
