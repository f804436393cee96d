(* Shared vocabulary: host errors, Result, and fixed-width integer arithmetic.

   Machine integers are Z values together with explicit ranges; each Rust
   operation used by the modelled code (checked_*, saturating_*, wrapping casts)
   has its own definition here. *)
From Coq Require Import ZArith Lia List Bool.
From Coq Require Export ZifyBool ZifyNat ZifyN.
Import ListNotations.
Open Scope Z_scope.

Ltac Zify.zify_post_hook ::= Z.div_mod_to_equations.

(* ---------------------------------------------------------------- errors *)

(* XDR ScErrorType without SceContract (which carries a code instead);
   numbering used by soroban-env-common/src/error.rs:96-114. *)
Inductive ety :=
| TWasmVm | TContext | TStorage | TObject | TCrypto | TEvents | TBudget
| TValue | TAuth.

(* XDR ScErrorCode. *)
Inductive ecode :=
| CArithDomain | CIndexBounds | CInvalidInput | CMissingValue | CExistingValue
| CExceededLimit | CInvalidAction | CInternalError | CUnexpectedType
| CUnexpectedSize.

(* XDR ScError: a contract error with its u32 code, or a system error. *)
Inductive err :=
| EContract (code : Z)
| ESys (t : ety) (c : ecode).

Definition ety_eqb (a b : ety) : bool :=
  match a, b with
  | TWasmVm, TWasmVm | TContext, TContext | TStorage, TStorage
  | TObject, TObject | TCrypto, TCrypto | TEvents, TEvents
  | TBudget, TBudget | TValue, TValue | TAuth, TAuth => true
  | _, _ => false
  end.

Definition ecode_eqb (a b : ecode) : bool :=
  match a, b with
  | CArithDomain, CArithDomain | CIndexBounds, CIndexBounds
  | CInvalidInput, CInvalidInput | CMissingValue, CMissingValue
  | CExistingValue, CExistingValue | CExceededLimit, CExceededLimit
  | CInvalidAction, CInvalidAction | CInternalError, CInternalError
  | CUnexpectedType, CUnexpectedType | CUnexpectedSize, CUnexpectedSize => true
  | _, _ => false
  end.

Lemma ety_eqb_eq a b : ety_eqb a b = true <-> a = b.
Proof. split; [destruct a, b; simpl; congruence | intros ->; destruct b; reflexivity]. Qed.

Lemma ecode_eqb_eq a b : ecode_eqb a b = true <-> a = b.
Proof. split; [destruct a, b; simpl; congruence | intros ->; destruct b; reflexivity]. Qed.

(* Rust Result<T, HostError>. *)
Inductive res (A : Type) :=
| Ok (a : A)
| Err (e : err).
Arguments Ok {A} a.
Arguments Err {A} e.

Definition rbind {A B} (r : res A) (f : A -> res B) : res B :=
  match r with Ok a => f a | Err e => Err e end.

Definition rmap {A B} (f : A -> B) (r : res A) : res B :=
  match r with Ok a => Ok (f a) | Err e => Err e end.

Notation "'let?' x ':=' r 'in' k" := (rbind r (fun x => k))
  (at level 200, x pattern, r at level 100, k at level 200, right associativity).

Definition is_ok {A} (r : res A) : bool :=
  match r with Ok _ => true | Err _ => false end.

Lemma rbind_ok {A B} (r : res A) (f : A -> res B) b :
  rbind r f = Ok b -> exists a, r = Ok a /\ f a = Ok b.
Proof. destruct r; simpl; intros H; [eauto | discriminate]. Qed.

Lemma rmap_ok {A B} (f : A -> B) (r : res A) b :
  rmap f r = Ok b -> exists a, r = Ok a /\ f a = b.
Proof. destruct r; simpl; intros H; inversion H; eauto. Qed.

(* ------------------------------------------------------- machine integers *)

Definition u8_max  : Z := 255.
Definition u32_max : Z := 4294967295.
Definition u64_max : Z := 18446744073709551615.
Definition i32_min : Z := -2147483648.
Definition i32_max : Z := 2147483647.
Definition i64_min : Z := -9223372036854775808.
Definition i64_max : Z := 9223372036854775807.

Definition in_u8  (x : Z) : Prop := 0 <= x <= u8_max.
Definition in_u32 (x : Z) : Prop := 0 <= x <= u32_max.
Definition in_u64 (x : Z) : Prop := 0 <= x <= u64_max.
Definition in_i32 (x : Z) : Prop := i32_min <= x <= i32_max.
Definition in_i64 (x : Z) : Prop := i64_min <= x <= i64_max.

(* n-bit unsigned / signed ranges for the wide types. *)
Definition in_u (n x : Z) : Prop := 0 <= x < 2 ^ n.
Definition in_i (n x : Z) : Prop := - 2 ^ (n - 1) <= x < 2 ^ (n - 1).

Definition clamp (lo hi x : Z) : Z := Z.max lo (Z.min hi x).

(* Rust saturating_{add,sub,mul} at each width. *)
Definition sat_u32 (x : Z) : Z := clamp 0 u32_max x.
Definition sat_u64 (x : Z) : Z := clamp 0 u64_max x.
Definition sat_i64 (x : Z) : Z := clamp i64_min i64_max x.

(* Rust checked_{add,sub,mul} at each width. *)
Definition chk (lo hi x : Z) : option Z :=
  if (lo <=? x) && (x <=? hi) then Some x else None.
Definition chk_u32 (x : Z) : option Z := chk 0 u32_max x.
Definition chk_u64 (x : Z) : option Z := chk 0 u64_max x.
Definition chk_i64 (x : Z) : option Z := chk i64_min i64_max x.
Definition chk_u128 (x : Z) : option Z := chk 0 (2 ^ 128 - 1) x.
Definition chk_i128 (x : Z) : option Z := chk (- 2 ^ 127) (2 ^ 127 - 1) x.

Definition opt_res {A} (o : option A) (e : err) : res A :=
  match o with Some a => Ok a | None => Err e end.

Lemma chk_Some lo hi x y : chk lo hi x = Some y <-> (y = x /\ lo <= x <= hi).
Proof.
  unfold chk. destruct ((lo <=? x) && (x <=? hi)) eqn:E.
  - split; [intros H; inversion H; lia | intros [-> ?]; reflexivity].
  - split; [discriminate | intros [-> ?]; lia].
Qed.

Lemma chk_None lo hi x : chk lo hi x = None <-> ~ (lo <= x <= hi).
Proof.
  unfold chk. destruct ((lo <=? x) && (x <=? hi)) eqn:E;
  split; intros; try discriminate; try reflexivity; lia.
Qed.

Ltac unfold_widths :=
  unfold in_u8, in_u32, in_u64, in_i32, in_i64, in_u, in_i, sat_u32, sat_u64,
    sat_i64, clamp, u8_max, u32_max, u64_max, i32_min, i32_max, i64_min, i64_max in *.

Ltac case_if := match goal with |- context [if ?b then _ else _] => destruct b eqn:? end.

Lemma pair_eq {X Y} (a c : X) (b d : Y) : a = c -> b = d -> (a, b) = (c, d).
Proof. congruence. Qed.
