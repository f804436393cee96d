(* What a 64-bit word means, written arithmetically and independently of the
   shift/mask code in ValModel. *)
From Coq Require Import ZArith Lia List Bool.
From Verif Require Import Prelude ValModel.
Import ListNotations.
Open Scope Z_scope.

Definition word (w : Z) : Prop := 0 <= w < 2 ^ 64.

(* The numeric range of each number type. *)
Definition num_range (k : numty) (x : Z) : Prop :=
  match k with
  | NU64 | NTimepoint | NDuration => 0 <= x < 2 ^ 64
  | NI64 => - 2 ^ 63 <= x < 2 ^ 63
  | NU128 => 0 <= x < 2 ^ 128
  | NI128 => - 2 ^ 127 <= x < 2 ^ 127
  | NU256 => 0 <= x < 2 ^ 256
  | NI256 => - 2 ^ 255 <= x < 2 ^ 255
  end.

Definition signed_num (k : numty) : bool :=
  match k with NI64 | NI128 | NI256 => true | _ => false end.

(* The documented small range: 56 value bits (num.rs:457-476). *)
Definition small_range (k : numty) (x : Z) : Prop :=
  if signed_num k then - 2 ^ 55 <= x < 2 ^ 55 else 0 <= x < 2 ^ 56.

(* Everything a word other than a symbol can denote. *)
Inductive atom :=
| ABool (b : bool)
| AVoid
| AU32 (u : Z)
| AI32 (i : Z)
| ANum (k : numty) (x : Z)
| AErr (e : err)
| AObj (t : tag) (handle : Z).

Definition object_tags : list tag :=
  [TgU64Object; TgI64Object; TgTimepointObject; TgDurationObject; TgU128Object;
   TgI128Object; TgU256Object; TgI256Object; TgBytesObject; TgStringObject;
   TgSymbolObject; TgVecObject; TgMapObject; TgAddressObject;
   TgMuxedAddressObject; TgExecutableTagObject].

Definition atom_ok (a : atom) : Prop :=
  match a with
  | ABool _ | AVoid => True
  | AU32 u => 0 <= u < 2 ^ 32
  | AI32 i => - 2 ^ 31 <= i < 2 ^ 31
  | ANum k x => small_range k x
  | AErr (EContract c) => 0 <= c < 2 ^ 32
  | AErr (ESys _ _) => True
  | AObj t h => In t object_tags /\ 0 <= h < 2 ^ 32
  end.

(* The documented layout: 8 tag bits, then 24 minor bits, then 32 major bits,
   or 56 body bits (val.rs:10-40). *)
Definition word_of_atom (a : atom) : Z :=
  match a with
  | ABool false => 0
  | ABool true => 1
  | AVoid => 2
  | AErr (EContract c) => c * 2 ^ 32 + 3
  | AErr (ESys t c) => ecode_num c * 2 ^ 32 + ety_num t * 2 ^ 8 + 3
  | AU32 u => u * 2 ^ 32 + 4
  | AI32 i => (i mod 2 ^ 32) * 2 ^ 32 + 5
  | ANum k x => (x mod 2 ^ 56) * 2 ^ 8 + tag_num (small_tag k)
  | AObj t h => h * 2 ^ 32 + tag_num t
  end.

(* Valid symbol characters and strings. *)
Definition sym_char (b : Z) : Prop :=
  b = 95 \/ 48 <= b <= 57 \/ 65 <= b <= 90 \/ 97 <= b <= 122.

(* Lexicographic order on byte strings. *)
Fixpoint lex (a b : list Z) : comparison :=
  match a, b with
  | [], [] => Eq
  | [], _ :: _ => Lt
  | _ :: _, [] => Gt
  | x :: a', y :: b' => match x ?= y with Eq => lex a' b' | c => c end
  end.

(* Reading a word with the API's decoding functions, and building one. *)
Definition reads_as (v : Z) (a : atom) : Prop :=
  match a with
  | ABool b => bool_of_val v = Some b
  | AVoid => has_tag v TgVoid = true
  | AU32 u => u32_of_val v = Some u
  | AI32 i => i32_of_val v = Some i
  | ANum k x => small_to_num k v = Some x
  | AErr e => has_tag v TgError = true /\ error_of_val v = Some e
  | AObj t h => In t object_tags /\ has_tag v t = true /\ get_major v = h
  end.

Definition build (a : atom) : option Z :=
  match a with
  | ABool b => Some (val_of_bool b)
  | AVoid => Some val_void
  | AU32 u => Some (val_of_u32 u)
  | AI32 i => Some (val_of_i32 i)
  | ANum k x => num_to_small k x
  | AErr e => Some (val_of_error e)
  | AObj t h => Some (from_major_minor_and_tag h 0 t)
  end.

(* Well-formed words: the documented layout of some atom, or a symbol word with
   its two top body bits clear. *)
Definition well_formed (v : Z) : Prop :=
  (exists a, atom_ok a /\ v = word_of_atom a)
  \/ (exists body, 0 <= body < 2 ^ 54 /\ v = body * 2 ^ 8 + 14).

Definition list4 (p : Z * Z * Z * Z) : list Z := let '(a, b, c, d) := p in [a; b; c; d].
