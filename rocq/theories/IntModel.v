(* The host functions of the "int" module: number objects, bytes and 256-bit
   arithmetic, as functions on the object table.

   Modelled: host.rs:1327-1657 and host/num.rs:1-71, with the conversions of
   soroban-env-common/src/convert.rs:206-417.  Arguments are absolute words
   (GuestModel has the translation of guest handles).  256-bit numbers are the
   external library ethnum; its functions are modelled on integers, with their
   documented ranges.  Budget charges are left out. *)
From Coq Require Import ZArith Lia List Bool.
From Verif Require Import Prelude ValModel HeapModel HostFnModel GuestModel.
Import ListNotations.
Open Scope Z_scope.

(* -------------------------------------------------------- number objects *)

(* visit_obj of a number type: host_object.rs:521-540 *)
Definition visit_num (k : numty) (h : heap) (v : Z) : res Z :=
  let? o := visit_obj_untyped h v in
  match o with
  | HONum k' x => if numty_eqb k k' then Ok x else Err e_mistyped
  | _ => Err e_mistyped
  end.

(* obj_to_u64, obj_to_i64, timepoint_obj_to_u64, duration_obj_to_u64:
   host.rs:1328-1334 with impl_wrapping_obj_to_num, host/num.rs:10-17.  The argument is
   of the object type (dispatch tests the tag). *)
Definition obj_to_num (k : numty) (h : heap) (v : Z) : res Z :=
  typed (object_tag_of_num k) (visit_num k) h v.

(* obj_from_u64, ..., duration_obj_from_u64: impl_wrapping_obj_from_num,
   host/num.rs:1-8 *)
Definition obj_from_num (k : numty) (h : heap) (x : Z) : heap * res Z :=
  add_host_object h (HONum k x).

(* obj_from_u128_pieces, obj_from_i128_pieces, obj_from_u256_pieces,
   obj_from_i256_pieces: host.rs:1336-1343, 1361-1368, 1386-1395, 1469-1478 *)
Definition obj_from_u128_pieces h hi lo := obj_from_num NU128 h (u128_from_pieces hi lo).
Definition obj_from_i128_pieces h hi lo := obj_from_num NI128 h (i128_from_pieces hi lo).
Definition obj_from_u256_pieces h a b c d := obj_from_num NU256 h (u256_from_pieces a b c d).
Definition obj_from_i256_pieces h a b c d := obj_from_num NI256 h (i256_from_pieces a b c d).

(* obj_to_u128_hi64 and its kin, all pieces at once:
   host.rs:1345-1359, 1370-1384, 1425-1467, 1508-1550 *)
Definition obj_to_u128_pieces (h : heap) (v : Z) : res (Z * Z) :=
  let? x := obj_to_num NU128 h v in Ok (u128_hi x, u128_lo x).
Definition obj_to_i128_pieces (h : heap) (v : Z) : res (Z * Z) :=
  let? x := obj_to_num NI128 h v in Ok (i128_hi x, i128_lo x).
Definition obj_to_u256_pieces (h : heap) (v : Z) : res (Z * Z * Z * Z) :=
  let? x := obj_to_num NU256 h v in Ok (u256_into_pieces x).
Definition obj_to_i256_pieces (h : heap) (v : Z) : res (Z * Z * Z * Z) :=
  let? x := obj_to_num NI256 h v in Ok (i256_into_pieces x).

(* ------------------------------------------------ 256-bit values and words *)

Inductive wide := WU | WI.
Definition kind (w : wide) : numty := match w with WU => NU256 | WI => NI256 end.

(* TryFromVal<Val> for U256, I256: convert.rs:313-328, 365-380 *)
Definition wide_of_val (w : wide) (h : heap) (v : Z) : res Z :=
  match small_to_num (kind w) v with
  | Some x => Ok x
  | None =>
      match w with
      | WU => let? p := obj_to_u256_pieces h v in
              let '(a, b, c, d) := p in Ok (u256_from_pieces a b c d)
      | WI => let? p := obj_to_i256_pieces h v in
              let '(a, b, c, d) := p in Ok (i256_from_pieces a b c d)
      end
  end.

(* TryFromVal<U256> for U256Val, I256Val: convert.rs:347-362, 399-414 *)
Definition wide_to_val (w : wide) (h : heap) (x : Z) : heap * res Z :=
  match num_to_small (kind w) x with
  | Some v => (h, Ok v)
  | None =>
      match w with
      | WU => let '(a, b, c, d) := u256_into_pieces x in obj_from_u256_pieces h a b c d
      | WI => let '(a, b, c, d) := i256_into_pieces x in obj_from_i256_pieces h a b c d
      end
  end.

(* ------------------------------------------------------- ethnum (external) *)

Definition wmin (w : wide) : Z := match w with WU => 0 | WI => - 2 ^ 255 end.
Definition wmax (w : wide) : Z := match w with WU => 2 ^ 256 - 1 | WI => 2 ^ 255 - 1 end.
Definition wrap (w : wide) (x : Z) : Z := match w with WU => x mod 2 ^ 256 | WI => as_i256 x end.

(* overflowing_*: the wrapped result; checked_* compare it with the exact one *)
Definition checked (w : wide) (exact : Z) : option Z :=
  if wrap w exact =? exact then Some (wrap w exact) else None.

Definition checked_add (w : wide) (a b : Z) : option Z := checked w (a + b).
Definition checked_sub (w : wide) (a b : Z) : option Z := checked w (a - b).
Definition checked_mul (w : wide) (a b : Z) : option Z := checked w (a * b).

(* division truncates; no result for zero divisors and for MIN / -1 *)
Definition no_division (w : wide) (a b : Z) : bool :=
  (b =? 0) || match w with WU => false | WI => (a =? wmin WI) && (b =? -1) end.
Definition checked_div (w : wide) (a b : Z) : option Z :=
  if no_division w a b then None else Some (Z.quot a b).

(* rem_euclid: the remainder of the truncating division, made non-negative *)
Definition checked_rem_euclid (w : wide) (a b : Z) : option Z :=
  if no_division w a b then None
  else let r := Z.rem a b in
       Some (if r <? 0 then (if b <? 0 then r - b else r + b) else r).

(* checked_pow: square and multiply while the exponent exceeds one, with every
   product checked, and the last multiplication apart *)
Fixpoint pow_loop (w : wide) (e : positive) (base acc : Z) : option Z :=
  match e with
  | xH => checked_mul w acc base
  | xO e => match checked_mul w base base with
            | Some b2 => pow_loop w e b2 acc
            | None => None
            end
  | xI e => match checked_mul w acc base with
            | Some acc =>
                match checked_mul w base base with
                | Some b2 => pow_loop w e b2 acc
                | None => None
                end
            | None => None
            end
  end.
Definition checked_pow (w : wide) (a n : Z) : option Z :=
  match n with Zpos e => pow_loop w e a 1 | _ => Some 1 end.

(* checked_shl, checked_shr: the amount is checked, not the bits shifted out *)
Definition checked_shl (w : wide) (a n : Z) : option Z :=
  if n <? 256 then Some (wrap w (Z.shiftl a n)) else None.
Definition checked_shr (w : wide) (a n : Z) : option Z :=
  if n <? 256 then Some (Z.shiftr a n) else None.

(* -------------------------------------------------------- host functions *)

Inductive fn := FAdd | FSub | FMul | FDiv | FRem | FPow | FShl | FShr.

(* the functions whose second argument is a U32Val: host.rs:1564-1566,
   1580-1582 *)
Definition by_u32 (f : fn) : bool := match f with FPow | FShl | FShr => true | _ => false end.

(* the method of each function: host.rs:1552-1582 *)
Definition method (f : fn) : wide -> Z -> Z -> option Z :=
  match f with
  | FAdd => checked_add | FSub => checked_sub | FMul => checked_mul
  | FDiv => checked_div | FRem => checked_rem_euclid | FPow => checked_pow
  | FShl => checked_shl | FShr => checked_shr
  end.

(* the second argument *)
Definition rhs_of_val (w : wide) (f : fn) (h : heap) (v : Z) : res Z :=
  if by_u32 f then match u32_of_val v with Some u => Ok u | None => Err e_conversion end
  else wide_of_val w h v.

Definition e_overflow : err := ESys TObject CArithDomain.

(* impl_bignum_host_fns!: host/num.rs:19-47 *)
Definition bignum (w : wide) (f : fn) (h : heap) (l r : Z) : heap * res Z :=
  match wide_of_val w h l with
  | Err e => (h, Err e)
  | Ok a =>
      match rhs_of_val w f h r with
      | Err e => (h, Err e)
      | Ok b =>
          match method f w a b with
          | None => (h, Err e_overflow)
          | Some x => wide_to_val w h x
          end
      end
  end.

(* the variants returning Void (add, sub, mul and pow exist):
   host/num.rs:48-69, host.rs:1584-1657 *)
Definition bignum_checked (w : wide) (f : fn) (h : heap) (l r : Z) : heap * res Z :=
  match wide_of_val w h l with
  | Err e => (h, Err e)
  | Ok a =>
      match rhs_of_val w f h r with
      | Err e => (h, Err e)
      | Ok b =>
          match method f w a b with
          | None => (h, Ok val_void)
          | Some x => wide_to_val w h x
          end
      end
  end.

(* ------------------------------------------------------------------- bytes *)

(* from_be_bytes and to_be_bytes of ethnum (external) *)
Definition be_number (bs : list Z) : Z := fold_left (fun acc b => 256 * acc + b) bs 0.
Definition of_be_bytes (w : wide) (bs : list Z) : Z := wrap w (be_number bs).
Definition to_be_bytes (x : Z) : list Z := rev (le_bytes 32 (x mod 2 ^ 256)).

(* u256_val_from_be_bytes, i256_val_from_be_bytes: host.rs:1397-1409,
   1480-1492; fixed_length_bytes_from_slice: host/conversion.rs:86-107 *)
Definition val_from_be_bytes (w : wide) (h : heap) (v : Z) : heap * res Z :=
  match arg_bytes h v with
  | Err e => (h, Err e)
  | Ok bs =>
      if Nat.eqb (length bs) 32 then wide_to_val w h (of_be_bytes w bs)
      else (h, Err e_size)
  end.

(* u256_val_to_be_bytes, i256_val_to_be_bytes: host.rs:1411-1423, 1494-1506 *)
Definition val_to_be_bytes (w : wide) (h : heap) (v : Z) : heap * res Z :=
  match small_to_num (kind w) v with
  | Some x => add_host_object h (HOBytes (to_be_bytes x))
  | None =>
      match obj_to_num (kind w) h v with
      | Ok x => add_host_object h (HOBytes (to_be_bytes x))
      | Err e => (h, Err e)
      end
  end.
