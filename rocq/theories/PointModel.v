(* Points of the pairing curves: encodings, validation, and the host functions
   on them.

   Modelled files of soroban-env-host/src: crypto/bls12_381.rs:49-340, 350-733,
   crypto/bn254.rs:37-466, 522-581 and the functions bls12_381_* and bn254_* of
   host.rs:3078-3252, 3280-3324, 3352-3393 (the fr_* functions are in
   FieldModel).

   External (arkworks): reading and writing of coordinates is modelled on
   integers; the test of the curve's equation is modelled on integers; the test
   of the subgroup, the arithmetic of the groups, the pairings and the maps to
   the curves are the functions of an arbitrary [library].  Budget charges are
   left out (BudgetModel has the budget). *)
From Coq Require Import ZArith Lia List Bool.
From Verif Require Import Prelude GuestModel FieldModel.
Import ListNotations.
Open Scope Z_scope.

(* ---------------------------------------------------------------- groups *)

Inductive group := BlsG1 | BlsG2 | BnG1 | BnG2.

Definition curve_of (g : group) : curve :=
  match g with BlsG1 | BlsG2 => Bls | BnG1 | BnG2 => Bn end.

(* the moduli of the base fields: ark_bls12_381::Fq, ark_bn254::Fq (external
   constants) *)
Definition base (c : curve) : Z :=
  match c with
  | Bls => 4002409555221667393417789825735904156556882819939007885332058136124031650490837864442687629129015664037894272559787
  | Bn => 21888242871839275222246405745257275088696311157297823662689037894645226208583
  end.

(* FP_SERIALIZED_SIZE, BN254_FP_SERIALIZED_SIZE: bls12_381.rs:32, bn254.rs:24 *)
Definition fp_size (c : curve) : nat := match c with Bls => 48 | Bn => 32 end.

(* coordinates per element of the field: Fp, or Fp2 = Fp(u) with u^2 = -1 *)
Definition quad (g : group) : bool :=
  match g with BlsG2 | BnG2 => true | BlsG1 | BnG1 => false end.

(* FP2_SERIALIZED_SIZE, G1_SERIALIZED_SIZE, G2_SERIALIZED_SIZE and the BN254
   ones: bls12_381.rs:33-36, bn254.rs:25-27 *)
Definition el_size (g : group) : nat :=
  if quad g then 2 * fp_size (curve_of g) else fp_size (curve_of g).
Definition pt_size (g : group) : nat := 2 * el_size g.

(* elements: Fp, or c0 + c1 u *)
Inductive elem := E1 (c0 : Z) | E2 (c0 c1 : Z).

(* Affine<P>; the point at infinity has both coordinates zero *)
Inductive point := Inf | Aff (x y : elem).

(* ----------------------------------------------- the equation (external) *)

Definition eadd (q : Z) (a b : elem) : elem :=
  match a, b with
  | E1 a0, E1 b0 => E1 ((a0 + b0) mod q)
  | E2 a0 a1, E2 b0 b1 => E2 ((a0 + b0) mod q) ((a1 + b1) mod q)
  | _, _ => a
  end.
Definition emul (q : Z) (a b : elem) : elem :=
  match a, b with
  | E1 a0, E1 b0 => E1 ((a0 * b0) mod q)
  | E2 a0 a1, E2 b0 b1 => E2 ((a0 * b0 - a1 * b1) mod q) ((a0 * b1 + a1 * b0) mod q)
  | _, _ => a
  end.
Definition eeqb (a b : elem) : bool :=
  match a, b with
  | E1 a0, E1 b0 => a0 =? b0
  | E2 a0 a1, E2 b0 b1 => (a0 =? b0) && (a1 =? b1)
  | _, _ => false
  end.

(* SWCurveConfig::COEFF_B *)
Definition coeff_b (g : group) : elem :=
  match g with
  | BlsG1 => E1 4
  | BlsG2 => E2 4 4
  | BnG1 => E1 3
  | BnG2 => E2 19485874751759354771024239261021720505790618469301721065564631296452457478373
               266929791119991161246907387137283842545076965332900288569378510910307636690
  end.

(* Affine::is_on_curve *)
Definition is_on_curve (g : group) (p : point) : bool :=
  match p with
  | Inf => true
  | Aff x y =>
      let q := base (curve_of g) in
      eeqb (emul q y y) (eadd q (emul q (emul q x x) x) (coeff_b g))
  end.

(* ------------------------------------------------------------- the library *)

Record library := {
  (* is_in_correct_subgroup_assuming_on_curve *)
  in_subgroup : group -> point -> bool;
  (* add, mul and msm_unchecked followed by into_affine *)
  add_points : group -> point -> point -> point;
  mul_point : group -> point -> Z -> point;
  msm_points : group -> list point -> list Z -> point;
  (* multi_miller_loop and final_exponentiation; whether the result is one *)
  pairing_is_one : curve -> list point -> list point -> option bool;
  (* WBMap::map_to_curve and MapToCurveBasedHasher::hash *)
  map_elem : group -> elem -> option point;
  hash_bytes : group -> list Z -> list Z -> option point
}.

Definition INVALID_INPUT : err := ESys TCrypto CInvalidInput.
Definition INTERNAL_ERROR : err := ESys TCrypto CInternalError.

(* ------------------------------------------------------------- coordinates *)

(* a chunk of bytes *)
Definition chunk (n i : nat) (bs : list Z) : list Z := firstn n (skipn (n * i) bs).

(* reading of a big-endian coordinate (ark_bls12_381::curves::util
   read_fq_with_offset, external): values from the modulus on are refused *)
Definition read_be (q : Z) (bs : list Z) : option Z :=
  let v := fold_left (fun acc b => 256 * acc + b) bs 0 in
  if v <? q then Some v else None.

(* reading of a little-endian element (CanonicalDeserialize for Fp, external) *)
Definition read_le (q : Z) (bs : list Z) : option Z :=
  let v := fold_right (fun b acc => b + 256 * acc) 0 bs in
  if v <? q then Some v else None.

(* CanonicalDeserialize for Fp and QuadExtField (external): c0 comes first *)
Definition read_elem_le (g : group) (bs : list Z) : option elem :=
  let q := base (curve_of g) in
  let n := fp_size (curve_of g) in
  if quad g then
    match read_le q (chunk n 0 bs), read_le q (chunk n 1 bs) with
    | Some c0, Some c1 => Some (E2 c0 c1)
    | _, _ => None
    end
  else match read_le q bs with Some c0 => Some (E1 c0) | None => None end.

(* field_element_deserialize: bls12_381.rs:350-398;
   bn254_field_element_deserialize: bn254.rs:107-146 *)
Definition field_element_deserialize (g : group) (bs : list Z) : res elem :=
  if negb (Nat.eqb (length bs) (el_size g)) then Err INVALID_INPUT
  else match read_elem_le g (rev bs) with Some e => Ok e | None => Err INVALID_INPUT end.

(* serialize_uncompressed of Fp and QuadExtField (external), reversed:
   bn254_field_element_serialize, bn254.rs:148-187 *)
Definition field_element_serialize (g : group) (e : elem) : list Z :=
  let n := fp_size (curve_of g) in
  match e with
  | E1 c0 => rev (le_bytes n c0)
  | E2 c0 c1 => rev (le_bytes n c0 ++ le_bytes n c1)
  end.

(* --------------------------------------------------- encoding of BLS12-381 *)

(* validate_point_encoding: bls12_381.rs:124-160 *)
Definition validate_point_encoding (g : group) (bs : list Z) : res unit :=
  if negb (Nat.eqb (length bs) (pt_size g)) then Err INVALID_INPUT
  else
    let flags := Z.land 224 (nth 0 bs 0) in
    if flags =? 64 then
      if (nth 0 bs 0 =? 64) && forallb (fun x => x =? 0) (tl bs) then Ok tt else Err INVALID_INPUT
    else if flags =? 0 then Ok tt
    else Err INVALID_INPUT.

(* read_fq_with_offset with the flags masked off (external) *)
Definition masked (bs : list Z) : list Z :=
  match bs with b :: bs => Z.land b 31 :: bs | [] => [] end.

(* read_g1_uncompressed, read_g2_uncompressed of ark_bls12_381 (external), as
   called by deserialize_uncompressed_no_validate, bls12_381.rs:49-83 *)
Definition read_uncompressed (g : group) (bs : list Z) : option point :=
  let q := base Bls in
  let infinity := Z.testbit (nth 0 bs 0) 6 in
  if Z.testbit (nth 0 bs 0) 7 then None
  else
    if quad g then
      match read_be q (masked (chunk 48 0 bs)), read_be q (chunk 48 1 bs),
            read_be q (chunk 48 2 bs), read_be q (chunk 48 3 bs) with
      | Some xc1, Some xc0, Some yc1, Some yc0 =>
          Some (if infinity then Inf else Aff (E2 xc0 xc1) (E2 yc0 yc1))
      | _, _, _, _ => None
      end
    else
      match read_be q (masked (chunk 48 0 bs)), read_be q (chunk 48 1 bs) with
      | Some x, Some y => Some (if infinity then Inf else Aff (E1 x) (E1 y))
      | _, _ => None
      end.

(* serialize_with_mode of ark_bls12_381's groups (external), uncompressed: the
   infinity flag is bit 6 of the first byte; as called by
   g1_affine_serialize_uncompressed, g2_affine_serialize_uncompressed,
   bls12_381.rs:281-332 *)
Definition write_be (bs : Z) : list Z := rev (le_bytes 48 bs).
Definition write_elem_be (e : elem) : list Z :=
  match e with E1 c0 => write_be c0 | E2 c0 c1 => write_be c1 ++ write_be c0 end.
Definition serialize_bls (g : group) (p : point) : list Z :=
  match p with
  | Inf => Z.lor 0 64 :: repeat 0 (pt_size g - 1)
  | Aff x y => write_elem_be x ++ write_elem_be y
  end.

(* ------------------------------------------------------- encoding of BN254 *)

(* bn254_validate_flags_and_check_infinity: bn254.rs:53-89 *)
Definition bn254_validate_flags_and_check_infinity (g : group) (bs : list Z) : res bool :=
  if negb (Nat.eqb (length bs) (pt_size g)) then Err INVALID_INPUT
  else if negb (Z.land 192 (nth 0 bs 0) =? 0) then Err INVALID_INPUT
  else Ok (forallb (fun b => b =? 0) bs).

(* bn254_g1_affine_serialize_uncompressed: bn254.rs:307-326 (the one of G2,
   329-348, exists for tests only) *)
Definition zero_elem (g : group) : elem := if quad g then E2 0 0 else E1 0.
Definition serialize_bn (g : group) (p : point) : list Z :=
  match p with
  | Inf => field_element_serialize g (zero_elem g) ++ field_element_serialize g (zero_elem g)
  | Aff x y => field_element_serialize g x ++ field_element_serialize g y
  end.

Definition serialize (g : group) (p : point) : list Z :=
  match curve_of g with Bls => serialize_bls g p | Bn => serialize_bn g p end.

(* -------------------------------------------------------------- validation *)

(* PointValidationMode: crypto/mod.rs:28-34 *)
Inductive mode := NoCheck | CheckOnCurve | CheckOnCurveAndInSubgroup.

Section Host.
Variable L : library.

(* affine_deserialize: bls12_381.rs:182-243 *)
Definition affine_deserialize (g : group) (bs : list Z) (m : mode) : res point :=
  let? _ := validate_point_encoding g bs in
  match read_uncompressed g bs with
  | None => Err INVALID_INPUT
  | Some pt =>
      let check_on_curve := match m with NoCheck => false | _ => true end in
      let check_subgroup := match m with CheckOnCurveAndInSubgroup => true | _ => false end in
      if check_on_curve && negb (is_on_curve g pt) then Err INVALID_INPUT
      else if check_subgroup && negb (in_subgroup L g pt) then Err INVALID_INPUT
      else Ok pt
  end.

(* bn254_g1_affine_deserialize: bn254.rs:202-251 *)
Definition bn254_g1_affine_deserialize (bs : list Z) (m : mode) : res point :=
  let check_on_curve := match m with NoCheck => false | _ => true end in
  let? inf := bn254_validate_flags_and_check_infinity BnG1 bs in
  if inf then Ok Inf
  else
    let? x := field_element_deserialize BnG1 (chunk 32 0 bs) in
    let? y := field_element_deserialize BnG1 (chunk 32 1 bs) in
    let pt := Aff x y in
    if check_on_curve && negb (is_on_curve BnG1 pt) then Err INVALID_INPUT
    else Ok pt.

(* bn254_g2_affine_deserialize: bn254.rs:255-305 *)
Definition bn254_g2_affine_deserialize (bs : list Z) : res point :=
  let? inf := bn254_validate_flags_and_check_infinity BnG2 bs in
  if inf then Ok Inf
  else
    let? x := field_element_deserialize BnG2 (chunk 64 0 bs) in
    let? y := field_element_deserialize BnG2 (chunk 64 1 bs) in
    let pt := Aff x y in
    if negb (is_on_curve BnG2 pt) then Err INVALID_INPUT
    else if negb (in_subgroup L BnG2 pt) then Err INVALID_INPUT
    else Ok pt.

(* the deserialization each function of a group calls *)
Definition deserialize (g : group) (bs : list Z) (m : mode) : res point :=
  match g with
  | BlsG1 | BlsG2 => affine_deserialize g bs m
  | BnG1 => bn254_g1_affine_deserialize bs m
  | BnG2 => bn254_g2_affine_deserialize bs
  end.

(* ---------------------------------------------------------- host functions *)

(* values in the vectors of arguments *)
Inductive pval := PBytes (bs : list Z) | PU256 (v : u256val) | POther (n : Z).

Definition e_conversion : err := ESys TValue CUnexpectedType.

(* affine_vec_from_vecobj, checked_g1_vec_from_vecobj, checked_g2_vec_from_vecobj:
   bls12_381.rs:444-495; bn254_checked_g1_vec_from_vecobj,
   bn254_checked_g2_vec_from_vecobj: bn254.rs:405-448 *)
Fixpoint points_of (g : group) (vs : list pval) : res (list point) :=
  match vs with
  | [] => Ok []
  | PBytes bs :: vs =>
      let? p := deserialize g bs CheckOnCurveAndInSubgroup in
      let? ps := points_of g vs in
      Ok (p :: ps)
  | _ :: _ => Err e_conversion
  end.

(* fr_vec_from_vecobj: bls12_381.rs:408-424; bn254_fr_vec_from_vecobj:
   bn254.rs:450-466 *)
Fixpoint frs_of (c : curve) (vs : list pval) : res (list Z) :=
  match vs with
  | [] => Ok []
  | PU256 v :: vs => let? ss := frs_of c vs in Ok (from_u256val (order c) v :: ss)
  | _ :: _ => Err e_conversion
  end.

(* bls12_381_g1_is_on_curve, bls12_381_g2_is_on_curve, bn254_g1_is_on_curve:
   host.rs:3352-3380 *)
Definition g_is_on_curve (g : group) (bs : list Z) : res bool :=
  let? pt := deserialize g bs NoCheck in Ok (is_on_curve g pt).

(* bls12_381_check_g1_is_in_subgroup, bls12_381_check_g2_is_in_subgroup:
   host.rs:3078-3086, 3155-3163 *)
Definition g_is_in_subgroup (g : group) (bs : list Z) : res bool :=
  let? pt := deserialize g bs CheckOnCurve in Ok (in_subgroup L g pt).

(* bls12_381_g1_add, bls12_381_g2_add, bn254_g1_add: host.rs:3088-3098,
   3165-3175, 3280-3290 *)
Definition g_add (g : group) (a b : list Z) : res (list Z) :=
  let? p0 := deserialize g a CheckOnCurve in
  let? p1 := deserialize g b CheckOnCurve in
  Ok (serialize g (add_points L g p0 p1)).

(* bls12_381_g1_mul, bls12_381_g2_mul, bn254_g1_mul: host.rs:3100-3113,
   3177-3190, 3292-3302 *)
Definition g_mul (g : group) (a : list Z) (s : u256val) : res (list Z) :=
  let? p0 := deserialize g a (match curve_of g with Bls => CheckOnCurveAndInSubgroup
                                                  | Bn => CheckOnCurve end) in
  Ok (serialize g (mul_point L g p0 (from_u256val (order (curve_of g)) s))).

(* bls12_381_g1_msm, bls12_381_g2_msm, bn254_g1_msm: host.rs:3115-3125,
   3192-3202, 3382-3393; msm_internal: bls12_381.rs:515-540 *)
Definition g_msm (g : group) (vp vs : list pval) : res (list Z) :=
  let? points := points_of g vp in
  let? scalars := frs_of (curve_of g) vs in
  if negb (Nat.eqb (length points) (length scalars)) || Nat.eqb (length points) 0
  then Err INVALID_INPUT
  else Ok (serialize g (msm_points L g points scalars)).

(* bls12_381_multi_pairing_check, bn254_multi_pairing_check: host.rs:3232-3252,
   3304-3324; pairing_internal: bls12_381.rs:665-733, bn254.rs:522-581 *)
Definition multi_pairing_check (c : curve) (vp1 vp2 : list pval) : res bool :=
  if negb (Nat.eqb (length vp1) (length vp2)) || Nat.eqb (length vp1) 0
  then Err INVALID_INPUT
  else
    let? p1 := points_of (match c with Bls => BlsG1 | Bn => BnG1 end) vp1 in
    let? p2 := points_of (match c with Bls => BlsG2 | Bn => BnG2 end) vp2 in
    if negb (Nat.eqb (length p1) (length p2)) || Nat.eqb (length p1) 0
    then Err INVALID_INPUT
    else match pairing_is_one L c p1 p2 with
         | Some b => Ok b
         | None => Err INVALID_INPUT
         end.

(* bls12_381_map_fp_to_g1, bls12_381_map_fp2_to_g2: host.rs:3127-3135,
   3204-3212; map_to_curve: bls12_381.rs:542-588 *)
Definition map_to_group (g : group) (bs : list Z) : res (list Z) :=
  let? e := field_element_deserialize g bs in
  match map_elem L g e with
  | Some p => Ok (serialize g p)
  | None => Err INTERNAL_ERROR
  end.

(* bls12_381_hash_to_g1, bls12_381_hash_to_g2: host.rs:3137-3153, 3214-3230;
   hash_to_curve: bls12_381.rs:590-663 *)
Definition hash_to_group (g : group) (msg dst : list Z) : res (list Z) :=
  if Nat.eqb (length dst) 0 || Nat.ltb 255 (length dst) then Err INVALID_INPUT
  else match hash_bytes L g msg dst with
       | Some p => Ok (serialize g p)
       | None => Err INTERNAL_ERROR
       end.
End Host.
