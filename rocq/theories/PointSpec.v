(* Points and their encodings, independently of the code that reads them. *)
From Coq Require Import ZArith List Bool.
From Verif Require Import Prelude FieldModel FieldSpec IntSpec PointModel.
Import ListNotations.
Open Scope Z_scope.

Definition bytes (bs : list Z) : Prop := Forall (fun b => 0 <= b < 256) bs.

(* a number below the modulus, big-endian in the curve's fixed size *)
Definition fp_bytes (c : curve) (bs : list Z) (a : Z) : Prop :=
  bytes bs /\ length bs = fp_size c /\ big_endian bs = a /\ a < base c.

(* an element of the group's field; c0 + c1 u is written c1 first *)
Definition elem_bytes (g : group) (bs : list Z) (e : elem) : Prop :=
  match e with
  | E1 a => quad g = false /\ fp_bytes (curve_of g) bs a
  | E2 a b => quad g = true
              /\ exists hi lo, bs = hi ++ lo /\ fp_bytes (curve_of g) hi b /\ fp_bytes (curve_of g) lo a
  end.

(* a point: both coordinates, x first; infinity has its own byte string *)
Definition infinity_bytes (g : group) : list Z :=
  match curve_of g with
  | Bls => 64 :: repeat 0 (pt_size g - 1)
  | Bn => repeat 0 (pt_size g)
  end.
Definition encodes (g : group) (bs : list Z) (p : point) : Prop :=
  match p with
  | Inf => bs = infinity_bytes g
  | Aff x y => bs <> infinity_bytes g
               /\ exists bx by_, bs = bx ++ by_ /\ elem_bytes g bx x /\ elem_bytes g by_ y
  end.

(* the curves: y^2 = x^3 + 4 and y^2 = x^3 + 3 over Fp; over Fp2, with u^2 = -1,
   y^2 = x^3 + 4 (1 + u) and (9 + u) (y^2 - x^3) = 3, by real and imaginary
   part *)
Definition solves (g : group) (p : point) : Prop :=
  let q := base (curve_of g) in
  match p with
  | Inf => True
  | Aff (E1 x) (E1 y) =>
      match g with
      | BlsG1 => (q | y * y - x * x * x - 4)
      | BnG1 => (q | y * y - x * x * x - 3)
      | _ => False
      end
  | Aff (E2 x0 x1) (E2 y0 y1) =>
      (* y^2 - x^3 *)
      let re := (y0 * y0 - y1 * y1) - (x0 * x0 * x0 - 3 * x0 * x1 * x1) in
      let im := 2 * y0 * y1 - (3 * x0 * x0 * x1 - x1 * x1 * x1) in
      match g with
      | BlsG2 => (q | re - 4) /\ (q | im - 4)
      | BnG2 => (q | 9 * re - im - 3) /\ (q | re + 9 * im)
      | _ => False
      end
  | _ => False
  end.

(* reduced coordinates of the group's field *)
Definition reduced (c : curve) (a : Z) : Prop := 0 <= a < base c.
Definition elem_of (g : group) (e : elem) : Prop :=
  match e with
  | E1 a => quad g = false /\ reduced (curve_of g) a
  | E2 a b => quad g = true /\ reduced (curve_of g) a /\ reduced (curve_of g) b
  end.
Definition point_of (g : group) (p : point) : Prop :=
  match p with Inf => True | Aff x y => elem_of g x /\ elem_of g y end.

(* what each mode demands.  Points of BN254's G2 are always checked; its G1 has
   no proper subgroup *)
Definition demanded (L : library) (g : group) (m : mode) (p : point) : Prop :=
  (m <> NoCheck \/ g = BnG2 -> solves g p)
  /\ (m = CheckOnCurveAndInSubgroup /\ g <> BnG1 \/ g = BnG2 -> in_subgroup L g p = true).

(* [bs] is an acceptable argument for the point [p] *)
Definition argument (L : library) (g : group) (m : mode) (bs : list Z) (p : point) : Prop :=
  bytes bs /\ encodes g bs p /\ demanded L g m p.

(* the neutral element is in every group *)
Definition has_infinity (L : library) : Prop := forall g, in_subgroup L g Inf = true.

(* points of the curve, and of the group *)
Definition on (g : group) (p : point) : Prop := point_of g p /\ solves g p.
Definition inside (L : library) (g : group) (p : point) : Prop :=
  on g p /\ in_subgroup L g p = true.

(* the library's functions stay on the curve and in the group *)
Definition closed (L : library) : Prop :=
  (forall g p p', on g p -> on g p' -> on g (add_points L g p p'))
  /\ (forall g p n, inside L g p -> inside L g (mul_point L g p n))
  /\ (forall g ps ns, Forall (inside L g) ps -> inside L g (msm_points L g ps ns))
  /\ (forall g e p, elem_of g e -> map_elem L g e = Some p -> on g p)
  /\ (forall g m d p, hash_bytes L g m d = Some p -> inside L g p)
  /\ has_infinity L
  /\ (forall p, on BnG1 p -> in_subgroup L BnG1 p = true).

(* the parameters from which the curves are generated, and the moduli and
   orders they give *)
Definition bls_x : Z := - 15132376222941642752.
Definition bn_x : Z := 4965661367192848881.
Definition bls_modulus (x q : Z) : Prop := 3 * q = (x - 1) ^ 2 * (x ^ 4 - x ^ 2 + 1) + 3 * x.
Definition bls_order (x r : Z) : Prop := r = x ^ 4 - x ^ 2 + 1.
Definition bn_modulus (x q : Z) : Prop := q = 36 * x ^ 4 + 36 * x ^ 3 + 24 * x ^ 2 + 6 * x + 1.
Definition bn_order (x r : Z) : Prop := r = 36 * x ^ 4 + 36 * x ^ 3 + 18 * x ^ 2 + 6 * x + 1.

(* arguments in vectors: byte strings of points, and U256 values *)
Definition pval_ok (v : pval) : Prop :=
  match v with PBytes bs => bytes bs | PU256 u => u256_ok u | POther _ => True end.
Definition is_point (L : library) (g : group) (v : pval) (p : point) : Prop :=
  exists bs, v = PBytes bs /\ argument L g CheckOnCurveAndInSubgroup bs p.
Definition is_scalar (g : group) (v : pval) (n : Z) : Prop :=
  exists u, v = PU256 u /\ n = value u mod order (curve_of g).
