(* The Poseidon and Poseidon2 permutations as published (Poseidon:
   eprint 2019/458; Poseidon2: eprint 2023/323): rounds that add constants,
   raise to the fifth power and multiply by a matrix, modulo a number p. *)
From Coq Require Import ZArith List Bool String.
From Verif Require Import Prelude FieldModel FieldSpec PoseidonModel.
Import ListNotations.
Open Scope Z_scope.

Definition dot (xs ys : list Z) : Z :=
  fold_right Z.add 0 (map (fun xy => fst xy * snd xy) (combine xs ys)).

(* matrix times vector, modulo p *)
Definition mat_vec (p : Z) (m : list (list Z)) (x : list Z) : list Z :=
  map (fun row => dot row x mod p) m.

(* the square matrix with the given entries *)
Definition matrix (t : nat) (entry : nat -> nat -> Z) : list (list Z) :=
  map (fun i => map (entry i) (seq 0 t)) (seq 0 t).

Definition fifth_all (p : Z) (x : list Z) : list Z := map (fun a => a ^ 5 mod p) x.
Definition fifth_first (p : Z) (x : list Z) : list Z :=
  match x with [] => [] | a :: x => a ^ 5 mod p :: x end.

Definition add_all (p : Z) (x k : list Z) : list Z :=
  map (fun ak => (fst ak + snd ak) mod p) (combine x k).
Definition add_first (p : Z) (x k : list Z) : list Z :=
  match x, k with a :: x, b :: _ => (a + b) mod p :: x | _, _ => x end.

(* rounds: half of the full ones, the partial ones, the other half *)
Definition in_rounds (full partial : list Z -> list Z -> list Z) (rf rp : nat)
  (rcs : list (list Z)) (x : list Z) : list Z :=
  let half := Nat.div rf 2 in
  let x := fold_left full (firstn half rcs) x in
  let x := fold_left partial (firstn rp (skipn half rcs)) x in
  fold_left full (skipn (half + rp) rcs) x.

Definition poseidon (p : Z) (mds : list (list Z)) (rf rp : nat) (rcs : list (list Z))
  (x : list Z) : list Z :=
  in_rounds (fun x k => mat_vec p mds (fifth_all p (add_all p x k)))
            (fun x k => mat_vec p mds (fifth_first p (add_all p x k)))
            rf rp rcs x.

(* ------------------------------------------------------------- Poseidon2 *)

(* the 4-by-4 matrix of section 5.1 *)
Definition M4 : list (list Z) :=
  [[5; 7; 1; 3]; [4; 6; 1; 1]; [1; 3; 5; 7]; [1; 1; 4; 6]].
Definition m4 (i j : nat) : Z := nth j (nth i M4 []) 0.

(* external: circ(2, 1), circ(2, 1, 1), M4, circ(2 M4, M4, ..., M4) *)
Definition external_matrix (t : nat) : list (list Z) :=
  matrix t (fun i j =>
    if Nat.ltb t 4 then (if Nat.eqb i j then 2 else 1)
    else if Nat.eqb t 4 then m4 i j
    else (if Nat.eqb (i / 4) (j / 4) then 2 else 1) * m4 (i mod 4) (j mod 4)).

(* internal: all ones, plus a diagonal.  The diagonal is the caller's except
   for states of two and three elements, where it is fixed. *)
Definition diagonal_used (t : nat) (diag : list Z) : list Z :=
  match t with
  | 2%nat => [1; 2]
  | 3%nat => [1; 1; 2]
  | _ => diag
  end.

Definition internal_matrix (t : nat) (diag : list Z) : list (list Z) :=
  matrix t (fun i j => if Nat.eqb i j then 1 + nth i (diagonal_used t diag) 0 else 1).

Definition poseidon2 (p : Z) (t : nat) (diag : list Z) (rf rp : nat)
  (rcs : list (list Z)) (x : list Z) : list Z :=
  in_rounds (fun x k => mat_vec p (external_matrix t) (fifth_all p (add_all p x k)))
            (fun x k => mat_vec p (internal_matrix t diag) (fifth_first p (add_first p x k)))
            rf rp rcs (mat_vec p (external_matrix t) x).

(* ------------------------------------------------- what is accepted *)

Definition len {A} (l : list A) : Z := Z.of_nat (List.length l).

Definition poseidon_accepts {A} (input : list A) (t d rf rp : Z)
  (mds rcs : list (list A)) : Prop :=
  d = 5 /\ Z.Even rf /\ rf + rp < 2 ^ 32
  /\ len input = t /\ len mds = t /\ len rcs = rf + rp
  /\ Forall (fun k => len k = t) rcs
  /\ (0 < rf + rp -> Forall (fun row => len row = t) mds)
  /\ (0 < rp -> 0 < t).

Definition poseidon2_accepts {A} (input : list A) (t d rf rp : Z)
  (diag : list A) (rcs : list (list A)) : Prop :=
  d = 5 /\ Z.Even rf /\ rf + rp < 2 ^ 32
  /\ In t [2; 3; 4; 8; 12; 16; 20; 24]
  /\ len input = t /\ len diag = t /\ len rcs = rf + rp
  /\ let half := Z.to_nat (rf / 2) in
     Forall (fun k => len k = t) (firstn half rcs)
     /\ Forall (fun k => 0 < len k) (firstn (Z.to_nat rp) (skipn half rcs))
     /\ Forall (fun k => len k = t) (skipn (half + Z.to_nat rp) rcs).

(* ------------------------------------------------------- API vocabulary *)

(* the two field names *)
Definition names_field (s : string) (c : curve) : Prop :=
  (s = "BLS12_381"%string /\ c = Bls) \/ (s = "BN254"%string /\ c = Bn).

(* vectors, and vectors of vectors, of U256 values *)
Definition vec (vs : list u256val) : list hval := map HU256 vs.
Definition mat (m : list (list u256val)) : list hval := map (fun r => HVec (vec r)) m.

Definition residues (p : Z) (vs : list u256val) : list Z := map (fun v => value v mod p) vs.

(* the linear map determines its argument *)
Definition nonsingular (p : Z) (t : nat) (m : list (list Z)) : Prop :=
  forall x y, List.length x = t -> List.length y = t ->
    Forall (fun a => 0 <= a < p) x -> Forall (fun a => 0 <= a < p) y ->
    mat_vec p m x = mat_vec p m y -> x = y.
