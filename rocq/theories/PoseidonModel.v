(* The Poseidon and Poseidon2 permutations over the scalar fields.

   Modelled files of soroban-env-host/src: crypto/poseidon/*, the vector
   conversions of host/conversion.rs, poseidon_permutation_impl and
   poseidon2_permutation_impl of crypto/mod.rs, and the two host functions of
   host.rs.  Budget charges are left out. *)
From Coq Require Import ZArith Lia List Bool String.
From Verif Require Import Prelude FieldModel.
Import ListNotations.
Open Scope Z_scope.

(* -------------------------------------------------------------- Poseidon *)

(* crypto/poseidon/mod.rs:27-30 *)
Definition VEC_OOB : err := ESys TObject CIndexBounds.
Definition INVALID_INPUT : err := ESys TCrypto CInvalidInput.

(* SUPPORTED_SBOX_DEGREES: crypto/poseidon/mod.rs:20 *)
Definition sbox_degrees : list Z := [5].

Section Generic.

(* The code is generic in F: MeteredScalar; so is the model. *)
Variable F : Type.
Variable zero : F.
Variables add mul : F -> F -> F.
Variable pow : F -> Z -> F.

(* metered_double_in_place: crypto/metered_scalar.rs:51-54, 99-102 *)
Definition double (x : F) : F := add x x.

(* sbox, sbox_p: crypto/poseidon/utils.rs:8-25 *)
Definition sbox_p (d : Z) (x : F) : F := pow x d.
Definition sbox (d : Z) (xs : list F) : list F := map (sbox_p d) xs.

(* add_rc: crypto/poseidon/utils.rs:27-48 *)
Definition add_rc (xs rc : list F) : res (list F) :=
  if negb (Z.of_nat (List.length xs) =? Z.of_nat (List.length rc))
  then Err (ESys TCrypto CInvalidInput)
  else Ok (map (fun ab => add (fst ab) (snd ab)) (combine xs rc)).

(* PoseidonParams and Poseidon2Params: poseidon_params.rs:10-18,
   poseidon2_params.rs:10-18.  [mat] is mds, respectively
   mat_internal_diag_m_1. *)
Record params (M : Type) := mkparams {
  pt : Z; pd : Z; pfb : Z; prp : Z; prounds : Z; pmat : M; prc : list (list F) }.
Arguments mkparams {M}.
Arguments pt {M}. Arguments pd {M}. Arguments pfb {M}. Arguments prp {M}.
Arguments prounds {M}. Arguments pmat {M}. Arguments prc {M}.

(* PoseidonParams::new: poseidon_params.rs:23-80, and Poseidon2Params::new:
   poseidon2_params.rs:23-80 (the same code, with the length of the diagonal
   in the place of the number of rows of the matrix) *)
Definition new_params {M} (mlen : M -> Z) (t d rf rp : Z) (m : M) (rc : list (list F))
  : res (params M) :=
  if negb (existsb (Z.eqb d) sbox_degrees) then Err INVALID_INPUT
  else if negb (mlen m =? t) then Err INVALID_INPUT
  else if negb (rf mod 2 =? 0) then Err INVALID_INPUT
  else let r := rf / 2 in
  if 2 ^ 32 - 1 <? rf + rp then Err (ESys TValue CArithDomain)
  else let rounds := rf + rp in
  if negb (Z.of_nat (List.length rc) =? rounds) then Err INVALID_INPUT
  else Ok (mkparams t d r rp rounds m rc).

(* for r in lo..lo+n { state = body(round_constants.get(r)?, state)? } *)
Fixpoint rounds_loop (body : list F -> list F -> res (list F)) (rcs : list (list F))
  (lo n : nat) (s : list F) : res (list F) :=
  match n with
  | O => Ok s
  | S n =>
      match nth_error rcs lo with
      | None => Err VEC_OOB
      | Some rc => let? s := body rc s in rounds_loop body rcs (S lo) n s
      end
  end.

(* matmul of Poseidon: poseidon.rs:72-111 *)
Fixpoint matmul_rows (t : Z) (mat : list (list F)) (input : list F) : res (list F) :=
  match mat with
  | [] => Ok []
  | row :: mat =>
      if negb (Z.of_nat (List.length row) =? t) then Err INVALID_INPUT
      else
        let out := fold_left (fun acc mi => add acc (mul (fst mi) (snd mi)))
                             (combine row input) zero in
        let? rest := matmul_rows t mat input in
        Ok (out :: rest)
  end.

Definition matmul (mat : list (list F)) (input : list F) : res (list F) :=
  let t := Z.of_nat (List.length input) in
  if negb (Z.of_nat (List.length mat) =? t) then Err INVALID_INPUT
  else matmul_rows t mat input.

(* poseidon.rs:35-42 and 57-64: a full round *)
Definition p1_full (d : Z) (mds : list (list F)) (rc s : list F) : res (list F) :=
  let? s := add_rc s rc in matmul mds (sbox d s).

(* poseidon.rs:45-55: a partial round *)
Definition p1_partial (d : Z) (mds : list (list F)) (rc s : list F) : res (list F) :=
  let? s := add_rc s rc in
  match s with
  | [] => Err VEC_OOB
  | x :: s => matmul mds (sbox_p d x :: s)
  end.

(* Poseidon::permutation: poseidon.rs:20-66 *)
Definition p1_permutation (ps : params (list (list F))) (input : list F) : res (list F) :=
  if negb (Z.of_nat (List.length input) =? pt ps) then Err INVALID_INPUT
  else
    let fb := Z.to_nat (pfb ps) in
    let p_end := Z.to_nat (pfb ps + prp ps) in
    let? s := rounds_loop (p1_full (pd ps) (pmat ps)) (prc ps) 0 fb input in
    let? s := rounds_loop (p1_partial (pd ps) (pmat ps)) (prc ps) fb (p_end - fb) s in
    rounds_loop (p1_full (pd ps) (pmat ps)) (prc ps) p_end
                (Z.to_nat (prounds ps) - p_end) s.

(* ------------------------------------------------------------- Poseidon2 *)

(* matmul_m4: poseidon2.rs:90-142.  The loop writes each chunk of four before
   it goes on to the next; the two length tests come first. *)
Fixpoint m4_chunks (s : list F) : list F :=
  match s with
  | s0 :: s1 :: s2 :: s3 :: rest =>
      let t_0 := add s0 s1 in
      let t_1 := add s2 s3 in
      let t_2 := add (double s1) t_1 in
      let t_3 := add (double s3) t_0 in
      let t_4 := add (double (double t_1)) t_3 in
      let t_5 := add (double (double t_0)) t_2 in
      let t_6 := add t_3 t_5 in
      let t_7 := add t_2 t_4 in
      t_6 :: t_5 :: t_7 :: t_4 :: m4_chunks rest
  | rest => rest
  end.

Definition matmul_m4 (t : Z) (s : list F) : res (list F) :=
  if negb (t mod 4 =? 0) then Err INVALID_INPUT
  else if negb (Z.of_nat (List.length s) =? t) then Err INVALID_INPUT
  else Ok (m4_chunks s).

(* stored[l]: poseidon2.rs:194-201: element l of the first chunk plus element
   l of each later chunk *)
Definition stored (t4 : nat) (s : list F) (l : nat) : F :=
  fold_left (fun acc j => add acc (nth (4 * j + l) s zero)) (seq 1 (t4 - 1)) (nth l s zero).

(* matmul_external: poseidon2.rs:151-216 *)
Definition matmul_external (t : Z) (s : list F) : res (list F) :=
  if negb (Z.of_nat (List.length s) =? t) then Err INVALID_INPUT
  else if t =? 2 then
    match s with
    | [a; b] => let sum := add a b in Ok [add a sum; add b sum]
    | _ => Err INVALID_INPUT
    end
  else if t =? 3 then
    match s with
    | [a; b; c] => let sum := add (add a b) c in Ok [add a sum; add b sum; add c sum]
    | _ => Err INVALID_INPUT
    end
  else if t =? 4 then matmul_m4 t s
  else if existsb (Z.eqb t) [8; 12; 16; 20; 24] then
    let? s := matmul_m4 t s in
    let t4 := Z.to_nat (t / 4) in
    let st := map (stored t4 s) [0; 1; 2; 3]%nat in
    Ok (map (fun i => add (nth i s zero) (nth (i mod 4) st zero))
            (seq 0 (List.length s)))
  else Err INVALID_INPUT.

(* matmul_internal: poseidon2.rs:225-284 *)
Definition matmul_internal (t : Z) (diag s : list F) : res (list F) :=
  if negb (t =? Z.of_nat (List.length s)) || negb (t =? Z.of_nat (List.length diag))
  then Err INVALID_INPUT
  else if t =? 2 then
    match s with
    | [a; b] => let sum := add a b in Ok [add a sum; add (double b) sum]
    | _ => Err INVALID_INPUT
    end
  else if t =? 3 then
    match s with
    | [a; b; c] =>
        let sum := add (add a b) c in Ok [add a sum; add b sum; add (double c) sum]
    | _ => Err INVALID_INPUT
    end
  else if existsb (Z.eqb t) [4; 8; 12; 16; 20; 24] then
    match s with
    | [] => Err INVALID_INPUT
    | s0 :: rest =>
        let sum := fold_left add rest s0 in
        Ok (map (fun xd => add (mul (fst xd) (snd xd)) sum) (combine s diag))
    end
  else Err INVALID_INPUT.

(* poseidon2.rs:38-49 and 71-82: a full round *)
Definition p2_full (d t : Z) (rc s : list F) : res (list F) :=
  let? s := add_rc s rc in matmul_external t (sbox d s).

(* poseidon2.rs:52-69: a partial round *)
Definition p2_partial (d t : Z) (diag rc s : list F) : res (list F) :=
  match rc with
  | [] => Err VEC_OOB
  | r0 :: _ =>
      match s with
      | [] => Err VEC_OOB
      | x :: s => matmul_internal t diag (sbox_p d (add x r0) :: s)
      end
  end.

(* Poseidon2::permutation: poseidon2.rs:20-84 *)
Definition p2_permutation (ps : params (list F)) (input : list F) : res (list F) :=
  if negb (Z.of_nat (List.length input) =? pt ps) then Err INVALID_INPUT
  else
    let fb := Z.to_nat (pfb ps) in
    let p_end := Z.to_nat (pfb ps + prp ps) in
    let? s := matmul_external (pt ps) input in
    let? s := rounds_loop (p2_full (pd ps) (pt ps)) (prc ps) 0 fb s in
    let? s := rounds_loop (p2_partial (pd ps) (pt ps) (pmat ps)) (prc ps) fb (p_end - fb) s in
    rounds_loop (p2_full (pd ps) (pt ps)) (prc ps) p_end
                (Z.to_nat (prounds ps) - p_end) s.

End Generic.

Arguments mkparams {F M}.

(* ------------------------------------------------- Poseidon host functions *)

(* The values a guest can put into the vectors: U256 values, vectors, and
   anything else *)
Inductive hval :=
| HU256 (v : u256val)
| HVec (l : list hval)
| HOther (n : Z).

(* metered_scalar_vec_from_vecobj: host/conversion.rs:289-312 *)
Fixpoint scalars_of (p : Z) (l : list hval) : res (list Z) :=
  match l with
  | [] => Ok []
  | HU256 v :: l => let? r := scalars_of p l in Ok (from_u256val p v :: r)
  | _ :: _ => Err (ESys TCrypto CInvalidInput)
  end.

(* metered_scalar_vec_of_vec_from_vecobj: host/conversion.rs:334-359 *)
Fixpoint rows_of (p : Z) (l : list hval) : res (list (list Z)) :=
  match l with
  | [] => Ok []
  | HVec row :: l =>
      let? x := scalars_of p row in
      let? r := rows_of p l in Ok (x :: r)
  | _ :: _ => Err (ESys TCrypto CInvalidInput)
  end.

(* metered_scalar_vec_to_vecobj: host/conversion.rs:315-331 *)
Definition vec_of_scalars (xs : list Z) : list hval := map (fun x => HU256 (into_u256val x)) xs.

(* poseidon_permutation_impl: crypto/mod.rs:322-362 *)
Definition poseidon_impl (c : curve) (input : list hval) (t d rf rp : Z)
  (mds rcs : list hval) : res (list hval) :=
  let p := order c in
  let? input := scalars_of p input in
  let? mds := rows_of p mds in
  let? rcs := rows_of p rcs in
  let? ps := new_params Z (fun m => Z.of_nat (List.length m)) t d rf rp mds rcs in
  let? out := p1_permutation Z 0 (fadd p) (fmul p) (fpow p) ps input in
  Ok (vec_of_scalars out).

(* poseidon2_permutation_impl: crypto/mod.rs:366-407 *)
Definition poseidon2_impl (c : curve) (input : list hval) (t d rf rp : Z)
  (diag rcs : list hval) : res (list hval) :=
  let p := order c in
  let? input := scalars_of p input in
  let? diag := scalars_of p diag in
  let? rcs := rows_of p rcs in
  let? ps := new_params Z (fun m => Z.of_nat (List.length m)) t d rf rp diag rcs in
  let? out := p2_permutation Z 0 (fadd p) (fmul p) (fpow p) ps input in
  Ok (vec_of_scalars out).

(* the choice of field by symbol: host.rs:3415-3442 and 3465-3492 *)
Definition field_of (sym : string) : option curve :=
  if String.eqb sym "BLS12_381" then Some Bls
  else if String.eqb sym "BN254" then Some Bn
  else None.

(* poseidon_permutation: host.rs:3395-3443 *)
Definition poseidon_permutation (input : list hval) (field : string) (t d rf rp : Z)
  (mds rcs : list hval) : res (list hval) :=
  match field_of field with
  | Some c => poseidon_impl c input t d rf rp mds rcs
  | None => Err (ESys TCrypto CInvalidInput)
  end.

(* poseidon2_permutation: host.rs:3445-3493 *)
Definition poseidon2_permutation (input : list hval) (field : string) (t d rf rp : Z)
  (diag rcs : list hval) : res (list hval) :=
  match field_of field with
  | Some c => poseidon2_impl c input t d rf rp diag rcs
  | None => Err (ESys TCrypto CInvalidInput)
  end.
