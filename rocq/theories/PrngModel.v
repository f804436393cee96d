(* Ranged draws and shuffling (host/prng.rs:100-141).  The host delegates to the
   rand crate (0.8: UniformInt::sample, SliceRandom::shuffle), which is not part
   of /repo nor of this sandbox: its loops are written here from recollection of
   rand 0.8.5 (the version in /repo/Cargo.lock), not checked against its source,
   and work over an arbitrary sequence of generator outputs.  ChaCha20 itself is not modelled: the outputs are a list,
   and a sampler that runs out of outputs answers None. *)
From Coq Require Import ZArith List Bool.
From Verif Require Import Prelude.
Import ListNotations.
Open Scope Z_scope.

(* rand 0.8 UniformInt: new_inclusive, sample; [w] is 2^64, the outputs are words
   below w *)
Fixpoint reject (w range zone low : Z) (out : list Z) : option (Z * list Z) :=
  match out with
  | [] => None
  | v :: out' =>
      let hi := v * range / w in
      let lo := v * range mod w in
      if lo <=? zone then Some ((low + hi) mod w, out') else reject w range zone low out'
  end.
Definition uniform (w lo hi : Z) (out : list Z) : option (Z * list Z) :=
  let range := ((hi - lo) mod w + 1) mod w in
  if range =? 0 then match out with [] => None | v :: out' => Some (v, out') end
  else
    let to_reject := (w - 1 - range + 1) mod range in
    reject w range (w - 1 - to_reject) lo out.

(* rand 0.8 UniformInt::sample_single_inclusive, which shuffling uses for its indices, at 32
   bits: the zone is range << range.leading_zeros(), less one *)
Definition single (lo hi : Z) (out : list Z) : option (Z * list Z) :=
  let w := 2 ^ 32 in
  let range := ((hi - lo) mod w + 1) mod w in
  if range =? 0 then match out with [] => None | v :: out' => Some (v, out') end
  else reject w range (range * 2 ^ (31 - Z.log2 range) - 1) lo out.

(* prng.rs:100-117 *)
Definition u64_in_inclusive_range (lo hi : Z) (out : list Z) : res (option (Z * list Z)) :=
  if lo >? hi then Err (ESys TValue CInvalidInput) else Ok (uniform (2 ^ 64) lo hi out).

(* slice::swap *)
Definition set_nth {A} (l : list A) (i : nat) (x : A) : list A := firstn i l ++ x :: skipn (S i) l.
Definition swap {A} (l : list A) (i j : nat) : list A :=
  match nth_error l i, nth_error l j with
  | Some x, Some y => set_nth (set_nth l i y) j x
  | _, _ => l
  end.
(* rand 0.8 SliceRandom::shuffle: for i in (1..len).rev() swap(i, gen_index(i + 1)); gen_index
   draws 32-bit numbers for lengths below 2^32, which those of host vectors are *)
Fixpoint shuffle_from {A} (i : nat) (l : list A) (out : list Z) : option (list A * list Z) :=
  match i with
  | O => Some (l, out)
  | S i' =>
      match single 0 (Z.of_nat i) out with
      | None => None
      | Some (j, out') => shuffle_from i' (swap l i (Z.to_nat j)) out'
      end
  end.
(* prng.rs:119-141 *)
Definition vec_shuffle {A} (l : list A) (out : list Z) : option (list A * list Z) :=
  shuffle_from (length l - 1) l out.
