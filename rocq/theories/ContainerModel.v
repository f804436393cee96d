(* Generic containers of the host: the binary search shared by both, the sorted
   map MeteredOrdMap (host/metered_map.rs) and the vector MeteredVector
   (host/metered_vector.rs).

   Simplifications: budget charges are omitted (they can only turn a call into an
   error, never change a result); lengths are Coq nats, and the u32 limit on them
   is kept as a check. *)
From Coq Require Import ZArith Lia List Bool.
From Verif Require Import Prelude.
Import ListNotations.
Open Scope Z_scope.

(* metered_vector.rs:10 VEC_OOB, metered_map.rs MAP_OOB; the other two are the
   errors of metered_map.rs:130-135 *)
Definition e_oob : err := ESys TObject CIndexBounds.
Definition e_obj_internal : err := ESys TObject CInternalError.
Definition e_obj_invalid : err := ESys TObject CInvalidInput.

Definition fits_u32 (n : nat) : bool := Z.of_nat n <=? u32_max.
Definition is_u32_max (n : nat) : bool := Z.of_nat n =? u32_max.

(* Result<usize, usize> of a search. *)
Inductive found := Found (i : nat) | Missing (i : nat).

(* ------------------------------------------------------------ binary search *)

(* metered_vector.rs:404-445, binary_search_by_pre_rust_182, with the fallible
   probe wrapper of metered_vector.rs:280-308 / metered_map.rs:168-194 folded in:
   an error makes the probe answer Equal, which ends the loop at once, and the
   error is then returned; so the model stops at the error.  The first component
   is the list of probed positions, kept to count comparisons.  `fuel` bounds the
   loop; S (length l) always suffices (ContainerProofs.bsearch_no_fuel_out). *)
Fixpoint bsearch_loop {A} (f : A -> res comparison) (l : list A)
    (fuel : nat) (size left right : nat) : list nat * res found :=
  match fuel with
  | O => ([], Err e_obj_internal)
  | S fuel' =>
      if Nat.ltb left right then
        let mid := (left + size / 2)%nat in
        match nth_error l mid with
        | None => ([], Err e_obj_internal)
        | Some x =>
            match f x with
            | Err e => ([mid], Err e)
            | Ok Eq => ([mid], Ok (Found mid))
            | Ok Lt =>
                let left' := (mid + 1)%nat in
                let '(t, r) := bsearch_loop f l fuel' (right - left') left' right in
                (mid :: t, r)
            | Ok Gt =>
                let right' := mid in
                let '(t, r) := bsearch_loop f l fuel' (right' - left) left right' in
                (mid :: t, r)
            end
        end
      else ([], Ok (Missing left))
  end.

Definition bsearch_trace {A} (f : A -> res comparison) (l : list A) : list nat * res found :=
  bsearch_loop f l (S (length l)) (length l) 0 (length l).

Definition bsearch {A} (f : A -> res comparison) (l : list A) : res found :=
  snd (bsearch_trace f l).

(* conversion.rs:176-190, u64_from_binary_search_result; usize_to_u32 fails with
   (Value, ArithDomain) when the index is not a u32 (conversion.rs:27-38). *)
Definition e_arith : err := ESys TValue CArithDomain.
Definition bsearch_result_u64 (r : found) : res Z :=
  match r with
  | Found i => if fits_u32 i then Ok (Z.lor (Z.of_nat i) (Z.shiftl 1 32)) else Err e_arith
  | Missing i => if fits_u32 i then Ok (Z.of_nat i) else Err e_arith
  end.

(* ------------------------------------------------------------ sorted map *)

Section OrdMap.
  Context {K V : Type}.
  Variable cmp : K -> K -> res comparison.    (* Ctx: Compare<K> *)

  (* the windows(2) loop of metered_map.rs:127-136 *)
  Fixpoint check_sorted (l : list (K * V)) : res unit :=
    match l with
    | [] => Ok tt
    | a :: t =>
        match t with
        | [] => Ok tt
        | b :: _ =>
            let? c := cmp (fst a) (fst b) in
            match c with
            | Lt => check_sorted t
            | _ => Err e_obj_invalid
            end
        end
    end.

  (* metered_map.rs:117-138; from_exact_iter (144-166) makes the same length check
     and delegates to it. *)
  Definition omap_from (l : list (K * V)) : res (list (K * V)) :=
    if fits_u32 (length l) then let? _ := check_sorted l in Ok l else Err e_oob.

  (* metered_map.rs:168-194 *)
  Definition omap_find (m : list (K * V)) (k : K) : res found :=
    bsearch (fun p => cmp (fst p) k) m.

  (* metered_map.rs:196-225; the usize::MAX - 1 test can never fire on a list of
     u32 length and is omitted. *)
  Definition omap_insert (m : list (K * V)) (k : K) (v : V) : res (list (K * V)) :=
    let? r := omap_find m k in
    match r with
    | Found i => omap_from (firstn i m ++ [(k, v)] ++ skipn (i + 1) m)
    | Missing i =>
        if is_u32_max (length m) then Err e_oob
        else omap_from (firstn i m ++ [(k, v)] ++ skipn i m)
    end.

  (* metered_map.rs:227-242 *)
  Definition omap_get (m : list (K * V)) (k : K) : res (option V) :=
    let? r := omap_find m k in
    match r with
    | Found i =>
        match nth_error m i with
        | Some (_, v) => Ok (Some v)
        | None => Err e_obj_internal
        end
    | Missing _ => Ok None
    end.

  (* metered_map.rs:244-249 *)
  Definition omap_at (m : list (K * V)) (i : Z) : res (K * V) :=
    match nth_error m (Z.to_nat i) with Some p => Ok p | None => Err e_oob end.

  (* metered_map.rs:254-288 *)
  Definition omap_remove (m : list (K * V)) (k : K) : res (option (list (K * V) * V)) :=
    let? r := omap_find m k in
    match r with
    | Found i =>
        let? new := (if Nat.ltb 0 i then omap_from (firstn i m ++ skipn (i + 1) m)
                     else omap_from (skipn 1 m)) in
        match nth_error m i with
        | Some (_, v) => Ok (Some (new, v))
        | None => Err e_obj_internal
        end
    | Missing _ => Ok None
    end.

  (* metered_map.rs:294-300 *)
  Definition omap_contains (m : list (K * V)) (k : K) : res bool :=
    let? r := omap_find m k in
    Ok (match r with Found _ => true | Missing _ => false end).
End OrdMap.

(* ------------------------------------------------------------ vector *)

(* host/validity.rs:10-62 *)
Definition validate_index_lt_bound (i : Z) (bound : nat) : res unit :=
  if Z.of_nat bound <=? i then Err e_oob else Ok tt.
Definition validate_index_le_bound (i : Z) (bound : nat) : res unit :=
  if Z.of_nat bound <? i then Err e_oob else Ok tt.
Definition valid_range (s e : Z) (bound : nat) : res (nat * nat) :=
  let? _ := validate_index_le_bound s bound in
  let? _ := validate_index_le_bound e bound in
  if e <? s then Err e_obj_invalid else Ok (Z.to_nat s, Z.to_nat e).
Definition validate_usize_sum_fits_in_u32 (a b : nat) : res nat :=
  if fits_u32 a && fits_u32 b && fits_u32 (a + b) then Ok (a + b)%nat else Err e_arith.

Section Vector.
  Context {A : Type}.

  (* metered_vector.rs:83-90; from_exact_iter (100-124) makes the same length
     check and delegates to it. *)
  Definition mvec_from (l : list A) : res (list A) :=
    if fits_u32 (length l) then Ok l else Err e_oob.

  (* `*cell = value` at a position known to exist *)
  Fixpoint list_set (l : list A) (i : nat) (x : A) : list A :=
    match l, i with
    | [], _ => []
    | _ :: t, O => x :: t
    | h :: t, S j => h :: list_set t j x
    end.

  (* metered_vector.rs:126-132 *)
  Definition mvec_set (l : list A) (i : nat) (x : A) : res (list A) :=
    match nth_error l i with
    | None => Err e_oob
    | Some _ => Ok (list_set l i x)
    end.
  (* metered_vector.rs:134-137 *)
  Definition mvec_get (l : list A) (i : nat) : res A :=
    match nth_error l i with None => Err e_oob | Some x => Ok x end.
  (* metered_vector.rs:143-150 *)
  Definition mvec_push_front (l : list A) (x : A) : res (list A) :=
    if is_u32_max (length l) then Err e_oob else mvec_from ([x] ++ l).
  (* metered_vector.rs:152-159 *)
  Definition mvec_pop_front (l : list A) : res (list A) :=
    match l with [] => Err e_oob | _ => mvec_from (skipn 1 l) end.
  (* metered_vector.rs:161-168 *)
  Definition mvec_push_back (l : list A) (x : A) : res (list A) :=
    if is_u32_max (length l) then Err e_oob else mvec_from (l ++ [x]).
  (* metered_vector.rs:174-186, add_or_err / sub_or_err on usize (64-bit) *)
  Definition add_or_err (x y : nat) : res nat :=
    if fits_u32 (x + y) then Ok (x + y)%nat else Err e_oob.
  Definition sub_or_err (x y : nat) : res nat :=
    if Nat.ltb x y then Err e_oob else Ok (x - y)%nat.
  (* metered_vector.rs:188-196 *)
  Definition mvec_pop_back (l : list A) : res (list A) :=
    match l with
    | [] => Err e_oob
    | _ => let? n := sub_or_err (length l) 1 in mvec_from (firstn n l)
    end.
  (* metered_vector.rs:198-209; idx == usize::MAX - 1 cannot hold for a u32. *)
  Definition mvec_remove (l : list A) (i : nat) : res (list A) :=
    if Nat.leb (length l) i then Err e_oob
    else let? s := add_or_err i 1 in mvec_from (firstn i l ++ skipn s l).
  (* metered_vector.rs:211-219 *)
  Definition mvec_front (l : list A) : res A :=
    match l with [] => Err e_oob | x :: _ => Ok x end.
  Definition mvec_back (l : list A) : res A :=
    match nth_error l (length l - 1) with
    | Some x => Ok x
    | None => Err e_oob
    end.
  (* metered_vector.rs:221-238 *)
  Definition mvec_insert (l : list A) (i : nat) (x : A) : res (list A) :=
    if is_u32_max (length l) then Err e_oob
    else if Nat.ltb (length l) i then Err e_oob
    else if Nat.eqb i (length l) then mvec_push_back l x
    else if Nat.eqb i 0 then mvec_push_front l x
    else mvec_from (firstn i l ++ [x] ++ skipn i l).
  (* metered_vector.rs:240-244 *)
  Definition mvec_append (l m : list A) : res (list A) :=
    let? _ := add_or_err (length l) (length m) in mvec_from (l ++ m).
  (* metered_vector.rs:246-251: slice::get(range) is None when start > end or
     end > len. *)
  Definition mvec_slice (l : list A) (s e : nat) : res (list A) :=
    if Nat.leb s e && Nat.leb e (length l) then mvec_from (firstn (e - s) (skipn s l))
    else Err e_oob.

  (* metered_vector.rs:253-265; `base` is the index of the head *)
  Fixpoint first_index_from (f : A -> res comparison) (l : list A) (base : nat)
    : res (option nat) :=
    match l with
    | [] => Ok None
    | x :: t =>
        let? c := f x in
        match c with Eq => Ok (Some base) | _ => first_index_from f t (S base) end
    end.
  Definition mvec_first_index_of (f : A -> res comparison) (l : list A) :=
    first_index_from f l 0.
  (* metered_vector.rs:267-279: the same scan over enumerate().rev() *)
  Fixpoint last_index_from (f : A -> res comparison) (rl : list A) (n : nat)
    : res (option nat) :=
    match rl with
    | [] => Ok None
    | x :: t =>
        let? c := f x in
        match c with Eq => Ok (Some (n - 1)%nat) | _ => last_index_from f t (n - 1) end
    end.
  Definition mvec_last_index_of (f : A -> res comparison) (l : list A) :=
    last_index_from f (rev l) (length l).

  (* host.rs:1816-2010, the list computations inside vec_put .. vec_slice *)
  Definition hvec_put (l : list A) (i : Z) (x : A) : res (list A) :=
    let? _ := validate_index_lt_bound i (length l) in mvec_set l (Z.to_nat i) x.
  Definition hvec_get (l : list A) (i : Z) : res A :=
    let? _ := validate_index_lt_bound i (length l) in mvec_get l (Z.to_nat i).
  Definition hvec_del (l : list A) (i : Z) : res (list A) :=
    let? _ := validate_index_lt_bound i (length l) in mvec_remove l (Z.to_nat i).
  Definition hvec_insert (l : list A) (i : Z) (x : A) : res (list A) :=
    let? _ := validate_index_le_bound i (length l) in mvec_insert l (Z.to_nat i) x.
  Definition hvec_append (l m : list A) : res (list A) :=
    if u32_max - Z.of_nat (length m) <? Z.of_nat (length l) then Err e_arith
    else mvec_append l m.
  Definition hvec_slice (l : list A) (s e : Z) : res (list A) :=
    let? p := valid_range s e (length l) in mvec_slice l (fst p) (snd p).
End Vector.
