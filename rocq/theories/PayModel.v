(* Metering of containers, clones and comparisons: host/metered_vector.rs,
   host/metered_map.rs, host/metered_clone.rs, host/comparison.rs, with the sizes of
   host/declared_size.rs.  Every charge is in the model, in the order of the code,
   next to the work the code does.

   Simplifications: the depth limit is the parameter d (as in HeapModel), not a
   field of the budget; container elements are types without substructure, as all
   elements of the host's containers are (Val, Rc, plain data). *)
From Coq Require Import ZArith Lia List Bool.
From Verif Require Import Prelude ValModel ContainerModel HeapModel BudgetModel StorageModel PaySpec.
Import ListNotations.
Open Scope Z_scope.

Definition ret {A} (x : A) : op A := ([], Ok x).
Definition fail {A} (e : err) : op A := ([], Err e).
Definition lift {A} (r : res A) : op A := ([], r).
Definition obnd {A B} (m : op A) (f : A -> op B) : op B :=
  match snd m with
  | Ok x => (fst m ++ fst (f x), snd (f x))
  | Err e => (fst m, Err e)
  end.
Notation "'do' x <- a ; b" := (obnd a (fun x => b)) (at level 200, x name, a at level 100, b at level 200).

Definition MemCpy : nat := 2.
Definition MemCmp : nat := 3.
Definition VisitObject : nat := 5.
Definition pay (ty : nat) (n : Z) : op unit := ([Pay ty (Some n)], Ok tt).
Definition act (s : step) : op unit := ([s], Ok tt).

(* metered_clone.rs:53-75 *)
Definition charge_shallow_copy (n sz : Z) : op unit := pay MemCpy (sat_u64 (n * sz)).
(* metered_clone.rs:79-97 *)
Definition charge_heap_alloc (n sz : Z) : op unit := pay MemAlloc (sat_u64 (n * sz)).

(* ------------------------------------------------------------ containers *)

Section Vector.
  Context {A : Type}.
  Variables ds rs : Z.   (* DECLARED_SIZE of A, and size_of::<A>() *)

  (* Vec::clone or collect into a new Vec: its header and its elements *)
  Definition build (l : list A) : op unit :=
    do _ <- act (Allocate (rs * len l)); act (Copy (24 + rs * len l)).

  (* metered_clone.rs:413-424 (Vec<C>) with shallow elements *)
  Definition vec_sub (l : list A) : op unit :=
    do _ <- charge_heap_alloc (len l) ds; charge_shallow_copy (len l) ds.
  (* metered_clone.rs:236-243 *)
  Definition charge_deep_clone (l : list A) : op unit :=
    do _ <- charge_shallow_copy 1 24; vec_sub l.
  (* metered_clone.rs:254-258 *)
  Definition vec_clone (l : list A) : op (list A) :=
    do _ <- charge_shallow_copy 1 24;
    do _ <- vec_sub l;
    do _ <- build l;
    ret l.

  (* metered_vector.rs:38-43 *)
  Definition charge_access (n : Z) : op unit := pay MemCpy (sat_u64 (ds * n)).
  (* metered_vector.rs:45-50 *)
  Definition charge_scan (l : list A) : op unit := pay MemCpy (sat_u64 (ds * len l)).
  (* metered_vector.rs:54-60, metered_map.rs:76-82; 64 - leading_zeros is the number
     of bits *)
  Definition bits (n : Z) : Z := if n =? 0 then 0 else Z.log2 n + 1.
  Definition charge_binsearch (l : list A) : op unit :=
    pay MemCpy (sat_u64 (ds * (1 + bits (len l)))).

  (* metered_vector.rs:100-124 *)
  Definition from_exact_iter (l : list A) : op (list A) :=
    if fits_u32 (length l) then
      do _ <- build l;
      do _ <- charge_deep_clone l;
      lift (mvec_from l)
    else fail e_oob.

  (* metered_vector.rs:125-131 *)
  Definition mv_set (l : list A) (i : nat) (x : A) : op (list A) :=
    do new <- vec_clone l;
    do _ <- charge_access 1;
    do r <- lift (mvec_set new i x);
    do _ <- act (Copy rs);
    ret r.
  (* metered_vector.rs:133-136 *)
  Definition mv_get (l : list A) (i : nat) : op A :=
    do _ <- charge_access 1;
    do r <- lift (mvec_get l i);
    do _ <- act (Read rs);
    ret r.
  (* metered_vector.rs:142-149 *)
  Definition mv_push_front (l : list A) (x : A) : op (list A) :=
    if is_u32_max (length l) then fail e_oob else from_exact_iter ([x] ++ l).
  (* metered_vector.rs:151-158 *)
  Definition mv_pop_front (l : list A) : op (list A) :=
    match l with [] => fail e_oob | _ => from_exact_iter (skipn 1 l) end.
  (* metered_vector.rs:160-167 *)
  Definition mv_push_back (l : list A) (x : A) : op (list A) :=
    if is_u32_max (length l) then fail e_oob else from_exact_iter (l ++ [x]).
  (* metered_vector.rs:186-194 *)
  Definition mv_pop_back (l : list A) : op (list A) :=
    match l with
    | [] => fail e_oob
    | _ => do n <- lift (sub_or_err (length l) 1); from_exact_iter (firstn n l)
    end.
  (* metered_vector.rs:196-207 *)
  Definition mv_remove (l : list A) (i : nat) : op (list A) :=
    if Nat.leb (length l) i then fail e_oob
    else do s <- lift (add_or_err i 1); from_exact_iter (firstn i l ++ skipn s l).
  (* metered_vector.rs:209-217 *)
  Definition mv_front (l : list A) : op A :=
    do _ <- charge_access 1;
    do r <- lift (mvec_front l);
    do _ <- act (Read rs);
    ret r.
  Definition mv_back (l : list A) : op A :=
    do _ <- charge_access 1;
    do r <- lift (mvec_back l);
    do _ <- act (Read rs);
    ret r.
  (* metered_vector.rs:219-236 *)
  Definition mv_insert (l : list A) (i : nat) (x : A) : op (list A) :=
    if is_u32_max (length l) then fail e_oob
    else if Nat.ltb (length l) i then fail e_oob
    else if Nat.eqb i (length l) then mv_push_back l x
    else if Nat.eqb i 0 then mv_push_front l x
    else from_exact_iter (firstn i l ++ [x] ++ skipn i l).
  (* metered_vector.rs:238-242 *)
  Definition mv_append (l m : list A) : op (list A) :=
    do _ <- lift (@add_or_err (length l) (length m)); from_exact_iter (l ++ m).
  (* metered_vector.rs:244-249 *)
  Definition mv_slice (l : list A) (s e : nat) : op (list A) :=
    if Nat.leb s e && Nat.leb e (length l) then from_exact_iter (firstn (e - s) (skipn s l))
    else fail e_oob.

  (* metered_vector.rs:251-263 *)
  Fixpoint scan_from (f : A -> op comparison) (l : list A) (base : nat) : op (option nat) :=
    match l with
    | [] => ret None
    | x :: t =>
        do _ <- act (Read rs);
        do c <- f x;
        match c with Eq => ret (Some base) | _ => scan_from f t (S base) end
    end.
  Definition mv_first_index_of (f : A -> op comparison) (l : list A) : op (option nat) :=
    do _ <- charge_scan l; scan_from f l 0.
  (* metered_vector.rs:265-277 *)
  Fixpoint scan_back (f : A -> op comparison) (rl : list A) (n : nat) : op (option nat) :=
    match rl with
    | [] => ret None
    | x :: t =>
        do _ <- act (Read rs);
        do c <- f x;
        match c with Eq => ret (Some (n - 1)%nat) | _ => scan_back f t (n - 1) end
    end.
  Definition mv_last_index_of (f : A -> op comparison) (l : list A) : op (option nat) :=
    do _ <- charge_scan l; scan_back f (rev l) (length l).

  (* metered_vector.rs:404-445 *)
  Fixpoint probe (f : A -> op comparison) (l : list A) (fuel : nat) (size left right : nat)
    : op found :=
    match fuel with
    | O => fail e_obj_internal
    | S fuel' =>
        if Nat.ltb left right then
          let mid := (left + size / 2)%nat in
          match nth_error l mid with
          | None => fail e_obj_internal
          | Some x =>
              do _ <- act (Read rs);
              do c <- f x;
              match c with
              | Eq => ret (Found mid)
              | Lt => probe f l fuel' (right - (mid + 1)) (mid + 1) right
              | Gt => probe f l fuel' (mid - left) left mid
              end
          end
        else ret (Missing left)
    end.
  (* metered_vector.rs:279-308, metered_map.rs:168-194 *)
  Definition mv_binary_search (f : A -> op comparison) (l : list A) : op found :=
    do _ <- charge_binsearch l; probe f l (S (length l)) (length l) 0 (length l).

  (* metered_vector.rs:314-316 *)
  Definition mv_to_vec (l : list A) : op (list A) := vec_clone l.

  (* env-common compare.rs:75-92 *)
  Fixpoint cmp_elems (f : A -> A -> op comparison) (a b : list A) : op comparison :=
    match a, b with
    | [], [] => ret Eq
    | [], _ :: _ => ret Lt
    | _ :: _, [] => ret Gt
    | x :: a', y :: b' =>
        do _ <- act (Read rs);
        do c <- f x y;
        match c with Eq => cmp_elems f a' b' | _ => ret c end
    end.
  (* metered_vector.rs:336-386 *)
  Definition mv_compare (f : A -> A -> op comparison) (a b : list A) : op comparison :=
    do _ <- pay MemCpy (sat_u64 (ds * Z.min (len a) (len b)));
    do _ <- pay MemCmp (sat_u64 (ds * Z.min (len a) (len b)));
    cmp_elems f a b.
End Vector.

Section OrdMap.
  Context {K V : Type}.
  Variables ds rs : Z.   (* of (K, V) *)
  Variable vds : Z.      (* DECLARED_SIZE of V *)
  Variable vrs : Z.
  Variable cmp : K -> K -> op comparison.

  (* the windows(2) loop of metered_map.rs:127-136 *)
  Fixpoint windows (l : list (K * V)) : op unit :=
    match l with
    | [] => ret tt
    | a :: t =>
        do _ <- act (Read rs);
        match t with
        | [] => ret tt
        | b :: _ =>
            do c <- cmp (fst a) (fst b);
            match c with Lt => windows t | _ => fail e_obj_invalid end
        end
    end.
  (* metered_map.rs:117-138 *)
  Definition mm_from_map (l : list (K * V)) : op (list (K * V)) :=
    if fits_u32 (length l) then
      do _ <- charge_scan ds l;
      do _ <- windows l;
      ret l
    else fail e_oob.
  (* metered_map.rs:144-166 *)
  Definition mm_from_exact_iter (l : list (K * V)) : op (list (K * V)) :=
    if fits_u32 (length l) then
      do _ <- build rs l;
      do _ <- charge_deep_clone ds l;
      mm_from_map l
    else fail e_oob.
  (* metered_map.rs:168-194 *)
  Definition mm_find (m : list (K * V)) (k : K) : op found :=
    mv_binary_search ds rs (fun p => cmp (fst p) k) m.
  (* metered_map.rs:196-225 *)
  Definition mm_insert (m : list (K * V)) (k : K) (v : V) : op (list (K * V)) :=
    do _ <- charge_access ds 1;
    do r <- mm_find m k;
    match r with
    | Found i => mm_from_exact_iter (firstn i m ++ [(k, v)] ++ skipn (i + 1) m)
    | Missing i =>
        if is_u32_max (length m) then fail e_oob
        else mm_from_exact_iter (firstn i m ++ [(k, v)] ++ skipn i m)
    end.
  (* metered_map.rs:227-242 *)
  Definition mm_get (m : list (K * V)) (k : K) : op (option V) :=
    do r <- mm_find m k;
    match r with
    | Found i =>
        do _ <- charge_access ds 1;
        match nth_error m i with
        | Some (_, v) => do _ <- act (Read rs); ret (Some v)
        | None => fail e_obj_internal
        end
    | Missing _ => ret None
    end.
  (* metered_map.rs:244-249 *)
  Definition mm_at (m : list (K * V)) (i : Z) : op (K * V) :=
    do _ <- charge_access ds 1;
    do r <- lift (omap_at m i);
    do _ <- act (Read rs);
    ret r.
  (* metered_map.rs:254-288; res.metered_clone of a shallow value *)
  Definition mm_remove (m : list (K * V)) (k : K) : op (option (list (K * V) * V)) :=
    do r <- mm_find m k;
    match r with
    | Found i =>
        do new <- (if Nat.ltb 0 i then mm_from_exact_iter (firstn i m ++ skipn (i + 1) m)
                   else mm_from_exact_iter (skipn 1 m));
        match nth_error m i with
        | Some (_, v) =>
            do _ <- charge_shallow_copy 1 vds;
            do _ <- act (Copy vrs);
            ret (Some (new, v))
        | None => fail e_obj_internal
        end
    | Missing _ => ret None
    end.
  (* metered_map.rs:294-300 *)
  Definition mm_contains (m : list (K * V)) (k : K) : op bool :=
    do r <- mm_find m k;
    ret (match r with Found _ => true | Missing _ => false end).
  (* metered_map.rs:302-315; the caller walks the iterator *)
  Definition mm_iter (m : list (K * V)) : op (list (K * V)) :=
    do _ <- charge_scan ds m;
    do _ <- act (Read (rs * len m));
    ret m.
  (* host.rs:1749-1769: the keys (or values) collected into a vector of A *)
  Definition mm_collect {A} (pick : K * V -> A) (eds ers : Z) (m : list (K * V)) : op (list A) :=
    do l <- mm_iter m; from_exact_iter eds ers (map pick l).
End OrdMap.

(* ------------------------------------------------------------ comparison *)

(* comparison.rs:103-110 *)
Definition mcmp_bytes (a b : list Z) : op comparison :=
  do _ <- pay MemCmp (Z.min (len a) (len b));
  do _ <- act (Match (examined a b));
  ret (bytes_cmp a b).
(* comparison.rs:130-152 FixedSizeOrdType: declared size, real size *)
Definition mcmp_fixed (ds rs : Z) (c : comparison) : op comparison :=
  do _ <- pay MemCmp ds;
  do _ <- act (Match rs);
  ret c.

(* comparison.rs:255-264 and compare.rs:48-72 *)
Definition mcmp_pair {A} (f : A -> A -> op comparison) (p q : A * A) : op comparison :=
  do c <- f (fst p) (fst q);
  match c with Eq => f (snd p) (snd q) | _ => ret c end.

(* comparison.rs:211-225 ScVec, 227-241 ScMap *)
Definition mcmp_scvec {A} (ds rs : Z) (f : A -> A -> op comparison) (a b : list A) : op comparison :=
  do _ <- pay MemCpy (sat_u64 (ds * Z.min (len a) (len b)));
  cmp_elems rs f a b.

Definition mcmp_exe (a b : executable) : op comparison :=
  mcmp_fixed 72 (exe_examined a b) (exe_cmp a b).

(* comparison.rs:298-378 *)
Fixpoint mcmp_scval (d : nat) (a b : scval) : op comparison :=
  match d with
  | O => fail e_depth
  | S d' =>
      let pairs := mcmp_scvec 192 192 (mcmp_pair (mcmp_scval d')) in
      match a, b with
      | SVec (Some x), SVec (Some y) => mcmp_scvec 96 96 (mcmp_scval d') x y
      | SMap (Some x), SMap (Some y) => pairs x y
      | SVec None, _ | _, SVec None | SMap None, _ | _, SMap None => fail e_val_invalid
      | SBytes x, SBytes y => mcmp_bytes x y
      | SString x, SString y => mcmp_bytes x y
      | SSymbol x, SSymbol y => mcmp_bytes x y
      | SExecutableTag x, SExecutableTag y => mcmp_bytes x y
      | SContractInstance e x, SContractInstance f y =>
          do c <- mcmp_exe e f;
          match c with
          | Eq =>
              match x, y with
              | Some x, Some y => pairs x y
              | None, None => ret Eq
              | None, Some _ => ret Lt
              | Some _, None => ret Gt
              end
          | _ => ret c
          end
      | SVoid, SVoid => ret Eq
      | SLedgerKeyContractInstance, SLedgerKeyContractInstance => ret Eq
      | SBool x, SBool y => mcmp_fixed 1 1 (bool_cmp x y)
      | SError x, SError y => mcmp_fixed 8 8 (err_cmp x y)
      | SU32 x, SU32 y | SI32 x, SI32 y => mcmp_fixed 4 4 (x ?= y)
      | SU64 x, SU64 y | SI64 x, SI64 y
      | STimepoint x, STimepoint y | SDuration x, SDuration y => mcmp_fixed 8 8 (x ?= y)
      | SLedgerKeyNonce x, SLedgerKeyNonce y => mcmp_fixed 33 8 (x ?= y)
      | SU128 x1 x2, SU128 y1 y2 | SI128 x1 x2, SI128 y1 y2 =>
          mcmp_fixed 16 16 (then_cmp (x1 ?= y1) (x2 ?= y2))
      | SU256 x1 x2 x3 x4, SU256 y1 y2 y3 y4
      | SI256 x1 x2 x3 x4, SI256 y1 y2 y3 y4 =>
          mcmp_fixed 32 32 (then_cmp (x1 ?= y1) (then_cmp (x2 ?= y2)
               (then_cmp (x3 ?= y3) (x4 ?= y4))))
      | SAddress x, SAddress y => mcmp_fixed 48 48 (addr_cmp x y)
      | _, _ => ret (sctype_num (sc_type a) ?= sctype_num (sc_type b))
      end
  end.

(* host_object.rs:472-517: each look-up is charged *)
Definition mvisit (h : heap) (v : Z) : op hobj :=
  do _ <- (([Pay VisitObject None], Ok tt) : op unit);
  do _ <- act Visit;
  lift (visit_obj_untyped h v).

(* declared and real size of the number types *)
Definition num_size (k : numty) : Z :=
  match k with
  | NU64 | NI64 | NTimepoint | NDuration => 8
  | NU128 | NI128 => 16
  | NU256 | NI256 => 32
  end.

(* comparison.rs:47-101 *)
Definition mcmp_hobj (cv : Z -> Z -> op comparison) (a b : hobj) : op comparison :=
  let disc := ret (host_obj_discriminant a ?= host_obj_discriminant b) in
  match a, b with
  | HONum k x, HONum k' y =>
      if numty_eqb k k' then mcmp_fixed (num_size k) (num_size k) (x ?= y) else disc
  | HOVec x, HOVec y => mv_compare 8 8 cv x y
  | HOMap x, HOMap y => mcmp_scvec 24 16 (mcmp_pair cv) x y   (* metered_map.rs:378-400 *)
  | HOBytes x, HOBytes y => mcmp_bytes x y
  | HOString x, HOString y => mcmp_bytes x y
  | HOSymbol x, HOSymbol y => mcmp_bytes x y
  | HOAddress x, HOAddress y => mcmp_fixed 48 48 (addr_cmp x y)
  | HOMuxed x, HOMuxed y => mcmp_fixed 48 48 (addr_cmp x y)
  | HOExeTag x, HOExeTag y => mcmp_bytes x y
  | _, _ => disc
  end.

(* host_object.rs:69-149 *)
Definition mtry_small (o : hobj) (rv : Z) : op (option comparison) :=
  match o with
  | HONum k x =>
      match small_to_num k rv with
      | None => ret None
      | Some y => do c <- mcmp_fixed (num_size k) (num_size k) (x ?= y); ret (Some c)
      end
  | HOSymbol s =>
      if has_tag rv TgSymbolSmall
      then do c <- mcmp_bytes s (symbol_str rv); ret (Some c)
      else ret None
  | _ => ret None
  end.

(* host.rs:1192-1250 *)
Definition mobj_cmp (cmp_ho : hobj -> hobj -> op comparison) (h : heap) (a b : Z) : op comparison :=
  let finish (r : option comparison) : op comparison :=
    match r with
    | Some c => ret c
    | None =>
        if scty_num a =? scty_num b then fail (ESys TValue CInternalError)
        else ret (scty_num a ?= scty_num b)
    end in
  match is_object a, is_object b with
  | true, true =>
      do ao <- mvisit h a;
      do bo <- mvisit h b;
      do c <- cmp_ho ao bo;
      finish (Some c)
  | true, false =>
      do ao <- mvisit h a;
      do c <- mtry_small ao b;
      finish c
  | false, true =>
      do bo <- mvisit h b;
      do c <- mtry_small bo a;
      finish (option_map CompOpp c)
  | false, false => fail (ESys TValue CUnexpectedType)
  end.

(* compare.rs:127-208 *)
Fixpoint mcmp_val (d : nat) (h : heap) (a b : Z) : op comparison :=
  if a =? b then ret Eq
  else if is_object a || is_object b then
    mobj_cmp (fun x y => match d with
                         | O => fail e_depth
                         | S d' => mcmp_hobj (mcmp_val d' h) x y
                         end) h a b
  else ret (cmp_small a b).

(* storage.rs:225-232 check_supported_ledger_key_type, comparison.rs:392-440.
   Derived Ord of trustline keys and durabilities; discriminants 0, 1, 6, 7. *)
Definition dur_cmp (a b : durability) : comparison :=
  match a, b with
  | Temporary, Persistent => Lt | Persistent, Temporary => Gt | _, _ => Eq
  end.
Definition lk_disc (k : lkey) : Z :=
  match k with
  | LKAccount _ => 0 | LKTrustline _ _ => 1 | LKData _ _ _ => 6 | LKCode _ => 7 | LKOther d => d
  end.
Definition mcmp_lkey (d : nat) (a b : lkey) : op comparison :=
  match a, b with
  | LKOther _, _ | _, LKOther _ => fail (ESys TStorage CInternalError)
  | LKAccount x, LKAccount y => mcmp_fixed 32 32 (bytes_cmp x y)
  | LKTrustline x s, LKTrustline y t => mcmp_fixed 77 77 (then_cmp (bytes_cmp x y) (bytes_cmp s t))
  | LKData x k p, LKData y l q =>
      do c <- mcmp_fixed 48 48 (addr_cmp x y);
      match c with
      | Eq =>
          do c <- mcmp_scval d k l;
          match c with
          | Eq => mcmp_fixed 4 4 (dur_cmp p q)
          | _ => ret c
          end
      | _ => ret c
      end
  | LKCode x, LKCode y => mcmp_fixed 36 32 (bytes_cmp x y)
  | _, _ => ret (lk_disc a ?= lk_disc b)
  end.

(* auth.rs:697-716: a called function with its arguments *)
Record called := { ca_contract : Z; ca_name : Z; ca_args : list Z }.
(* symbol.rs:140-160 *)
Definition mcmp_symbol (d : nat) (h : heap) (a b : Z) : op comparison :=
  match tag_num (get_tag a) ?= tag_num (get_tag b) with
  | Eq =>
      match get_tag a with
      | TgSymbolSmall => ret (bytes_cmp (symbol_small_chars a) (symbol_small_chars b))
      | _ => mcmp_val d h a b
      end
  | c => ret c
  end.
Definition mcmp_called (d : nat) (h : heap) (a b : called) : op comparison :=
  do c <- mcmp_val d h (ca_contract a) (ca_contract b);
  match c with
  | Eq =>
      do c <- mcmp_symbol d h (ca_name a) (ca_name b);
      match c with
      | Eq => cmp_elems 8 (mcmp_val d h) (ca_args a) (ca_args b)
      | _ => ret c
      end
  | _ => ret c
  end.

(* comparison.rs:266-285: arguments of a creation with constructor; the preimage is
   kept as its bytes *)
Record creation := { cr_preimage : list Z; cr_exe : executable; cr_args : list scval }.
Definition mcmp_creation (d : nat) (a b : creation) : op comparison :=
  do c <- mcmp_fixed 80 80 (bytes_cmp (cr_preimage a) (cr_preimage b));
  match c with
  | Eq =>
      do c <- mcmp_exe (cr_exe a) (cr_exe b);
      match c with
      | Eq => cmp_elems 96 (mcmp_scval d) (cr_args a) (cr_args b)
      | _ => ret c
      end
  | _ => ret c
  end.

(* ------------------------------------------------------------ clones *)

(* metered_clone.rs:413-424 (Vec<C>) with elements that have substructure, and
   215-231 bulk_charge_for_substructure *)
Section Sub.
  Context {A : Type}.
  Variable f : A -> op unit.
  Fixpoint each (l : list A) : op unit :=
    match l with [] => ret tt | x :: l => do _ <- f x; each l end.
  Definition sub_vec (ds : Z) (l : list A) : op unit :=
    do _ <- charge_heap_alloc (len l) ds;
    do _ <- charge_shallow_copy (len l) ds;
    each l.
End Sub.
(* metered_clone.rs:540-594: bytes, strings, symbols, tags *)
Definition sub_bytes (b : list Z) : op unit :=
  do _ <- charge_heap_alloc (len b) 1; charge_shallow_copy (len b) 1.
(* metered_clone.rs:329-343 *)
Definition sub_exe (e : executable) : op unit :=
  match e with ExExternalRef _ t => sub_bytes t | _ => ret tt end.
(* metered_clone.rs:455-500, 510-536, 596-603 *)
Fixpoint sub_scval (d : nat) (v : scval) : op unit :=
  match d with
  | O => fail e_depth
  | S d' =>
      let entry (p : scval * scval) : op unit := do _ <- sub_scval d' (fst p); sub_scval d' (snd p) in
      match v with
      | SVec (Some l) => sub_vec (sub_scval d') 96 l
      | SMap (Some m) => sub_vec entry 192 m
      | SVec None | SMap None => fail e_val_invalid
      | SBytes b => sub_bytes b
      | SString b => sub_bytes b
      | SSymbol b => sub_bytes b
      | SExecutableTag b => sub_bytes b
      | SContractInstance e s =>
          do _ <- sub_exe e;
          match s with Some m => sub_vec entry 192 m | None => ret tt end
      | _ => ret tt
      end
  end.
(* metered_clone.rs:254-258; Clone::clone allocates and copies what the value owns *)
Definition clone_with {A} (size own : Z) (sub : op unit) (x : A) : op A :=
  do _ <- charge_shallow_copy 1 size;
  do _ <- sub;
  do _ <- act (Allocate own);
  do _ <- act (Copy (size + own));
  ret x.
Definition clone_scval (d : nat) (v : scval) : op scval := clone_with 96 (owned v) (sub_scval d v) v.

(* metered_clone.rs:605-619; LedgerKey is declared as 152 bytes *)
Definition key_owned (k : lkey) : Z := match k with LKData _ v _ => owned v | _ => 0 end.
Definition sub_lkey (d : nat) (k : lkey) : op unit :=
  match k with
  | LKData _ v _ => sub_scval d v
  | LKOther _ => fail (ESys TValue CInternalError)
  | _ => ret tt
  end.
Definition clone_lkey (d : nat) (k : lkey) : op lkey := clone_with 152 (key_owned k) (sub_lkey d k) k.

(* metered_clone.rs:720-731 *)
Definition args_owned (l : list scval) : Z := owned (SVec (Some l)).
Definition clone_creation (d : nat) (c : creation) : op creation :=
  clone_with 176 (tag_bytes (cr_exe c) + args_owned (cr_args c))
    (do _ <- sub_exe (cr_exe c); sub_vec (sub_scval d) 96 (cr_args c)) c.
