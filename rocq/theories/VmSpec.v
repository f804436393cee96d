(* What it takes for a Wasm module to be accepted, independently of how it is checked. *)
From Coq Require Import ZArith List Bool.
From Verif Require Import Prelude BudgetModel VmTable VmModel.
Import ListNotations.
Open Scope Z_scope.

(* A host function exists in protocol [p]. *)
Definition available (p : Z) (f : hostfn) : Prop :=
  (forall n, hf_min f = Some n -> n <= p) /\ (forall n, hf_max f = Some n -> p <= n).

(* The import is of the host function: by its two names, with its arity, all words. *)
Definition imports_fn (i : list Z * list Z * extern) (f : hostfn) : Prop :=
  i = (hf_mod f, hf_fn f, XFunc {| ft_params := repeat I64 (hf_arity f); ft_results := [I64] |}).

(* big-endian *)
Definition word_of (l : list Z) (n : Z) : Prop :=
  exists a b c d, l = [a; b; c; d] /\ n = a * 2 ^ 24 + b * 2 ^ 16 + c * 2 ^ 8 + d.
(* The module says which protocol and pre-release it was made for: in the first custom
   section named contractenvmetav0, which starts with the words 0, protocol, pre-release. *)
Definition declares (m : module_) (proto pre : Z) : Prop :=
  exists before d after, m_custom m = before ++ (env_meta_name, d) :: after
    /\ ~ In env_meta_name (map fst before)
    /\ exists w0 w1 w2 rest, d = w0 ++ w1 ++ w2 ++ rest /\ word_of w0 0 /\ word_of w1 proto /\ word_of w2 pre.

(* Made for this protocol and this pre-release of the host, or for a released earlier
   one. *)
Definition made_for (E : henv) (ledger proto pre : Z) : Prop :=
  (proto = ledger /\ pre = e_pre E) \/ (proto < ledger /\ pre = 0).

Definition small_exports (m : module_) : Prop :=
  forall n t, In (n, XFunc t) (m_exports m) -> (length (ft_params t) <= 32)%nat /\ (length (ft_results t) <= 32)%nat.

(* Accepted, with its imports bound to [calls]. *)
Definition acceptable (E : henv) (ledger : Z) (m : module_) (proto : Z) (calls : list hostfn) : Prop :=
  ledger = e_proto E
  /\ (exists pre, declares m proto pre /\ made_for E ledger proto pre)
  /\ small_exports m
  /\ Forall2 imports_fn (m_imports m) calls
  /\ Forall (fun f => In f (e_fns E) /\ available proto f /\ available ledger f) calls
  /\ e_init E m = Ok tt
  /\ m_start m = false.

(* Names in a table of host functions are distinct and short. *)
Definition names (f : hostfn) : list Z * list Z := (hf_mod f, hf_fn f).
Definition table_ok (l : list hostfn) : Prop :=
  NoDup (map names l) /\ Forall (fun f => (length (hf_mod f) < 10)%nat /\ (length (hf_fn f) < 10)%nat) l.

(* bytes of the modules' custom sections *)
Definition is_byte (b : Z) : Prop := 0 <= b < 256.

(* A later host for a later protocol: it has the functions of the earlier one, and reads
   modules in the same way. *)
Definition later_host (E E' : henv) : Prop :=
  e_proto E <= e_proto E' /\ e_pre E = 0 /\ e_pre E' = 0 /\ incl (e_fns E) (e_fns E')
  /\ (forall w, e_decode E' w = e_decode E w) /\ (forall m, e_init E' m = e_init E m).

(* The modules a history of cache operations added, and a history whose additions were all
   made while the ledger was at protocol [ledger] or before. *)
Definition added (ops : list cache_op) (w : list Z) : Prop := exists l, In (CAdd l w) ops.
Definition ops_before (ledger : Z) (ops : list cache_op) : Prop :=
  Forall (fun o => match o with CAdd l _ => l <= ledger | _ => True end) ops.

(* ---- cost inputs *)

Definition sum (l : list Z) : Z := fold_right Z.add 0 l.
Definition sums (f : section -> Z) (l : list section) : Z := sum (map f l).
Definition count_instructions (s : section) : Z := match s with SecCode n => n | _ => 0 end.
Definition count_functions (s : section) : Z := match s with SecFunctions n => n | _ => 0 end.
Definition count_globals (s : section) : Z := match s with SecGlobals l => Z.of_nat (length l) | _ => 0 end.
Definition count_table_entries (s : section) : Z := match s with SecTables l => sum (map fst l) | _ => 0 end.
Definition count_types (s : section) : Z := match s with SecTypes n => n | _ => 0 end.
Definition count_data_segments (s : section) : Z := match s with SecData l => Z.of_nat (length l) | _ => 0 end.
Definition count_elem_segments (s : section) : Z := match s with SecElems l => Z.of_nat (length l) | _ => 0 end.
Definition count_imports (s : section) : Z := match s with SecImports n => n | _ => 0 end.
Definition count_exports (s : section) : Z := match s with SecExports n => n | _ => 0 end.
Definition count_data_bytes (s : section) : Z := match s with SecData l => sum (map snd l) | _ => 0 end.
Definition items (x : Z + list cexpr) : Z := match x with inl n => n | inr l => Z.of_nat (length l) end.
Definition count_elements (s : section) : Z := match s with SecElems l => sum (map (fun x => items (snd x)) l) | _ => 0 end.
Definition count_memory (s : section) : Z := match s with SecMemory l => sum (map (fun x => snd x * 65536) l) | _ => 0 end.

(* numbers that occur in sections are not negative *)
Definition sane (s : section) : Prop :=
  match s with
  | SecMemory l => Forall (fun x => 0 <= snd x) l
  | SecTypes n | SecImports n | SecFunctions n | SecExports n | SecCode n => 0 <= n
  | SecTables l => Forall (fun x => 0 <= fst x) l
  | SecElems l => Forall (fun x => 0 <= items (snd x)) l
  | SecData l => Forall (fun x => 0 <= snd x) l
  | _ => True
  end.
(* only constants as initial values and offsets, and only 32-bit memories *)
Definition constant (e : cexpr) : Prop := ~ In false e.
Definition constant_opt (o : option cexpr) : Prop := forall e, o = Some e -> constant e.
Definition plain_section (s : section) : Prop :=
  match s with
  | SecUnsupported => False
  | SecMemory l => Forall (fun x => fst (fst x) = false /\ snd (fst x) = false /\ snd x * 65536 < 2 ^ 32) l
  | SecTables l => Forall (fun x => constant_opt (snd x)) l
  | SecGlobals l => Forall constant l
  | SecElems l => Forall (fun x => constant_opt (fst x) /\ forall es, snd x = inr es -> Forall constant es) l
  | SecData l => Forall (fun x => constant_opt (fst x) /\ snd x < 2 ^ 32) l
  | _ => True
  end.
Definition cap (n : Z) : Z := Z.min n (2 ^ 32 - 1).

(* ---- prices *)

(* [n] units at the price given by a constant and a linear term, the latter in 128ths;
   nothing costs more than 2^64 - 1. *)
Definition price (models : list cost_model) (x : nat * Z) : Z :=
  match nth_error models (fst x) with
  | Some m => Z.min (cm_const m + Z.min (cm_lin m * snd x) (2 ^ 64 - 1) / 128) (2 ^ 64 - 1)
  | None => 0
  end.
(* what a module is made of, with the numbers of the cost types in the network's settings *)
Definition parts (v : vcosts) : list (nat * Z) :=
  match v with
  | V0 n => [(11%nat, n)]
  | V1 c =>
      [(23%nat, n_instructions c); (24%nat, n_functions c); (25%nat, n_globals c); (26%nat, n_table_entries c); (27%nat, n_types c);
       (28%nat, n_data_segments c); (29%nat, n_elem_segments c); (30%nat, n_imports c); (31%nat, n_exports c); (32%nat, n_data_bytes c)]
  end.
Definition total_price (models : list cost_model) (v : vcosts) : Z :=
  Z.min (sum (map (price models) (parts v))) (2 ^ 64 - 1).
Definition models_ok (models : list cost_model) : Prop :=
  Forall (fun m => 0 <= cm_const m <= 2 ^ 64 - 1 /\ 0 <= cm_lin m) models.
Definition parts_ok (v : vcosts) : Prop := Forall (fun x => 0 <= snd x) (parts v).
(* at least as much of everything *)
Definition at_least (v w : vcosts) : Prop :=
  Forall2 (fun x y => fst x = fst y /\ 0 <= snd y <= snd x) (parts v) (parts w).
