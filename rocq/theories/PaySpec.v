(* What "paid for" means: the physical work done by copying, allocating, visiting
   and comparing, the amounts charged for it, and an execution under a budget. *)
From Coq Require Import ZArith Lia List Bool.
From Verif Require Import Prelude BudgetModel BudgetSpec ContainerModel HeapModel StorageModel.
Import ListNotations.
Open Scope Z_scope.

(* A step of an execution: a charge to the budget, or a piece of real work. *)
Inductive step :=
| Pay (ty : nat) (input : option Z)   (* Budget::charge of this cost type *)
| Allocate (n : Z)                    (* n bytes of heap *)
| Copy (n : Z)                        (* n bytes written to memory *)
| Read (n : Z)                        (* n bytes of elements fetched from a container *)
| Match (n : Z)                       (* n bytes compared *)
| Visit.                              (* a host object looked up *)

(* ContractCostType: MemAlloc is 1, MemCpy 2, MemCmp 3, VisitObject 5. *)
Inductive kind := Heap | Memory | Bytes | Objects.

Definition did (k : kind) (s : step) : Z :=
  match k, s with
  | Heap, Allocate n => n
  | Memory, Copy n | Memory, Read n => n
  | Bytes, Match n => n
  | Objects, Visit => 1
  | _, _ => 0
  end.
Definition charged (k : kind) (s : step) : Z :=
  match k, s with
  | Heap, Pay 1 (Some n) => n
  | Memory, Pay 2 (Some n) => n
  | Bytes, Pay 3 (Some n) => n
  | Objects, Pay 5 None => 1
  | _, _ => 0
  end.
Fixpoint sum_of (f : step -> Z) (t : list step) : Z :=
  match t with [] => 0 | s :: t => f s + sum_of f t end.
(* what was done and what was charged for it; amounts beyond 2^64 - 1 are charged
   as 2^64 - 1, which no budget can pay *)
Definition work (k : kind) (t : list step) : Z := sum_of (did k) t.
Definition paid (k : kind) (t : list step) : Z := sum_of (charged k) t.
Definition covered (t : list step) : Prop := forall k, Z.min u64_max (work k t) <= paid k t.
(* the same, but for a new container of n bytes that was built before its charge *)
Definition covered_but (n : Z) (t : list step) : Prop :=
  forall k, Z.min u64_max (work k t) <= paid k t + n.

(* An operation: its steps and its answer if nothing stops it. *)
Definition op (A : Type) := (list step * res A)%type.

(* Running it on a budget stops at the first charge that fails: the budget left,
   the steps taken, the answer. *)
Fixpoint take_steps (b : budget) (t : list step) : budget * list step * option err :=
  match t with
  | [] => (b, [], None)
  | Pay ty i :: t =>
      match charge b ty 1 i with
      | (b', Err e) => (b', [Pay ty i], Some e)
      | (b', Ok _) => let '(b'', d, e) := take_steps b' t in (b'', Pay ty i :: d, e)
      end
  | s :: t => let '(b', d, e) := take_steps b t in (b', s :: d, e)
  end.
Definition run_under {A} (b : budget) (m : op A) : budget * list step * res A :=
  match take_steps b (fst m) with
  | (b', d, None) => (b', d, snd m)
  | (b', d, Some e) => (b', d, Err e)
  end.

(* A budget that meters: not in shadow mode, and the four cost types are there and
   take their inputs (every configured budget does). *)
Definition metering (b : budget) : Prop :=
  ok_budget b /\ in_shadow b = false
  /\ (forall n, input_shape b 1 (Some n)) /\ (forall n, input_shape b 2 (Some n))
  /\ (forall n, input_shape b 3 (Some n)) /\ input_shape b 5 None.

(* [m] answers r, or the budget runs out; and on every budget what was done had
   been charged, up to one new container of n bytes when the budget ran out. *)
Definition pays {A} (n : Z) (m : op A) (r : res A) : Prop :=
  forall b, metering b ->
  match run_under b m with
  | (_, done, answer) =>
      (answer = r /\ covered done)
      \/ (answer = Err (ESys TBudget CExceededLimit) /\ covered_but n done)
  end.

(* ------------------------------------------------------------ physical sizes *)

(* bytes a comparison of two byte strings looks at: up to the first difference *)
Fixpoint examined (a b : list Z) : Z :=
  match a, b with
  | x :: a, y :: b => 1 + (if x =? y then examined a b else 0)
  | _, _ => 0
  end.

Definition len {A} (l : list A) : Z := Z.of_nat (length l).

(* The heap behind a value: a vector owns its elements, of 96 bytes each
   (size_of::<ScVal>), and what they own; a map its entries, of 192 bytes. *)
Definition tag_bytes (e : executable) : Z :=
  match e with ExExternalRef _ t => len t | _ => 0 end.
Fixpoint owned (v : scval) : Z :=
  let pairs := fix go (m : list (scval * scval)) : Z :=
    match m with [] => 0 | (a, b) :: m => 192 + owned a + owned b + go m end in
  match v with
  | SVec (Some l) => (fix go (l : list scval) : Z := match l with [] => 0 | x :: l => 96 + owned x + go l end) l
  | SMap (Some m) => pairs m
  | SBytes b | SString b | SSymbol b | SExecutableTag b => len b
  | SContractInstance e s => tag_bytes e + match s with Some m => pairs m | None => 0 end
  | _ => 0
  end.

(* bytes looked at by comparing two executables: the hash, or the owner and then
   the tags *)
Definition exe_examined (a b : executable) : Z :=
  match a, b with
  | ExWasm _, ExWasm _ => 32
  | ExExternalRef x s, ExExternalRef y t =>
      48 + match addr_cmp x y with Eq => examined s t | _ => 0 end
  | _, _ => 0
  end.

(* Every reference to an external executable inside has a tag of at most 24 bytes. *)
Definition short_tag (e : executable) : Prop := tag_bytes e <= 24.
Fixpoint short_tags (v : scval) : Prop :=
  let pairs := fix go (m : list (scval * scval)) : Prop :=
    match m with [] => True | (a, b) :: m => short_tags a /\ short_tags b /\ go m end in
  match v with
  | SVec (Some l) => (fix go (l : list scval) : Prop := match l with [] => True | x :: l => short_tags x /\ go l end) l
  | SMap (Some m) => pairs m
  | SContractInstance e s => short_tag e /\ match s with Some m => pairs m | None => True end
  | _ => True
  end.

(* A value that can be copied within d levels of nesting: no absent vector or map
   in it. *)
Fixpoint within (v : scval) (d : nat) : Prop :=
  match d with
  | O => False
  | S d =>
      let pairs := fix go (m : list (scval * scval)) : Prop :=
        match m with [] => True | (a, b) :: m => within a d /\ within b d /\ go m end in
      match v with
      | SVec None | SMap None => False
      | SVec (Some l) => (fix go (l : list scval) : Prop := match l with [] => True | x :: l => within x d /\ go l end) l
      | SMap (Some m) => pairs m
      | SContractInstance _ (Some m) => pairs m
      | _ => True
      end
  end.

(* The order of ledger keys: by kind; accounts, trustlines and codes by their
   fields; contract data by contract, then key, then durability. *)
Definition kind_of_key (k : lkey) : Z :=
  match k with
  | LKAccount _ => 0 | LKTrustline _ _ => 1 | LKData _ _ _ => 6 | LKCode _ => 7 | LKOther d => d
  end.
Definition life_of (p : durability) : Z := match p with Temporary => 0 | Persistent => 1 end.
Definition key_order (d : nat) (a b : lkey) : res comparison :=
  match a, b with
  | LKOther _, _ | _, LKOther _ => Err (ESys TStorage CInternalError)
  | LKAccount x, LKAccount y => Ok (bytes_cmp x y)
  | LKTrustline x s, LKTrustline y t =>
      Ok (match bytes_cmp x y with Eq => bytes_cmp s t | c => c end)
  | LKData x k p, LKData y l q =>
      match addr_cmp x y with
      | Eq => match cmp_scval d k l with
              | Ok Eq => Ok (life_of p ?= life_of q)
              | r => r
              end
      | c => Ok c
      end
  | LKCode x, LKCode y => Ok (bytes_cmp x y)
  | _, _ => Ok (kind_of_key a ?= kind_of_key b)
  end.
Definition short_key (k : lkey) : Prop := match k with LKData _ v _ => short_tags v | _ => True end.

(* [m] answers r, or the budget runs out; and on every budget what was done exceeds
   what was charged by at most n. *)
Definition short_by {A} (n : Z) (m : op A) (r : res A) : Prop :=
  forall b, metering b ->
  match run_under b m with
  | (_, done, answer) =>
      covered_but n done /\ (answer = r \/ answer = Err (ESys TBudget CExceededLimit))
  end.
