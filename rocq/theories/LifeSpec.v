(* What extending a contract's lifetime is supposed to do: which ledger entries
   belong to a contract, and how much longer each of them lives.  Stores, `now`,
   `archived` and `only_longer` are those of StorageSpec. *)
From Coq Require Import ZArith Lia List Bool.
From Verif Require Import Prelude ValModel ContainerModel HeapModel AMap StorageModel StorageSpec LifeModel.
Import ListNotations.
Open Scope Z_scope.

(* In store m, contract a exists and runs ex. *)
Definition runs (m : store) (a : addr) (ex : executable) : Prop :=
  exists st l, m (LKData a SLedgerKeyContractInstance Persistent) = Some (EData (SContractInstance ex st), l).

(* The entries with the contract's code: its Wasm, or a reference kept by another
   contract and the Wasm it names. *)
Inductive code_key (m : store) (a : addr) : lkey -> Prop :=
| ck_wasm h : runs m a (ExWasm h) -> code_key m a (LKCode h)
| ck_ref o t : runs m a (ExExternalRef o t) -> code_key m a (LKData o (SExecutableTag t) Persistent)
| ck_referred o t h l : runs m a (ExExternalRef o t) ->
    m (LKData o (SExecutableTag t) Persistent) = Some (EData (SBytes h), l) -> code_key m a (LKCode h).

(* The entries a request is about. *)
Definition covered (m : store) (a : addr) (sc : ttl_scope) (k : lkey) : Prop :=
  match sc with
  | ScopeInstance => k = LKData a SLedgerKeyContractInstance Persistent
  | ScopeCode => code_key m a k
  | ScopeBoth => k = LKData a SLedgerKeyContractInstance Persistent \/ code_key m a k
  end.

Definition scope_of (q : life) : ttl_scope := match q with LifeV1 sc _ _ | LifeV2 sc _ _ _ => sc end.

(* How a request changes the last ledger of an entry.  First kind: when at most
   `threshold` ledgers are left, to `extend_to` ledgers from now, or as far as the
   network allows.  Second kind: by the largest amount between the bounds that
   stays within both, or not at all. *)
Definition granted (li : linfo) (q : life) (old new : Z) : Prop :=
  match q with
  | LifeV1 _ thr ext =>
      new = if old - li_seq li <=? thr then Z.max old (Z.min (li_seq li + ext) (max_live li)) else old
  | LifeV2 _ ext mn mx =>
      let fits b := mn <= b <= mx /\ old + b <= max_live li /\ old + b <= li_seq li + ext in
      (new = old \/ fits (new - old)) /\ old <= new /\ forall b, fits b -> old + b <= new
  end.

Definition args_ok (li : linfo) (q : life) : Prop :=
  match q with
  | LifeV1 _ thr ext => thr <= ext /\ li_seq li + ext <= u32_max
  | LifeV2 _ _ mn mx => 0 <= mn <= mx
  end.
(* arguments are unsigned *)
Definition args_unsigned (q : life) : Prop := match q with LifeV1 _ _ _ => True | LifeV2 _ _ mn _ => 0 <= mn end.

(* The ledger up to which a successful request leaves nothing to expire. *)
Definition promised (li : linfo) (q : life) : Z :=
  match q with
  | LifeV1 _ thr _ => Z.min (li_seq li + thr) (max_live li)
  | LifeV2 _ ext mn mx => Z.min (li_seq li + mx) (Z.min (li_seq li + ext) (max_live li) - Z.max 0 (mn - 1))
  end.

(* A contract with all its entries there, live and of the right kind. *)
Definition whole (li : linfo) (m : store) (a : addr) : Prop :=
  (exists ex, runs m a ex)
  /\ (forall k, covered m a ScopeBoth k -> exists e old, m k = Some (e, Some old) /\ li_seq li <= old <= u32_max)
  /\ (forall o t, runs m a (ExExternalRef o t) -> exists h l,
        m (LKData o (SExecutableTag t) Persistent) = Some (EData (SBytes h), l) /\ length h = 32%nat)
  /\ (forall h, code_key m a (LKCode h) -> exists w l, m (LKCode h) = Some (ECode w, l)).

(* A call of a in store m found what it runs: the built-in asset contract, or the
   Wasm that the contract or the reference names. *)
Definition found (m : store) (a : addr) (r : res sout) : Prop :=
  match r with
  | Ok OUnit => runs m a ExStellarAsset
  | Ok (OEntry (Some (ECode w, l))) => exists h, code_key m a (LKCode h) /\ m (LKCode h) = Some (ECode w, l)
  | _ => False
  end.
