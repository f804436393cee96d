(* The host functions that extend a contract's lifetime (host.rs "ledger" module,
   host/data_helper.rs), and what calling a contract reads (host/frame.rs).

   Simplifications, beside those of StorageModel.  The contract's address is given
   as an address value.  Calling stops where the code is found: the module cache
   (frame.rs:983-997) only saves parsing. *)
From Coq Require Import ZArith Lia List Bool.
From Verif Require Import Prelude ValModel ContainerModel HeapModel AMap StorageModel.
Import ListNotations.
Open Scope Z_scope.

(* data_helper.rs:613-636 *)
Definition contract_id_from_address (a : addr) (cont : prog) : prog :=
  match a with
  | AContract _ => cont
  | _ => pfail (ESys TObject CInvalidInput)
  end.

(* host.rs:2225-2242 with data_helper.rs:372-386 *)
Definition extend_contract_instance_ttl (a : addr) (threshold extend_to : Z) : prog :=
  contract_id_from_address a (psucc (SExtend (instance_key a) threshold extend_to) (fun _ => pdone)).

(* host.rs:2262-2275 with data_helper.rs:340-370 *)
Definition extend_contract_code_ttl (a : addr) (threshold extend_to : Z) : prog :=
  contract_id_from_address a (extend_code_ttl (fun k => SExtend k threshold extend_to) (instance_key a)).

(* host.rs:2208-2223 (for the running contract), 2244-2260 *)
Definition extend_contract_instance_and_code_ttl (a : addr) (threshold extend_to : Z) : prog :=
  contract_id_from_address a (extend_instance_and_code_ttl a threshold extend_to).

(* host.rs:2307-2337 *)
Definition extend_contract_instance_and_code_ttl_v2 (a : addr) (sc : ttl_scope) (extend_to mn mx : Z) : prog :=
  contract_id_from_address a (extend_instance_and_code_ttl_v2 a sc extend_to mn mx).

(* The four calls; `LifeV1` chooses among the first three. *)
Inductive life :=
| LifeV1 (sc : ttl_scope) (threshold extend_to : Z)
| LifeV2 (sc : ttl_scope) (extend_to mn mx : Z).

Definition life_prog (a : addr) (q : life) : prog :=
  match q with
  | LifeV1 ScopeInstance t x => extend_contract_instance_ttl a t x
  | LifeV1 ScopeCode t x => extend_contract_code_ttl a t x
  | LifeV1 ScopeBoth t x => extend_contract_instance_and_code_ttl a t x
  | LifeV2 sc x mn mx => extend_contract_instance_and_code_ttl_v2 a sc x mn mx
  end.

(* data_helper.rs:139-166; the answer is the code's entry *)
Definition retrieve_wasm_from_storage (h : list Z) : prog :=
  pget (LKCode h) (fun '(e, l) =>
    match e with
    | ECode _ => PRet (Ok (OEntry (Some (e, l))))
    | _ => pfail e_st_internal
    end).

(* frame.rs:902-937, 981-982, 1089: the executable that a call of `a` runs;
   the built-in asset contract has no code *)
Definition call_contract_reads (a : addr) : prog :=
  pinstance (instance_key a) (fun ex _ =>
    match ex with
    | ExWasm h => retrieve_wasm_from_storage h
    | ExExternalRef owner tag => resolve_external_ref owner tag retrieve_wasm_from_storage
    | ExStellarAsset => pdone
    end).
