(* Emulated authentication: what the host reads, at the end of a run whose
   authorizations are recorded, in place of the authentications that the run
   would have made had it been given signed entries; and what such an
   authentication reads before the code of the account is run.
   Left out: the budget (the emulation of an account also verifies one
   signature, whose cost alone is observable), diagnostics, and the signature
   that the emulation leaves in the tracker. *)
From Coq Require Import ZArith Lia List Bool.
From Verif Require Import Prelude ValModel ContainerModel HeapModel AMap StorageModel FrameModel.
Import ListNotations.
Open Scope Z_scope.

(* auth.rs, `AccountAuthorizationTracker`: the fields that authentication reads.
   `tk_prepared` is the outcome of computing the signature payload and of the
   conversion of the tree to a host value (auth.rs:2676-2681), which touch no
   storage. *)
Record tracker := {
  tk_source : bool;
  tk_addr : addr;
  tk_prepared : res unit;
}.

Definition e_unexpected_address : err := ESys TObject CInternalError.
(* contract_error.rs:18 *)
Definition e_authentication : err := EContract 5.
(* account_contract.rs:25 *)
Definition max_signatures : Z := 20.

(* account_contract.rs:181-200: the signatures are counted before the account is
   read.  `sigs` is the outcome of reading the signature as a vector: how many
   signatures there are.  data_helper.rs, `load_account`: an entry that is not
   an account is an internal error. *)
Definition account_loads (key : list Z) (sigs : res Z) : prog :=
  match sigs with
  | Err e => pfail e
  | Ok n =>
      if max_signatures <? n then pfail e_authentication
      else if n =? 0 then pfail e_authentication
      else pget (LKAccount key) (fun '(e, l) =>
             match e with
             | EAccount _ => PRet (Ok (OEntry (Some (e, l))))
             | _ => pfail e_st_internal
             end)
  end.

(* auth.rs:2665-2720, account_contract.rs:148-171: what is read before the
   signatures are verified, or the account's contract is run. *)
Definition auth_loads (t : tracker) (sigs : res Z) : prog :=
  if tk_source t then pdone
  else match tk_prepared t with
       | Err e => pfail e
       | Ok _ =>
           match tk_addr t with
           | AAccount k => account_loads k sigs
           | AContract id => load_contract id
           | _ => pfail e_unexpected_address
           end
       end.
(* ... and the rest of it, whatever it is *)
Definition authenticate (t : tracker) (sigs : res Z) (rest : res sout -> prog) : prog :=
  pbind (auth_loads t sigs) rest.

(* auth.rs:2773-2817 *)
Definition emulate_contract (id : list Z) : prog :=
  psucc (SGet (instance_key (AContract id))) (fun o =>
    match o with
    | OEntry (Some (EData (SContractInstance ex _), _)) =>
        match ex with
        | ExWasm h => psucc (SGet (LKCode h)) (fun _ => pdone)
        | ExExternalRef owner tag =>
            psucc (SGet (exe_ref_key owner tag)) (fun o =>
              match o with
              | OEntry (Some (EData (SBytes b), _)) =>
                  if Nat.eqb (length b) 32 then psucc (SGet (LKCode b)) (fun _ => pdone) else pdone
              | _ => pdone
              end)
        | ExStellarAsset => pdone
        end
    | _ => pdone
    end).

(* auth.rs:2725-2831; an account's own authentication is run with one signature,
   and what comes of it is dropped *)
Definition emulate (t : tracker) : prog :=
  if tk_source t then pdone
  else match tk_addr t with
       | AAccount k => pbind (auth_loads t (Ok 1)) (fun _ => pdone)
       | AContract id => emulate_contract id
       | _ => pfail e_unexpected_address
       end.

(* auth.rs:1755-1769 *)
Fixpoint emulate_all (l : list tracker) : prog :=
  match l with
  | [] => pdone
  | t :: l => pbind (emulate t) (fun r => match r with Ok _ => emulate_all l | Err e => pfail e end)
  end.

(* frame.rs:253-275: the outermost frame.  The emulation comes before the
   storage is rolled back, and is made whether or not the run failed. *)
Definition recorded_run (c : sconf) (s : storage) (p : prog) (l : list tracker) : storage * res sout :=
  let '(s1, r, _) := srun c s p in
  let '(s2, q, _) := srun c s1 (emulate_all l) in
  match q with
  | Err e => (s2, Err e)
  | Ok _ => match r with
            | Ok _ => (s2, r)
            | Err _ => (set_map s2 (st_map s), r)
            end
  end.
