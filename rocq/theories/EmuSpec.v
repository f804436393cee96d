(* What the claims about emulated authentication are stated with. *)
From Coq Require Import ZArith List Bool.
From Verif Require Import Prelude ValModel ContainerModel HeapModel AMap StorageModel StorageSpec EmuModel.
Import ListNotations.
Open Scope Z_scope.

(* The executable of a contract in a ledger, and what a reference stands for. *)
Definition executable_in (m : store) (id : list Z) : option executable :=
  match m (instance_key (AContract id)) with
  | Some (EData (SContractInstance ex _), _) => Some ex
  | _ => None
  end.
Definition referenced_in (m : store) (owner : addr) (tag : list Z) : option (list Z) :=
  match m (exe_ref_key owner tag) with
  | Some (EData (SBytes b), _) => if Nat.eqb (length b) 32 then Some b else None
  | _ => None
  end.

(* Two ledgers in which an account is run by the same code: nothing is asked of
   a classic account. *)
Definition same_account (m m' : store) (a : addr) : Prop :=
  match a with
  | AContract id =>
      executable_in m id = executable_in m' id
      /\ forall o t, executable_in m id = Some (ExExternalRef o t) -> referenced_in m o t = referenced_in m' o t
  | _ => True
  end.

(* The entries an authentication needs before the code of the account is run. *)
Definition needs (m : store) (a : addr) (k : lkey) : Prop :=
  match a with
  | AAccount key => k = LKAccount key
  | AContract id =>
      k = instance_key (AContract id)
      \/ (exists h, executable_in m id = Some (ExWasm h) /\ k = LKCode h)
      \/ (exists o t, executable_in m id = Some (ExExternalRef o t)
            /\ (k = exe_ref_key o t \/ exists h, referenced_in m o t = Some h /\ k = LKCode h))
  | _ => False
  end.

(* Every call of a trace is a read that was answered from `m`. *)
Definition reads_from (m : store) (t : list (sop * res sout)) : Prop :=
  Forall (fun q => exists k, q = (SGet k, Ok (OEntry (m k)))) t.
Definition keys_read (t : list (sop * res sout)) : list lkey := map (fun q => op_key (fst q)) t.
