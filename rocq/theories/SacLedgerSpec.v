(* The ledger entries of an asset contract: what a user or an indexer finds on the
   ledger, told without the contract's functions or its conversions. *)
From Coq Require Import ZArith String List Bool.
From Verif Require Import Prelude ValModel HeapModel AMap StorageModel CtModel SacModel SacSpec.
Import ListNotations.
Open Scope Z_scope.

Definition name_ (s : string) : scval := SSymbol (lit s).
Arguments name_ s%string_scope.

(* Keys: balances of contracts are persistent entries, allowances temporary. *)
Definition bkey (self a : addr) : lkey :=
  LKData self (SVec (Some [name_ "Balance"; SAddress a])) Persistent.
Definition akey (self f s : addr) : lkey :=
  LKData self (SVec (Some [name_ "Allowance";
                           SMap (Some [(name_ "from", SAddress f); (name_ "spender", SAddress s)])]))
         Temporary.
Definition ikey (self : addr) : lkey := LKData self SLedgerKeyContractInstance Persistent.

(* Values. *)
Definition i128_val (x : Z) : scval := SI128 (x / 2 ^ 64) (x mod 2 ^ 64).
Definition i128_range (x : Z) : Prop := - 2 ^ 127 <= x < 2 ^ 127.
Definition bentry (b : bval) : lentry :=
  (EData (SMap (Some [(name_ "amount", i128_val (b_amount b)); (name_ "authorized", SBool (b_auth b));
                      (name_ "clawback", SBool (b_claw b))])),
   Some (b_live b)).
Definition aentry (v : aval) : lentry :=
  (EData (SMap (Some [(name_ "amount", i128_val (l_amount v)); (name_ "live_until_ledger", SU32 (l_until v))])),
   Some (l_live v)).

Definition found (s : storage) (k : lkey) : option (option lentry) := aget lkey_eq_dec (st_map s) k.
Definition footprint (s : storage) (k : lkey) : option access := aget lkey_eq_dec (st_foot s) k.

(* What the network says to reading and writing a key. *)
Definition may_read (s : storage) (k : lkey) : res unit :=
  match footprint s k with
  | None => Err (ESys TStorage CExceededLimit)
  | Some _ => match found s k with Some _ => Ok tt | None => Err (ESys TStorage CInternalError) end
  end.
Definition may_write (s : storage) (k : lkey) : res unit :=
  match footprint s k with Some ReadWrite => Ok tt | _ => Err (ESys TStorage CExceededLimit) end.

(* The storage holds the balances and allowances of st, all live, and those only;
   the environment answers accesses the way the storage does. *)
Record shows (env : senv) (self : addr) (s : storage) (st : sst) : Prop := {
  sh_bal : forall a, match aget_bal st a with
    | Some b => found s (bkey self a) = Some (Some (bentry b))
                /\ i128_range (b_amount b) /\ li_seq (sv_li env) <= b_live b
    | None => forall e, found s (bkey self a) <> Some (Some e)
    end;
  sh_allow : forall f sp, match aget_allow st f sp with
    | Some v => found s (akey self f sp) = Some (Some (aentry v))
                /\ i128_range (l_amount v) /\ li_seq (sv_li env) <= l_live v
    | None => forall e, found s (akey self f sp) <> Some (Some e)
    end;
  sh_bal_read : forall a, sv_read env (KBal a) = may_read s (bkey self a);
  sh_bal_write : forall a, sv_write env (KBal a) = may_write s (bkey self a);
  sh_allow_read : forall f sp, sv_read env (KAllow f sp) = may_read s (akey self f sp);
  sh_allow_write : forall f sp, sv_write env (KAllow f sp) = may_write s (akey self f sp);
}.

(* The instance of the contract, which runs: it was found and is live.  The
   ledger is not at the end of time: seven days from now, and the greatest TTL,
   are ledger numbers. *)
Record running (env : senv) (self : addr) (s : storage) : Prop := {
  rn_read : may_read s (ikey self) = Ok tt;
  rn_entry : exists data live, found s (ikey self) = Some (Some (EData (SContractInstance ExStellarAsset data), Some live))
             /\ li_seq (sv_li env) <= live;
  rn_days : li_seq (sv_li env) + 7 * 17280 <= u32_max;
  rn_max : li_seq (sv_li env) + Z.max 0 (li_max_ttl (sv_li env) - 1) <= u32_max;
}.

(* Instance data, accounts, trustlines and events. *)
Definition same_rest (r st : sst) : Prop :=
  s_asset r = s_asset st /\ s_admin r = s_admin st /\ s_acc r = s_acc st /\ s_tl r = s_tl st
  /\ s_events r = s_events st.

(* While authorization is asked for, this contract cannot be entered (C26): none of
   its entries changes. *)
Definition quiet (self : addr) (auth_store : addr -> storage -> storage) : Prop :=
  forall a s, st_foot (auth_store a s) = st_foot s
              /\ forall k d, found (auth_store a s) (LKData self k d) = found s (LKData self k d).

Definition typed_call (c : scall) : Prop := forall x, amount_of c = Some x -> i128_range x.

(* ------------------------------------------------- directly on the ledger *)

(* the balance found under a contract's key *)
Definition ledger_amount (self : addr) (s : storage) (a : addr) : Z :=
  match found s (bkey self a) with
  | Some (Some (EData (SMap (Some ((_, SI128 hi lo) :: _))), _)) => hi * 2 ^ 64 + lo
  | _ => 0
  end.
Definition ledger_live (s : storage) (k : lkey) : Z :=
  match found s k with Some (Some (_, Some l)) => l | _ => 0 end.

(* Entries of the asset contract's data that are in order, on a ledger as it is
   when a transaction starts. *)
Record in_order (seq : Z) (self : addr) (s : storage) : Prop := {
  io_bal : forall a e, found s (bkey self a) = Some (Some e) ->
    exists b, e = bentry b /\ i128_range (b_amount b) /\ seq <= b_live b;
  io_allow : forall f sp e, found s (akey self f sp) = Some (Some e) ->
    exists v, e = aentry v /\ i128_range (l_amount v) /\ seq <= l_live v;
}.

(* The entries of the contract a call may write to. *)
Definition holders (c : scall) : list addr :=
  match c with
  | CBalance a | CBurn a _ | CBurnFrom _ a _ | CClawback a _ | CSetAuthorized a _ | CMint a _ => [a]
  | CTransfer f t _ => [f; plain t]
  | CTransferFrom _ f t _ => [f; t]
  | _ => []
  end.
Definition allowed (c : scall) : list (addr * addr) :=
  match c with
  | CApprove f s _ _ | CTransferFrom s f _ _ | CBurnFrom s f _ => [(f, s)]
  | _ => []
  end.
Definition touches (self : addr) (c : scall) (k : lkey) : Prop :=
  (exists id, In (AContract id) (holders c) /\ k = bkey self (AContract id))
  \/ (exists f s, In (f, s) (allowed c) /\ k = akey self f s)
  \/ (c <> CAdmin /\ k = ikey self).

(* The storage after the authorization a call needs was asked for. *)
Definition signed (auth_store : addr -> storage -> storage) (st : sst) (c : scall) (s : storage) : storage :=
  match needs st c with Some a => auth_store a s | None => s end.

(* Several calls in one transaction, each with its own authorizations. *)
Definition with_auth (env : senv) (f : addr -> res unit) : senv :=
  {| sv_li := sv_li env; sv_reserve := sv_reserve env; sv_auth := f;
     sv_read := sv_read env; sv_write := sv_write env |}.
Fixpoint invoke_all (env : senv) (st : sst) (l : list ((addr -> res unit) * scall)) : sst * list (res sret) :=
  match l with
  | [] => (st, [])
  | (f, c) :: l' =>
      let '(st1, r) := invoke (with_auth env f) st c in
      let '(st2, rs) := invoke_all env st1 l' in
      (st2, r :: rs)
  end.
