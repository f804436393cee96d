(* The Stellar asset contract on the storage of the host: the functions of
   balance.rs, allowance.rs and contract.rs whose data are the contract's own
   ledger entries, with the keys and values of storage_types.rs (CtModel) kept by
   the storage of StorageModel, and the extension of the contract's TTL.

   The storage is that of the network: enforcing footprints, built without
   recording mode.  Instance data (asset, administrator), events, and the classic
   accounts and trustlines are the records of SacModel, and what is done to them
   are its functions; the entries of balances and allowances there are not used.
   require_auth answers what the environment says, and may change the storage
   ([auth_store]).  Budget is omitted.  A failing call leaves nothing (C24), so
   that only successful calls give a storage. *)
From Coq Require Import ZArith String List Bool.
From Verif Require Import Prelude ValModel HeapModel AMap MultisigModel StorageModel CtModel SacModel.
Import ListNotations.
Open Scope Z_scope.

Record lst := { ld_store : storage; ld_rest : sst }.

(* storage_types.rs:18-29, BalanceValue and AllowanceValue *)
Definition balance_dat (x : Z) (au cl : bool) : dat :=
  DStruct [(lit "amount", DI128 x); (lit "authorized", DBool au); (lit "clawback", DBool cl)].
Definition dat_balance (d : dat) : res (Z * bool * bool) :=
  match d with
  | DStruct l =>
      match field (lit "amount") l, field (lit "authorized") l, field (lit "clawback") l with
      | Some (DI128 x), Some (DBool au), Some (DBool cl) => Ok (x, au, cl)
      | _, _, _ => Err e_convert
      end
  | _ => Err e_convert
  end.
Definition allowance_dat (x until : Z) : dat :=
  DStruct [(lit "amount", DI128 x); (lit "live_until_ledger", DU32 until)].
Definition dat_allowance (d : dat) : res (Z * Z) :=
  match d with
  | DStruct l =>
      match field (lit "amount") l, field (lit "live_until_ledger") l with
      | Some (DI128 x), Some (DU32 u) => Ok (x, u)
      | _, _ => Err e_convert
      end
  | _ => Err e_convert
  end.

(* storage_types.rs:5-6 *)
Definition instance_extend : Z := 7 * day.
Definition instance_threshold : Z := instance_extend - day.

Section Ledger.
Variable env : senv.
Variable self : addr.                              (* the contract *)
Variable auth_store : addr -> storage -> storage.  (* what require_auth does to the storage *)
Let li := sv_li env.
Let seq := li_seq li.

Definition conf : sconf := {| sc_li := li; sc_mode := Enforcing; sc_recording_build := false |}.

(* a host function; `?` on its answer *)
Definition host (s : storage) (p : prog) : res (storage * sout) :=
  match srun conf s p with
  | (s', Ok o, _) => Ok (s', o)
  | (_, Err e, _) => Err e
  end.

(* storage_utils.rs:4-15 *)
Definition try_get_data (s : storage) (k : scval) (d : durability) : res (storage * option scval) :=
  let? p := host s (has_contract_data self k d) in
  match snd p with
  | OBool true =>
      let? q := host (fst p) (get_contract_data self k d) in
      match snd q with
      | OEntry (Some (EData v, _)) => Ok (fst q, Some v)
      | _ => Err e_st_internal
      end
  | _ => Ok (fst p, None)
  end.

Definition with_store (s : lst) (x : storage) : lst := {| ld_store := x; ld_rest := ld_rest s |}.
Definition with_rest (s : lst) (r : sst) : lst := {| ld_store := ld_store s; ld_rest := r |}.
(* what is done to accounts, trustlines and instance data *)
Definition classic (s : lst) (f : sst -> res sst) : res lst :=
  let? r := f (ld_rest s) in Ok (with_rest s r).

(* base_types.rs:390-398, require_auth *)
Definition ld_auth (s : lst) (a : addr) : res lst :=
  let? _ := sv_auth env a in Ok (with_store s (auth_store a (ld_store s))).

(* ------------------------------------------------------------- balance.rs *)

(* balance.rs:48-51, 122-125, 176-179, 238-241, 274-277, 342-345 *)
Definition ld_get_bal (s : lst) (a : addr) : res (lst * option scval) :=
  let? k := balance_key a in
  let? p := try_get_data (ld_store s) k Persistent in
  Ok (with_store s (fst p), snd p).
Definition read_balance_value (v : scval) : res (Z * bool * bool) :=
  let? d := from_val t_balance v in dat_balance d.
(* balance.rs:52-57, 90-95 *)
Definition ld_extend_bal (s : lst) (a : addr) : res lst :=
  let? k := balance_key a in
  let? p := host (ld_store s)
              (extend_contract_data_ttl self k Persistent balance_threshold balance_extend) in
  Ok (with_store s (fst p)).
(* balance.rs:44-71 *)
Definition ld_read_balance (s : lst) (a : addr) : res (lst * Z) :=
  match a with
  | AAccount k => let? p := read_balance env (ld_rest s) (AAccount k) in Ok (s, snd p)
  | AContract _ =>
      let? p := ld_get_bal s a in
      match snd p with
      | Some v =>
          let? s1 := ld_extend_bal (fst p) a in
          let? b := read_balance_value v in
          let '(x, _, _) := b in
          Ok (s1, x)
      | None => Ok (fst p, 0)
      end
  | _ => Err e_addr_kind
  end.
(* balance.rs:74-97 *)
Definition ld_write_balance (s : lst) (a : addr) (x : Z) (au cl : bool) : res lst :=
  let? k := balance_key a in
  let? v := to_val t_balance (balance_dat x au cl) in
  let? p := host (ld_store s) (put_contract_data li self k v Persistent) in
  ld_extend_bal (with_store s (fst p)) a.
(* balance.rs:233-254 *)
Definition ld_is_authorized (s : lst) (a : addr) : res (lst * bool) :=
  match a with
  | AAccount k => let? b := account_authorized env (ld_rest s) k in Ok (s, b)
  | AContract _ =>
      let? p := ld_get_bal s a in
      match snd p with
      | Some v => let? b := read_balance_value v in let '(_, au, _) := b in Ok (fst p, au)
      | None => let? r := issuer_flag env (ld_rest s) acc_required in Ok (fst p, negb r)
      end
  | _ => Err e_addr_kind
  end.
(* balance.rs:100-153 *)
Definition ld_receive (s : lst) (a : addr) (amount : Z) : res lst :=
  let? p := ld_is_authorized s a in
  let '(s, ok) := p in
  if negb ok then Err e_deauth
  else
    match a with
    | AAccount k =>
        let? x := chk64 amount e_overflow in classic s (fun st => transfer_classic env st k x)
    | AContract _ =>
        let? p := ld_get_bal s a in
        let? b := match snd p with
                  | Some v => read_balance_value v
                  | None => let? c := issuer_flag env (ld_rest s) acc_clawback in Ok (0, true, c)
                  end in
        let '(x, au, cl) := b in
        let? new := chk128 (x + amount) e_overflow in
        ld_write_balance (fst p) a new au cl
    | _ => Err e_addr_kind
    end.
(* balance.rs:156-217 *)
Definition ld_spend_no_check (s : lst) (a : addr) (amount : Z) : res lst :=
  match a with
  | AAccount k =>
      let? x := chk64 amount e_overflow in classic s (fun st => transfer_classic env st k (- x))
  | AContract _ =>
      let? p := ld_get_bal s a in
      match snd p with
      | Some v =>
          let? b := read_balance_value v in
          let '(x, au, cl) := b in
          if x <? amount then Err e_balance
          else
            let? new := chk128 (x - amount) e_overflow in
            ld_write_balance (fst p) a new au cl
      | None => if amount >? 0 then Err e_balance else Ok (fst p)
      end
  | _ => Err e_addr_kind
  end.
(* balance.rs:220-230 *)
Definition ld_spend (s : lst) (a : addr) (amount : Z) : res lst :=
  let? p := ld_is_authorized s a in
  if negb (snd p) then Err e_deauth else ld_spend_no_check (fst p) a amount.
(* balance.rs:257-298 *)
Definition ld_write_authorization (s : lst) (a : addr) (authorize : bool) : res lst :=
  let? rev := if authorize then Ok true else issuer_flag env (ld_rest s) acc_revocable in
  if negb rev then Err e_unsupported
  else
    match a with
    | AAccount k => classic s (fun st => set_authorization env st k authorize)
    | AContract _ =>
        let? p := ld_get_bal s a in
        match snd p with
        | Some v =>
            let? b := read_balance_value v in
            let '(x, _, cl) := b in
            ld_write_balance (fst p) a x authorize cl
        | None =>
            let? c := issuer_flag env (ld_rest s) acc_clawback in
            ld_write_balance (fst p) a 0 authorize c
        end
    | _ => Err e_addr_kind
    end.
(* balance.rs:301-373 *)
Definition ld_check_clawbackable (s : lst) (a : addr) : res lst :=
  match a with
  | AAccount k => let? _ := check_clawbackable env (ld_rest s) (AAccount k) in Ok s
  | AContract _ =>
      let? p := ld_get_bal s a in
      match snd p with
      | Some v =>
          let? b := read_balance_value v in
          let '(_, _, cl) := b in
          if cl then Ok (fst p) else Err e_balance
      | None => Err e_balance
      end
  | _ => Err e_addr_kind
  end.

(* ----------------------------------------------------------- allowance.rs *)

Definition read_allowance_value (v : scval) : res (Z * Z) :=
  let? d := from_val t_allowance v in dat_allowance d.
Definition ld_get_allow (s : lst) (f sp : addr) : res (lst * option scval) :=
  let? k := allowance_key f sp in
  let? p := try_get_data (ld_store s) k Temporary in
  Ok (with_store s (fst p), snd p).
(* allowance.rs:15-29 *)
Definition ld_read_allowance (s : lst) (f sp : addr) : res (lst * Z) :=
  let? p := ld_get_allow s f sp in
  match snd p with
  | Some v =>
      let? b := read_allowance_value v in
      let '(x, until) := b in
      Ok (fst p, if until <? seq then 0 else x)
  | None => Ok (fst p, 0)
  end.
(* allowance.rs:90-109 *)
Definition ld_put_allowance (s : lst) (f sp : addr) (amount until old : Z) : res lst :=
  let? k := allowance_key f sp in
  let? v := to_val t_allowance (allowance_dat amount until) in
  let? p := host (ld_store s) (put_contract_data li self k v Temporary) in
  if (amount >? 0) && (old <? until) then
    let d := sat_sub_u32 until seq in
    let? q := host (fst p) (extend_contract_data_ttl self k Temporary d d) in
    Ok (with_store s (fst q))
  else Ok (with_store s (fst p)).
(* allowance.rs:32-114 *)
Definition ld_write_allowance (s : lst) (f sp : addr) (amount until : Z) : res lst :=
  let? mx := get_max_live_until li in
  if until >? mx then Err e_allowance
  else if (amount >? 0) && (until <? seq) then Err e_allowance
  else
    let? p := ld_get_allow s f sp in
    match snd p with
    | Some v =>
        let? b := read_allowance_value v in
        let '(_, old) := b in
        ld_put_allowance (fst p) f sp amount until old
    | None => if amount >? 0 then ld_put_allowance (fst p) f sp amount until 0 else Ok (fst p)
    end.
(* allowance.rs:117-132 *)
Definition ld_write_allowance_amount (s : lst) (f sp : addr) (amount : Z) : res lst :=
  let? k := allowance_key f sp in
  let? p := host (ld_store s) (get_contract_data self k Temporary) in
  match snd p with
  | OEntry (Some (EData v, _)) =>
      let? b := read_allowance_value v in
      let '(_, until) := b in
      ld_write_allowance (with_store s (fst p)) f sp amount until
  | _ => Err e_st_internal
  end.
(* allowance.rs:135-161 *)
Definition ld_spend_allowance (s : lst) (f sp : addr) (amount : Z) : res lst :=
  let? p := ld_read_allowance s f sp in
  let '(s, a) := p in
  if a <? amount then Err e_allowance
  else if amount >? 0 then
    let? new := chk128 (a - amount) e_overflow in
    ld_write_allowance_amount s f sp new
  else Ok s.

(* ------------------------------------------------------------ contract.rs *)

(* host.rs:2208-2223, as called in every function of contract.rs but admin *)
Definition ld_extend_instance (s : lst) : res lst :=
  let? p := host (ld_store s) (extend_instance_and_code_ttl self instance_threshold instance_extend) in
  Ok (with_store s (fst p)).

Definition ld_emit (s : lst) (ev : sst -> sevent) : lst :=
  with_rest s (emit (ld_rest s) (ev (ld_rest s))).
Definition ld_done (r : res lst) (ev : sst -> sevent) : res (lst * sret) :=
  let? s := r in Ok (ld_emit s ev, RUnit).

(* balance.rs:951-1089: authorization is asked for when a trustline is to be made *)
Definition ld_trust (s : lst) (a : addr) : res lst :=
  let? r := create_trustline env (ld_rest s) a in
  let store :=
    match a with
    | AAccount k =>
        match aget key_dec (s_tl (ld_rest s)) k with
        | Some _ => ld_store s
        | None => auth_store a (ld_store s)
        end
    | _ => ld_store s
    end in
  Ok {| ld_store := store; ld_rest := r |}.

(* contract.rs:148-412 *)
Definition ld_call (s : lst) (c : scall) : res (lst * sret) :=
  match c with
  | CAllowance f sp =>
      let? s := ld_extend_instance s in
      let? p := ld_read_allowance s f sp in
      Ok (fst p, RInt (snd p))
  | CApprove f sp amount until =>
      let? _ := check_nonnegative amount in
      let? s := ld_auth s f in
      let? s := ld_extend_instance s in
      ld_done (ld_write_allowance s f sp amount until) (fun _ => EvApprove f sp amount until)
  | CBalance a =>
      let? s := ld_extend_instance s in
      let? p := ld_read_balance s a in
      Ok (fst p, RInt (snd p))
  | CAuthorized a =>
      let? s := ld_extend_instance s in
      let? p := ld_is_authorized s a in
      Ok (fst p, RBool (snd p))
  | CTransfer f to amount =>
      let? _ := check_nonnegative amount in
      let t := mux_addr to in
      let? s := ld_auth s f in
      let? s := ld_extend_instance s in
      ld_done (let? s := ld_spend s f amount in ld_receive s t amount)
              (fun st => transfer_event st f t (mux_id to) amount)
  | CTransferFrom sp f t amount =>
      let? _ := check_nonnegative amount in
      let? s := ld_auth s sp in
      let? s := ld_extend_instance s in
      ld_done (let? s := ld_spend_allowance s f sp amount in
               let? s := ld_spend s f amount in
               ld_receive s t amount)
              (fun st => transfer_event st f t None amount)
  | CBurn f amount =>
      let? _ := check_nonnegative amount in
      let? _ := check_non_native (ld_rest s) in
      let? _ := check_not_issuer (ld_rest s) f in
      let? s := ld_auth s f in
      let? s := ld_extend_instance s in
      ld_done (ld_spend s f amount) (fun _ => EvBurn f amount)
  | CBurnFrom sp f amount =>
      let? _ := check_nonnegative amount in
      let? _ := check_non_native (ld_rest s) in
      let? _ := check_not_issuer (ld_rest s) f in
      let? s := ld_auth s sp in
      let? s := ld_extend_instance s in
      ld_done (let? s := ld_spend_allowance s f sp amount in ld_spend s f amount)
              (fun _ => EvBurn f amount)
  | CClawback f amount =>
      let? _ := check_nonnegative amount in
      let? s := ld_check_clawbackable s f in
      let? _ := check_not_issuer (ld_rest s) f in
      let? admin := read_admin (ld_rest s) in
      let? s := ld_auth s admin in
      let? s := ld_extend_instance s in
      ld_done (ld_spend_no_check s f amount) (fun _ => EvClawback f amount)
  | CSetAuthorized a b =>
      let? admin := read_admin (ld_rest s) in
      let? s := ld_auth s admin in
      let? s := ld_extend_instance s in
      ld_done (ld_write_authorization s a b) (fun _ => EvSetAuthorized a b)
  | CMint t amount =>
      let? _ := check_nonnegative amount in
      let? _ := check_not_issuer (ld_rest s) t in
      let? admin := read_admin (ld_rest s) in
      let? s := ld_auth s admin in
      let? s := ld_extend_instance s in
      ld_done (ld_receive s t amount) (fun _ => EvMint t None amount)
  | CSetAdmin a =>
      let? admin := read_admin (ld_rest s) in
      let? s := ld_auth s admin in
      let? s := ld_extend_instance s in
      Ok (with_rest s (emit (set_adm (ld_rest s) a) (EvSetAdmin admin a)), RUnit)
  | CAdmin => let? admin := read_admin (ld_rest s) in Ok (s, RAddr admin)
  | CTrust a =>
      let? s := ld_extend_instance s in
      let? s := ld_trust s a in
      Ok (s, RUnit)
  end.

(* A call in its frame, rolled back when it fails (C24). *)
Definition ld_invoke (s : lst) (c : scall) : lst * res sret :=
  match ld_call s c with
  | Ok (s', r) => (s', Ok r)
  | Err e => (s, Err e)
  end.
End Ledger.
