(* The Stellar asset contract: builtin_contracts/stellar_asset_contract
   (contract.rs, balance.rs, allowance.rs, admin.rs, asset_info.rs, event.rs,
   storage_types.rs), after initialization.

   The ledger is the part of it the contract of one asset works on: its
   instance (asset, administrator), its balance entries (persistent data of
   contract holders), its allowance entries (temporary data), the classic
   accounts and the trustlines for the asset.  Entries are typed records; their
   storage as ledger entries, footprints and frames are StorageModel and
   FrameModel.  Here an access outside the footprint, or to an entry of the wrong
   form, is an error answered by the environment ([sv_read], [sv_write]).

   Simplifications.  Budget, and the extension of the TTL of the instance at the
   start of each call, are omitted.  The answer of require_auth comes from the
   environment; while it runs this contract cannot be entered (C26), so its
   entries and trustlines are as before.  The effect of require_auth on the
   accounts through other asset contracts is left out.  Only the fields of
   accounts and trustlines that are used are kept.  Arguments have the types the
   dispatcher gives them (i128, u32). *)
From Coq Require Import ZArith List Bool.
From Verif Require Import Prelude ValModel HeapModel AMap StorageModel.
Import ListNotations.
Open Scope Z_scope.

(* ---------------------------------------------------------------- the ledger *)

(* public_types.rs, AssetInfo *)
Inductive sasset := Native | Credit (code issuer : list Z).

(* storage_types.rs:25-29, BalanceValue, with the entry's live-until ledger *)
Record bval := { b_amount : Z; b_auth : bool; b_claw : bool; b_live : Z }.
(* storage_types.rs:18-22, AllowanceValue, with the entry's live-until ledger *)
Record aval := { l_amount : Z; l_until : Z; l_live : Z }.
(* XDR AccountEntry: balance, numSubEntries, flags, and the extensions: liabilities
   (buying, selling), and numbers of sponsored (numSponsoring, numSponsored) *)
Record sacc := {
  sa_bal : Z; sa_sub : Z; sa_flags : Z;
  sa_ext : option (Z * Z * option (Z * Z));
}.
(* XDR TrustLineEntry: balance, limit, flags, liabilities (buying, selling) *)
Record stl := { tl_bal : Z; tl_limit : Z; tl_flags : Z; tl_ext : option (Z * Z) }.

(* event.rs; the asset name, last topic of every event, is left out *)
Inductive sevent :=
| EvApprove (from spender : addr) (amount until : Z)
| EvTransfer (from to : addr) (mux : option Z) (amount : Z)
| EvMint (to : addr) (mux : option Z) (amount : Z)
| EvBurn (from : addr) (amount : Z)
| EvClawback (from : addr) (amount : Z)
| EvSetAuthorized (a : addr) (b : bool)
| EvSetAdmin (old new : addr).

Definition addr_dec : forall a b : addr, {a = b} + {a <> b}.
Proof. decide equality; auto using Z.eq_dec, (list_eq_dec Z.eq_dec). Defined.
Definition pair_dec : forall a b : addr * addr, {a = b} + {a <> b}.
Proof. decide equality; apply addr_dec. Defined.
Definition key_dec : forall a b : list Z, {a = b} + {a <> b} := list_eq_dec Z.eq_dec.

Record sst := {
  s_asset : sasset;
  s_admin : option addr;
  s_bal : list (addr * bval);
  s_allow : list (addr * addr * aval);
  s_acc : list (list Z * sacc);
  s_tl : list (list Z * stl);
  s_events : list sevent;       (* oldest first *)
}.
Definition set_bals (st : sst) m : sst :=
  {| s_asset := s_asset st; s_admin := s_admin st; s_bal := m; s_allow := s_allow st;
     s_acc := s_acc st; s_tl := s_tl st; s_events := s_events st |}.
Definition set_allows (st : sst) m : sst :=
  {| s_asset := s_asset st; s_admin := s_admin st; s_bal := s_bal st; s_allow := m;
     s_acc := s_acc st; s_tl := s_tl st; s_events := s_events st |}.
Definition set_accs (st : sst) m : sst :=
  {| s_asset := s_asset st; s_admin := s_admin st; s_bal := s_bal st; s_allow := s_allow st;
     s_acc := m; s_tl := s_tl st; s_events := s_events st |}.
Definition set_tls (st : sst) m : sst :=
  {| s_asset := s_asset st; s_admin := s_admin st; s_bal := s_bal st; s_allow := s_allow st;
     s_acc := s_acc st; s_tl := m; s_events := s_events st |}.
Definition set_adm (st : sst) a : sst :=
  {| s_asset := s_asset st; s_admin := Some a; s_bal := s_bal st; s_allow := s_allow st;
     s_acc := s_acc st; s_tl := s_tl st; s_events := s_events st |}.
Definition emit (st : sst) ev : sst :=
  {| s_asset := s_asset st; s_admin := s_admin st; s_bal := s_bal st; s_allow := s_allow st;
     s_acc := s_acc st; s_tl := s_tl st; s_events := s_events st ++ [ev] |}.

(* ledger keys *)
Inductive skey := KBal (a : addr) | KAllow (from spender : addr) | KAcc (k : list Z) | KTl (k : list Z).

Record senv := {
  sv_li : linfo;
  sv_reserve : Z;                    (* base_reserve *)
  sv_auth : addr -> res unit;        (* require_auth *)
  sv_read : skey -> res unit;
  sv_write : skey -> res unit;
}.

(* contract_error.rs *)
Definition ce (n : Z) : err := EContract n.
Definition e_unsupported : err := ce 2.
Definition e_account_missing : err := ce 6.
Definition e_negative : err := ce 8.
Definition e_allowance : err := ce 9.
Definition e_balance : err := ce 10.
Definition e_deauth : err := ce 11.
Definition e_overflow : err := ce 12.
Definition e_trustline : err := ce 13.
Definition e_reserve : err := ce 14.
Definition e_subentries : err := ce 15.
Definition e_addr_kind : err := ESys TObject CInternalError.
Definition e_arith_ : err := ESys TValue CArithDomain.

(* storage_types.rs:4-9 *)
Definition day : Z := 17280.
Definition balance_extend : Z := 30 * day.
Definition balance_threshold : Z := balance_extend - day.

Definition i64_min : Z := - 2 ^ 63.
Definition i64_max : Z := 2 ^ 63 - 1.
Definition i128_min : Z := - 2 ^ 127.
Definition i128_max : Z := 2 ^ 127 - 1.
Definition in_i64 (x : Z) : bool := (i64_min <=? x) && (x <=? i64_max).
Definition in_i128 (x : Z) : bool := (i128_min <=? x) && (x <=? i128_max).
Definition chk64 (x : Z) (e : err) : res Z := if in_i64 x then Ok x else Err e.
Definition chk128 (x : Z) (e : err) : res Z := if in_i128 x then Ok x else Err e.

(* AccountFlags, TrustLineFlags *)
Definition acc_required : Z := 1.
Definition acc_revocable : Z := 2.
Definition acc_clawback : Z := 8.
Definition tl_authorized : Z := 1.
Definition tl_maintain : Z := 2.
Definition tl_clawback : Z := 4.
Definition has_flag (flags f : Z) : bool := negb (Z.land flags f =? 0).

Section Call.
Variable env : senv.
Let li := sv_li env.
Let seq := li_seq li.

(* ---------------------------------------------------------- contract data *)

(* storage.rs:481-631, on the live-until ledger of an entry that is live *)
Definition extend_live (d : durability) (live threshold extend_to : Z) : res Z :=
  if extend_to <? threshold then Err e_st_input
  else
    let? mx := get_max_live_until li in
    if (match d with Temporary => true | Persistent => false end) && (sat_sub_u32 mx seq <? extend_to)
    then Err e_st_action
    else
      match checked_add_u32 seq extend_to with
      | None => Err e_ctx_internal
      | Some n =>
          let new := Z.min n mx in
          Ok (if (sat_sub_u32 live seq <=? threshold) && (live <? new) then new else live)
      end.

(* try_get_contract_data (host/data_helper.rs), persistent: an archived entry
   cannot be accessed *)
Definition get_bal (st : sst) (a : addr) : res (option bval) :=
  let? _ := sv_read env (KBal a) in
  match aget addr_dec (s_bal st) a with
  | None => Ok None
  | Some b => if b_live b <? seq then Err e_st_internal else Ok (Some b)
  end.
(* ... temporary: an expired entry is gone *)
Definition get_allow (st : sst) (f s : addr) : res (option aval) :=
  let? _ := sv_read env (KAllow f s) in
  match aget pair_dec (s_allow st) (f, s) with
  | None => Ok None
  | Some v => Ok (if l_live v <? seq then None else Some v)
  end.
(* balance.rs:74-97; a new entry starts with the minimum TTL *)
Definition write_contract_balance (st : sst) (a : addr) (amount : Z) (auth claw : bool) : res sst :=
  let? o := get_bal st a in
  let? live := match o with
               | Some b => Ok (b_live b)
               | None => get_min_live_until li Persistent
               end in
  let? _ := sv_write env (KBal a) in
  let? live := extend_live Persistent live balance_threshold balance_extend in
  Ok (set_bals st (aset addr_dec (s_bal st) a
        {| b_amount := amount; b_auth := auth; b_claw := claw; b_live := live |})).

(* ------------------------------------------------------- asset and issuer *)

(* host/data_helper.rs:469-480 *)
Definition load_account (st : sst) (k : list Z) : res sacc :=
  let? _ := sv_read env (KAcc k) in
  match aget key_dec (s_acc st) k with Some a => Ok a | None => Err e_st_missing end.
(* balance.rs:917-944 *)
Definition issuer_flag (st : sst) (f : Z) : res bool :=
  match s_asset st with
  | Native => Ok false
  | Credit _ issuer => let? a := load_account st issuer in Ok (has_flag (sa_flags a) f)
  end.
(* event.rs:13-27 *)
Definition is_issuer (st : sst) (a : addr) : bool :=
  match s_asset st with
  | Native => false
  | Credit _ issuer => if addr_dec (AAccount issuer) a then true else false
  end.
(* contract.rs:32-79 *)
Definition check_nonnegative (amount : Z) : res unit :=
  if amount <? 0 then Err e_negative else Ok tt.
Definition check_non_native (st : sst) : res unit :=
  match s_asset st with Native => Err e_unsupported | Credit _ _ => Ok tt end.
Definition check_not_issuer (st : sst) (a : addr) : res unit :=
  if is_issuer st a then Err e_unsupported else Ok tt.
(* admin.rs:7-12 *)
Definition read_admin (st : sst) : res addr :=
  match s_admin st with Some a => Ok a | None => Err e_st_missing end.

(* ---------------------------------------------------------- classic balances *)

(* balance.rs:673-712 *)
Definition account_min_max (a : sacc) : res (Z * Z) :=
  if sa_bal a <? 0 then Err e_st_internal
  else
    match sa_ext a with
    | Some (buying, selling, ext2) =>
        let? n := chk64 (2 + sa_sub a) e_arith_ in
        let? n := match ext2 with
                  | Some (sponsoring, sponsored) =>
                      let? n := chk64 (n + sponsoring) e_arith_ in chk64 (n - sponsored) e_arith_
                  | None => Ok n
                  end in
        let? m := chk64 (n * sv_reserve env) e_arith_ in
        let? m := chk64 (m + selling) e_arith_ in
        let? x := chk64 (i64_max - buying) e_arith_ in
        Ok (m, x)
    | None =>
        let? n := chk64 (2 + sa_sub a) e_arith_ in
        let? m := chk64 (n * sv_reserve env) e_arith_ in
        Ok (m, i64_max)
    end.
(* balance.rs:756-783 *)
Definition trustline_min_max (t : stl) : res (Z * Z) :=
  if tl_bal t <? 0 then Err e_st_internal
  else
    match tl_ext t with
    | Some (buying, selling) =>
        if tl_limit t <? buying then Err e_st_internal else Ok (selling, tl_limit t - buying)
    | None => Ok (0, tl_limit t)
    end.

Definition set_acc_bal (a : sacc) (x : Z) : sacc :=
  {| sa_bal := x; sa_sub := sa_sub a; sa_flags := sa_flags a; sa_ext := sa_ext a |}.
Definition set_tl_bal (t : stl) (x : Z) : stl :=
  {| tl_bal := x; tl_limit := tl_limit t; tl_flags := tl_flags t; tl_ext := tl_ext t |}.

(* balance.rs:433-548; a new account has V0 extension, no flags *)
Definition transfer_account (st : sst) (k : list Z) (amount : Z) : res sst :=
  let? _ := sv_read env (KAcc k) in
  match aget key_dec (s_acc st) k with
  | Some a =>
      let? mm := account_min_max a in
      let '(mn, mx) := mm in
      let? new := chk64 (sa_bal a + amount) e_balance in
      if (mn <=? new) && (new <=? mx) then
        let? _ := sv_write env (KAcc k) in
        Ok (set_accs st (aset key_dec (s_acc st) k (set_acc_bal a new)))
      else Err e_balance
  | None =>
      if amount <=? 0 then Err e_account_missing
      else if amount <? 2 * sv_reserve env then Err e_reserve
      else if seq >? 2 ^ 31 - 1 then Err e_ctx_internal
      else
        let? _ := sv_write env (KAcc k) in
        Ok (set_accs st (aset key_dec (s_acc st) k
              {| sa_bal := amount; sa_sub := 0; sa_flags := 0; sa_ext := None |}))
  end.
(* balance.rs:565-581 *)
Definition read_trustline (st : sst) (k : list Z) : res stl :=
  let? _ := sv_read env (KTl k) in
  match aget key_dec (s_tl st) k with Some t => Ok t | None => Err e_trustline end.
(* balance.rs:584-628 *)
Definition transfer_trustline (st : sst) (k : list Z) (amount : Z) : res sst :=
  let? t := read_trustline st k in
  let? mm := trustline_min_max t in
  let '(mn, mx) := mm in
  let? new := chk64 (tl_bal t + amount) e_balance in
  if (mn <=? new) && (new <=? mx) then
    let? _ := sv_write env (KTl k) in
    Ok (set_tls st (aset key_dec (s_tl st) k (set_tl_bal t new)))
  else Err e_balance.
(* balance.rs:376-404 *)
Definition transfer_classic (st : sst) (k : list Z) (amount : Z) : res sst :=
  match s_asset st with
  | Native => transfer_account st k amount
  | Credit _ issuer => if key_dec issuer k then Ok st else transfer_trustline st k amount
  end.
(* balance.rs:407-430, 631-670, 715-753 *)
Definition classic_balance (st : sst) (k : list Z) : res Z :=
  match s_asset st with
  | Native =>
      let? _ := sv_read env (KAcc k) in
      match aget key_dec (s_acc st) k with
      | None => Err e_account_missing
      | Some a =>
          let? mm := account_min_max a in
          let '(mn, mx) := mm in
          if sa_bal a <? mn then Err e_st_internal
          else if sa_bal a >? mx then Err e_st_internal
          else Ok (sa_bal a)
      end
  | Credit _ issuer =>
      if key_dec issuer k then Ok i64_max
      else
        let? t := read_trustline st k in
        let? mm := trustline_min_max t in
        let '(mn, mx) := mm in
        if tl_bal t <? mn then Err e_st_internal
        else if tl_bal t >? mx then Err e_st_internal
        else Ok (tl_bal t)
  end.
(* balance.rs:786-842 *)
Definition account_authorized (st : sst) (k : list Z) : res bool :=
  match s_asset st with
  | Native => Ok true
  | Credit _ issuer =>
      if key_dec issuer k then Ok true
      else let? t := read_trustline st k in Ok (has_flag (tl_flags t) tl_authorized)
  end.
(* balance.rs:844-915 *)
Definition set_authorization (st : sst) (k : list Z) (authorize : bool) : res sst :=
  match s_asset st with
  | Native => Err e_unsupported
  | Credit _ issuer =>
      if key_dec issuer k then Err e_unsupported
      else
        let? t := read_trustline st k in
        if eqb (has_flag (tl_flags t) tl_authorized) authorize then Ok st
        else
          let flags :=
            if authorize then Z.lor (Z.ldiff (tl_flags t) tl_maintain) tl_authorized
            else Z.lor (Z.ldiff (tl_flags t) tl_authorized) tl_maintain in
          let? _ := sv_write env (KTl k) in
          Ok (set_tls st (aset key_dec (s_tl st) k
                {| tl_bal := tl_bal t; tl_limit := tl_limit t; tl_flags := flags; tl_ext := tl_ext t |}))
  end.

(* ------------------------------------------------------------- balance.rs *)

(* balance.rs:44-71 *)
Definition read_balance (st : sst) (a : addr) : res (sst * Z) :=
  match a with
  | AAccount k => let? x := classic_balance st k in Ok (st, x)
  | AContract _ =>
      let? o := get_bal st a in
      match o with
      | Some b =>
          let? live := extend_live Persistent (b_live b) balance_threshold balance_extend in
          Ok (set_bals st (aset addr_dec (s_bal st) a
                {| b_amount := b_amount b; b_auth := b_auth b; b_claw := b_claw b; b_live := live |}),
              b_amount b)
      | None => Ok (st, 0)
      end
  | _ => Err e_addr_kind
  end.
(* balance.rs:233-254 *)
Definition is_authorized (st : sst) (a : addr) : res bool :=
  match a with
  | AAccount k => account_authorized st k
  | AContract _ =>
      let? o := get_bal st a in
      match o with
      | Some b => Ok (b_auth b)
      | None => let? r := issuer_flag st acc_required in Ok (negb r)
      end
  | _ => Err e_addr_kind
  end.
(* balance.rs:100-153 *)
Definition receive_balance (st : sst) (a : addr) (amount : Z) : res sst :=
  let? ok := is_authorized st a in
  if negb ok then Err e_deauth
  else
    match a with
    | AAccount k => let? x := chk64 amount e_overflow in transfer_classic st k x
    | AContract _ =>
        let? o := get_bal st a in
        let? abc := match o with
                    | Some b => Ok (b_amount b, b_auth b, b_claw b)
                    | None => let? c := issuer_flag st acc_clawback in Ok (0, true, c)
                    end in
        let '(x, au, cl) := abc in
        let? new := chk128 (x + amount) e_overflow in
        write_contract_balance st a new au cl
    | _ => Err e_addr_kind
    end.
(* balance.rs:156-217 *)
Definition spend_no_check (st : sst) (a : addr) (amount : Z) : res sst :=
  match a with
  | AAccount k => let? x := chk64 amount e_overflow in transfer_classic st k (- x)
  | AContract _ =>
      let? o := get_bal st a in
      match o with
      | Some b =>
          if b_amount b <? amount then Err e_balance
          else
            let? new := chk128 (b_amount b - amount) e_overflow in
            write_contract_balance st a new (b_auth b) (b_claw b)
      | None => if amount >? 0 then Err e_balance else Ok st
      end
  | _ => Err e_addr_kind
  end.
(* balance.rs:220-230 *)
Definition spend_balance (st : sst) (a : addr) (amount : Z) : res sst :=
  let? ok := is_authorized st a in
  if negb ok then Err e_deauth else spend_no_check st a amount.
(* balance.rs:257-298 *)
Definition write_authorization (st : sst) (a : addr) (authorize : bool) : res sst :=
  let? rev := if authorize then Ok true else issuer_flag st acc_revocable in
  if negb rev then Err e_unsupported
  else
    match a with
    | AAccount k => set_authorization st k authorize
    | AContract _ =>
        let? o := get_bal st a in
        match o with
        | Some b => write_contract_balance st a (b_amount b) authorize (b_claw b)
        | None => let? c := issuer_flag st acc_clawback in write_contract_balance st a 0 authorize c
        end
    | _ => Err e_addr_kind
    end.
(* balance.rs:301-373 *)
Definition check_clawbackable (st : sst) (a : addr) : res unit :=
  match a with
  | AAccount k =>
      match s_asset st with
      | Native => Err e_unsupported
      | Credit _ issuer =>
          if key_dec issuer k then Err e_unsupported
          else
            let? t := read_trustline st k in
            if has_flag (tl_flags t) tl_clawback then Ok tt else Err e_balance
      end
  | AContract _ =>
      let? o := get_bal st a in
      match o with
      | Some b => if b_claw b then Ok tt else Err e_balance
      | None => Err e_balance
      end
  | _ => Err e_addr_kind
  end.
(* balance.rs:951-1089; [current_min_balance + base_reserve] is an unchecked
   addition of i64: an overflow is taken for a failure here *)
Definition create_trustline (st : sst) (a : addr) : res sst :=
  match a with
  | AContract _ => Ok st
  | AAccount k =>
      match s_asset st with
      | Native => Err e_unsupported
      | Credit _ issuer =>
          if key_dec k issuer then Err e_unsupported
          else
            let? _ := sv_read env (KTl k) in
            match aget key_dec (s_tl st) k with
            | Some _ => Ok st
            | None =>
                let? _ := sv_auth env a in
                let? i := load_account st issuer in
                let flags := Z.lor (if has_flag (sa_flags i) acc_required then 0 else tl_authorized)
                                   (if has_flag (sa_flags i) acc_clawback then tl_clawback else 0) in
                let? _ := sv_read env (KAcc k) in
                match aget key_dec (s_acc st) k with
                | None => Err e_account_missing
                | Some ac =>
                    if sa_sub ac >=? 1000 then Err e_subentries
                    else
                      let? mm := account_min_max ac in
                      let? need := chk64 (fst mm + sv_reserve env) e_arith_ in
                      if sa_bal ac <? need then Err e_reserve
                      else
                        let? _ := sv_write env (KTl k) in
                        let? _ := sv_write env (KAcc k) in
                        let t := {| tl_bal := 0; tl_limit := i64_max; tl_flags := flags; tl_ext := None |} in
                        let ac' := {| sa_bal := sa_bal ac; sa_sub := sa_sub ac + 1;
                                      sa_flags := sa_flags ac; sa_ext := sa_ext ac |} in
                        Ok (set_accs (set_tls st (aset key_dec (s_tl st) k t))
                                     (aset key_dec (s_acc st) k ac'))
                end
            end
      end
  | _ => Err e_addr_kind
  end.

(* ----------------------------------------------------------- allowance.rs *)

(* allowance.rs:15-29 *)
Definition read_allowance (st : sst) (f s : addr) : res Z :=
  let? o := get_allow st f s in
  Ok (match o with
      | Some v => if l_until v <? seq then 0 else l_amount v
      | None => 0
      end).
(* allowance.rs:32-114; a new temporary entry starts with the minimum TTL *)
Definition write_allowance (st : sst) (f s : addr) (amount until : Z) : res sst :=
  let? mx := get_max_live_until li in
  if until >? mx then Err e_allowance
  else if (amount >? 0) && (until <? seq) then Err e_allowance
  else
    let? o := get_allow st f s in
    let put live old :=
      let? _ := sv_write env (KAllow f s) in
      let? live :=
        if (amount >? 0) && (old <? until) then
          let d := sat_sub_u32 until seq in extend_live Temporary live d d
        else Ok live in
      Ok (set_allows st (aset pair_dec (s_allow st) (f, s)
            {| l_amount := amount; l_until := until; l_live := live |})) in
    match o with
    | Some v => put (l_live v) (l_until v)
    | None =>
        if amount >? 0 then
          let? live := get_min_live_until li Temporary in put live 0
        else Ok st
    end.
(* allowance.rs:117-132 *)
Definition write_allowance_amount (st : sst) (f s : addr) (amount : Z) : res sst :=
  let? o := get_allow st f s in
  match o with
  | Some v => write_allowance st f s amount (l_until v)
  | None => Err e_st_missing
  end.
(* allowance.rs:135-161 *)
Definition spend_allowance (st : sst) (f s : addr) (amount : Z) : res sst :=
  let? a := read_allowance st f s in
  if a <? amount then Err e_allowance
  else if amount >? 0 then
    let? new := chk128 (a - amount) e_overflow in
    write_allowance_amount st f s new
  else Ok st.

(* ----------------------------------------------------------------- calls *)

(* base_types.rs:488-530, MuxedAddress *)
Definition mux_addr (a : addr) : addr := match a with AMuxed _ k => AAccount k | _ => a end.
Definition mux_id (a : addr) : option Z := match a with AMuxed i _ => Some i | _ => None end.

(* event.rs:47-66 *)
Definition transfer_event (st : sst) (f t : addr) (mux : option Z) (amount : Z) : sevent :=
  if addr_dec f t then EvTransfer f t mux amount
  else if is_issuer st f then EvMint t mux amount
  else if is_issuer st t then EvBurn f amount
  else EvTransfer f t mux amount.

Inductive scall :=
| CAllowance (f s : addr)
| CApprove (f s : addr) (amount until : Z)
| CBalance (a : addr)
| CAuthorized (a : addr)
| CTransfer (f to : addr) (amount : Z)      (* to may be a muxed account *)
| CTransferFrom (s f t : addr) (amount : Z)
| CBurn (f : addr) (amount : Z)
| CBurnFrom (s f : addr) (amount : Z)
| CClawback (f : addr) (amount : Z)
| CSetAuthorized (a : addr) (b : bool)
| CMint (t : addr) (amount : Z)
| CSetAdmin (a : addr)
| CAdmin
| CTrust (a : addr).
Inductive sret := RUnit | RInt (x : Z) | RBool (b : bool) | RAddr (a : addr).

Definition done (r : res sst) (f : sst -> sst) : res (sst * sret) :=
  let? st := r in Ok (f st, RUnit).

(* contract.rs:148-412 *)
Definition run_call (st : sst) (c : scall) : res (sst * sret) :=
  match c with
  | CAllowance f s => let? x := read_allowance st f s in Ok (st, RInt x)
  | CApprove f s amount until =>
      let? _ := check_nonnegative amount in
      let? _ := sv_auth env f in
      done (write_allowance st f s amount until) (fun st => emit st (EvApprove f s amount until))
  | CBalance a => let? p := read_balance st a in Ok (fst p, RInt (snd p))
  | CAuthorized a => let? b := is_authorized st a in Ok (st, RBool b)
  | CTransfer f to amount =>
      let? _ := check_nonnegative amount in
      let t := mux_addr to in
      let? _ := sv_auth env f in
      done (let? st := spend_balance st f amount in receive_balance st t amount)
           (fun st => emit st (transfer_event st f t (mux_id to) amount))
  | CTransferFrom s f t amount =>
      let? _ := check_nonnegative amount in
      let? _ := sv_auth env s in
      done (let? st := spend_allowance st f s amount in
            let? st := spend_balance st f amount in
            receive_balance st t amount)
           (fun st => emit st (transfer_event st f t None amount))
  | CBurn f amount =>
      let? _ := check_nonnegative amount in
      let? _ := check_non_native st in
      let? _ := check_not_issuer st f in
      let? _ := sv_auth env f in
      done (spend_balance st f amount) (fun st => emit st (EvBurn f amount))
  | CBurnFrom s f amount =>
      let? _ := check_nonnegative amount in
      let? _ := check_non_native st in
      let? _ := check_not_issuer st f in
      let? _ := sv_auth env s in
      done (let? st := spend_allowance st f s amount in spend_balance st f amount)
           (fun st => emit st (EvBurn f amount))
  | CClawback f amount =>
      let? _ := check_nonnegative amount in
      let? _ := check_clawbackable st f in
      let? _ := check_not_issuer st f in
      let? admin := read_admin st in
      let? _ := sv_auth env admin in
      done (spend_no_check st f amount) (fun st => emit st (EvClawback f amount))
  | CSetAuthorized a b =>
      let? admin := read_admin st in
      let? _ := sv_auth env admin in
      done (write_authorization st a b) (fun st => emit st (EvSetAuthorized a b))
  | CMint t amount =>
      let? _ := check_nonnegative amount in
      let? _ := check_not_issuer st t in
      let? admin := read_admin st in
      let? _ := sv_auth env admin in
      done (receive_balance st t amount) (fun st => emit st (EvMint t None amount))
  | CSetAdmin a =>
      let? admin := read_admin st in
      let? _ := sv_auth env admin in
      Ok (emit (set_adm st a) (EvSetAdmin admin a), RUnit)
  | CAdmin => let? admin := read_admin st in Ok (st, RAddr admin)
  | CTrust a => done (create_trustline st a) (fun st => st)
  end.

(* A call in its frame: a failed frame is rolled back (FrameModel, C24). *)
Definition invoke (st : sst) (c : scall) : sst * res sret :=
  match run_call st c with
  | Ok (st', r) => (st', Ok r)
  | Err e => (st, Err e)
  end.
End Call.
