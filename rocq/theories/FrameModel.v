(* Contract calls: frames, rollback, instance storage, events, PRNGs, contract
   creation and update (host/frame.rs, host/lifecycle.rs, the "call", "ledger",
   "context" and "prng" host functions of host.rs, events/internal.rs).

   A contract is a program [gprog]: it makes host calls and decides what to do
   next from each answer.  A host call that fails traps the VM with the host's
   error (vm.rs:275-390 propagates it as is), so continuations only receive
   successful answers; try_call turns some failures into answers.

   Simplifications.  Budget charges and linear memory are omitted (BudgetModel),
   and so is the authorization manager (AuthModel): authenticating a contract
   account appears here as the call it makes to `__check_auth`.  Values crossing
   a call are XDR values (HeapModel models handles and conversions).  Instance
   storage in memory is an AMap association list.  Diagnostic events recorded by
   the host itself are omitted.  VM instantiation fails only for missing code.
   The code behind a Wasm hash, the built-in asset contract, SHA-256, the upload
   checks and the ChaCha20 generator are parameters. *)
From Coq Require Import ZArith Lia List Bool.
From Verif Require Import Prelude ValModel ContainerModel HeapModel AMap StorageModel.
Import ListNotations.
Open Scope Z_scope.

Definition imap := list (scval * scval).
Definition iget : imap -> scval -> option scval := aget scval_eq_dec.
Definition iset : imap -> scval -> scval -> imap := aset scval_eq_dec.
Definition idel : imap -> scval -> imap := adel scval_eq_dec.

(* ---------------------------------------------------------------- programs *)

(* has/get/put/del_contract_data with StorageType::Instance *)
Inductive iop :=
| IGet (k : scval)
| IHas (k : scval)
| IPut (k v : scval)
| IDel (k : scval).

(* events/internal.rs InternalEvent: contract and system events are Contract(_) *)
Inductive evkind := EvContract | EvSystem | EvDiagnostic.
Record event := { ev_id : option (list Z); ev_kind : evkind; ev_body : scval }.

(* host.rs:3734-3794 *)
Inductive pop :=
| PReseed (seed : list Z)
| PBytes (n : Z)
| PU64 (lo hi : Z)
| PShuffle (l : list scval).

(* XDR ContractIdPreimage *)
Inductive preimage :=
| PreAddress (deployer : addr) (salt : list Z)
| PreAsset (asset : list Z).

(* The host functions that neither call contracts nor create them. *)
Inductive gop :=
| OStore (h : hop)                    (* temporary / persistent data, TTLs *)
| OClassic (op : sop)                 (* accounts and trustlines: asset contract *)
| ONonce (a : addr) (n live : Z)      (* auth.rs:2958-3014 *)
| OInst (i : iop)
| OEvent (diag : bool) (body : scval) (* host.rs:1252-1260 *)
| ODraw (o : pop)
| OUpdate (ex : executable)           (* host.rs:2452-2473 *)
| OUpload (wasm : list Z).            (* lifecycle.rs:316-406 *)

Inductive gval := GV (v : scval) | GO (o : sout).

(* How one contract runs another: call, try_call, authentication of a contract
   account, initialization of an asset contract, constructor. *)
Inductive kind := KCall | KTry | KAuth | KInit | KCtor.

Inductive gprog :=
| GRet (v : scval)                              (* the function returns *)
| GFail (e : err)                               (* fail_with_error *)
| GTrap (e : err)                               (* any other failure *)
| GOp (o : gop) (k : gval -> gprog)
| GCall (id fn : list Z) (args : list scval) (k : scval -> gprog)
| GTry (id fn : list Z) (args : list scval) (k : scval -> gprog)
| GAuth (id : list Z) (args : list scval) (k : gprog)
| GCreate (pre : preimage) (ex : executable) (args : list scval) (k : scval -> gprog).

(* What happened, for the specifications: the host does not keep this. *)
Inductive tree :=
| TEvent (e : event)
| TInst (i : iop) (r : res scval)
| TUpdate (ex : executable)
| TDraw (o : pop) (r : res scval)
| TCreated (id : list Z) (ex : executable)
| TFrame (who : option (kind * list Z * list Z * list scval)) (r : res scval) (l : list tree).

(* ---------------------------------------------------------------- names *)

(* "__" frame.rs:39, "__check_auth" account_contract.rs:30, "__constructor"
   lifecycle.rs:22, "init_asset" lifecycle.rs:172, as bytes *)
Definition s_prefix : list Z := [95; 95].
Definition s_check_auth : list Z := [95; 95; 99; 104; 101; 99; 107; 95; 97; 117; 116; 104].
Definition s_constructor : list Z := [95; 95; 99; 111; 110; 115; 116; 114; 117; 99; 116; 111; 114].
Definition s_init_asset : list Z := [105; 110; 105; 116; 95; 97; 115; 115; 101; 116].
Fixpoint starts_with (p s : list Z) : bool :=
  match p, s with
  | [], _ => true
  | x :: p', y :: s' => (x =? y) && starts_with p' s'
  | _, _ => false
  end.

Definition e_ctx_action : err := ESys TContext CInvalidAction.
Definition e_depth : err := ESys TContext CExceededLimit.
Definition e_fn_missing : err := ESys TWasmVm CMissingValue.
Definition e_exists : err := ESys TStorage CExistingValue.
Definition e_val_input : err := ESys TValue CInvalidInput.
Definition e_val_type : err := ESys TValue CUnexpectedType.
Definition e_val_size : err := ESys TValue CUnexpectedSize.
Definition e_auth_action : err := ESys TAuth CInvalidAction.
Definition e_auth_exists : err := ESys TAuth CExistingValue.

(* host/error.rs:148-168 *)
Definition recoverable (e : err) : bool :=
  match e with
  | EContract _ => true
  | ESys t c =>
      negb (ecode_eqb c CInternalError)
      && negb (ecode_eqb c CExceededLimit && (ety_eqb t TStorage || ety_eqb t TBudget))
  end.

(* XDR value tags no host value has (convert.rs:589-605), so no contract-chosen
   key is one of these. *)
Definition guest_key (k : scval) : bool :=
  match k with
  | SLedgerKeyContractInstance | SLedgerKeyNonce _ | SContractInstance _ _ => false
  | _ => true
  end.
Definition hop_key_ok (h : hop) : bool :=
  match h with
  | HPut k _ _ | HHas k _ | HGet k _ | HDel k _ | HExtend k _ _ _ | HExtendV2 k _ _ _ _ => guest_key k
  | HExtendInst _ _ _ | HExtendInstV2 _ _ _ _ _ => true
  end.
Definition classic_op (op : sop) : bool :=
  match op with
  | SGet k | SHas k | SPut k _ _ | SDel k | SExtend k _ _ | SExtendV2 k _ _ _ =>
      match k with LKAccount _ | LKTrustline _ _ => true | _ => false end
  end.

(* frame.rs:43 DEFAULT_HOST_DEPTH_LIMIT = 100 (budget.rs / limits.rs) *)
Definition depth_limit : nat := 100.

(* ---------------------------------------------------------------- storage programs *)

(* auth.rs:2958-3014 *)
Definition consume_nonce (li : linfo) (a : addr) (n live : Z) : prog :=
  let key := LKData a (SLedgerKeyNonce n) Temporary in
  match get_min_live_until li Temporary with
  | Err e => pfail e
  | Ok ml => phas key (fun b => if b then pfail e_auth_exists else pput key (EData SVoid) (Some (Z.max live ml)))
  end.

(* data_helper.rs:266-338 *)
Definition store_instance (li : linfo) (id : list Z) (ex : option executable) (st : option imap) : prog :=
  let key := instance_key (AContract id) in
  phas key (fun b =>
    if b then
      pget key (fun '(cur, live) =>
        match cur with
        | EData (SContractInstance e0 s0) =>
            pput key (EData (SContractInstance (match ex with Some e => e | None => e0 end)
                                               (match st with Some m => Some m | None => s0 end))) live
        | _ => pfail e_st_internal
        end)
    else
      match ex with
      | None => pfail e_ctx_internal
      | Some e =>
          match get_min_live_until li Persistent with
          | Ok l => pput key (EData (SContractInstance e st)) (Some l)
          | Err er => pfail er
          end
      end).

(* data_helper.rs:212-230 *)
Definition verify_ref_exists (owner : addr) (tag : list Z) (cont : prog) : prog :=
  phas (exe_ref_key owner tag) (fun b => if b then cont else pfail e_st_missing).

(* lifecycle.rs:63-99 *)
Definition create_with_id (li : linfo) (id : list Z) (ex : executable) : prog :=
  phas (instance_key (AContract id)) (fun b =>
    if b then pfail e_exists
    else
      let store := store_instance li id (Some ex) None in
      match ex with
      | ExWasm h => verify_wasm_exists h store
      | ExExternalRef o t => verify_ref_exists o t store
      | ExStellarAsset => store
      end).

(* host.rs:2452-2473 with lifecycle.rs:50-60; the event is recorded by the
   caller, between the read and the write: [old] answers the old executable *)
Definition update_check (id : list Z) (ex : executable) : prog :=
  let old := pinstance (instance_key (AContract id)) (fun e0 s0 =>
    PRet (Ok (OEntry (Some (EData (SContractInstance e0 s0), None))))) in
  match ex with
  | ExWasm h => verify_wasm_exists h old
  | ExExternalRef o t => verify_ref_exists o t old
  | ExStellarAsset => pfail e_val_input
  end.

(* lifecycle.rs:365-403: [code] stands for the Wasm and its cost inputs *)
Definition upload_code (li : linfo) (hash code : list Z) : prog :=
  let put := match get_min_live_until li Persistent with
             | Ok l => pput (LKCode hash) (ECode code) (Some l)
             | Err e => pfail e
             end in
  phas (LKCode hash) (fun b =>
    if b then pget (LKCode hash) (fun '(e, _) =>
      match e with
      | ECode old => if zlist_eq_dec old code then pdone else put
      | _ => pdone
      end)
    else put).

(* frame.rs:911-934: the instance's storage and the Wasm to run, if any *)
Definition load_contract (id : list Z) : prog :=
  pinstance (instance_key (AContract id)) (fun ex st =>
    let answer code := PRet (Ok (OEntry (Some (EData (SContractInstance ex st), code)))) in
    let load h := pget (LKCode h) (fun '(e, _) =>
      match e with
      | ECode _ => PRet (Ok (OEntry (Some (EData (SContractInstance (ExWasm h) st), None))))
      | _ => pfail e_st_internal
      end) in
    match ex with
    | ExWasm h => load h
    | ExExternalRef o t => resolve_external_ref o t load
    | ExStellarAsset => answer None
    end).

(* ---------------------------------------------------------------- the host *)

(* What the host is given from outside. *)
Record env (P : Type) := {
  sub_prng : P -> P * P;                    (* prng.rs:148-153: (new generator, base after) *)
  reseed : list Z -> P;                     (* prng.rs:95-98 *)
  draw : pop -> P -> P * res scval;         (* prng.rs:100-146 *)
  wasm : list Z -> list Z -> list scval -> option gprog;   (* exported functions, by code hash *)
  wasm_proto : list Z -> Z;                 (* protocol version in the module *)
  sac : list Z -> list scval -> gprog;      (* builtin_contracts/stellar_asset_contract *)
  cid : preimage -> list Z;                 (* hash of the full preimage *)
  check_upload : list Z -> res (list Z * list Z)  (* size and VM checks; hash and code entry *)
}.
Arguments sub_prng {P}. Arguments reseed {P}. Arguments draw {P}. Arguments wasm {P}.
Arguments wasm_proto {P}. Arguments sac {P}. Arguments cid {P}. Arguments check_upload {P}.

(* frame.rs Frame: contract frames (VM or built-in) keep the instance as read
   when the call started *)
Inductive frame :=
| FHost
| FContract (id fn : list Z) (inst : imap).

Section Host.
  Context {P : Type}.                                 (* PRNG states *)
  Variable E : env P.
  Variable c : sconf.
  Let li := sc_li c.

  (* frame.rs:95-105 *)
  Record ctx := {
    cx_frame : frame;
    cx_prng : option P;
    cx_inst : option (imap * bool)      (* contents, is_modified *)
  }.
  Record host := {
    h_store : storage;
    h_ev : list (event * bool);         (* true: from a failed call *)
    h_base : P;
    h_stack : list ctx                  (* innermost first *)
  }.
  Definition set_store (h : host) (s : storage) : host :=
    {| h_store := s; h_ev := h_ev h; h_base := h_base h; h_stack := h_stack h |}.
  Definition set_stack (h : host) (l : list ctx) : host :=
    {| h_store := h_store h; h_ev := h_ev h; h_base := h_base h; h_stack := l |}.
  Definition add_event (h : host) (e : event) : host :=
    {| h_store := h_store h; h_ev := h_ev h ++ [(e, false)]; h_base := h_base h; h_stack := h_stack h |}.

  Definition frame_id (f : frame) : option (list Z) :=
    match f with FHost => None | FContract id _ _ => Some id end.
  Definition cur_id (h : host) : option (list Z) :=
    match h_stack h with x :: _ => frame_id (cx_frame x) | [] => None end.

  Definition run_st (h : host) (p : prog) : host * res sout :=
    let '(s, r, _) := srun c (h_store h) p in (set_store h s, r).

  (* ---- instance storage *)

  (* frame.rs:1269-1286, data_helper.rs:38-79 *)
  Definition inst_of (x : ctx) : option (imap * bool) :=
    match cx_inst x with
    | Some i => Some i
    | None => match cx_frame x with FContract _ _ m => Some (m, false) | FHost => None end
    end.
  Definition set_inst (x : ctx) (i : imap * bool) : ctx :=
    {| cx_frame := cx_frame x; cx_prng := cx_prng x; cx_inst := Some i |}.

  (* host.rs:2082-2095, 2105-2116, 2141-2152, 2163-2179 with the checks of
     data_helper.rs:637-684 *)
  Definition inst_step (i : iop) (m : imap) (dirty : bool) : imap * bool * res scval :=
    match i with
    | IGet k => (m, dirty, match iget m k with Some v => Ok v | None => Err e_st_missing end)
    | IHas k => (m, dirty, Ok (SBool (match iget m k with Some _ => true | None => false end)))
    | IPut k v => (iset m k v, true, Ok SVoid)
    | IDel k => (idel m k, true, Ok SVoid)
    end.
  Definition inst_refused (i : iop) : option err :=
    match i with
    | IPut (SExecutableTag _) _ => Some e_st_input
    | IDel (SExecutableTag _) => Some e_st_action
    | _ => None
    end.
  Definition inst_op (h : host) (i : iop) : host * res scval * list tree :=
    match inst_refused i with
    | Some e => (h, Err e, [])
    | None =>
        match h_stack h with
        | [] => (h, Err e_ctx_internal, [])
        | x :: rest =>
            match inst_of x with
            | None => (h, Err e_ctx_internal, [])
            | Some (m, d) =>
                let '(m', d', r) := inst_step i m d in
                (set_stack h (set_inst x (m', d') :: rest), r, [TInst i r])
            end
        end
    end.

  (* frame.rs:1329-1351 *)
  Definition persist (h : host) : host * res bool :=
    match h_stack h with
    | [] => (h, Err e_ctx_internal)
    | x :: _ =>
        match cx_inst x with
        | Some (m, true) =>
            match frame_id (cx_frame x) with
            | None => (h, Err e_ctx_internal)
            | Some id =>
                let '(h', r) := run_st h (store_instance li id None (Some m)) in (h', rmap (fun _ => true) r)
            end
        | _ => (h, Ok false)
        end
    end.

  (* frame.rs:1288-1323: the frames below, outermost first *)
  Definition imap_of (st : option imap) : imap := match st with Some m => m | None => [] end.
  Fixpoint reload (s : storage) (id : list Z) (l : list ctx) : storage * list ctx * res unit :=
    match l with
    | [] => (s, [], Ok tt)
    | x :: l' =>
        let '(s1, l1, r1) := reload s id l' in
        match r1 with
        | Err e => (s1, x :: l1, Err e)
        | Ok _ =>
            if match frame_id (cx_frame x) with Some i => if zlist_eq_dec i id then true else false | None => false end then
              let '(s2, r2, _) := srun c s1 (pinstance (instance_key (AContract id)) (fun ex st =>
                PRet (Ok (OEntry (Some (EData (SContractInstance ex st), None)))))) in
              match r2 with
              | Ok (OEntry (Some (EData (SContractInstance _ st), _))) =>
                  (s2, set_inst x (imap_of st, false) :: l1, Ok tt)
              | Ok _ => (s2, x :: l1, Err e_st_internal)
              | Err e => (s2, x :: l1, Err e)
              end
            else (s1, x :: l1, Ok tt)
        end
    end.
  Definition reload_below (h : host) : host * res unit :=
    match h_stack h with
    | [] => (h, Err e_ctx_internal)
    | x :: l =>
        match frame_id (cx_frame x) with
        | None => (h, Err e_ctx_internal)
        | Some id =>
            let '(s, l', r) := reload (h_store h) id l in
            ({| h_store := s; h_ev := h_ev h; h_base := h_base h; h_stack := x :: l' |}, r)
        end
    end.

  (* ---- frames *)

  (* frame.rs:498-566 *)
  Definition frame_exit (r : res scval) : res scval :=
    match r with
    | Ok (SError (EContract n)) => Err (EContract n)
    | Ok (SError _) => Err e_ctx_action
    | _ => r
    end.

  (* frame.rs:571-590 *)
  Definition flush (h : host) (r : res scval) : host * res scval :=
    match r with
    | Err _ => (h, r)
    | Ok v =>
        let '(h1, rp) := persist h in
        match rp with
        | Err e => (h1, Err e)
        | Ok false => (h1, r)
        | Ok true => let '(h2, rr) := reload_below h1 in
                     match rr with Ok _ => (h2, r) | Err e => (h2, Err e) end
        end
    end.

  (* events/internal.rs:195-206 *)
  Definition fail_from (n : nat) (l : list (event * bool)) : list (event * bool) :=
    firstn n l ++ map (fun p => (fst p, true)) (skipn n l).

  (* frame.rs:233-289, 466-641 *)
  Definition with_frame (who : option (kind * list Z * list Z * list scval)) (f : frame)
    (body : host -> host * res scval * list tree) (h : host) : host * res scval * list tree :=
    if Nat.leb depth_limit (length (h_stack h)) then (h, Err e_depth, [])
    else
      let x := {| cx_frame := f; cx_prng := None; cx_inst := None |} in
      let '(h1, r1, t) := body (set_stack h (x :: h_stack h)) in
      let '(h2, r2) := flush h1 (frame_exit r1) in
      let h3 := match r2 with
                | Ok _ => h2
                | Err _ => {| h_store := set_map (h_store h2) (st_map (h_store h));
                              h_ev := fail_from (length (h_ev h)) (h_ev h2);
                              h_base := h_base h2; h_stack := h_stack h2 |}
                end in
      (set_stack h3 (tl (h_stack h3)), r2, [TFrame who r2 t]).

  (* frame.rs:902-979, vm.rs:283-303 *)
  Definition call_contract (ex : host -> gprog -> host * res scval * list tree)
    (kd : kind) (id fn : list Z) (args : list scval) (noop : bool) (h : host) : host * res scval * list tree :=
    let '(h1, r) := run_st h (load_contract id) in
    match r with
    | Err e => (h1, Err e, [])
    | Ok (OEntry (Some (EData (SContractInstance e st), _))) =>
        let f := FContract id fn (imap_of st) in
        with_frame (Some (kd, id, fn, args)) f (fun h2 =>
          match e with
          | ExWasm hash =>
              match wasm E hash fn args with
              | Some g => ex h2 g
              | None => if noop then (h2, Ok SVoid, []) else (h2, Err e_fn_missing, [])
              end
          | _ => ex h2 (sac E fn args)
          end) h1
    | Ok _ => (h1, Err e_st_internal, [])
    end.

  (* frame.rs:1146-1150: position of the id among the contract frames *)
  Fixpoint reentry (l : list ctx) (id : list Z) : option nat :=
    match l with
    | [] => None
    | x :: l' =>
        match frame_id (cx_frame x) with
        | None => reentry l' id
        | Some i => if zlist_eq_dec i id then Some O else option_map S (reentry l' id)
        end
    end.

  (* frame.rs:1121-1195 with the CallParams of each caller: host.rs:2497-2503,
     2542-2548, account_contract.rs:158-170, lifecycle.rs:122-134, 170-178 *)
  Definition internal (kd : kind) : bool := match kd with KAuth | KCtor => true | _ => false end.
  Definition self_allowed (kd : kind) : bool := match kd with KAuth => true | _ => false end.
  Definition noop_missing (kd : kind) (args : list scval) : bool :=
    match kd, args with KCtor, [] => true | _, _ => false end.

  Definition call_n (ex : host -> gprog -> host * res scval * list tree)
    (kd : kind) (id fn : list Z) (args : list scval) (h : host) : host * res scval * list tree :=
    if negb (internal kd) && starts_with s_prefix fn then (h, Err e_ctx_action, [])
    else
      let go := call_contract ex kd id fn args (noop_missing kd args) in
      match reentry (h_stack h) id with
      | None => go h
      | Some O =>
          if self_allowed kd then
            let '(h1, r) := persist h in
            match r with Err e => (h1, Err e, []) | Ok _ => go h1 end
          else (h, Err e_ctx_action, [])
      | Some _ => (h, Err e_ctx_action, [])
      end.

  (* What the caller makes of the result: host.rs:2549-2578; auth.rs:2489-2509 and
     account_contract.rs:171 (non-void answers are conversion errors);
     lifecycle.rs:135-158, 170-178 *)
  Definition answer (kd : kind) (r : res scval) : res scval :=
    match kd with
    | KCall | KInit => r
    | KTry =>
        match r with
        | Ok v => Ok v
        | Err e =>
            if recoverable e then
              match e with EContract _ => Ok (SError e) | _ => Ok (SError e_ctx_action) end
            else Err e
        end
    | KAuth =>
        match r with
        | Ok SVoid => Ok SVoid
        | Ok _ => Err e_auth_action
        | Err e => if recoverable e then Err e_auth_action else Err e
        end
    | KCtor =>
        match r with
        | Ok SVoid => Ok SVoid
        | Ok _ => Err e_val_type
        | Err e => if recoverable e then Err e_ctx_action else Err e
        end
    end.

  Definition call (ex : host -> gprog -> host * res scval * list tree)
    (kd : kind) (id fn : list Z) (args : list scval) (h : host) : host * res scval * list tree :=
    let '(h1, r, t) := call_n ex kd id fn args h in (h1, answer kd r, t).

  (* ---- other host functions *)

  (* frame.rs:400-450, host.rs:3734-3794 *)
  Definition draw_op (h : host) (o : pop) : host * res scval * list tree :=
    let bad := match o with PReseed s => negb (Nat.eqb (length s) 32) | _ => false end in
    if bad then (h, Err e_val_size, [])
    else
      match h_stack h with
      | [] => (h, Err e_ctx_internal, [])
      | x :: rest =>
          let '(p, base) := match cx_prng x with Some p => (p, h_base h) | None => sub_prng E (h_base h) end in
          let '(p', r) := match o with PReseed s => (reseed E s, Ok SVoid) | _ => draw E o p end in
          ({| h_store := h_store h; h_ev := h_ev h; h_base := base;
              h_stack := {| cx_frame := cx_frame x; cx_prng := Some p'; cx_inst := cx_inst x |} :: rest |},
           r, [TDraw o r])
      end.

  Definition step (h : host) (o : gop) : host * res gval * list tree :=
    match o with
    | OStore hp =>
        match cur_id h with
        | None => (h, Err e_ctx_internal, [])
        | Some id =>
            if hop_key_ok hp then
              let '(h1, r) := run_st h (hop_prog li (AContract id) hp) in (h1, rmap GO r, [])
            else (h, Err e_val_input, [])
        end
    | OClassic op =>
        if classic_op op then
          let '(h1, r) := run_st h (PDo op PRet) in (h1, rmap GO r, [])
        else (h, Err e_ctx_internal, [])
    | ONonce a n live =>
        let '(h1, r) := run_st h (consume_nonce li a n live) in (h1, rmap GO r, [])
    | OInst i => let '(h1, r, t) := inst_op h i in (h1, rmap GV r, t)
    | OEvent diag b =>
        let e := {| ev_id := cur_id h; ev_kind := if diag then EvDiagnostic else EvContract; ev_body := b |} in
        (add_event h e, Ok (GV SVoid), [TEvent e])
    | ODraw o => let '(h1, r, t) := draw_op h o in (h1, rmap GV r, t)
    | OUpdate ex =>
        match cur_id h with
        | None => (h, Err e_ctx_internal, [])
        | Some id =>
            let '(h1, r) := run_st h (update_check id ex) in
            match r with
            | Ok (OEntry (Some (EData old, _))) =>
                let e := {| ev_id := Some id; ev_kind := EvSystem;
                            ev_body := SVec (Some [old; SContractInstance ex None]) |} in
                let '(h2, r2) := run_st (add_event h1 e) (store_instance li id (Some ex) None) in
                match r2 with
                | Ok _ => (h2, Ok (GV SVoid), [TEvent e; TUpdate ex])
                | Err er => (h2, Err er, [TEvent e])
                end
            | Ok _ => (h1, Err e_st_internal, [])
            | Err er => (h1, Err er, [])
            end
        end
    | OUpload w =>
        match check_upload E w with
        | Err e => (h, Err e, [])
        | Ok (hash, code) =>
            let '(h1, r) := run_st h (upload_code li hash code) in
            (h1, rmap (fun _ => GV (SBytes hash)) r, [])
        end
    end.

  (* lifecycle.rs:222-244 *)
  Definition pairing_ok (pre : preimage) (ex : executable) : bool :=
    match pre, ex with
    | PreAddress _ _, ExWasm _ | PreAddress _ _, ExExternalRef _ _ | PreAsset _, ExStellarAsset => true
    | _, _ => false
    end.

  (* frame.rs:1093-1118: only for Wasm-backed contracts *)
  Definition contract_proto (h : host) (id : list Z) : host * res Z :=
    let '(h1, r) := run_st h (load_contract id) in
    (h1, match r with
         | Ok (OEntry (Some (EData (SContractInstance (ExWasm hash) _), _))) => Ok (wasm_proto E hash)
         | Ok _ => Err e_st_internal
         | Err e => Err e
         end).

  (* lifecycle.rs:208-293 after the authorization of the deployer, 101-181 *)
  Definition create (ex : host -> gprog -> host * res scval * list tree)
    (pre : preimage) (exe : executable) (args : list scval) (h : host) : host * res scval * list tree :=
    if negb (pairing_ok pre exe) then (h, Err e_val_input, [])
    else
      let id := cid E pre in
      let '(h1, r1) := run_st h (create_with_id li id exe) in
      match r1 with
      | Err e => (h1, Err e, [])
      | Ok _ =>
          let created := [TCreated id exe] in
          let done := Ok (SAddress (AContract id)) in
          match pre with
          | PreAsset asset =>
              let '(h2, r2, t2) := call ex KInit id s_init_asset [SBytes asset] h1 in
              (h2, rbind r2 (fun _ => done), created ++ t2)
          | PreAddress _ _ =>
              let '(h2, rp) := contract_proto h1 id in
              match rp with
              | Err e => (h2, Err e, created)
              | Ok proto =>
                  if proto <? 22 then
                    match args with
                    | [] => (h2, done, created)
                    | _ => (h2, Err e_ctx_action, created)
                    end
                  else
                    let '(h3, r3, t3) := call ex KCtor id s_constructor args h2 in
                    (h3, rbind r3 (fun _ => done), created ++ t3)
              end
          end
      end.

  (* A contract function.  [n] bounds the depth of nested calls; depth_limit
     keeps it from ever being reached (FrameProofs.exec_fuel). *)
  Definition e_fuel : err := ESys TWasmVm CInternalError.
  Definition bind (x : host * res scval * list tree) (k : scval -> host -> host * res scval * list tree)
    : host * res scval * list tree :=
    let '(h1, r1, t1) := x in
    match r1 with
    | Err e => (h1, Err e, t1)
    | Ok v => let '(h2, r2, t2) := k v h1 in (h2, r2, t1 ++ t2)
    end.
  Fixpoint exec (n : nat) : host -> gprog -> host * res scval * list tree :=
    let ex := match n with O => fun h _ => (h, Err e_fuel, []) | S m => exec m end in
    fix go (h : host) (p : gprog) {struct p} : host * res scval * list tree :=
      match p with
      | GRet v => (h, Ok v, [])
      | GFail e => (h, Err (match e with EContract n => EContract n | _ => ESys TContext CUnexpectedType end), [])
      | GTrap e => (h, Err e, [])
      | GOp o k =>
          let '(h1, r1, t1) := step h o in
          match r1 with
          | Err e => (h1, Err e, t1)
          | Ok v => let '(h2, r2, t2) := go h1 (k v) in (h2, r2, t1 ++ t2)
          end
      | GCall id fn args k => bind (call ex KCall id fn args h) (fun v h1 => go h1 (k v))
      | GTry id fn args k => bind (call ex KTry id fn args h) (fun v h1 => go h1 (k v))
      | GAuth id args k => bind (call ex KAuth id s_check_auth args h) (fun _ h1 => go h1 k)
      | GCreate pre exe args k => bind (create ex pre exe args h) (fun v h1 => go h1 (k v))
      end.

  (* frame.rs:1198-1256 *)
  Inductive hostfn :=
  | HFInvoke (id fn : list Z) (args : list scval)
  | HFCreate (pre : preimage) (ex : executable) (args : list scval)
  | HFUpload (wasm : list Z).
  Definition invoke (h : host) (f : hostfn) : host * res scval * list tree :=
    let ex := exec depth_limit in
    with_frame None FHost (fun h1 =>
      match f with
      | HFInvoke id fn args => call ex KCall id fn args h1
      | HFCreate pre exe args => create ex pre exe args h1
      | HFUpload w =>
          let '(h2, r, t) := step h1 (OUpload w) in
          (h2, rbind r (fun v => match v with GV x => Ok x | GO _ => Err e_ctx_internal end), t)
      end) h.
End Host.
Arguments ctx : clear implicits.
Arguments host : clear implicits.
