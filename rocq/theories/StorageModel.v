(* Ledger storage: storage.rs, ledger_info.rs, and the contract-data host
   functions built on it (host.rs "ledger" module, host/data_helper.rs).

   Simplifications.  Budget charges are omitted.  Both sorted maps are AMap
   association lists (only contents matter).  Ledger entries are kept decoded:
   the lazy decoding of storage.rs:277-305 and its key check are omitted.
   SnapshotSource::get never fails and always gives the same answer for a key.
   Error decoration (storage.rs decorate_storage_error) only adds diagnostics. *)
From Coq Require Import ZArith Lia List Bool.
From Verif Require Import Prelude ValModel ContainerModel HeapModel AMap.
Import ListNotations.
Open Scope Z_scope.

(* ---------------------------------------------------------------- keys *)

Inductive durability := Temporary | Persistent.

(* XDR LedgerKey; LKOther are the types Soroban does not support. *)
Inductive lkey :=
| LKAccount (id : list Z)
| LKTrustline (id : list Z) (asset : list Z)
| LKData (contract : addr) (key : scval) (d : durability)
| LKCode (hash : list Z)
| LKOther (disc : Z).

Definition zlist_eq_dec : forall a b : list Z, {a = b} + {a <> b} := list_eq_dec Z.eq_dec.
Definition addr_eq_dec (a b : addr) : {a = b} + {a <> b}.
Proof. decide equality; auto using Z.eq_dec, zlist_eq_dec. Defined.
Definition err_eq_dec (a b : err) : {a = b} + {a <> b}.
Proof. repeat decide equality. Defined.
Definition exe_eq_dec (a b : executable) : {a = b} + {a <> b}.
Proof. decide equality; auto using addr_eq_dec, zlist_eq_dec. Defined.
Definition pair_eq_dec {A B} (da : forall a b : A, {a = b} + {a <> b})
  (db : forall a b : B, {a = b} + {a <> b}) (p q : A * B) : {p = q} + {p <> q}.
Proof. decide equality. Defined.
Definition option_eq_dec {A} (da : forall a b : A, {a = b} + {a <> b}) (p q : option A)
  : {p = q} + {p <> q}.
Proof. decide equality. Defined.
Fixpoint scval_eq_dec (a b : scval) {struct a} : {a = b} + {a <> b}.
Proof.
  decide equality; try apply Z.eq_dec; try apply zlist_eq_dec; try apply bool_dec;
    try apply err_eq_dec; try apply addr_eq_dec; try apply exe_eq_dec.
  - apply option_eq_dec. apply list_eq_dec. exact scval_eq_dec.
  - apply option_eq_dec. apply list_eq_dec. apply pair_eq_dec; exact scval_eq_dec.
  - apply option_eq_dec. apply list_eq_dec. apply pair_eq_dec; exact scval_eq_dec.
Defined.
(* comparison.rs:392-440, Compare<LedgerKey>: only its equality is used here *)
Definition lkey_eq_dec (a b : lkey) : {a = b} + {a <> b}.
Proof. decide equality; auto using Z.eq_dec, zlist_eq_dec, addr_eq_dec, scval_eq_dec. decide equality. Defined.

(* ledger_info.rs:36-42 *)
Definition key_durability (k : lkey) : option durability :=
  match k with
  | LKData _ _ d => Some d
  | LKCode _ => Some Persistent
  | _ => None
  end.

(* storage.rs:225-232 *)
Definition key_supported (k : lkey) : bool :=
  match k with LKOther _ => false | _ => true end.

(* XDR LedgerEntry.  A data entry's own copy of its key is omitted. *)
Inductive entry :=
| EData (v : scval)
| ECode (wasm : list Z)
| EAccount (payload : list Z)
| ETrustline (payload : list Z)
| EOther (disc : Z).

(* storage.rs:211-218 *)
Definition entry_supported (e : entry) : bool :=
  match e with EOther _ => false | _ => true end.

(* EntryWithLiveUntil *)
Definition lentry : Type := (entry * option Z)%type.

(* ---------------------------------------------------------------- ledger *)

(* ledger_info.rs:4-13, the fields that storage reads *)
Record linfo := {
  li_seq : Z;
  li_min_temp : Z;
  li_min_persistent : Z;
  li_max_ttl : Z
}.

Definition checked_add_u32 (a b : Z) : option Z := if a + b <=? u32_max then Some (a + b) else None.
Definition sat_sub_u32 (a b : Z) : Z := Z.max 0 (a - b).

(* ledger_info.rs:16-24 *)
Definition min_live_until (li : linfo) (d : durability) : option Z :=
  checked_add_u32 (li_seq li)
    (sat_sub_u32 (match d with Temporary => li_min_temp li | Persistent => li_min_persistent li end) 1).
(* ledger_info.rs:25-30 *)
Definition max_live_until (li : linfo) : option Z :=
  checked_add_u32 (li_seq li) (sat_sub_u32 (li_max_ttl li) 1).

Definition e_foot : err := ESys TStorage CExceededLimit.
Definition e_st_internal : err := ESys TStorage CInternalError.
Definition e_st_missing : err := ESys TStorage CMissingValue.
Definition e_st_input : err := ESys TStorage CInvalidInput.
Definition e_st_action : err := ESys TStorage CInvalidAction.
Definition e_ctx_internal : err := ESys TContext CInternalError.

(* host/ledger_info_helper.rs:7-38 *)
Definition get_min_live_until (li : linfo) (d : durability) : res Z :=
  match min_live_until li d with Some x => Ok x | None => Err e_ctx_internal end.
Definition get_max_live_until (li : linfo) : res Z :=
  match max_live_until li with Some x => Ok x | None => Err e_ctx_internal end.

(* ---------------------------------------------------------------- storage *)

Inductive access := ReadOnly | ReadWrite.

(* storage.rs:165-170, FootprintMode *)
Inductive smode :=
| Enforcing
| Recording (src : lkey -> option lentry).

(* storage.rs:185-190.  The map holds Some None for a key known to be absent. *)
Record storage := {
  st_foot : list (lkey * access);
  st_map : list (lkey * option lentry)
}.

(* Host configuration.  `sc_recording_build`: compiled with the recording_mode
   feature, which also adds handle_maybe_expired_entry to enforcing runs. *)
Record sconf := {
  sc_li : linfo;
  sc_mode : smode;
  sc_recording_build : bool
}.

Definition fget := @aget lkey access lkey_eq_dec.
Definition fset := @aset lkey access lkey_eq_dec.
Definition mget := @aget lkey (option lentry) lkey_eq_dec.
Definition mset := @aset lkey (option lentry) lkey_eq_dec.

Definition set_foot (s : storage) f : storage := {| st_foot := f; st_map := st_map s |}.
Definition set_map (s : storage) m : storage := {| st_foot := st_foot s; st_map := m |}.

(* storage.rs:110-132 *)
Definition record_access (s : storage) (k : lkey) (ty : access) : storage :=
  match fget (st_foot s) k with
  | Some ReadOnly =>
      match ty with
      | ReadOnly => s
      | ReadWrite => set_foot s (fset (st_foot s) k ReadWrite)
      end
  | Some ReadWrite => s
  | None => set_foot s (fset (st_foot s) k ty)
  end.

(* storage.rs:134-158 *)
Definition enforce_access (s : storage) (k : lkey) (ty : access) : res unit :=
  match fget (st_foot s) k with
  | Some ReadOnly => match ty with ReadOnly => Ok tt | ReadWrite => Err e_foot end
  | Some ReadWrite => Ok tt
  | None => Err e_foot
  end.

(* storage.rs:808-857 *)
Definition handle_maybe_expired (li : linfo) (s : storage) (k : lkey) : storage * res unit :=
  match mget (st_map s) k with
  | Some (Some (e, live)) =>
      match key_durability k with
      | Some d =>
          match live with
          | None => (s, Err e_st_internal)
          | Some l =>
              if l <? li_seq li then
                match d with
                | Temporary => (set_map s (mset (st_map s) k None), Ok tt)
                | Persistent =>
                    let s1 := record_access s k ReadWrite in
                    match min_live_until li Persistent with
                    | None => (s1, Err e_st_internal)
                    | Some n => (set_map s1 (mset (st_map s1) k (Some (e, Some n))), Ok tt)
                    end
                end
              else (s, Ok tt)
          end
      | None => (s, Ok tt)
      end
  | _ => (s, Ok tt)
  end.

(* the two #[cfg(any(test, feature = "recording_mode"))] call sites *)
Definition maybe_expired_cfg (c : sconf) (s : storage) (k : lkey) : storage * res unit :=
  if sc_recording_build c then handle_maybe_expired (sc_li c) s k else (s, Ok tt).

(* storage.rs:752-805 *)
Definition prepare_read_only_access (c : sconf) (s : storage) (k : lkey) : storage * res unit :=
  match sc_mode c with
  | Recording src =>
      let s1 := record_access s k ReadOnly in
      let s2 := match mget (st_map s1) k with
                | Some _ => s1
                | None => set_map s1 (mset (st_map s1) k (src k))
                end in
      let s3 := record_access s2 k ReadOnly in
      handle_maybe_expired (sc_li c) s3 k
  | Enforcing => (s, enforce_access s k ReadOnly)
  end.

(* storage.rs:260-274 (and 277-317: try_get_full, without the lazy decoding) *)
Definition try_get (c : sconf) (s : storage) (k : lkey) : storage * res (option lentry) :=
  if key_supported k then
    let '(s1, r) := prepare_read_only_access c s k in
    match r with
    | Err e => (s1, Err e)
    | Ok _ =>
        match mget (st_map s1) k with
        | None => (s1, Err e_st_internal)
        | Some o => (s1, Ok o)
        end
    end
  else (s, Err e_st_internal).

(* storage.rs:371-403, put_opt_helper *)
Definition put_opt (c : sconf) (s : storage) (k : lkey) (v : option lentry) : storage * res unit :=
  if negb (key_supported k) then (s, Err e_st_internal)
  else if (match v with Some (e, _) => negb (entry_supported e) | None => false end)
  then (s, Err e_st_internal)
  else
    let '(s1, r) := maybe_expired_cfg c s k in
    match r with
    | Err e => (s1, Err e)
    | Ok _ =>
        match sc_mode c with
        | Recording _ =>
            let s2 := record_access s1 k ReadWrite in
            (set_map s2 (mset (st_map s2) k v), Ok tt)
        | Enforcing =>
            match enforce_access s1 k ReadWrite with
            | Err e => (s1, Err e)
            | Ok _ => (set_map s1 (mset (st_map s1) k v), Ok tt)
            end
        end
    end.

(* storage.rs:193-204, TtlExtensionInfo *)
Record ttl_info := { ti_entry : entry; ti_old : Z; ti_ttl : Z; ti_max : Z }.

(* storage.rs:481-555 *)
Definition prepare_extend_ttl (c : sconf) (s : storage) (k : lkey) (extend_to : Z)
  : storage * res ttl_info :=
  let li := sc_li c in
  if negb (key_supported k) then (s, Err e_st_internal)
  else
    let '(s0, r0) := maybe_expired_cfg c s k in
    match r0 with
    | Err e => (s0, Err e)
    | Ok _ =>
        let '(s1, r) := try_get c s0 k in
        (s1,
         match r with
         | Err e => Err e
         | Ok None => Err e_st_missing
         | Ok (Some (e, live)) =>
             match live with
             | None => Err e_st_internal
             | Some old =>
                 if old <? li_seq li then Err e_st_internal
                 else
                   let? mx := get_max_live_until li in
                   match key_durability k with
                   | None => Err e_st_internal
                   | Some d =>
                       let max_ttl := sat_sub_u32 mx (li_seq li) in
                       if (match d with Temporary => true | Persistent => false end) && (max_ttl <? extend_to)
                       then Err e_st_action
                       else Ok {| ti_entry := e; ti_old := old;
                                  ti_ttl := sat_sub_u32 old (li_seq li); ti_max := mx |}
                   end
             end
         end)
    end.

(* storage.rs:558-573 *)
Definition apply_ttl_extension (s : storage) (k : lkey) (ti : ttl_info) (new_live : Z) : storage :=
  if ti_old ti <? new_live then set_map s (mset (st_map s) k (Some (ti_entry ti, Some new_live))) else s.

(* storage.rs:589-631 *)
Definition extend_ttl (c : sconf) (s : storage) (k : lkey) (threshold extend_to : Z) : storage * res unit :=
  if extend_to <? threshold then (s, Err e_st_input)
  else
    let '(s1, r) := prepare_extend_ttl c s k extend_to in
    match r with
    | Err e => (s1, Err e)
    | Ok ti =>
        match checked_add_u32 (li_seq (sc_li c)) extend_to with
        | None => (s1, Err e_ctx_internal)
        | Some n =>
            let new_live := Z.min n (ti_max ti) in
            if ti_ttl ti <=? threshold then (apply_ttl_extension s1 k ti new_live, Ok tt) else (s1, Ok tt)
        end
    end.

(* storage.rs:651-700 *)
Definition extend_ttl_v2 (c : sconf) (s : storage) (k : lkey) (extend_to min_ext max_ext : Z)
  : storage * res unit :=
  if max_ext <? min_ext then (s, Err e_st_input)
  else
    let '(s1, r) := prepare_extend_ttl c s k extend_to in
    match r with
    | Err e => (s1, Err e)
    | Ok ti =>
        let init := sat_sub_u32 extend_to (ti_ttl ti) in
        let final := Z.min (Z.min init max_ext) (sat_sub_u32 (ti_max ti) (ti_old ti)) in
        if final <? min_ext then (s1, Ok tt)
        else
          match checked_add_u32 (ti_old ti) final with
          | None => (s1, Err e_ctx_internal)
          | Some n => (apply_ttl_extension s1 k ti n, Ok tt)
          end
    end.

(* ---------------------------------------------------------------- programs *)

(* The storage calls of the host, and what they answer. *)
Inductive sop :=
| SGet (k : lkey)                           (* try_get_full / get_with_live_until *)
| SHas (k : lkey)                           (* storage.rs:455-470 *)
| SPut (k : lkey) (e : entry) (live : option Z)   (* storage.rs:420-430 *)
| SDel (k : lkey)                           (* storage.rs:443-453 *)
| SExtend (k : lkey) (threshold extend_to : Z)
| SExtendV2 (k : lkey) (extend_to min_ext max_ext : Z).

Inductive sout := OUnit | OBool (b : bool) | OEntry (o : option lentry).

Definition unit_out (p : storage * res unit) : storage * res sout :=
  (fst p, rmap (fun _ => OUnit) (snd p)).

Definition sstep (c : sconf) (s : storage) (op : sop) : storage * res sout :=
  match op with
  | SGet k => let '(s', r) := try_get c s k in (s', rmap OEntry r)
  | SHas k =>
      let '(s', r) := try_get c s k in
      (s', rmap (fun o => OBool (match o with Some _ => true | None => false end)) r)
  | SPut k e l => unit_out (put_opt c s k (Some (e, l)))
  | SDel k => unit_out (put_opt c s k None)
  | SExtend k t x => unit_out (extend_ttl c s k t x)
  | SExtendV2 k x mn mx => unit_out (extend_ttl_v2 c s k x mn mx)
  end.

(* Any client of storage: it sees every answer and decides what to do next, and
   may run parts of itself in call frames, which are undone when they fail. *)
Inductive prog :=
| PRet (r : res sout)
| PDo (op : sop) (k : res sout -> prog)
| PFrame (body : prog) (k : res sout -> prog).

Fixpoint pbind (p : prog) (k : res sout -> prog) : prog :=
  match p with
  | PRet r => k r
  | PDo op f => PDo op (fun x => pbind (f x) k)
  | PFrame b f => PFrame b (fun x => pbind (f x) k)
  end.

(* frame.rs:240-248, 253-275: the frame's rollback point holds the storage map
   only; the recorded footprint survives a rollback. *)
Fixpoint srun (c : sconf) (s : storage) (p : prog) : storage * res sout * list (sop * res sout) :=
  match p with
  | PRet r => (s, r, [])
  | PDo op k =>
      let '(s1, r) := sstep c s op in
      let '(s2, r2, t) := srun c s1 (k r) in
      (s2, r2, (op, r) :: t)
  | PFrame body k =>
      let '(s1, r, t1) := srun c s body in
      let s2 := match r with Ok _ => s1 | Err _ => set_map s1 (st_map s) end in
      let '(s3, r3, t3) := srun c s2 (k r) in
      (s3, r3, t1 ++ t3)
  end.

(* ---------------------------------------------------------------- contract data *)

Definition psucc (op : sop) (k : sout -> prog) : prog :=
  PDo op (fun r => match r with Ok o => k o | Err e => PRet (Err e) end).
Definition pdone : prog := PRet (Ok OUnit).
Definition pfail (e : err) : prog := PRet (Err e).

(* storage.rs:319-331, 358-368: `get` and `get_with_live_until_ledger` fail on a
   missing entry *)
Definition pget (k : lkey) (cont : lentry -> prog) : prog :=
  psucc (SGet k) (fun o => match o with
                           | OEntry (Some e) => cont e
                           | OEntry None => pfail e_st_missing
                           | _ => pfail e_st_internal
                           end).
Definition phas (k : lkey) (cont : bool -> prog) : prog :=
  psucc (SHas k) (fun o => match o with OBool b => cont b | _ => pfail e_st_internal end).
Definition pput (k : lkey) (e : entry) (l : option Z) : prog := psucc (SPut k e l) (fun _ => pdone).

(* data_helper.rs:686-741.  Keys and values are given as XDR values (HeapModel
   models the conversion). *)
Definition put_data_into_ledger (li : linfo) (key : lkey) (d : durability) (v : scval) : prog :=
  phas key (fun b =>
    if b then
      pget key (fun '(cur, live) =>
        match cur with
        | EData _ => pput key (EData v) live
        | _ => pfail e_st_internal
        end)
    else
      match get_min_live_until li d with
      | Ok l => pput key (EData v) (Some l)
      | Err e => pfail e
      end).

(* conversion.rs:86-110 fixed_length_bytes_from_slice fails with
   (Object, UnexpectedSize) *)
Definition e_obj_size : err := ESys TObject CUnexpectedSize.

(* data_helper.rs:168-180 *)
Definition verify_wasm_exists (hash : list Z) (cont : prog) : prog :=
  phas (LKCode hash) (fun b => if b then cont else pfail e_st_missing).

(* data_helper.rs:637-666 *)
Definition validate_put (d : durability) (k v : scval) (cont : prog) : prog :=
  match k with
  | SExecutableTag _ =>
      match d with
      | Temporary => pfail e_st_input
      | Persistent =>
          match v with
          | SBytes b => if Nat.eqb (length b) 32 then verify_wasm_exists b cont else pfail e_obj_size
          | _ => pfail e_st_input
          end
      end
  | _ => cont
  end.

(* host.rs:2076-2095, temporary and persistent storage *)
Definition put_contract_data (li : linfo) (c : addr) (k v : scval) (d : durability) : prog :=
  validate_put d k v (put_data_into_ledger li (LKData c k d) d v).

(* host.rs:2098-2116 *)
Definition has_contract_data (c : addr) (k : scval) (d : durability) : prog :=
  psucc (SHas (LKData c k d)) (fun o => PRet (Ok o)).

(* host.rs:2118-2153; the answer is the entry *)
Definition get_contract_data (c : addr) (k : scval) (d : durability) : prog :=
  pget (LKData c k d) (fun '(e, l) =>
    match e with EData v => PRet (Ok (OEntry (Some (e, l)))) | _ => pfail e_st_internal end).

(* host.rs:2155-2179 with data_helper.rs:668-684 *)
Definition del_contract_data (c : addr) (k : scval) (d : durability) : prog :=
  match k with
  | SExecutableTag _ => pfail e_st_action
  | _ => psucc (SDel (LKData c k d)) (fun _ => pdone)
  end.

(* host.rs:2181-2206, 2278-2305 *)
Definition extend_contract_data_ttl (c : addr) (k : scval) (d : durability) (threshold extend_to : Z) : prog :=
  psucc (SExtend (LKData c k d) threshold extend_to) (fun _ => pdone).
Definition extend_contract_data_ttl_v2 (c : addr) (k : scval) (d : durability) (extend_to mn mx : Z) : prog :=
  psucc (SExtendV2 (LKData c k d) extend_to mn mx) (fun _ => pdone).

(* data_helper.rs:81-94 *)
Definition instance_key (c : addr) : lkey := LKData c SLedgerKeyContractInstance Persistent.
(* data_helper.rs:197-210 *)
Definition exe_ref_key (owner : addr) (tag : list Z) : lkey := LKData owner (SExecutableTag tag) Persistent.

(* data_helper.rs:96-126 *)
Definition pinstance (key : lkey) (cont : executable -> option (list (scval * scval)) -> prog) : prog :=
  pget key (fun '(e, _) =>
    match e with
    | EData (SContractInstance ex st) => cont ex st
    | _ => pfail e_st_internal
    end).

(* data_helper.rs:232-258 *)
Definition resolve_external_ref (owner : addr) (tag : list Z) (cont : list Z -> prog) : prog :=
  pget (exe_ref_key owner tag) (fun '(e, _) =>
    match e with
    | EData (SBytes b) => if Nat.eqb (length b) 32 then cont b else pfail e_obj_size
    | _ => pfail e_st_internal
    end).

(* data_helper.rs:340-370 (extension op `ext`), 388-432 *)
Definition extend_code_ttl (ext : lkey -> sop) (key : lkey) : prog :=
  pinstance key (fun ex _ =>
    match ex with
    | ExWasm h => psucc (ext (LKCode h)) (fun _ => pdone)
    | ExExternalRef owner tag =>
        psucc (ext (exe_ref_key owner tag)) (fun _ =>
          resolve_external_ref owner tag (fun h => psucc (ext (LKCode h)) (fun _ => pdone)))
    | ExStellarAsset => pdone
    end).

(* host.rs:2208-2276 *)
Definition extend_instance_and_code_ttl (c : addr) (threshold extend_to : Z) : prog :=
  psucc (SExtend (instance_key c) threshold extend_to) (fun _ =>
    extend_code_ttl (fun k => SExtend k threshold extend_to) (instance_key c)).

(* host.rs:2307-2337; scope 0 = both, 1 = instance, 2 = code *)
Inductive ttl_scope := ScopeBoth | ScopeInstance | ScopeCode.
Definition extend_instance_and_code_ttl_v2 (c : addr) (sc : ttl_scope) (extend_to mn mx : Z) : prog :=
  let inst := psucc (SExtendV2 (instance_key c) extend_to mn mx) (fun _ => pdone) in
  match sc with
  | ScopeInstance => inst
  | ScopeCode => extend_code_ttl (fun k => SExtendV2 k extend_to mn mx) (instance_key c)
  | ScopeBoth =>
      pbind (extend_code_ttl (fun k => SExtendV2 k extend_to mn mx) (instance_key c))
            (fun r => match r with Ok _ => inst | Err e => PRet (Err e) end)
  end.

(* The ledger functions a contract can call on temporary and persistent data
   (host.rs:2076-2337). *)
Inductive hop :=
| HPut (k v : scval) (d : durability)
| HHas (k : scval) (d : durability)
| HGet (k : scval) (d : durability)
| HDel (k : scval) (d : durability)
| HExtend (k : scval) (d : durability) (threshold extend_to : Z)
| HExtendV2 (k : scval) (d : durability) (extend_to mn mx : Z)
| HExtendInst (owner : addr) (threshold extend_to : Z)
| HExtendInstV2 (owner : addr) (sc : ttl_scope) (extend_to mn mx : Z).

Definition hop_prog (li : linfo) (c : addr) (h : hop) : prog :=
  match h with
  | HPut k v d => put_contract_data li c k v d
  | HHas k d => has_contract_data c k d
  | HGet k d => get_contract_data c k d
  | HDel k d => del_contract_data c k d
  | HExtend k d t x => extend_contract_data_ttl c k d t x
  | HExtendV2 k d x mn mx => extend_contract_data_ttl_v2 c k d x mn mx
  | HExtendInst o t x => extend_instance_and_code_ttl o t x
  | HExtendInstV2 o sc x mn mx => extend_instance_and_code_ttl_v2 o sc x mn mx
  end.

(* A contract, and the contracts it calls: any program over these. *)
Inductive hprog :=
| HRet (r : res sout)
| HDo (c : addr) (h : hop) (k : res sout -> hprog)
| HFrame (body : hprog) (k : res sout -> hprog).

Fixpoint compile (li : linfo) (p : hprog) : prog :=
  match p with
  | HRet r => PRet r
  | HDo c h k => pbind (hop_prog li c h) (fun r => compile li (k r))
  | HFrame b k => PFrame (compile li b) (fun r => compile li (k r))
  end.
