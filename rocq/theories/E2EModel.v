(* Invoking a host function for the ledger: e2e_invoke.rs.  The inputs are a
   footprint and the entries it names, the outputs ledger changes and events.

   Simplifications.  XDR encodings of keys, entries, events and results are
   represented by what they encode, and their decoding and encoding do not fail;
   only their sizes matter here and are parameters [entry_len] and [code_cost].
   Budget, diagnostics, trace hooks, the module cache and the setting up of the
   host (source account, authorization entries: AuthModel) are omitted. *)
From Coq Require Import ZArith Lia List Bool.
From Verif Require Import Prelude ValModel ContainerModel HeapModel AMap StorageModel FeesModel FrameModel.
Import ListNotations.
Open Scope Z_scope.

(* XDR LedgerFootprint *)
Record lfoot := { f_ro : list lkey; f_rw : list lkey }.
Definition foot_keys (f : lfoot) : list lkey := f_ro f ++ f_rw f.
(* ledger_info.rs TtlLedgerEntryMeta *)
Record ttl_meta := { tm_live : Z; tm_size : Z }.
Definition item : Type := (option entry * option ttl_meta)%type.

(* e2e_invoke.rs:125-140, without the hash of the key; [tc_code]: the entry type is
   ContractCode *)
Record ttl_change := { tc_dur : durability; tc_code : bool; tc_old : Z; tc_new : Z }.
(* e2e_invoke.rs:99-124; sizes are those for rent *)
Record change := {
  ch_ro : bool;
  ch_key : lkey;
  ch_old_size : Z;
  ch_value : option entry;
  ch_new_size : Z;
  ch_ttl : option ttl_change
}.

(* sizes: XDR of a ledger entry (under its key), memory cost of a Wasm module *)
Record codec := { entry_len : lkey -> entry -> Z; code_cost : list Z -> Z }.

(* e2e_invoke.rs:427-443 *)
Definition entry_size_for_rent (cd : codec) (e : entry) (xdr : Z) : Z :=
  sat_u32 (xdr + match e with ECode w => sat_u32 (code_cost cd w) | _ => 0 end).
(* e2e_invoke.rs:171-177: the length of an encoding as u32 *)
Definition xdr_len (cd : codec) (k : lkey) (e : entry) : Z := sat_u32 (entry_len cd k e).

(* e2e_invoke.rs:146-169; the empty set and the absent set look up alike *)
Fixpoint build_restored (rw : list lkey) (idx : list nat) : res (list lkey) :=
  match idx with
  | [] => Ok []
  | i :: r =>
      match nth_error rw i with
      | None => Err e_st_internal
      | Some k => let? l := build_restored rw r in Ok (k :: l)
      end
  end.

(* e2e_invoke.rs:1035-1059 *)
Fixpoint add_foot (a : access) (l : list lkey) (m : list (lkey * access)) : res (list (lkey * access)) :=
  match l with
  | [] => Ok m
  | k :: r => if key_supported k then add_foot a r (fset m k a) else Err e_st_internal
  end.
Definition build_footprint (f : lfoot) : res (list (lkey * access)) :=
  let? m := add_foot ReadWrite (f_rw f) [] in add_foot ReadOnly (f_ro f) m.

(* e2e_invoke.rs:1092-1163 *)
Definition load_item (recording : bool) (seq : Z) (k : lkey) (it : item) : res (option lentry) :=
  match it with
  | (Some e, m) =>
      match m, key_durability k with
      | Some t, Some d =>
          if tm_live t <? seq then
            if recording then
              match d with Temporary => Ok None | Persistent => Ok (Some (e, Some (tm_live t))) end
            else Err e_st_internal
          else Ok (Some (e, Some (tm_live t)))
      | None, None => Ok (Some (e, None))
      | _, _ => Err e_st_internal
      end
  | (None, Some _) => Err e_st_internal
  | (None, None) => Ok None
  end.
(* e2e_invoke.rs:1061-1169 *)
Fixpoint load_items (recording : bool) (seq : Z) (ks : list lkey) (its : list item)
  (m : list (lkey * option lentry)) : res (list (lkey * option lentry) * list (option Z)) :=
  match ks, its with
  | k :: ks', it :: its' =>
      if key_supported k then
        let? v := load_item recording seq k it in
        let? p := load_items recording seq ks' its' (mset m k v) in
        Ok (fst p, option_map tm_size (snd it) :: snd p)
      else Err e_st_internal
  | _, _ => Ok (m, [])
  end.
Definition build_map (recording : bool) (seq : Z) (f : lfoot) (its : list item)
  : res (list (lkey * option lentry) * list (option Z)) :=
  if Nat.eqb (length (foot_keys f)) (length its) then load_items recording seq (foot_keys f) its []
  else Err e_st_internal.

Definition is_some {A} (o : option A) : bool := match o with Some _ => true | None => false end.
Definition is_code (k : lkey) : bool := match k with LKCode _ => true | _ => false end.
Definition key_in (k : lkey) (l : list lkey) : bool := if in_dec lkey_eq_dec k l then true else false.

Section Changes.
  Variable cd : codec.
  Variable build : bool.                         (* compiled with recording_mode *)
  Variable seq : Z.
  Variable min_live_until_ledger : Z.
  Variable restored : list lkey.
  Variable init : lkey -> option (option Z).     (* EntryTTLSource *)

  (* e2e_invoke.rs:269-300: size and live-until ledger of the old entry *)
  Definition old_of (k : lkey) (size : option Z) : res (Z * Z) :=
    match init k with
    | Some l =>
        if eqb (is_some size) (is_some l) then
          match key_durability k with
          | None => Ok (0, 0)
          | Some _ =>
              match size, l with
              | Some s, Some x => if build && (x <? seq) then Ok (0, 0) else Ok (s, x)
              | _, _ => Err e_st_internal
              end
          end
        else Err e_st_internal
    | None => if is_some size then Err e_st_internal else Ok (0, 0)
    end.

  (* e2e_invoke.rs:246-341, for one key and its entry in the final storage *)
  Definition one_change (a : access) (k : lkey) (size : option Z) (new : option lentry) : res change :=
    let? old := old_of k size in
    let? live :=
      match key_durability k, new with
      | Some _, Some (_, Some x) => Ok (Z.max x (snd old))
      | Some _, Some (_, None) => Err e_st_internal
      | _, _ => Ok 0
      end in
    let ttl o n := option_map (fun d => {| tc_dur := d; tc_code := is_code k; tc_old := o; tc_new := n |})
                              (key_durability k) in
    Ok match a, new with
       | ReadOnly, _ =>
           {| ch_ro := true; ch_key := k; ch_old_size := fst old; ch_value := None; ch_new_size := 0;
              ch_ttl := ttl (snd old) live |}
       | ReadWrite, None =>
           {| ch_ro := false; ch_key := k; ch_old_size := fst old; ch_value := None; ch_new_size := 0;
              ch_ttl := ttl (snd old) live |}
       | ReadWrite, Some (e, _) =>
           let r := key_in k restored in
           {| ch_ro := false; ch_key := k; ch_old_size := if r then 0 else fst old;
              ch_value := Some e; ch_new_size := entry_size_for_rent cd e (xdr_len cd k e);
              ch_ttl := ttl (if r then 0 else snd old) (if r then Z.max live min_live_until_ledger else live) |}
       end.

  (* e2e_invoke.rs:209-344 *)
  Fixpoint changes_of (m : list (lkey * option lentry)) (ks : list (access * lkey)) (sizes : list (option Z))
    : res (list change) :=
    match ks, sizes with
    | (a, k) :: ks', s :: sizes' =>
        match mget m k with
        | None => changes_of m ks' sizes'
        | Some new =>
            let? x := one_change a k s new in
            let? r := changes_of m ks' sizes' in
            Ok (x :: r)
        end
    | _, _ => Ok []
    end.
  Definition foot_accesses (f : lfoot) : list (access * lkey) :=
    map (pair ReadOnly) (f_ro f) ++ map (pair ReadWrite) (f_rw f).
  Definition get_ledger_changes (m : list (lkey * option lentry)) (f : lfoot) (sizes : list (option Z))
    : res (list change) :=
    if Nat.eqb (length (foot_keys f)) (length sizes) then changes_of m (foot_accesses f) sizes
    else Err e_st_internal.
End Changes.

(* e2e_invoke.rs:380-417 *)
Definition rent_change_of (c : change) : option rent_change :=
  match ch_ttl c with
  | None => None
  | Some t =>
      let new_size := if is_some (ch_value c) then ch_new_size c else ch_old_size c in
      if (tc_old t >=? tc_new t) && (ch_old_size c >=? new_size) then None
      else Some {| e_persistent := match tc_dur t with Persistent => true | Temporary => false end;
                   e_code := tc_code t; e_old_size := ch_old_size c; e_new_size := new_size;
                   e_old_live := tc_old t; e_new_live := tc_new t |}
  end.
Definition extract_rent_changes (l : list change) : list rent_change :=
  flat_map (fun c => match rent_change_of c with Some r => [r] | None => [] end) l.

(* e2e_invoke.rs:1007-1022 *)
Definition contract_events (l : list (event * bool)) : list event :=
  map fst (filter (fun p => negb (snd p) && match ev_kind (fst p) with EvDiagnostic => false | _ => true end) l).

(* e2e_invoke.rs:1184-1197, 1199-1212 *)
Definition map_ttl (m : list (lkey * option lentry)) (k : lkey) : option (option Z) :=
  match mget m k with Some (Some (_, l)) => Some l | _ => None end.
Definition snapshot_ttl (src : lkey -> option lentry) (k : lkey) : option (option Z) := option_map snd (src k).

Section Invoke.
  Context {P : Type}.
  Variable E : env P.
  Variable cd : codec.

  Definition fresh_host (s : storage) (base : P) : host P :=
    {| h_store := s; h_ev := []; h_base := base; h_stack := [] |}.

  (* e2e_invoke.rs:48-65 *)
  Record output := { o_result : res scval; o_changes : list change; o_events : list event }.

  (* e2e_invoke.rs:470-578 *)
  Definition invoke_host_function (li : linfo) (build : bool) (base : P) (f : lfoot) (idx : list nat)
    (its : list item) (fn : hostfn) : res output :=
    let? restored := build_restored (f_rw f) idx in
    let? foot := build_footprint f in
    let? mlu := match min_live_until li Persistent with Some x => Ok x | None => Err e_ctx_internal end in
    let? ms := build_map false (li_seq li) f its in
    let c := {| sc_li := li; sc_mode := Enforcing; sc_recording_build := build |} in
    let '(h, r, _) := invoke E c (fresh_host {| st_foot := foot; st_map := fst ms |} base) fn in
    match r with
    | Ok v =>
        let? ch := get_ledger_changes cd build (li_seq li) mlu restored (map_ttl (fst ms)) (st_map (h_store h)) f (snd ms) in
        Ok {| o_result := r; o_changes := ch; o_events := contract_events (h_ev h) |}
    | Err _ => Ok {| o_result := r; o_changes := []; o_events := [] |}
    end.

  (* -------------------------------------------------------------- recording *)

  (* e2e_invoke.rs:602-618; the order of the recorded keys does not matter here *)
  Definition split_foot (l : list (lkey * access)) : lfoot :=
    let of a := map fst (filter (fun p => match snd p, a with
                                          | ReadOnly, ReadOnly | ReadWrite, ReadWrite => true
                                          | _, _ => false end) l) in
    {| f_ro := of ReadOnly; f_rw := of ReadWrite |}.

  (* e2e_invoke.rs:850-912: read the footprint's entries from the snapshot; gives the
     items, the bytes read from disk and the entries to restore *)
  Record scan := { sn_items : list item; sn_disk : Z; sn_restored : list nat; sn_keys : list lkey }.
  Definition scan0 : scan := {| sn_items := []; sn_disk := 0; sn_restored := []; sn_keys := [] |}.
  Definition scan_one (li : linfo) (src : lkey -> option lentry) (s : scan) (rw : option nat) (k : lkey) : res scan :=
    match src k with
    | None => Ok {| sn_items := sn_items s ++ [(None, None)]; sn_disk := sn_disk s;
                    sn_restored := sn_restored s; sn_keys := sn_keys s |}
    | Some (e, l) =>
        let len := xdr_len cd k e in
        match e with
        | EData _ | ECode _ =>
            match l with
            | None => Err e_st_internal
            | Some x =>
                let it := (Some e, Some {| tm_live := x; tm_size := entry_size_for_rent cd e len |}) in
                if (x <? li_seq li) && match key_durability k with Some Persistent => true | _ => false end then
                  match rw with
                  | None => Err e_st_internal
                  | Some i =>
                      Ok {| sn_items := sn_items s ++ [it]; sn_disk := sat_u32 (sn_disk s + len);
                            sn_restored := sn_restored s ++ [i]; sn_keys := sn_keys s ++ [k] |}
                  end
                else Ok {| sn_items := sn_items s ++ [it]; sn_disk := sn_disk s;
                           sn_restored := sn_restored s; sn_keys := sn_keys s |}
            end
        | _ => Ok {| sn_items := sn_items s ++ [(Some e, None)]; sn_disk := sat_u32 (sn_disk s + len);
                     sn_restored := sn_restored s; sn_keys := sn_keys s |}
        end
    end.
  Fixpoint scan_ro (li : linfo) src (s : scan) (ks : list lkey) : res scan :=
    match ks with
    | [] => Ok s
    | k :: r => let? s' := scan_one li src s None k in scan_ro li src s' r
    end.
  Fixpoint scan_rw (li : linfo) src (s : scan) (i : nat) (ks : list lkey) : res scan :=
    match ks with
    | [] => Ok s
    | k :: r => let? s' := scan_one li src s (Some i) k in scan_rw li src s' (S i) r
    end.

  (* e2e_invoke.rs:356-373 *)
  Definition footprint_only (s : storage) : list change :=
    map (fun p => {| ch_ro := match snd p with ReadOnly => true | ReadWrite => false end; ch_key := fst p;
                     ch_old_size := 0; ch_value := None; ch_new_size := 0; ch_ttl := None |})
        (filter (fun p => negb (is_some (mget (st_map s) (fst p)))) (st_foot s)).

  (* e2e_invoke.rs:983-993 *)
  Definition write_bytes (l : list change) : Z :=
    fold_left (fun n c => match ch_value c with
                          | Some e => if ch_ro c then n else sat_u32 (n + xdr_len cd (ch_key c) e)
                          | None => n
                          end) l 0.

  (* e2e_invoke.rs:68-96, without authorization, instructions and event sizes *)
  Record recorded := {
    rc_result : res scval;
    rc_foot : lfoot;
    rc_disk_read : Z;
    rc_write : Z;
    rc_restored : list nat;
    rc_changes : list change;
    rc_events : list event
  }.

  (* e2e_invoke.rs:752-1004 *)
  Definition invoke_in_recording_mode (li : linfo) (base : P) (src : lkey -> option lentry) (fn : hostfn)
    : res recorded :=
    let? mlu := match min_live_until li Persistent with Some x => Ok x | None => Err e_ctx_internal end in
    let c := {| sc_li := li; sc_mode := Recording src; sc_recording_build := true |} in
    let '(h, r, _) := invoke E c (fresh_host {| st_foot := []; st_map := [] |} base) fn in
    let f := split_foot (st_foot (h_store h)) in
    let? _ := build_footprint f in
    let? s0 := scan_ro li src scan0 (f_ro f) in
    let? s := scan_rw li src s0 0 (f_rw f) in
    let? ms := build_map true (li_seq li) f (sn_items s) in
    let? ce :=
      match r with
      | Ok _ =>
          let? ch := get_ledger_changes cd true (li_seq li) mlu (sn_keys s) (snapshot_ttl src) (st_map (h_store h)) f (snd ms) in
          Ok (ch ++ footprint_only (h_store h), contract_events (h_ev h))
      | Err _ => Ok ([], [])
      end in
    Ok {| rc_result := r; rc_foot := f; rc_disk_read := sn_disk s; rc_write := write_bytes (fst ce);
          rc_restored := sn_restored s; rc_changes := fst ce; rc_events := snd ce |}.
End Invoke.
