(* What metering should report. *)
From Coq Require Import ZArith Lia List Bool.
From Verif Require Import Prelude ValModel ContainerModel HeapModel AMap StorageModel StorageSpec FeesModel FrameModel E2EModel MeterModel.
Import ListNotations.
Open Scope Z_scope.

(* ------------------------------------------------------------ which calls *)

Section Calls.
  Context {H S : Type}.
  Variable reset_ : H -> H.
  Variable save : H -> S.
  Variable look : S -> H -> option (H * usage).
  Variable within : usage -> H -> bool.

  Definition is_call (i : minv) : bool := match i with InvokeContract _ _ => true | _ => false end.
  (* The calls that code running in [cur] makes, each with what was used between
     its beginning and its end; an entry point for [cur] itself, or one that is not
     a contract call, is not a call of its own. *)
  Fixpoint calls (sn : S) (cur : minv) (p : @mprog H) (h : H) : option (H * list mtree) :=
    match p with
    | MEnd => Some (h, [])
    | MWork w k => calls sn cur k (w h)
    | MScope i body k =>
        if is_call i && (if minv_eq_dec cur i then false else true) then
          let! b := look sn h in                       (* before *)
          let! x := calls sn i body (fst b) in
          let! e := look sn (fst x) in                 (* after *)
          let! y := calls sn cur k (fst e) in
          Some (fst y, MT i (subtract (snd e) (snd b)) (snd x) :: snd y)
        else
          let! x := calls sn cur body h in
          let! y := calls sn cur k (fst x) in
          Some (fst y, snd x ++ snd y)
    end.
  (* Entry points outside of others: the report is about the last one. *)
  Fixpoint sessions (p : @mprog H) (h : H) (last : option mtree) : option (H * option mtree) :=
    match p with
    | MEnd => Some (h, last)
    | MWork w k => sessions k (w h) last
    | MScope i body k =>
        let h0 := reset_ h in
        let! b := look (save h0) h0 in
        let! x := calls (save h0) i body (fst b) in
        let! e := look (save h0) (fst x) in
        let t := MT i (subtract (snd e) (snd b)) (snd x) in
        if within (unsigned (mt_use t)) (fst e) then sessions k (fst e) (Some t) else None
    end.

  (* code that does not lower a counter, nor lets it overflow *)
  Fixpoint works_up (count : H -> Z) (p : @mprog H) : Prop :=
    match p with
    | MEnd => True
    | MWork w k => (forall h, 0 <= count h <= i64_max -> count h <= count (w h) <= i64_max) /\ works_up count k
    | MScope _ b k => works_up count b /\ works_up count k
    end.
End Calls.

Fixpoint zsum (l : list Z) : Z := match l with [] => 0 | x :: r => x + zsum r end.
(* a property of all nodes *)
Fixpoint every (P : mtree -> Prop) (t : mtree) : Prop :=
  P t /\ (fix all l := match l with [] => True | x :: r => every P x /\ all r end) (mt_subs t).

(* ------------------------------------------------------------ what was used *)

Section Use.
  Variable cd : codec.
  Variable c : sconf.
  Let li := sc_li c.

  (* The entry of a key: what storage holds or, if it has not looked yet, the ledger;
     expired temporary entries are gone, archived ones restored. *)
  Definition held (s : storage) (k : lkey) : option lentry :=
    match mget (st_map s) k with
    | Some o => o
    | None => match sc_mode c with Recording src => src k | Enforcing => None end
    end.
  Definition view (s : storage) (k : lkey) : option lentry := now li k (held s k).
  (* entries that have a lifetime, and only those, carry it *)
  Definition dated (s : storage) : Prop :=
    forall k e l, held s k = Some (e, l) -> (key_durability k <> None <-> l <> None).

  Definition len_of (k : lkey) (o : option lentry) : Z := match o with Some (e, _) => entry_len cd k e | None => 0 end.
  (* size for rent: code counts with the memory it takes *)
  Definition size_of (k : lkey) (o : option lentry) : Z :=
    match o with
    | Some (ECode w, _) => entry_len cd k (ECode w) + code_cost cd w
    | Some (e, _) => entry_len cd k e
    | None => 0
    end.
  (* accounts and trustlines are on disk, and so are archived entries *)
  Definition on_disk (k : lkey) (o : option lentry) : Prop :=
    key_durability k = None
    \/ (key_durability k = Some Persistent /\ exists e l, o = Some (e, Some l) /\ l < li_seq li).
  (* the ledger up to which it is alive already *)
  Definition paid_until (o : option lentry) : Z :=
    match o with Some (_, Some l) => Z.max l (li_seq li) | _ => li_seq li end.
  (* ledgers times bytes: growth for the time already paid, everything for the rest *)
  Definition rent_of (k : lkey) (o o' : option lentry) : Z :=
    match o' with
    | Some (_, Some l) => (paid_until o - li_seq li) * Z.max 0 (size_of k o' - size_of k o)
                          + (l - paid_until o) * size_of k o'
    | _ => 0
    end.
  Definition shortened (o o' : option lentry) : Prop :=
    match o' with Some (_, Some l) => l < paid_until o | _ => False end.

  Definition b2z (b : bool) : Z := if b then 1 else 0.
  Definition is_rw (a : access) : bool := match a with ReadWrite => true | ReadOnly => false end.
  Definition diskb (k : lkey) (o : option lentry) : bool :=
    match key_durability k with
    | None => true
    | Some Temporary => false
    | Some Persistent => match o with Some (_, Some l) => l <? li_seq li | _ => false end
    end.
  Definition has_dur (k : lkey) (d : durability) : bool :=
    match key_durability k, d with
    | Some Persistent, Persistent | Some Temporary, Temporary => true
    | _, _ => false
    end.

  (* What an invocation used of one entry: o before it, o' now, and the access. *)
  Definition use_of (k : lkey) (a : access) (o o' : option lentry) : usage :=
    let disk := diskb k o in
    let rent := rent_of k o o' in
    {| u_insns := 0; u_mem := 0;
       u_disk_n := b2z disk; u_mem_n := b2z (negb disk); u_write_n := b2z (is_rw a);
       u_disk_b := if disk then len_of k o else 0; u_write_b := if is_rw a then len_of k o' else 0;
       u_events := 0;
       u_p_rent := if has_dur k Persistent then rent else 0; u_p_bumps := b2z (has_dur k Persistent && (0 <? rent));
       u_t_rent := if has_dur k Temporary then rent else 0; u_t_bumps := b2z (has_dur k Temporary && (0 <? rent)) |}.
  Definition uadd (a b : usage) : usage :=
    {| u_insns := u_insns a + u_insns b; u_mem := u_mem a + u_mem b;
       u_disk_n := u_disk_n a + u_disk_n b; u_mem_n := u_mem_n a + u_mem_n b; u_write_n := u_write_n a + u_write_n b;
       u_disk_b := u_disk_b a + u_disk_b b; u_write_b := u_write_b a + u_write_b b; u_events := u_events a + u_events b;
       u_p_rent := u_p_rent a + u_p_rent b; u_p_bumps := u_p_bumps a + u_p_bumps b;
       u_t_rent := u_t_rent a + u_t_rent b; u_t_bumps := u_t_bumps a + u_t_bumps b |}.
  Fixpoint use_sum (before after : lkey -> option lentry) (l : list (lkey * access)) : usage :=
    match l with
    | [] => u0
    | (k, a) :: r => uadd (use_of k a (before k) (after k)) (use_sum before after r)
    end.
  (* instructions, memory, the entries of the footprint, events *)
  Definition used (init : storage) (h : mhost) : usage :=
    uadd {| u_insns := mh_insns h; u_mem := mh_mem h; u_disk_n := 0; u_mem_n := 0; u_write_n := 0; u_disk_b := 0;
            u_write_b := 0; u_events := zsum (mh_events h); u_p_rent := 0; u_p_bumps := 0; u_t_rent := 0; u_t_bumps := 0 |}
         (use_sum (get_from_map (st_map init)) (view (mh_store h)) (st_foot (mh_store h))).

  (* numbers fit their types *)
  Definition fits32 (x : Z) : Prop := 0 <= x <= i32_max.
  Definition fits64 (x : Z) : Prop := 0 <= x <= i64_max.
  Definition ufits (u : usage) : Prop :=
    fits64 (u_insns u) /\ fits64 (u_mem u) /\ fits32 (u_disk_n u) /\ fits32 (u_mem_n u) /\ fits32 (u_write_n u)
    /\ fits32 (u_disk_b u) /\ fits32 (u_write_b u) /\ fits32 (u_events u) /\ fits64 (u_p_rent u)
    /\ fits32 (u_p_bumps u) /\ fits64 (u_t_rent u) /\ fits32 (u_t_bumps u).
  Definition small_entry (k : lkey) (o : option lentry) : Prop :=
    fits32 (len_of k o) /\ fits32 (size_of k o)
    /\ match o with Some (ECode w, _) => 0 <= code_cost cd w | _ => True end
    /\ match o with Some (_, Some l) => 0 <= l <= u32_max | _ => True end.
  Definition small (init : storage) (h : mhost) : Prop :=
    Forall (fun p => small_entry (fst p) (get_from_map (st_map init) (fst p))
                     /\ small_entry (fst p) (view (mh_store h) (fst p))) (st_foot (mh_store h))
    /\ Forall fits32 (mh_events h) /\ fits64 (mh_insns h) /\ fits64 (mh_mem h).
  Definition supported (h : mhost) : Prop :=
    Forall (fun p => key_supported (fst p) = true) (st_foot (mh_store h)).
End Use.

(* ------------------------------------------------------------ what it costs *)

Section Cost.
  Variable cd : codec.
  Variable li : linfo.

  (* the entry as the network's rent computation sees it (C33, C48) *)
  Definition gone (o : option lentry) : bool :=
    match o with Some (_, Some l) => l <? li_seq li | _ => true end.
  Definition network_change (k : lkey) (o o' : option lentry) : rent_change :=
    {| e_persistent := has_dur k Persistent; e_code := is_code k;
       e_old_size := if gone o then 0 else size_of cd k o; e_new_size := size_of cd k o';
       e_old_live := if gone o then 0 else match o with Some (_, Some l) => l | _ => 0 end;
       e_new_live := match o' with Some (_, Some l) => l | _ => 0 end |}.
End Cost.
(* the network charges for this many ledgers times bytes *)
Definition ledger_bytes (e : rent_change) (cur : Z) : Z :=
  match extension_ledgers e cur with Some l => l * e_new_size e | None => 0 end
  + match prepaid_ledgers e cur, size_increase e with Some l, Some s => l * s | _, _ => 0 end.
(* bytes added to the live state *)
Definition bytes_added (e : rent_change) : Z := Z.max 0 (e_new_size e - e_old_size e).

(* the resources of a transaction with the reported ones, whose own size is not
   counted *)
Definition as_transaction (u : usage) : tx_resources :=
  {| r_instructions := u_insns u; r_disk_read_entries := u_disk_n u; r_write_entries := u_write_n u;
     r_disk_read_bytes := u_disk_b u; r_write_bytes := u_write_b u; r_events_size := u_events u; r_tx_size := 0 |}.

(* of the two durabilities *)
Definition by_dur {A} (d : durability) (p t : A) : A := match d with Persistent => p | Temporary => t end.

Section Charges.
  Variable cd : codec.
  Variable c : sconf.
  Variable rc : rent_config.
  Variable d : durability.
  Let li := sc_li c.
  Let den := DATA_SIZE_1KB_INCREMENT * by_dur d (c_persistent_denom rc) (c_temporary_denom rc).

  (* entries, before and after *)
  Definition changes := list (lkey * option lentry * option lentry).
  Definition rents (l : changes) : Z := zsum (map (fun '(k, o, o') => rent_of cd c k o o') l).
  Definition added (l : changes) : Z := zsum (map (fun '(k, o, o') => bytes_added (network_change cd li k o o')) l).
  Definition network_rent (l : changes) : Z :=
    zsum (map (fun '(k, o, o') => rent_fee_per_entry_change (network_change cd li k o o') rc (li_seq li)) l).
  (* an entry whose rent the network charges: it has a lifetime, is alive now and
     was not shortened *)
  Definition charged (k : lkey) (o o' : option lentry) : Prop :=
    small_entry cd k o /\ small_entry cd k o' /\ ~ shortened c o o'
    /\ exists e l, o' = @Some lentry (e, Some l) /\ li_seq li <= l.
  (* data entries of this durability, whose fees fit *)
  Definition charged_all (l : changes) : Prop :=
    Forall (fun '(k, o, o') => charged k o o' /\ has_dur k d = true /\ is_code k = false
      /\ (ledger_bytes (network_change cd li k o o') (li_seq li) + size_of cd k o') * c_rent_1kb rc <= i64_max - 2 * den - 2) l.
  Definition rates_ok : Prop :=
    0 <= c_rent_1kb rc /\ 1 <= by_dur d (c_persistent_denom rc) (c_temporary_denom rc) /\ den <= i64_max.
End Charges.

(* a program without metering *)
Fixpoint plain {H} (p : @mprog H) (h : H) : H :=
  match p with
  | MEnd => h
  | MWork w k => plain k (w h)
  | MScope _ b k => plain k (plain b h)
  end.
