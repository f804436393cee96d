(* Metering of invocations: host/invocation_metering.rs.

   Simplifications.  [None] is a panic: an arithmetic overflow (overflow checks are
   on in every profile of Cargo.toml), an exceeded limit, or an internal error of
   push and pop, which the testutils build unwraps.  The meter works with debug mode
   on, and its own charges are made in shadow mode (C29), so they are left out.
   Filling the module cache when the root invocation ends is left out.  Failing
   observations keep the partial result, as in builds other than test. *)
From Coq Require Import ZArith Lia List Bool.
From Verif Require Import Prelude ValModel ContainerModel HeapModel AMap StorageModel FeesModel FrameModel E2EModel.
Import ListNotations.
Open Scope Z_scope.

(* ---------------------------------------------------------------- resources *)

(* invocation_metering.rs:88-137 (SubInvocationResources) *)
Record usage := {
  u_insns : Z; u_mem : Z;
  u_disk_n : Z; u_mem_n : Z; u_write_n : Z;
  u_disk_b : Z; u_write_b : Z;
  u_events : Z;
  u_p_rent : Z; u_p_bumps : Z;
  u_t_rent : Z; u_t_bumps : Z
}.
Definition u0 : usage :=
  {| u_insns := 0; u_mem := 0; u_disk_n := 0; u_mem_n := 0; u_write_n := 0; u_disk_b := 0; u_write_b := 0;
     u_events := 0; u_p_rent := 0; u_p_bumps := 0; u_t_rent := 0; u_t_bumps := 0 |}.
Definition sat_i32 (x : Z) : Z := clamp i32_min i32_max x.

(* invocation_metering.rs:198-226 *)
Definition subtract (a b : usage) : usage :=
  {| u_insns := sat_i64 (u_insns a - u_insns b); u_mem := sat_i64 (u_mem a - u_mem b);
     u_disk_n := sat_i32 (u_disk_n a - u_disk_n b); u_mem_n := sat_i32 (u_mem_n a - u_mem_n b);
     u_write_n := sat_i32 (u_write_n a - u_write_n b);
     u_disk_b := sat_i32 (u_disk_b a - u_disk_b b); u_write_b := sat_i32 (u_write_b a - u_write_b b);
     u_events := sat_i32 (u_events a - u_events b);
     u_p_rent := sat_i64 (u_p_rent a - u_p_rent b); u_p_bumps := sat_i32 (u_p_bumps a - u_p_bumps b);
     u_t_rent := sat_i64 (u_t_rent a - u_t_rent b); u_t_bumps := sat_i32 (u_t_bumps a - u_t_bumps b) |}.
(* invocation_metering.rs:179-196: as InvocationResources *)
Definition unsigned (a : usage) : usage :=
  {| u_insns := u_insns a; u_mem := u_mem a;
     u_disk_n := Z.max 0 (u_disk_n a); u_mem_n := Z.max 0 (u_mem_n a); u_write_n := Z.max 0 (u_write_n a);
     u_disk_b := Z.max 0 (u_disk_b a); u_write_b := Z.max 0 (u_write_b a); u_events := Z.max 0 (u_events a);
     u_p_rent := u_p_rent a; u_p_bumps := Z.max 0 (u_p_bumps a);
     u_t_rent := u_t_rent a; u_t_bumps := Z.max 0 (u_t_bumps a) |}.

(* ---------------------------------------------------------------- observation *)

(* `as i32`, `as i64`, `as u32` *)
Definition as_i32 (x : Z) : Z := (x + 2 ^ 31) mod 2 ^ 32 - 2 ^ 31.
Definition as_i64 (x : Z) : Z := (x + 2 ^ 63) mod 2 ^ 64 - 2 ^ 63.
Definition as_u32 (x : Z) : Z := x mod 2 ^ 32.
Definition add32 (x y : Z) : option Z := chk i32_min i32_max (x + y).
Definition add64 (x y : Z) : option Z := chk i64_min i64_max (x + y).

(* storage.rs:988-996 *)
Definition is_persistent_key (k : lkey) : bool :=
  match k with LKData _ _ Persistent | LKCode _ => true | _ => false end.
(* invocation_metering.rs:975-978 *)
Definition is_classic (k : lkey) : bool := match k with LKData _ _ _ | LKCode _ => false | _ => true end.

Definition obind {A B} (o : option A) (f : A -> option B) : option B :=
  match o with Some x => f x | None => None end.
Notation "'let!' x := a 'in' b" := (obind a (fun x => b)) (at level 200, x name, right associativity).

Section Observe.
  Variable cd : codec.
  Variable c : sconf.
  Let li := sc_li c.

  (* storage.rs:739-750 *)
  Definition get_from_map (m : list (lkey * option lentry)) (k : lkey) : option lentry :=
    match mget m k with Some (Some e) => Some e | _ => None end.

  (* invocation_metering.rs:971-1004: is it a disk read, the initial live-until
     ledger, the initial size for rent and the length of the initial entry *)
  Definition initial (init : list (lkey * option lentry)) (k : lkey) : bool * Z * Z * option Z :=
    match get_from_map init k with
    | None => (is_classic k, li_seq li, 0, None)
    | Some (e, lv) =>
        let n := entry_len cd k e in
        let size := entry_size_for_rent cd e (as_u32 n) in
        match lv with
        | Some l => if li_seq li <=? l then (is_classic k, l, size, Some n)
                    else (is_persistent_key k, li_seq li, size, Some n)
        | None => (is_classic k, li_seq li, size, Some n)
        end
    end.
  (* invocation_metering.rs:1005-1017: length, size for rent, live-until ledger *)
  Definition final (k : lkey) (o : option lentry) : Z * Z * option Z :=
    match o with
    | None => (0, 0, None)
    | Some (e, lv) => let n := as_u32 (entry_len cd k e) in (n, entry_size_for_rent cd e n, lv)
    end.

  Definition add_disk_b (u : usage) (n : Z) : option usage :=
    let! x := add32 (u_disk_b u) n in
    Some {| u_insns := u_insns u; u_mem := u_mem u; u_disk_n := u_disk_n u; u_mem_n := u_mem_n u;
            u_write_n := u_write_n u; u_disk_b := x; u_write_b := u_write_b u; u_events := u_events u;
            u_p_rent := u_p_rent u; u_p_bumps := u_p_bumps u; u_t_rent := u_t_rent u; u_t_bumps := u_t_bumps u |}.
  (* invocation_metering.rs:1018-1022 *)
  Definition add_read (u : usage) (disk : bool) : option usage :=
    let! x := add32 (u_disk_n u) (if disk then 1 else 0) in
    let! y := add32 (u_mem_n u) (if disk then 0 else 1) in
    Some {| u_insns := u_insns u; u_mem := u_mem u; u_disk_n := x; u_mem_n := y;
            u_write_n := u_write_n u; u_disk_b := u_disk_b u; u_write_b := u_write_b u; u_events := u_events u;
            u_p_rent := u_p_rent u; u_p_bumps := u_p_bumps u; u_t_rent := u_t_rent u; u_t_bumps := u_t_bumps u |}.
  (* invocation_metering.rs:1023-1026 *)
  Definition add_write (u : usage) (a : access) (n : Z) : option usage :=
    match a with
    | ReadOnly => Some u
    | ReadWrite =>
        let! x := add32 (u_write_n u) 1 in
        let! y := add32 (u_write_b u) (as_i32 n) in
        Some {| u_insns := u_insns u; u_mem := u_mem u; u_disk_n := u_disk_n u; u_mem_n := u_mem_n u;
                u_write_n := x; u_disk_b := u_disk_b u; u_write_b := y; u_events := u_events u;
                u_p_rent := u_p_rent u; u_p_bumps := u_p_bumps u; u_t_rent := u_t_rent u; u_t_bumps := u_t_bumps u |}
    end.
  (* invocation_metering.rs:1037-1049 *)
  Definition add_bump (u : usage) (d : option durability) (b : Z) : option usage :=
    match d with
    | None => Some u
    | Some Temporary =>
        let! x := add64 (u_t_rent u) b in
        let! y := add32 (u_t_bumps u) 1 in
        Some {| u_insns := u_insns u; u_mem := u_mem u; u_disk_n := u_disk_n u; u_mem_n := u_mem_n u;
                u_write_n := u_write_n u; u_disk_b := u_disk_b u; u_write_b := u_write_b u; u_events := u_events u;
                u_p_rent := u_p_rent u; u_p_bumps := u_p_bumps u; u_t_rent := x; u_t_bumps := y |}
    | Some Persistent =>
        let! x := add64 (u_p_rent u) b in
        let! y := add32 (u_p_bumps u) 1 in
        Some {| u_insns := u_insns u; u_mem := u_mem u; u_disk_n := u_disk_n u; u_mem_n := u_mem_n u;
                u_write_n := u_write_n u; u_disk_b := u_disk_b u; u_write_b := u_write_b u; u_events := u_events u;
                u_p_rent := x; u_p_bumps := y; u_t_rent := u_t_rent u; u_t_bumps := u_t_bumps u |}
    end.
  (* invocation_metering.rs:1028-1036 *)
  Definition rent_ledger_bytes (init_live init_size new_live new_size : Z) : option Z :=
    let! ext := chk_u32 (new_live - init_live) in
    let delta := if init_size <? new_size then new_size - init_size else 0 in
    let! existing := chk_u32 (init_live - li_seq li) in
    let! a := chk_i64 (existing * delta) in
    let! b := chk_i64 (ext * new_size) in
    add64 a b.
  Definition add_rent (u : usage) (k : lkey) (init_live init_size : Z) (new_live : option Z) (new_size : Z) : option usage :=
    match new_live with
    | None => Some u
    | Some l =>
        let! b := rent_ledger_bytes init_live init_size l new_size in
        if 0 <? b then add_bump u (key_durability k) b else Some u
    end.

  (* invocation_metering.rs:970-1051; false: the loop ends with an error *)
  Definition observe_key (init : list (lkey * option lentry)) (s : storage) (u : usage) (k : lkey) (a : access)
    : option (storage * usage * bool) :=
    let '(disk, init_live, init_size, len) := initial init k in
    let! u1 := match len with Some n => if disk then add_disk_b u (as_i32 n) else Some u | None => Some u end in
    let '(s1, r) := try_get c s k in
    match r with
    | Err _ => Some (s1, u1, false)
    | Ok o =>
        let '(n, size, live) := final k o in
        let! u2 := add_read u1 disk in
        let! u3 := add_write u2 a n in
        let! u4 := add_rent u3 k init_live init_size live size in
        Some (s1, u4, true)
    end.
  Fixpoint observe_keys (init : list (lkey * option lentry)) (s : storage) (u : usage) (l : list (lkey * access))
    : option (storage * usage * bool) :=
    match l with
    | [] => Some (s, u, true)
    | (k, a) :: l' =>
        let! x := observe_key init s u k a in
        let '(s1, u1, ok) := x in
        if ok then observe_keys init s1 u1 l' else Some (s1, u1, false)
    end.

  (* the part of the host the meter looks at: consumed instructions and memory,
     storage, and the lengths of the encoded contract events emitted so far *)
  Record mhost := { mh_insns : Z; mh_mem : Z; mh_store : storage; mh_events : list Z }.
  Definition with_mstore (h : mhost) (s : storage) : mhost :=
    {| mh_insns := mh_insns h; mh_mem := mh_mem h; mh_store := s; mh_events := mh_events h |}.

  Fixpoint add_events (u : usage) (l : list Z) : option usage :=
    match l with
    | [] => Some u
    | n :: l' =>
        let! x := add32 (u_events u) (as_i32 n) in
        add_events {| u_insns := u_insns u; u_mem := u_mem u; u_disk_n := u_disk_n u; u_mem_n := u_mem_n u;
                      u_write_n := u_write_n u; u_disk_b := u_disk_b u; u_write_b := u_write_b u; u_events := x;
                      u_p_rent := u_p_rent u; u_p_bumps := u_p_bumps u; u_t_rent := u_t_rent u; u_t_bumps := u_t_bumps u |} l'
    end.
  (* invocation_metering.rs:937-1058; init: the storage saved when the root
     invocation began *)
  Definition observe (init : storage) (h : mhost) : option (mhost * usage) :=
    let u := {| u_insns := as_i64 (mh_insns h); u_mem := as_i64 (mh_mem h); u_disk_n := 0; u_mem_n := 0;
                u_write_n := 0; u_disk_b := 0; u_write_b := 0; u_events := 0; u_p_rent := 0; u_p_bumps := 0;
                u_t_rent := 0; u_t_bumps := 0 |} in
    let! x := observe_keys (st_map init) (mh_store h) u (st_foot (mh_store h)) in
    let '(s1, u1, ok) := x in
    let! u2 := if ok then add_events u1 (mh_events h) else Some u1 in
    Some (with_mstore h s1, u2).

  (* invocation_metering.rs:731-738 with storage.rs:860-862 *)
  Definition reset (h : mhost) : mhost :=
    {| mh_insns := 0; mh_mem := 0; mh_store := set_foot (mh_store h) []; mh_events := [] |}.
End Observe.

(* ---------------------------------------------------------------- limits *)

(* invocation_metering.rs:145-172 *)
Record limits := {
  lm_insns : Z; lm_mem : Z; lm_disk_n : Z; lm_write_n : Z; lm_entries : Z; lm_disk_b : Z; lm_write_b : Z;
  lm_events : Z; lm_key : Z; lm_data : Z; lm_code : Z
}.
(* invocation_metering.rs:379-515: nothing is exceeded; [key_len]: length of the
   encoding of a key *)
Definition within_limits (cd : codec) (key_len : lkey -> Z) (lm : limits) (u : usage) (s : storage) : bool :=
  negb (lm_insns lm <? u_insns u) && negb (lm_mem lm <? u_mem u)
  && negb (lm_entries lm <? sat_u32 (sat_u32 (u_disk_n u + u_mem_n u) + u_write_n u))
  && negb (lm_disk_n lm <? u_disk_n u) && negb (lm_disk_b lm <? u_disk_b u)
  && negb (lm_write_n lm <? u_write_n u) && negb (lm_write_b lm <? u_write_b u)
  && negb (lm_events lm <? u_events u)
  && forallb (fun p => let k := fst p in
       match k with LKData _ _ _ => negb (lm_key lm <? as_u32 (key_len k)) | _ => true end
       && match get_from_map (st_map s) k with
          | Some (EData v, _) => negb (lm_data lm <? as_u32 (entry_len cd k (EData v)))
          | Some (ECode w, _) => negb (lm_code lm <? as_u32 (entry_len cd k (ECode w)))
          | _ => true
          end) (st_foot s).

(* ---------------------------------------------------------------- the meter *)

(* invocation_metering.rs:594-606 *)
Inductive minv := InvokeContract (a : addr) (fn : list Z) | WasmUpload | CreateContract.
Definition minv_eq_dec (a b : minv) : {a = b} + {a <> b}.
Proof. decide equality; auto using addr_eq_dec, zlist_eq_dec. Defined.
(* invocation_metering.rs:231-237 *)
Inductive mtree := MT (i : minv) (u : usage) (subs : list mtree).
Definition mt_inv (t : mtree) : minv := let 'MT i _ _ := t in i.
Definition mt_use (t : mtree) : usage := let 'MT _ u _ := t in u.
Definition mt_subs (t : mtree) : list mtree := let 'MT _ _ l := t in l.

(* .last_mut() *)
Fixpoint at_last {A} (f : A -> option A) (l : list A) : option (list A) :=
  match l with
  | [] => None
  | [x] => let! y := f x in Some [y]
  | x :: l' => let! r := at_last f l' in Some (x :: r)
  end.
(* invocation_metering.rs:757-768, 809-820: the node n levels down *)
Fixpoint at_depth (n : nat) (f : mtree -> option mtree) (t : mtree) : option mtree :=
  match n with
  | O => f t
  | S n' => let! l := at_last (at_depth n' f) (mt_subs t) in Some (MT (mt_inv t) (mt_use t) l)
  end.
Fixpoint last_node (n : nat) (t : mtree) : option mtree :=
  match n with
  | O => Some t
  | S n' => match rev (mt_subs t) with x :: _ => last_node n' x | [] => None end
  end.

Section Meter.
  Context {H S : Type}.
  Variable reset_ : H -> H.
  Variable save : H -> S.
  Variable observe_ : S -> H -> option (H * usage).
  (* the limits, if any: invocation_metering.rs:844-860 *)
  Variable within : usage -> H -> bool.

  (* invocation_metering.rs:581-590 *)
  Record meter := { mt_on : bool; mt_depth : nat; mt_snap : option S; mt_report : option mtree }.

  (* invocation_metering.rs:723-795; true: a scope was made *)
  Definition push (m : meter) (h : H) (i : minv) : option (meter * H * bool) :=
    if negb (mt_on m) then Some (m, h, false)
    else
      match mt_depth m with
      | O =>
          let h1 := reset_ h in
          let sn := save h1 in
          let! x := observe_ sn h1 in
          Some ({| mt_on := true; mt_depth := 1; mt_snap := Some sn; mt_report := Some (MT i (snd x) []) |}, fst x, true)
      | Datatypes.S d =>
          let! t := mt_report m in
          let! sn := mt_snap m in
          let! p := last_node d t in
          if minv_eq_dec (mt_inv p) i then Some (m, h, false)
          else
            match i with
            | InvokeContract _ _ =>
                let! x := observe_ sn h in
                let! t' := at_depth d (fun n => Some (MT (mt_inv n) (mt_use n) (mt_subs n ++ [MT i (snd x) []]))) t in
                Some ({| mt_on := true; mt_depth := Datatypes.S (mt_depth m); mt_snap := Some sn; mt_report := Some t' |}, fst x, true)
            | _ => Some (m, h, false)
            end
      end.
  (* invocation_metering.rs:797-865 *)
  Definition pop (m : meter) (h : H) : option (meter * H) :=
    match mt_depth m with
    | O => Some (m, h)
    | Datatypes.S d =>
        let! t := mt_report m in
        let! sn := mt_snap m in
        let! x := observe_ sn h in
        let! t' := at_depth d (fun n => Some (MT (mt_inv n) (subtract (snd x) (mt_use n)) (mt_subs n))) t in
        let m' := {| mt_on := mt_on m; mt_depth := d; mt_snap := Some sn; mt_report := Some t' |} in
        if Nat.eqb d 0 then if within (unsigned (mt_use t')) (fst x) then Some (m', fst x) else None
        else Some (m', fst x)
    end.

  (* Code between entry points, and entry points: a scope lasts until its function
     returns, whether it fails or not (invocation_metering.rs:696-707, 867-896). *)
  Inductive mprog :=
  | MEnd
  | MWork (w : H -> H) (k : mprog)
  | MScope (i : minv) (body k : mprog).
  Fixpoint run (m : meter) (h : H) (p : mprog) : option (meter * H) :=
    match p with
    | MEnd => Some (m, h)
    | MWork w k => run m (w h) k
    | MScope i body k =>
        let! x := push m h i in
        let '(m1, h1, scoped) := x in
        let! y := run m1 h1 body in
        let! z := if scoped then pop (fst y) (snd y) else Some y in
        run (fst z) (snd z) k
    end.
End Meter.

(* ---------------------------------------------------------------- fees *)

(* invocation_metering.rs:247-268 *)
Record estimate := {
  es_total : Z; es_insns : Z; es_disk_n : Z; es_write_n : Z; es_disk_b : Z; es_write_b : Z; es_events : Z;
  es_p_rent : Z; es_t_rent : Z
}.
(* invocation_metering.rs:287-373 *)
Definition ttl_writes (fc : fee_config) (bumps : Z) : Z :=
  sat_i64 (sat_i64 (f_write_entry fc * bumps)
           + compute_fee_per_increment (sat_i64 (TTL_ENTRY_SIZE * bumps)) (f_write_1kb fc) DATA_SIZE_1KB_INCREMENT).
Definition rent_part (fc : fee_config) (bytes rate denom bumps : Z) : Z :=
  sat_i64 (compute_fee_per_increment bytes rate (sat_i64 (DATA_SIZE_1KB_INCREMENT * denom)) + ttl_writes fc bumps).
Definition estimate_fees (u : usage) (fc : fee_config) (rent_1kb p_denom t_denom : Z) : estimate :=
  let insns := compute_fee_per_increment (u_insns u) (f_instruction_increment fc) INSTRUCTIONS_INCREMENT in
  let disk_n := sat_i64 (f_disk_read_entry fc * sat_u32 (u_disk_n u + u_write_n u)) in
  let write_n := sat_i64 (f_write_entry fc * u_write_n u) in
  let disk_b := compute_fee_per_increment (u_disk_b u) (f_disk_read_1kb fc) DATA_SIZE_1KB_INCREMENT in
  let write_b := compute_fee_per_increment (u_write_b u) (f_write_1kb fc) DATA_SIZE_1KB_INCREMENT in
  let events := compute_fee_per_increment (u_events u) (f_event_1kb fc) DATA_SIZE_1KB_INCREMENT in
  let p_rent := rent_part fc (u_p_rent u) rent_1kb p_denom (u_p_bumps u) in
  let t_rent := rent_part fc (u_t_rent u) rent_1kb t_denom (u_t_bumps u) in
  {| es_total := sat_i64 (sat_i64 (sat_i64 (sat_i64 (sat_i64 (sat_i64 (sat_i64 (insns + disk_n) + write_n)
                   + disk_b) + write_b) + events) + p_rent) + t_rent);
     es_insns := insns; es_disk_n := disk_n; es_write_n := write_n; es_disk_b := disk_b; es_write_b := write_b;
     es_events := events; es_p_rent := p_rent; es_t_rent := t_rent |}.
(* invocation_metering.rs:531-572 *)
Inductive etree := ET (i : minv) (e : estimate) (subs : list etree).
Fixpoint estimate_tree (t : mtree) (fc : fee_config) (rent_1kb p_denom t_denom : Z) : etree :=
  let 'MT i u l := t in
  ET i (estimate_fees (unsigned u) fc rent_1kb p_denom t_denom)
     (map (fun x => estimate_tree x fc rent_1kb p_denom t_denom) l).
