(* Simulating transactions: soroban-simulation/src.

   Simplifications.  Errors (anyhow) are reduced to their reason.  A budget can be made
   from the network configuration.  Keys are not sorted: the order in which a footprint
   lists them is not modelled (see E2EModel).  The instructions the run was metered for
   and the size of its events and result are parameters, as is the size of the
   transaction envelope: XDR sizes come from outside the code.  Diagnostic events and
   authorization entries are omitted. *)
From Coq Require Import ZArith List Bool.
From Coq Require Import Floats.SpecFloat.
From Verif Require Import Prelude ValModel HeapModel AMap StorageModel FeesModel FrameModel E2EModel.
Import ListNotations.
Open Scope Z_scope.

(* ---------------------------------------------------------------- f64 *)

(* IEEE 754 binary64 as in Coq's standard library: 53 bits of precision, largest exponent
   1024, round to nearest even *)
Definition f64 := spec_float.
Definition f64_of_int (v : Z) : f64 := binary_normalize 53 1024 v 0 false.
Definition f64_mul : f64 -> f64 -> f64 := SFmul 53 1024.
(* f64::clamp *)
Definition f64_clamp (lo hi x : f64) : f64 :=
  let y := if SFltb x lo then lo else x in if SFltb hi y then hi else y.
(* f64::floor followed by a cast to an integer type with this range: casts saturate,
   and take NaN to 0 *)
Definition floor_as (lo hi : Z) (x : f64) : Z :=
  match x with
  | S754_nan | S754_zero _ => 0
  | S754_infinity s => if s then lo else hi
  | S754_finite s m e =>
      let n := (if s then Z.neg m else Z.pos m) in
      clamp lo hi (if 0 <=? e then n * 2 ^ e else n / 2 ^ (- e))
  end.

(* ---------------------------------------------------------------- adjustment *)

(* simulation.rs:27-30 *)
Record factor := { a_mul : f64; a_add : Z }.
(* resources.rs:35-47 *)
Definition adjust_u32 (f : factor) (v : Z) : Z :=
  if v =? 0 then 0
  else Z.max (sat_u32 (v + a_add f))
             (floor_as 0 u32_max (f64_clamp (S754_zero false) (f64_of_int u32_max) (f64_mul (f64_of_int v) (a_mul f)))).
(* resources.rs:49-61 *)
Definition adjust_i64 (f : factor) (v : Z) : Z :=
  if v =? 0 then 0
  else Z.max (sat_i64 (v + a_add f))
             (floor_as i64_min i64_max
                (f64_clamp (S754_zero false) (f64_of_int i64_max) (f64_mul (f64_of_int v) (a_mul f)))).

(* simulation.rs:34-40 *)
Record adjustment := { j_insns : factor; j_read : factor; j_write : factor; j_size : factor; j_refund : factor }.
(* simulation.rs:313-318, 321-330 *)
Definition no_adjustment : factor := {| a_mul := S754_finite false 4503599627370496 (-52); a_add := 0 |}.
Definition no_adjustments : adjustment :=
  {| j_insns := no_adjustment; j_read := no_adjustment; j_write := no_adjustment; j_size := no_adjustment;
     j_refund := no_adjustment |}.
(* simulation.rs:332-342: 1.04, 1.1 and 1.15 as f64 *)
Definition default_adjustment : adjustment :=
  {| j_insns := {| a_mul := S754_finite false 4683743612465316 (-52); a_add := 50000 |};
     j_read := no_adjustment; j_write := no_adjustment;
     j_size := {| a_mul := S754_finite false 4953959590107546 (-52); a_add := 500 |};
     j_refund := {| a_mul := S754_finite false 5179139571476070 (-52); a_add := 0 |} |}.

(* XDR SorobanResources *)
Record resources := { s_foot : lfoot; s_insns : Z; s_read : Z; s_write : Z }.
(* resources.rs:27-31 *)
Definition adjust_resources (j : adjustment) (r : resources) : resources :=
  {| s_foot := s_foot r; s_insns := adjust_u32 (j_insns j) (s_insns r);
     s_read := adjust_u32 (j_read j) (s_read r); s_write := adjust_u32 (j_write j) (s_write r) |}.

(* network_config.rs:21-34, the fee part *)
Record network := { n_fees : fee_config; n_rent : rent_config }.
(* resources.rs:64-84 *)
Definition compute_resource_fee (n : network) (li : linfo) (r : tx_resources) (rent : list rent_change)
  (j : adjustment) : Z :=
  let '(non_refundable, refundable) := compute_transaction_resource_fee r (n_fees n) in
  let rent_fee := compute_rent_fee rent (n_rent n) (li_seq li) in
  let refundable := adjust_i64 (j_refund j) (sat_i64 (refundable + rent_fee)) in
  sat_i64 (non_refundable + refundable).

(* Reasons for failure. *)
Inductive serr :=
| SPanic                   (* arithmetic overflow: overflow-checks are on, Cargo.toml:55-58 *)
| SNotExtendable           (* only entries with TTL can be extended *)
| SMissingTtl
| SExpired                 (* must be restored before it can be extended *)
| SNotRestorable           (* only persistent entries with TTL can be restored *)
| SMissingEntry
| STooLarge                (* a size beyond u32, or an envelope that cannot be encoded *)
| SMisconfigured
| SHost (e : err).
Inductive sres (A : Type) := SOk (a : A) | SErr (e : serr).
Arguments SOk {A}. Arguments SErr {A}.
Definition sbind {A B} (r : sres A) (f : A -> sres B) : sres B :=
  match r with SOk a => f a | SErr e => SErr e end.
Definition lift {A} (r : res A) : sres A := match r with Ok a => SOk a | Err e => SErr (SHost e) end.
Notation "'let!' x := r 'in' k" := (sbind r (fun x => k)) (at level 200, x pattern, k at level 200, right associativity).

(* which operation is simulated: decides the size of the envelope *)
Inductive sim_op := OpInvoke (fn : hostfn) | OpExtend (to : Z) | OpRestore.

Section Simulation.
  Variable cd : codec.
  (* resources.rs:247-306: size of the largest envelope with this operation, footprint and
     restored entries *)
  Variable envelope : sim_op -> lfoot -> list nat -> option Z.
  (* snapshot_source.rs:199-251: the account entry with its extensions filled in *)
  Variable fill : list Z -> list Z.

  (* resources.rs:98-115 *)
  Definition classic (k : lkey) : bool := match k with LKData _ _ _ | LKCode _ => false | _ => true end.
  Definition count_classic (ks : list lkey) : Z := Z.of_nat (length (filter classic ks)).
  (* resources.rs:86-134: the adjusted resources and what the fee is computed from *)
  Definition adjusted_transaction_resources (op : sim_op) (r : resources) (restored : list nat) (j : adjustment)
    (ev_size : Z) : sres (resources * tx_resources) :=
    let r' := adjust_resources j r in
    match envelope op (s_foot r') restored with
    | None => SErr STooLarge
    | Some size =>
        SOk (r', {| r_instructions := s_insns r';
                    r_disk_read_entries := count_classic (f_ro (s_foot r')) + count_classic (f_rw (s_foot r'))
                                           + Z.of_nat (length restored);
                    r_write_entries := Z.of_nat (length (f_rw (s_foot r')));
                    r_disk_read_bytes := s_read r'; r_write_bytes := s_write r';
                    r_events_size := ev_size; r_tx_size := adjust_u32 (j_size j) size |})
    end.

  (* XDR SorobanTransactionData, simulation.rs:345-361 *)
  Record txdata := { t_res : resources; t_restored : list nat; t_fee : Z }.

  (* snapshot_source.rs:119-145, 187-194: the ledger as the simulation reads it.  The cache
     does not show, as a snapshot gives the same answer every time. *)
  Definition filled (src : lkey -> option lentry) (k : lkey) : option lentry :=
    match src k with
    | Some (EAccount p, l) => Some (EAccount (fill p), l)
    | x => x
    end.

  (* the two sizes of an entry: resources.rs:167-168, 224-225 *)
  Definition sizes (k : lkey) (e : entry) : sres (Z * Z) :=
    if entry_len cd k e <=? u32_max then SOk (entry_len cd k e, entry_size_for_rent cd e (entry_len cd k e))
    else SErr STooLarge.
  Definition persistent (d : durability) : bool := match d with Persistent => true | Temporary => false end.

  (* resources.rs:144-178: the loop *)
  Fixpoint extend_loop (src : lkey -> option lentry) (seq new : Z) (ks : list lkey)
    : sres (list lkey * list rent_change) :=
    match ks with
    | [] => SOk ([], [])
    | k :: r =>
        match key_durability k with
        | None => SErr SNotExtendable
        | Some d =>
            match src k with
            | None => extend_loop src seq new r
            | Some (e, None) => SErr SMissingTtl
            | Some (e, Some l) =>
                if new <=? l then extend_loop src seq new r
                else if l <? seq then SErr SExpired
                else
                  let! s := sizes k e in
                  let! p := extend_loop src seq new r in
                  SOk (k :: fst p,
                       {| e_persistent := persistent d; e_code := is_code k; e_old_size := snd s; e_new_size := snd s;
                          e_old_live := l; e_new_live := new |} :: snd p)
            end
        end
    end.
  (* resources.rs:136-191 *)
  Definition extend_resources (src : lkey -> option lentry) (seq extend_to : Z) (ks : list lkey)
    : sres (resources * list rent_change) :=
    if seq + extend_to <=? u32_max then
      let! p := extend_loop src seq (seq + extend_to) ks in
      SOk ({| s_foot := {| f_ro := fst p; f_rw := [] |}; s_insns := 0; s_read := 0; s_write := 0 |}, snd p)
    else SErr SPanic.

  (* resources.rs:208-236: the loop; keys, bytes and rent *)
  Fixpoint restore_loop (src : lkey -> option lentry) (seq new : Z) (ks : list lkey) (bytes : Z)
    : sres (list lkey * Z * list rent_change) :=
    match ks with
    | [] => SOk ([], bytes, [])
    | k :: r =>
        match key_durability k with
        | Some Persistent =>
            match src k with
            | None => SErr SMissingEntry
            | Some (e, None) => SErr SMissingTtl
            | Some (e, Some l) =>
                if seq <=? l then restore_loop src seq new r bytes
                else
                  let! s := sizes k e in
                  let! p := restore_loop src seq new r (sat_u32 (bytes + fst s)) in
                  SOk (k :: fst (fst p), snd (fst p),
                       {| e_persistent := true; e_code := is_code k; e_old_size := 0; e_new_size := snd s;
                          e_old_live := 0; e_new_live := new |} :: snd p)
            end
        | _ => SErr SNotRestorable
        end
    end.
  (* resources.rs:193-245 *)
  Definition restore_resources (src : lkey -> option lentry) (li : linfo) (ks : list lkey)
    : sres (resources * list rent_change) :=
    match min_live_until li Persistent with
    | None => SErr SMisconfigured
    | Some new =>
        let! p := restore_loop src (li_seq li) new ks 0 in
        SOk ({| s_foot := {| f_ro := []; f_rw := fst (fst p) |}; s_insns := 0; s_read := snd (fst p);
                s_write := snd (fst p) |}, snd p)
    end.

  (* the common end of the three simulations *)
  Definition finish (n : network) (j : adjustment) (li : linfo) (op : sim_op) (r : resources) (restored : list nat)
    (rent : list rent_change) (ev_size : Z) : sres txdata :=
    let! p := adjusted_transaction_resources op r restored j ev_size in
    SOk {| t_res := fst p; t_restored := restored; t_fee := compute_resource_fee n li (snd p) rent j |}.

  (* simulation.rs:217-252 *)
  Definition simulate_extend_ttl_op (src : lkey -> option lentry) (n : network) (j : adjustment) (li : linfo)
    (ks : list lkey) (extend_to : Z) : sres txdata :=
    let! p := extend_resources (filled src) (li_seq li) extend_to ks in
    finish n j li (OpExtend extend_to) (fst p) [] (snd p) 0.
  (* simulation.rs:270-303 *)
  Definition simulate_restore_op (src : lkey -> option lentry) (n : network) (j : adjustment) (li : linfo)
    (ks : list lkey) : sres txdata :=
    let! p := restore_resources (filled src) li ks in
    finish n j li OpRestore (fst p) [] (snd p) 0.

  (* snapshot_source.rs:84-114: what a read gives and the keys restored so far *)
  Definition auto_get (src : lkey -> option lentry) (li : linfo) (mlu : Z) (restored : list lkey) (k : lkey)
    : list lkey * res (option lentry) :=
    match src k with
    | None => (restored, Ok None)
    | Some (e, l) =>
        match key_durability k with
        | None => (restored, Ok (Some (e, l)))
        | Some d =>
            match l with
            | None => (restored, Err e_st_internal)
            | Some x =>
                if x <? li_seq li then
                  match d with
                  | Temporary => (restored, Ok None)
                  | Persistent => (if key_in k restored then restored else restored ++ [k], Ok (Some (e, Some mlu)))
                  end
                else (restored, Ok (Some (e, l)))
            end
        end
    end.
  Fixpoint auto_gets (src : lkey -> option lentry) (li : linfo) (mlu : Z) (restored : list lkey) (ks : list lkey)
    : list lkey * list (res (option lentry)) :=
    match ks with
    | [] => (restored, [])
    | k :: r =>
        let '(a, v) := auto_get src li mlu restored k in
        let '(b, vs) := auto_gets src li mlu a r in (b, v :: vs)
    end.
  (* snapshot_source.rs:60-81 *)
  Definition simulate_restore_keys_op (src : lkey -> option lentry) (n : network) (j : adjustment) (li : linfo)
    (restored : list lkey) : sres (option txdata) :=
    match restored with
    | [] => SOk None
    | _ => let! t := simulate_restore_op src n j li restored in SOk (Some t)
    end.

  (* simulation.rs:363-407 *)
  Definition modified_entries (src : lkey -> option lentry) (li : linfo) (l : list change)
    : list (option entry * option entry) :=
    map (fun c =>
           (match src (ch_key c) with
            | Some (e, Some x) => if x <? li_seq li then None else Some e
            | Some (e, None) => Some e
            | None => None
            end, ch_value c))
        (filter (fun c => negb (ch_ro c)) l).

  Section InvokeSim.
    Context {P : Type}.
    Variable E : env P.
    (* simulation.rs:54-83 *)
    Record sim_result := {
      si_result : res scval;
      si_events : list event;
      si_data : option txdata;
      si_modified : list (option entry * option entry)
    }.
    (* simulation.rs:114-204; [insns]: metered by the budget, [ev_size]: events and result *)
    Definition simulate_invoke (src : lkey -> option lentry) (n : network) (j : adjustment) (li : linfo) (base : P)
      (fn : hostfn) (insns ev_size : Z) : sres sim_result :=
      match invoke_in_recording_mode E cd li base (filled src) fn with
      | Err e => SOk {| si_result := Err e; si_events := []; si_data := None; si_modified := [] |}
      | Ok rec =>
          match rc_result rec with
          | Err e => SOk {| si_result := Err e; si_events := []; si_data := None; si_modified := [] |}
          | Ok v =>
              let r := {| s_foot := rc_foot rec; s_insns := insns; s_read := rc_disk_read rec; s_write := rc_write rec |} in
              let! t := finish n j li (OpInvoke fn) r (rc_restored rec) (extract_rent_changes (rc_changes rec)) ev_size in
              SOk {| si_result := Ok v; si_events := rc_events rec; si_data := Some t;
                     si_modified := modified_entries (filled src) li (rc_changes rec) |}
          end
      end.
  End InvokeSim.
End Simulation.

(* ---------------------------------------------------------------- account extensions *)

(* XDR AccountEntry: the extensions, the number of signers, and the rest *)
Inductive ext3 := X3None | X3 (seq_ledger seq_time : Z).
Inductive ext2 := X2None | X2 (sponsored sponsoring : Z) (sponsors : list (option (list Z))) (ext : ext3).
Inductive ext1 := X1None | X1 (buying selling : Z) (ext : ext2).
Record account := { ac_rest : list Z; ac_signers : nat; ac_ext : ext1 }.

(* snapshot_source.rs:238-251 *)
Definition fill_ext_v3 (e : ext3) : ext3 := match e with X3None => X3 0 0 | _ => e end.
(* snapshot_source.rs:219-236; a list of sponsors longer than XDR allows becomes empty *)
Definition fill_ext_v2 (signers : nat) (e : ext2) : ext2 :=
  match e with
  | X2None => X2 0 0 (if Nat.leb signers 20 then repeat None signers else []) (fill_ext_v3 X3None)
  | X2 a b l x => X2 a b l (fill_ext_v3 x)
  end.
(* snapshot_source.rs:199-217 *)
Definition update_account (a : account) : account :=
  {| ac_rest := ac_rest a; ac_signers := ac_signers a;
     ac_ext := match ac_ext a with
               | X1None => X1 0 0 (fill_ext_v2 (ac_signers a) X2None)
               | X1 b s x => X1 b s (fill_ext_v2 (ac_signers a) x)
               end |}.
