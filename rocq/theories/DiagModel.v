(* Diagnostics: events/internal.rs, events/diagnostic.rs, with_debug_mode in
   host.rs, the diagnostics of calls in host/frame.rs, and what e2e_invoke.rs gives
   out of the events.

   The budget is that of BudgetModel.  Values in events are XDR values; turning the
   host's values into them is work given by [conv] (one argument of a diagnostic)
   and [xconv] (a contract event), which may fail; writing XDR is [wr].
   Not modelled: objects made in debug mode by error reports (only the numbering of
   the host's own table depends on them), tracing, the test-only DebugInfo. *)
From Coq Require Import ZArith NArith Lia String List Bool.
From Verif Require Import Prelude HeapModel CtModel BudgetModel.
Import ListNotations.
Open Scope Z_scope.

(* events/internal.rs:16-21 *)
Record cevent := { ce_system : bool; ce_id : option (list Z); ce_topics : list scval; ce_data : scval }.
(* events/internal.rs:59-63 *)
Record devent := { de_id : option (list Z); de_topics : list scval; de_args : list scval }.
(* events/internal.rs:155-158; the flag is EventError, true for FromFailedCall *)
Inductive ievent := IContract (c : cevent) | IDiag (d : devent).

(* xdr::ContractEvent and events/mod.rs:19-23 *)
Inductive xtype := XSystem | XContract | XDiagnostic.
Record xevent := { x_type : xtype; x_id : option (list Z); x_topics : list scval; x_data : scval }.

Record dhost := {
  h_b : budget;
  h_buf : list (ievent * bool);
  h_stack : list (list Z);              (* running contracts, innermost first *)
  h_debug : bool;                       (* DiagnosticLevel::Debug *)
  h_quiet : bool;                       (* suppress_diagnostic_events *)
  h_out : list (xevent * bool)          (* the vector externalize fills *)
}.
Definition set_b (h : dhost) b := {| h_b := b; h_buf := h_buf h; h_stack := h_stack h;
  h_debug := h_debug h; h_quiet := h_quiet h; h_out := h_out h |}.
Definition set_buf (h : dhost) l := {| h_b := h_b h; h_buf := l; h_stack := h_stack h;
  h_debug := h_debug h; h_quiet := h_quiet h; h_out := h_out h |}.
Definition set_stack (h : dhost) s := {| h_b := h_b h; h_buf := h_buf h; h_stack := s;
  h_debug := h_debug h; h_quiet := h_quiet h; h_out := h_out h |}.
Definition set_out (h : dhost) l := {| h_b := h_b h; h_buf := h_buf h; h_stack := h_stack h;
  h_debug := h_debug h; h_quiet := h_quiet h; h_out := l |}.

(* host.rs:695-725 with_debug_mode with budget.rs:1343-1365 with_shadow_mode: the
   result of f is dropped *)
Definition debug (h : dhost) (f : dhost -> dhost * res unit) : dhost :=
  if h_debug h then
    let prev := in_shadow (h_b h) in
    let h1 := set_b h (set_shadow (h_b h) true) in
    let h2 := match check_limit (cpu (h_b h1)) true, check_limit (mem (h_b h1)) true with
              | Ok _, Ok _ => fst (f h1)
              | _, _ => h1
              end in
    set_b h2 (set_shadow (h_b h2) prev)
  else h.

(* metered work *)
Definition work (h : dhost) (p : prog) : dhost * res unit :=
  let '(b, _, r) := run p (h_b h) in (set_b h b, r).
Definition andthen (x : dhost * res unit) (f : dhost -> dhost * res unit) : dhost * res unit :=
  match x with (h, Ok _) => f h | (h, Err e) => (h, Err e) end.

(* ContractCostType::MemCpy *)
Definition MemCpy : nat := 2.
Definition bytes_of (n : nat) (size : N) : N := N.min (2 ^ 64 - 1) (N.of_nat n * size).
Definition and_ (r : res unit) (p : prog) : prog := match r with Ok _ => p | Err e => Ret (Err e) end.
(* metered_clone.rs:77-94 charge_heap_alloc, 114-121 charge_bulk_init_cpy of a Vec *)
Definition heap_alloc (n : nat) (size : N) : prog := Charge MemAlloc 1 (Some (bytes_of n size)) Ret.
Definition bulk_init (n : nat) (size : N) : prog :=
  Charge MemCpy 1 (Some 24%N) (fun r => and_ r
    (Charge MemAlloc 1 (Some (bytes_of n size)) (fun r => and_ r
      (Charge MemCpy 1 (Some (bytes_of n size)) Ret)))).

(* declared_size.rs *)
Definition size_recorded : N := 41.
Definition size_shown : N := 168.
Definition size_arg : N := 96.
Definition size_diag : N := 88.

(* events/internal.rs:174-193 record *)
Definition push_event (h : dhost) (e : ievent) : dhost * res unit :=
  andthen (work h (bulk_init 1 size_recorded)) (fun h => (set_buf h (h_buf h ++ [(e, false)]), Ok tt)).
Definition record (h : dhost) (e : ievent) : dhost * res unit :=
  match e with
  | IContract _ => push_event h e
  | IDiag _ => (debug h (fun h => push_event h e), Ok tt)
  end.

(* events/internal.rs:195-206 rollback *)
Definition mark_failed (l : list (ievent * bool)) : list (ievent * bool) := map (fun e => (fst e, true)) l.
Definition rollback (n : nat) (h : dhost) : dhost :=
  set_buf h (firstn n (h_buf h) ++ mark_failed (skipn n (h_buf h))).

(* frame.rs:646-656 get_current_contract_id_opt_internal *)
Definition current (h : dhost) : option (list Z) := hd_error (h_stack h).

(* events/diagnostic.rs:21-44 *)
Definition record_diag (id : option (list Z)) (topics args : list scval) (h : dhost) : dhost :=
  debug h (fun h =>
    if h_quiet h then (h, Ok tt)
    else andthen (work h (heap_alloc 1 size_diag))
           (fun h => record h (IDiag {| de_id := id; de_topics := topics; de_args := args |}))).

Definition word (s : string) : scval := SSymbol (lit s).
Arguments word s%string_scope.

(* events/diagnostic.rs:46-60 *)
Definition log_diag (msg : list Z) (args : list scval) (h : dhost) : dhost :=
  debug h (fun h =>
    let id := current h in
    andthen (work h (bulk_init 1 size_arg)) (fun h =>
    andthen (work h (bulk_init (length msg) 1)) (fun h =>
    andthen (work h (bulk_init (1 + length args) size_arg)) (fun h =>
    (record_diag id [word "log"] (SString msg :: args) h, Ok tt))))).

(* events/diagnostic.rs:62-102: the buffer is borrowed by the caller *)
Definition err_diag (error : scval) (msg : list Z) (args : list scval) (h : dhost) : dhost :=
  debug h (fun h =>
    if h_quiet h then (h, Ok tt) else
    let id := current h in
    andthen (work h (bulk_init 2 size_arg)) (fun h =>
    andthen (work h (bulk_init (length msg) 1)) (fun h =>
    andthen (work h (bulk_init (1 + length args) size_arg)) (fun h =>
    andthen (work h (heap_alloc 1 size_diag)) (fun h =>
    record h (IDiag {| de_id := id; de_topics := [word "error"; error]; de_args := SString msg :: args |})))))).

(* events/diagnostic.rs:108-130 *)
Definition fn_call_diag (callee fn : list Z) (args : list scval) (h : dhost) : dhost :=
  debug h (fun h =>
    let id := current h in
    andthen (work h (bulk_init 3 size_arg)) (fun h =>
    andthen (work h (bulk_init (length callee) 1)) (fun h =>
    andthen (work h (bulk_init (length args) size_arg)) (fun h =>
    (record_diag id [word "fn_call"; SBytes callee; SSymbol fn] args h, Ok tt))))).

(* events/diagnostic.rs:134-145 *)
Definition fn_return_diag (callee fn : list Z) (v : scval) (h : dhost) : dhost :=
  debug h (fun h =>
    andthen (work h (bulk_init 2 size_arg)) (fun h =>
    andthen (work h (bulk_init 1 size_arg)) (fun h =>
    andthen (work h (Charge MemCpy 1 (Some 32%N) Ret)) (fun h =>
    (record_diag (Some callee) [word "fn_return"; SSymbol fn] [v] h, Ok tt))))).

(* What the host and the contracts it runs do, as far as the budget and the events
   are concerned; everything that has a result may be reacted to. *)
Inductive act :=
| Done (r : res scval)
| Work (p : prog) (k : res unit -> act)
| Look (k : Z -> Z -> Z -> Z -> act)
| Emit (system : bool) (topics : list scval) (data : scval) (k : res unit -> act)
| Log (msg : list Z) (args : list scval) (k : act)
| Report (error : scval) (msg : list Z) (args : list scval) (k : act)
| Call (pushing : prog) (id fn : list Z) (args : list scval) (body : act) (k : res scval -> act).

(* Emit: events/mod.rs:258-272; Look: budget.rs:1410-1436; Report: host/error.rs:282-302;
   Call: frame.rs:1184-1195 with push_context (193-247), pop_context (253-289) and
   with_frame (466-641): a failing body rolls back *)
Fixpoint exec (a : act) (h : dhost) : dhost * res scval :=
  match a with
  | Done r => (h, r)
  | Work p k => let (h, r) := work h p in exec (k r) h
  | Look k =>
      let b := h_b h in
      exec (k (d_net (cpu b)) (d_peak (mem b)) (get_remaining (cpu b)) (get_remaining (mem b))) h
  | Emit s topics data k =>
      let (h, r) := record h (IContract {| ce_system := s; ce_id := current h;
                                           ce_topics := topics; ce_data := data |}) in
      exec (k r) h
  | Log msg args k => exec k (log_diag msg args h)
  | Report e msg args k => exec k (err_diag e msg args h)
  | Call pushing id fn args body k =>
      let h := fn_call_diag id fn args h in
      match work h pushing with
      | (h, Err e) => exec (k (Err e)) h
      | (h, Ok _) =>
          let mark := length (h_buf h) in
          let st := h_stack h in
          let (h1, r) := exec body (set_stack (set_b h (set_frames (h_b h) (0 :: frames (h_b h)))) (id :: st)) in
          let h2 := match r with Ok _ => h1 | Err _ => rollback mark h1 end in
          let h3 := set_stack (set_b h2 (pop_frame (h_b h2))) st in
          let h4 := match r with Ok v => fn_return_diag id fn v h3 | Err _ => h3 end in
          exec (k r) h4
      end
  end.

Section Out.
  Variable conv : scval -> prog.
  Variable xconv : cevent -> prog.
  Variable wr : xevent -> prog.

  (* events/internal.rs:25-39 *)
  Definition show_contract (c : cevent) : xevent :=
    {| x_type := if ce_system c then XSystem else XContract; x_id := ce_id c;
       x_topics := ce_topics c; x_data := ce_data c |}.
  (* events/internal.rs:135-149 *)
  Definition show_diag (d : devent) : xevent :=
    {| x_type := XDiagnostic; x_id := de_id d; x_topics := de_topics d;
       x_data := match de_args d with
                 | [] => SVoid
                 | [a] => a
                 | l => SVec (Some l)
                 end |}.

  (* events/internal.rs:106-122; outside debug mode it would fail *)
  Fixpoint conv_all (l : list scval) (h : dhost) : dhost * res unit :=
    match l with
    | [] => (h, Ok tt)
    | a :: l => andthen (work h (conv a)) (conv_all l)
    end.
  Definition externalize_args (l : list scval) (h : dhost) : dhost * res unit :=
    if in_shadow (h_b h) then andthen (work h (bulk_init (length l) size_arg)) (conv_all l)
    else (h, Err (ESys TEvents CInternalError)).
  (* events/internal.rs:124-151 *)
  Definition diag_to_xdr (d : devent) (h : dhost) : dhost * res unit :=
    if in_shadow (h_b h) then
      andthen (externalize_args (de_topics d) h) (externalize_args (de_args d))
    else (h, Err (ESys TEvents CInternalError)).

  (* events/internal.rs:223-236 *)
  Definition push_shown (x : xevent) (failed : bool) (h : dhost) : dhost * res unit :=
    andthen (work h (bulk_init 1 size_shown)) (fun h => (set_out h (h_out h ++ [(x, failed)]), Ok tt)).

  (* events/internal.rs:211-249 *)
  Fixpoint externalize_from (l : list (ievent * bool)) (h : dhost) : dhost * res unit :=
    match l with
    | [] => (h, Ok tt)
    | (IContract c, st) :: l =>
        andthen (andthen (work h (xconv c)) (push_shown (show_contract c) st)) (externalize_from l)
    | (IDiag d, st) :: l =>
        externalize_from l (debug h (fun h => andthen (diag_to_xdr d h) (push_shown (show_diag d) st)))
    end.
  Definition externalize (h : dhost) : dhost * res (list (xevent * bool)) :=
    let (h1, r) := externalize_from (h_buf h) (set_out h []) in
    (h1, rmap (fun _ => h_out h1) r).

  (* e2e_invoke.rs:1007-1022; the bytes are those of the events given *)
  Definition counts (e : xevent * bool) : bool :=
    negb (snd e) && match x_type (fst e) with XDiagnostic => false | _ => true end.
  Fixpoint write_all (l : list xevent) (h : dhost) : dhost * res unit :=
    match l with
    | [] => (h, Ok tt)
    | x :: l => andthen (work h (wr x)) (write_all l)
    end.
  Definition encode_contract_events (evs : list (xevent * bool)) (h : dhost) : dhost * res (list xevent) :=
    let ce := map fst (filter counts evs) in
    let (h, r) := andthen (write_all ce h) (fun h => work h (bulk_init (length ce) 24)) in
    (h, rmap (fun _ => ce) r).

  (* e2e_invoke.rs:1024-1033: in_successful_contract_call and the event *)
  Definition extract_diagnostic_events (evs : list (xevent * bool)) : list (bool * xevent) :=
    map (fun e => (negb (snd e), fst e)) evs.

  (* e2e_invoke.rs:545-570: what invoke_host_function gives out after a run with
     result r: diagnostics, and the value with the events.  The encoding of the
     result and of the ledger changes in between is other work (Work). *)
  Definition finish (h : dhost) (r : res scval) : dhost * list (bool * xevent) * res (scval * list xevent) :=
    let (h, x) := externalize h in
    match x with
    | Err e => (h, [], Err e)
    | Ok evs =>
        let dg := if h_debug h then extract_diagnostic_events evs else [] in
        match r with
        | Err e => (h, dg, Err e)
        | Ok v => let (h, ce) := encode_contract_events evs h in (h, dg, rmap (fun ce => (v, ce)) ce)
        end
    end.

  (* e2e_invoke.rs:430-570 *)
  Definition invoke (a : act) (h : dhost) : dhost * list (bool * xevent) * res (scval * list xevent) :=
    let (h, r) := exec a h in finish h r.
End Out.
