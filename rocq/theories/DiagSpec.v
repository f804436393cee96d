(* What the stream of events should be. *)
From Coq Require Import ZArith NArith Lia String List Bool.
From Verif Require Import Prelude HeapModel CtModel BudgetModel BudgetSpec DiagModel.
Import ListNotations.
Open Scope Z_scope.

Definition is_contract (e : ievent * bool) : bool := match fst e with IContract _ => true | IDiag _ => false end.
(* contract and system events, with whether they are from a failed call *)
Definition contracts (l : list (ievent * bool)) : list (ievent * bool) := filter is_contract l.

Definition diag (id : option (list Z)) (topics args : list scval) : ievent * bool :=
  (IDiag {| de_id := id; de_topics := topics; de_args := args |}, false).
Definition failed (l : list (ievent * bool)) : list (ievent * bool) := map (fun e => (fst e, true)) l.

(* [tells c a l r]: while contract c runs, a may end with r and tells l: its logs,
   error reports, calls and returns, and its events, in order; those of a call that
   failed are marked *)
Inductive tells (c : option (list Z)) : act -> list (ievent * bool) -> res scval -> Prop :=
| T_done r : tells c (Done r) [] r
| T_work p k o l r : tells c (k o) l r -> tells c (Work p k) l r
| T_look k w x y z l r : tells c (k w x y z) l r -> tells c (Look k) l r
| T_emit s t d k l r : tells c (k (Ok tt)) l r ->
    tells c (Emit s t d k)
      ((IContract {| ce_system := s; ce_id := c; ce_topics := t; ce_data := d |}, false) :: l) r
| T_emit_refused s t d k e l r : tells c (k (Err e)) l r -> tells c (Emit s t d k) l r
| T_log m args k l r : tells c k l r ->
    tells c (Log m args k) (diag c [word "log"] (SString m :: args) :: l) r
| T_report e m args k l r : tells c k l r ->
    tells c (Report e m args k) (diag c [word "error"; e] (SString m :: args) :: l) r
| T_call_refused p id fn args body k e l r : tells c (k (Err e)) l r ->
    tells c (Call p id fn args body k) (diag c [word "fn_call"; SBytes id; SSymbol fn] args :: l) r
| T_call_ok p id fn args body k l1 v l2 r :
    tells (Some id) body l1 (Ok v) -> tells c (k (Ok v)) l2 r ->
    tells c (Call p id fn args body k)
      (diag c [word "fn_call"; SBytes id; SSymbol fn] args :: l1
       ++ diag (Some id) [word "fn_return"; SSymbol fn] [v] :: l2) r
| T_call_failed p id fn args body k l1 e l2 r :
    tells (Some id) body l1 (Err e) -> tells c (k (Err e)) l2 r ->
    tells c (Call p id fn args body k)
      (diag c [word "fn_call"; SBytes id; SSymbol fn] args :: failed l1 ++ l2) r.

(* the second is the first without some of the diagnostic events *)
Inductive misses : list (ievent * bool) -> list (ievent * bool) -> Prop :=
| M_nil : misses [] []
| M_keep e l l' : misses l l' -> misses (e :: l) (e :: l')
| M_drop d b l l' : misses l l' -> misses ((IDiag d, b) :: l) l'.

(* a shadow budget that cannot run out *)
Definition endless_dim (d : dim) : Prop := d_sh_limit d = u64_max /\ 0 <= d_sh_net d <= u64_max.
Definition endless (b : budget) : Prop := endless_dim (cpu b) /\ endless_dim (mem b).

(* two hosts that differ in diagnostics only: the level, what was suppressed, what
   was recorded, what the shadow budget is and was spent *)
Definition alike (h g : dhost) : Prop :=
  same_metered (h_b h) (h_b g) /\ contracts (h_buf h) = contracts (h_buf g) /\ h_stack h = h_stack g.
(* outside of debug mode, in a state the budget can be in *)
Definition normal (h : dhost) : Prop := ok_budget (h_b h) /\ in_shadow (h_b h) = false.

(* the external form of an event: a diagnostic's data is its only argument, or the
   vector of them *)
Definition as_xdr (e : ievent) : xevent :=
  match e with
  | IContract c => {| x_type := if ce_system c then XSystem else XContract; x_id := ce_id c;
                      x_topics := ce_topics c; x_data := ce_data c |}
  | IDiag d => {| x_type := XDiagnostic; x_id := de_id d; x_topics := de_topics d;
                  x_data := match de_args d with [] => SVoid | [a] => a | l => SVec (Some l) end |}
  end.
(* the contract events that are not from failed calls, in their external form *)
Definition emitted (l : list (ievent * bool)) : list xevent :=
  flat_map (fun e => match e with (IContract c, false) => [as_xdr (IContract c)] | _ => [] end) l.
Definition is_shown_contract (x : xevent) : bool := match x_type x with XDiagnostic => false | _ => true end.
(* any event in its external form *)
Definition shown (e : ievent * bool) : bool * xevent :=
  (negb (snd e), as_xdr (fst e)).
(* work that only a budget can refuse *)
Definition only_budget (p : prog) : Prop :=
  forall b, ok_budget b -> in_shadow b = true -> endless b -> snd (run p b) = Ok tt.
