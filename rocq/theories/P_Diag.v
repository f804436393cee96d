(* C81: diagnostics cannot be noticed, and tell the tree of calls. *)
From Coq Require Import ZArith NArith Lia String List Bool.
From Verif Require Import Prelude HeapModel CtModel BudgetModel BudgetSpec BudgetProofs BudgetProofs2 P_Budget
  DiagModel DiagSpec DiagProofs DiagProofs2 DiagProofs3.
Import ListNotations.
Open Scope Z_scope.

(* The same run on a host that differs in its diagnostics only - level, shadow
   limits, what was recorded before: the same result and contract events, and the
   same budget except for its shadow counters. *)
Theorem C81_diagnostics_are_invisible :
  forall conv xconv wr a h g, normal h -> alike h g ->
  let x := invoke conv xconv wr a h in let y := invoke conv xconv wr a g in
  snd x = snd y /\ same_metered (h_b (fst (fst x))) (h_b (fst (fst y))).
Proof.
  intros conv xconv wr a h g N A. unfold invoke. cbv zeta.
  destruct (exec_alike a h g N A) as (A1 & N1 & R).
  destruct (exec a h) as [h1 r], (exec a g) as [g1 r2]. cbn [fst snd] in *. subst r2.
  exact (finish_alike conv xconv wr h1 g1 r N1 A1).
Qed.

Lemma emitted_misses l l' : misses l l' -> emitted l' = emitted l.
Proof.
  induction 1 as [|[[c|d] [|]] l l' M IH|d b l l' M IH]; [reflexivity|exact IH| |exact IH|exact IH|].
  - cbn. f_equal. exact IH.
  - exact IH.
Qed.
Lemma shown_misses l l' : misses l l' -> contracts l' = contracts l.
Proof.
  induction 1 as [|[[c|d] b] l l' M IH|d b l l' M IH]; [reflexivity| |exact IH|exact IH].
  cbn. f_equal. exact IH.
Qed.
Lemma shown_of_contracts l : map (fun e => (negb (snd e), fst e)) (shown_of l) = map shown (contracts l).
Proof. induction l as [|[[c|d] b] l IH]; [reflexivity| |exact IH]. cbn. f_equal. exact IH. Qed.

(* What comes out of a run that starts with no events.  There is a story l of it -
   its events, logs, error reports, calls and returns in the order they happened,
   those of failed calls marked - such that: the contract events given out are those
   of l that are not marked; without debugging no diagnostics are given out; with it
   they hold the events of l in order with their marks, and nothing but diagnostic
   events besides; and when the shadow budget does not run out they are all of l. *)
Theorem C81_diagnostics_tell_the_calls :
  forall conv xconv wr a h, normal h -> h_buf h = [] ->
  exists l r, tells (current h) a l r
  /\ (forall v ce, snd (invoke conv xconv wr a h) = Ok (v, ce) -> r = Ok v /\ ce = emitted l)
  /\ (h_debug h = false -> snd (fst (invoke conv xconv wr a h)) = [])
  /\ (forall dg, snd (fst (invoke conv xconv wr a h)) = dg -> h_debug h = true ->
        (dg = [] /\ exists e, snd (invoke conv xconv wr a h) = Err e)
        \/ (filter (fun e => is_shown_contract (snd e)) dg = map shown (contracts l)
            /\ (h_quiet h = false -> endless (h_b h) -> (forall v, only_budget (conv v)) -> dg = map shown l))).
Proof.
  intros conv xconv wr a h N B. destruct (exec_tells a h N) as (l & T & (N1 & (S1 & D1 & Q1) & _ & E1 & l' & B1 & M & F & Z)).
  exists l, (snd (exec a h)). split; [exact T|]. unfold invoke.
  destruct (exec a h) as [h1 r]. cbn [fst snd] in *. rewrite B in B1. cbn [app] in B1.
  destruct (finish_diagnostics conv xconv wr h1 r N1) as [G1 G2].
  split; [|split].
  - intros v ce O. destruct (finish conv xconv wr h1 r) as [[h2 dg] o] eqn:Ef. cbn [snd] in O. subst o.
    destruct (finish_gives conv xconv wr h1 r h2 dg v ce N1 Ef) as [R ->]. split; [exact R|].
    rewrite B1. apply emitted_misses. exact M.
  - intros D. apply G1. congruence.
  - intros dg Ed D. subst dg.
    assert (Dh1 : h_debug h1 = true) by congruence.
    destruct (G2 Dh1) as [[Z1 [e Ze]]|Z1].
    + left. split; [exact Z1|]. exists e. unfold finish. destruct (externalize conv xconv h1) as [h2 [evs|e2]]; [discriminate|].
      cbn [snd] in *. congruence.
    + destruct (externalize conv xconv h1) as [h2 [evs|e2]] eqn:Ex.
      2:{ left. unfold finish. rewrite Ex. cbn [fst snd]. split; [reflexivity|]. exists e2. reflexivity. }
      right. rewrite shown_of_contracts, B1, (shown_misses _ _ M) in Z1. split; [exact Z1|].
      intros Q E C. rewrite <- (F D Q E), <- B1.
      destruct (finish_all conv xconv wr C h1 r N1 Dh1 (E1 E)) as [X|[X [e Y]]]; [exact X|].
      (* the events were taken out: the list is as long as the buffer *)
      unfold finish in X |- *. rewrite Ex in X |- *. destruct (externalize_events conv xconv h1 h2 evs N1 Ex) as (_ & (_ & Dx & _) & _).
      pose proof (externalize_all conv xconv C (h_buf h1) (set_out h1 []) N1 Dh1 (E1 E)) as A.
      unfold externalize in Ex. destruct (externalize_from conv xconv (h_buf h1) (set_out h1 [])) as [h3 [u|e3]]; cbn [rmap] in Ex; [|discriminate].
      injection Ex as <- <-. destruct u. specialize (A eq_refl). cbn [fst h_out set_out app] in A.
      assert (K : extract_diagnostic_events (h_out h3) = map shown (h_buf h1)).
      { unfold extract_diagnostic_events. rewrite A, map_map. apply map_ext. intros [[c|d] b]; reflexivity. }
      destruct r as [v|e4]; [|cbn [fst snd]; rewrite Dx, Dh1; exact K].
      destruct (encode_contract_events wr (h_out h3) h3). cbn [fst snd]. rewrite Dx, Dh1. exact K.
Qed.

(* A contract that logs, emits, calls another that emits and fails, and emits again. *)
Definition roomy (d : dim) : dim :=
  {| d_models := d_models d; d_limit := d_limit d; d_net := d_net d; d_peak := d_peak d;
     d_sh_limit := u64_max; d_sh_net := 0 |}.
Definition ex_roomy : budget :=
  {| cpu := roomy (cpu ex_budget); mem := roomy (mem ex_budget); trackers := trackers ex_budget;
     meter_count := meter_count ex_budget; in_shadow := in_shadow ex_budget; depth := depth ex_budget;
     frames := frames ex_budget |}.
Definition ex_host (b : budget) (debug : bool) : dhost :=
  {| h_b := b; h_buf := []; h_stack := []; h_debug := debug; h_quiet := false; h_out := [] |}.
Definition ex_inner : act :=
  Emit false [word "inner"] SVoid (fun _ => Report SVoid (lit "no") [] (Done (Err (EContract 7)))).
Definition ex_act : act :=
  Call (Ret (Ok tt)) [1] (lit "f") [SVoid]
    (Log (lit "hi") [] (Emit false [word "a"] SVoid (fun _ =>
       Call (Ret (Ok tt)) [2] (lit "g") [] ex_inner (fun _ =>
         Emit false [word "b"] SVoid (fun _ => Done (Ok (SU32 5)))))))
    Done.
Definition ex_run b d := invoke (fun _ => Ret (Ok tt)) (fun _ => Ret (Ok tt)) (fun _ => Ret (Ok tt)) ex_act (ex_host b d).
Definition ex_event id t := {| x_type := XContract; x_id := Some [id]; x_topics := [word t]; x_data := SVoid |}.

Example C81_hyp :
  normal (ex_host ex_roomy true) /\ alike (ex_host ex_roomy true) (ex_host ex_budget false)
  /\ endless (h_b (ex_host ex_roomy true)) /\ (forall v : scval, only_budget (Ret (Ok tt)))
  /\ h_b (fst (fst (ex_run ex_roomy true))) <> h_b (fst (fst (ex_run ex_roomy false)))
  /\ snd (ex_run ex_roomy true) = Ok (SU32 5, [ex_event 1 "a"; ex_event 1 "b"])
  /\ snd (ex_run ex_budget false) = Ok (SU32 5, [ex_event 1 "a"; ex_event 1 "b"])
  /\ map (fun e => (fst e, hd SVoid (x_topics (snd e)))) (snd (fst (ex_run ex_roomy true)))
     = [(true, word "fn_call"); (true, word "log"); (true, word "a"); (true, word "fn_call"); (false, word "inner");
        (false, word "error"); (true, word "b"); (true, word "fn_return")]
  /\ snd (fst (ex_run ex_budget false)) = [].
Proof.
  assert (OK := proj1 (fresh_ok _ ex_fresh)).
  assert (K : same_metered ex_budget ex_roomy) by (repeat split; reflexivity).
  split; [split; [exact (sm_ok _ _ OK K)|reflexivity]|].
  split; [split; [apply sm_sym; exact K|split; reflexivity]|].
  split; [repeat split; vm_compute; discriminate|].
  split; [intros v b _ _ _; reflexivity|].
  split; [intros E; apply (f_equal (fun b => d_sh_net (mem b))) in E; revert E; vm_compute; discriminate|].
  repeat split; vm_compute; reflexivity.
Qed.

Print Assumptions C81_diagnostics_are_invisible.
Print Assumptions C81_diagnostics_tell_the_calls.
