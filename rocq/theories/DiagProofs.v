(* Budget facts for diagnostics: endless shadow budgets, free work. *)
From Coq Require Import ZArith NArith Lia String List Bool.
From Verif Require Import Prelude HeapModel CtModel BudgetModel BudgetSpec BudgetProofs BudgetProofs2 DiagModel DiagSpec.
Import ListNotations.
Open Scope Z_scope.
Ltac Zify.zify_post_hook ::= idtac.

Lemma sat64_range x : 0 <= sat_u64 x <= u64_max.
Proof. apply sat_range. Qed.

Lemma dim_charge_endless d ty it i sh d' a :
  dim_charge d ty it i sh = Ok (d', a) -> endless_dim d -> endless_dim d'.
Proof.
  unfold dim_charge. destruct (get_cost_model d ty) as [m|e]; cbn [rbind]; [|discriminate].
  intros H [L N]. injection H as <- <-. destruct sh; split; cbn [d_sh_limit d_sh_net]; auto using sat64_range.
Qed.

Lemma charge_endless b ty it i : endless b -> endless (fst (charge b ty it i)).
Proof.
  intros [C M]. unfold charge. destruct (nth_error (trackers b) ty); [|split; assumption].
  match goal with |- context [match ?x with Ok _ => _ | Err _ => _ end] => destruct x end; [|split; assumption].
  destruct (dim_charge (cpu b) ty it i (in_shadow b)) as [[c ca]|e] eqn:Ec; [|split; assumption].
  pose proof (dim_charge_endless _ _ _ _ _ _ _ Ec C) as C'.
  destruct (check_limit c (in_shadow b)); [|split; assumption].
  destruct (dim_charge (mem b) ty it i (in_shadow b)) as [[m ma]|e] eqn:Em; [|split; assumption].
  pose proof (dim_charge_endless _ _ _ _ _ _ _ Em M) as M'. split; assumption.
Qed.

Lemma check_endless d : endless_dim d -> check_limit d true = Ok tt.
Proof.
  intros [L N]. unfold check_limit. rewrite L. destruct (Z.ltb_spec u64_max (d_sh_net d)); [lia|reflexivity].
Qed.

Lemma charge_free b ty it i : ok_budget b -> in_shadow b = true -> endless b -> (ty < n_cost_types)%nat ->
  snd (charge b ty it i) = Ok tt.
Proof.
  intros (HC & HM & HT & _) S [C M] L. unfold charge. rewrite S.
  destruct (nth_error (trackers b) ty) as [t|] eqn:Et; [|apply nth_error_None in Et; lia].
  destruct (dim_charge_some (cpu b) ty it i true HC L) as [[c ca] Ec].
  destruct (dim_charge_some (mem b) ty it i true HM L) as [[m ma] Em].
  rewrite Ec, Em, (check_endless c (dim_charge_endless _ _ _ _ _ _ _ Ec C)). cbn [snd].
  apply check_endless. exact (dim_charge_endless _ _ _ _ _ _ _ Em M).
Qed.

Lemma grow_endless b c d m : endless b -> endless (fst (memory_growing b c d m)).
Proof.
  intros E. unfold memory_growing.
  match goal with |- context [if ?x then _ else _] => destruct x end; [|exact E].
  pose proof (charge_endless b MemAlloc 1 (Some (sat_u64 (d - c))) E) as K.
  destruct (charge b MemAlloc 1 (Some (sat_u64 (d - c)))) as [b1 [u|e]]; [|exact K].
  destruct (in_shadow b1); [exact K|].
  destruct (get_cost (mem b1) MemAlloc 1 (Some (sat_u64 (d - c)))); [|exact K].
  unfold charge_frame. destruct (frames b1); exact K.
Qed.

Lemma pop_endless b : endless b -> endless (pop_frame b).
Proof.
  intros E. unfold pop_frame. destruct (frames b) as [|f fs]; [exact E|]. destruct (f =? 0); exact E.
Qed.
Lemma reclaim_endless b m : endless b -> endless (fst (reclaim b m)).
Proof. intros E. unfold reclaim. destruct (frames b); exact E. Qed.

Lemma run_endless p : forall b, endless b -> endless (fst (fst (run p b))).
Proof.
  induction p; intros bb E; cbn [run].
  - exact E.
  - pose proof (charge_endless bb ty (Z.of_N it) (on input) E) as K.
    destruct (charge bb ty (Z.of_N it) (on input)) as [b1 rr]. cbn [fst] in K.
    specialize (H rr b1 K). destruct (run (k rr) b1) as [[b2 l] r2]. exact H.
  - apply H. exact E.
  - apply IHp2.
    assert (K : endless (match check_limit (cpu (set_shadow bb true)) true, check_limit (mem (set_shadow bb true)) true with
       | Ok _, Ok _ => fst (fst (run p1 (set_shadow bb true))) | _, _ => set_shadow bb true end)).
    { destruct (check_limit (cpu (set_shadow bb true)) true); [|exact E].
      destruct (check_limit (mem (set_shadow bb true)) true); [|exact E]. apply IHp1. exact E. }
    exact K.
  - unfold enter. destruct (chk_u32 (depth bb - 1)) as [d|]; [|apply H; exact E].
    specialize (IHp (set_depth bb d) E). destruct (run p (set_depth bb d)) as [[b2 l] r]. cbn [fst] in IHp.
    unfold leave. destruct (chk_u32 (depth b2 + 1)) as [d2|].
    + specialize (H r (set_depth b2 d2) IHp). destruct (run (k r) (set_depth b2 d2)) as [[b4 l4] r4]. exact H.
    + match goal with |- context [run (k ?x) b2] => specialize (H x b2 IHp); destruct (run (k x) b2) as [[b3 l3] r3] end.
      exact H.
  - pose proof (grow_endless bb (Z.of_N current) (Z.of_N desired) (on maximum) E) as K.
    destruct (memory_growing bb (Z.of_N current) (Z.of_N desired) (on maximum)) as [b1 ok]. cbn [fst] in K.
    specialize (H ok b1 K). destruct (run (k ok) b1) as [[b2 l] r]. exact H.
  - destruct (add_fuel_to_vm bb clean_fuel) as [f|e]; [|apply H; exact E].
    unfold return_fuel_to_host.
    pose proof (charge_endless bb WasmInsnExec (fu_consumed (burn_all f burns)) None E) as K.
    destruct (charge bb WasmInsnExec (fu_consumed (burn_all f burns)) None) as [b1 r]. cbn [fst] in K.
    match goal with |- context [run (k ?x) b1] => specialize (H x b1 K); destruct (run (k x) b1) as [[b2 l] r2] end.
    exact H.
  - specialize (IHp1 bb E). destruct (run p1 bb) as [[b1 l1] r1]. cbn [fst] in IHp1.
    destruct r1 as [u|e].
    2:{ specialize (H (Err e) b1 IHp1). destruct (run (k (Err e)) b1) as [[b2 l2] r2]. exact H. }
    pose proof (reclaim_endless b1 (top bb) IHp1) as K. destruct (reclaim b1 (top bb)) as [b2 charged]. cbn [fst] in K.
    assert (K3 : endless (fst (fst (if default_host_depth_limit <=? Z.of_nat (length (frames b2))
            then (b2, [], Err (ESys TContext CExceededLimit)) else run p2 b2)))).
    { destruct (default_host_depth_limit <=? Z.of_nat (length (frames b2))); [exact K|]. apply IHp2. exact K. }
    destruct (if default_host_depth_limit <=? Z.of_nat (length (frames b2))
            then (b2, [], Err (ESys TContext CExceededLimit)) else run p2 b2) as [[b3 l3] r3]. cbn [fst] in K3.
    destruct r3 as [u3|e].
    2:{ specialize (H (Err e) b3 K3). destruct (run (k (Err e)) b3) as [[b4 l4] r4]. exact H. }
    specialize (IHp3 (set_frames b3 (charged :: frames b3)) K3).
    destruct (run p3 (set_frames b3 (charged :: frames b3))) as [[b4 l4] r4]. cbn [fst] in IHp3.
    specialize (H r4 (pop_frame b4) (pop_endless _ IHp3)).
    destruct (run (k r4) (pop_frame b4)) as [[b5 l5] r5]. exact H.
Qed.

(* work that only charges known types *)
Definition free (p : prog) : Prop := forall b, ok_budget b -> in_shadow b = true -> endless b -> snd (run p b) = Ok tt.

Lemma free_charge ty it i k : (ty < n_cost_types)%nat -> free (k (Ok tt)) -> free (Charge ty it i k).
Proof.
  intros L F b OK S E. cbn [run].
  pose proof (charge_shadow b ty (Z.of_N it) (on i) OK S) as K.
  pose proof (charge_free b ty (Z.of_N it) (on i) OK S E L) as C.
  pose proof (charge_endless b ty (Z.of_N it) (on i) E) as E1.
  destruct (charge b ty (Z.of_N it) (on i)) as [b1 r]. cbn [fst snd] in *. subst r.
  specialize (F b1 (sm_ok _ _ OK K)). rewrite (sm_shadow _ _ K) in F. specialize (F S E1).
  destruct (run (k (Ok tt)) b1) as [[b2 l] r2]. exact F.
Qed.
Lemma free_ret : free (Ret (Ok tt)).
Proof. intros b _ _ _. reflexivity. Qed.
Lemma free_heap n s : free (heap_alloc n s).
Proof. apply free_charge; [apply Nat.ltb_lt; reflexivity|apply free_ret]. Qed.
Lemma free_bulk n s : free (bulk_init n s).
Proof.
  apply free_charge; [apply Nat.ltb_lt; reflexivity|]. cbn [and_].
  apply free_charge; [apply Nat.ltb_lt; reflexivity|]. cbn [and_].
  apply free_charge; [apply Nat.ltb_lt; reflexivity|apply free_ret].
Qed.

Lemma ok_pop b : ok_budget b -> ok_budget (pop_frame b).
Proof.
  intros (C & M & T & D & F & S & L). unfold pop_frame. destruct (frames b) as [|f fs] eqn:Ef.
  - unfold ok_budget. rewrite Ef. auto 10.
  - pose proof (Forall_inv F) as F0. pose proof (Forall_inv_tail F) as F1. cbn [sum] in S.
    pose proof (sum_nonneg fs F1) as Sn.
    destruct (f =? 0) eqn:Z0.
    + apply Z.eqb_eq in Z0. unfold ok_budget, set_frames; cbn. split; [exact C|]. split; [exact M|]. split; [exact T|].
      split; [exact D|]. split; [exact F1|]. split; [lia|exact L].
    + unfold ok_budget, set_frames, set_dims, refund; cbn. split; [exact C|].
      destruct M as (M1 & M2 & M3 & M4 & M5 & M6). unfold in_u64 in M4, M5.
      assert (sat_u64 (d_net (mem b) - f) = d_net (mem b) - f) as Es by (unfold sat_u64, clamp, u64_max in *; lia).
      split.
      { unfold ok_dim; cbn. rewrite Es. unfold in_u64 in *. repeat split; auto; lia. }
      split; [exact T|]. split; [exact D|]. split; [exact F1|]. split; [rewrite Es; lia|exact L].
Qed.

(* two runs of the same program on budgets that look the same *)
Lemma run_cong p a b : ok_budget a -> in_shadow a = false -> same_metered a b -> same_run (run p a) (run p b).
Proof.
  intros OK S K.
  pose proof (erase p a b OK S K) as H1.
  pose proof (erase p b b (sm_ok _ _ OK K) (eq_trans (sm_shadow _ _ K) S) (sm_refl b)) as H2.
  unfold same_run in *. destruct H1 as (A1 & A2 & A3), H2 as (B1 & B2 & B3).
  split; [eapply sm_trans; [exact A1|apply sm_sym; exact B1]|]. split; congruence.
Qed.
Lemma run_normal p b : ok_budget b -> in_shadow b = false ->
  ok_budget (fst (fst (run p b))) /\ in_shadow (fst (fst (run p b))) = false.
Proof.
  intros OK S. pose proof (run_good p b OK S) as G. destruct (run p b) as [[b1 l] r]. cbn [fst].
  split; [exact (proj1 G)|]. exact (proj1 (proj1 (proj2 G))).
Qed.
