(* Properties of the Stellar asset contract: C42-C46, C57-C60. *)
From Coq Require Import ZArith Lia List Bool.
From Verif Require Import Prelude ValModel HeapModel AMap StorageModel SacModel SacSpec SacProofs
  SacProofs2 SacProofs3 SacProofs4 SacProofs5.
Import ListNotations.
Open Scope Z_scope.

(* ------------------------------------------------------ a ledger to try things *)

Definition ex_key (n : Z) : list Z := repeat n 32.
Definition ex_issuer : addr := AAccount (ex_key 1).
Definition ex_al : addr := AAccount (ex_key 2).
Definition ex_bo : addr := AAccount (ex_key 3).
Definition ex_c : addr := AContract (ex_key 4).
Definition ex_d : addr := AContract (ex_key 5).
Definition ex_admin : addr := AContract (ex_key 9).
Definition ex_account (bal flags : Z) : sacc :=
  {| sa_bal := bal; sa_sub := 1; sa_flags := flags; sa_ext := Some (10, 20, Some (1, 2)) |}.
Definition ex_st : sst := {|
  s_asset := Credit [85; 83; 68] (ex_key 1);
  s_admin := Some ex_admin;
  s_bal := [(ex_c, {| b_amount := 500; b_auth := true; b_claw := true; b_live := 1000 |});
            (ex_d, {| b_amount := 7; b_auth := false; b_claw := true; b_live := 1000 |})];
  s_allow := [];
  s_acc := [(ex_key 1, ex_account 1000 10); (ex_key 2, ex_account 2000 0); (ex_key 3, ex_account 3000 0)];
  s_tl := [(ex_key 2, {| tl_bal := 100; tl_limit := 1000; tl_flags := 5; tl_ext := Some (5, 30) |})];
  s_events := [];
|}.
Definition ex_li (seq : Z) : linfo :=
  {| li_seq := seq; li_min_temp := 16; li_min_persistent := 4096; li_max_ttl := 6312000 |}.
Definition ex_env (seq : Z) : senv := {|
  sv_li := ex_li seq; sv_reserve := 50;
  sv_auth := fun _ => Ok tt; sv_read := fun _ => Ok tt; sv_write := fun _ => Ok tt;
|}.

Example ex_open : open_env (ex_env 10).
Proof. unfold open_env. repeat split; vm_compute; congruence. Qed.
Example ex_limits : limits 50 ex_st.
Proof.
  split; [|split].
  - intros a b G. apply aget_In in G. cbn in G.
    destruct G as [[= <- <-]|[[= <- <-]|[]]]; cbn; lia.
  - intros k a G. apply aget_In in G. cbn in G.
    destruct G as [[= <- <-]|[[= <- <-]|[[= <- <-]|[]]]]; unfold acc_ok; cbn; lia.
  - intros k t G. apply aget_In in G. cbn in G.
    destruct G as [[= <- <-]|[]]; unfold tl_ok; cbn; lia.
Qed.
Example ex_counts : counts_ok ex_st.
Proof.
  intros k a G. apply aget_In in G. cbn in G.
  destruct G as [[= <- <-]|[[= <- <-]|[[= <- <-]|[]]]]; cbn; lia.
Qed.

(* ---------------------------------------------------------------------- C42 *)

(* A successful call changes what addresses hold by what it is to move and
   nothing else; the issuer holds nothing before and after. *)
Theorem C42_call_moves : forall env st c st' r,
  invoke env st c = (st', Ok r) ->
  (forall x, ~ the_issuer st x -> holds st' x = holds st x + sum_for x (moves c))
  /\ (forall x, the_issuer st x -> holds st' x = holds st x).
Proof.
  intros env st c st' r H. apply invoke_ok, run_call_ok in H.
  destruct (cs_moved _ _ _ _ H) as [A B]. split; [exact B|exact A].
Qed.
Print Assumptions C42_call_moves.

(* A failing call changes nothing at all. *)
Theorem C42_failure_changes_nothing : forall env st c st' e,
  invoke env st c = (st', Err e) -> st' = st.
Proof. intros env st c st' e H. apply (invoke_err _ _ _ _ _ H). Qed.
Print Assumptions C42_failure_changes_nothing.

(* The sum over any set of addresses without the issuer that has the parties of
   the call changes by the sum of its movements: not at all for transfers, by the
   amount for mint, burn and clawback. *)
Theorem C42_supply : forall env st c st' r l,
  invoke env st c = (st', Ok r) ->
  NoDup l -> (forall x, In x l -> ~ the_issuer st x) ->
  (forall x d, In (x, d) (moves c) -> In x l) ->
  sum_over (holds st') l
  = sum_over (holds st) l + match c with
                            | CMint _ x => x
                            | CBurn _ x | CBurnFrom _ _ x | CClawback _ x => - x
                            | _ => 0
                            end.
Proof.
  intros env st c st' r l H ND NI INC. destruct (C42_call_moves _ _ _ _ _ H) as [M _].
  rewrite (sum_over_moved st st' l (moves c)) by auto. f_equal.
  rewrite (sum_over_moves l (moves c) ND INC).
  destruct c; cbn; ring.
Qed.
Print Assumptions C42_supply.

(* Through the issuer, a transfer mints or burns. *)
Theorem C42_supply_issuer : forall env st f t x st' r l,
  invoke env st (CTransfer f t x) = (st', Ok r) ->
  NoDup l -> (forall y, In y l -> ~ the_issuer st y) ->
  (the_issuer st f -> ~ the_issuer st (plain t) -> In (plain t) l ->
     sum_over (holds st') l = sum_over (holds st) l + x)
  /\ (the_issuer st (plain t) -> ~ the_issuer st f -> In f l ->
     sum_over (holds st') l = sum_over (holds st) l - x).
Proof.
  intros env st f t x st' r l H ND NI. destruct (C42_call_moves _ _ _ _ _ H) as [M _].
  assert (G : forall y, In y l -> holds st' y = holds st y + sum_for y [(f, - x); (plain t, x)])
    by (intros y Hy; apply M; auto).
  split; intros I1 I2 Inl.
  - rewrite (sum_over_moved st st' l [(plain t, x)]).
    + rewrite (sum_over_moves l [(plain t, x)] ND); [cbn; ring|]. intros a d [[= <- <-]|[]]. exact Inl.
    + intros y Hy. rewrite (G y Hy). cbn. destruct (addr_dec f y) as [<-|]; [elim (NI _ Hy I1)|ring].
  - rewrite (sum_over_moved st st' l [(f, - x)]).
    + rewrite (sum_over_moves l [(f, - x)] ND); [cbn; ring|]. intros a d [[= <- <-]|[]]. exact Inl.
    + intros y Hy. rewrite (G y Hy). cbn.
      destruct (addr_dec (plain t) y) as [<-|]; [elim (NI _ Hy I1)|ring].
Qed.
Print Assumptions C42_supply_issuer.

(* Over histories: what an address holds is what it had and what successful
   calls moved. *)
Theorem C42_history : forall r seq st l seq' st' x,
  history r seq st l seq' st' -> ~ the_issuer st x -> calls_only l x ->
  holds st' x = holds st x + total_move x l.
Proof. intros. eapply history_moves; eauto. Qed.
Print Assumptions C42_history.

Example ex_C42 :
  let st1 := fst (invoke (ex_env 10) ex_st (CTransfer ex_c (AMuxed 5 (ex_key 2)) 40)) in
  let st2 := fst (invoke (ex_env 11) st1 (CTransfer ex_al ex_issuer 60)) in
  let st3 := fst (invoke (ex_env 12) st2 (CClawback ex_d 3)) in
  let st4 := fst (invoke (ex_env 12) st3 (CBurn ex_al 51)) in
  map (holds st3) [ex_c; ex_al; ex_d] = [460; 80; 4]
  /\ snd (invoke (ex_env 12) st3 (CTransfer ex_al ex_c 51)) = Err (EContract 10)
  /\ st4 = st3.
Proof. vm_compute. repeat split; reflexivity. Qed.

(* ---------------------------------------------------------------------- C43 *)

Theorem C43_negative_refused : forall env st c x,
  amount_of c = Some x -> x < 0 -> invoke env st c = (st, Err (EContract 8)).
Proof. exact negative_refused. Qed.
Print Assumptions C43_negative_refused.

(* Whatever happens, the limits hold afterwards if they held before. *)
Theorem C43_history : forall r seq st l seq' st',
  history r seq st l seq' st' -> limits r st -> limits r st'.
Proof. exact history_limits. Qed.
Print Assumptions C43_history.

(* Within the limits, holdings are not negative and fit their types. *)
Theorem C43_holdings : forall r st x,
  0 <= r -> limits r st ->
  0 <= holds st x
  /\ match x with AAccount _ => holds st x <= 2 ^ 63 - 1 | _ => holds st x <= 2 ^ 127 - 1 end.
Proof.
  intros r st x R (LB & LA & LT). rewrite pow63, pow127.
  destruct x as [k|id|i k|dd p]; cbn [holds]; try lia.
  - destruct (s_asset st).
    + destruct (aget_acc st k) as [a|] eqn:G; [|lia]. destruct (LA _ _ G) as (A & B & C & D).
      rewrite pow63 in D. nia.
    + destruct (aget_tl st k) as [t|] eqn:G; [|lia]. destruct (LT _ _ G) as (A & B & C & D).
      rewrite pow63 in C. lia.
  - destruct (aget_bal st (AContract id)) as [b|] eqn:G; [|lia]. specialize (LB _ _ G).
    rewrite pow127 in LB. lia.
Qed.
Print Assumptions C43_holdings.

Example ex_C43 : exists l st',
  history 50 10 ex_st l 12 st' /\ only_calls l /\ length (successful l) = 2%nat.
Proof.
  eexists _, _. split; [|split].
  - eapply (H_call 50 10 _ (ex_env 11) (CTransfer ex_c ex_al 855)); [cbn; lia|cbn; lia|vm_compute; reflexivity|].
    eapply (H_call 50 _ _ (ex_env 11) (CTransfer ex_c ex_al 40)); [cbn; lia|cbn; lia|vm_compute; reflexivity|].
    eapply (H_call 50 _ _ (ex_env 12) (CTransfer ex_al ex_c 40)); [cbn; lia|cbn; lia|vm_compute; reflexivity|].
    apply H_nil.
  - intros o [H|[H|[H|[]]]]; discriminate.
  - reflexivity.
Qed.

(* ---------------------------------------------------------------------- C44 *)

(* The parties of a successful movement are authorized holders. *)
Theorem C44_parties_authorized : forall env st c st' r a,
  invoke env st c = (st', Ok r) -> In a (parties c) -> may_move st a.
Proof.
  intros env st c st' r a H I. apply invoke_ok, run_call_ok in H. exact (cs_parties _ _ _ _ H a I).
Qed.
Print Assumptions C44_parties_authorized.

(* Setting the authorization of an address sets it, needs a revocable issuer if it
   is taken away, and leaves alone all holdings, the authorization of all others,
   accounts, allowances and what can be clawed back. *)
Theorem C44_set_authorized : forall env st a b st' r,
  invoke env st (CSetAuthorized a b) = (st', Ok r) ->
  (may_move st' a <-> b = true)
  /\ (forall x, x <> a -> (may_move st' x <-> may_move st x))
  /\ (forall x, holds st' x = holds st x)
  /\ (forall x, may_claw st x -> may_claw st' x)
  /\ (forall x, x <> a -> may_claw st' x -> may_claw st x)
  /\ s_acc st' = s_acc st /\ s_allow st' = s_allow st /\ s_admin st' = s_admin st
  /\ (b = false -> match s_asset st with
                   | Native => False
                   | Credit _ i => exists ac, aget_acc st i = Some ac /\ Z.testbit (sa_flags ac) 1 = true
                   end).
Proof.
  intros env st a b st' r H. apply invoke_ok in H. cbn [run_call] in H.
  apply rbind_ok in H. destruct H as (ad & _ & H). apply rbind_ok in H. destruct H as (u & _ & H).
  unfold done in H. apply rbind_ok in H. destruct H as (st1 & E & H). injection H as <- <-.
  apply write_authorization_ok in E.
  destruct E as ((R1 & R2 & R3 & R4) & Hh & _ & A & B & C & D & F & G).
  split; [exact A|]. split; [exact B|]. split; [exact Hh|]. split; [exact C|]. split; [exact D|].
  split; [exact F|]. split; [exact R4|]. split; [exact R2|exact G].
Qed.
Print Assumptions C44_set_authorized.

(* No other call but trust changes who may move the asset. *)
Theorem C44_only_set_authorized : forall env st c st' r,
  invoke env st c = (st', Ok r) ->
  match c with CSetAuthorized _ _ | CTrust _ => False | _ => True end ->
  forall x, may_move st x <-> may_move st' x.
Proof.
  intros env st c st' r H N x. apply invoke_ok, run_call_ok in H. pose proof (cs_flags _ _ _ _ H) as F.
  destruct c; try contradiction; apply F.
Qed.
Print Assumptions C44_only_set_authorized.

(* Whether a contract's balance can be clawed back is settled when the balance
   comes into being, by the issuer's setting at that time, and no call changes it
   later; balances never go away. *)
Theorem C44_clawback_settled : forall env st c st' r id,
  invoke env st c = (st', Ok r) ->
  match aget_bal st (AContract id), aget_bal st' (AContract id) with
  | Some b, Some b' => b_claw b' = b_claw b
  | None, Some b' => b_claw b' = issuer_claws st
  | None, None => True
  | Some _, None => False
  end.
Proof.
  intros env st c st' r id H. apply invoke_ok, run_call_claws in H. destruct H as (_ & _ & H).
  specialize (H (AContract id)). destruct (aget_bal st _), (aget_bal st' _); congruence || auto.
Qed.
Print Assumptions C44_clawback_settled.
Example ex_C44_new : exists st' b',
  invoke (ex_env 10) ex_st (CTransfer ex_c (AContract (ex_key 6)) 3) = (st', Ok RUnit)
  /\ aget_bal ex_st (AContract (ex_key 6)) = None
  /\ aget_bal st' (AContract (ex_key 6)) = Some b' /\ b_claw b' = true /\ issuer_claws ex_st = true.
Proof. eexists _, _. split; [vm_compute; reflexivity|]. repeat split; vm_compute; reflexivity. Qed.

(* Clawback succeeds only on clawback-enabled holdings, by the administrator. *)
Theorem C44_clawback_only_enabled : forall env st a x st' r,
  invoke env st (CClawback a x) = (st', Ok r) ->
  may_claw st a /\ exists ad, s_admin st = Some ad /\ sv_auth env ad = Ok tt.
Proof.
  intros env st a x st' r H. apply invoke_ok in H. pose proof (run_call_ok _ _ _ _ _ H) as CS.
  split.
  - cbn [run_call] in H. apply rbind_ok in H. destruct H as (u & _ & H).
    apply rbind_ok in H. destruct H as (u1 & E & _). destruct a as [k|id|i k|dd p]; try discriminate.
    + unfold check_clawbackable in E. cbn [may_claw]. destruct (s_asset st) as [|c i]; [discriminate|].
      destruct (key_dec i k); [discriminate|]. apply rbind_ok in E. destruct E as (t & E1 & E).
      unfold read_trustline in E1. apply rbind_ok in E1. destruct E1 as (u2 & _ & E1).
      unfold aget_tl. destruct (aget key_dec (s_tl st) k) as [t'|]; [|discriminate]. injection E1 as ->.
      unfold tl_clawback in E. rewrite has_flag2 in E.
      destruct (Z.testbit (tl_flags t) 2) eqn:B; [|discriminate]. split; [congruence|eauto].
    + unfold check_clawbackable in E. cbn [may_claw]. apply rbind_ok in E. destruct E as (o & E1 & E).
      apply get_bal_ok in E1. destruct E1 as [-> _]. destruct o as [b|]; [|discriminate].
      destruct (b_claw b) eqn:B; [eauto|discriminate].
  - pose proof (cs_adm_set _ _ _ _ CS) as AS. pose proof (cs_needs _ _ _ _ CS) as ND. cbn in AS, ND.
    destruct (s_admin st) as [ad|]; [|contradiction]. eauto.
Qed.
Print Assumptions C44_clawback_only_enabled.

(* It works on them, authorized or not. *)
Theorem C44_clawback_works : forall env st a x ad,
  open_env env -> limits (sv_reserve env) st -> counts_ok st -> not_archived env st a ->
  s_admin st = Some ad -> sv_auth env ad = Ok tt ->
  may_claw st a -> 0 <= x -> can_send env st a x ->
  exists st', invoke env st (CClawback a x) = (st', Ok RUnit).
Proof. intros. eapply clawback_works; eauto. Qed.
Print Assumptions C44_clawback_works.

Example ex_C44 :
  ~ may_move ex_st ex_d /\ may_claw ex_st ex_d /\ can_send (ex_env 10) ex_st ex_d 7
  /\ not_archived (ex_env 10) ex_st ex_d
  /\ snd (invoke (ex_env 10) ex_st (CTransfer ex_d ex_c 1)) = Err (EContract 11)
  /\ snd (invoke (ex_env 10) ex_st (CTransfer ex_c ex_d 1)) = Err (EContract 11)
  /\ snd (invoke (ex_env 10) ex_st (CClawback ex_d 7)) = Ok RUnit
  /\ snd (invoke (ex_env 10) ex_st (CSetAuthorized ex_d true)) = Ok RUnit
  /\ snd (invoke (ex_env 10) ex_st (CSetAuthorized ex_al false)) = Ok RUnit.
Proof.
  split; [vm_compute; discriminate|]. split; [eexists; split; [vm_compute; reflexivity|reflexivity]|].
  split; [vm_compute; discriminate|].
  split; [intros b G; vm_compute in G; injection G as <-; vm_compute; discriminate|].
  repeat split; vm_compute; reflexivity.
Qed.

(* ---------------------------------------------------------------------- C45 *)

(* The answer of allowance() is the allowance. *)
Theorem C45_read : forall env st f s st' r,
  invoke env st (CAllowance f s) = (st', Ok r) ->
  r = RInt (allowance_at st (li_seq (sv_li env)) f s) /\ st' = st.
Proof.
  intros env st f s st' r H. apply invoke_ok in H. cbn [run_call] in H. apply rbind_ok in H.
  destruct H as (x & E & H). injection H as <- <-. apply read_allowance_ok in E. subst x. auto.
Qed.
Print Assumptions C45_read.

(* An approval sets the allowance of its pair, and of no other. *)
Theorem C45_approve : forall env st f s x until st' r,
  invoke env st (CApprove f s x until) = (st', Ok r) ->
  allowance_at st' (li_seq (sv_li env)) f s = x
  /\ (forall f' s', (f', s') <> (f, s) -> aget_allow st' f' s' = aget_allow st f' s').
Proof.
  intros env st f s x until st' r H. apply invoke_ok in H. split.
  - eapply approve_allowance; eauto.
  - intros f' s' N.
    destruct (call_entries _ _ _ _ _ f' s' H) as [[_ E]|(T & _)]; [|exact E|cbn in T; lia].
    intros [-> ->]. congruence.
Qed.
Print Assumptions C45_approve.

(* Each spend is within the allowance, lowers it by exactly the amount, and leaves
   all others alone; no other call changes any allowance. *)
Theorem C45_spend : forall env st c st' r f s,
  invoke env st c = (st', Ok r) -> ~ approves f s c ->
  allowance_at st' (li_seq (sv_li env)) f s
  = allowance_at st (li_seq (sv_li env)) f s - takes f s c
  /\ (0 < takes f s c -> takes f s c <= allowance_at st (li_seq (sv_li env)) f s)
  /\ (takes f s c = 0 -> aget_allow st' f s = aget_allow st f s).
Proof.
  intros env st c st' r f s H N. apply invoke_ok in H.
  destruct (spend_lowers _ _ _ _ _ f s H N) as [A B]. split; [exact A|]. split; [exact B|].
  intro T. destruct (call_entries _ _ _ _ _ f s H N) as [[_ E]|(T' & _)]; [exact E|lia].
Qed.
Print Assumptions C45_spend.

(* Between approvals, what is taken and what is left is at most what there was. *)
Theorem C45_total_bound : forall r seq st l seq' st' f s,
  history r seq st l seq' st' -> nonneg_allow st -> not_approved f s l ->
  0 <= allowance_at st' seq' f s
  /\ allowance_at st' seq' f s + taken f s l <= allowance_at st seq f s.
Proof.
  intros r seq st l seq' st' f s H N NA. split.
  - apply (later_allowance st' seq' seq'); [eapply nonneg_history; eauto|lia].
  - eapply allowance_bound; eauto.
Qed.
Print Assumptions C45_total_bound.

(* Allowances are never negative, from a ledger without allowances on. *)
Theorem C45_never_negative : forall r seq st l seq' st',
  history r seq st l seq' st' -> s_allow st = [] -> nonneg_allow st'.
Proof.
  intros r seq st l seq' st' H E. eapply nonneg_history; eauto.
  intros f s v G. unfold aget_allow in G. rewrite E in G. discriminate.
Qed.
Print Assumptions C45_never_negative.

(* Past the live-until ledger of the approval nothing can be taken. *)
Theorem C45_nothing_after_expiry : forall r env st f s x until st1 rv l1 seq1 st2 l2 seq2 st3,
  nonneg_allow st -> invoke env st (CApprove f s x until) = (st1, Ok rv) ->
  history r (li_seq (sv_li env)) st1 l1 seq1 st2 -> until < seq1 ->
  history r seq1 st2 l2 seq2 st3 -> not_approved f s (l1 ++ l2) ->
  taken f s l2 = 0.
Proof.
  intros r env st f s x until st1 rv l1 seq1 st2 l2 seq2 st3 N HA H1 LT H2 NA.
  apply invoke_ok in HA. pose proof (nonneg_call _ _ _ _ _ HA N) as N1.
  pose proof (nonneg_history _ _ _ _ _ _ H1 N1) as N2.
  assert (NA1 : not_approved f s l1).
  { intros e c I. apply (NA e c). unfold successful. rewrite flat_map_app. apply in_or_app. left. exact I. }
  assert (NA2 : not_approved f s l2).
  { intros e c I. apply (NA e c). unfold successful. rewrite flat_map_app. apply in_or_app. right. exact I. }
  assert (Z1 : allowance_at st2 seq1 f s = 0).
  { destruct (approve_entries _ _ _ _ _ _ _ _ HA) as (X & _ & A & B).
    assert (G1 : aget_allow st1 f s = None
                 \/ exists v, aget_allow st1 f s = Some v
                      /\ (l_until v = until \/ l_live v < li_seq (sv_li env))).
    { destruct (aget_allow st f s) as [v|] eqn:G.
      - destruct (Z.ltb_spec (l_live v) (li_seq (sv_li env))) as [L|L].
        + destruct (B L) as [[_ ->]|(_ & live & -> & _)]; right; eexists; split; eauto.
        + destruct A as (live & -> & _). right. eexists. split; eauto.
      - destruct (B I) as [[_ ->]|(_ & live & -> & _)]; [auto|]. right. eexists. split; eauto. }
    assert (G2 : aget_allow st2 f s = None
                 \/ exists v, aget_allow st2 f s = Some v
                      /\ (l_until v = until \/ l_live v < seq1)).
    { clear - H1 NA1 G1. revert H1 G1.
      generalize dependent (li_seq (sv_li env)). clear env.
      intros sq0 H1 G1. revert NA1 G1.
      induction H1 as [|seq st env c st1 o l seq' st' SL RL I H IH|seq sq st st1 l seq' st' SL E H IH];
        intros NA G.
      - exact G.
      - pose proof (history_seq _ _ _ _ _ _ H) as SQ.
        destruct o as [rv|e].
        + apply invoke_ok in I. apply IH.
          * intros e' c' I'. apply (NA e' c'). right. exact I'.
          * destruct (call_entries _ _ _ _ _ f s I) as [[_ E]|(_ & v & G0 & _ & _ & _ & E)].
            -- apply (NA env c). left. reflexivity.
            -- rewrite E. destruct G as [G|(v & G & D)]; [auto|]. right. exists v. split; [exact G|].
               destruct D; [auto|]. right. lia.
            -- right. eexists. split; [exact E|]. cbn. destruct G as [G|(v' & G & D)]; [congruence|].
               rewrite G0 in G. injection G as <-. destruct D; [auto|]. right. lia.
        + apply invoke_err in I. destruct I as [-> _]. apply IH; [exact NA|].
          destruct G as [G|(v & G & D)]; [auto|]. right. exists v. split; [exact G|].
          destruct D; [auto|]. right. lia.
      - apply IH; [exact NA|]. destruct E as (_&_&_&_&A&_). specialize (A f s).
        destruct G as [G|(v & G & D)]; rewrite G in A.
        + destruct (aget_allow st1 f s); [contradiction|auto].
        + destruct (aget_allow st1 f s) as [v1|]; [|auto]. right. exists v1. split; [reflexivity|].
          destruct A as (A1 & A2 & A3). destruct D; [left; congruence|]. right. lia. }
    unfold allowance_at. destruct G2 as [->|(v & -> & [U|L])]; [reflexivity| |].
    - rewrite U. apply Z.ltb_lt in LT. rewrite LT, orb_true_r. reflexivity.
    - apply Z.ltb_lt in L. rewrite L. reflexivity. }
  destruct (C45_total_bound _ _ _ _ _ _ f s H2 N2 NA2) as [P Q].
  assert (T : 0 <= taken f s l2).
  { clear - H2. induction H2 as [|seq st env c st1 o l seq' st' SL RL I H IH|]; [cbn; lia| |exact IHhistory].
    destruct o as [rv|e]; [|exact IH]. apply invoke_ok in I.
    pose proof (takes_nonneg f s c _ _ _ _ I). unfold taken in *. rewrite successful_cons_ok.
    cbn. unfold sum_over in IH. lia. }
  lia.
Qed.
Print Assumptions C45_nothing_after_expiry.

Definition ex_appr : sst := fst (invoke (ex_env 10) ex_st (CApprove ex_c ex_bo 100 30)).
Example ex_C45 :
  nonneg_allow ex_appr /\ allowance_at ex_appr 10 ex_c ex_bo = 100
  /\ let st1 := fst (invoke (ex_env 20) ex_appr (CTransferFrom ex_bo ex_c ex_al 60)) in
     allowance_at st1 20 ex_c ex_bo = 40 /\ holds st1 ex_al = 160
     /\ snd (invoke (ex_env 30) st1 (CTransferFrom ex_bo ex_c ex_al 41)) = Err (EContract 9)
     /\ snd (invoke (ex_env 30) st1 (CTransferFrom ex_bo ex_c ex_al 40)) = Ok RUnit
     /\ snd (invoke (ex_env 31) st1 (CTransferFrom ex_bo ex_c ex_al 1)) = Err (EContract 9).
Proof.
  split.
  - intros f s v G. apply aget_In in G. vm_compute in G. destruct G as [[= <- <- <-]|[]]. vm_compute. discriminate.
  - vm_compute. repeat split; reflexivity.
Qed.

(* ---------------------------------------------------------------------- C46 *)

(* The full claim: from a ledger without allowances on, an approved allowance is
   there, less what was taken, at every ledger up to its live-until ledger. *)
Definition C46_claim : Prop :=
  forall r seq0 st0 l0 seq1 st1 env f s x until st2 rv l seq' st',
  s_allow st0 = [] -> 0 <= seq0 ->
  history r seq0 st0 l0 seq1 st1 -> seq1 <= li_seq (sv_li env) ->
  invoke env st1 (CApprove f s x until) = (st2, Ok rv) -> 0 < x ->
  history r (li_seq (sv_li env)) st2 l seq' st' -> not_approved f s l ->
  seq' <= until ->
  allowance_at st' seq' f s = x - taken f s l.

(* It is false.  Approve 1 until ledger 20: the entry lives until 25, its minimum
   TTL.  Approve 0 until ledger 100: the value now says 100, the entry's TTL is not
   extended as nothing is approved.  Approve 5 until 100: the TTL is not extended
   as the live-until ledger in the value has not grown.  The entry is gone at 26. *)
Theorem C46_refuted : ~ C46_claim.
Proof.
  intro C.
  pose (st1 := fst (invoke (ex_env 10) ex_st (CApprove ex_c ex_bo 1 20))).
  pose (st2 := fst (invoke (ex_env 10) st1 (CApprove ex_c ex_bo 0 100))).
  pose (st3 := fst (invoke (ex_env 10) st2 (CApprove ex_c ex_bo 5 100))).
  assert (H1 : invoke (ex_env 10) ex_st (CApprove ex_c ex_bo 1 20) = (st1, Ok RUnit)) by (vm_compute; reflexivity).
  assert (H2 : invoke (ex_env 10) st1 (CApprove ex_c ex_bo 0 100) = (st2, Ok RUnit)) by (vm_compute; reflexivity).
  assert (H3 : invoke (ex_env 10) st2 (CApprove ex_c ex_bo 5 100) = (st3, Ok RUnit)) by (vm_compute; reflexivity).
  assert (H4 : invoke (ex_env 26) st3 (CAllowance ex_c ex_bo) = (st3, Ok (RInt 0))) by (vm_compute; reflexivity).
  assert (HH : history 0 10 ex_st
     [(SCall (ex_env 10) (CApprove ex_c ex_bo 1 20), Ok RUnit);
      (SCall (ex_env 10) (CApprove ex_c ex_bo 0 100), Ok RUnit)] 10 st2).
  { eapply H_call; [cbn; lia|cbn; lia|exact H1|]. eapply H_call; [cbn; lia|cbn; lia|exact H2|].
    apply (H_nil 0 10). }
  assert (HI : history 0 10 st3 [(SCall (ex_env 26) (CAllowance ex_c ex_bo), Ok (RInt 0))] 26 st3).
  { eapply H_call; [cbn; lia|cbn; lia|exact H4|]. apply (H_nil 0 26). }
  specialize (C 0 10 ex_st _ 10 st2 (ex_env 10) ex_c ex_bo 5 100 st3 RUnit _ 26 st3
                eq_refl ltac:(lia) HH ltac:(cbn; lia) H3 ltac:(lia) HI).
  specialize (C ltac:(intros e c [[= <- <-]|[]]; cbn; tauto) ltac:(lia)).
  vm_compute in C. discriminate.
Qed.
Print Assumptions C46_refuted.

(* It is true if approvals of nothing for the pair do not name a ledger to come. *)
Theorem C46_usable_partial : forall r seq0 st0 l0 seq1 st1 env f s x until st2 rv l seq' st',
  s_allow st0 = [] -> 0 <= seq0 ->
  history r seq0 st0 l0 seq1 st1 -> seq1 <= li_seq (sv_li env) ->
  clears_now f s l0 ->
  invoke env st1 (CApprove f s x until) = (st2, Ok rv) -> 0 < x ->
  history r (li_seq (sv_li env)) st2 l seq' st' -> not_approved f s l ->
  seq' <= until ->
  allowance_at st' seq' f s = x - taken f s l.
Proof.
  intros r seq0 st0 l0 seq1 st1 env f s x until st2 rv l seq' st' E0 S0 H0 SL CN HA X H NA LE.
  apply invoke_ok in HA. pose proof (history_seq _ _ _ _ _ _ H0).
  eapply approved_usable; eauto; [lia|]. left.
  eapply outlives_history; eauto. intros v G. unfold aget_allow in G. rewrite E0 in G. discriminate.
Qed.
Print Assumptions C46_usable_partial.

(* ... and if there was no allowance entry, or it named an earlier ledger. *)
Theorem C46_fresh_partial : forall env st f s x until st1 rv r l seq' st',
  invoke env st (CApprove f s x until) = (st1, Ok rv) -> 0 < x -> 0 <= li_seq (sv_li env) ->
  match aget_allow st f s with None => True | Some v => l_until v < until end ->
  history r (li_seq (sv_li env)) st1 l seq' st' -> not_approved f s l -> seq' <= until ->
  allowance_at st' seq' f s = x - taken f s l.
Proof.
  intros env st f s x until st1 rv r l seq' st' HA X S0 F H NA LE. apply invoke_ok in HA.
  eapply approved_usable; eauto. right. intros v G. rewrite G in F. auto.
Qed.
Print Assumptions C46_fresh_partial.

Example ex_C46 : exists l seq' st',
  history 0 10 ex_appr l seq' st' /\ not_approved ex_c ex_bo l /\ seq' = 30
  /\ taken ex_c ex_bo l = 60 /\ allowance_at st' seq' ex_c ex_bo = 40.
Proof.
  eexists _, _, _. split.
  { eapply (H_call 0 10 _ (ex_env 28) (CTransferFrom ex_bo ex_c ex_al 60));
      [cbn; lia|cbn; lia|vm_compute; reflexivity|].
    eapply (H_call 0 _ _ (ex_env 30) (CAllowance ex_c ex_bo)); [cbn; lia|cbn; lia|vm_compute; reflexivity|].
    apply H_nil. }
  split; [intros e c [[= <- <-]|[[= <- <-]|[]]]; cbn; tauto|]. repeat split; vm_compute; reflexivity.
Qed.

(* ---------------------------------------------------------------------- C57 *)

(* The events of the contract account for every change of every holder but the
   issuer: they say what each one holds. *)
Theorem C57_events_tell_holdings : forall r seq st l seq' st' x,
  history r seq st l seq' st' -> ~ the_issuer st x -> calls_only l x ->
  exists evs, s_events st' = s_events st ++ evs
    /\ holds st' x = holds st x + sum_over (effect x) evs.
Proof. exact history_events. Qed.
Print Assumptions C57_events_tell_holdings.

(* Each successful call announces exactly what it did; failed calls nothing. *)
Theorem C57_calls_announce : forall env st c st' r,
  invoke env st c = (st', r) ->
  s_events st' = s_events st ++ if is_ok r then announces st c else [].
Proof.
  intros env st c st' [v|e] H; cbn [is_ok].
  - apply invoke_ok in H. eapply run_call_announces; eauto.
  - apply invoke_err in H. destruct H as [-> _]. now rewrite app_nil_r.
Qed.
Print Assumptions C57_calls_announce.

Example ex_C57 :
  let st1 := fst (invoke (ex_env 10) ex_st (CTransfer ex_c (AMuxed 5 (ex_key 2)) 40)) in
  let st2 := fst (invoke (ex_env 11) st1 (CTransfer ex_al ex_issuer 60)) in
  let st3 := fst (invoke (ex_env 12) st2 (CTransfer ex_issuer ex_c 9)) in
  s_events st3 = [EvTransfer ex_c ex_al (Some 5) 40; EvBurn ex_al 60; EvMint ex_c None 9].
Proof. vm_compute. reflexivity. Qed.

(* ---------------------------------------------------------------------- C58 *)

(* A successful call was authorized by the one whose say it is. *)
Theorem C58_calls_are_authorized : forall env st c st' r,
  invoke env st c = (st', Ok r) ->
  (forall a, needs st c = Some a -> sv_auth env a = Ok tt)
  /\ match c with
     | CClawback _ _ | CSetAuthorized _ _ | CMint _ _ | CSetAdmin _ => s_admin st <> None
     | _ => True
     end.
Proof.
  intros env st c st' r H. apply invoke_ok, run_call_ok in H.
  split; [exact (cs_needs _ _ _ _ H)|exact (cs_adm_set _ _ _ _ H)].
Qed.
Print Assumptions C58_calls_are_authorized.

(* The administrator changes by set_admin only. *)
Theorem C58_admin : forall env st c st' r,
  invoke env st c = (st', Ok r) ->
  s_admin st' = match c with CSetAdmin a => Some a | _ => s_admin st end.
Proof. intros env st c st' r H. apply invoke_ok, run_call_ok in H. exact (cs_admin _ _ _ _ H). Qed.
Print Assumptions C58_admin.

(* What an address holds falls only by its own authorization, on an allowance by a
   spender who authorizes it, or by clawback by the administrator. *)
Theorem C58_holdings_fall_by_consent : forall env st c st' r x,
  invoke env st c = (st', Ok r) -> ~ the_issuer st x -> holds st' x < holds st x ->
  sv_auth env x = Ok tt
  \/ (exists s a, takes x s c = a /\ 0 < a <= allowance_at st (li_seq (sv_li env)) x s
        /\ sv_auth env s = Ok tt)
  \/ (exists a ad, c = CClawback x a /\ s_admin st = Some ad /\ sv_auth env ad = Ok tt).
Proof. intros env st c st' r x H. apply invoke_ok in H. eapply one_call_falls; eauto. Qed.
Print Assumptions C58_holdings_fall_by_consent.

(* So whoever gave no allowance and authorizes nothing loses nothing but by
   clawback, whatever others do. *)
Theorem C58_nothing_lost_without_consent : forall r seq st l seq' st' x,
  history r seq st l seq' st' -> ~ the_issuer st x -> calls_only l x ->
  never_authorizes x l -> no_clawback_of x l ->
  (forall s, allowance_at st seq x s = 0) ->
  holds st x <= holds st' x.
Proof. exact untouched_without_consent. Qed.
Print Assumptions C58_nothing_lost_without_consent.

Definition ex_env_but (seq : Z) (b : addr) : senv := {|
  sv_li := ex_li seq; sv_reserve := 50;
  sv_auth := fun a => if addr_dec a b then Err (ESys TAuth CInvalidAction) else Ok tt;
  sv_read := fun _ => Ok tt; sv_write := fun _ => Ok tt;
|}.
Example ex_C58 : exists l st',
  history 0 10 ex_st l 10 st' /\ ~ the_issuer ex_st ex_c /\ only_calls l
  /\ never_authorizes ex_c l /\ no_clawback_of ex_c l
  /\ (forall s, allowance_at ex_st 10 ex_c s = 0)
  /\ length (successful l) = 1%nat /\ holds st' ex_c = 510.
Proof.
  eexists _, _. split.
  { eapply (H_call 0 10 _ (ex_env_but 10 ex_c) (CTransferFrom ex_bo ex_c ex_al 60));
      [cbn; lia|cbn; lia|vm_compute; reflexivity|].
    eapply (H_call 0 _ _ (ex_env_but 10 ex_c) (CTransfer ex_c ex_al 60));
      [cbn; lia|cbn; lia|vm_compute; reflexivity|].
    eapply (H_call 0 _ _ (ex_env_but 10 ex_c) (CTransfer ex_al ex_c 10));
      [cbn; lia|cbn; lia|vm_compute; reflexivity|].
    apply H_nil. }
  split; [discriminate|]. split; [intros o [H|[H|[H|[]]]]; discriminate|].
  split; [intros e c [[= <- <-]|[]]; vm_compute; discriminate|].
  split; [intros e a [H|[]]; discriminate|].
  repeat split; vm_compute; reflexivity.
Qed.

(* ---------------------------------------------------------------------- C59 *)

(* A transfer between two authorized holders that the balance of the one and the
   room of the other allow, authorized by the sender, succeeds. *)
Theorem C59_transfer_works : forall env st f to x,
  open_env env -> limits (sv_reserve env) st -> counts_ok st ->
  not_archived env st f -> not_archived env st (plain to) ->
  plain to <> f -> 0 <= x ->
  sv_auth env f = Ok tt -> may_move st f -> may_move st (plain to) ->
  can_send env st f x -> can_receive env st (plain to) x ->
  exists st', invoke env st (CTransfer f to x) = (st', Ok RUnit).
Proof. intros. eapply transfer_works; eauto. Qed.
Print Assumptions C59_transfer_works.

Example ex_C59 :
  not_archived (ex_env 10) ex_st ex_c /\ not_archived (ex_env 10) ex_st ex_al
  /\ may_move ex_st ex_c /\ may_move ex_st ex_al
  /\ can_send (ex_env 10) ex_st ex_al 70 /\ can_receive (ex_env 10) ex_st ex_al 895
  /\ ~ can_send (ex_env 10) ex_st ex_al 71 /\ ~ can_receive (ex_env 10) ex_st ex_al 896
  /\ can_send (ex_env 10) ex_st ex_c 500 /\ can_receive (ex_env 10) ex_st ex_c 70.
Proof.
  split; [intros b G; vm_compute in G; injection G as <-; vm_compute; discriminate|].
  split; [intros b G; vm_compute in G; discriminate|].
  split; [reflexivity|]. split; [right; eexists; split; vm_compute; reflexivity|].
  split; [split; [vm_compute; discriminate|right; eexists; split; [reflexivity|vm_compute; discriminate]]|].
  split; [split; [vm_compute; discriminate|right; eexists; split; [reflexivity|vm_compute; discriminate]]|].
  split.
  { intros [_ [H|(t & G & H)]]; [discriminate|]. vm_compute in G. injection G as <-. apply H. reflexivity. }
  split.
  { intros [_ [H|(t & G & H)]]; [discriminate|]. vm_compute in G. injection G as <-. apply H. reflexivity. }
  split; vm_compute; discriminate.
Qed.

(* ---------------------------------------------------------------------- C60 *)

(* trust() succeeds for a contract, or an account other than the issuer with a
   trustline, and does nothing then; or, with the
   account's authorization, opens an empty one with limit 2^63 - 1, authorized
   unless the issuer requires authorization, clawback-enabled if the issuer has
   clawback enabled, and counts it as one more subentry of the account, of at most
   1000.  Nothing else changes. *)
Theorem C60_trust : forall env st a st' r,
  invoke env st (CTrust a) = (st', Ok r) ->
  (forall x, holds st' x = holds st x)
  /\ s_bal st' = s_bal st /\ s_allow st' = s_allow st /\ s_events st' = s_events st
  /\ s_admin st' = s_admin st
  /\ (st' = st /\ ((exists id, a = AContract id)
                   \/ exists k c i, a = AAccount k /\ s_asset st = Credit c i /\ k <> i
                        /\ aget_tl st k <> None) \/
      exists k c i ic ac ac' t,
        a = AAccount k /\ sv_auth env a = Ok tt /\ s_asset st = Credit c i /\ k <> i
        /\ aget_tl st k = None /\ aget_acc st i = Some ic /\ aget_acc st k = Some ac
        /\ (forall k', aget_tl st' k' = if key_dec k' k then Some t else aget_tl st k')
        /\ (forall k', aget_acc st' k' = if key_dec k' k then Some ac' else aget_acc st k')
        /\ tl_bal t = 0 /\ tl_limit t = 2 ^ 63 - 1 /\ tl_ext t = None
        /\ Z.testbit (tl_flags t) 0 = negb (Z.testbit (sa_flags ic) 0)
        /\ Z.testbit (tl_flags t) 2 = Z.testbit (sa_flags ic) 3
        /\ sa_bal ac' = sa_bal ac /\ sa_sub ac' = sa_sub ac + 1 /\ sa_sub ac' <= 1000
        /\ sa_flags ac' = sa_flags ac /\ sa_ext ac' = sa_ext ac).
Proof.
  intros env st a st' r H. apply invoke_ok in H. cbn [run_call] in H. unfold done in H.
  apply rbind_ok in H. destruct H as (st1 & E & H). injection H as <- <-.
  apply create_trustline_ok in E. destruct E as ((R1 & R2 & R3 & R4) & Hh & _ & AU & B & D).
  split; [exact Hh|]. split; [exact B|]. split; [exact R4|]. split; [exact R3|]. split; [exact R2|].
  destruct D as [D|D]; [left; exact D|]. right.
  destruct D as (k & c & i & ic & ac & ac' & t & -> & SA & NI & G & GI & GA & -> & D1 & D2 & D3 & D4 & D5 & D6 & D7 & D8 & D9 & D10).
  exists k, c, i, ic, ac, ac', t. split; [reflexivity|].
  split; [apply (AU k); auto|]. split; [exact SA|]. split; [exact NI|]. split; [exact G|].
  split; [exact GI|]. split; [exact GA|].
  split; [intro k'; apply aget_aset|]. split; [intro k'; apply aget_aset|].
  repeat split; auto. lia.
Qed.
Print Assumptions C60_trust.

Example ex_C60 :
  let st' := fst (invoke (ex_env 10) ex_st (CTrust ex_bo)) in
  aget_tl st' (ex_key 3) = Some {| tl_bal := 0; tl_limit := 2 ^ 63 - 1; tl_flags := 5; tl_ext := None |}
  /\ snd (invoke (ex_env 10) st' (CTransfer ex_c ex_bo 77)) = Ok RUnit.
Proof. vm_compute. split; reflexivity. Qed.
