(* Histories of the asset contract: holdings, limits, events, authorizations,
   allowances. *)
From Coq Require Import ZArith Lia List Bool.
From Verif Require Import Prelude ValModel HeapModel AMap StorageModel SacModel SacSpec SacProofs SacProofs2.
Import ListNotations.
Open Scope Z_scope.

(* ----------------------------------------------------- allowances, one call *)

Lemma aget_allow_set st f s v f' s' :
  aget_allow (set_allows st (aset pair_dec (s_allow st) (f, s) v)) f' s'
  = if pair_dec (f', s') (f, s) then Some v else aget_allow st f' s'.
Proof. unfold aget_allow. cbn [set_allows s_allow]. apply aget_aset. Qed.

Lemma takes_nonneg f s c env st st' r :
  run_call env st c = Ok (st', r) -> 0 <= takes f s c.
Proof.
  intro H. apply run_call_ok in H. pose proof (cs_amount _ _ _ _ H) as A.
  destruct c; cbn [takes]; try lia; cbn [amount_of] in A; specialize (A _ eq_refl);
    destruct (addr_dec _ _); try destruct (addr_dec _ _); lia.
Qed.

(* What a spending does to the allowance entries. *)
Lemma spend_allowance_entries env st f s x st0 :
  spend_allowance env st f s x = Ok st0 -> 0 <= x ->
  (x = 0 /\ s_allow st0 = s_allow st)
  \/ (0 < x /\ exists v,
        aget_allow st f s = Some v
        /\ li_seq (sv_li env) <= l_live v /\ li_seq (sv_li env) <= l_until v /\ x <= l_amount v
        /\ forall f' s', aget_allow st0 f' s'
             = if pair_dec (f', s') (f, s)
               then Some {| l_amount := l_amount v - x; l_until := l_until v; l_live := l_live v |}
               else aget_allow st f' s').
Proof.
  intros H X. apply spend_allowance_ok in H. destruct H as (_ & _ & Z0 & P).
  destruct (Z.eq_dec x 0) as [->|N].
  - left. rewrite Z0 by lia. auto.
  - right. split; [lia|]. destruct (P ltac:(lia)) as (v & G & L & U & A & ->).
    exists v. split; [exact G|]. split; [exact L|]. split; [exact U|]. split; [exact A|].
    intros f' s'. apply aget_allow_set.
Qed.

Lemma call_entries env st c st' r f s :
  run_call env st c = Ok (st', r) -> ~ approves f s c ->
  (takes f s c = 0 /\ aget_allow st' f s = aget_allow st f s)
  \/ (0 < takes f s c /\ exists v,
        aget_allow st f s = Some v
        /\ li_seq (sv_li env) <= l_live v /\ li_seq (sv_li env) <= l_until v
        /\ takes f s c <= l_amount v
        /\ aget_allow st' f s
           = Some {| l_amount := l_amount v - takes f s c; l_until := l_until v; l_live := l_live v |}).
Proof.
  intros H NA. pose proof (run_call_ok _ _ _ _ _ H) as CS. pose proof (cs_amount _ _ _ _ CS) as AM.
  assert (EQ : forall st1, s_allow st1 = s_allow st -> aget_allow st1 f s = aget_allow st f s)
    by (intros st1 E; unfold aget_allow; rewrite E; reflexivity).
  destruct c as [f0 s0|f0 s0 x until|a|a|f0 to x|s0 f0 t x|f0 x|s0 f0 x|f0 x|a b|t x|a| |a];
    cbn [run_call] in H; cbn [takes].
  - left. split; [reflexivity|]. bind H v E. injection H as <- <-. reflexivity.
  - left. split; [reflexivity|]. bind H u E. bind H u1 E1. unfold done in H. bind H st1 E2.
    injection H as <- <-. change (aget_allow st1 f s = aget_allow st f s).
    apply write_allowance_ok in E2. destruct E2 as (mx & _ & _ & _ & E2).
    assert (NE : (f, s) <> (f0, s0)) by (intros [= -> ->]; apply NA; cbn; auto).
    destruct (get_allow env st f0 s0) as [[v|]|]; [| |contradiction].
    + destruct E2 as (live & -> & _). rewrite aget_allow_set. destruct (pair_dec _ _); [contradiction|reflexivity].
    + destruct E2 as [[_ ->]|(_ & live & -> & _)]; [reflexivity|].
      rewrite aget_allow_set. destruct (pair_dec _ _); [contradiction|reflexivity].
  - left. split; [reflexivity|]. bind H p E. destruct p as [st1 x]. injection H as <- <-.
    apply read_balance_ok in E. destruct E as ((_&_&_&E) & _). apply EQ, E.
  - left. split; [reflexivity|]. bind H v E. injection H as <- <-. reflexivity.
  - left. split; [reflexivity|]. bind H u E. apply check_nonneg_ok in E. bind H u1 E1.
    unfold done in H. bind H st2 E2. bind E2 st1 E3. injection H as <- <-.
    destruct (two_ok _ _ _ _ _ _ _ E3 E2 E) as ((_&_&_&R) & _). apply EQ, R.
  - bind H u E. apply check_nonneg_ok in E. bind H u1 E1.
    unfold done in H. bind H st2 E2. bind E2 st0 E3. bind E2 st1 E4. injection H as <- <-.
    destruct (two_ok _ _ _ _ _ _ _ E4 E2 E) as ((_&_&_&R) & _).
    assert (EQ2 : aget_allow (emit st2 (transfer_event st2 f0 t None x)) f s = aget_allow st0 f s)
      by (unfold aget_allow; cbn [emit s_allow]; rewrite R; reflexivity).
    rewrite EQ2. destruct (spend_allowance_entries _ _ _ _ _ _ E3 E) as [[-> S0]|(X & v & G & L & U & A & S0)].
    + left. split; [destruct (addr_dec f0 f), (addr_dec s0 s); reflexivity|]. apply EQ, S0.
    + rewrite S0. destruct (pair_dec (f, s) (f0, s0)) as [[= -> ->]|NE].
      * right. destruct (addr_dec f0 f0), (addr_dec s0 s0); try congruence. eauto 10.
      * left. destruct (addr_dec f0 f) as [->|]; [destruct (addr_dec s0 s) as [->|]|]; try congruence; auto.
  - left. split; [reflexivity|]. bind H u E. apply check_nonneg_ok in E. bind H u1 E1. bind H u2 E2.
    bind H u3 E3. unfold done in H. bind H st1 E4. injection H as <- <-.
    apply spend_balance_ok in E4; [|exact E]. destruct E4 as ((_&_&_&R) & _). apply EQ, R.
  - bind H u E. apply check_nonneg_ok in E. bind H u1 E1. bind H u2 E2.
    bind H u3 E3. unfold done in H. bind H st2 E4. bind E4 st0 E5. injection H as <- <-.
    apply spend_balance_ok in E4; [|exact E]. destruct E4 as ((_&_&_&R) & _).
    assert (EQ2 : aget_allow (emit st2 (EvBurn f0 x)) f s = aget_allow st0 f s)
      by (unfold aget_allow; cbn [emit s_allow]; rewrite R; reflexivity).
    rewrite EQ2. destruct (spend_allowance_entries _ _ _ _ _ _ E5 E) as [[-> S0]|(X & v & G & L & U & A & S0)].
    + left. split; [destruct (addr_dec f0 f), (addr_dec s0 s); reflexivity|]. apply EQ, S0.
    + rewrite S0. destruct (pair_dec (f, s) (f0, s0)) as [[= -> ->]|NE].
      * right. destruct (addr_dec f0 f0), (addr_dec s0 s0); try congruence. eauto 10.
      * left. destruct (addr_dec f0 f) as [->|]; [destruct (addr_dec s0 s) as [->|]|]; try congruence; auto.
  - left. split; [reflexivity|]. bind H u E. apply check_nonneg_ok in E. bind H u1 E1. bind H u2 E2.
    bind H ad E3. bind H u3 E4. unfold done in H. bind H st1 E5. injection H as <- <-.
    apply spend_no_check_ok in E5; [|exact E]. destruct E5 as ((_&_&_&R) & _). apply EQ, R.
  - left. split; [reflexivity|]. bind H ad E3. bind H u3 E4. unfold done in H. bind H st1 E5.
    injection H as <- <-. apply write_authorization_ok in E5. destruct E5 as ((_&_&_&R) & _). apply EQ, R.
  - left. split; [reflexivity|]. bind H u E. apply check_nonneg_ok in E. bind H u2 E2.
    bind H ad E3. bind H u3 E4. unfold done in H. bind H st1 E5. injection H as <- <-.
    apply receive_balance_ok in E5; [|exact E]. destruct E5 as ((_&_&_&R) & _). apply EQ, R.
  - left. split; [reflexivity|]. bind H ad E3. bind H u3 E4. injection H as <- <-. reflexivity.
  - left. split; [reflexivity|]. bind H v E. injection H as <- <-. reflexivity.
  - left. split; [reflexivity|]. unfold done in H. bind H st1 E. injection H as <- <-.
    apply create_trustline_ok in E. destruct E as ((_&_&_&R) & _). apply EQ, R.
Qed.

(* A successful approval. *)
Lemma approve_entries env st f s x until st' r :
  run_call env st (CApprove f s x until) = Ok (st', r) ->
  0 <= x
  /\ (0 < x -> li_seq (sv_li env) <= until)
  /\ match aget_allow st f s with
     | Some v =>
         if l_live v <? li_seq (sv_li env) then True
         else exists live,
           aget_allow st' f s = Some {| l_amount := x; l_until := until; l_live := live |}
           /\ l_live v <= live
           /\ (0 < x -> l_until v < until -> until <= live)
           /\ (x <= 0 \/ until <= l_until v -> live = l_live v)
     | None => True
     end
  /\ (match aget_allow st f s with
      | Some v => l_live v < li_seq (sv_li env)
      | None => True
      end ->
      (x = 0 /\ aget_allow st' f s = aget_allow st f s)
      \/ (0 < x /\ exists live,
            aget_allow st' f s = Some {| l_amount := x; l_until := until; l_live := live |}
            /\ (0 < until -> until <= live) /\ li_seq (sv_li env) <= live)).
Proof.
  cbn [run_call]. intro H. bind H u E. apply check_nonneg_ok in E. bind H u1 E1.
  unfold done in H. bind H st1 E2. injection H as <- <-.
  change (aget_allow (emit st1 (EvApprove f s x until)) f s) with (aget_allow st1 f s).
  apply write_allowance_ok in E2. destruct E2 as (mx & _ & _ & LE & E2).
  split; [exact E|]. split; [exact LE|].
  destruct (get_allow env st f s) as [o|] eqn:Go; [|contradiction].
  apply get_allow_ok in Go. destruct (aget_allow st f s) as [v|] eqn:G.
  - destruct (Z.ltb_spec (l_live v) (li_seq (sv_li env))) as [LT|GE]; subst o.
    + split; [exact I|]. intros _. destruct E2 as [[X ->]|(X & live & -> & A & B)].
      * left. split; [lia|exact G].
      * right. split; [exact X|]. exists live. rewrite aget_allow_set.
        destruct (pair_dec _ _); [|congruence]. auto.
    + split.
      * destruct E2 as (live & -> & A & B & C). exists live. rewrite aget_allow_set.
        destruct (pair_dec _ _); [|congruence]. auto.
      * intro. lia.
  - subst o. split; [exact I|]. intros _. destruct E2 as [[X ->]|(X & live & -> & A & B)].
    + left. split; [lia|exact G].
    + right. split; [exact X|]. exists live. rewrite aget_allow_set.
      destruct (pair_dec _ _); [|congruence]. auto.
Qed.

Lemma approve_allowance env st f s x until st' r :
  run_call env st (CApprove f s x until) = Ok (st', r) ->
  allowance_at st' (li_seq (sv_li env)) f s = x.
Proof.
  intro H. apply approve_entries in H. destruct H as (X & U & A & B).
  unfold allowance_at. destruct (aget_allow st f s) as [v|] eqn:G.
  - destruct (Z.ltb_spec (l_live v) (li_seq (sv_li env))) as [LT|GE].
    + destruct (B LT) as [[-> ->]|(X' & live & -> & _ & L)].
      * apply Z.ltb_lt in LT. rewrite LT. reflexivity.
      * cbn. specialize (U X'). destruct (Z.ltb_spec live (li_seq (sv_li env))); [lia|].
        destruct (Z.ltb_spec until (li_seq (sv_li env))); [lia|]. reflexivity.
    + destruct A as (live & -> & L & _). cbn.
      destruct (Z.ltb_spec live (li_seq (sv_li env))); [lia|].
      destruct (Z.ltb_spec until (li_seq (sv_li env))); cbn; lia.
  - destruct (B I) as [[-> ->]|(X' & live & -> & _ & L)]; [reflexivity|].
    cbn. specialize (U X'). destruct (Z.ltb_spec live (li_seq (sv_li env))); [lia|].
    destruct (Z.ltb_spec until (li_seq (sv_li env))); [lia|]. reflexivity.
Qed.

Lemma spend_lowers env st c st' r f s :
  run_call env st c = Ok (st', r) -> ~ approves f s c ->
  allowance_at st' (li_seq (sv_li env)) f s
  = allowance_at st (li_seq (sv_li env)) f s - takes f s c
  /\ (0 < takes f s c -> takes f s c <= allowance_at st (li_seq (sv_li env)) f s).
Proof.
  intros H NA. destruct (call_entries _ _ _ _ _ f s H NA) as [[T E]|(T & v & G & L & U & A & E)].
  - unfold allowance_at. rewrite E, T. split; [ring|lia].
  - unfold allowance_at. rewrite E, G. cbn [l_live l_until l_amount].
    destruct (Z.ltb_spec (l_live v) (li_seq (sv_li env))); [lia|].
    destruct (Z.ltb_spec (l_until v) (li_seq (sv_li env))); [lia|]. cbn. lia.
Qed.

(* ------------------------------------------------------ allowances, histories *)


Lemma successful_cons_ok env c r l : successful ((SCall env c, Ok r) :: l) = (env, c) :: successful l.
Proof. reflexivity. Qed.

Lemma later_allowance st seq seq1 f s :
  nonneg_allow st -> seq <= seq1 -> 0 <= allowance_at st seq1 f s <= allowance_at st seq f s.
Proof.
  intros N L. unfold allowance_at. destruct (aget_allow st f s) as [v|] eqn:G; [|lia].
  specialize (N _ _ _ G).
  destruct (Z.ltb_spec (l_live v) seq1), (Z.ltb_spec (l_until v) seq1),
    (Z.ltb_spec (l_live v) seq), (Z.ltb_spec (l_until v) seq); cbn; lia.
Qed.

Lemma nonneg_call env st c st' r :
  run_call env st c = Ok (st', r) -> nonneg_allow st -> nonneg_allow st'.
Proof.
  intros H N f s v G.
  assert (D : approves f s c \/ ~ approves f s c).
  { destruct c; cbn; try (right; tauto). destruct (addr_dec f0 f), (addr_dec s0 s); tauto. }
  destruct D as [A|A].
  - destruct c; try contradiction. destruct A as [-> ->]. apply approve_entries in H.
    destruct H as (X & _ & A & B). destruct (aget_allow st f s) as [v0|] eqn:G0.
    + destruct (Z.ltb_spec (l_live v0) (li_seq (sv_li env))) as [LT|GE].
      * destruct (B LT) as [[_ E]|(_ & live & E & _)]; rewrite E in G.
        -- injection G as <-. exact (N _ _ _ G0).
        -- injection G as <-. exact X.
      * destruct A as (live & E & _). rewrite E in G. injection G as <-. exact X.
    + destruct (B I) as [[_ E]|(_ & live & E & _)]; rewrite E in G; [discriminate|].
      injection G as <-. exact X.
  - destruct (call_entries _ _ _ _ _ f s H A) as [[_ E]|(_ & v0 & G0 & _ & _ & LE & E)]; rewrite E in G.
    + exact (N _ _ _ G).
    + injection G as <-. cbn. lia.
Qed.
Lemma nonneg_else seq r st st' : elsewhere seq r st st' -> nonneg_allow st -> nonneg_allow st'.
Proof.
  intros (_ & _ & _ & _ & A & _) N f s v G. specialize (A f s). rewrite G in A.
  destruct (aget_allow st f s) as [v0|] eqn:G0; [|contradiction].
  destruct A as (-> & _). exact (N _ _ _ G0).
Qed.
Lemma nonneg_history r seq st l seq' st' :
  history r seq st l seq' st' -> nonneg_allow st -> nonneg_allow st'.
Proof.
  induction 1 as [|seq st env c st1 o l seq' st' SL RL I H IH|seq seq1 st st1 l seq' st' SL E H IH]; auto.
  - destruct o as [rv|e].
    + intro N. apply IH. apply invoke_ok in I. eapply nonneg_call; eauto.
    + apply invoke_err in I. destruct I as [-> _]. auto.
  - intro N. apply IH. eapply nonneg_else; eauto.
Qed.

Lemma history_seq r seq st l seq' st' : history r seq st l seq' st' -> seq <= seq'.
Proof. induction 1; lia. Qed.

Lemma else_allowance seq seq1 r st st1 f s :
  elsewhere seq1 r st st1 -> seq <= seq1 -> nonneg_allow st ->
  allowance_at st1 seq1 f s = allowance_at st seq1 f s.
Proof.
  intros (_ & _ & _ & _ & A & _) L N. specialize (A f s). unfold allowance_at.
  destruct (aget_allow st f s) as [v|] eqn:G, (aget_allow st1 f s) as [v'|]; try contradiction.
  - destruct A as (-> & -> & [->|LL]); [reflexivity|].
    destruct (Z.ltb_spec (l_live v) seq1), (Z.ltb_spec (l_live v') seq1); try lia; reflexivity.
  - apply Z.ltb_lt in A. rewrite A. reflexivity.
  - reflexivity.
Qed.

Lemma allowance_bound r seq st l seq' st' f s :
  history r seq st l seq' st' -> nonneg_allow st -> not_approved f s l ->
  allowance_at st' seq' f s + taken f s l <= allowance_at st seq f s.
Proof.
  induction 1 as [|seq st env c st1 o l seq' st' SL RL I H IH|seq seq1 st st1 l seq' st' SL E H IH];
    intros N NA.
  - cbn. lia.
  - destruct o as [rv|e].
    + apply invoke_ok in I.
      assert (NA1 : ~ approves f s c) by (apply (NA env); left; reflexivity).
      destruct (spend_lowers _ _ _ _ _ f s I NA1) as [LW _].
      pose proof (later_allowance st seq (li_seq (sv_li env)) f s N SL).
      specialize (IH (nonneg_call _ _ _ _ _ I N)).
      assert (NA2 : not_approved f s l) by (intros env' c' In'; apply (NA env'); right; exact In').
      specialize (IH NA2). unfold taken in *. rewrite successful_cons_ok. cbn [sum_over fold_right snd].
      unfold sum_over in IH. lia.
    + apply invoke_err in I. destruct I as [-> _].
      specialize (IH N NA). pose proof (later_allowance st seq (li_seq (sv_li env)) f s N SL).
      change (taken f s ((SCall env c, Err e) :: l)) with (taken f s l). lia.
  - specialize (IH (nonneg_else _ _ _ _ E N) NA).
    rewrite (else_allowance seq seq1 r st st1 f s E SL N) in IH.
    pose proof (later_allowance st seq seq1 f s N SL).
    change (taken f s ((SElse, Ok RUnit) :: l)) with (taken f s l). lia.
Qed.

(* While the allowance is in force it is exactly what is left. *)
Lemma allowance_exact r seq st l seq' st' f s v :
  history r seq st l seq' st' -> not_approved f s l ->
  aget_allow st f s = Some v -> l_until v <= l_live v -> seq' <= l_until v ->
  exists v', aget_allow st' f s = Some v' /\ l_amount v' = l_amount v - taken f s l
    /\ l_until v' = l_until v /\ l_live v <= l_live v'.
Proof.
  intro H. revert v.
  induction H as [|seq st env c st1 o l seq' st' SL RL I H IH|seq seq1 st st1 l seq' st' SL E H IH];
    intros v NA G J LE.
  - exists v. split; [exact G|]. cbn. split; [ring|]. split; [reflexivity|lia].
  - destruct o as [rv|e].
    + apply invoke_ok in I.
      assert (NA1 : ~ approves f s c) by (apply (NA env); left; reflexivity).
      assert (NA2 : not_approved f s l) by (intros env' c' In'; apply (NA env'); right; exact In').
      unfold taken. rewrite successful_cons_ok. cbn [sum_over fold_right snd].
      destruct (call_entries _ _ _ _ _ f s I NA1) as [[T EE]|(T & v0 & G0 & L & U & A & EE)].
      * rewrite G in EE. destruct (IH v NA2 EE J LE) as (v' & G' & A' & U' & L').
        exists v'. unfold taken, sum_over in A'. split; [exact G'|]. split; [lia|auto].
      * rewrite G in G0. injection G0 as <-.
        destruct (IH _ NA2 EE J LE) as (v' & G' & A' & U' & L'). cbn [l_amount l_until l_live] in *.
        exists v'. unfold taken, sum_over in A'. split; [exact G'|]. split; [lia|auto].
    + apply invoke_err in I. destruct I as [-> _].
      change (taken f s ((SCall env c, Err e) :: l)) with (taken f s l). apply IH; auto.
  - change (taken f s ((SElse, Ok RUnit) :: l)) with (taken f s l).
    destruct E as (_ & _ & _ & _ & A & _). specialize (A f s). rewrite G in A.
    pose proof (history_seq _ _ _ _ _ _ H) as SQ.
    destruct (aget_allow st1 f s) as [v1|] eqn:G1; [|lia].
    destruct A as (A1 & A2 & A3).
    destruct (IH v1 NA eq_refl ltac:(lia) ltac:(lia)) as (v' & G' & A' & U' & L').
    exists v'. rewrite A', U'. split; [exact G'|]. split; [lia|]. split; [lia|]. lia.
Qed.

(* The entry of an allowance outlives it, as long as approvals of nothing do not
   name a ledger to come. *)
Definition outlives (st : sst) (f s : addr) : Prop :=
  forall v, aget_allow st f s = Some v -> l_until v <= l_live v.

Lemma approve_outlives env st f s x until st' r :
  run_call env st (CApprove f s x until) = Ok (st', r) ->
  0 <= li_seq (sv_li env) ->
  (x = 0 -> until <= li_seq (sv_li env)) ->
  (outlives st f s \/ (0 < x /\ forall v, aget_allow st f s = Some v ->
                         l_live v < li_seq (sv_li env) \/ l_until v < until)) ->
  outlives st' f s.
Proof.
  intros H S0 Cl J. apply approve_entries in H. destruct H as (X & U & A & B).
  intros v G. destruct (aget_allow st f s) as [v0|] eqn:G0.
  - destruct (Z.ltb_spec (l_live v0) (li_seq (sv_li env))) as [LT|GE].
    + destruct (B LT) as [[-> E]|(X' & live & E & P & Q)]; rewrite E in G.
      * injection G as <-. destruct J as [J|[? _]]; [exact (J _ G0)|lia].
      * injection G as <-. cbn. lia.
    + destruct A as (live & E & L & P & Q). rewrite E in G. injection G as <-.
      cbn [l_until l_live].
      destruct (Z.eq_dec x 0) as [->|NX]; [specialize (Cl eq_refl); lia|].
      destruct (Z.ltb_spec (l_until v0) until) as [LU|LU]; [apply P; lia|].
      destruct J as [J|[_ J]]; [specialize (J _ G0)|specialize (J _ eq_refl)]; lia.
  - destruct (B I) as [[-> E]|(X' & live & E & P & Q)]; rewrite E in G; [discriminate|].
    injection G as <-. cbn. lia.
Qed.

Lemma outlives_history r seq st l seq' st' f s :
  history r seq st l seq' st' -> 0 <= seq -> clears_now f s l -> outlives st f s -> outlives st' f s.
Proof.
  induction 1 as [|seq st env c st1 o l seq' st' SL RL I H IH|seq seq1 st st1 l seq' st' SL E H IH];
    intros S0 CN J; auto.
  - destruct o as [rv|e].
    + apply invoke_ok in I. apply IH; [lia|intros env' u In'; apply CN; right; exact In'|].
      assert (D : approves f s c \/ ~ approves f s c).
      { destruct c; cbn; try (right; tauto). destruct (addr_dec f0 f), (addr_dec s0 s); tauto. }
      destruct D as [A|A].
      * destruct c; try contradiction. destruct A as [-> ->].
        eapply approve_outlives; eauto; [lia|]. intros ->. apply CN. left. reflexivity.
      * intros v G. destruct (call_entries _ _ _ _ _ f s I A) as [[_ E]|(_ & v0 & G0 & _ & _ & LE & E)]; rewrite E in G.
        -- exact (J _ G).
        -- injection G as <-. cbn. exact (J _ G0).
    + apply invoke_err in I. destruct I as [-> _]. apply IH; [lia|exact CN|exact J].
  - apply IH; [lia|exact CN|]. intros v G.
    destruct E as (_ & _ & _ & _ & A & _). specialize (A f s). rewrite G in A.
    destruct (aget_allow st f s) as [v0|] eqn:G0; [|contradiction].
    specialize (J _ G0). lia.
Qed.

Lemma approved_usable env st f s x until st1 rv r l seq' st' :
  run_call env st (CApprove f s x until) = Ok (st1, rv) ->
  0 < x -> 0 <= li_seq (sv_li env) ->
  (outlives st f s \/ forall v, aget_allow st f s = Some v ->
                        l_live v < li_seq (sv_li env) \/ l_until v < until) ->
  history r (li_seq (sv_li env)) st1 l seq' st' -> not_approved f s l ->
  seq' <= until ->
  allowance_at st' seq' f s = x - taken f s l.
Proof.
  intros H X S0 J Hh NA LE.
  assert (O : outlives st1 f s).
  { eapply approve_outlives; eauto; [lia|]. destruct J; auto. }
  pose proof (approve_entries _ _ _ _ _ _ _ _ H) as (_ & _ & A & B).
  assert (G : exists live, aget_allow st1 f s = Some {| l_amount := x; l_until := until; l_live := live |}).
  { destruct (aget_allow st f s) as [v|].
    - destruct (Z.ltb_spec (l_live v) (li_seq (sv_li env))) as [LT|GE].
      + destruct (B LT) as [[? _]|(_ & live & E & _)]; [lia|eauto].
      + destruct A as (live & E & _). eauto.
    - destruct (B I) as [[? _]|(_ & live & E & _)]; [lia|eauto]. }
  destruct G as [live G]. pose proof (O _ G) as OL. cbn in OL.
  destruct (allowance_exact _ _ _ _ _ _ f s _ Hh NA G OL LE) as (v' & G' & A' & U' & L').
  cbn [l_amount l_until l_live] in *. unfold allowance_at. rewrite G'.
  destruct (Z.ltb_spec (l_live v') seq'); [lia|].
  destruct (Z.ltb_spec (l_until v') seq'); [lia|]. cbn. exact A'.
Qed.

(* ----------------------------------------------- holdings, limits, events *)



Lemma calls_only_tail p l x : calls_only (p :: l) x -> calls_only l x.
Proof. intros [H|H]; [left|right; exact H]. intros o I. apply (H o). right. exact I. Qed.

Lemma else_contract seq r st st' id :
  elsewhere seq r st st' -> holds st' (AContract id) = holds st (AContract id).
Proof.
  intros (_ & _ & _ & B & _). specialize (B (AContract id)). cbn [holds].
  destruct (aget_bal st (AContract id)), (aget_bal st' (AContract id)); try contradiction; [apply B|reflexivity].
Qed.

Lemma history_asset r seq st l seq' st' :
  history r seq st l seq' st' -> s_asset st' = s_asset st.
Proof.
  induction 1 as [|seq st env c st1 o l seq' st' SL RL I H IH|seq seq1 st st1 l seq' st' SL E H IH]; auto.
  - rewrite IH. destruct o as [rv|e].
    + apply invoke_ok, run_call_ok in I. apply I.
    + apply invoke_err in I. destruct I as [-> _]. reflexivity.
  - rewrite IH. apply E.
Qed.

Lemma history_moves r seq st l seq' st' x :
  history r seq st l seq' st' -> ~ the_issuer st x -> calls_only l x ->
  holds st' x = holds st x + total_move x l.
Proof.
  induction 1 as [|seq st env c st1 o l seq' st' SL RL I H IH|seq seq1 st st1 l seq' st' SL E H IH];
    intros NI CO.
  - cbn. ring.
  - destruct o as [rv|e].
    + apply invoke_ok, run_call_ok in I.
      rewrite IH; [|rewrite (the_issuer_eq st st1 x (cs_asset _ _ _ _ I)); exact NI|eapply calls_only_tail; eauto].
      destruct (cs_moved _ _ _ _ I) as [_ M]. rewrite (M x NI).
      unfold total_move. rewrite successful_cons_ok. cbn. unfold sum_over. ring.
    + apply invoke_err in I. destruct I as [-> _].
      rewrite IH; [reflexivity|exact NI|eapply calls_only_tail; eauto].
  - destruct CO as [CO|[id ->]]; [exfalso; apply (CO (Ok RUnit)); left; reflexivity|].
    rewrite IH; [|rewrite (the_issuer_eq st st1 _ (proj1 E)); exact NI|right; eauto].
    rewrite (else_contract _ _ _ _ _ E). reflexivity.
Qed.

Lemma history_limits r seq st l seq' st' :
  history r seq st l seq' st' -> limits r st -> limits r st'.
Proof.
  induction 1 as [|seq st env c st1 o l seq' st' SL RL I H IH|seq seq1 st st1 l seq' st' SL E H IH]; auto.
  - intro L. apply IH. destruct o as [rv|e].
    + apply invoke_ok, run_call_ok in I. apply I; auto.
    + apply invoke_err in I. destruct I as [-> _]. exact L.
  - intro L. apply IH, E, L.
Qed.

Lemma sum_over_app {A} (f : A -> Z) l l' : sum_over f (l ++ l') = sum_over f l + sum_over f l'.
Proof. induction l as [|a l IH]; cbn; [reflexivity|]. unfold sum_over in *. rewrite IH. ring. Qed.

Lemma history_events r seq st l seq' st' x :
  history r seq st l seq' st' -> ~ the_issuer st x -> calls_only l x ->
  exists evs, s_events st' = s_events st ++ evs
    /\ holds st' x = holds st x + sum_over (effect x) evs.
Proof.
  induction 1 as [|seq st env c st1 o l seq' st' SL RL I H IH|seq seq1 st st1 l seq' st' SL E H IH];
    intros NI CO.
  - exists []. split; [symmetry; apply app_nil_r|cbn; ring].
  - destruct o as [rv|e].
    + apply invoke_ok, run_call_ok in I.
      destruct IH as (evs & EV & HH);
        [rewrite (the_issuer_eq st st1 x (cs_asset _ _ _ _ I)); exact NI|eapply calls_only_tail; eauto|].
      destruct (cs_events _ _ _ _ I) as (ev1 & E1 & F1).
      exists (ev1 ++ evs). split; [rewrite EV, E1, app_assoc; reflexivity|].
      rewrite HH, sum_over_app, (F1 x NI). destruct (cs_moved _ _ _ _ I) as [_ M].
      rewrite (M x NI). ring.
    + apply invoke_err in I. destruct I as [-> _].
      apply IH; [exact NI|eapply calls_only_tail; eauto].
  - destruct CO as [CO|[id ->]]; [exfalso; apply (CO (Ok RUnit)); left; reflexivity|].
    destruct IH as (evs & EV & HH);
      [rewrite (the_issuer_eq st st1 _ (proj1 E)); exact NI|right; eauto|].
    exists evs. split.
    + rewrite EV. f_equal. apply E.
    + rewrite HH, (else_contract _ _ _ _ _ E). reflexivity.
Qed.

(* --------------------------------------------------------- whose say it is *)


Lemma zero_later st seq seq1 f s :
  seq <= seq1 -> allowance_at st seq f s = 0 -> allowance_at st seq1 f s = 0.
Proof.
  intros L. unfold allowance_at. destruct (aget_allow st f s) as [v|]; [|auto].
  destruct (Z.ltb_spec (l_live v) seq1), (Z.ltb_spec (l_until v) seq1),
    (Z.ltb_spec (l_live v) seq), (Z.ltb_spec (l_until v) seq); cbn; lia.
Qed.

Lemma sum_for_nonneg x l : (forall d, In (x, d) l -> 0 <= d) -> 0 <= sum_for x l.
Proof.
  induction l as [|[a d] l IH]; cbn; intro H; [lia|].
  assert (0 <= sum_for x l) by (apply IH; intros; apply H; right; assumption).
  destruct (addr_dec a x) as [->|]; [specialize (H d (or_introl eq_refl))|]; lia.
Qed.

Lemma one_call_falls env st c st' r x :
  run_call env st c = Ok (st', r) -> ~ the_issuer st x -> holds st' x < holds st x ->
  sv_auth env x = Ok tt
  \/ (exists s a, takes x s c = a /\ 0 < a <= allowance_at st (li_seq (sv_li env)) x s
        /\ sv_auth env s = Ok tt)
  \/ (exists a ad, c = CClawback x a /\ s_admin st = Some ad /\ sv_auth env ad = Ok tt).
Proof.
  intros H NI LT. pose proof (run_call_ok _ _ _ _ _ H) as CS.
  destruct (cs_moved _ _ _ _ CS) as [_ M]. specialize (M x NI).
  pose proof (cs_needs _ _ _ _ CS) as ND. pose proof (cs_amount _ _ _ _ CS) as AM.
  pose proof (cs_adm_set _ _ _ _ CS) as AS.
  assert (NEG : sum_for x (moves c) < 0) by lia. clear M LT.
  destruct c as [f0 s0|f0 s0 y until|a|a|f0 to y|s0 f0 t y|f0 y|s0 f0 y|f0 y|a b|t y|a| |a];
    cbn [moves sum_for amount_of needs] in *; try lia.
  - specialize (AM _ eq_refl). destruct (addr_dec f0 x) as [->|]; [|destruct (addr_dec (plain to) x); lia].
    left. auto.
  - specialize (AM _ eq_refl). destruct (addr_dec f0 x) as [->|]; [|destruct (addr_dec t x); lia].
    right. left. exists s0, y.
    assert (T : takes x s0 (CTransferFrom s0 x t y) = y)
      by (cbn; destruct (addr_dec x x), (addr_dec s0 s0); congruence).
    split; [exact T|]. split; [|auto].
    destruct (spend_lowers _ _ _ _ _ x s0 H) as [_ B]; [auto|]. rewrite T in B.
    destruct (addr_dec t x); lia.
  - specialize (AM _ eq_refl). destruct (addr_dec f0 x) as [->|]; [|lia]. left. auto.
  - specialize (AM _ eq_refl). destruct (addr_dec f0 x) as [->|]; [|lia].
    right. left. exists s0, y.
    assert (T : takes x s0 (CBurnFrom s0 x y) = y)
      by (cbn; destruct (addr_dec x x), (addr_dec s0 s0); congruence).
    split; [exact T|]. split; [|auto].
    destruct (spend_lowers _ _ _ _ _ x s0 H) as [_ B]; [auto|]. rewrite T in B. lia.
  - destruct (addr_dec f0 x) as [->|]; [|lia]. right. right.
    destruct (s_admin st) as [ad|] eqn:AD; [|contradiction]. exists y, ad. auto.
  - specialize (AM _ eq_refl). destruct (addr_dec t x); lia.
Qed.

Lemma untouched_without_consent r seq st l seq' st' x :
  history r seq st l seq' st' -> ~ the_issuer st x -> calls_only l x ->
  never_authorizes x l -> no_clawback_of x l ->
  (forall s, allowance_at st seq x s = 0) ->
  holds st x <= holds st' x.
Proof.
  intro H.
  induction H as [|seq st env c st1 o l seq' st' SL RL I H IH|seq seq1 st st1 l seq' st' SL E H IH];
    intros NI CO NA NC Z0.
  - lia.
  - destruct o as [rv|e].
    + apply invoke_ok in I. pose proof (run_call_ok _ _ _ _ _ I) as CS.
      assert (NA1 : sv_auth env x <> Ok tt) by (apply (NA env c); left; reflexivity).
      assert (Z1 : forall s, allowance_at st (li_seq (sv_li env)) x s = 0)
        by (intro s; eapply zero_later; eauto).
      assert (Z2 : forall s, allowance_at st1 (li_seq (sv_li env)) x s = 0).
      { intro s. assert (NP : ~ approves x s c).
        { intro A. destruct c; try contradiction. destruct A as [-> ->].
          apply NA1. apply (cs_needs _ _ _ _ CS). reflexivity. }
        destruct (spend_lowers _ _ _ _ _ x s I NP) as [A B].
        pose proof (takes_nonneg x s c _ _ _ _ I). rewrite Z1 in *. lia. }
      assert (HH : holds st x <= holds st1 x).
      { destruct (Z.ltb_spec (holds st1 x) (holds st x)) as [LT|]; [exfalso|assumption].
        destruct (one_call_falls _ _ _ _ _ x I NI LT) as [A|[(s & a & T & B & _)|(a & ad & -> & _)]].
        - contradiction.
        - rewrite Z1 in B. lia.
        - apply (NC env a). left. reflexivity. }
      assert (holds st1 x <= holds st' x); [|lia].
      apply IH.
      * rewrite (the_issuer_eq st st1 x (cs_asset _ _ _ _ CS)). exact NI.
      * eapply calls_only_tail; eauto.
      * intros env' c' In'. apply (NA env' c'). right. exact In'.
      * intros env' a In'. apply (NC env' a). right. exact In'.
      * exact Z2.
    + apply invoke_err in I. destruct I as [-> _].
      apply IH; auto; [eapply calls_only_tail; eauto|]. intro s. eapply zero_later; eauto.
  - destruct CO as [CO|[id ->]]; [exfalso; apply (CO (Ok RUnit)); left; reflexivity|].
    rewrite <- (else_contract _ _ _ _ _ E). apply IH; auto.
    + rewrite (the_issuer_eq st st1 _ (proj1 E)). exact NI.
    + right. eauto.
    + intro s. specialize (zero_later st seq seq1 (AContract id) s SL (Z0 s)). intro Z1.
      destruct E as (_ & _ & _ & _ & A & _). specialize (A (AContract id) s).
      unfold allowance_at in *.
      destruct (aget_allow st (AContract id) s) as [v|], (aget_allow st1 (AContract id) s) as [v'|];
        try contradiction; try reflexivity.
      destruct A as (-> & -> & [->|LL]); [exact Z1|].
      destruct (Z.ltb_spec (l_live v) seq1); [lia|].
      destruct (Z.ltb_spec (l_live v') seq1); [lia|]. exact Z1.
Qed.
