(* What can be clawed back: fixed when the balance of a contract comes into being. *)
From Coq Require Import ZArith Lia List Bool.
From Verif Require Import Prelude ValModel HeapModel AMap StorageModel SacModel SacSpec SacProofs SacProofs2.
Import ListNotations.
Open Scope Z_scope.

Definition claws_kept (st st' : sst) : Prop :=
  s_asset st' = s_asset st /\ issuer_claws st' = issuer_claws st
  /\ forall a, match aget_bal st' a with
               | Some b' => b_claw b' = match aget_bal st a with Some b => b_claw b | None => issuer_claws st end
               | None => aget_bal st a = None
               end.
Lemma claws_refl st : claws_kept st st.
Proof. split; auto. split; auto. intros a. destruct (aget_bal st a); auto. Qed.
Lemma claws_trans a b c : claws_kept a b -> claws_kept b c -> claws_kept a c.
Proof.
  intros (A1 & A2 & A3) (B1 & B2 & B3). split; [congruence|]. split; [congruence|]. intros x.
  specialize (A3 x). specialize (B3 x). destruct (aget_bal c x), (aget_bal b x); try congruence.
  now rewrite B3, A2, A3.
Qed.
(* a state that differs in neither asset, accounts nor balances *)
Lemma claws_other st st' : s_asset st' = s_asset st -> s_acc st' = s_acc st -> s_bal st' = s_bal st -> claws_kept st st'.
Proof.
  intros A B C. unfold claws_kept, issuer_claws, aget_acc, aget_bal. rewrite A, B, C. split; auto. split; auto.
  intros a. destruct (aget addr_dec (s_bal st) a); auto.
Qed.
Lemma claws_bal st a bv :
  b_claw bv = match aget_bal st a with Some b => b_claw b | None => issuer_claws st end ->
  claws_kept st (set_bals st (aset addr_dec (s_bal st) a bv)).
Proof.
  intros B. split; [reflexivity|]. split; [reflexivity|]. intros x. unfold aget_bal in *. cbn [set_bals s_bal].
  rewrite aget_aset. destruct (addr_dec x a) as [->|]; [exact B|]. destruct (aget addr_dec (s_bal st) x); auto.
Qed.

Section Env.
Variable env : senv.

Lemma flag_claws st b : issuer_flag env st acc_clawback = Ok b -> b = issuer_claws st.
Proof.
  intro H. apply issuer_flag_ok in H. unfold issuer_claws. destruct (s_asset st); [exact H|].
  destruct H as (ac & -> & ->). change acc_clawback with (2 ^ 3). apply has_flag_bit. lia.
Qed.

Lemma claws_classic st k x st' : transfer_classic env st k x = Ok st' -> claws_kept st st'.
Proof.
  unfold transfer_classic. destruct (s_asset st) as [|c i] eqn:SA.
  - intro H. apply transfer_account_ok in H. destruct H as (a' & -> & _).
    split; [reflexivity|]. split; [unfold issuer_claws; cbn [set_accs s_asset]; rewrite SA; reflexivity|].
    intros a. change (aget_bal (set_accs st (aset key_dec (s_acc st) k a')) a) with (aget_bal st a).
    destruct (aget_bal st a); auto.
  - destruct (key_dec i k); [intros [= <-]; apply claws_refl|].
    intro H. apply transfer_trustline_ok in H. destruct H as (t & _ & -> & _). now apply claws_other.
Qed.

Lemma claws_spend st a x st' : spend_no_check env st a x = Ok st' -> claws_kept st st'.
Proof.
  unfold spend_no_check. intro H. destruct a as [k|id|i k|dd p]; try discriminate.
  - apply rbind_ok in H. destruct H as (y & _ & H). eapply claws_classic; eauto.
  - apply rbind_ok in H. destruct H as (o & E & H). apply get_bal_ok in E. destruct E as [G _].
    destruct o as [b|].
    + destruct (b_amount b <? x); [discriminate|]. apply rbind_ok in H. destruct H as (n & _ & H).
      apply write_contract_balance_ok in H. destruct H as [live ->]. apply claws_bal. now rewrite G.
    + destruct (x >? 0); [discriminate|]. injection H as <-. apply claws_refl.
Qed.

Lemma claws_spend_balance st a x st' : spend_balance env st a x = Ok st' -> claws_kept st st'.
Proof.
  unfold spend_balance. intro H. apply rbind_ok in H. destruct H as (ok & _ & H).
  destruct (negb ok); [discriminate|]. eapply claws_spend; eauto.
Qed.

Lemma claws_receive st a x st' : receive_balance env st a x = Ok st' -> claws_kept st st'.
Proof.
  unfold receive_balance. intro H. apply rbind_ok in H. destruct H as (ok & _ & H).
  destruct (negb ok); [discriminate|]. destruct a as [k|id|i k|dd p]; try discriminate.
  - apply rbind_ok in H. destruct H as (y & _ & H). eapply claws_classic; eauto.
  - apply rbind_ok in H. destruct H as (o & E & H). apply get_bal_ok in E. destruct E as [G _].
    apply rbind_ok in H. destruct H as ([[x0 au] cl] & E & H). apply rbind_ok in H. destruct H as (n & _ & H).
    apply write_contract_balance_ok in H. destruct H as [live ->]. apply claws_bal. rewrite G. cbn [b_claw].
    destruct o as [b|].
    + now injection E as _ _ <-.
    + apply rbind_ok in E. destruct E as (c & E1 & E). injection E as _ _ <-. now apply flag_claws.
Qed.

Lemma claws_allow st f s x st' : spend_allowance env st f s x = Ok st' -> claws_kept st st'.
Proof. intro H. apply spend_allowance_ok in H. destruct H as ([m ->] & _). now apply claws_other. Qed.

Lemma claws_read st a st' x : read_balance env st a = Ok (st', x) -> claws_kept st st'.
Proof.
  unfold read_balance. intro H. destruct a as [k|id|i k|dd p]; try discriminate.
  - apply rbind_ok in H. destruct H as (v & _ & H). injection H as <- _. apply claws_refl.
  - apply rbind_ok in H. destruct H as (o & E & H). apply get_bal_ok in E. destruct E as [G _].
    destruct o as [b|]; [|injection H as <- _; apply claws_refl].
    apply rbind_ok in H. destruct H as (live & _ & H). injection H as <- _. apply claws_bal. now rewrite G.
Qed.

Lemma claws_authorize st a b st' : write_authorization env st a b = Ok st' -> claws_kept st st'.
Proof.
  unfold write_authorization. intro H. apply rbind_ok in H. destruct H as (rv & _ & H).
  destruct (negb rv); [discriminate|]. destruct a as [k|id|i k|dd p]; try discriminate.
  - unfold set_authorization in H. destruct (s_asset st); [discriminate|]. destruct (key_dec issuer k); [discriminate|].
    apply rbind_ok in H. destruct H as (t & _ & H).
    destruct (eqb _ _); [injection H as <-; apply claws_refl|].
    apply rbind_ok in H. destruct H as (u & _ & H). injection H as <-. now apply claws_other.
  - apply rbind_ok in H. destruct H as (o & E & H). apply get_bal_ok in E. destruct E as [G _].
    destruct o as [bv|].
    + apply write_contract_balance_ok in H. destruct H as [live ->]. apply claws_bal. now rewrite G.
    + apply rbind_ok in H. destruct H as (c & E & H). apply write_contract_balance_ok in H.
      destruct H as [live ->]. apply claws_bal. rewrite G. now apply flag_claws.
Qed.

Lemma claws_trust st a st' : create_trustline env st a = Ok st' -> claws_kept st st'.
Proof.
  intro H. apply create_trustline_ok in H. destruct H as (_ & _ & _ & _ & SB & [[-> _]|H]); [apply claws_refl|].
  destruct H as (k & c & i & ic & ac & ac' & t & _ & SA & NI & _ & _ & _ & -> & _).
  split; [reflexivity|]. split.
  - unfold issuer_claws. cbn [set_accs set_tls s_asset]. rewrite SA. unfold aget_acc. cbn [set_accs s_acc set_tls].
    rewrite aget_aset_ne by congruence. reflexivity.
  - intros x. unfold aget_bal. rewrite SB. destruct (aget addr_dec (s_bal st) x); auto.
Qed.

Lemma claws_emit st st' ev : claws_kept st st' -> claws_kept st (emit st' ev).
Proof. intro H. exact H. Qed.

Lemma run_call_claws st c st' r : run_call env st c = Ok (st', r) -> claws_kept st st'.
Proof.
  intro H. destruct c as [f s|f s x until|a|a|f to x|s f t x|f x|s f x|f x|a b|t x|a| |a]; cbn [run_call] in H;
    unfold done in H; repeat (apply rbind_ok in H; destruct H as (? & ? & H));
    try (injection H as <- _); try apply claws_emit; try apply claws_refl;
    repeat match goal with X : rbind _ _ = Ok _ |- _ => apply rbind_ok in X; destruct X as (? & ? & X) end.
  - match goal with X : write_allowance _ _ _ _ _ _ = Ok _ |- _ => apply write_allowance_only in X; destruct X as [m ->] end.
    now apply claws_other.
  - match goal with X : read_balance _ _ _ = Ok ?p |- _ => destruct p; cbn [fst]; eapply claws_read; eauto end.
  - eapply claws_trans; [eapply claws_spend_balance|eapply claws_receive]; eauto.
  - eapply claws_trans; [eapply claws_allow; eauto|].
    eapply claws_trans; [eapply claws_spend_balance|eapply claws_receive]; eauto.
  - eapply claws_spend_balance; eauto.
  - eapply claws_trans; [eapply claws_allow; eauto|eapply claws_spend_balance; eauto].
  - eapply claws_spend; eauto.
  - eapply claws_authorize; eauto.
  - eapply claws_receive; eauto.
  - now apply claws_other.
  - eapply claws_trust; eauto.
Qed.
End Env.

(* ------------------------------------------------------------------ events *)

Lemma transfer_event_move st st' f t x : s_asset st' = s_asset st ->
  transfer_event st' f (mux_addr t) (mux_id t) x =
  match s_asset st with
  | Native => EvTransfer f (plain t) (mux_id t) x
  | Credit _ i =>
      if addr_dec f (plain t) then EvTransfer f (plain t) (mux_id t) x
      else if addr_dec f (AAccount i) then EvMint (plain t) (mux_id t) x
      else if addr_dec (plain t) (AAccount i) then EvBurn f x
      else EvTransfer f (plain t) (mux_id t) x
  end.
Proof.
  intros A. rewrite <- plain_mux. unfold transfer_event.
  assert (IS : forall a, is_issuer st' a = match s_asset st with Native => false | Credit _ i => if addr_dec a (AAccount i) then true else false end).
  { intros a. pose proof (is_issuer_true st' a) as I. unfold the_issuer in I. rewrite A in I.
    destruct (is_issuer st' a), (s_asset st) as [|c i]; try tauto.
    - destruct (addr_dec a (AAccount i)) as [|N]; [reflexivity|]. destruct N. now apply I.
    - destruct (addr_dec a (AAccount i)) as [e|]; [|reflexivity]. apply I in e. discriminate. }
  rewrite !IS. destruct (s_asset st) as [|c i]; destruct (addr_dec f (plain t)); try reflexivity.
  destruct (addr_dec f (AAccount i)); [reflexivity|]. destruct (addr_dec (plain t) (AAccount i)); reflexivity.
Qed.

Lemma receive_not_muxed env st i k x st' : receive_balance env st (AMuxed i k) x <> Ok st'.
Proof. unfold receive_balance. cbn. discriminate. Qed.

Lemma run_call_announces env st c st' r : run_call env st c = Ok (st', r) ->
  s_events st' = s_events st ++ announces st c.
Proof.
  intro H. pose proof H as H0.
  destruct c as [f s|f s x until|a|a|f to x|s f t x|f x|s f x|f x|a b|t x|a| |a]; cbn [run_call] in H;
    unfold done in H; repeat (apply rbind_ok in H; destruct H as (? & ? & H));
    try (injection H as <- _); cbn [announces emit s_events];
    repeat match goal with X : check_nonnegative _ = Ok _ |- _ => apply check_nonneg_ok in X end;
    repeat match goal with X : rbind _ _ = Ok _ |- _ => apply rbind_ok in X; destruct X as (? & ? & X) end;
    repeat match goal with
      | X : spend_allowance _ _ _ _ _ = Ok _ |- _ => apply spend_allowance_ok in X; destruct X as ([? ->] & _)
      | X : write_allowance _ _ _ _ _ _ = Ok _ |- _ => apply write_allowance_only in X; destruct X as [? ->]
      | X : spend_balance _ _ _ _ = Ok _ |- _ => apply spend_balance_ok in X; [|assumption]; destruct X as ((? & ? & ? & ?) & _)
      | X : spend_no_check _ _ _ _ = Ok _ |- _ => apply spend_no_check_ok in X; [|assumption]; destruct X as ((? & ? & ? & ?) & _)
      end;
    cbn [set_allows s_events s_asset] in *.
  - now rewrite app_nil_r.
  - reflexivity.
  - match goal with X : read_balance _ _ _ = Ok ?p |- _ => destruct p; apply read_balance_ok in X; destruct X as ((? & ? & X & ?) & _) end.
    cbn [fst]. rewrite app_nil_r. congruence.
  - now rewrite app_nil_r.
  - match goal with X : receive_balance _ _ _ _ = Ok _ |- _ => apply receive_balance_ok in X; [|assumption]; destruct X as ((? & ? & ? & ?) & _) end.
    f_equal; [congruence|]. f_equal. erewrite transfer_event_move by (etransitivity; eassumption). reflexivity.
  - match goal with X : receive_balance _ _ ?t _ = Ok _ |- _ => assert (NM : mux_addr t = t /\ mux_id t = None)
      by (destruct t; auto; now apply receive_not_muxed in X) end.
    match goal with X : receive_balance _ _ _ _ = Ok _ |- _ => apply receive_balance_ok in X; [|assumption]; destruct X as ((? & ? & ? & ?) & _) end.
    f_equal; [congruence|]. f_equal. destruct NM as [N1 N2]. rewrite <- N1 at 1. rewrite <- N2 at 1.
    erewrite transfer_event_move by (etransitivity; eassumption). reflexivity.
  - f_equal; congruence.
  - f_equal; congruence.
  - f_equal; congruence.
  - match goal with X : write_authorization _ _ _ _ = Ok _ |- _ => apply write_authorization_ok in X; destruct X as ((? & ? & ? & ?) & _) end.
    f_equal; congruence.
  - match goal with X : receive_balance _ _ _ _ = Ok _ |- _ => apply receive_balance_ok in X; [|assumption]; destruct X as ((? & ? & ? & ?) & _) end.
    f_equal; congruence.
  - match goal with X : read_admin st = Ok _ |- _ => unfold read_admin in X; destruct (s_admin st); [injection X as ->|discriminate] end.
    reflexivity.
  - now rewrite app_nil_r.
  - match goal with X : create_trustline _ _ _ = Ok _ |- _ => apply create_trustline_ok in X; destruct X as ((? & ? & ? & ?) & _) end.
    rewrite app_nil_r. congruence.
Qed.
