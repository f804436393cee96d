(* Calls of the asset contract that must succeed do. *)
From Coq Require Import ZArith Lia List Bool.
From Verif Require Import Prelude ValModel HeapModel AMap StorageModel SacModel SacSpec SacProofs
  SacProofs2 SacProofs3.
Import ListNotations.
Open Scope Z_scope.

Section Works.
Variable env : senv.
Hypothesis OPEN : open_env env.

Lemma rd k : sv_read env k = Ok tt. Proof. apply OPEN. Qed.
Lemma wr k : sv_write env k = Ok tt. Proof. apply OPEN. Qed.

Lemma max_live_works : exists mx, get_max_live_until (sv_li env) = Ok mx.
Proof.
  destruct OPEN as (_ & _ & _ & S0 & A & _ & _ & _ & B & _).
  unfold get_max_live_until, max_live_until, checked_add_u32, sat_sub_u32.
  destruct (Z.leb_spec (li_seq (sv_li env) + Z.max 0 (li_max_ttl (sv_li env) - 1)) u32_max); [eauto|lia].
Qed.
Lemma min_live_works : exists mn, get_min_live_until (sv_li env) Persistent = Ok mn.
Proof.
  destruct OPEN as (_ & _ & _ & S0 & _ & A & _ & _ & _ & B).
  unfold get_min_live_until, min_live_until, checked_add_u32, sat_sub_u32.
  destruct (Z.leb_spec (li_seq (sv_li env) + Z.max 0 (li_min_persistent (sv_li env) - 1)) u32_max); [eauto|lia].
Qed.
Lemma extend_balance_works live :
  exists n, extend_live env Persistent live balance_threshold balance_extend = Ok n.
Proof.
  destruct max_live_works as [mx E]. unfold extend_live. rewrite E. cbn [rbind andb].
  destruct OPEN as (_ & _ & _ & S0 & _ & _ & A & _).
  unfold balance_threshold, balance_extend, day, checked_add_u32.
  destruct (Z.ltb_spec (30 * 17280) (30 * 17280 - 17280)); [lia|].
  destruct (Z.leb_spec (li_seq (sv_li env) + 30 * 17280) u32_max); [eauto|lia].
Qed.
Lemma get_bal_works st a : not_archived env st a -> get_bal env st a = Ok (aget_bal st a).
Proof.
  unfold get_bal, not_archived, aget_bal. intro H. rewrite rd. cbn [rbind].
  destruct (aget addr_dec (s_bal st) a) as [b|]; [|reflexivity].
  specialize (H _ eq_refl). destruct (Z.ltb_spec (b_live b) (li_seq (sv_li env))); [lia|reflexivity].
Qed.
Lemma write_balance_works st a x au cl :
  not_archived env st a -> exists st', write_contract_balance env st a x au cl = Ok st'.
Proof.
  intro H. unfold write_contract_balance. rewrite (get_bal_works _ _ H). cbn [rbind].
  assert (L : exists l, match aget_bal st a with
                        | Some b => Ok (b_live b) | None => get_min_live_until (sv_li env) Persistent end = Ok l).
  { destruct (aget_bal st a); [eauto|apply min_live_works]. }
  destruct L as [l ->]. cbn [rbind]. rewrite wr. cbn [rbind]. destruct (extend_balance_works l) as [n ->]. cbn [rbind]. eauto.
Qed.
Lemma issuer_flag_works st f :
  match s_asset st with Native => True | Credit _ i => exists ac, aget_acc st i = Some ac end ->
  exists b, issuer_flag env st f = Ok b.
Proof.
  unfold issuer_flag, load_account, aget_acc. destruct (s_asset st) as [|c i]; [eauto|].
  intros [ac ->]. rewrite rd. cbn. eauto.
Qed.

Lemma is_authorized_works st a :
  may_move st a -> not_archived env st a -> is_authorized env st a = Ok true.
Proof.
  intros M NA. assert (E : exists b, is_authorized env st a = Ok b).
  { destruct a as [k|id|i k|dd p]; cbn in M; try contradiction; cbn [is_authorized].
    - unfold account_authorized, read_trustline. destruct (s_asset st) as [|c i]; [eauto|].
      destruct (key_dec i k); [eauto|]. rewrite rd. cbn [rbind].
      destruct M as [->|(t & G & _)]; [congruence|]. unfold aget_tl in G. rewrite G. cbn. eauto.
    - rewrite (get_bal_works _ _ NA). cbn [rbind]. change (aget addr_dec (s_bal st) (AContract id)) with (aget_bal st (AContract id)) in M.
      destruct (aget_bal st (AContract id)); [eauto|].
      destruct (issuer_flag_works st acc_required) as [b ->]; [|cbn; eauto].
      destruct (s_asset st) as [|c i]; [exact I|]. destruct M as (ac & G & _). eauto. }
  destruct E as [[|] E]; [exact E|]. apply is_authorized_ok in E. contradiction.
Qed.

Lemma account_min_max_works r st k a :
  r = sv_reserve env -> limits r st -> counts_ok st -> aget_acc st k = Some a ->
  account_min_max env a
  = Ok (sv_reserve env * acc_entries a + acc_selling a, 2 ^ 63 - 1 - acc_buying a).
Proof.
  intros -> (_ & LA & _) C G. specialize (LA _ _ G). specialize (C _ _ G).
  destruct LA as (N & SE & BU & MN & MX). destruct C as [SUB C].
  assert (R0 : 0 <= sv_reserve env) by apply OPEN.
  unfold account_min_max, acc_entries, acc_selling, acc_buying in *.
  rewrite pow63 in *. change (2 ^ 32) with 4294967296 in *.
  assert (P0 : 0 <= sv_reserve env * (2 + sa_sub a + match sa_ext a with
      | Some (_, _, Some (ing, ed)) => ing - ed | _ => 0 end)) by (apply Z.mul_nonneg_nonneg; lia).
  destruct (Z.ltb_spec (sa_bal a) 0) as [X|_].
  { exfalso. lia. }
  destruct (sa_ext a) as [[[b s] [[ing ed]|]]|].
  - rewrite chk64_in by (rewrite pow63; lia). cbn [rbind].
    rewrite chk64_in by (rewrite pow63; lia). cbn [rbind].
    rewrite chk64_in by (rewrite pow63; lia). cbn [rbind].
    replace ((2 + sa_sub a + ing - ed) * sv_reserve env)
      with (sv_reserve env * (2 + sa_sub a + (ing - ed))) by ring.
    rewrite chk64_in by (rewrite pow63; lia). cbn [rbind].
    rewrite chk64_in by (rewrite pow63; lia). cbn [rbind].
    rewrite chk64_in by (unfold i64_max; rewrite pow63; lia). cbn [rbind].
    unfold i64_max. rewrite pow63. reflexivity.
  - rewrite chk64_in by (rewrite pow63; lia). cbn [rbind].
    replace ((2 + sa_sub a) * sv_reserve env)
      with (sv_reserve env * (2 + sa_sub a + 0)) by ring.
    rewrite chk64_in by (rewrite pow63; lia). cbn [rbind].
    rewrite chk64_in by (rewrite pow63; lia). cbn [rbind].
    rewrite chk64_in by (unfold i64_max; rewrite pow63; lia). cbn [rbind].
    unfold i64_max. rewrite pow63. reflexivity.
  - rewrite chk64_in by (rewrite pow63; lia). cbn [rbind].
    replace ((2 + sa_sub a) * sv_reserve env)
      with (sv_reserve env * (2 + sa_sub a + 0)) by ring.
    rewrite chk64_in by (rewrite pow63; lia). cbn [rbind].
    unfold i64_max. rewrite pow63. do 2 f_equal; ring.
Qed.
Lemma trustline_min_max_works t :
  tl_ok t -> trustline_min_max t = Ok (tl_selling t, tl_limit t - tl_buying t).
Proof.
  intros (S & B & L & M). unfold trustline_min_max, tl_selling, tl_buying in *.
  destruct (Z.ltb_spec (tl_bal t) 0); [destruct (tl_ext t) as [[? ?]|]; lia|].
  destruct (tl_ext t) as [[b s]|].
  - destruct (Z.ltb_spec (tl_limit t) b); [lia|]. reflexivity.
  - f_equal. f_equal. ring.
Qed.

Lemma transfer_account_works st k ac x :
  limits (sv_reserve env) st -> counts_ok st -> aget_acc st k = Some ac ->
  sv_reserve env * acc_entries ac + acc_selling ac <= sa_bal ac + x <= 2 ^ 63 - 1 - acc_buying ac ->
  exists st', transfer_account env st k x = Ok st'.
Proof.
  intros L C G B. unfold transfer_account. rewrite rd. cbn [rbind].
  pose proof G as G'. unfold aget_acc in G'. rewrite G'.
  rewrite (account_min_max_works _ _ _ _ eq_refl L C G). cbn [rbind].
  destruct L as (_ & LA & _). destruct (LA _ _ G) as (N & SE & BU & MM).
  assert (R0 : 0 <= sv_reserve env) by apply OPEN.
  assert (0 <= sv_reserve env * acc_entries ac) by nia.
  rewrite chk64_in by lia. cbn [rbind].
  destruct B as [B1 B2]. apply Z.leb_le in B1, B2. rewrite B1, B2. cbn [andb].
  rewrite wr. cbn. eauto.
Qed.
Lemma transfer_trustline_works r st k t x :
  limits r st -> aget_tl st k = Some t ->
  tl_selling t <= tl_bal t + x <= tl_limit t - tl_buying t ->
  exists st', transfer_trustline env st k x = Ok st'.
Proof.
  intros (_ & _ & LT) G B. specialize (LT _ _ G). unfold transfer_trustline, read_trustline.
  rewrite rd. cbn [rbind]. pose proof G as G'. unfold aget_tl in G'. rewrite G'. cbn [rbind].
  rewrite (trustline_min_max_works _ LT). cbn [rbind].
  destruct LT as (S & BU & L & M). rewrite chk64_in by lia. cbn [rbind].
  destruct B as [B1 B2]. apply Z.leb_le in B1, B2. rewrite B1, B2. cbn [andb].
  rewrite wr. cbn. eauto.
Qed.

Lemma spend_works st a x :
  limits (sv_reserve env) st -> counts_ok st -> not_archived env st a ->
  0 <= x -> can_send env st a x -> exists st', spend_no_check env st a x = Ok st'.
Proof.
  intros L C NA X CS. destruct a as [k|id|i k|dd p]; cbn [can_send holds] in CS; try contradiction; cbn [spend_no_check].
  - destruct CS as [X63 CS]. rewrite chk64_in by (rewrite pow63 in *; lia). cbn [rbind].
    unfold transfer_classic. destruct (s_asset st) as [|c i].
    + destruct CS as (ac & G & B). eapply transfer_account_works; eauto.
      destruct L as (_ & LA & _). destruct (LA _ _ G) as (_ & _ & _ & MM). lia.
    + destruct (key_dec i k) as [|N]; [eauto|]. destruct CS as [->|(t & G & B)]; [congruence|].
      eapply transfer_trustline_works; eauto.
      destruct L as (_ & _ & LT). destruct (LT _ _ G) as (_ & _ & _ & MM). lia.
  - rewrite (get_bal_works _ _ NA). cbn [rbind].
    destruct (aget_bal st (AContract id)) as [b|] eqn:G.
    + destruct (Z.ltb_spec (b_amount b) x); [lia|].
      destruct L as (LB & _). specialize (LB _ _ G).
      rewrite chk128_in by (rewrite pow127 in *; lia). cbn [rbind].
      apply write_balance_works. exact NA.
    + destruct (Z.gtb_spec x 0); [lia|]. eauto.
Qed.

Lemma receive_works st a x :
  limits (sv_reserve env) st -> counts_ok st -> not_archived env st a ->
  may_move st a -> 0 <= x -> can_receive env st a x ->
  exists st', receive_balance env st a x = Ok st'.
Proof.
  intros L C NA M X CR. unfold receive_balance. rewrite (is_authorized_works _ _ M NA). cbn [rbind negb].
  destruct a as [k|id|i k|dd p]; cbn [can_receive holds] in CR; try contradiction.
  - destruct CR as [X63 CR]. rewrite chk64_in by (rewrite pow63 in *; lia). cbn [rbind].
    unfold transfer_classic. destruct (s_asset st) as [|c i].
    + destruct (aget_acc st k) as [ac|] eqn:G.
      * eapply transfer_account_works; eauto.
        destruct L as (_ & LA & _). destruct (LA _ _ G) as (_ & _ & _ & MM). lia.
      * unfold transfer_account. rewrite rd. cbn [rbind]. unfold aget_acc in G. rewrite G.
        destruct (Z.leb_spec x 0); [lia|]. destruct (Z.ltb_spec x (2 * sv_reserve env)); [lia|].
        destruct (Z.gtb_spec (li_seq (sv_li env)) (2 ^ 31 - 1)) as [GT|_].
        { destruct OPEN as (_&_&_&_&_&_&_&Q&_). lia. }
        rewrite wr. cbn. eauto.
    + destruct (key_dec i k) as [|N]; [eauto|]. destruct CR as [->|(t & G & B)]; [congruence|].
      eapply transfer_trustline_works; eauto.
      destruct L as (_ & _ & LT). destruct (LT _ _ G) as (_ & _ & _ & MM). lia.
  - rewrite (get_bal_works _ _ NA). cbn [rbind].
    cbn [may_move] in M. destruct (aget_bal st (AContract id)) as [b|] eqn:G.
    + cbn [rbind]. destruct L as (LB & _). specialize (LB _ _ G).
      rewrite chk128_in by (rewrite pow127 in *; lia). cbn [rbind].
      apply write_balance_works. exact NA.
    + destruct (issuer_flag_works st acc_clawback) as [c ->].
      { destruct (s_asset st); [exact I|]. destruct M as (ac & E & _). eauto. }
      cbn [rbind]. rewrite chk128_in by (rewrite pow127 in *; lia). cbn [rbind].
      apply write_balance_works. exact NA.
Qed.

(* Spending leaves the entries of others alone. *)
Lemma spend_others st f x st1 t :
  spend_no_check env st f x = Ok st1 -> 0 <= x -> t <> f ->
  s_asset st1 = s_asset st
  /\ aget_bal st1 t = aget_bal st t
  /\ (forall k, t = AAccount k -> aget_acc st1 k = aget_acc st k /\ aget_tl st1 k = aget_tl st k)
  /\ (counts_ok st -> counts_ok st1).
Proof.
  intros H X N. unfold spend_no_check in H. destruct f as [k|id|i k|dd p]; try discriminate.
  - bind H y E. apply chk64_ok in E. destruct E as [-> _].
    unfold transfer_classic in H. destruct (s_asset st) as [|c i] eqn:SA.
    + apply transfer_account_ok in H. destruct H as (a' & -> & _ & F & _).
      split; [exact SA|]. split; [reflexivity|]. split.
      { intros k' ->. split; [|reflexivity]. unfold aget_acc. cbn [set_accs s_acc].
        apply aget_aset_ne. congruence. }
      intros C k' a1 G1. unfold aget_acc in G1. cbn [set_accs s_acc] in G1.
      rewrite aget_aset in G1. destruct (key_dec k' k) as [->|]; [|exact (C _ _ G1)].
      injection G1 as <-. destruct (aget_acc st k) as [a|] eqn:G.
      * destruct F as (F1 & _ & F3). rewrite F1, F3. exact (C _ _ G).
      * lia.
    + destruct (key_dec i k).
      * injection H as <-. auto.
      * apply transfer_trustline_ok in H. destruct H as (t0 & G & -> & _).
        split; [exact SA|]. split; [reflexivity|]. split.
        { intros k' ->. split; [reflexivity|]. unfold aget_tl. cbn [set_tls s_tl].
          apply aget_aset_ne. congruence. }
        intro C. exact C.
  - bind H o E. apply get_bal_ok in E. destruct E as [G _]. destruct o as [b|].
    + destruct (b_amount b <? x); [discriminate|]. bind H n E.
      apply write_contract_balance_ok in H. destruct H as [live ->].
      split; [reflexivity|]. split.
      { unfold aget_bal. cbn [set_bals s_bal]. apply aget_aset_ne. exact N. }
      split; [auto|]. intro C. exact C.
    + destruct (x >? 0); [discriminate|]. injection H as <-. auto.
Qed.

Lemma transfer_works st f to x :
  limits (sv_reserve env) st -> counts_ok st ->
  not_archived env st f -> not_archived env st (plain to) ->
  plain to <> f -> 0 <= x ->
  sv_auth env f = Ok tt -> may_move st f -> may_move st (plain to) ->
  can_send env st f x -> can_receive env st (plain to) x ->
  exists st', invoke env st (CTransfer f to x) = (st', Ok RUnit).
Proof.
  intros L C NF NT NE X AU MF MT CS CR.
  destruct (spend_works st f x L C NF X CS) as [st1 H1].
  assert (H1' : spend_balance env st f x = Ok st1).
  { unfold spend_balance. rewrite (is_authorized_works _ _ MF NF). exact H1. }
  destruct (spend_others _ _ _ _ (plain to) H1 X NE) as (SA & SB & SC & SD).
  pose proof (spend_no_check_ok _ _ _ _ _ H1 X) as (_ & _ & FL & LI).
  assert (CR1 : can_receive env st1 (plain to) x).
  { destruct (plain to) as [k|id|i k|dd p]; cbn [can_receive] in *; try contradiction.
    - rewrite SA. destruct (SC k eq_refl) as [-> ->]. exact CR.
    - cbn [holds] in *. rewrite SB. exact CR. }
  destruct (receive_works st1 (plain to) x) as [st2 H2];
    [apply LI; [lia|exact L]|apply SD, C|unfold not_archived; rewrite SB; exact NT
    |apply FL; exact MT|exact X|exact CR1|].
  eexists. apply invoke_ok. cbn [run_call]. unfold check_nonnegative.
  destruct (Z.ltb_spec x 0); [lia|]. cbn [rbind]. rewrite AU. cbn [rbind].
  rewrite <- plain_mux, H1'. cbn [rbind]. rewrite H2. reflexivity.
Qed.

Lemma clawback_works st a x ad :
  limits (sv_reserve env) st -> counts_ok st -> not_archived env st a ->
  s_admin st = Some ad -> sv_auth env ad = Ok tt ->
  may_claw st a -> 0 <= x -> can_send env st a x ->
  exists st', invoke env st (CClawback a x) = (st', Ok RUnit).
Proof.
  intros L C NA AD AU MC X CS.
  destruct (spend_works st a x L C NA X CS) as [st1 H1].
  eexists. apply invoke_ok. cbn [run_call]. unfold check_nonnegative.
  destruct (Z.ltb_spec x 0); [lia|]. cbn [rbind].
  assert (CC : check_clawbackable env st a = Ok tt /\ check_not_issuer st a = Ok tt).
  { unfold check_not_issuer, is_issuer.
    destruct a as [k|id|i k|dd p]; cbn [may_claw] in MC; try contradiction; cbn [check_clawbackable].
    - destruct (s_asset st) as [|c i]; [contradiction|]. destruct MC as (NI & t & G & B).
      destruct (key_dec i k); [congruence|]. unfold read_trustline. rewrite rd. cbn [rbind].
      unfold aget_tl in G. rewrite G. cbn [rbind]. unfold tl_clawback. rewrite has_flag2, B.
      destruct (addr_dec (AAccount i) (AAccount k)); [congruence|]. auto.
    - destruct MC as (b & G & B). rewrite (get_bal_works _ _ NA). cbn [rbind]. rewrite G, B.
      destruct (s_asset st); [auto|]. destruct (addr_dec _ _); [congruence|auto]. }
  destruct CC as [-> ->]. cbn [rbind]. unfold read_admin. rewrite AD. cbn [rbind].
  rewrite AU. cbn [rbind]. rewrite H1. reflexivity.
Qed.
End Works.
