(* What each call of the asset contract does to holdings, limits, authorization,
   events and the administrator. *)
From Coq Require Import ZArith Lia List Bool.
From Verif Require Import Prelude ValModel HeapModel AMap StorageModel SacModel SacSpec SacProofs.
Import ListNotations.
Open Scope Z_scope.

Lemma invoke_ok env st c st' r :
  invoke env st c = (st', Ok r) <-> run_call env st c = Ok (st', r).
Proof.
  unfold invoke. destruct (run_call env st c) as [[s x]|e].
  - split; intros [= <- <-]; reflexivity.
  - split; discriminate.
Qed.
Lemma invoke_err env st c st' e :
  invoke env st c = (st', Err e) -> st' = st /\ run_call env st c = Err e.
Proof.
  unfold invoke. destruct (run_call env st c) as [[s x]|e']; [discriminate|].
  intros [= <- <-]. auto.
Qed.

Definition moved_l (st st' : sst) (l : list (addr * Z)) : Prop :=
  (forall y, the_issuer st y -> holds st' y = holds st y)
  /\ (forall y, ~ the_issuer st y -> holds st' y = holds st y + sum_for y l).

Lemma moved_l_nil st st' : (forall y, holds st' y = holds st y) -> moved_l st st' [].
Proof. intro H. split; intros y _; rewrite H; cbn; ring. Qed.
Lemma moved_l_one st st' a d : moved st st' a d -> moved_l st st' [(a, d)].
Proof. intro H. exact H. Qed.
Lemma the_issuer_eq st st' y : s_asset st' = s_asset st -> the_issuer st' y <-> the_issuer st y.
Proof. unfold the_issuer. intros ->. tauto. Qed.
Lemma moved_l_two st st1 st2 a d b e :
  s_asset st1 = s_asset st -> moved st st1 a d -> moved st1 st2 b e -> moved_l st st2 [(a, d); (b, e)].
Proof.
  intros A [I1 N1] [I2 N2].
  split; intros y H; pose proof (the_issuer_eq st st1 y A) as Q.
  - rewrite I2, I1; tauto.
  - rewrite N2, N1 by tauto. rewrite !sum_one. cbn. destruct (addr_dec a y), (addr_dec b y); ring.
Qed.
Lemma moved_l_holds st st0 st' l :
  (forall y, holds st0 y = holds st y) -> s_asset st0 = s_asset st ->
  moved_l st0 st' l -> moved_l st st' l.
Proof.
  intros H A [I1 N1]. split; intros y Hy; rewrite <- H;
    [apply I1|apply N1]; rewrite (the_issuer_eq st st0 y A); exact Hy.
Qed.
Lemma moved_l_emit st st' ev l : moved_l st st' l -> moved_l st (emit st' ev) l.
Proof. intro H. exact H. Qed.

Lemma sum_for_app y l l' : sum_for y (l ++ l') = sum_for y l + sum_for y l'.
Proof. induction l as [|[a d] l IH]; cbn; [ring|]. rewrite IH. ring. Qed.

(* ------------------------------------------------- the calls that move nothing *)

Lemma read_balance_ok env st a st' x :
  read_balance env st a = Ok (st', x) ->
  same_rest st st' /\ (forall y, holds st' y = holds st y) /\ same_flags st st'
  /\ (forall r, limits r st -> limits r st')
  /\ (~ the_issuer st a -> x = holds st a).
Proof.
  unfold read_balance. destruct a as [k|id|i k|dd p]; try discriminate.
  - intro H. bind H v E. injection H as <- <-.
    split; [apply same_rest_refl|]. split; [auto|]. split; [split; tauto|]. split; [auto|].
    unfold classic_balance in E. unfold the_issuer. cbn [holds].
    destruct (s_asset st) as [|c i].
    + intros _. bind E u E1. unfold aget_acc. destruct (aget key_dec (s_acc st) k) as [a|]; [|discriminate].
      bind E mm E2. destruct mm as [mn mx].
      destruct (sa_bal a <? mn); [discriminate|]. destruct (sa_bal a >? mx); [discriminate|].
      injection E as <-. reflexivity.
    + intro NI. destruct (key_dec i k) as [->|]; [congruence|].
      bind E t E1. unfold read_trustline in E1. bind E1 u E0. unfold aget_tl.
      destruct (aget key_dec (s_tl st) k) as [t'|]; [|discriminate]. injection E1 as ->.
      bind E mm E2. destruct mm as [mn mx].
      destruct (tl_bal t <? mn); [discriminate|]. destruct (tl_bal t >? mx); [discriminate|].
      injection E as <-. reflexivity.
  - intro H. bind H o E. apply get_bal_ok in E. destruct E as [G _]. destruct o as [b|].
    + bind H live E. injection H as <- <-.
      assert (M : moved st (set_bals st (aset addr_dec (s_bal st) (AContract id)
                {| b_amount := b_amount b; b_auth := b_auth b; b_claw := b_claw b; b_live := live |}))
                (AContract id) 0).
      { apply moved_bal. cbn. rewrite G. ring. }
      split; [repeat split|]. split.
      { intro y. destruct M as [M1 M2]. destruct (s_asset st) as [|c i] eqn:SA.
        - rewrite M2 by (unfold the_issuer; rewrite SA; tauto). rewrite sum_one. destruct (addr_dec _ y); ring.
        - destruct (addr_dec y (AAccount i)) as [->|N].
          + apply M1. unfold the_issuer. rewrite SA. reflexivity.
          + rewrite M2 by (unfold the_issuer; rewrite SA; exact N).
            rewrite sum_one. destruct (addr_dec _ y); ring. }
      split.
      { apply flags_bal; cbn [b_auth b_claw]; [cbn; rewrite G; tauto|].
        intros b' G'. congruence. }
      split.
      { intros r L. apply limits_bal; [|exact L]. destruct L as (LB & _). exact (LB _ _ G). }
      intros _. cbn [holds]. rewrite G. reflexivity.
    + injection H as <- <-. split; [apply same_rest_refl|]. split; [auto|].
      split; [split; tauto|]. split; [auto|]. intros _. cbn [holds]. rewrite G. reflexivity.
Qed.

(* set_authorized: everything but the flag of the one address is as before *)
Lemma write_authorization_ok env st a b st' :
  write_authorization env st a b = Ok st' ->
  same_rest st st' /\ (forall y, holds st' y = holds st y)
  /\ (forall r, limits r st -> limits r st')
  /\ (may_move st' a <-> b = true)
  /\ (forall y, y <> a -> (may_move st' y <-> may_move st y))
  /\ (forall y, may_claw st y -> may_claw st' y)
  /\ (forall y, y <> a -> may_claw st' y -> may_claw st y)
  /\ s_acc st' = s_acc st
  /\ (b = false -> match s_asset st with
                   | Native => False
                   | Credit _ i => exists ac, aget_acc st i = Some ac /\ Z.testbit (sa_flags ac) 1 = true
                   end).
Proof.
  unfold write_authorization. intro H. bind H rv E.
  destruct rv; [|discriminate]. cbn [negb] in H.
  assert (REV : b = false -> match s_asset st with
                   | Native => False
                   | Credit _ i => exists ac, aget_acc st i = Some ac /\ Z.testbit (sa_flags ac) 1 = true
                   end).
  { intros ->. apply issuer_flag_ok in E. destruct (s_asset st) as [|c i]; [discriminate|].
    destruct E as (ac & A & F). exists ac. split; [exact A|].
    change acc_revocable with (2 ^ 1) in F. rewrite has_flag_bit in F by lia. auto. }
  destruct a as [k|id|i k|dd p]; try discriminate.
  - unfold set_authorization in H. destruct (s_asset st) as [|c i] eqn:SA; [discriminate|].
    destruct (key_dec i k) as [|NI]; [discriminate|].
    bind H t E1. unfold read_trustline in E1. bind E1 u E0.
    assert (G : aget_tl st k = Some t).
    { unfold aget_tl. destruct (aget key_dec (s_tl st) k); [|discriminate]. congruence. }
    clear E1. destruct (eqb (has_flag (tl_flags t) tl_authorized) b) eqn:EB.
    + injection H as <-. apply eqb_prop in EB. unfold tl_authorized in EB. rewrite has_flag0 in EB.
      split; [apply same_rest_refl|]. split; [auto|]. split; [auto|].
      split.
      { cbn [may_move]. rewrite SA, G. split.
        - intros [->|(t' & [= <-] & B)]; [congruence|congruence].
        - intros ->. right. eauto. }
      split; [tauto|]. split; [tauto|]. split; [tauto|]. split; [reflexivity|exact REV].
    + bind H u' E1. injection H as <-.
      set (fl := if b then Z.lor _ _ else _) in *.
      assert (F0 : Z.testbit fl 0 = b).
      { unfold fl, tl_authorized, tl_maintain. destruct b; rewrite Z.lor_spec, ?Z.ldiff_spec; cbn.
        - apply orb_true_r.
        - rewrite andb_false_r. reflexivity. }
      assert (F2 : Z.testbit fl 2 = Z.testbit (tl_flags t) 2).
      { unfold fl, tl_authorized, tl_maintain.
        destruct b; rewrite Z.lor_spec, ?Z.ldiff_spec, testbit_1, testbit_2 by lia;
          cbn [Z.eqb negb Pos.eqb]; rewrite andb_true_r, orb_false_r; reflexivity. }
      split; [repeat split|]. split.
      { intros [k'|k'|i' k'|dd p]; try reflexivity. cbn [holds set_tls s_asset]. rewrite SA.
        unfold aget_tl in *. cbn [set_tls s_tl]. rewrite aget_aset.
        destruct (key_dec k' k) as [->|]; [|reflexivity]. rewrite G. reflexivity. }
      split.
      { intros r (LB & LA & LT). split; [exact LB|]. split; [exact LA|]. intros k' t' G'.
        unfold aget_tl in G'. cbn [set_tls s_tl] in G'. rewrite aget_aset in G'.
        destruct (key_dec k' k) as [->|]; [|exact (LT _ _ G')]. injection G' as <-.
        exact (LT _ _ G). }
      split.
      { cbn [may_move set_tls s_asset]. rewrite SA. unfold aget_tl. cbn [set_tls s_tl].
        rewrite aget_aset_eq. split.
        - intros [->|(t' & [= <-] & B)]; [congruence|]. cbn [tl_flags] in B. congruence.
        - intros ->. right. eexists. split; [reflexivity|]. exact F0. }
      split.
      { intros [k'|k'|i' k'|dd p] NE; try exact (iff_refl _).
        cbn [may_move set_tls s_asset]. rewrite SA. unfold aget_tl. cbn [set_tls s_tl].
        rewrite aget_aset_ne by congruence. tauto. }
      split.
      { intros [k'|k'|i' k'|dd p]; try (intro X; exact X).
        cbn [may_claw set_tls s_asset]. rewrite SA. unfold aget_tl in *. cbn [set_tls s_tl].
        rewrite aget_aset. destruct (key_dec k' k) as [->|]; [|tauto]. rewrite G.
        intros [X (t' & [= <-] & B)]. split; [exact X|]. eexists. split; [reflexivity|].
        cbn [tl_flags]. congruence. }
      split.
      { intros [k'|k'|i' k'|dd p] NE; try (intro X; exact X).
        cbn [may_claw set_tls s_asset]. rewrite SA. unfold aget_tl in *. cbn [set_tls s_tl].
        rewrite aget_aset_ne by congruence. tauto. }
      split; [reflexivity|exact REV].
  - bind H o E1. apply get_bal_ok in E1. destruct E1 as [G _].
    assert (W : exists x cl live, st' = set_bals st (aset addr_dec (s_bal st) (AContract id)
        {| b_amount := x; b_auth := b; b_claw := cl; b_live := live |})
        /\ x = holds st (AContract id)
        /\ (forall bv, o = Some bv -> cl = b_claw bv)).
    { destruct o as [bv|].
      - apply write_contract_balance_ok in H. destruct H as [live ->].
        exists (b_amount bv), (b_claw bv), live. split; [reflexivity|]. cbn [holds]. rewrite G.
        split; [reflexivity|]. intros bv' [= <-]. reflexivity.
      - bind H c E2. apply write_contract_balance_ok in H. destruct H as [live ->].
        exists 0, c, live. split; [reflexivity|]. cbn [holds]. rewrite G.
        split; [reflexivity|]. discriminate. }
    destruct W as (x & cl & live & -> & Hx & Hcl). clear H.
    split; [repeat split|]. split.
    { intros [k'|k'|i' k'|dd p]; try reflexivity. cbn [holds].
      unfold aget_bal. cbn [set_bals s_bal]. rewrite aget_aset.
      destruct (addr_dec (AContract k') (AContract id)) as [E1|]; [|reflexivity].
      injection E1 as ->. rewrite Hx. reflexivity. }
    split.
    { intros r L. apply limits_bal; [|exact L]. cbn [b_amount]. subst x. cbn [holds].
      destruct L as (LB & _). destruct (aget_bal st (AContract id)) as [bv|] eqn:G'.
      - exact (LB _ _ G').
      - rewrite pow127. lia. }
    split.
    { cbn [may_move]. unfold aget_bal. cbn [set_bals s_bal]. rewrite aget_aset_eq. tauto. }
    split.
    { intros [k'|k'|i' k'|dd p] NE; try exact (iff_refl _).
      cbn [may_move]. unfold aget_bal. cbn [set_bals s_bal]. rewrite aget_aset_ne by congruence.
      exact (iff_refl _). }
    split.
    { intros [k'|k'|i' k'|dd p]; try (intro X; exact X). cbn [may_claw].
      unfold aget_bal in *. cbn [set_bals s_bal]. rewrite aget_aset.
      destruct (addr_dec (AContract k') (AContract id)) as [E1|]; [|tauto]. injection E1 as ->.
      intros (bv & G' & B). eexists. split; [reflexivity|]. cbn [b_claw].
      rewrite (Hcl bv); congruence. }
    split.
    { intros [k'|k'|i' k'|dd p] NE; try (intro X; exact X). cbn [may_claw].
      unfold aget_bal. cbn [set_bals s_bal]. rewrite aget_aset_ne by congruence. tauto. }
    split; [reflexivity|exact REV].
Qed.

Lemma create_trustline_ok env st a st' :
  create_trustline env st a = Ok st' ->
  same_rest st st' /\ (forall y, holds st' y = holds st y)
  /\ (forall r, r <= sv_reserve env -> limits r st -> limits r st')
  /\ (forall k, a = AAccount k -> aget_tl st k = None -> sv_auth env a = Ok tt)
  /\ s_bal st' = s_bal st
  /\ (st' = st /\ ((exists id, a = AContract id)
                   \/ exists k c i, a = AAccount k /\ s_asset st = Credit c i /\ k <> i
                        /\ aget_tl st k <> None) \/
      exists k c i ic ac ac' t,
        a = AAccount k /\ s_asset st = Credit c i /\ k <> i
        /\ aget_tl st k = None /\ aget_acc st i = Some ic /\ aget_acc st k = Some ac
        /\ st' = set_accs (set_tls st (aset key_dec (s_tl st) k t)) (aset key_dec (s_acc st) k ac')
        /\ tl_bal t = 0 /\ tl_limit t = 2 ^ 63 - 1 /\ tl_ext t = None
        /\ Z.testbit (tl_flags t) 0 = negb (Z.testbit (sa_flags ic) 0)
        /\ Z.testbit (tl_flags t) 2 = Z.testbit (sa_flags ic) 3
        /\ sa_bal ac' = sa_bal ac /\ sa_sub ac' = sa_sub ac + 1 /\ sa_sub ac < 1000
        /\ sa_flags ac' = sa_flags ac /\ sa_ext ac' = sa_ext ac).
Proof.
  unfold create_trustline. destruct a as [k|id|i k|dd p]; try discriminate.
  2:{ intros [= <-]. split; [apply same_rest_refl|]. split; [auto|]. split; [auto|].
      split; [discriminate|]. split; [auto|]. left. eauto. }
  destruct (s_asset st) as [|c i] eqn:SA; [discriminate|].
  destruct (key_dec k i) as [|NI]; [discriminate|]. intro H. bind H u E.
  change (aget key_dec (s_tl st) k) with (aget_tl st k) in H.
  change (aget key_dec (s_acc st) k) with (aget_acc st k) in H.
  destruct (aget_tl st k) as [t0|] eqn:G.
  { injection H as <-. split; [apply same_rest_refl|]. split; [auto|]. split; [auto|].
    split; [congruence|]. split; [auto|]. left. split; [reflexivity|]. right.
    exists k, c, i. repeat split; auto. congruence. }
  bind H u1 E1. destruct u1. bind H ic E2. unfold load_account in E2. bind E2 u2 E20.
  change (aget key_dec (s_acc st) i) with (aget_acc st i) in E2.
  destruct (aget_acc st i) as [ic'|] eqn:GI; [|discriminate]. injection E2 as ->.
  bind H u3 E3. destruct (aget_acc st k) as [ac|] eqn:GA; [|discriminate].
  rewrite Z.geb_leb in H. destruct (Z.leb_spec 1000 (sa_sub ac)) as [|SUB]; [discriminate|].
  bind H mm E4. destruct mm as [mn mx]. apply account_min_max_ok in E4.
  destruct E4 as (P & Hmn & Hmx). cbn [fst] in H. bind H need E5. apply chk64_ok in E5.
  destruct E5 as [-> _].
  destruct (Z.ltb_spec (sa_bal ac) (mn + sv_reserve env)) as [|NEED]; [discriminate|].
  bind H u4 E6. bind H u5 E7. injection H as <-.
  split; [repeat split|]. split.
  { intros [k'|k'|i' k'|dd p]; try reflexivity. cbn [holds set_accs set_tls s_asset]. rewrite SA.
    unfold aget_tl. cbn [set_accs set_tls s_tl]. rewrite aget_aset.
    destruct (key_dec k' k) as [->|]; [|reflexivity].
    unfold aget_tl in G. rewrite G. reflexivity. }
  split.
  { intros r R (LB & LA & LT). split; [exact LB|]. split.
    - intros k' a' G'. unfold aget_acc in G'. cbn [set_accs s_acc set_tls] in G'.
      rewrite aget_aset in G'. destruct (key_dec k' k) as [->|]; [|exact (LA _ _ G')].
      injection G' as <-. destruct (LA _ _ GA) as (A1 & A2 & A3 & A4).
      unfold acc_ok, acc_entries, acc_selling, acc_buying in *.
      cbn [sa_ext sa_sub sa_bal]. split; [lia|]. split; [exact A2|]. split; [exact A3|].
      split; [|lia]. clear LB LA LT. nia.
    - intros k' t' G'. unfold aget_tl in G'. cbn [set_accs s_tl set_tls] in G'.
      rewrite aget_aset in G'. destruct (key_dec k' k) as [->|]; [|exact (LT _ _ G')].
      injection G' as <-. unfold tl_ok. cbn. lia. }
  split; [intros; assumption|].
  split; [reflexivity|].
  right. eexists k, c, i, ic, ac, _, _. 
  split; [reflexivity|]. split; [reflexivity|]. split; [exact NI|]. split; [exact G|].
  split; [exact GI|]. split; [exact GA|]. split; [reflexivity|].
  cbn [tl_bal tl_limit tl_ext tl_flags sa_bal sa_sub sa_flags sa_ext].
  split; [reflexivity|]. split; [reflexivity|]. split; [reflexivity|].
  unfold acc_required, acc_clawback, tl_authorized, tl_clawback. rewrite has_flag0.
  change 8 with (2 ^ 3). rewrite has_flag_bit by lia.
  destruct (Z.testbit (sa_flags ic) 0), (Z.testbit (sa_flags ic) 3); cbn; tauto.
Qed.

(* ------------------------------------------------------------------ any call *)

Lemma plain_mux a : plain a = mux_addr a.
Proof. destruct a; reflexivity. Qed.

Lemma check_nonneg_ok x u : check_nonnegative x = Ok u -> 0 <= x.
Proof. unfold check_nonnegative. destruct (Z.ltb_spec x 0); [discriminate|auto]. Qed.
Lemma not_issuer_ok st a u : check_not_issuer st a = Ok u -> ~ the_issuer st a.
Proof.
  unfold check_not_issuer, is_issuer, the_issuer. destruct (s_asset st); [auto|].
  destruct (addr_dec _ a); [discriminate|]. congruence.
Qed.
Lemma is_issuer_true st a : is_issuer st a = true <-> the_issuer st a.
Proof.
  unfold is_issuer, the_issuer. destruct (s_asset st); [split; [discriminate|contradiction]|].
  destruct (addr_dec _ a); split; congruence.
Qed.

(* What the event of a transfer says is what it does, to all but the issuer. *)
Lemma transfer_event_effect st f t mux x y :
  ~ the_issuer st y -> effect y (transfer_event st f t mux x) = sum_for y [(f, - x); (t, x)].
Proof.
  intro NI. unfold transfer_event.
  destruct (addr_dec f t); [reflexivity|].
  destruct (is_issuer st f) eqn:IF.
  - apply is_issuer_true in IF. cbn. destruct (addr_dec f y) as [<-|]; [contradiction|]. ring.
  - destruct (is_issuer st t) eqn:IT; [|reflexivity].
    apply is_issuer_true in IT. cbn. destruct (addr_dec t y) as [<-|]; [contradiction|]. ring.
Qed.

(* The summary of a successful call. *)
Record call_summary (env : senv) (st : sst) (c : scall) (st' : sst) : Prop := {
  cs_asset : s_asset st' = s_asset st;
  cs_moved : moved_l st st' (moves c);
  cs_limits : forall r, r <= sv_reserve env -> limits r st -> limits r st';
  cs_amount : forall x, amount_of c = Some x -> 0 <= x;
  cs_parties : forall a, In a (parties c) -> may_move st a;
  cs_needs : forall a, needs st c = Some a -> sv_auth env a = Ok tt;
  cs_admin : s_admin st' = match c with CSetAdmin a => Some a | _ => s_admin st end;
  cs_events : exists evs, s_events st' = s_events st ++ evs
      /\ forall y, ~ the_issuer st y -> sum_over (effect y) evs = sum_for y (moves c);
  cs_flags : match c with CSetAuthorized _ _ | CTrust _ => True | _ => same_flags st st' end;
  cs_adm_set : match c with
               | CClawback _ _ | CSetAuthorized _ _ | CMint _ _ | CSetAdmin _ => s_admin st <> None
               | _ => True
               end;
}.

Lemma sum_over_one {A} (f : A -> Z) a : sum_over f [a] = f a.
Proof. unfold sum_over. cbn. ring. Qed.

Lemma auth_tt env a u : sv_auth env a = Ok u -> sv_auth env a = Ok tt.
Proof. destruct u. auto. Qed.

Lemma two_ok env st f t x st1 st2 :
  spend_balance env st f x = Ok st1 -> receive_balance env st1 t x = Ok st2 -> 0 <= x ->
  same_rest st st2 /\ moved_l st st2 [(f, - x); (t, x)] /\ same_flags st st2
  /\ may_move st f /\ may_move st t
  /\ (forall r, r <= sv_reserve env -> limits r st -> limits r st2).
Proof.
  intros H1 H2 X. apply spend_balance_ok in H1; [|exact X]. apply receive_balance_ok in H2; [|exact X].
  destruct H1 as (R1 & M1 & F1 & A1 & L1). destruct H2 as (R2 & M2 & F2 & A2 & L2).
  split; [eapply same_rest_trans; eauto|].
  split; [exact (moved_l_two st st1 st2 _ _ _ _ (proj1 R1) M1 M2)|].
  split; [destruct F1, F2; split; intros y; [rewrite (H y); auto|auto]|].
  split; [exact A1|]. split; [apply F1; exact A2|]. auto.
Qed.

Lemma same_flags_refl st : same_flags st st.
Proof. split; tauto. Qed.

Lemma only_allow_flags st st' : only_allow st st' -> same_flags st st'.
Proof. intros [m ->]. split; tauto. Qed.

Lemma run_call_ok env st c st' r :
  run_call env st c = Ok (st', r) -> call_summary env st c st'.
Proof.
  intro H. destruct c as [f s|f s x until|a|a|f to x|s f t x|f x|s f x|f x|a b|t x|a| |a];
    cbn [run_call] in H.
  - (* allowance *) bind H v E. injection H as <- <-.
    split; cbn; try reflexivity; try discriminate; try contradiction; auto.
    + apply moved_l_nil. auto.
    + exists []. split; [symmetry; apply app_nil_r|reflexivity].
    + apply same_flags_refl.
  - (* approve *) bind H u E. apply check_nonneg_ok in E. bind H u1 E1. apply auth_tt in E1.
    unfold done in H. bind H st1 E2. injection H as <- <-.
    pose proof (write_allowance_only _ _ _ _ _ _ _ E2) as [m ->].
    split; cbn [amount_of parties needs moves]; try reflexivity; try contradiction.
    + apply moved_l_nil. reflexivity.
    + intros r0 _ L. exact L.
    + intros x0 [= <-]. exact E.
    + intros a [= <-]. exact E1.
    + eexists. split; [reflexivity|]. reflexivity.
    + split; tauto.
  - (* balance *) bind H p E. destruct p as [st1 x]. injection H as <- <-.
    apply read_balance_ok in E. destruct E as ((R1 & R2 & R3 & R4) & Hh & Fl & L & _). cbn [fst].
    split; cbn [amount_of parties needs moves]; auto; try discriminate; try contradiction.
    + apply moved_l_nil. exact Hh.
    + exists []. rewrite R3. split; [symmetry; apply app_nil_r|reflexivity].
  - (* authorized *) bind H v E. injection H as <- <-.
    split; cbn; try reflexivity; try discriminate; try contradiction; auto.
    + apply moved_l_nil. auto.
    + exists []. split; [symmetry; apply app_nil_r|reflexivity].
    + apply same_flags_refl.
  - (* transfer *) bind H u E. apply check_nonneg_ok in E. bind H u1 E1. apply auth_tt in E1.
    unfold done in H. bind H st2 E2. bind E2 st1 E3. injection H as <- <-.
    rewrite <- plain_mux in *.
    destruct (two_ok _ _ _ _ _ _ _ E3 E2 E) as ((R1 & R2 & R3 & R4) & M & Fl & A1 & A2 & L).
    split; cbn [amount_of parties needs moves]; auto.
    + intros x0 [= <-]. exact E.
    + intros a [<-|[<-|[]]]; assumption.
    + intros a [= <-]. exact E1.
    + eexists. split; [cbn [emit s_events]; rewrite R3; reflexivity|].
      intros y NI. rewrite sum_over_one. apply transfer_event_effect.
      rewrite (the_issuer_eq st st2 y R1). exact NI.
  - (* transfer_from *) bind H u E. apply check_nonneg_ok in E. bind H u1 E1. apply auth_tt in E1.
    unfold done in H. bind H st2 E2. bind E2 st0 E3. bind E2 st1 E4. injection H as <- <-.
    apply spend_allowance_ok in E3. destruct E3 as (OA & _).
    destruct (two_ok _ _ _ _ _ _ _ E4 E2 E) as ((R1 & R2 & R3 & R4) & M & Fl & A1 & A2 & L).
    pose proof OA as [m Em].
    split; cbn [amount_of parties needs moves]; auto.
    + cbn. rewrite R1, Em. reflexivity.
    + apply moved_l_emit. eapply moved_l_holds; [intro y; apply only_allow_holds; exact OA| |exact M].
      rewrite Em. reflexivity.
    + intros r0 Rr L0. apply L; [exact Rr|]. apply (only_allow_limits st); assumption.
    + intros x0 [= <-]. exact E.
    + intros a. rewrite Em in A1, A2. intros [<-|[<-|[]]]; assumption.
    + intros a [= <-]. exact E1.
    + cbn. rewrite R2, Em. reflexivity.
    + eexists. split; [cbn [emit s_events]; rewrite R3, Em; reflexivity|].
      intros y NI. rewrite sum_over_one. apply transfer_event_effect.
      rewrite (the_issuer_eq st st2 y); [exact NI|]. rewrite R1, Em. reflexivity.
    + rewrite Em in Fl. exact Fl.
  - (* burn *) bind H u E. apply check_nonneg_ok in E. bind H u1 E1. bind H u2 E2.
    bind H u3 E3. apply auth_tt in E3. unfold done in H. bind H st1 E4. injection H as <- <-.
    apply spend_balance_ok in E4; [|exact E]. destruct E4 as ((R1 & R2 & R3 & R4) & M & Fl & A & L).
    split; cbn [amount_of parties needs moves]; auto.
    + intros x0 [= <-]. exact E.
    + intros a [<-|[]]; assumption.
    + intros a [= <-]. exact E3.
    + eexists. split; [cbn [emit s_events]; rewrite R3; reflexivity|].
      intros y NI. rewrite sum_over_one. reflexivity.
  - (* burn_from *) bind H u E. apply check_nonneg_ok in E. bind H u1 E1. bind H u2 E2.
    bind H u3 E3. apply auth_tt in E3. unfold done in H. bind H st1 E4. bind E4 st0 E5.
    injection H as <- <-. apply spend_allowance_ok in E5. destruct E5 as (OA & _).
    apply spend_balance_ok in E4; [|exact E]. destruct E4 as ((R1 & R2 & R3 & R4) & M & Fl & A & L).
    pose proof OA as [m Em].
    split; cbn [amount_of parties needs moves]; auto.
    + cbn. rewrite R1, Em. reflexivity.
    + apply moved_l_emit. eapply moved_l_holds; [intro y; apply only_allow_holds; exact OA| |exact M].
      rewrite Em. reflexivity.
    + intros r0 Rr L0. apply L; [exact Rr|]. apply (only_allow_limits st); assumption.
    + intros x0 [= <-]. exact E.
    + intros a. rewrite Em in A. intros [<-|[]]; assumption.
    + intros a [= <-]. exact E3.
    + cbn. rewrite R2, Em. reflexivity.
    + eexists. split; [cbn [emit s_events]; rewrite R3, Em; reflexivity|].
      intros y NI. rewrite sum_over_one. reflexivity.
    + rewrite Em in Fl. exact Fl.
  - (* clawback *) bind H u E. apply check_nonneg_ok in E. bind H u1 E1. bind H u2 E2.
    bind H ad E3. bind H u3 E4. apply auth_tt in E4. unfold done in H. bind H st1 E5.
    injection H as <- <-. apply spend_no_check_ok in E5; [|exact E].
    destruct E5 as ((R1 & R2 & R3 & R4) & M & Fl & L).
    unfold read_admin in E3. destruct (s_admin st) as [ad'|] eqn:AD; [|discriminate].
    injection E3 as ->.
    split; cbn [amount_of parties needs moves]; auto; try contradiction.
    + intros x0 [= <-]. exact E.
    + intros a. rewrite ?AD. intros [= <-]. exact E4.
    + cbn. congruence.
    + eexists. split; [cbn [emit s_events]; rewrite R3; reflexivity|].
      intros y NI. rewrite sum_over_one. reflexivity.
    + congruence.
  - (* set_authorized *) bind H ad E3. bind H u3 E4. apply auth_tt in E4. unfold done in H.
    bind H st1 E5. injection H as <- <-. apply write_authorization_ok in E5.
    destruct E5 as ((R1 & R2 & R3 & R4) & Hh & L & _).
    unfold read_admin in E3. destruct (s_admin st) as [ad'|] eqn:AD; [|discriminate].
    injection E3 as ->.
    split; cbn [amount_of parties needs moves]; auto; try contradiction; try discriminate.
    + apply moved_l_nil. exact Hh.
    + intros r0 _ L0. exact (L r0 L0).
    + intros a0. rewrite ?AD. intros [= <-]. exact E4.
    + cbn. congruence.
    + eexists. split; [cbn [emit s_events]; rewrite R3; reflexivity|].
      intros y NI. rewrite sum_over_one. reflexivity.
    + congruence.
  - (* mint *) bind H u E. apply check_nonneg_ok in E. bind H u2 E2.
    bind H ad E3. bind H u3 E4. apply auth_tt in E4. unfold done in H. bind H st1 E5.
    injection H as <- <-. apply receive_balance_ok in E5; [|exact E].
    destruct E5 as ((R1 & R2 & R3 & R4) & M & Fl & A & L).
    unfold read_admin in E3. destruct (s_admin st) as [ad'|] eqn:AD; [|discriminate].
    injection E3 as ->.
    split; cbn [amount_of parties needs moves]; auto; try contradiction.
    + intros x0 [= <-]. exact E.
    + intros a [<-|[]]; assumption.
    + intros a. rewrite ?AD. intros [= <-]. exact E4.
    + cbn. congruence.
    + eexists. split; [cbn [emit s_events]; rewrite R3; reflexivity|].
      intros y NI. rewrite sum_over_one. reflexivity.
    + congruence.
  - (* set_admin *) bind H ad E3. bind H u3 E4. apply auth_tt in E4. injection H as <- <-.
    unfold read_admin in E3. destruct (s_admin st) as [ad'|] eqn:AD; [|discriminate].
    injection E3 as ->.
    split; cbn [amount_of parties needs moves]; auto; try contradiction; try discriminate.
    + apply moved_l_nil. reflexivity.
    + intros a0. rewrite ?AD. intros [= <-]. exact E4.
    + eexists. split; [reflexivity|]. intros y NI. rewrite sum_over_one. reflexivity.
    + split; tauto.
    + congruence.
  - (* admin *) bind H v E. injection H as <- <-.
    split; cbn; try reflexivity; try discriminate; try contradiction; auto.
    + apply moved_l_nil. auto.
    + exists []. split; [symmetry; apply app_nil_r|reflexivity].
    + apply same_flags_refl.
  - (* trust *) unfold done in H. bind H st1 E. injection H as <- <-.
    apply create_trustline_ok in E. destruct E as ((R1 & R2 & R3 & R4) & Hh & L & AU & _).
    split; cbn [amount_of parties moves]; auto; try contradiction; try discriminate.
    + apply moved_l_nil. exact Hh.
    + intros a0. cbn [needs]. destruct a as [k| | |]; try discriminate.
      destruct (aget_tl st k) eqn:G; [discriminate|]. intros [= <-]. apply (AU k); auto.
    + exists []. rewrite R3. split; [symmetry; apply app_nil_r|reflexivity].
Qed.

Lemma negative_refused env st c x :
  amount_of c = Some x -> x < 0 -> invoke env st c = (st, Err (EContract 8)).
Proof.
  intros A X. apply Z.ltb_lt in X. unfold invoke.
  destruct c; try discriminate; injection A as ->; cbn [run_call]; unfold check_nonnegative;
    rewrite X; reflexivity.
Qed.

(* sum of what a set of addresses holds *)
Lemma sum_over_moved st st' l mv :
  (forall y, In y l -> holds st' y = holds st y + sum_for y mv) ->
  sum_over (holds st') l = sum_over (holds st) l + sum_over (fun y => sum_for y mv) l.
Proof.
  induction l as [|a l IH]; cbn; intro H; [reflexivity|].
  rewrite (H a) by auto. unfold sum_over in *. rewrite IH by auto. ring.
Qed.
Lemma sum_over_one_addr l a d :
  NoDup l -> In a l -> sum_over (fun y => if addr_dec a y then d else 0) l = d.
Proof.
  induction l as [|b l IH]; [contradiction|]. intros ND [->|I].
  - inversion ND; subst. cbn. destruct (addr_dec a a); [|congruence].
    assert (Z0 : sum_over (fun y => if addr_dec a y then d else 0) l = 0).
    { clear IH ND H2. induction l as [|c l IH]; [reflexivity|]. cbn.
      destruct (addr_dec a c) as [->|]; [exfalso; apply H1; left; reflexivity|].
      unfold sum_over in IH. rewrite IH; [ring|]. intro; apply H1; right; assumption. }
    unfold sum_over in Z0. rewrite Z0. ring.
  - inversion ND; subst. cbn. destruct (addr_dec a b) as [->|]; [contradiction|].
    unfold sum_over in IH. rewrite IH by assumption. ring.
Qed.
Lemma sum_over_moves l mv :
  NoDup l -> (forall a d, In (a, d) mv -> In a l) ->
  sum_over (fun y => sum_for y mv) l = sum_over snd mv.
Proof.
  intro ND. induction mv as [|[a d] mv IH]; intro H.
  - clear. induction l; cbn; [reflexivity|]. unfold sum_over in *. cbn in *. rewrite IHl. reflexivity.
  - transitivity (sum_over (fun y => if addr_dec a y then d else 0) l
                  + sum_over (fun y => sum_for y mv) l).
    + clear. induction l; cbn; [reflexivity|]. unfold sum_over in *. cbn in *. rewrite IHl. ring.
    + rewrite sum_over_one_addr by (eauto using in_eq). rewrite IH by eauto using in_cons.
      reflexivity.
Qed.
