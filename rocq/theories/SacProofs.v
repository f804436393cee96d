(* Lemmas about the balance functions of the asset contract. *)
From Coq Require Import ZArith Lia List Bool.
From Verif Require Import Prelude ValModel HeapModel AMap StorageModel SacModel SacSpec.
Import ListNotations.
Open Scope Z_scope.

Lemma ok_inj {A} (x y : A) : Ok x = Ok y -> x = y.
Proof. congruence. Qed.
Ltac pair_eq H := apply ok_inj in H; apply pair_equal_spec in H; destruct H; subst.

Ltac bind H x E := apply rbind_ok in H; destruct H as [x [E H]].

Lemma pow63 : 2 ^ 63 = 9223372036854775808. Proof. reflexivity. Qed.
Lemma pow127 : 2 ^ 127 = 170141183460469231731687303715884105728. Proof. reflexivity. Qed.

Lemma chk64_ok x e y : chk64 x e = Ok y -> y = x /\ - 2 ^ 63 <= x <= 2 ^ 63 - 1.
Proof.
  unfold chk64, in_i64, i64_min, i64_max. intro H. destruct (_ && _) eqn:E; [|discriminate].
  injection H as <-. apply andb_true_iff in E. destruct E. split; [reflexivity|].
  apply Z.leb_le in H, H0. auto.
Qed.
Lemma chk128_ok x e y : chk128 x e = Ok y -> y = x /\ - 2 ^ 127 <= x <= 2 ^ 127 - 1.
Proof.
  unfold chk128, in_i128, i128_min, i128_max. intro H. destruct (_ && _) eqn:E; [|discriminate].
  injection H as <-. apply andb_true_iff in E. destruct E. split; [reflexivity|].
  apply Z.leb_le in H, H0. auto.
Qed.
Lemma chk64_in x e : - 2 ^ 63 <= x <= 2 ^ 63 - 1 -> chk64 x e = Ok x.
Proof.
  intros [A B]. unfold chk64, in_i64, i64_min, i64_max.
  apply Z.leb_le in A, B. rewrite A, B. reflexivity.
Qed.
Lemma chk128_in x e : - 2 ^ 127 <= x <= 2 ^ 127 - 1 -> chk128 x e = Ok x.
Proof.
  intros [A B]. unfold chk128, in_i128, i128_min, i128_max.
  apply Z.leb_le in A, B. rewrite A, B. reflexivity.
Qed.

(* flags: a mask of one bit *)
Lemma has_flag_bit x k : 0 <= k -> has_flag x (2 ^ k) = Z.testbit x k.
Proof.
  intro K. unfold has_flag. destruct (Z.testbit x k) eqn:E.
  - destruct (Z.eqb_spec (Z.land x (2 ^ k)) 0) as [Z0|]; [exfalso|reflexivity].
    assert (Z.testbit (Z.land x (2 ^ k)) k = true).
    { rewrite Z.land_spec, E, Z.pow2_bits_true; auto. }
    rewrite Z0, Z.bits_0 in H. discriminate.
  - destruct (Z.eqb_spec (Z.land x (2 ^ k)) 0) as [|NZ]; [reflexivity|exfalso].
    apply NZ. apply Z.bits_inj'. intros n Hn. rewrite Z.land_spec, Z.bits_0.
    destruct (Z.eq_dec n k) as [->|D].
    + rewrite E. reflexivity.
    + rewrite Z.pow2_bits_false by auto. apply andb_false_r.
Qed.
Lemma has_flag0 x : has_flag x 1 = Z.testbit x 0.
Proof. apply (has_flag_bit x 0). lia. Qed.
Lemma has_flag2 x : has_flag x 4 = Z.testbit x 2.
Proof. apply (has_flag_bit x 2). lia. Qed.

Lemma testbit_1 n : 0 <= n -> Z.testbit 1 n = (n =? 0).
Proof.
  intro H. destruct (Z.eqb_spec n 0) as [->|N]; [reflexivity|].
  change 1 with (2 ^ 0). apply Z.pow2_bits_false. lia.
Qed.
Lemma testbit_2 n : 0 <= n -> Z.testbit 2 n = (n =? 1).
Proof.
  intro H. destruct (Z.eqb_spec n 1) as [->|N]; [reflexivity|].
  change 2 with (2 ^ 1). apply Z.pow2_bits_false. lia.
Qed.

(* ------------------------------------------------------------ state accessors *)

Lemma bal_set st m a : aget_bal (set_bals st m) a = aget addr_dec m a.
Proof. reflexivity. Qed.

Definition same_rest (st st' : sst) : Prop :=
  s_asset st' = s_asset st /\ s_admin st' = s_admin st /\ s_events st' = s_events st
  /\ s_allow st' = s_allow st.
Lemma same_rest_refl st : same_rest st st.
Proof. repeat split. Qed.
Lemma same_rest_trans a b c : same_rest a b -> same_rest b c -> same_rest a c.
Proof. intros (?&?&?&?) (?&?&?&?). repeat split; congruence. Qed.

Section Env.
Variable env : senv.

Lemma get_bal_ok st a o :
  get_bal env st a = Ok o ->
  aget_bal st a = o /\ (forall b, o = Some b -> li_seq (sv_li env) <= b_live b).
Proof.
  unfold get_bal, aget_bal. intro H. bind H u E.
  destruct (aget addr_dec (s_bal st) a) as [b|].
  - destruct (Z.ltb_spec (b_live b) (li_seq (sv_li env))); [discriminate|].
    injection H as <-. split; [reflexivity|]. intros b' [= <-]. auto.
  - injection H as <-. split; [reflexivity|]. discriminate.
Qed.

Lemma write_contract_balance_ok st a x au cl st' :
  write_contract_balance env st a x au cl = Ok st' ->
  exists live, st' = set_bals st (aset addr_dec (s_bal st) a
    {| b_amount := x; b_auth := au; b_claw := cl; b_live := live |}).
Proof.
  unfold write_contract_balance. intro H.
  bind H o E. bind H u E1. bind H l E2. bind H l' E3. injection H as <-. eauto.
Qed.

Lemma issuer_flag_ok st f b :
  issuer_flag env st f = Ok b ->
  match s_asset st with
  | Native => b = false
  | Credit _ i => exists ac, aget_acc st i = Some ac /\ b = has_flag (sa_flags ac) f
  end.
Proof.
  unfold issuer_flag, load_account, aget_acc. destruct (s_asset st) as [|c i].
  - intros [= <-]. reflexivity.
  - intro H. bind H a E. bind E u E1. destruct (aget key_dec (s_acc st) i) as [ac|]; [|discriminate].
    injection E as <-. injection H as <-. eauto.
Qed.

Lemma is_authorized_ok st a b :
  is_authorized env st a = Ok b ->
  if b then may_move st a else ~ may_move st a.
Proof.
  unfold is_authorized, may_move. destruct a as [k|k|i k|d p]; try discriminate.
  - unfold account_authorized, read_trustline. destruct (s_asset st) as [|c i].
    + intros [= <-]. exact I.
    + destruct (key_dec i k) as [->|N].
      * intros [= <-]. left. reflexivity.
      * intro H. bind H t E. bind E u E1. unfold aget_tl.
        destruct (aget key_dec (s_tl st) k) as [t'|] eqn:G; [|discriminate].
        injection E as <-. injection H as <-. unfold tl_authorized.
        rewrite has_flag0. destruct (Z.testbit (tl_flags t') 0) eqn:B.
        -- right. eauto.
        -- intros [->|(t & [= <-] & B')]; congruence.
  - intro H. bind H o E. apply get_bal_ok in E. destruct E as [-> _].
    destruct o as [bv|].
    + injection H as <-. destruct (b_auth bv); [reflexivity|discriminate].
    + bind H r E. injection H as <-. apply issuer_flag_ok in E.
      destruct (s_asset st) as [|c i].
      * subst r. exact I.
      * destruct E as (ac & A & ->). unfold acc_required. rewrite has_flag0.
        destruct (Z.testbit (sa_flags ac) 0) eqn:B; cbn [negb].
        -- intros (ac' & A' & B'). congruence.
        -- eauto.
Qed.

Lemma account_min_max_ok a mn mx :
  account_min_max env a = Ok (mn, mx) ->
  0 <= sa_bal a
  /\ mn = sv_reserve env * acc_entries a + acc_selling a /\ mx = 2 ^ 63 - 1 - acc_buying a.
Proof.
  unfold account_min_max, acc_entries, acc_selling, acc_buying.
  destruct (Z.ltb_spec (sa_bal a) 0) as [|P]; [discriminate|].
  destruct (sa_ext a) as [[[b s] [[ing ed]|]]|]; intro H.
  - bind H n E. bind H n2 E2. bind E2 n1 E1.
    apply chk64_ok in E, E1, E2. destruct E as [-> _], E1 as [-> _], E2 as [-> _].
    bind H m1 E3. bind H m2 E4. bind H x E5. apply chk64_ok in E3, E4, E5.
    destruct E3 as [-> _], E4 as [-> _], E5 as [-> _]. pair_eq H. split; [exact P|]. split; [ring|reflexivity].
  - bind H n E. bind H n2 E2. injection E2 as <-.
    apply chk64_ok in E. destruct E as [-> _].
    bind H m1 E3. bind H m2 E4. bind H x E5. apply chk64_ok in E3, E4, E5.
    destruct E3 as [-> _], E4 as [-> _], E5 as [-> _]. pair_eq H. split; [exact P|]. split; [ring|reflexivity].
  - bind H n E. bind H m E2. apply chk64_ok in E, E2. destruct E as [-> _], E2 as [-> _].
    pair_eq H. unfold i64_max. split; [exact P|split; ring].
Qed.
Lemma trustline_min_max_ok t mn mx :
  trustline_min_max t = Ok (mn, mx) ->
  0 <= tl_bal t /\ mn = tl_selling t /\ mx = tl_limit t - tl_buying t.
Proof.
  unfold trustline_min_max, tl_selling, tl_buying.
  destruct (Z.ltb_spec (tl_bal t) 0) as [|P]; [discriminate|].
  destruct (tl_ext t) as [[b s]|].
  - destruct (Z.ltb_spec (tl_limit t) b); [discriminate|]. intros [= <- <-]. auto.
  - intros [= <- <-]. split; [exact P|split; ring].
Qed.

Lemma transfer_account_ok st k x st' :
  transfer_account env st k x = Ok st' ->
  exists a', st' = set_accs st (aset key_dec (s_acc st) k a')
    /\ sa_bal a' = match aget_acc st k with Some a => sa_bal a + x | None => x end
    /\ match aget_acc st k with
       | Some a => sa_sub a' = sa_sub a /\ sa_flags a' = sa_flags a /\ sa_ext a' = sa_ext a
       | None => sa_sub a' = 0 /\ sa_flags a' = 0 /\ sa_ext a' = None /\ 0 < x
       end
    /\ sv_reserve env * acc_entries a' + acc_selling a' <= sa_bal a'
    /\ ((aget_acc st k = None -> x <= 2 ^ 63 - 1) -> sa_bal a' <= 2 ^ 63 - 1 - acc_buying a').
Proof.
  unfold transfer_account, aget_acc. intro H. bind H u E.
  destruct (aget key_dec (s_acc st) k) as [a|] eqn:G.
  - bind H mm E1. destruct mm as [mn mx]. apply account_min_max_ok in E1.
    destruct E1 as (P & Hmn & Hmx). bind H new E2. apply chk64_ok in E2. destruct E2 as [-> _].
    destruct (Z.leb_spec mn (sa_bal a + x)) as [L1|]; [|discriminate].
    destruct (Z.leb_spec (sa_bal a + x) mx) as [L2|]; [|discriminate].
    cbn in H. bind H u' E3. injection H as <-.
    exists (set_acc_bal a (sa_bal a + x)). split; [reflexivity|].
    cbn [set_acc_bal sa_bal sa_sub sa_flags sa_ext].
    split; [reflexivity|]. split; [auto|].
    unfold acc_entries, acc_selling, acc_buying in *. cbn [set_acc_bal sa_ext sa_sub].
    split; [lia|]. intros _. lia.
  - destruct (Z.leb_spec x 0); [discriminate|].
    destruct (Z.ltb_spec x (2 * sv_reserve env)) as [|L]; [discriminate|].
    destruct (li_seq (sv_li env) >? 2 ^ 31 - 1); [discriminate|].
    bind H u' E3. injection H as <-.
    eexists. split; [reflexivity|]. cbn. split; [reflexivity|]. split; [auto|].
    split; [lia|]. intro HX. specialize (HX eq_refl). lia.
Qed.

Lemma transfer_trustline_ok st k x st' :
  transfer_trustline env st k x = Ok st' ->
  exists t, aget_tl st k = Some t
    /\ st' = set_tls st (aset key_dec (s_tl st) k (set_tl_bal t (tl_bal t + x)))
    /\ tl_selling t <= tl_bal t + x <= tl_limit t - tl_buying t.
Proof.
  unfold transfer_trustline, read_trustline, aget_tl. intro H. bind H t E. bind E u E1.
  destruct (aget key_dec (s_tl st) k) as [t'|]; [|discriminate]. injection E as ->.
  bind H mm E2. destruct mm as [mn mx]. apply trustline_min_max_ok in E2.
  destruct E2 as (P & -> & ->). bind H new E3. apply chk64_ok in E3. destruct E3 as [-> _].
  destruct (Z.leb_spec (tl_selling t) (tl_bal t + x)) as [L1|]; [|discriminate].
  destruct (Z.leb_spec (tl_bal t + x) (tl_limit t - tl_buying t)) as [L2|]; [|discriminate].
  cbn in H. bind H u' E4. injection H as <-. exists t. auto.
Qed.

(* ------------------------------------------------------- what a movement does *)

(* [st'] is [st] with [d] added to what [a] holds, unless [a] is the issuer. *)
Definition moved (st st' : sst) (a : addr) (d : Z) : Prop :=
  (forall y, the_issuer st y -> holds st' y = holds st y)
  /\ (forall y, ~ the_issuer st y -> holds st' y = holds st y + sum_for y [(a, d)]).

Lemma sum_one y a d : sum_for y [(a, d)] = if addr_dec a y then d else 0.
Proof. cbn. destruct (addr_dec a y); ring. Qed.

Lemma issuer_kind st y : the_issuer st y -> exists k, y = AAccount k.
Proof. unfold the_issuer. destruct (s_asset st); [contradiction|]. intros ->. eauto. Qed.

(* changing the balance entry of a contract *)
Lemma moved_bal st id bv d :
  b_amount bv = holds st (AContract id) + d ->
  moved st (set_bals st (aset addr_dec (s_bal st) (AContract id) bv)) (AContract id) d.
Proof.
  intro Hb. split; intros y HI.
  - destruct (issuer_kind _ _ HI) as [k ->]. reflexivity.
  - rewrite sum_one. destruct (addr_dec (AContract id) y) as [<-|N].
    + unfold holds at 1. unfold aget_bal. cbn [set_bals s_bal]. rewrite aget_aset_eq. exact Hb.
    + rewrite Z.add_0_r. destruct y as [k|k|i k|dd p]; try reflexivity. cbn [holds].
      unfold aget_bal. cbn [set_bals s_bal]. rewrite aget_aset_ne by congruence. reflexivity.
Qed.

Lemma moved_classic st k x st' :
  transfer_classic env st k x = Ok st' -> moved st st' (AAccount k) x.
Proof.
  unfold transfer_classic, moved, the_issuer. destruct (s_asset st) as [|c i] eqn:SA.
  - intro H. apply transfer_account_ok in H. destruct H as (a' & -> & B & _).
    split; [contradiction|]. intros y _. rewrite sum_one.
    destruct (addr_dec (AAccount k) y) as [<-|N].
    + unfold holds. cbn [set_accs s_asset]. rewrite SA. unfold aget_acc at 1.
      cbn [set_accs s_acc]. rewrite aget_aset_eq, B.
      destruct (aget_acc st k); ring.
    + rewrite Z.add_0_r. destruct y as [k'|k'|i' k'|dd p]; try reflexivity. cbn [holds set_accs s_asset].
      rewrite SA. unfold aget_acc. cbn [set_accs s_acc]. rewrite aget_aset_ne by congruence. reflexivity.
  - destruct (key_dec i k) as [<-|NI].
    + intros [= <-]. split; [auto|]. intros y HN. rewrite sum_one.
      destruct (addr_dec (AAccount i) y); [congruence|ring].
    + intro H. apply transfer_trustline_ok in H. destruct H as (t & G & -> & _).
      split; intros y HI.
      * subst y. unfold holds. cbn [set_tls s_asset]. rewrite SA. unfold aget_tl.
        cbn [set_tls s_tl]. rewrite aget_aset_ne by congruence. reflexivity.
      * rewrite sum_one. destruct (addr_dec (AAccount k) y) as [<-|N].
        -- unfold holds. cbn [set_tls s_asset]. rewrite SA, G. unfold aget_tl.
           cbn [set_tls s_tl]. rewrite aget_aset_eq. reflexivity.
        -- rewrite Z.add_0_r. destruct y as [k'|k'|i' k'|dd p]; try reflexivity. cbn [holds set_tls s_asset].
           rewrite SA. unfold aget_tl. cbn [set_tls s_tl]. rewrite aget_aset_ne by congruence. reflexivity.
Qed.

Lemma rest_classic st k x st' : transfer_classic env st k x = Ok st' -> same_rest st st'.
Proof.
  unfold transfer_classic. destruct (s_asset st) as [|c i] eqn:SA.
  - intro H. apply transfer_account_ok in H. destruct H as (a' & -> & _). repeat split.
  - destruct (key_dec i k).
    + intros [= <-]. apply same_rest_refl.
    + intro H. apply transfer_trustline_ok in H. destruct H as (t & _ & -> & _). repeat split.
Qed.

(* who may move, and what can be clawed back, is left alone *)
Definition same_flags (st st' : sst) : Prop :=
  (forall y, may_move st y <-> may_move st' y) /\ (forall y, may_claw st y -> may_claw st' y).

Lemma flags_classic st k x st' : transfer_classic env st k x = Ok st' -> same_flags st st'.
Proof.
  unfold transfer_classic. destruct (s_asset st) as [|c i] eqn:SA.
  - intro H. apply transfer_account_ok in H. destruct H as (a' & -> & _).
    split; intros [k'|k'|i' k'|dd p]; cbn; rewrite ?SA; try tauto.
  - destruct (key_dec i k) as [<-|NI].
    + intros [= <-]. split; tauto.
    + intro H. apply transfer_trustline_ok in H. destruct H as (t & G & -> & _).
      split; intros [k'|k'|i' k'|dd p]; cbn [may_move may_claw set_tls s_asset]; rewrite ?SA;
        try (first [tauto | exact (iff_refl _)]).
      * unfold aget_tl in *. cbn [set_tls s_tl]. rewrite aget_aset.
        destruct (key_dec k' k) as [->|]; [|tauto]. rewrite G.
        split; (intros [E|(t' & [= <-] & B)]; [left; exact E|right]).
        -- exists (set_tl_bal t (tl_bal t + x)). split; [reflexivity|exact B].
        -- exists t. split; [reflexivity|exact B].
      * unfold aget_tl in *. cbn [set_tls s_tl]. rewrite aget_aset.
        destruct (key_dec k' k) as [->|]; [|tauto]. rewrite G.
        intros [E (t' & [= <-] & B)]. split; [exact E|].
        exists (set_tl_bal t (tl_bal t + x)). split; [reflexivity|exact B].
Qed.

Lemma flags_bal st id bv :
  (b_auth bv = true <-> may_move st (AContract id)) ->
  (forall b, aget_bal st (AContract id) = Some b -> b_claw b = true -> b_claw bv = true) ->
  same_flags st (set_bals st (aset addr_dec (s_bal st) (AContract id) bv)).
Proof.
  intros A C. split; intros [k'|k'|i' k'|dd p]; try (cbn; tauto).
  - destruct (list_eq_dec Z.eq_dec id k') as [<-|N].
    + rewrite <- A. cbn. unfold aget_bal. cbn [set_bals s_bal]. rewrite aget_aset_eq. tauto.
    + cbn. unfold aget_bal. cbn [set_bals s_bal]. rewrite aget_aset_ne by congruence. tauto.
  - cbn. unfold aget_bal in *. cbn [set_bals s_bal]. rewrite aget_aset.
    destruct (addr_dec (AContract k') (AContract id)) as [E|]; [|tauto].
    intros (b & G & B). exists bv. split; [reflexivity|]. apply (C b); congruence.
Qed.

(* limits *)
Lemma limits_classic r st k x st' :
  r <= sv_reserve env -> x <= 2 ^ 63 - 1 ->
  transfer_classic env st k x = Ok st' -> limits r st -> limits r st'.
Proof.
  intros R X. unfold transfer_classic. destruct (s_asset st) as [|c i] eqn:SA.
  - intros H (LB & LA & LT). apply transfer_account_ok in H.
    destruct H as (a' & -> & B & F & MN & MX).
    split; [exact LB|]. split; [|exact LT]. intros k' a'' G'.
    unfold aget_acc in G'. cbn [set_accs s_acc] in G'. rewrite aget_aset in G'.
    destruct (key_dec k' k) as [->|]; [|exact (LA _ _ G')]. injection G' as <-.
    specialize (MX (fun _ => X)).
    assert (N : 0 <= acc_entries a' /\ 0 <= acc_selling a' /\ 0 <= acc_buying a').
    { destruct (aget_acc st k) as [a|] eqn:G.
      - destruct (LA _ _ G) as (A1 & A2 & A3 & _). destruct F as (F1 & F2 & F3).
        unfold acc_entries, acc_selling, acc_buying in *. rewrite F1, F3. auto.
      - destruct F as (F1 & F2 & F3 & _). unfold acc_entries, acc_selling, acc_buying.
        rewrite F1, F3. lia. }
    destruct N as (N1 & N2 & N3). repeat split; auto.
    nia.
  - destruct (key_dec i k).
    + intros [= <-]. auto.
    + intros H (LB & LA & LT). apply transfer_trustline_ok in H. destruct H as (t & G & -> & M).
      split; [exact LB|]. split; [exact LA|]. intros k' t' G'.
      unfold aget_tl in G'. cbn [set_tls s_tl] in G'. rewrite aget_aset in G'.
      destruct (key_dec k' k) as [->|]; [|exact (LT _ _ G')]. injection G' as <-.
      destruct (LT _ _ G) as (T1 & T2 & T3 & T4). repeat split; auto; apply M.
Qed.

Lemma limits_bal r st a bv :
  0 <= b_amount bv <= 2 ^ 127 - 1 -> limits r st ->
  limits r (set_bals st (aset addr_dec (s_bal st) a bv)).
Proof.
  intros B (LB & LA & LT). split; [|split; assumption]. intros a' b' G.
  unfold aget_bal in G. cbn [set_bals s_bal] in G. rewrite aget_aset in G.
  destruct (addr_dec a' a); [injection G as <-; exact B|exact (LB _ _ G)].
Qed.

(* --------------------------------------------------- spending and receiving *)

Lemma spend_no_check_ok st a x st' :
  spend_no_check env st a x = Ok st' -> 0 <= x ->
  same_rest st st' /\ moved st st' a (- x) /\ same_flags st st'
  /\ (forall r, r <= sv_reserve env -> limits r st -> limits r st').
Proof.
  unfold spend_no_check. intros H X. destruct a as [k|id|i k|dd p]; try discriminate.
  - bind H y E. apply chk64_ok in E. destruct E as [-> B].
    split; [eapply rest_classic; eauto|]. split; [eapply moved_classic; eauto|].
    split; [eapply flags_classic; eauto|]. intros r R.
    eapply limits_classic; eauto. rewrite pow63. lia.
  - bind H o E. apply get_bal_ok in E. destruct E as [G _]. destruct o as [b|].
    + destruct (Z.ltb_spec (b_amount b) x) as [|LE]; [discriminate|].
      bind H n E. apply chk128_ok in E. destruct E as [-> B].
      apply write_contract_balance_ok in H. destruct H as [live ->].
      split; [repeat split|]. split.
      { apply moved_bal. cbn. rewrite G. ring. }
      split.
      { apply flags_bal; cbn [b_auth b_claw].
        - cbn. rewrite G. tauto.
        - intros b' G' Cl. congruence. }
      intros r R L. apply limits_bal; [|exact L]. cbn [b_amount].
      destruct L as (LB & _). specialize (LB _ _ G). lia.
    + destruct (Z.gtb_spec x 0); [discriminate|]. injection H as <-.
      assert (x = 0) by lia. subst x.
      split; [apply same_rest_refl|]. split.
      { split; [auto|]. intros y _. rewrite sum_one. destruct (addr_dec _ y); lia. }
      split; [split; tauto|auto].
Qed.

Lemma receive_balance_ok st a x st' :
  receive_balance env st a x = Ok st' -> 0 <= x ->
  same_rest st st' /\ moved st st' a x /\ same_flags st st' /\ may_move st a
  /\ (forall r, r <= sv_reserve env -> limits r st -> limits r st').
Proof.
  unfold receive_balance. intros H X. bind H ok E. apply is_authorized_ok in E.
  destruct ok; [|discriminate]. cbn [negb] in H.
  destruct a as [k|id|i k|dd p]; try discriminate.
  - bind H y E1. apply chk64_ok in E1. destruct E1 as [-> B].
    split; [eapply rest_classic; eauto|]. split; [eapply moved_classic; eauto|].
    split; [eapply flags_classic; eauto|]. split; [exact E|]. intros r R.
    eapply limits_classic; eauto. lia.
  - bind H o E1. apply get_bal_ok in E1. destruct E1 as [G _].
    bind H abc E2. destruct abc as [[x0 au] cl]. bind H n E3. apply chk128_ok in E3.
    destruct E3 as [-> B]. apply write_contract_balance_ok in H. destruct H as [live ->].
    assert (Hx : x0 = holds st (AContract id) /\ au = true
                 /\ forall b, o = Some b -> b_claw b = true -> cl = true).
    { cbn [holds]. rewrite G. destruct o as [b|].
      - injection E2 as <- <- <-. split; [reflexivity|]. split.
        + cbn in E. rewrite G in E. exact E.
        + intros b' [= <-]. auto.
      - bind E2 c E4. injection E2 as <- <- <-. repeat split; discriminate. }
    destruct Hx as (Hx & -> & Hcl).
    split; [repeat split|]. split; [apply moved_bal; cbn [b_amount]; congruence|].
    split.
    { apply flags_bal; cbn [b_auth b_claw]; [tauto|]. intros b' G' Cl. apply (Hcl b'); congruence. }
    split; [exact E|]. intros r R L. apply limits_bal; [|exact L]. cbn [b_amount].
    destruct L as (LB & _). subst x0. cbn [holds]. cbn [holds] in B. rewrite G in *.
    destruct o as [b|]; [specialize (LB _ _ G)|]; lia.
Qed.

Lemma spend_balance_ok st a x st' :
  spend_balance env st a x = Ok st' -> 0 <= x ->
  same_rest st st' /\ moved st st' a (- x) /\ same_flags st st' /\ may_move st a
  /\ (forall r, r <= sv_reserve env -> limits r st -> limits r st').
Proof.
  unfold spend_balance. intros H X. bind H ok E. apply is_authorized_ok in E.
  destruct ok; [|discriminate]. cbn [negb] in H.
  apply spend_no_check_ok in H; [|exact X]. tauto.
Qed.

(* --------------------------------------------------------------- allowances *)

Lemma get_allow_ok st f s o :
  get_allow env st f s = Ok o ->
  o = match aget_allow st f s with
      | Some v => if l_live v <? li_seq (sv_li env) then None else Some v
      | None => None
      end.
Proof.
  unfold get_allow, aget_allow. intro H. bind H u E.
  destruct (aget pair_dec (s_allow st) (f, s)); injection H as <-; reflexivity.
Qed.

Lemma read_allowance_ok st f s x :
  read_allowance env st f s = Ok x -> x = allowance_at st (li_seq (sv_li env)) f s.
Proof.
  unfold read_allowance. intro H. bind H o E. apply get_allow_ok in E. injection H as <-.
  unfold allowance_at. subst o. destruct (aget_allow st f s) as [v|]; [|reflexivity].
  destruct (l_live v <? li_seq (sv_li env)); reflexivity.
Qed.

Definition only_allow (st st' : sst) : Prop :=
  exists m, st' = set_allows st m.
Lemma only_allow_refl st : only_allow st st.
Proof. exists (s_allow st). destruct st; reflexivity. Qed.
Lemma only_allow_holds st st' y : only_allow st st' -> holds st' y = holds st y.
Proof. intros [m ->]. reflexivity. Qed.
Lemma only_allow_move st st' y : only_allow st st' -> may_move st' y = may_move st y.
Proof. intros [m ->]. reflexivity. Qed.
Lemma only_allow_limits st st' r : only_allow st st' -> limits r st -> limits r st'.
Proof. intros [m ->]. auto. Qed.

Lemma extend_live_ok d live th to n :
  extend_live env d live th to = Ok n ->
  th <= to
  /\ exists mx, get_max_live_until (sv_li env) = Ok mx
  /\ n = (if (sat_sub_u32 live (li_seq (sv_li env)) <=? th)
             && (live <? Z.min (li_seq (sv_li env) + to) mx)
          then Z.min (li_seq (sv_li env) + to) mx else live).
Proof.
  unfold extend_live. destruct (Z.ltb_spec to th) as [|LT]; [discriminate|]. intro H. bind H mx E.
  destruct (_ && _) ; [discriminate|]. unfold checked_add_u32 in H.
  destruct (li_seq (sv_li env) + to <=? u32_max); [|discriminate].
  injection H as <-. split; [assumption|]. exists mx. auto.
Qed.

(* What writing an allowance does. *)
Lemma write_allowance_ok st f s x until st' :
  write_allowance env st f s x until = Ok st' ->
  exists mx, get_max_live_until (sv_li env) = Ok mx /\ until <= mx
  /\ (0 < x -> li_seq (sv_li env) <= until)
  /\ match get_allow env st f s with
     | Ok (Some v) =>
         exists live, st' = set_allows st (aset pair_dec (s_allow st) (f, s)
                        {| l_amount := x; l_until := until; l_live := live |})
           /\ l_live v <= live
           /\ (0 < x -> l_until v < until -> until <= live)
           /\ (x <= 0 \/ until <= l_until v -> live = l_live v)
     | Ok None =>
         (x <= 0 /\ st' = st)
         \/ (0 < x /\ exists live, st' = set_allows st (aset pair_dec (s_allow st) (f, s)
                        {| l_amount := x; l_until := until; l_live := live |})
               /\ (0 < until -> until <= live)
               /\ li_seq (sv_li env) <= live)
     | Err _ => False
     end.
Proof.
  unfold write_allowance. intro H. bind H mx Emx. exists mx. split; [exact Emx|].
  destruct (Z.gtb_spec until mx) as [|LE]; [discriminate|]. split; [exact LE|].
  destruct ((x >? 0) && (until <? li_seq (sv_li env))) eqn:E1; [discriminate|].
  assert (P : 0 < x -> li_seq (sv_li env) <= until) by lia. split; [exact P|].
  bind H o Eo. rewrite Eo.
  assert (EXT : forall live n, 0 < x ->
      extend_live env Temporary live (sat_sub_u32 until (li_seq (sv_li env)))
        (sat_sub_u32 until (li_seq (sv_li env))) = Ok n -> live <= n /\ until <= n).
  { intros live n X E. apply extend_live_ok in E. destruct E as (_ & mx' & Em & ->).
    rewrite Emx in Em. injection Em as <-. specialize (P X). unfold sat_sub_u32 in *.
    match goal with |- context [if ?b then _ else _] => destruct b eqn:B end; lia. }
  destruct o as [v|].
  - bind H u E2. bind H live E3. injection H as <-. exists live. split; [reflexivity|].
    destruct ((x >? 0) && (l_until v <? until)) eqn:B.
    + apply EXT in E3; [|lia]. destruct E3. split; [assumption|]. split; [auto|]. lia.
    + injection E3 as <-. split; [lia|]. split; [lia|]. reflexivity.
  - destruct (Z.gtb_spec x 0) as [X|X].
    + right. split; [lia|]. bind H live0 E0. bind H u E2. bind H live E3. injection H as <-.
      exists live. split; [reflexivity|].
      assert (M : li_seq (sv_li env) <= live0).
      { unfold get_min_live_until, min_live_until, checked_add_u32, sat_sub_u32 in E0.
        destruct (_ <=? u32_max) in E0; [|discriminate]. injection E0 as <-. lia. }
      destruct (0 <? until) eqn:B.
      * assert (Hx : (x >? 0) && true = true) by lia.
        cbn [andb] in E3. apply EXT in E3; [|lia]. lia.
      * cbn in E3. injection E3 as <-. split; [lia|exact M].
    + left. split; [lia|]. injection H as <-. reflexivity.
Qed.

Lemma write_allowance_only st f s x until st' :
  write_allowance env st f s x until = Ok st' -> only_allow st st'.
Proof.
  intro H. apply write_allowance_ok in H. destruct H as (mx & _ & _ & _ & H).
  destruct (get_allow env st f s) as [[v|]|]; [| |contradiction].
  - destruct H as (live & -> & _). eexists; reflexivity.
  - destruct H as [[_ ->]|(_ & live & -> & _)]; [apply only_allow_refl|eexists; reflexivity].
Qed.

(* Spending from an allowance lowers the entry, which was in force, and nothing else. *)
Lemma spend_allowance_ok st f s x st' :
  spend_allowance env st f s x = Ok st' ->
  only_allow st st'
  /\ x <= allowance_at st (li_seq (sv_li env)) f s
  /\ (x <= 0 -> st' = st)
  /\ (0 < x -> exists v,
        aget_allow st f s = Some v
        /\ li_seq (sv_li env) <= l_live v /\ li_seq (sv_li env) <= l_until v
        /\ x <= l_amount v
        /\ st' = set_allows st (aset pair_dec (s_allow st) (f, s)
             {| l_amount := l_amount v - x; l_until := l_until v; l_live := l_live v |})).
Proof.
  unfold spend_allowance. intro H. bind H a E. pose proof (read_allowance_ok _ _ _ _ E) as R.
  destruct (Z.ltb_spec a x) as [|LE]; [discriminate|].
  destruct (Z.gtb_spec x 0) as [X|X].
  - bind H n E1. apply chk128_ok in E1. destruct E1 as [-> _].
    unfold write_allowance_amount in H. bind H o Eo. pose proof (get_allow_ok _ _ _ _ Eo) as Go.
    destruct o as [v|]; [|discriminate].
    assert (G : aget_allow st f s = Some v /\ li_seq (sv_li env) <= l_live v).
    { destruct (aget_allow st f s) as [v'|]; [|discriminate].
      destruct (Z.ltb_spec (l_live v') (li_seq (sv_li env))); [discriminate|].
      injection Go as <-. auto. }
    destruct G as [G L]. split; [eapply write_allowance_only; eauto|].
    split; [lia|]. split; [lia|]. intros _. exists v. split; [exact G|]. split; [exact L|].
    unfold allowance_at in R. rewrite G in R.
    destruct (Z.ltb_spec (l_live v) (li_seq (sv_li env))); [lia|]. cbn [orb] in R.
    destruct (Z.ltb_spec (l_until v) (li_seq (sv_li env))); [lia|].
    subst a. split; [assumption|]. split; [assumption|].
    apply write_allowance_ok in H. destruct H as (mx & _ & _ & _ & H). rewrite Eo in H.
    destruct H as (live & -> & _ & _ & K). rewrite K by lia. reflexivity.
  - injection H as <-. split; [apply only_allow_refl|]. split; [lia|].
    split; [reflexivity|]. lia.
Qed.
End Env.
