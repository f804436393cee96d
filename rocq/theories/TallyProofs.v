(* The tallies follow the charges. *)
From Coq Require Import ZArith NArith Lia List Bool.
From Verif Require Import Prelude BudgetModel BudgetSpec BudgetProofs BudgetProofs2 TallySpec.
Import ListNotations.
Open Scope Z_scope.
Ltac Zify.zify_post_hook ::= idtac.

Lemma charge_tally b ty it i : ok_budget b -> in_shadow b = false ->
  snd (charge b ty it i) = Ok tt ->
  let b' := fst (charge b ty it i) in
  meter_count b' = sat_u32 (meter_count b + 1)
  /\ exists t t', nth_error (trackers b) ty = Some t
     /\ match t_inputs t, i with Some _, Some _ | None, None => True | _, _ => False end
     /\ trackers b' = upd (trackers b) ty t'
     /\ t_iterations t' = sat_u64 (t_iterations t + it)
     /\ t_inputs t' = match t_inputs t, i with
                      | Some x, Some i => Some (sat_u64 (x + sat_u64 (i * it)))
                      | _, _ => None
                      end
     /\ t_cpu t' = sat_u64 (t_cpu t + sat_price (d_models (cpu b)) ty it i)
     /\ t_mem t' = sat_u64 (t_mem t + sat_price (d_models (mem b)) ty it i).
Proof.
  intros (HC & HM & HT & _) E. unfold charge. rewrite E.
  destruct (nth_error (trackers b) ty) as [t|] eqn:Et; [|discriminate].
  assert (Hty : (ty < n_cost_types)%nat) by (rewrite <- HT; apply nth_error_Some; congruence).
  destruct (dim_charge_some (cpu b) ty it i false HC Hty) as [[c ca] Ec].
  destruct (dim_charge_some (mem b) ty it i false HM Hty) as [[m ma] Em].
  destruct (dim_charge_facts _ _ _ _ _ _ _ HC Ec) as (-> & _).
  destruct (dim_charge_facts _ _ _ _ _ _ _ HM Em) as (-> & _).
  destruct (t_inputs t) as [x|] eqn:Ex, i as [i|]; try discriminate; rewrite Ec, Em;
    (destruct (check_limit c false); [|discriminate]); intros _; cbn -[sat_u64 sat_u32 sat_price];
    (split; [reflexivity|]); exists t; eexists; (split; [reflexivity|]); (split; [rewrite Ex; exact I|]); (split; [reflexivity|]); cbn -[sat_u64 sat_price];
    rewrite ?Ex; repeat split; reflexivity.
Qed.

Section Tally.
  (* any number read off the tallies which each charge raises, up to mx, by inc *)
  Variable o : list tracker -> Z -> Z.
  Variable mx : Z.
  Variable inc : nat -> Z -> option Z -> Z.
  Variables cm mm : list cost_model.

  Let ob (b : budget) : Z := o (trackers b) (meter_count b).
  Let mods (b : budget) : Prop := d_models (cpu b) = cm /\ d_models (mem b) = mm.

  Hypothesis inc_nonneg : forall ty it i, 0 <= it -> match i with Some i => 0 <= i | None => True end ->
    0 <= inc ty it i.
  Hypothesis step : forall b ty it i, ok_budget b -> in_shadow b = false -> mods b ->
    0 <= it -> match i with Some i => 0 <= i | None => True end -> 0 <= ob b <= mx ->
    snd (charge b ty it i) = Ok tt -> ob (fst (charge b ty it i)) = Z.min mx (ob b + inc ty it i).

  Definition tallied (b b' : budget) (l : list entry) : Prop :=
    Forall entry_nonneg l
    /\ (all_succeeded l -> 0 <= ob b <= mx -> ob b' = Z.min mx (ob b + total inc l)).

  Lemma total_inc_nonneg l : Forall entry_nonneg l -> 0 <= total inc l.
  Proof.
    induction 1 as [|e l N F IH]; [cbn; lia|]. destruct e as [lin ty it i z r|z]; cbn [total]; [|exact IH].
    destruct N as [N1 N2]. pose proof (inc_nonneg ty it i N1 N2). lia.
  Qed.

  Lemma tallied_refl b : tallied b b [].
  Proof. split; [constructor|]. intros _ H. cbn [total]. lia. Qed.

  Lemma tallied_same b b' : ob b' = ob b -> tallied b b' [].
  Proof. intros E. split; [constructor|]. intros _ H. cbn [total]. lia. Qed.

  Lemma tallied_trans a b c l l' : tallied a b l -> tallied b c l' -> tallied a c (l ++ l').
  Proof.
    intros [N1 T1] [N2 T2]. split; [apply Forall_app; auto|]. intros S H.
    apply succ_app in S. destruct S as [S1 S2]. specialize (T1 S1 H).
    pose proof (total_inc_nonneg l N1). pose proof (total_inc_nonneg l' N2).
    rewrite T2 by (auto; lia). rewrite total_app. lia.
  Qed.

  Lemma tallied_lost b c a l : tallied b c l -> tallied b c (LLost a :: l).
  Proof.
    intros [N T]. split; [constructor; [exact I|exact N]|]. intros S. inversion_clear S. cbn [total]. auto.
  Qed.

  Lemma good_mods b b' l : good b b' l -> mods b -> mods b'.
  Proof.
    intros (_ & (_ & _ & _ & (C & _) & M & _) & _) [H1 H2]. split; congruence.
  Qed.

  Lemma charge_tallied b ty it i lin z : ok_budget b -> in_shadow b = false -> mods b ->
    0 <= it -> match i with Some i => 0 <= i | None => True end ->
    tallied b (fst (charge b ty it i)) [LCharge lin ty it i z (snd (charge b ty it i))].
  Proof.
    intros OK E M It I. split; [repeat constructor; auto|]. intros S H. inversion_clear S as [|? ? R _].
    cbn [total]. rewrite step by (auto; lia). f_equal. lia.
  Qed.

  Lemma grow_tallied b c d m : ok_budget b -> in_shadow b = false -> mods b ->
    let delta := sat_u64 (d - c) in
    let b' := fst (memory_growing b c d m) in
    let ok := snd (memory_growing b c d m) in
    tallied b b'
      (if negb (get_remaining (mem b) <? delta) && match m with Some x => d <=? x | None => true end
       then lg b b' (ok && match frames b with [] => false | _ => true end) MemAlloc 1 (Some delta)
             (if ok then Ok tt else Err (ESys TBudget CExceededLimit))
       else []).
  Proof.
    intros OK E M delta b' ok. unfold b', ok, memory_growing. fold delta.
    assert (D : 0 <= delta) by apply BudgetProofs.sat_range. clearbody delta.
    destruct (get_remaining (mem b) <? delta) eqn:Er; [apply tallied_refl|].
    destruct (match m with Some x => d <=? x | None => true end); [|apply tallied_refl].
    cbn [negb andb]. unfold lg. rewrite E.
    pose proof (charge_tallied b MemAlloc 1 (Some delta) true 0 OK E M ltac:(lia) D) as [N T].
    assert (NN : forall lin z r, Forall entry_nonneg [LCharge lin MemAlloc 1 (Some delta) z r]).
    { intros. constructor; [|constructor]. split; [lia|exact D]. }
    destruct (charge b MemAlloc 1 (Some delta)) as [b1 r]. cbn [fst snd] in *.
    assert (F : forall b2 lin z, tallied b b2 [LCharge lin MemAlloc 1 (Some delta) z (Err (ESys TBudget CExceededLimit))]).
    { intros. split; [apply NN|]. intros S. inversion_clear S. discriminate. }
    destruct r as [[]|e]; [|apply F].
    assert (G : forall b2 lin z, ob b2 = ob b1 -> tallied b b2 [LCharge lin MemAlloc 1 (Some delta) z (Ok tt)]).
    { intros b2 lin z Eo. split; [apply NN|]. intros S H. rewrite Eo. apply T; [|exact H].
      repeat constructor. }
    destruct (in_shadow b1); [apply G; reflexivity|].
    destruct (get_cost _ _ _ _); [|apply F]. apply G. cbn [fst]. unfold charge_frame.
    destruct (frames b1); reflexivity.
  Qed.

  Lemma reclaim_ob b m : ob (fst (reclaim b m)) = ob b.
  Proof. unfold reclaim. destruct (frames b); reflexivity. Qed.
  Lemma reclaim_mods b m : mods b -> mods (fst (reclaim b m)).
  Proof. unfold reclaim. destruct (frames b); auto. Qed.
  Lemma pop_ob b : ob (pop_frame b) = ob b.
  Proof. unfold pop_frame. destruct (frames b); [reflexivity|]. destruct (_ =? 0); reflexivity. Qed.
  Lemma pop_mods b : mods b -> mods (pop_frame b).
  Proof. unfold pop_frame. destruct (frames b); [auto|]. destruct (_ =? 0); auto. Qed.

Lemma run_tallied p : forall b, ok_budget b -> in_shadow b = false -> mods b ->
  tallied b (fst (fst (run p b))) (snd (fst (run p b))).
Proof.
  induction p; intros bb OK E Mo.
  - apply tallied_refl.
  - simpl. assert (K := charge_good bb ty (Z.of_N it) (on input) OK E).
    assert (TC := fun lin z => charge_tallied bb ty (Z.of_N it) (on input) lin z OK E Mo ltac:(lia)
                    ltac:(destruct input; simpl; auto; lia)).
    destruct (charge bb ty (Z.of_N it) (on input)) as [b1 rr]. simpl in K. cbn [fst snd] in TC.
    specialize (H rr b1 ltac:(apply K) (good_shadow _ _ _ K) (good_mods _ _ _ K Mo)).
    destruct (run (k rr) b1) as [[b2 l] r2]. cbn [fst snd] in *. unfold lg. rewrite E.
    eapply tallied_trans; [apply TC|exact H].
  - apply H; auto.
  - simpl. set (b2 := match check_limit (cpu bb) true with Ok _ => _ | Err _ => _ end).
    assert (K : same_metered (set_shadow bb true) b2).
    { unfold b2. destruct (check_limit _ _); [|apply sm_refl].
      destruct (check_limit _ _); [|apply sm_refl].
      apply run_shadow; [apply ok_set_shadow; auto|auto]. }
    clearbody b2.
    assert (K2 : same_metered bb (set_shadow b2 (in_shadow bb))).
    { unfold same_metered in *; simpl in *. intuition congruence. }
    assert (K3 : tallied bb (set_shadow b2 (in_shadow bb)) []).
    { apply tallied_same. unfold same_metered in K2. unfold ob. simpl in *.
      destruct K2 as (_&_&_&_&_&_&_&_&T1&T2&_). congruence. }
    change (tallied bb ?x ?y) with (tallied bb x ([] ++ y)).
    eapply tallied_trans; [exact K3|].
    apply IHp2; [eapply sm_ok; eauto|simpl; auto|].
    destruct K2 as (M1 & M2 & _). destruct Mo. split; congruence.
  - simpl. destruct (enter bb) as [b1|e] eqn:En; [|apply H; auto].
    destruct (enter_facts _ _ OK En) as [-> R].
    assert (K := IHp (set_depth bb (depth bb - 1)) (ok_set_depth _ _ OK R) E Mo).
    assert (G := run_good p (set_depth bb (depth bb - 1)) (ok_set_depth _ _ OK R) E).
    destruct (run p (set_depth bb (depth bb - 1))) as [[b2 l] r]. simpl in K, G.
    assert (D : depth b2 = depth bb - 1) by (destruct G as (_ & (_ & D & _) & _); simpl in D; auto).
    assert (Rd : in_u32 (depth bb)) by (unfold ok_budget in OK; tauto).
    rewrite (leave_facts b2 _ D) by (replace (depth bb - 1 + 1) with (depth bb) by lia; auto).
    replace (depth bb - 1 + 1) with (depth bb) by lia.
    assert (K3 := good_set_depth _ _ _ _ OK Rd G).
    specialize (H r _ ltac:(apply K3) (good_shadow _ _ _ K3) (good_mods _ _ _ K3 Mo)).
    destruct (run (k r) _) as [[b4 l4] r4]. cbn [fst snd] in *. eapply tallied_trans; [exact K|exact H].
  - simpl. assert (K := grow_good bb (Z.of_N current) (Z.of_N desired) (on maximum) OK E). simpl in K.
    assert (TG := grow_tallied bb (Z.of_N current) (Z.of_N desired) (on maximum) OK E Mo). cbv zeta in TG.
    assert (EM : match on maximum with Some x => Z.of_N desired <=? x | None => true end
                 = match maximum with Some m => (desired <=? m)%N | None => true end)
      by (destruct maximum; simpl; auto; apply Bool.eq_iff_eq_true; rewrite N.leb_le, Z.leb_le; lia).
    rewrite EM in TG, K.
    destruct (memory_growing bb (Z.of_N current) (Z.of_N desired) (on maximum)) as [b1 ok].
    cbn [fst snd] in K, TG.
    specialize (H ok b1 ltac:(apply K) (good_shadow _ _ _ K) (good_mods _ _ _ K Mo)).
    destruct (run (k ok) b1) as [[b2 l] r2]. cbn [fst snd] in *. eapply tallied_trans; [exact TG|exact H].
  - simpl. destruct (add_fuel_to_vm bb clean_fuel) as [x|e] eqn:Ef; [|apply H; auto].
    destruct (fuel_nonneg _ _ OK Ef) as [F1 F2].
    destruct (burn_range burns x ltac:(lia)) as [F3 _].
    set (f := burn_all _ _) in *. clearbody f. unfold return_fuel_to_host.
    assert (K := charge_good bb WasmInsnExec (fu_consumed f) None OK E).
    assert (TC := fun lin z => charge_tallied bb WasmInsnExec (fu_consumed f) None lin z OK E Mo ltac:(lia) I).
    destruct (charge bb WasmInsnExec (fu_consumed f) None) as [b1 rr]. simpl in K. cbn [fst snd] in TC.
    assert (Er : rmap (fun _ : fuel => tt) (rmap (fun _ => clean_fuel) rr) = rr)
      by (destruct rr as [[]|]; reflexivity).
    rewrite Er.
    specialize (H rr b1 ltac:(apply K) (good_shadow _ _ _ K) (good_mods _ _ _ K Mo)).
    destruct (run (k rr) b1) as [[b2 l] r2]. cbn [fst snd] in *. unfold lg. rewrite E.
    eapply tallied_trans; [apply TC|exact H].
  - simpl. assert (K1 := run_good p1 bb OK E). assert (L1 := IHp1 bb OK E Mo).
    destruct (run p1 bb) as [[b1 l1] r1]. simpl in K1, L1.
    assert (OK1 : ok_budget b1) by apply K1.
    assert (E1 := good_shadow _ _ _ K1). assert (Mo1 := good_mods _ _ _ K1 Mo).
    destruct r1 as [u|e].
    2:{ specialize (H (Err e) b1 OK1 E1 Mo1). destruct (run (k (Err e)) b1) as [[b2 l2] r2]. cbn [fst snd] in *.
        eapply tallied_trans; [exact L1|exact H]. }
    pose proof (reclaim_ob b1 (top bb)) as RO. pose proof (reclaim_mods b1 (top bb) Mo1) as RM.
    assert (Hr : exists b2 c, reclaim b1 (top bb) = (b2, c) /\ ok_budget b2 /\ in_shadow b2 = false
        /\ 0 <= c /\ c <= rest b2).
    { destruct K1 as (_ & _ & K1 & _). unfold grown, top in *. unfold reclaim.
      destruct (frames bb) as [|f fs] eqn:F0; destruct (frames b1) as [|f1 fs1] eqn:F1; try tauto.
      - exists b1, 0. unfold rest. rewrite F1. simpl.
        assert (N : in_u64 (d_net (mem b1))) by (unfold ok_budget, ok_dim in OK1; tauto).
        unfold in_u64 in N. split; auto. split; auto. split; auto. lia.
      - destruct K1 as [Le ->]. simpl.
        assert (HF : 0 <= f /\ Forall (Z.le 0) fs /\ f1 + sum fs <= d_net (mem b1)).
        { destruct OK as (_&_&_&_&HF&_). rewrite F0 in HF. inversion HF; subst.
          destruct OK1 as (_&_&_&_&_&HS&_). rewrite F1 in HS. simpl in HS. auto. }
        destruct HF as (Ha&Hb&Hc). pose proof (sum_nonneg _ Hb).
        assert (Hm : d_net (mem b1) <= u64_max).
        { destruct OK1 as (_&(_&_&_&N&_)&_). unfold in_u64 in N. lia. }
        assert (Hd : sat_u64 (f1 - f) = f1 - f) by (rewrite sat_min by lia; lia).
        exists (set_frames b1 (f :: fs)), (f1 - f). rewrite Hd. split; auto.
        split. { unfold ok_budget in *; simpl. rewrite F1 in OK1. intuition; try lia; constructor; auto. }
        split; auto. split; [lia|]. unfold rest; simpl. lia. }
    destruct Hr as (b2 & c & Er & OK2 & E2 & Hc0 & Hc1). rewrite Er in *. cbn [fst] in RO, RM.
    assert (L2 : tallied b1 b2 []) by (now apply tallied_same).
    set (P := if _ <=? _ then _ else _).
    assert (K3 : good b2 (fst (fst P)) (snd (fst P)) /\ tallied b2 (fst (fst P)) (snd (fst P))).
    { unfold P. case_if; [split; [apply good_refl; auto|apply tallied_refl]|]. split; [apply run_good|apply IHp2]; auto. }
    clearbody P. destruct P as [[b3 l3] r3]. simpl in K3. destruct K3 as [K3 L3].
    assert (OK3 : ok_budget b3) by apply K3.
    assert (E3 := good_shadow _ _ _ K3). assert (Mo3 := good_mods _ _ _ K3 RM).
    pose proof (tallied_trans _ _ _ _ _ L1 (tallied_trans _ _ _ _ _ L2 L3)) as L13. cbn [app] in L13.
    destruct r3 as [u3|e].
    2:{ specialize (H (Err e) b3 OK3 E3 Mo3). destruct (run (k (Err e)) b3) as [[b4 l4] r4]. cbn [fst snd] in *.
        rewrite app_assoc. eapply tallied_trans; [exact L13|]. apply tallied_lost. exact H. }
    assert (OKp : ok_budget (set_frames b3 (c :: frames b3))).
    { destruct K3 as (_&_&_&_&R3). unfold ok_budget, rest in *; simpl.
      destruct OK3 as (O1&O2&O3&O4&O5&O6&O7). split; [auto|]. split; [auto|]. split; [auto|].
      split; [auto|]. split; [constructor; auto|]. split; [lia|auto]. }
    assert (K4 := run_good p3 _ OKp E3). assert (L4 := IHp3 _ OKp E3 Mo3).
    destruct (run p3 (set_frames b3 (c :: frames b3))) as [[b4 l4] r4]. simpl in K4, L4.
    assert (Mo4 := good_mods _ _ _ K4 Mo3).
    destruct K4 as (OK4 & C4 & G4 & _).
    unfold grown in G4. simpl in G4.
    destruct (frames b4) as [|f4 fs4] eqn:F4; [tauto|]. destruct G4 as [Lf ->].
    assert (OK5 : ok_budget (pop_frame b4) /\ in_shadow (pop_frame b4) = false).
    { assert (Hf4 : 0 <= f4 /\ f4 + sum (frames b3) <= d_net (mem b4) /\ Forall (Z.le 0) (frames b3)).
      { destruct OK4 as (_&_&_&_&O5&O6&_). rewrite F4 in *. inversion O5; subst. auto. }
      destruct Hf4 as (Hf4 & Hf5 & Hf6). pose proof (sum_nonneg _ Hf6).
      assert (Hn : 0 <= d_net (mem b4) <= u64_max).
      { destruct OK4 as (_&(_&_&_&N&_)&_). exact N. }
      assert (Hs : sat_u64 (d_net (mem b4) - f4) = d_net (mem b4) - f4) by (rewrite sat_min by lia; lia).
      unfold pop_frame. rewrite F4. split; [|destruct C4 as (C4&_); destruct (f4 =? 0); exact C4].
      destruct (f4 =? 0) eqn:Z4.
      - apply Z.eqb_eq in Z4. subst f4. unfold ok_budget in *; simpl. rewrite F4 in OK4. intuition.
      - unfold ok_budget, ok_dim, in_u64, refund in *; simpl. rewrite Hs, F4 in *. intuition; lia. }
    specialize (H r4 _ (proj1 OK5) (proj2 OK5) (pop_mods _ Mo4)).
    destruct (run (k r4) _) as [[b6 l6] r6]. cbn [fst snd] in *.
    assert (L4' : tallied b3 b4 l4) by exact L4.
    pose proof (tallied_trans _ _ _ _ _ L13 (tallied_trans _ _ _ _ _ L4'
      (tallied_trans _ _ _ _ _ (tallied_same _ _ (pop_ob b4)) H))) as R. cbn [app] in R.
    rewrite <- app_assoc in R. exact R.
Qed.

End Tally.

(* ------------------------------------------------------------ instances *)

Definition field (g : tracker -> Z) (ty : nat) (ts : list tracker) (n : Z) : Z :=
  match nth_error ts ty with Some t => g t | None => 0 end.
Definition input_of (t : tracker) : Z := match t_inputs t with Some x => x | None => 0 end.

Definition shape (i : option Z) : Prop := match i with Some i => 0 <= i | None => True end.

(* g rises by f with each charge of its type *)
Definition rises (g : tracker -> Z) (f : nat -> Z -> option Z -> Z) (cm mm : list cost_model) : Prop :=
  forall ty it i t t', 0 <= it -> shape i -> 0 <= g t <= u64_max ->
  match t_inputs t, i with Some _, Some _ | None, None => True | _, _ => False end ->
  t_iterations t' = sat_u64 (t_iterations t + it) ->
  t_inputs t' = match t_inputs t, i with
                | Some x, Some i => Some (sat_u64 (x + sat_u64 (i * it)))
                | _, _ => None
                end ->
  t_cpu t' = sat_u64 (t_cpu t + sat_price cm ty it i) ->
  t_mem t' = sat_u64 (t_mem t + sat_price mm ty it i) ->
  g t' = Z.min u64_max (g t + f ty it i).

Lemma field_step g f ty0 cm mm : rises g f cm mm ->
  forall b ty it i, ok_budget b -> in_shadow b = false ->
  d_models (cpu b) = cm /\ d_models (mem b) = mm ->
  0 <= it -> shape i -> 0 <= field g ty0 (trackers b) (meter_count b) <= u64_max ->
  snd (charge b ty it i) = Ok tt ->
  field g ty0 (trackers (fst (charge b ty it i))) (meter_count (fst (charge b ty it i)))
  = Z.min u64_max (field g ty0 (trackers b) (meter_count b) + of_type ty0 f ty it i).
Proof.
  intros R b ty it i OK E [M1 M2] It Sh B S.
  destruct (charge_tally b ty it i OK E S) as (_ & t & t' & T & Ms & U & A1 & A2 & A3 & A4).
  unfold field, of_type in *. rewrite U. destruct (Nat.eqb_spec ty ty0) as [->|D].
  - rewrite (nth_upd_same _ _ _ _ T). rewrite T in *. rewrite M1 in A3. rewrite M2 in A4.
    eapply R; eauto.
  - rewrite nth_upd_other by auto. lia.
Qed.

Lemma iterations_rise cm mm : rises t_iterations iterations cm mm.
Proof. intros ty it i t t' It Sh B Ms A1 _ _ _. rewrite A1. unfold iterations in *. apply sat_min. lia. Qed.
Lemma cpu_rise cm mm : rises t_cpu (sat_price cm) cm mm.
Proof.
  intros ty it i t t' It Sh B Ms _ _ A3 _. rewrite A3. apply sat_min.
  pose proof (sat_price_nonneg cm ty it i). lia.
Qed.
Lemma mem_rise cm mm : rises t_mem (sat_price mm) cm mm.
Proof.
  intros ty it i t t' It Sh B Ms _ _ _ A4. rewrite A4. apply sat_min.
  pose proof (sat_price_nonneg mm ty it i). lia.
Qed.
Lemma inputs_rise cm mm : rises input_of inputs cm mm.
Proof.
  intros ty it i t t' It Sh B Ms _ A2 _ _. unfold input_of, inputs in *. rewrite A2.
  destruct (t_inputs t) as [x|], i as [i|]; try destruct Ms.
  - cbn in Sh. assert (0 <= i * it) by (apply Z.mul_nonneg_nonneg; lia).
    rewrite (sat_min (i * it)) by lia. rewrite sat_min by lia. lia.
  - reflexivity.
Qed.

Lemma run_field g f ty0 p b : 
  rises g f (d_models (cpu b)) (d_models (mem b)) ->
  (forall ty it i, 0 <= it -> shape i -> 0 <= f ty it i) ->
  ok_budget b -> in_shadow b = false -> field g ty0 (trackers b) (meter_count b) = 0 ->
  all_succeeded (snd (fst (run p b))) ->
  field g ty0 (trackers (fst (fst (run p b)))) (meter_count (fst (fst (run p b))))
  = Z.min u64_max (total (of_type ty0 f) (snd (fst (run p b)))).
Proof.
  intros R N OK E Z0 S.
  assert (N' : forall ty it i, 0 <= it -> shape i -> 0 <= of_type ty0 f ty it i).
  { intros. unfold of_type. destruct (Nat.eqb _ _); [auto|lia]. }
  destruct (run_tallied (field g ty0) u64_max (of_type ty0 f) (d_models (cpu b)) (d_models (mem b)) N'
              (field_step g f ty0 _ _ R) p b OK E (conj eq_refl eq_refl)) as [_ T].
  rewrite T; [rewrite Z0; reflexivity|exact S|]. rewrite Z0. unfold u64_max. lia.
Qed.

Lemma run_count p b : ok_budget b -> in_shadow b = false -> meter_count b = 0 ->
  all_succeeded (snd (fst (run p b))) ->
  meter_count (fst (fst (run p b))) = Z.min u32_max (total once (snd (fst (run p b)))).
Proof.
  intros OK E Z0 S.
  assert (St : forall b ty it i, ok_budget b -> in_shadow b = false ->
    d_models (cpu b) = d_models (cpu b) /\ d_models (mem b) = d_models (mem b) ->
    0 <= it -> shape i -> 0 <= meter_count b <= u32_max -> snd (charge b ty it i) = Ok tt ->
    meter_count (fst (charge b ty it i)) = Z.min u32_max (meter_count b + once ty it i)).
  { intros b0 ty it i OK0 E0 _ _ _ B S0. destruct (charge_tally b0 ty it i OK0 E0 S0) as [M _].
    rewrite M. unfold once. unfold_widths. lia. }
  assert (N : forall ty it i, 0 <= it -> shape i -> 0 <= once ty it i) by (intros; unfold once; lia).
  destruct (run_tallied (fun _ n => n) u32_max once (d_models (cpu b)) (d_models (mem b)) N
              (fun b0 ty it i O0 E0 _ => St b0 ty it i O0 E0 (conj eq_refl eq_refl))
              p b OK E (conj eq_refl eq_refl)) as [_ T].
  rewrite T; [rewrite Z0; reflexivity|exact S|]. rewrite Z0. unfold u32_max. lia.
Qed.

Lemma fresh_tallies b : fresh b -> meter_count b = 0
  /\ forall ty t, nth_error (trackers b) ty = Some t ->
     t_iterations t = 0 /\ input_of t = 0 /\ t_cpu t = 0 /\ t_mem t = 0.
Proof.
  intros (cl & ml & cp & mp & _ & _ & _ & H). unfold budget_of_configs, dim_of_config in H.
  destruct (load_models n_cost_types cp) as [mc|]; [|discriminate].
  destruct (load_models n_cost_types mp) as [mm|]; [|discriminate].
  cbv [rbind] in H. generalize dependent default_takes_input. intros dti H. injection H as <-. split; [reflexivity|]. cbn [trackers]. intros ty t T.
  apply nth_error_In in T. apply in_map_iff in T. destruct T as (bb & <- & _).
  unfold input_of. destruct bb; cbn; auto.
Qed.

Lemma tallies_exact p b b' l r : fresh b -> run p b = (b', l, r) -> all_succeeded l ->
  meter_count b' = Z.min u32_max (total once l)
  /\ length (trackers b') = n_cost_types
  /\ forall ty t, nth_error (trackers b') ty = Some t ->
     t_iterations t = Z.min u64_max (total (of_type ty iterations) l)
     /\ input_of t = Z.min u64_max (total (of_type ty inputs) l)
     /\ t_cpu t = Z.min u64_max (total (of_type ty (sat_price (d_models (cpu b)))) l)
     /\ t_mem t = Z.min u64_max (total (of_type ty (sat_price (d_models (mem b)))) l).
Proof.
  intros F H S. destruct (fresh_ok b F) as (OK & E & _). destruct (fresh_tallies b F) as [C0 T0].
  pose proof (run_good p b OK E) as (OK' & _). 
  pose proof (fun g f ty => run_field g f ty p b) as RF. pose proof (run_count p b OK E C0) as RC.
  rewrite H in *. cbn [fst snd] in *.
  split; [apply RC; exact S|]. split; [apply OK'|]. intros ty t T.
  assert (Z0 : forall g, (forall t0, nth_error (trackers b) ty = Some t0 -> g t0 = 0) ->
               field g ty (trackers b) (meter_count b) = 0).
  { intros g G. unfold field. destruct (nth_error (trackers b) ty); auto. }
  assert (Ft : forall g, field g ty (trackers b') (meter_count b') = g t).
  { intros g. unfold field. now rewrite T. }
  split; [|split; [|split]].
  - rewrite <- (Ft t_iterations). apply RF; auto.
    + apply iterations_rise.
    + apply Z0. intros t0 I. apply (T0 ty t0 I).
  - rewrite <- (Ft input_of). apply RF; auto.
    + apply inputs_rise.
    + intros ty1 it [i|] A B; unfold inputs; [apply Z.mul_nonneg_nonneg; auto|lia].
    + apply Z0. intros t0 I. apply (T0 ty t0 I).
  - rewrite <- (Ft t_cpu). apply RF; auto.
    + apply cpu_rise.
    + intros. apply sat_price_nonneg.
    + apply Z0. intros t0 I. apply (T0 ty t0 I).
  - rewrite <- (Ft t_mem). apply RF; auto.
    + apply mem_rise.
    + intros. apply sat_price_nonneg.
    + apply Z0. intros t0 I. apply (T0 ty t0 I).
Qed.

(* ------------------------------------------------------------ the sum of the tallies *)

Lemma sum_app l m : sum (l ++ m) = sum l + sum m.
Proof. induction l; cbn; lia. Qed.

Lemma sum_by_index (g : tracker -> Z) F : forall ts k,
  (forall j t, nth_error ts j = Some t -> g t = F (k + j)%nat) ->
  sum (map g ts) = sum (map F (seq k (length ts))).
Proof.
  induction ts as [|t ts IH]; intros k H; [reflexivity|]. cbn [map sum length seq].
  rewrite (H O t eq_refl), Nat.add_0_r. f_equal. apply IH. intros j t' J.
  rewrite (H (S j) t' J). f_equal. lia.
Qed.

Lemma sum_types f l n : (forall ty it i, (n <= ty)%nat -> f ty it i = 0) ->
  sum (map (fun ty => total (of_type ty f) l) (seq 0 n)) = total f l.
Proof.
  intros Z0. induction l as [|e l IH].
  - cbn [total]. generalize (seq 0 n). intros s. induction s; cbn [map sum total] in *; lia.
  - destruct e as [lin ty it i z r|z]; cbn [total]; [|exact IH].
    assert (P : forall s, sum (map (fun k => of_type k f ty it i + total (of_type k f) l) s)
                = sum (map (fun k => of_type k f ty it i) s) + sum (map (fun k => total (of_type k f) l) s)).
    { clear. induction s; cbn [map sum]; lia. }
    rewrite P, IH. f_equal.
    destruct (Nat.le_gt_cases n ty) as [G|G].
    + rewrite (Z0 ty it i G). generalize (seq 0 n). intros s.
      induction s; cbn [map sum]; [reflexivity|]. unfold of_type at 1. rewrite (Z0 ty it i G).
      destruct (Nat.eqb _ _); lia.
    + assert (Q : forall k m, (k <= ty < k + m)%nat ->
                  sum (map (fun j => of_type j f ty it i) (seq k m)) = f ty it i).
      { assert (Q0 : forall m k, (ty < k)%nat -> sum (map (fun j => of_type j f ty it i) (seq k m)) = 0).
        { induction m as [|m IHm]; intros k K; [reflexivity|]. cbn [seq map sum]. rewrite IHm by lia.
          unfold of_type. destruct (Nat.eqb_spec ty k); lia. }
        intros k m. revert k. induction m as [|m IHm]; intros k K; [lia|]. cbn [seq map sum].
        destruct (Nat.eq_dec ty k) as [->|D].
        - rewrite Q0 by lia. unfold of_type. rewrite Nat.eqb_refl. lia.
        - rewrite IHm by lia. unfold of_type. destruct (Nat.eqb_spec ty k); lia. }
      apply Q. lia.
Qed.

Lemma of_type_le f l ty : (forall t it i, 0 <= f t it i) -> total (of_type ty f) l <= total f l.
Proof.
  intros N. induction l as [|[lin t it i z r|z] l IH]; cbn [total]; [lia| |exact IH].
  unfold of_type at 1. pose proof (N t it i). destruct (Nat.eqb t ty); lia.
Qed.

Lemma tallies_add_up p b b' l r : fresh b -> run p b = (b', l, r) -> all_succeeded l ->
  d_limit (cpu b) < u64_max -> sum (map t_cpu (trackers b')) = d_net (cpu b').
Proof.
  intros F H S L. destruct (tallies_exact p b b' l r F H S) as (_ & Ln & T).
  destruct (run_within_limits p b b' l r F H S) as (A & _ & _ & B & _).
  destruct (fresh_ok b F) as (((LM & _) & _) & _).
  set (f := sat_price (d_models (cpu b))) in *.
  assert (Tl : total f l < u64_max) by lia.
  rewrite (sum_by_index t_cpu (fun ty => total (of_type ty f) l) (trackers b') 0).
  - rewrite Ln, sum_types; [lia|]. intros ty it i G. unfold f, sat_price.
    rewrite (proj2 (nth_error_None _ _)) by lia. reflexivity.
  - intros j t J. cbn [Nat.add]. destruct (T j t J) as (_ & _ & -> & _).
    pose proof (of_type_le f l j ltac:(intros; apply sat_price_nonneg)). lia.
Qed.
