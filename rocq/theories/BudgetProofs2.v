(* Proofs about the budget model, continued: shadow erasure, fuel, depth. *)
From Coq Require Import ZArith NArith Lia List Bool.
From Verif Require Import Prelude BudgetModel BudgetSpec BudgetProofs.
Import ListNotations.
Open Scope Z_scope.
Ltac Zify.zify_post_hook ::= Z.div_mod_to_equations.

(* ------------------------------------------------------- fresh budgets *)

Lemma load_models_ok n ps ms :
  Forall (fun p => in_i64 (fst p) /\ in_i64 (snd p)) ps -> load_models n ps = Ok ms ->
  length ms = n /\ Forall (fun m => in_u64 (cm_const m) /\ in_u64 (cm_lin m)) ms.
Proof.
  revert ps ms; induction n; intros [|p ps] ms F; simpl; try discriminate.
  - intros H; inversion H; auto.
  - intros H; inversion H; subst. simpl. rewrite repeat_length. split; auto.
    constructor; [simpl; unfold_widths; lia|].
    apply Forall_forall. intros x Hx. apply repeat_spec in Hx. subst. simpl. unfold_widths; lia.
  - inversion F as [|? ? [F1 F2] F3]; subst. unfold model_of_param. case_if; [discriminate|].
    simpl. destruct (load_models n ps) as [ms'|] eqn:E; [|discriminate]. simpl.
    intros H; inversion H; subst. destruct (IHn _ _ F3 E) as [L R]. simpl. split; [lia|].
    constructor; auto. simpl. unfold_widths. lia.
Qed.

Lemma fresh_ok b : fresh b -> ok_budget b /\ in_shadow b = false
  /\ d_net (cpu b) = 0 /\ d_net (mem b) = 0 /\ d_peak (mem b) = 0 /\ frames b = []
  /\ map has_input (trackers b) = default_takes_input.
Proof.
  intros (cl & ml & cp & mp & Rc & Rm & F & H). unfold budget_of_configs, dim_of_config in H.
  apply Forall_app in F. destruct F as [F1 F2].
  destruct (load_models n_cost_types cp) as [mc|] eqn:Ec; [|discriminate].
  destruct (load_models n_cost_types mp) as [mm|] eqn:Em; [|discriminate].
  cbv [rbind] in H. inversion H; subst; clear H.
  destruct (load_models_ok _ _ _ F1 Ec) as [L1 M1]. destruct (load_models_ok _ _ _ F2 Em) as [L2 M2].
  split; [|repeat split; auto].
  unfold ok_budget, ok_dim; simpl.
  assert (in_u64 0) by (unfold_widths; lia). assert (in_u64 ml) by (unfold_widths; lia).
  assert (in_u32 default_host_depth_limit) by (unfold default_host_depth_limit; unfold_widths; lia).
  intuition; lia.
Qed.

Lemma run_within_limits p b b' l r :
  fresh b -> run p b = (b', l, r) -> all_succeeded l ->
  d_net (cpu b') <= d_limit (cpu b) /\ d_net (mem b') <= d_peak (mem b')
  /\ d_peak (mem b') <= d_limit (mem b)
  /\ d_net (cpu b') = Z.min u64_max (total (sat_price (d_models (cpu b))) l)
  /\ d_limit (cpu b') = d_limit (cpu b) /\ d_limit (mem b') = d_limit (mem b).
Proof.
  intros F H S. destruct (fresh_ok _ F) as (OK & E & N1 & N2 & P & _).
  assert (G := run_good p b OK E). rewrite H in G. simpl in G.
  destruct G as (OK' & (A1&A2&A3&A4&A5&A6&A7&A8) & _). destruct (A8 S) as (Q1&Q2&Q3).
  unfold ok_budget, ok_dim, in_u64, moved in *. rewrite N1 in *. rewrite Z.add_0_l in Q1. intuition lia.
Qed.

Lemma total_exact ms l L : Forall (fun m => in_u64 (cm_const m) /\ in_u64 (cm_lin m)) ms ->
  Forall (fun e => match e with LCharge _ _ it i _ _ => 0 <= it /\ match i with Some i => 0 <= i | None => True end
                   | LLost _ => True end) l ->
  total (sat_price ms) l <= L -> L < 2 ^ 57 - 1 ->
  total (sat_price ms) l = total (price ms) l.
Proof.
  intros HM HL. revert L. induction HL as [|e l He HL IH]; intros L Ht HL'; [reflexivity|].
  destruct e as [lin ty it i z r|]; simpl in *.
  - pose proof (total_nonneg ms l). pose proof (sat_price_nonneg ms ty it i).
    rewrite <- (IH L) by lia. f_equal.
    unfold sat_price, price in *. destruct (nth_error ms ty) as [m|] eqn:E; auto.
    apply nth_error_In in E. rewrite Forall_forall in HM. destruct (HM m E) as [C1 C2].
    destruct He as [He1 He2].
    destruct (evaluate_exact m it i C1 C2 He1 He2) as [_ X]. apply X. lia.
  - eauto.
Qed.

Lemma burn_range ds : forall f, 0 <= fu_consumed f <= fu_total f ->
  0 <= fu_consumed (burn_all f ds) <= fu_total f /\ fu_total (burn_all f ds) = fu_total f
  /\ fu_consumed f <= fu_consumed (burn_all f ds).
Proof.
  induction ds as [|d ds IH]; intros f H; simpl; [lia|].
  unfold burn. case_if; [|simpl; lia].
  specialize (IH {| fu_total := fu_total f; fu_consumed := fu_consumed f + Z.of_N d |}). simpl in IH. lia.
Qed.

Definition entry_nonneg (e : entry) : Prop :=
  match e with LCharge _ _ it i _ _ => 0 <= it /\ match i with Some i => 0 <= i | None => True end
             | LLost _ => True end.

Lemma lg_nonneg b b' lin ty it i r : 0 <= it -> match i with Some i => 0 <= i | None => True end ->
  Forall entry_nonneg (lg b b' lin ty it i r).
Proof. unfold lg. destruct (in_shadow b); constructor; simpl; auto. Qed.

Lemma add_fuel_eq b : add_fuel_to_vm b clean_fuel =
  match nth_error (d_models (cpu b)) WasmInsnExec with
  | Some m => Ok {| fu_total := get_remaining (cpu b) / Z.max (cm_const m) 1; fu_consumed := 0 |}
  | None => Err (ESys TBudget CInternalError)
  end.
Proof.
  unfold add_fuel_to_vm, fuel_remaining, get_cost_model.
  destruct (nth_error (d_models (cpu b)) WasmInsnExec); reflexivity.
Qed.

Lemma fuel_nonneg b f : ok_budget b -> add_fuel_to_vm b clean_fuel = Ok f ->
  fu_consumed f = 0 /\ 0 <= fu_total f.
Proof.
  intros OK. rewrite add_fuel_eq.
  destruct (nth_error (d_models (cpu b)) WasmInsnExec) as [m|]; [|discriminate].
  intros H; inversion H; subst. simpl. split; auto.
  apply Z.div_pos; [apply sat_range|lia].
Qed.

Lemma run_log_nonneg p : forall b, ok_budget b -> in_shadow b = false ->
  Forall entry_nonneg (snd (fst (run p b))).
Proof.
  induction p; intros bb OK E.
  - constructor.
  - simpl. assert (K := charge_good bb ty (Z.of_N it) (on input) OK E).
    destruct (charge bb ty (Z.of_N it) (on input)) as [b1 rr]. simpl in K.
    specialize (H rr b1 ltac:(apply K) (good_shadow _ _ _ K)).
    destruct (run (k rr) b1) as [[b2 l] r2]. simpl in *. apply Forall_app. split; auto.
    apply lg_nonneg; [lia|]. destruct input; simpl; auto; lia.
  - apply H; auto.
  - simpl. set (b2 := match check_limit (cpu bb) true with Ok _ => _ | Err _ => _ end).
    assert (K : same_metered (set_shadow bb true) b2).
    { unfold b2. destruct (check_limit _ _); [|apply sm_refl].
      destruct (check_limit _ _); [|apply sm_refl].
      apply run_shadow; [apply ok_set_shadow; auto|auto]. }
    clearbody b2.
    assert (K2 : same_metered bb (set_shadow b2 (in_shadow bb))).
    { unfold same_metered in *; simpl in *. intuition congruence. }
    apply IHp2; [eapply sm_ok; eauto|simpl; auto].
  - simpl. destruct (enter bb) as [b1|e] eqn:En; [|apply H; auto].
    destruct (enter_facts _ _ OK En) as [-> R].
    assert (K := IHp (set_depth bb (depth bb - 1)) (ok_set_depth _ _ OK R) E).
    assert (G := run_good p (set_depth bb (depth bb - 1)) (ok_set_depth _ _ OK R) E).
    destruct (run p (set_depth bb (depth bb - 1))) as [[b2 l] r]. simpl in K, G.
    assert (D : depth b2 = depth bb - 1) by (destruct G as (_ & (_ & D & _) & _); simpl in D; auto).
    assert (Rd : in_u32 (depth bb)) by (unfold ok_budget in OK; tauto).
    rewrite (leave_facts b2 _ D) by (replace (depth bb - 1 + 1) with (depth bb) by lia; auto).
    replace (depth bb - 1 + 1) with (depth bb) by lia.
    assert (K3 := good_set_depth _ _ _ _ OK Rd G).
    specialize (H r _ ltac:(apply K3) (good_shadow _ _ _ K3)).
    destruct (run (k r) _) as [[b4 l4] r4]. simpl in *. apply Forall_app; auto.
  - simpl. assert (K := grow_good bb (Z.of_N current) (Z.of_N desired) (on maximum) OK E). simpl in K.
    destruct (memory_growing bb (Z.of_N current) (Z.of_N desired) (on maximum)) as [b1 ok].
    simpl in K.
    specialize (H ok b1 ltac:(apply K) (good_shadow _ _ _ K)).
    destruct (run (k ok) b1) as [[b2 l] r2]. simpl in *. apply Forall_app. split; auto.
    case_if; [|constructor]. apply lg_nonneg; [lia|apply sat_range].
  - simpl. destruct (add_fuel_to_vm bb clean_fuel) as [x|e] eqn:Ef; [|apply H; auto].
    destruct (fuel_nonneg _ _ OK Ef) as [F1 F2].
    destruct (burn_range burns x ltac:(lia)) as [F3 _].
    set (f := burn_all _ _) in *. clearbody f. unfold return_fuel_to_host.
    assert (K := charge_good bb WasmInsnExec (fu_consumed f) None OK E).
    destruct (charge bb WasmInsnExec (fu_consumed f) None) as [b1 rr]. simpl in K.
    set (r' := rmap _ _).
    specialize (H r' b1 ltac:(apply K) (good_shadow _ _ _ K)).
    destruct (run (k r') b1) as [[b2 l] r2]. simpl in *. apply Forall_app. split; auto.
    apply lg_nonneg; [lia|auto].
  - simpl. assert (K1 := run_good p1 bb OK E). assert (L1 := IHp1 bb OK E).
    destruct (run p1 bb) as [[b1 l1] r1]. simpl in K1, L1.
    assert (OK1 : ok_budget b1) by apply K1.
    assert (E1 := good_shadow _ _ _ K1).
    destruct r1 as [u|e].
    2:{ specialize (H (Err e) b1 OK1 E1). destruct (run (k (Err e)) b1) as [[b2 l2] r2]. simpl in *.
        apply Forall_app; auto. }
    assert (Hr : exists b2 c, reclaim b1 (top bb) = (b2, c) /\ ok_budget b2 /\ in_shadow b2 = false
        /\ 0 <= c /\ c <= rest b2).
    { destruct K1 as (_ & _ & K1 & _). unfold grown, top in *. unfold reclaim.
      destruct (frames bb) as [|f fs] eqn:F0; destruct (frames b1) as [|f1 fs1] eqn:F1; try tauto.
      - exists b1, 0. unfold rest. rewrite F1. simpl.
        assert (N : in_u64 (d_net (mem b1))) by (unfold ok_budget, ok_dim in OK1; tauto).
        unfold in_u64 in N. split; auto. split; auto. split; auto. lia.
      - destruct K1 as [Le ->]. simpl.
        assert (HF : 0 <= f /\ Forall (Z.le 0) fs /\ f1 + sum fs <= d_net (mem b1)).
        { destruct OK as (_&_&_&_&HF&_). rewrite F0 in HF. inversion HF; subst.
          destruct OK1 as (_&_&_&_&_&HS&_). rewrite F1 in HS. simpl in HS. auto. }
        destruct HF as (Ha&Hb&Hc). pose proof (sum_nonneg _ Hb).
        assert (Hm : d_net (mem b1) <= u64_max).
        { destruct OK1 as (_&(_&_&_&N&_)&_). unfold in_u64 in N. lia. }
        assert (Hd : sat_u64 (f1 - f) = f1 - f) by (rewrite sat_min by lia; lia).
        exists (set_frames b1 (f :: fs)), (f1 - f). rewrite Hd. split; auto.
        split. { unfold ok_budget in *; simpl. rewrite F1 in OK1. intuition; try lia; constructor; auto. }
        split; auto. split; [lia|]. unfold rest; simpl. lia. }
    destruct Hr as (b2 & c & -> & OK2 & E2 & Hc0 & Hc1).
    set (P := if _ <=? _ then _ else _).
    assert (K3 : good b2 (fst (fst P)) (snd (fst P)) /\ Forall entry_nonneg (snd (fst P))).
    { unfold P. case_if; [split; [apply good_refl; auto|constructor]|]. split; [apply run_good|apply IHp2]; auto. }
    clearbody P. destruct P as [[b3 l3] r3]. simpl in K3. destruct K3 as [K3 L3].
    assert (OK3 : ok_budget b3) by apply K3.
    assert (E3 := good_shadow _ _ _ K3).
    destruct r3 as [u3|e].
    2:{ specialize (H (Err e) b3 OK3 E3). destruct (run (k (Err e)) b3) as [[b4 l4] r4]. simpl in *.
        apply Forall_app; split; auto. apply Forall_app; split; auto. constructor; simpl; auto. }
    assert (OKp : ok_budget (set_frames b3 (c :: frames b3))).
    { destruct K3 as (_&_&_&_&R3). unfold ok_budget, rest in *; simpl.
      destruct OK3 as (O1&O2&O3&O4&O5&O6&O7). split; [auto|]. split; [auto|]. split; [auto|].
      split; [auto|]. split; [constructor; auto|]. split; [lia|auto]. }
    assert (K4 := run_good p3 _ OKp E3). assert (L4 := IHp3 _ OKp E3).
    destruct (run p3 (set_frames b3 (c :: frames b3))) as [[b4 l4] r4]. simpl in K4, L4.
    destruct K4 as (OK4 & C4 & G4 & _).
    unfold grown in G4. simpl in G4.
    destruct (frames b4) as [|f4 fs4] eqn:F4; [tauto|]. destruct G4 as [Lf ->].
    assert (OK5 : ok_budget (pop_frame b4) /\ in_shadow (pop_frame b4) = false).
    { assert (Hf4 : 0 <= f4 /\ f4 + sum (frames b3) <= d_net (mem b4) /\ Forall (Z.le 0) (frames b3)).
      { destruct OK4 as (_&_&_&_&O5&O6&_). rewrite F4 in *. inversion O5; subst. auto. }
      destruct Hf4 as (Hf4 & Hf5 & Hf6). pose proof (sum_nonneg _ Hf6).
      assert (Hn : 0 <= d_net (mem b4) <= u64_max).
      { destruct OK4 as (_&(_&_&_&N&_)&_). exact N. }
      assert (Hs : sat_u64 (d_net (mem b4) - f4) = d_net (mem b4) - f4) by (rewrite sat_min by lia; lia).
      unfold pop_frame. rewrite F4. split; [|destruct C4 as (C4&_); destruct (f4 =? 0); exact C4].
      destruct (f4 =? 0) eqn:Z4.
      - apply Z.eqb_eq in Z4. subst f4. unfold ok_budget in *; simpl. rewrite F4 in OK4. intuition.
      - unfold ok_budget, ok_dim, in_u64, refund in *; simpl. rewrite Hs, F4 in *. intuition; lia. }
    specialize (H r4 _ (proj1 OK5) (proj2 OK5)).
    destruct (run (k r4) _) as [[b6 l6] r6]. simpl in *.
    repeat (apply Forall_app; split; auto).
Qed.

Lemma run_exact_total p b b' l r :
  fresh b -> run p b = (b', l, r) -> all_succeeded l -> d_limit (cpu b) < 2 ^ 57 - 1 ->
  d_net (cpu b') = total (price (d_models (cpu b))) l.
Proof.
  intros F H S HL. destruct (run_within_limits _ _ _ _ _ F H S) as (A & _ & _ & B & _).
  destruct (fresh_ok _ F) as (OK & E & _).
  assert (L := run_log_nonneg p b OK E). rewrite H in L. simpl in L.
  rewrite B. rewrite Z.min_r.
  - apply total_exact with (L := d_limit (cpu b)); auto.
    + unfold ok_budget, ok_dim in OK; tauto.
    + rewrite <- (Z.min_r u64_max (total _ l)); [lia|].
      change (2 ^ 57 - 1) with 144115188075855871 in *. unfold u64_max in *. lia.
  - change (2 ^ 57 - 1) with 144115188075855871 in *. unfold u64_max in *. lia.
Qed.

(* ------------------------------------------------------------ monotonicity *)

Lemma run_monotone p b b' l r :
  ok_budget b -> in_shadow b = false -> run p b = (b', l, r) ->
  d_net (cpu b) <= d_net (cpu b') /\ d_peak (cpu b) <= d_peak (cpu b')
  /\ d_peak (mem b) <= d_peak (mem b') /\ d_net (mem b') <= d_peak (mem b')
  /\ d_limit (cpu b') = d_limit (cpu b) /\ d_limit (mem b') = d_limit (mem b).
Proof.
  intros OK E H. assert (G := run_good p b OK E). rewrite H in G. simpl in G.
  destruct G as (OK' & (A1&A2&A3&A4&A5&A6&A7&A8) & _). unfold moved in A4.
  assert (d_net (mem b') <= d_peak (mem b')) by (unfold ok_budget, ok_dim in OK'; tauto).
  intuition.
Qed.

Lemma charge_never_lowers b ty it i : ok_budget b ->
  d_net (mem b) <= d_net (mem (fst (charge b ty it i)))
  /\ d_net (cpu b) <= d_net (cpu (fst (charge b ty it i))).
Proof.
  intros OK. destruct (charge_ok b ty it i OK) as (_&_&_&_&_&A6&A7).
  destruct (in_shadow b) eqn:E.
  - destruct (A6 eq_refl) as ((_&_&_&C&_)&(_&_&_&M&_)&_). lia.
  - destruct (A7 eq_refl) as ((_&_&C&_)&(_&_&M&_)&_). lia.
Qed.

Lemma exceeded_sticky b ty it i :
  ok_budget b -> in_shadow b = false -> input_shape b ty i -> 0 <= it ->
  d_limit (cpu b) < d_net (cpu b) ->
  snd (charge b ty it i) = Err (ESys TBudget CExceededLimit).
Proof.
  intros OK E Hi Hit Hex. apply (charge_outcome b ty it i OK E Hi).
  intros [H _]. pose proof (sat_price_nonneg (d_models (cpu b)) ty it i).
  assert (d_net (cpu b) <= u64_max) by (destruct OK as ((_&_&_&N&_)&_); unfold in_u64 in N; lia). lia.
Qed.

(* ---------------------------------------------------------- shadow erasure *)

Ltac open_budget b :=
  destruct b as [[] [] ? ? ? ? ?]; simpl in *.

Lemma charge_cong a b ty it i : same_metered a b -> in_shadow a = false ->
  same_metered (fst (charge a ty it i)) (fst (charge b ty it i))
  /\ snd (charge a ty it i) = snd (charge b ty it i).
Proof.
  open_budget a. open_budget b. unfold same_metered; simpl.
  intros (E1&E2&E3&E4&E5&E6&E7&E8&E9&E10&E11&E12&E13) E. subst.
  unfold charge; simpl. destruct (nth_error _ ty) as [t|]; simpl; [|repeat split; auto].
  match goal with |- context [match ?x with Ok _ => _ | Err _ => _ end] => destruct x end;
    simpl; [|repeat split; auto].
  unfold dim_charge, get_cost_model, check_limit; simpl.
  match goal with |- context [nth_error ?x ty] => destruct (nth_error x ty) end;
    simpl; [|repeat split; auto].
  case_if; simpl; [repeat split; auto|].
  match goal with |- context [nth_error ?x ty] => destruct (nth_error x ty) end;
    simpl; [|repeat split; auto].
  repeat split; auto.
Qed.

Lemma grow_cong a b c d m : same_metered a b -> in_shadow a = false ->
  same_metered (fst (memory_growing a c d m)) (fst (memory_growing b c d m))
  /\ snd (memory_growing a c d m) = snd (memory_growing b c d m).
Proof.
  intros K E. unfold memory_growing.
  assert (Hr : get_remaining (mem b) = get_remaining (mem a)).
  { unfold get_remaining. unfold same_metered in K. intuition congruence. }
  rewrite Hr. case_if; [|auto].
  destruct (charge_cong a b MemAlloc 1 (Some (sat_u64 (d - c))) K E) as [K1 K2].
  destruct (charge a MemAlloc 1 (Some (sat_u64 (d - c)))) as [a1 ra].
  destruct (charge b MemAlloc 1 (Some (sat_u64 (d - c)))) as [b1 rb]. simpl in *. subst rb.
  destruct ra; [|auto].
  rewrite (sm_shadow _ _ K1). case_if; [auto|].
  unfold get_cost, get_cost_model.
  assert (Hm : d_models (mem b1) = d_models (mem a1)) by (unfold same_metered in K1; intuition congruence).
  rewrite Hm. destruct (nth_error _ MemAlloc); simpl; [|auto].
  split; [|auto]. unfold charge_frame.
  assert (Hf : frames b1 = frames a1) by (unfold same_metered in K1; intuition congruence).
  rewrite Hf. destruct (frames a1); [auto|]. apply sm_set_frames; auto.
Qed.

Lemma lg_cong a b a1 b1 lin ty it i r : same_metered a b -> same_metered a1 b1 ->
  lg a a1 lin ty it i r = lg b b1 lin ty it i r.
Proof.
  intros K K1. unfold lg. rewrite (sm_shadow _ _ K).
  destruct (in_shadow a); auto. unfold same_metered in *.
  replace (d_net (mem b1)) with (d_net (mem a1)) by intuition.
  replace (d_net (mem b)) with (d_net (mem a)) by intuition. auto.
Qed.

Definition same_run (x y : budget * list entry * res unit) : Prop :=
  same_metered (fst (fst x)) (fst (fst y)) /\ snd (fst x) = snd (fst y) /\ snd x = snd y.

Lemma pop_cong a b : same_metered a b -> same_metered (pop_frame a) (pop_frame b).
Proof.
  intros K. unfold pop_frame.
  assert (Hf : frames b = frames a) by (unfold same_metered in K; intuition congruence).
  rewrite Hf. destruct (frames a); auto. case_if; [apply sm_set_frames; auto|].
  unfold same_metered in *; simpl. intuition congruence.
Qed.

Lemma erase p : forall a b, ok_budget a -> in_shadow a = false -> same_metered a b ->
  same_run (run p a) (run (without_shadow p) b).
Proof.
  induction p; intros aa bb OK E K.
  - split; auto.
  - simpl. destruct (charge_cong aa bb ty (Z.of_N it) (on input) K E) as [K1 K2].
    assert (G := charge_good aa ty (Z.of_N it) (on input) OK E).
    destruct (charge aa ty (Z.of_N it) (on input)) as [a1 ra].
    destruct (charge bb ty (Z.of_N it) (on input)) as [b1 rb]. simpl in *. subst rb.
    destruct (H ra a1 b1 ltac:(apply G) (good_shadow _ _ _ G) K1) as (J1&J2&J3).
    destruct (run (k ra) a1) as [[a2 la] r2]. destruct (run (without_shadow (k ra)) b1) as [[b2 lb] r2'].
    simpl in *. subst. split; auto. split; auto. simpl. rewrite (lg_cong aa bb a1 b1) by auto. auto.
  - simpl.
    assert (Hr : get_remaining (mem bb) = get_remaining (mem aa)).
    { unfold get_remaining. unfold same_metered in K. intuition congruence. }
    assert (Hr2 : get_remaining (cpu bb) = get_remaining (cpu aa)).
    { unfold get_remaining. unfold same_metered in K. intuition congruence. }
    rewrite Hr, Hr2.
    replace (d_net (cpu bb)) with (d_net (cpu aa)) by (unfold same_metered in K; intuition).
    replace (d_peak (mem bb)) with (d_peak (mem aa)) by (unfold same_metered in K; intuition).
    apply H; auto.
  - simpl. set (b2 := match check_limit (cpu aa) true with Ok _ => _ | Err _ => _ end).
    assert (K' : same_metered (set_shadow aa true) b2).
    { unfold b2. destruct (check_limit _ _); [|apply sm_refl].
      destruct (check_limit _ _); [|apply sm_refl].
      apply run_shadow; [apply ok_set_shadow; auto|auto]. }
    clearbody b2.
    assert (K2 : same_metered aa (set_shadow b2 (in_shadow aa))).
    { unfold same_metered in *; simpl in *. intuition congruence. }
    apply IHp2; [eapply sm_ok; eauto|simpl; auto|]. eapply sm_trans; [apply sm_sym; eauto|auto].
  - simpl. assert (D : depth bb = depth aa) by (unfold same_metered in K; intuition).
    unfold enter. rewrite D. unfold chk_u32. destruct (chk 0 u32_max (depth aa - 1)) as [d|] eqn:Ed.
    2:{ apply H; auto. }
    apply chk_Some in Ed. destruct Ed as [-> R].
    assert (OKd := ok_set_depth aa (depth aa - 1) OK R).
    assert (G := run_good p (set_depth aa (depth aa - 1)) OKd E).
    destruct (IHp _ _ OKd E (sm_set_depth _ _ (depth aa - 1) K)) as (J1&J2&J3).
    destruct (run p (set_depth aa (depth aa - 1))) as [[a2 la] ra].
    destruct (run (without_shadow p) (set_depth bb (depth aa - 1))) as [[b2 lb] rb]. simpl in *. subst lb rb.
    assert (Da : depth a2 = depth aa - 1) by (destruct G as (_ & (_ & X & _) & _); simpl in X; auto).
    assert (Db : depth b2 = depth aa - 1) by (unfold same_metered in J1; intuition congruence).
    assert (Rd : in_u32 (depth aa)) by (unfold ok_budget in OK; tauto).
    rewrite (leave_facts a2 _ Da), (leave_facts b2 _ Db)
      by (replace (depth aa - 1 + 1) with (depth aa) by lia; auto).
    replace (depth aa - 1 + 1) with (depth aa) by lia.
    assert (K3 := good_set_depth _ _ _ _ OK Rd G).
    destruct (H ra _ _ ltac:(apply K3) (good_shadow _ _ _ K3) (sm_set_depth _ _ (depth aa) J1)) as (L1&L2&L3).
    destruct (run (k ra) _) as [[a4 la4] ra4]. destruct (run (without_shadow (k ra)) _) as [[b4 lb4] rb4].
    simpl in *. subst. split; auto.
  - simpl. destruct (grow_cong aa bb (Z.of_N current) (Z.of_N desired) (on maximum) K E) as [K1 K2].
    assert (G := grow_good aa (Z.of_N current) (Z.of_N desired) (on maximum) OK E). simpl in G.
    destruct (memory_growing aa (Z.of_N current) (Z.of_N desired) (on maximum)) as [a1 oka].
    destruct (memory_growing bb (Z.of_N current) (Z.of_N desired) (on maximum)) as [b1 okb].
    simpl in *. subst okb.
    destruct (H oka a1 b1 ltac:(apply G) (good_shadow _ _ _ G) K1) as (L1&L2&L3).
    destruct (run (k oka) a1) as [[a2 la] ra2]. destruct (run (without_shadow (k oka)) b1) as [[b2 lb] rb2].
    simpl in *. subst. split; auto. split; auto. simpl.
    assert (Hr : get_remaining (mem bb) = get_remaining (mem aa)).
    { unfold get_remaining. unfold same_metered in K. intuition congruence. }
    rewrite Hr. rewrite (lg_cong aa bb a1 b1) by auto.
    replace (frames bb) with (frames aa) by (unfold same_metered in K; intuition). auto.
  - cbn [run without_shadow]. rewrite !add_fuel_eq. unfold get_remaining.
    replace (d_models (cpu bb)) with (d_models (cpu aa)) by (unfold same_metered in K; intuition).
    replace (d_limit (cpu bb)) with (d_limit (cpu aa)) by (unfold same_metered in K; intuition).
    replace (d_net (cpu bb)) with (d_net (cpu aa)) by (unfold same_metered in K; intuition).
    destruct (nth_error _ WasmInsnExec); [|apply H; auto].
    set (f := burn_all _ _). unfold return_fuel_to_host.
    destruct (charge_cong aa bb WasmInsnExec (fu_consumed f) None K E) as [K1 K2].
    assert (G := charge_good aa WasmInsnExec (fu_consumed f) None OK E).
    destruct (charge aa WasmInsnExec (fu_consumed f) None) as [a1 ra].
    destruct (charge bb WasmInsnExec (fu_consumed f) None) as [b1 rb]. simpl in *. subst rb.
    set (r' := rmap _ (rmap _ ra)).
    destruct (H r' a1 b1 ltac:(apply G) (good_shadow _ _ _ G) K1) as (J1&J2&J3).
    destruct (run (k r') a1) as [[a2 la] r2]. destruct (run (without_shadow (k r')) b1) as [[b2 lb] r2'].
    simpl in *. subst. split; auto. split; auto. simpl. rewrite (lg_cong aa bb a1 b1) by auto. auto.
  - simpl. assert (K1 := run_good p1 aa OK E).
    destruct (IHp1 aa bb OK E K) as (J1&J2&J3).
    destruct (run p1 aa) as [[a1 la1] ra1]. destruct (run (without_shadow p1) bb) as [[b1 lb1] rb1].
    simpl in *. subst lb1 rb1.
    assert (OK1 : ok_budget a1) by apply K1.
    assert (E1 := good_shadow _ _ _ K1).
    destruct ra1 as [u|e].
    2:{ destruct (H (Err e) a1 b1 OK1 E1 J1) as (L1&L2&L3).
        destruct (run (k (Err e)) a1) as [[a2 la2] r2].
        destruct (run (without_shadow (k (Err e))) b1) as [[b2 lb2] r2']. simpl in *. subst. split; auto. }
    assert (Hr : exists a2 b2 c, reclaim a1 (top aa) = (a2, c) /\ reclaim b1 (top bb) = (b2, c)
        /\ ok_budget a2 /\ in_shadow a2 = false
        /\ 0 <= c /\ c <= rest a2 /\ same_metered a2 b2).
    { destruct K1 as (_ & _ & K1 & _). unfold grown, top in *. unfold reclaim.
      assert (Fb : frames bb = frames aa) by (unfold same_metered in K; intuition).
      assert (Fb1 : frames b1 = frames a1) by (unfold same_metered in J1; intuition).
      rewrite Fb, Fb1.
      destruct (frames aa) as [|f fs] eqn:F0; destruct (frames a1) as [|f1 fs1] eqn:F1; try tauto.
      - exists a1, b1, 0. unfold rest. rewrite F1. simpl.
        assert (N : in_u64 (d_net (mem a1))) by (unfold ok_budget, ok_dim in OK1; tauto).
        unfold in_u64 in N. split; auto. split; auto. split; auto. split; auto. split; [lia|].
        split; [lia|auto].
      - destruct K1 as [Le ->]. simpl.
        assert (HF : 0 <= f /\ Forall (Z.le 0) fs /\ f1 + sum fs <= d_net (mem a1)).
        { destruct OK as (_&_&_&_&HF&_). rewrite F0 in HF. inversion HF; subst.
          destruct OK1 as (_&_&_&_&_&HS&_). rewrite F1 in HS. simpl in HS. auto. }
        destruct HF as (Ha&Hb&Hc). pose proof (sum_nonneg _ Hb).
        assert (Hm : d_net (mem a1) <= u64_max).
        { destruct OK1 as (_&(_&_&_&N&_)&_). unfold in_u64 in N. lia. }
        assert (Hd : sat_u64 (f1 - f) = f1 - f) by (rewrite sat_min by lia; lia).
        exists (set_frames a1 (f :: fs)), (set_frames b1 (f :: fs)), (f1 - f). rewrite Hd. split; auto.
        split; auto.
        split. { unfold ok_budget in *; simpl. rewrite F1 in OK1. intuition; try lia; constructor; auto. }
        split; auto. split; [lia|]. split; [unfold rest; simpl; lia|]. apply sm_set_frames; auto. }
    destruct Hr as (a2 & b2 & c & -> & -> & OK2 & E2 & Hc0 & Hc1 & M2).
    set (P := if _ <=? _ then _ else _).
    set (Q := if default_host_depth_limit <=? Z.of_nat (length (frames b2)) then _ else _).
    assert (K3 : good a2 (fst (fst P)) (snd (fst P)) /\ same_run P Q).
    { unfold P, Q. replace (frames b2) with (frames a2) by (unfold same_metered in M2; intuition).
      case_if; [split; [apply good_refl; auto|split; auto]|].
      split; [apply run_good|apply IHp2]; auto. }
    clearbody P Q. destruct P as [[a3 l3] r3]. destruct Q as [[b3 l3'] r3'].
    destruct K3 as [K3 (M3 & M4 & M5)]. simpl in *. subst l3' r3'.
    assert (OK3 : ok_budget a3) by apply K3.
    assert (E3 := good_shadow _ _ _ K3).
    destruct r3 as [u3|e].
    2:{ destruct (H (Err e) a3 b3 OK3 E3 M3) as (L1&L2&L3).
        destruct (run (k (Err e)) a3) as [[a4 la4] r4].
        destruct (run (without_shadow (k (Err e))) b3) as [[b4 lb4] r4']. simpl in *. subst. split; auto. }
    assert (OKp : ok_budget (set_frames a3 (c :: frames a3))).
    { destruct K3 as (_&_&_&_&R3). unfold ok_budget, rest in *; simpl.
      destruct OK3 as (O1&O2&O3&O4&O5&O6&O7). split; [auto|]. split; [auto|]. split; [auto|].
      split; [auto|]. split; [constructor; auto|]. split; [lia|auto]. }
    assert (K4 := run_good p3 _ OKp E3).
    assert (Mp : same_metered (set_frames a3 (c :: frames a3)) (set_frames b3 (c :: frames b3))).
    { replace (frames b3) with (frames a3) by (unfold same_metered in M3; intuition).
      apply sm_set_frames; auto. }
    destruct (IHp3 _ _ OKp E3 Mp) as (N1&N2&N3).
    destruct (run p3 (set_frames a3 (c :: frames a3))) as [[a4 l4] r4].
    destruct (run (without_shadow p3) (set_frames b3 (c :: frames b3))) as [[b4 l4'] r4'].
    simpl in K4, N1, N2, N3. subst l4' r4'.
    destruct K4 as (OK4 & C4 & G4 & _).
    unfold grown in G4. simpl in G4.
    destruct (frames a4) as [|f4 fs4] eqn:F4; [tauto|]. destruct G4 as [Lf ->].
    assert (OK5 : ok_budget (pop_frame a4) /\ in_shadow (pop_frame a4) = false).
    { assert (Hf4 : 0 <= f4 /\ f4 + sum (frames a3) <= d_net (mem a4) /\ Forall (Z.le 0) (frames a3)).
      { destruct OK4 as (_&_&_&_&O5&O6&_). rewrite F4 in *. inversion O5; subst. auto. }
      destruct Hf4 as (Hf4 & Hf5 & Hf6). pose proof (sum_nonneg _ Hf6).
      assert (Hn : 0 <= d_net (mem a4) <= u64_max).
      { destruct OK4 as (_&(_&_&_&N&_)&_). exact N. }
      assert (Hs : sat_u64 (d_net (mem a4) - f4) = d_net (mem a4) - f4) by (rewrite sat_min by lia; lia).
      unfold pop_frame. rewrite F4. split; [|destruct C4 as (C4&_); destruct (f4 =? 0); exact C4].
      destruct (f4 =? 0) eqn:Z4.
      - apply Z.eqb_eq in Z4. subst f4. unfold ok_budget in *; simpl. rewrite F4 in OK4. intuition.
      - unfold ok_budget, ok_dim, in_u64, refund in *; simpl. rewrite Hs, F4 in *. intuition; lia. }
    destruct (H r4 _ _ (proj1 OK5) (proj2 OK5) (pop_cong _ _ N1)) as (L1&L2&L3).
    destruct (run (k r4) _) as [[a6 l6] r6].
    destruct (run (without_shadow (k r4)) _) as [[b6 l6'] r6']. simpl in *. subst. split; auto.
Qed.

(* --------------------------------------------------------------------- fuel *)

Lemma fuel_bounds b f m :
  ok_budget b -> nth_error (d_models (cpu b)) WasmInsnExec = Some m ->
  add_fuel_to_vm b clean_fuel = Ok f ->
  let price := Z.max (cm_const m) 1 in
  fu_total f * price <= get_remaining (cpu b) < (fu_total f + 1) * price.
Proof.
  intros OK Hm. rewrite add_fuel_eq, Hm.
  intros H; inversion H; subst. simpl.
  pose proof (sat_range (d_limit (cpu b) - d_net (cpu b))) as R. fold (get_remaining (cpu b)) in R.
  set (x := get_remaining (cpu b)) in *. set (q := Z.max (cm_const m) 1) in *. assert (0 < q) by lia.
  split; [rewrite Z.mul_comm; apply Z.mul_div_le; lia|].
  pose proof (Z.mul_succ_div_gt x q). lia.
Qed.

Lemma settle_ok b f ds mc mm :
  ok_budget b -> in_shadow b = false -> input_shape b WasmInsnExec None ->
  d_net (cpu b) <= d_limit (cpu b) -> d_net (mem b) <= d_limit (mem b) ->
  nth_error (d_models (cpu b)) WasmInsnExec = Some mc ->
  nth_error (d_models (mem b)) WasmInsnExec = Some mm -> cm_const mm = 0 ->
  add_fuel_to_vm b clean_fuel = Ok f ->
  let used := fu_consumed (burn_all f ds) in
  let (b', r) := return_fuel_to_host b (burn_all f ds) in
  r = Ok clean_fuel
  /\ 0 <= used <= fu_total f
  /\ d_net (cpu b') = d_net (cpu b) + cm_const mc * used
  /\ d_net (cpu b') <= d_limit (cpu b) /\ d_net (mem b') = d_net (mem b).
Proof.
  intros OK E Sh Nc Nm Hmc Hmm Z0 Hf used.
  assert (FB := fuel_bounds b f mc OK Hmc Hf). simpl in FB.
  destruct (fuel_nonneg _ _ OK Hf) as [F1 F2].
  destruct (burn_range ds f ltac:(lia)) as [F3 [F4 _]]. fold used in F3.
  unfold return_fuel_to_host. fold used.
  assert (CO := charge_outcome b WasmInsnExec used None OK E Sh). simpl in CO.
  destruct (charge_ok b WasmInsnExec used None OK) as (A1&A2&A3&A4&A5&_&A7).
  destruct (A7 E) as (MC & MM & _ & _ & P).
  unfold sat_price in CO, P. rewrite Hmc, Hmm in CO, P. unfold evaluate in CO, P. rewrite Z0 in CO, P.
  assert (Hc0 : 0 <= cm_const mc).
  { destruct OK as ((_&F&_)&_). rewrite Forall_forall in F.
    apply nth_error_In in Hmc. destruct (F _ Hmc) as [[? ?] _]. lia. }
  assert (Hrem : get_remaining (cpu b) = d_limit (cpu b) - d_net (cpu b)).
  { unfold get_remaining. destruct OK as ((_&_&R1&R2&_)&_). unfold in_u64 in *.
    rewrite sat_min by lia. lia. }
  assert (Hu : cm_const mc * used <= d_limit (cpu b) - d_net (cpu b)).
  { destruct FB as [FB _]. rewrite Hrem in FB.
    assert (cm_const mc * used <= fu_total f * Z.max (cm_const mc) 1) by nia. lia. }
  assert (Hp : 0 <= cm_const mc * used) by nia.
  assert (Rl : 0 <= d_limit (cpu b) <= u64_max /\ 0 <= d_net (cpu b) /\ 0 <= d_net (mem b) <= u64_max).
  { destruct OK as ((_&_&R1&R2&_)&(_&_&_&R3&_)&_). unfold in_u64 in *. lia. }
  assert (Hs : sat_u64 (cm_const mc * used) = cm_const mc * used) by (rewrite sat_min by lia; lia).
  rewrite Hs in *. rewrite Z.mul_0_l in *. change (sat_u64 0) with 0 in *.
  assert (Hok : snd (charge b WasmInsnExec used None) = Ok tt).
  { apply CO. split; lia. }
  destruct (P Hok) as ((P1&P2&_)&(Q1&Q2&_)).
  destruct (charge b WasmInsnExec used None) as [b' r]. simpl in *. subst r. simpl.
  split; auto. split; [lia|]. split; lia.
Qed.

Lemma no_fuel_when_over b f :
  ok_budget b -> d_limit (cpu b) <= d_net (cpu b) -> add_fuel_to_vm b clean_fuel = Ok f ->
  fu_total f = 0.
Proof.
  intros OK H. rewrite add_fuel_eq.
  destruct (nth_error (d_models (cpu b)) WasmInsnExec) as [m|]; [|discriminate].
  intros X; inversion X; subst; simpl.
  replace (get_remaining (cpu b)) with 0; [apply Z.div_0_l; lia|].
  unfold get_remaining. unfold_widths. lia.
Qed.

(* -------------------------------------------------------------------- depth *)

Lemma run_depth p b b' l r : ok_budget b -> run p b = (b', l, r) -> depth b' = depth b.
Proof.
  intros OK H. destruct (in_shadow b) eqn:E.
  - assert (K := run_shadow p b OK E). rewrite H in K. simpl in K. unfold same_metered in K. intuition.
  - assert (K := run_good p b OK E). rewrite H in K. simpl in K. destruct K as (_&(_&K&_)&_). auto.
Qed.

Lemma run_ret_app p b : run p b = (fst (fst (run p b)), snd (fst (run p b)), snd (run p b)).
Proof. destruct (run p b) as [[]]; reflexivity. Qed.

Lemma nest_too_deep p n : forall b, ok_budget b -> depth b < Z.of_nat n ->
  run (nest n p) b = (b, [], Err (ESys TContext CExceededLimit)).
Proof.
  induction n; intros b OK H.
  - exfalso. assert (R : in_u32 (depth b)) by (unfold ok_budget in OK; tauto). unfold in_u32 in R. lia.
  - simpl. destruct (enter b) as [b1|e] eqn:En.
    + destruct (enter_facts _ _ OK En) as [-> R].
      rewrite IHn by (auto using ok_set_depth; simpl; lia). simpl.
      assert (Rd : in_u32 (depth b)) by (unfold ok_budget in OK; tauto).
      rewrite (leave_facts _ (depth b - 1)) by (simpl; auto; replace (depth b - 1 + 1) with (depth b) by lia; auto).
      simpl. f_equal. f_equal. destruct b; unfold set_depth; simpl. f_equal. lia.
    + unfold enter in En. destruct (chk_u32 (depth b - 1)); [discriminate|]. inversion En; subst. auto.
Qed.

Lemma nest_fits p n : forall b, ok_budget b -> Z.of_nat n <= depth b ->
  run (nest n p) b =
  (set_depth (fst (fst (run p (set_depth b (depth b - Z.of_nat n))))) (depth b),
   snd (fst (run p (set_depth b (depth b - Z.of_nat n)))),
   snd (run p (set_depth b (depth b - Z.of_nat n)))).
Proof.
  induction n; intros b OK H.
  - simpl nest. replace (depth b - Z.of_nat 0) with (depth b) by lia.
    assert (X : set_depth b (depth b) = b) by (destruct b; auto). rewrite X.
    destruct (run p b) as [[b' l] r] eqn:R. simpl.
    assert (D := run_depth _ _ _ _ _ OK R). f_equal. f_equal. rewrite <- D. destruct b'; auto.
  - assert (R : in_u32 (depth b)) by (unfold ok_budget in OK; tauto).
    simpl. unfold enter, chk_u32.
    assert (Ed : chk 0 u32_max (depth b - 1) = Some (depth b - 1)).
    { apply chk_Some. unfold in_u32 in R. lia. }
    rewrite Ed.
    rewrite IHn by (try apply ok_set_depth; simpl; auto; unfold in_u32 in *; lia).
    simpl. replace (depth b - 1 - Z.of_nat n) with (depth b - Z.of_nat (S n)) by lia.
    set (b1 := set_depth b (depth b - Z.of_nat (S n))).
    assert (X : set_depth (set_depth b (depth b - 1)) (depth b - Z.of_nat (S n)) = b1) by reflexivity.
    rewrite X. replace (depth b - Z.pos (Pos.of_succ_nat n)) with (depth b - Z.of_nat (S n)) by lia.
    fold b1.
    rewrite (leave_facts _ (depth b - 1)) by (simpl; auto; replace (depth b - 1 + 1) with (depth b) by lia; auto).
    simpl. rewrite app_nil_r. f_equal. f_equal. unfold set_depth; simpl. f_equal. lia.
Qed.

(* ----------------------------------------------------------- linear memory *)

Lemma linear_memory p b b' l r :
  ok_budget b -> in_shadow b = false -> run p b = (b', l, r) ->
  d_net (mem b') - sum (frames b') = d_net (mem b) - sum (frames b) + other_memory l + lost l
  /\ length (frames b') = length (frames b) /\ tl (frames b') = tl (frames b)
  /\ top b <= top b'.
Proof.
  intros OK E H. assert (G := run_good p b OK E). rewrite H in G. simpl in G.
  destruct G as (_ & _ & G & R & _). unfold rest in R. split; [exact R|].
  unfold grown, top in *. destruct (frames b), (frames b'); simpl in *; try tauto.
  - repeat split; auto; lia.
  - destruct G as [G ->]. repeat split; auto.
Qed.
