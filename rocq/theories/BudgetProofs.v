(* Proofs about the budget model. *)
From Coq Require Import ZArith NArith Lia List Bool.
From Verif Require Import Prelude BudgetModel BudgetSpec.
Import ListNotations.
Open Scope Z_scope.
Ltac Zify.zify_post_hook ::= Z.div_mod_to_equations.

Lemma sat_min x : 0 <= x -> sat_u64 x = Z.min u64_max x.
Proof. unfold_widths; lia. Qed.

Lemma sat_range x : 0 <= sat_u64 x <= u64_max.
Proof. unfold_widths; lia. Qed.

Lemma unscale_div x : unscale x = x / 128.
Proof. unfold unscale, scale_bits. rewrite Z.shiftr_div_pow2 by lia. reflexivity. Qed.

Lemma evaluate_range m it i : 0 <= evaluate m it i <= u64_max.
Proof. unfold evaluate. destruct i; [case_if|]; apply sat_range. Qed.

Lemma evaluate_exact m it i :
  in_u64 (cm_const m) -> in_u64 (cm_lin m) -> 0 <= it ->
  match i with Some i => 0 <= i | None => True end ->
  evaluate m it i <= exact_cost m it i
  /\ (evaluate m it i < 2 ^ 57 - 1 -> evaluate m it i = exact_cost m it i).
Proof.
  intros [C1 C2] [L1 L2] It Hi. unfold evaluate, exact_cost.
  assert (H0 : 0 <= cm_const m * it) by nia.
  replace (2 ^ 57 - 1) with 144115188075855871 by reflexivity.
  destruct i as [i|].
  2:{ rewrite sat_min by lia. unfold u64_max. lia. }
  destruct (cm_lin m =? 0) eqn:E.
  - apply Z.eqb_eq in E. rewrite E, !Z.mul_0_l, Z.div_0_l, Z.add_0_r by lia.
    rewrite sat_min by lia. unfold u64_max; lia.
  - rewrite unscale_div.
    set (c := cm_const m * it) in *.
    assert (Hl : 0 <= cm_lin m * i) by nia.
    set (l := cm_lin m * i) in *.
    rewrite (sat_min c), (sat_min l) by lia.
    assert (Hm : 0 <= Z.min u64_max l) by (unfold u64_max; lia).
    assert (Hp : 0 <= Z.min u64_max l * it) by nia.
    rewrite (sat_min (_ * it)) by lia.
    assert (Hle : Z.min u64_max l * it <= l * it) by nia.
    assert (Hq : 0 <= Z.min u64_max (Z.min u64_max l * it) / 128)
      by (apply Z.div_pos; [unfold u64_max in *; lia | lia]).
    rewrite sat_min by (unfold u64_max in *; lia).
    assert (Hd : Z.min u64_max (Z.min u64_max l * it) / 128 <= l * it / 128)
      by (apply Z.div_le_mono; unfold u64_max in *; lia).
    split; [unfold u64_max in *; lia|].
    intros Hlt.
    destruct (Z.eq_dec it 0) as [->|Hit].
    { subst c. rewrite !Z.mul_0_r in *. change (Z.min u64_max 0) with 0. reflexivity. }
    assert (Hns : l <= u64_max).
    { destruct (Z_le_gt_dec l u64_max) as [|Hgt]; auto. exfalso.
      replace (Z.min u64_max l) with u64_max in * by (unfold u64_max in *; lia).
      replace (Z.min u64_max (u64_max * it)) with u64_max in * by (unfold u64_max in *; nia).
      change (u64_max / 128) with 144115188075855871 in *. unfold u64_max in *. lia. }
    replace (Z.min u64_max l) with l in * by lia.
    assert (Hns2 : l * it <= u64_max).
    { destruct (Z_le_gt_dec (l * it) u64_max) as [|Hgt]; auto. exfalso.
      replace (Z.min u64_max (l * it)) with u64_max in * by lia.
      change (u64_max / 128) with 144115188075855871 in *. unfold u64_max in *. lia. }
    replace (Z.min u64_max (l * it)) with (l * it) in * by lia.
    unfold u64_max in *. lia.
Qed.

(* ------------------------------------------------------------ one charge *)

Lemma upd_length {A} (l : list A) n x : length (upd l n x) = length l.
Proof. revert n; induction l; destruct n; simpl; auto. Qed.

Lemma upd_same {A} (l : list A) n x : nth_error l n = Some x -> upd l n x = l.
Proof.
  revert n; induction l; destruct n; simpl; intros H; try discriminate.
  - inversion H; auto.
  - f_equal; auto.
Qed.

Lemma nth_upd_same {A} (l : list A) n x y :
  nth_error l n = Some y -> nth_error (upd l n x) n = Some x.
Proof. revert n; induction l; destruct n; simpl; intros H; try discriminate; auto. Qed.

Lemma nth_upd_other {A} (l : list A) n k x :
  n <> k -> nth_error (upd l n x) k = nth_error l k.
Proof. revert n k; induction l; destruct n, k; simpl; intros H; auto; congruence. Qed.

(* How one metered dimension may move under a charge that costs a. *)
Definition moved (d d' : dim) : Prop :=
  d_models d' = d_models d /\ d_limit d' = d_limit d
  /\ d_net d <= d_net d' /\ d_peak d <= d_peak d' /\ d_net d' <= d_peak d'
  /\ d_net d' <= u64_max /\ d_peak d' <= u64_max.

Definition paid (d d' : dim) (a : Z) : Prop :=
  d_net d' = Z.min u64_max (d_net d + a) /\ d_net d' <= d_limit d
  /\ d_peak d' = Z.max (d_peak d) (d_net d').

Lemma moved_refl d : ok_dim d -> moved d d.
Proof. unfold ok_dim, moved, in_u64. intuition lia. Qed.

Lemma moved_ok d d' : ok_dim d -> moved d d' -> ok_dim d'.
Proof.
  unfold ok_dim, moved, in_u64. intros (A & B & C & D & E & F) (M & L & H1 & H2 & H3 & H4 & H5).
  rewrite M, L. intuition lia.
Qed.

Lemma moved_trans a b c : moved a b -> moved b c -> moved a c.
Proof. unfold moved. intuition (congruence || lia). Qed.

Definition same_dim (d d' : dim) : Prop :=
  d_models d' = d_models d /\ d_limit d' = d_limit d /\ d_sh_limit d' = d_sh_limit d
  /\ d_net d' = d_net d /\ d_peak d' = d_peak d.

Lemma dim_charge_facts d ty it i sh d' a :
  ok_dim d -> dim_charge d ty it i sh = Ok (d', a) ->
  a = sat_price (d_models d) ty it i
  /\ (sh = true -> same_dim d d')
  /\ (sh = false -> moved d d' /\ d_net d' = Z.min u64_max (d_net d + a)
                    /\ d_peak d' = Z.max (d_peak d) (d_net d') /\ d_sh_net d' = d_sh_net d).
Proof.
  intros (HL & HF & HLim & HN & HP & HNP). unfold dim_charge, get_cost_model, opt_res.
  unfold sat_price. destruct (nth_error (d_models d) ty) as [m|]; simpl; [|discriminate].
  intros H; inversion H; subst; clear H.
  assert (R := evaluate_range m it i). split; [reflexivity|].
  split; intros ->; simpl.
  - unfold same_dim; simpl; auto.
  - unfold moved; simpl. unfold in_u64 in *.
    rewrite sat_min by lia. unfold u64_max in *. intuition lia.
Qed.

Lemma dim_charge_some d ty it i sh :
  ok_dim d -> (ty < n_cost_types)%nat -> exists r, dim_charge d ty it i sh = Ok r.
Proof.
  intros (HL & _) Hty. unfold dim_charge, get_cost_model.
  destruct (nth_error (d_models d) ty) eqn:E; [simpl; eauto|].
  apply nth_error_None in E. lia.
Qed.

Definition has_input (t : tracker) : bool :=
  match t_inputs t with Some _ => true | None => false end.

Lemma shape_upd l n t t' :
  nth_error l n = Some t -> has_input t' = has_input t ->
  map has_input (upd l n t') = map has_input l.
Proof.
  revert n; induction l; destruct n; simpl; intros H E; try discriminate.
  - inversion H; subst. congruence.
  - f_equal; eauto.
Qed.

Definition charge_facts (b : budget) (ty : nat) (it : Z) (i : option Z) (b' : budget) (r : res unit) :=
  length (trackers b') = length (trackers b)
  /\ in_shadow b' = in_shadow b /\ depth b' = depth b /\ frames b' = frames b
  /\ map has_input (trackers b') = map has_input (trackers b)
  /\ (in_shadow b = true -> same_dim (cpu b) (cpu b') /\ same_dim (mem b) (mem b')
        /\ trackers b' = trackers b /\ meter_count b' = meter_count b)
  /\ (in_shadow b = false -> moved (cpu b) (cpu b') /\ moved (mem b) (mem b')
        /\ d_sh_net (cpu b') = d_sh_net (cpu b) /\ d_sh_net (mem b') = d_sh_net (mem b)
        /\ (r = Ok tt ->
            paid (cpu b) (cpu b') (sat_price (d_models (cpu b)) ty it i)
            /\ paid (mem b) (mem b') (sat_price (d_models (mem b)) ty it i))).

Lemma check_ok d sh : check_limit d sh = Ok tt ->
  if sh then d_sh_net d <= d_sh_limit d else d_net d <= d_limit d.
Proof. unfold check_limit. destruct sh; case_if; intros; try discriminate; lia. Qed.

Lemma same_dim_refl d : same_dim d d.
Proof. unfold same_dim; auto. Qed.

Lemma charge_ok b ty it i : ok_budget b ->
  charge_facts b ty it i (fst (charge b ty it i)) (snd (charge b ty it i)).
Proof.
  intros (HC & HM & HT & _).
  unfold charge. destruct (nth_error (trackers b) ty) as [t|] eqn:Et.
  2:{ simpl. unfold charge_facts.
      split; [auto|]. split; [auto|]. split; [auto|]. split; [auto|]. split; [auto|].
      split; [auto using same_dim_refl|].
      intros _. split; [auto using moved_refl|]. split; [auto using moved_refl|].
      split; [auto|]. split; [auto|]. discriminate. }
  set (t1 := {| t_iterations := sat_u64 (t_iterations t + it); t_inputs := t_inputs t;
                t_cpu := t_cpu t; t_mem := t_mem t |}).
  match goal with |- context [match ?x with Ok _ => _ | Err _ => _ end] => set (T2 := x) end.
  assert (HT2 : in_shadow b = true -> T2 = Ok t) by (intros E; unfold T2; rewrite E; auto).
  assert (HI : forall t2, T2 = Ok t2 -> has_input t2 = has_input t).
  { intros t2. unfold T2. destruct (in_shadow b); [intros H; inversion H; auto|].
    unfold has_input. destruct (t_inputs t) eqn:E, i; intros H; inversion H; subst; simpl; rewrite ?E; auto. }
  assert (HI1 : has_input t1 = has_input t) by reflexivity.
  clearbody T2.
  destruct T2 as [t2|e].
  2:{ assert (Es : in_shadow b = false).
      { destruct (in_shadow b); auto. specialize (HT2 eq_refl). discriminate. }
      simpl. unfold charge_facts; simpl. rewrite upd_length, (shape_upd _ _ _ _ Et HI1), Es.
      split; [auto|]. split; [auto|]. split; [auto|]. split; [auto|]. split; [auto|].
      split; [discriminate|].
      intros _. split; [auto using moved_refl|]. split; [auto using moved_refl|].
      split; [auto|]. split; [auto|]. discriminate. }
  specialize (HI _ eq_refl).
  assert (Hty : (ty < n_cost_types)%nat).
  { rewrite <- HT. apply nth_error_Some. congruence. }
  destruct (dim_charge_some (cpu b) ty it i (in_shadow b) HC Hty) as [[c ca] Ec].
  destruct (dim_charge_some (mem b) ty it i (in_shadow b) HM Hty) as [[m ma] Em].
  rewrite Ec, Em.
  destruct (dim_charge_facts _ _ _ _ _ _ _ HC Ec) as (-> & C1 & C2).
  destruct (dim_charge_facts _ _ _ _ _ _ _ HM Em) as (-> & M1 & M2).
  destruct (in_shadow b) eqn:Es.
  - specialize (HT2 eq_refl); inversion HT2; subst t2. rewrite (upd_same _ _ _ Et).
    specialize (C1 eq_refl). specialize (M1 eq_refl).
    destruct (check_limit c true); unfold charge_facts; simpl; rewrite Es;
    (split; [auto|]; split; [auto|]; split; [auto|]; split; [auto|]; split; [auto|];
     split; [auto using same_dim_refl|discriminate]).
  - destruct (C2 eq_refl) as (MC & NC & PC & SC). destruct (M2 eq_refl) as (MM & NM & PM & SM).
    destruct (check_limit c false) as [[]|e] eqn:Kc; unfold charge_facts; simpl; rewrite Es, upd_length.
    + rewrite (shape_upd _ _ t) by auto.
      split; [auto|]. split; [auto|]. split; [auto|]. split; [auto|]. split; [auto|].
      split; [discriminate|]. intros _.
      split; [auto|]. split; [auto|]. split; [auto|]. split; [auto|].
      intros Km. apply check_ok in Km. apply check_ok in Kc.
      destruct MM as (? & L & ?). destruct MC as (? & L' & ?).
      unfold paid. intuition lia.
    + rewrite (shape_upd _ _ t) by auto.
      split; [auto|]. split; [auto|]. split; [auto|]. split; [auto|]. split; [auto|].
      split; [discriminate|]. intros _.
      split; [auto|]. split; [auto using moved_refl|]. split; [auto|]. split; [auto|]. discriminate.
Qed.

Lemma has_input_none t : has_input t = false <-> t_inputs t = None.
Proof. unfold has_input. destruct (t_inputs t); split; congruence. Qed.

(* A metered charge of a known type succeeds exactly when both totals stay
   within their limits, and otherwise fails with the budget error. *)
Lemma charge_outcome b ty it i :
  ok_budget b -> in_shadow b = false -> input_shape b ty i ->
  let fits d := Z.min u64_max (d_net d + sat_price (d_models d) ty it i) <= d_limit d in
  (snd (charge b ty it i) = Ok tt <-> fits (cpu b) /\ fits (mem b))
  /\ (~ (fits (cpu b) /\ fits (mem b)) ->
      snd (charge b ty it i) = Err (ESys TBudget CExceededLimit)).
Proof.
  intros (HC & HM & HT & _) Es Hi fits. unfold input_shape in Hi. unfold charge.
  destruct (nth_error (trackers b) ty) as [t|] eqn:Et; [|tauto].
  rewrite Es.
  assert (Hty : (ty < n_cost_types)%nat).
  { rewrite <- HT. apply nth_error_Some. congruence. }
  match goal with |- context [match ?x with Ok _ => _ | Err _ => _ end] => set (T2 := x) end.
  assert (exists t2, T2 = Ok t2) as [t2 ->].
  { unfold T2. destruct (t_inputs t) eqn:E, i; eauto; exfalso; intuition discriminate. }
  destruct (dim_charge_some (cpu b) ty it i false HC Hty) as [[c ca] Ec].
  destruct (dim_charge_some (mem b) ty it i false HM Hty) as [[m ma] Em].
  rewrite Ec, Em.
  destruct (dim_charge_facts _ _ _ _ _ _ _ HC Ec) as (-> & _ & C2).
  destruct (dim_charge_facts _ _ _ _ _ _ _ HM Em) as (-> & _ & M2).
  destruct (C2 eq_refl) as ((_ & LC & _) & NC & _). destruct (M2 eq_refl) as ((_ & LM & _) & NM & _).
  unfold fits. unfold check_limit. rewrite LC, LM, <- NC, <- NM.
  destruct (d_limit (cpu b) <? d_net c) eqn:Kc; simpl.
  - split; [split; [discriminate|lia]|auto].
  - destruct (d_limit (mem b) <? d_net m) eqn:Km; simpl.
    + split; [split; [discriminate|lia]|auto].
    + split; [split; [lia|auto]|lia].
Qed.

(* --------------------------------------------------------- shadow programs *)

Lemma sm_refl b : same_metered b b.
Proof. unfold same_metered; intuition. Qed.

Lemma sm_trans a b c : same_metered a b -> same_metered b c -> same_metered a c.
Proof. unfold same_metered. intuition congruence. Qed.

Lemma sm_sym a b : same_metered a b -> same_metered b a.
Proof. unfold same_metered. intuition congruence. Qed.

Lemma sm_ok a b : ok_budget a -> same_metered a b -> ok_budget b.
Proof.
  unfold ok_budget, ok_dim, same_metered.
  intros H (E1&E2&E3&E4&E5&E6&E7&E8&E9&E10&E11&E12&E13).
  rewrite <- ?E1, <- ?E2, <- ?E3, <- ?E4, <- ?E5, <- ?E6, <- ?E7, <- ?E8, <- ?E9, <- ?E12, <- ?E13.
  exact H.
Qed.

Lemma charge_shadow b ty it i : ok_budget b -> in_shadow b = true ->
  same_metered b (fst (charge b ty it i)).
Proof.
  intros H E. destruct (charge_ok b ty it i H) as (A1 & A2 & A3 & A4 & A5 & A6 & A7).
  destruct (A6 E) as ((C1 & C2 & C3 & C4 & C5) & (M1 & M2 & M3 & M4 & M5) & T & N).
  unfold same_metered. intuition congruence.
Qed.

Lemma grow_shadow b c d m : ok_budget b -> in_shadow b = true ->
  same_metered b (fst (memory_growing b c d m)).
Proof.
  intros H E. unfold memory_growing.
  match goal with |- context [if ?x then _ else _] => destruct x end; [|apply sm_refl].
  assert (K := charge_shadow b MemAlloc 1 (Some (sat_u64 (d - c))) H E).
  destruct (charge b MemAlloc 1 (Some (sat_u64 (d - c)))) as [b1 [u|e]]; simpl in *; auto.
  assert (E1 : in_shadow b1 = true).
  { destruct K as (_&_&_&_&_&_&_&_&_&_&K&_). congruence. }
  rewrite E1. simpl. auto.
Qed.

Lemma sm_shadow a b : same_metered a b -> in_shadow b = in_shadow a.
Proof. unfold same_metered; intuition congruence. Qed.

Lemma sm_set_depth a b d : same_metered a b -> same_metered (set_depth a d) (set_depth b d).
Proof. unfold same_metered; simpl; intuition. Qed.
Lemma sm_set_shadow a b d : same_metered a b -> same_metered (set_shadow a d) (set_shadow b d).
Proof. unfold same_metered; simpl; intuition. Qed.
Lemma sm_set_frames a b d : same_metered a b -> same_metered (set_frames a d) (set_frames b d).
Proof. unfold same_metered; simpl; intuition. Qed.

Lemma ok_set_depth b d : ok_budget b -> in_u32 d -> ok_budget (set_depth b d).
Proof. unfold ok_budget; simpl; intuition. Qed.
Lemma ok_set_shadow b d : ok_budget b -> ok_budget (set_shadow b d).
Proof. unfold ok_budget; simpl; intuition. Qed.

Lemma enter_facts b b1 : ok_budget b -> enter b = Ok b1 ->
  b1 = set_depth b (depth b - 1) /\ in_u32 (depth b - 1).
Proof.
  unfold enter, chk_u32. destruct (chk 0 u32_max (depth b - 1)) eqn:E; [|discriminate].
  apply chk_Some in E. destruct E as [-> R]. intros _ H; inversion H. auto.
Qed.

Lemma leave_facts b d : depth b = d -> in_u32 (d + 1) -> leave b = Ok (set_depth b (d + 1)).
Proof.
  intros <- R. unfold leave, chk_u32.
  destruct (chk 0 u32_max (depth b + 1)) eqn:E.
  - apply chk_Some in E. destruct E as [-> _]. auto.
  - apply chk_None in E. destruct R. lia.
Qed.

Lemma set_depth_back a b d : same_metered (set_depth a d) b -> depth a = d + 1 ->
  same_metered a (set_depth b (d + 1)).
Proof. unfold same_metered; simpl. intuition congruence. Qed.

Lemma pop0 b fs : frames b = 0 :: fs -> pop_frame b = set_frames b fs.
Proof. unfold pop_frame. intros ->. reflexivity. Qed.

Lemma ok_push0 b : ok_budget b -> ok_budget (set_frames b (0 :: frames b)).
Proof. unfold ok_budget; simpl. intuition; try (constructor; auto; lia). Qed.

Lemma run_shadow p : forall b, ok_budget b -> in_shadow b = true ->
  same_metered b (fst (fst (run p b))).
Proof.
  induction p; intros bb OK E; simpl.
  - apply sm_refl.
  - assert (K := charge_shadow bb ty (Z.of_N it) (on input) OK E).
    destruct (charge bb ty (Z.of_N it) (on input)) as [b1 rr]. simpl in K.
    specialize (H rr b1 (sm_ok _ _ OK K)). rewrite (sm_shadow _ _ K) in H. specialize (H E).
    destruct (run (k rr) b1) as [[b2 l] r2]. simpl in *. eapply sm_trans; eauto.
  - apply H; auto.
  - assert (Hs : set_shadow bb true = bb) by (destruct bb; simpl in *; subst; auto).
    assert (K : same_metered bb
      match check_limit (cpu (set_shadow bb true)) true with
      | Ok _ => match check_limit (mem (set_shadow bb true)) true with
                | Ok _ => fst (fst (run p1 (set_shadow bb true)))
                | Err _ => set_shadow bb true
                end
      | Err _ => set_shadow bb true
      end).
    { rewrite Hs. destruct (check_limit _ _); [|apply sm_refl].
      destruct (check_limit _ _); [|apply sm_refl]. apply IHp1; auto. }
    simpl in K. set (b2 := match _ with Ok _ => _ | Err _ => _ end) in *. clearbody b2.
    assert (K2 : same_metered bb (set_shadow b2 (in_shadow bb))).
    { unfold same_metered in *; simpl. intuition congruence. }
    eapply sm_trans; [exact K2|]. apply IHp2; [eapply sm_ok; eauto|]. simpl. auto.
  - destruct (enter bb) as [b1|e] eqn:En; [|apply H; auto].
    destruct (enter_facts _ _ OK En) as [-> R].
    assert (K := IHp (set_depth bb (depth bb - 1)) (ok_set_depth _ _ OK R) E).
    destruct (run p (set_depth bb (depth bb - 1))) as [[b2 l] r]. simpl in K.
    assert (D : depth b2 = depth bb - 1) by (unfold same_metered in K; simpl in K; intuition congruence).
    assert (Rd : in_u32 (depth bb - 1 + 1)).
    { replace (depth bb - 1 + 1) with (depth bb) by lia. unfold ok_budget in OK; tauto. }
    rewrite (leave_facts b2 _ D Rd).
    assert (K3 := set_depth_back bb b2 (depth bb - 1) K ltac:(lia)).
    specialize (H r _ (sm_ok _ _ OK K3)). rewrite (sm_shadow _ _ K3) in H. specialize (H E).
    destruct (run (k r) _) as [[b4 l4] r4]. simpl in *. eapply sm_trans; eauto.
  - assert (K := grow_shadow bb (Z.of_N current) (Z.of_N desired) (on maximum) OK E).
    destruct (memory_growing bb (Z.of_N current) (Z.of_N desired) (on maximum)) as [b1 ok]. simpl in K.
    specialize (H ok b1 (sm_ok _ _ OK K)). rewrite (sm_shadow _ _ K) in H. specialize (H E).
    destruct (run (k ok) b1) as [[b2 l] r2]. simpl in *. eapply sm_trans; eauto.
  - destruct (add_fuel_to_vm bb clean_fuel) as [x|e]; [|apply H; auto].
    set (f := burn_all _ _). clearbody f. unfold return_fuel_to_host.
    assert (K := charge_shadow bb WasmInsnExec (fu_consumed f) None OK E).
    destruct (charge bb WasmInsnExec (fu_consumed f) None) as [b1 rr]. simpl in K.
    set (r' := rmap _ _). clearbody r'.
    specialize (H r' b1 (sm_ok _ _ OK K)). rewrite (sm_shadow _ _ K) in H. specialize (H E).
    destruct (run (k r') b1) as [[b2 l] r2]. simpl in *. eapply sm_trans; eauto.
  - assert (K1 := IHp1 bb OK E).
    destruct (run p1 bb) as [[b1 l1] r1]. simpl in K1.
    assert (OK1 := sm_ok _ _ OK K1).
    assert (E1 : in_shadow b1 = true) by (rewrite (sm_shadow _ _ K1); auto).
    destruct r1 as [u|e].
    2:{ specialize (H (Err e) b1 OK1 E1). destruct (run (k (Err e)) b1) as [[b2 l2] r2]. simpl in *.
        eapply sm_trans; eauto. }
    assert (Hr : reclaim b1 (top bb) = (b1, 0)).
    { assert (F : frames b1 = frames bb) by (unfold same_metered in K1; intuition congruence).
      unfold reclaim, top. rewrite <- F. destruct (frames b1) eqn:Ef; [auto|].
      simpl. rewrite Z.sub_diag. apply pair_eq; [|reflexivity].
      destruct b1; simpl in *; subst; auto. }
    rewrite Hr.
    set (P := if _ <=? _ then _ else _).
    assert (K3 : same_metered b1 (fst (fst P))).
    { unfold P. case_if; [apply sm_refl|]. apply IHp2; auto. }
    clearbody P. destruct P as [[b3 l3] r3]. simpl in K3.
    assert (OK3 := sm_ok _ _ OK1 K3).
    assert (E3 : in_shadow b3 = true) by (rewrite (sm_shadow _ _ K3); auto).
    destruct r3 as [u3|e].
    2:{ specialize (H (Err e) b3 OK3 E3). destruct (run (k (Err e)) b3) as [[b2 l2] r2]. simpl in *.
        eauto using sm_trans. }
    assert (K4 := IHp3 _ (ok_push0 _ OK3) E3).
    destruct (run p3 (set_frames b3 (0 :: frames b3))) as [[b4 l4] r4]. simpl in K4.
    assert (F4 : frames b4 = 0 :: frames b3) by (unfold same_metered in K4; simpl in K4; intuition congruence).
    rewrite (pop0 _ _ F4).
    assert (K5 : same_metered b3 (set_frames b4 (frames b3))).
    { unfold same_metered in *; simpl in *; intuition congruence. }
    specialize (H r4 _ (sm_ok _ _ OK3 K5)). rewrite (sm_shadow _ _ K5) in H. specialize (H E3).
    destruct (run (k r4) _) as [[b6 l6] r6]. simpl in *. eauto using sm_trans.
Qed.

(* ------------------------------------------------- metered (normal) programs *)

Lemma total_app f l l' : total f (l ++ l') = total f l + total f l'.
Proof. induction l as [|[]]; simpl; lia. Qed.
Lemma other_app l l' : other_memory (l ++ l') = other_memory l + other_memory l'.
Proof. induction l as [|[[]|]]; simpl; lia. Qed.
Lemma lost_app l l' : lost (l ++ l') = lost l + lost l'.
Proof. induction l as [|[]]; simpl; lia. Qed.
Lemma succ_app l l' : all_succeeded (l ++ l') <-> all_succeeded l /\ all_succeeded l'.
Proof. unfold all_succeeded. apply Forall_app. Qed.

Lemma sat_price_nonneg ms ty it i : 0 <= sat_price ms ty it i.
Proof. unfold sat_price. destruct (nth_error ms ty); [apply evaluate_range|lia]. Qed.

Lemma total_nonneg ms l : 0 <= total (sat_price ms) l.
Proof. induction l as [|[]]; simpl; auto; try lia. pose proof (sat_price_nonneg ms ty it input); lia. Qed.

(* Everything a metered stretch of activity guarantees, except about frames. *)
Definition core (b b' : budget) (l : list entry) : Prop :=
  in_shadow b' = false /\ depth b' = depth b
  /\ map has_input (trackers b') = map has_input (trackers b)
  /\ moved (cpu b) (cpu b')
  /\ d_models (mem b') = d_models (mem b) /\ d_limit (mem b') = d_limit (mem b)
  /\ d_peak (mem b) <= d_peak (mem b')
  /\ (all_succeeded l ->
      d_net (cpu b') = Z.min u64_max (d_net (cpu b) + total (sat_price (d_models (cpu b))) l)
      /\ (d_net (cpu b) <= d_limit (cpu b) -> d_net (cpu b') <= d_limit (cpu b))
      /\ (d_peak (mem b) <= d_limit (mem b) -> d_peak (mem b') <= d_limit (mem b))).

Lemma core_refl b : ok_budget b -> in_shadow b = false -> core b b [].
Proof.
  intros (HC & HM & _) E. unfold core. split; auto. split; auto. split; auto.
  split; [apply moved_refl; auto|]. split; auto. split; auto. split; [lia|].
  intros _. simpl. unfold ok_dim, in_u64 in *. intuition lia.
Qed.

Lemma core_trans a b c l l' : ok_budget a -> core a b l -> core b c l' -> core a c (l ++ l').
Proof.
  intros OK (A1&A2&A3&A4&A5&A6&A7&A8) (B1&B2&B3&B4&B5&B6&B7&B8).
  unfold core. split; auto. split; [congruence|]. split; [congruence|].
  split; [eapply moved_trans; eauto|]. split; [congruence|]. split; [congruence|]. split; [lia|].
  rewrite succ_app. intros [S1 S2]. destruct (A8 S1) as (P1&P2&P3). destruct (B8 S2) as (Q1&Q2&Q3).
  destruct A4 as (M & L & R). rewrite M, L in *. rewrite A6 in Q3.
  split; [|split; auto].
  rewrite total_app. rewrite Q1, P1.
  pose proof (total_nonneg (d_models (cpu a)) l'). lia.
Qed.

(* The part of net memory not attributed to VM frames. *)
Definition rest (b : budget) : Z := d_net (mem b) - sum (frames b).

(* How frames may change while the current frame runs. *)
Definition grown (b b' : budget) : Prop :=
  match frames b, frames b' with
  | [], [] => True
  | f :: fs, f' :: fs' => f <= f' /\ fs' = fs
  | _, _ => False
  end.

Lemma grown_refl b : grown b b.
Proof. unfold grown. destruct (frames b); auto. split; auto; lia. Qed.

Lemma grown_trans a b c : grown a b -> grown b c -> grown a c.
Proof.
  unfold grown. destruct (frames a), (frames b), (frames c); try tauto.
  intros [] []. split; [lia|congruence].
Qed.

Definition good (b b' : budget) (l : list entry) : Prop :=
  ok_budget b' /\ core b b' l /\ grown b b'
  /\ rest b' = rest b + other_memory l + lost l
  /\ rest b <= rest b'.

Lemma good_refl b : ok_budget b -> in_shadow b = false -> good b b [].
Proof.
  intros OK E. split; auto. split; [apply core_refl; auto|]. split; [apply grown_refl|]. simpl.
  split; lia.
Qed.

Lemma good_trans a b c l l' : ok_budget a -> good a b l -> good b c l' -> good a c (l ++ l').
Proof.
  intros OK (A1&A2&A3&A4&A5) (B1&B2&B3&B4&B5). split; auto. split; [eapply core_trans; eauto|].
  split; [eapply grown_trans; eauto|]. rewrite other_app, lost_app. split; lia.
Qed.

Lemma good_shadow b b' l : good b b' l -> in_shadow b' = false.
Proof. intros (_ & (H & _) & _). auto. Qed.

Lemma good_same b b' : ok_budget b -> in_shadow b = false -> same_metered b b' -> good b b' [].
Proof.
  intros OK E K. assert (OK' := sm_ok _ _ OK K).
  pose proof (core_refl b OK E) as C.
  destruct K as (E1&E2&E3&E4&E5&E6&E7&E8&E9&E10&E11&E12&E13).
  split; auto. split.
  - unfold core, moved in *.
    rewrite <- E1, <- E2, <- E3, <- E4, <- E5, <- E7, <- E8, <- E9, <- E11, <- E12. exact C.
  - unfold grown, rest. rewrite <- E13, <- E6. split; [|simpl; split; lia].
    destruct (frames b); auto. split; auto; lia.
Qed.

Lemma charge_good b ty it i : ok_budget b -> in_shadow b = false ->
  good b (fst (charge b ty it i))
    (lg b (fst (charge b ty it i)) false ty it i (snd (charge b ty it i))).
Proof.
  intros OK E. destruct (charge_ok b ty it i OK) as (A1&A2&A3&A4&A5&_&A7).
  destruct (A7 E) as (MC & MM & _ & _ & P). unfold lg. rewrite E.
  destruct (charge b ty it i) as [b' r]; simpl in *.
  destruct OK as (HC & HM & HT & HD & HF & HS & HL).
  split.
  { split; [exact (moved_ok _ _ HC MC)|]. split; [exact (moved_ok _ _ HM MM)|].
    split; [congruence|]. split; [congruence|]. rewrite A4. split; auto.
    destruct MM as (_&L&N&_). split; lia. }
  split.
  { unfold core. rewrite A2. split; auto. split; auto. split; auto. split; auto.
    destruct MM as (M1&M2&M3&M4&M5). split; auto. split; auto. split; auto.
    intros S. inversion S as [|? ? S1 S2]. destruct (P S1) as ((P1&P2&P3)&(Q1&Q2&Q3)).
    simpl. rewrite Z.add_0_r. split; auto. split; auto. intros; lia. }
  split; [unfold grown; rewrite A4; destruct (frames b); auto; split; auto; lia|].
  unfold rest. rewrite A4. simpl. destruct MM as (_&_&MM&_). split; lia.
Qed.

Lemma core_flag b b' x y ty it i z r :
  core b b' [LCharge x ty it i z r] -> core b b' [LCharge y ty it i z r].
Proof.
  unfold core. intros (A1&A2&A3&A4&A5&A6&A7&A8). repeat (split; [assumption|]).
  intros S. inversion S; subst. apply A8. constructor; auto.
Qed.

Lemma grow_good b c d m : ok_budget b -> in_shadow b = false ->
  let delta := sat_u64 (d - c) in
  let b' := fst (memory_growing b c d m) in
  let ok := snd (memory_growing b c d m) in
  good b b'
    (if negb (get_remaining (mem b) <? delta) && match m with Some x => d <=? x | None => true end
     then lg b b' (ok && match frames b with [] => false | _ => true end) MemAlloc 1 (Some delta)
           (if ok then Ok tt else Err (ESys TBudget CExceededLimit))
     else []).
Proof.
  intros OK E delta b' ok. unfold b', ok, memory_growing. fold delta.
  destruct (get_remaining (mem b) <? delta) eqn:Er; [simpl; apply good_refl; auto|].
  match goal with |- context [if negb false && ?x then _ else _] => destruct x eqn:Em end;
  [|simpl; apply good_refl; auto].
  simpl.
  assert (G := charge_good b MemAlloc 1 (Some delta) OK E).
  destruct (charge_ok b MemAlloc 1 (Some delta) OK) as (A1&A2&A3&A4&A5&_&A7).
  destruct (A7 E) as (MC & MM & _ & _ & P).
  destruct (charge b MemAlloc 1 (Some delta)) as [b1 r1]; simpl in *.
  assert (OK1 : ok_budget b1) by (destruct G; auto).
  destruct r1 as [[]|e].
  2:{ simpl. unfold lg in *. rewrite E in *.
      destruct G as (G1&G2&G3&G4). split; auto. split; [|split; auto]. clear G4.
      unfold core in *. intuition.
      all: match goal with H : all_succeeded _ |- _ => inversion H; subst; simpl in *; discriminate end. }
  rewrite A2, E. unfold get_cost, get_cost_model, opt_res.
  destruct (P eq_refl) as (_ & (Q1&Q2&Q3)).
  assert (Em1 : d_models (mem b1) = d_models (mem b)) by (destruct MM; auto). rewrite Em1.
  unfold sat_price in Q1.
  destruct (nth_error (d_models (mem b)) MemAlloc) as [cm|] eqn:Ecm.
  2:{ exfalso. destruct OK as (_ & (HL & _) & _). apply nth_error_None in Ecm. unfold MemAlloc in Ecm.
      rewrite HL in Ecm. unfold n_cost_types in Ecm. lia. }
  cbn -[evaluate lg]. pose proof (evaluate_range cm 1 (Some delta)) as Rv.
  set (a := evaluate cm 1 (Some delta)) in *. clearbody a.
  assert (Hlim : d_limit (mem b) < u64_max) by (unfold ok_budget in OK; tauto).
  assert (Hn : d_net (mem b1) = d_net (mem b) + a) by lia.
  unfold charge_frame. rewrite A4. unfold lg in *. rewrite E in *.
  destruct (frames b) as [|f fs] eqn:Ef; [exact G|].
  destruct G as (G1&G2&G3&G4).
  assert (HF : 0 <= f /\ Forall (Z.le 0) fs /\ f + sum fs <= d_net (mem b)).
  { destruct OK as (_&_&_&_&HF&HS&_). rewrite Ef in *. inversion HF; subst. auto. }
  destruct HF as (F1&F2&F3).
  assert (Hs0 : 0 <= sum fs).
  { clear - F2. induction F2; simpl; lia. }
  assert (Hn1 : d_net (mem b1) <= u64_max) by lia.
  assert (Hfa : sat_u64 (f + a) = f + a) by (rewrite sat_min by lia; lia).
  rewrite Hfa.
  split.
  { unfold ok_budget in *; simpl. rewrite A4 in *. simpl in *.
    destruct OK1 as (O1&O2&O3&O4&O5&O6&O7). split; auto. split; auto. split; auto. split; auto.
    split; [constructor; auto; lia|]. split; auto. lia. }
  split; [exact (core_flag _ _ _ _ _ _ _ _ _ G2)|].
  split; [unfold grown; rewrite Ef; simpl; split; auto; lia|].
  unfold rest; simpl. rewrite Ef. simpl. split; lia.
Qed.

Lemma good_set_depth b b2 l d : ok_budget b -> in_u32 (depth b) ->
  good (set_depth b d) b2 l -> good b (set_depth b2 (depth b)) l.
Proof.
  intros OK R (A&B&C&D). split; [apply ok_set_depth; auto|].
  unfold core, grown, rest in *; simpl in *. intuition.
Qed.

Lemma sum_nonneg l : Forall (Z.le 0) l -> 0 <= sum l.
Proof. induction 1; simpl; lia. Qed.

Lemma run_good p : forall b, ok_budget b -> in_shadow b = false ->
  good b (fst (fst (run p b))) (snd (fst (run p b))).
Proof.
  induction p; intros bb OK E; simpl.
  - apply good_refl; auto.
  - assert (K := charge_good bb ty (Z.of_N it) (on input) OK E).
    destruct (charge bb ty (Z.of_N it) (on input)) as [b1 rr]. simpl in K.
    specialize (H rr b1 ltac:(apply K) (good_shadow _ _ _ K)).
    destruct (run (k rr) b1) as [[b2 l] r2]. simpl in *. eapply good_trans; eauto.
  - apply H; auto.
  - set (b2 := match check_limit (cpu bb) true with Ok _ => _ | Err _ => _ end).
    assert (K : same_metered (set_shadow bb true) b2).
    { unfold b2. destruct (check_limit _ _); [|apply sm_refl].
      destruct (check_limit _ _); [|apply sm_refl].
      apply run_shadow; [apply ok_set_shadow; auto|auto]. }
    clearbody b2.
    assert (K2 : same_metered bb (set_shadow b2 (in_shadow bb))).
    { unfold same_metered in *; simpl in *. intuition congruence. }
    assert (G := good_same _ _ OK E K2).
    specialize (IHp2 _ ltac:(apply G) (good_shadow _ _ _ G)).
    destruct (run p2 _) as [[b3 l] r]; simpl in *. exact (good_trans _ _ _ _ _ OK G IHp2).
  - destruct (enter bb) as [b1|e] eqn:En; [|apply H; auto].
    destruct (enter_facts _ _ OK En) as [-> R].
    assert (K := IHp (set_depth bb (depth bb - 1)) (ok_set_depth _ _ OK R) E).
    destruct (run p (set_depth bb (depth bb - 1))) as [[b2 l] r]. simpl in K.
    assert (D : depth b2 = depth bb - 1) by (destruct K as (_ & (_ & D & _) & _); simpl in D; auto).
    assert (Rd : in_u32 (depth bb)) by (unfold ok_budget in OK; tauto).
    rewrite (leave_facts b2 _ D) by (replace (depth bb - 1 + 1) with (depth bb) by lia; auto).
    replace (depth bb - 1 + 1) with (depth bb) by lia.
    assert (K3 := good_set_depth _ _ _ _ OK Rd K).
    specialize (H r _ ltac:(apply K3) (good_shadow _ _ _ K3)).
    destruct (run (k r) _) as [[b4 l4] r4]. simpl in *. eapply good_trans; eauto.
  - assert (K := grow_good bb (Z.of_N current) (Z.of_N desired) (on maximum) OK E). simpl in K.
    replace (match maximum with Some m => (desired <=? m)%N | None => true end)
      with (match on maximum with Some x => Z.of_N desired <=? x | None => true end)
      by (destruct maximum; simpl; auto; apply Bool.eq_iff_eq_true; lia).
    destruct (memory_growing bb (Z.of_N current) (Z.of_N desired) (on maximum)) as [b1 ok].
    simpl in K.
    specialize (H ok b1 ltac:(apply K) (good_shadow _ _ _ K)).
    destruct (run (k ok) b1) as [[b2 l] r2]. simpl in *. eapply good_trans; eauto.
  - destruct (add_fuel_to_vm bb clean_fuel) as [x|e]; [|apply H; auto].
    set (f := burn_all _ _). clearbody f. unfold return_fuel_to_host.
    assert (K := charge_good bb WasmInsnExec (fu_consumed f) None OK E).
    destruct (charge bb WasmInsnExec (fu_consumed f) None) as [b1 rr]. simpl in K.
    assert (Er : rmap (fun _ : fuel => tt) (rmap (fun _ => clean_fuel) rr) = rr)
      by (destruct rr as [[]|]; reflexivity).
    rewrite Er.
    specialize (H rr b1 ltac:(apply K) (good_shadow _ _ _ K)).
    destruct (run (k rr) b1) as [[b2 l] r2]. simpl in *. eapply good_trans; eauto.
  - assert (K1 := IHp1 bb OK E).
    destruct (run p1 bb) as [[b1 l1] r1]. simpl in K1.
    assert (OK1 : ok_budget b1) by apply K1.
    assert (E1 := good_shadow _ _ _ K1).
    destruct r1 as [u|e].
    2:{ specialize (H (Err e) b1 OK1 E1). destruct (run (k (Err e)) b1) as [[b2 l2] r2]. simpl in *.
        eapply good_trans; eauto. }
    assert (Hr : exists b2 c, reclaim b1 (top bb) = (b2, c) /\ ok_budget b2 /\ core b1 b2 []
       /\ 0 <= c /\ c + sum (frames b2) <= d_net (mem b2) /\ rest b2 = rest b1 + c
       /\ in_shadow b2 = false /\ grown bb b2 /\ sum (frames b2) + c = sum (frames b1)).
    { destruct K1 as (_ & _ & K1 & _). unfold grown, top in *. unfold reclaim.
      destruct (frames bb) as [|f fs] eqn:F0; destruct (frames b1) as [|f1 fs1] eqn:F1; try tauto.
      - exists b1, 0. rewrite F1. assert (d_net (mem b1) >= 0).
        { destruct OK1 as (_&(_&_&_&N&_)&_). unfold in_u64 in N. lia. }
        split; auto. split; auto. split; [apply core_refl; auto|]. split; [lia|].
        split; [simpl; lia|]. split; [lia|]. auto.
      - destruct K1 as [Le ->]. simpl.
        assert (HF : 0 <= f /\ Forall (Z.le 0) fs /\ f1 + sum fs <= d_net (mem b1)).
        { destruct OK as (_&_&_&_&HF&_). rewrite F0 in HF. inversion HF; subst.
          destruct OK1 as (_&_&_&_&_&HS&_). rewrite F1 in HS. simpl in HS. auto. }
        destruct HF as (Ha&Hb&Hc). pose proof (sum_nonneg _ Hb).
        assert (Hm : d_net (mem b1) <= u64_max).
        { destruct OK1 as (_&(_&_&_&N&_)&_). unfold in_u64 in N. lia. }
        assert (Hd : sat_u64 (f1 - f) = f1 - f) by (rewrite sat_min by lia; lia).
        exists (set_frames b1 (f :: fs)), (f1 - f). rewrite Hd. split; auto.
        split. { unfold ok_budget in *; simpl. rewrite F1 in OK1. intuition; try lia; constructor; auto. }
        split. { pose proof (core_refl b1 OK1 E1). exact H1. }
        split; [lia|]. split; [simpl; lia|].
        split. { unfold rest; simpl. rewrite F1. simpl. lia. }
        split; [auto|]. split; [simpl; split; auto; lia|]. simpl. lia. }
    destruct Hr as (b2 & c & -> & OK2 & C2 & Hc0 & Hc1 & Rc & E2 & G2 & Sc).
    set (P := if _ <=? _ then _ else _).
    assert (K3 : good b2 (fst (fst P)) (snd (fst P))).
    { unfold P. case_if; [apply good_refl; auto|]. apply IHp2; auto. }
    clearbody P. destruct P as [[b3 l3] r3]. simpl in K3.
    assert (OK3 : ok_budget b3) by apply K3.
    assert (E3 := good_shadow _ _ _ K3).
    assert (C13 : core bb b3 (l1 ++ l3)).
    { eapply core_trans; eauto; [apply K1|].
      change l3 with ([] ++ l3). eapply core_trans; [|exact C2|apply K3]. auto. }
    assert (R13 : rest b3 = rest bb + other_memory (l1 ++ l3) + lost (l1 ++ l3) + c).
    { rewrite other_app, lost_app. destruct K1 as (_&_&_&K1&_). destruct K3 as (_&_&_&K3&_). lia. }
    assert (R13' : rest bb + c <= rest b3).
    { destruct K1 as (_&_&_&_&K1). destruct K3 as (_&_&_&_&K3). lia. }
    assert (Gr : grown bb b3) by (eapply grown_trans; [exact G2|apply K3]).
    destruct r3 as [u3|e].
    2:{ specialize (H (Err e) b3 OK3 E3). destruct (run (k (Err e)) b3) as [[b4 l4] r4]. simpl in *.
        destruct H as (H1&H2&H3&H4&H5).
        rewrite app_assoc. split; auto. split.
        - pose proof (core_trans _ _ _ _ _ OK C13 H2) as C.
          unfold core in *. rewrite succ_app in *. rewrite total_app in *. simpl.
          destruct C as (C1&C3&C4&C5&C6&C7&C8&C9).
          repeat (split; [assumption|]).
          intros [S1 S2]. inversion S2; subst. apply C9. auto.
        - split; [eapply grown_trans; eauto|].
          rewrite !other_app, !lost_app in *. simpl. split; lia. }
    assert (Rb : 0 <= rest bb) by (unfold ok_budget, rest in *; lia).
    assert (OKp : ok_budget (set_frames b3 (c :: frames b3))).
    { unfold ok_budget, rest in *; simpl.
      destruct OK3 as (O1&O2&O3&O4&O5&O6&O7). split; [auto|]. split; [auto|]. split; [auto|].
      split; [auto|]. split; [constructor; auto|]. split; [lia|auto]. }
    assert (K4 := IHp3 _ OKp E3).
    destruct (run p3 (set_frames b3 (c :: frames b3))) as [[b4 l4] r4]. simpl in K4.
    destruct K4 as (OK4 & C4 & G4 & R4 & R4').
    unfold grown in G4. simpl in G4.
    destruct (frames b4) as [|f4 fs4] eqn:F4; [tauto|]. destruct G4 as [Lf ->].
    assert (Hf4 : 0 <= f4 /\ f4 + sum (frames b3) <= d_net (mem b4) /\ Forall (Z.le 0) (frames b3)).
    { destruct OK4 as (_&_&_&_&O5&O6&_). rewrite F4 in *. inversion O5; subst. auto. }
    destruct Hf4 as (Hf4 & Hf5 & Hf6). pose proof (sum_nonneg _ Hf6).
    assert (Hpop : good bb (pop_frame b4) (l1 ++ l3 ++ l4)).
    { assert (C : core bb b4 ((l1 ++ l3) ++ l4)) by exact (core_trans _ b3 _ _ _ OK C13 C4).
      rewrite <- app_assoc in C.
      unfold pop_frame. rewrite F4.
      assert (Hn : 0 <= d_net (mem b4) <= u64_max).
      { destruct OK4 as (_&(_&_&_&N&_)&_). exact N. }
      assert (Hs : sat_u64 (d_net (mem b4) - f4) = d_net (mem b4) - f4) by (rewrite sat_min by lia; lia).
      rewrite !other_app, !lost_app in *.
      destruct (f4 =? 0) eqn:Z4.
      - apply Z.eqb_eq in Z4. subst f4.
        split. { unfold ok_budget in *; simpl. rewrite F4 in OK4. intuition. }
        split; [exact C|]. split; [exact Gr|].
        unfold rest in *; simpl in *. rewrite F4 in *. simpl in *. rewrite !other_app, !lost_app.
        split; lia.
      - split. { unfold ok_budget, ok_dim, in_u64, refund in *; simpl. rewrite Hs, F4 in *. intuition; lia. }
        split; [exact C|]. split; [exact Gr|].
        unfold rest in *; simpl in *. rewrite Hs, F4 in *. simpl in *. rewrite !other_app, !lost_app.
        split; lia. }
    specialize (H r4 _ ltac:(apply Hpop) (good_shadow _ _ _ Hpop)).
    destruct (run (k r4) _) as [[b6 l6] r6]. simpl in *.
    rewrite !app_assoc. rewrite !app_assoc in Hpop. exact (good_trans _ _ _ _ _ OK Hpop H).
Qed.
