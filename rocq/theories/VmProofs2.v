(* Proofs about the cost inputs of modules. *)
From Coq Require Import ZArith Lia List Bool.
From Verif Require Import Prelude BudgetModel VmModel VmSpec.
Import ListNotations.
Open Scope Z_scope.

Lemma sat_cap x y : 0 <= x -> 0 <= y -> sat_u32 (cap x + y) = cap (x + y).
Proof. unfold sat_u32, clamp, cap, u32_max. change (2 ^ 32) with 4294967296. lia. Qed.
Lemma cap_of x : 0 <= x <= u32_max -> cap x = x. Proof. unfold cap, u32_max. change (2 ^ 32) with 4294967296. lia. Qed.
Lemma sum_nonneg l : Forall (fun x => 0 <= x) l -> 0 <= sum l.
Proof. unfold sum. induction 1; cbn [fold_right]; lia. Qed.
Lemma simple_spec e : simple e = true <-> constant e.
Proof.
  unfold simple, constant. rewrite forallb_forall. split.
  - intros A I. specialize (A _ I). discriminate A.
  - intros A [|] I; [reflexivity|]. exfalso. exact (A I).
Qed.
Lemma simple_opt_spec o : simple_opt o = true <-> constant_opt o.
Proof.
  unfold constant_opt. destruct o as [e|]; cbn.
  - rewrite simple_spec. split; [intros A ? [= <-]; auto|auto].
  - split; [intros _ ? X; discriminate|auto].
Qed.
Lemma simples_spec l : forallb simple l = true <-> Forall constant l.
Proof. rewrite forallb_forall, Forall_forall. split; intros A x I; specialize (A x I); now apply simple_spec. Qed.

Lemma add_mems_spec l : Forall (fun x => 0 <= snd x) l -> forall a r, 0 <= a ->
  add_mems l (cap a) = Ok r <-> plain_section (SecMemory l) /\ r = cap (a + count_memory (SecMemory l)).
Proof.
  cbn [plain_section count_memory]. induction l as [|[[m64 sh] i] l IH]; intros S a r A; cbn [add_mems map sum fold_right].
  - rewrite Z.add_0_r. split; [intros [= <-]; auto|intros [_ ->]; auto].
  - inversion_clear S as [|? ? S1 S2]. cbn [fst snd] in *. destruct m64; [split; [discriminate|intros [F _]; inversion_clear F as [|? ? (F1 & _) _]; discriminate]|].
    destruct sh; [split; [discriminate|intros [F _]; inversion_clear F as [|? ? (_ & F1 & _) _]; discriminate]|].
    change page with 65536. destruct (Z.ltb_spec u32_max (sat_u64 (i * 65536))) as [B|B].
    { split; [discriminate|]. intros [F _]. inversion_clear F as [|? ? (_ & _ & F1) _]. cbn in F1. unfold sat_u64, clamp, u32_max, u64_max in B. lia. }
    assert (B' : i * 65536 <= u32_max) by (unfold sat_u64, clamp, u32_max, u64_max in *; lia).
    rewrite Z.mod_small by (unfold u32_max in B'; lia). replace (sat_u32 (i * 65536)) with (i * 65536) by (unfold sat_u32, clamp, u32_max in *; lia).
    rewrite sat_cap by lia. rewrite (IH S2) by lia. fold (sum (map (fun x => snd x * 65536) l)). rewrite Z.add_assoc. split.
    + intros [F ->]. split; auto. constructor; auto. cbn. unfold u32_max in B'. repeat split; auto. lia.
    + intros [F ->]. inversion_clear F. auto.
Qed.
Lemma add_tables_spec l : Forall (fun x => 0 <= fst x) l -> forall a r, 0 <= a ->
  add_tables l (cap a) = Ok r <-> plain_section (SecTables l) /\ r = cap (a + count_table_entries (SecTables l)).
Proof.
  cbn [plain_section count_table_entries]. induction l as [|[i e] l IH]; intros S a r A; cbn [add_tables map sum fold_right].
  - rewrite Z.add_0_r. split; [intros [= <-]; auto|intros [_ ->]; auto].
  - inversion_clear S as [|? ? S1 S2]. cbn [fst snd] in *. destruct (simple_opt e) eqn:SO.
    + apply simple_opt_spec in SO. rewrite sat_cap by lia. rewrite (IH S2) by lia. fold (sum (map fst l)). rewrite Z.add_assoc. split.
      * intros [F ->]. split; auto.
      * intros [F ->]. inversion_clear F. auto.
    + split; [discriminate|]. intros [F _]. inversion_clear F as [|? ? F1 _]. cbn in F1. apply simple_opt_spec in F1. congruence.
Qed.
Lemma add_elems_spec l : Forall (fun x => 0 <= items (snd x)) l -> forall a r, 0 <= a ->
  add_elems l (cap a) = Ok r <-> plain_section (SecElems l) /\ r = cap (a + count_elements (SecElems l)).
Proof.
  cbn [plain_section count_elements]. induction l as [|[off it] l IH]; intros S a r A; cbn [add_elems map sum fold_right].
  - rewrite Z.add_0_r. split; [intros [= <-]; auto|intros [_ ->]; auto].
  - inversion_clear S as [|? ? S1 S2]. cbn [fst snd] in *. destruct (simple_opt off) eqn:SO.
    + apply simple_opt_spec in SO. destruct it as [n|es]; cbn [items] in *.
      * rewrite sat_cap by lia. rewrite (IH S2) by lia. fold (sum (map (fun x : option cexpr * (Z + list cexpr) => items (snd x)) l)). rewrite Z.add_assoc. split.
        -- intros [F ->]. split; auto. constructor; auto. split; auto. intros ? X. discriminate.
        -- intros [F ->]. inversion_clear F. auto.
      * destruct (forallb simple es) eqn:FS.
        -- apply simples_spec in FS. rewrite sat_cap by lia. rewrite (IH S2) by lia. fold (sum (map (fun x : option cexpr * (Z + list cexpr) => items (snd x)) l)). rewrite Z.add_assoc. split.
           ++ intros [F ->]. split; auto. constructor; auto. split; auto. intros ? [= <-]. auto.
           ++ intros [F ->]. inversion_clear F. auto.
        -- split; [discriminate|]. intros [F _]. inversion_clear F as [|? ? [_ F1] _]. specialize (F1 _ eq_refl). apply simples_spec in F1. congruence.
    + split; [discriminate|]. intros [F _]. inversion_clear F as [|? ? [F1 _] _]. cbn in F1. apply simple_opt_spec in F1. congruence.
Qed.
Lemma add_data_spec l : Forall (fun x => 0 <= snd x) l -> forall a r, 0 <= a ->
  add_data l (cap a) = Ok r <-> plain_section (SecData l) /\ r = cap (a + count_data_bytes (SecData l)).
Proof.
  cbn [plain_section count_data_bytes]. induction l as [|[off n] l IH]; intros S a r A; cbn [add_data map sum fold_right].
  - rewrite Z.add_0_r. split; [intros [= <-]; auto|intros [_ ->]; auto].
  - inversion_clear S as [|? ? S1 S2]. cbn [fst snd] in *. destruct (Z.ltb_spec u32_max n) as [B|B].
    { split; [discriminate|]. intros [F _]. inversion_clear F as [|? ? [_ F1] _]. cbn in F1. unfold u32_max in B. lia. }
    destruct (simple_opt off) eqn:SO.
    + apply simple_opt_spec in SO. rewrite sat_cap by lia. rewrite (IH S2) by lia. fold (sum (map snd l)). rewrite Z.add_assoc. split.
      * intros [F ->]. split; auto. constructor; auto. split; auto. cbn. unfold u32_max in B. lia.
      * intros [F ->]. inversion_clear F. auto.
    + split; [discriminate|]. intros [F _]. inversion_clear F as [|? ? [F1 _] _]. cbn in F1. apply simple_opt_spec in F1. congruence.
Qed.

(* the accumulator after some sections, as totals *)
Record tot := { t_ins : Z; t_fns : Z; t_glo : Z; t_tab : Z; t_typ : Z; t_dat : Z; t_ele : Z; t_imp : Z; t_exp : Z; t_byt : Z; t_els : Z; t_mem : Z }.
Definition acc_of (t : tot) : acc :=
  {| a_costs := {| n_instructions := cap (t_ins t); n_functions := cap (t_fns t); n_globals := cap (t_glo t); n_table_entries := cap (t_tab t);
                   n_types := cap (t_typ t); n_data_segments := cap (t_dat t); n_elem_segments := cap (t_ele t); n_imports := cap (t_imp t);
                   n_exports := cap (t_exp t); n_data_bytes := cap (t_byt t) |};
     a_elems := cap (t_els t); a_mem := cap (t_mem t) |}.
Definition plus (t : tot) (g : (section -> Z) -> Z) : tot :=
  {| t_ins := t_ins t + g count_instructions; t_fns := t_fns t + g count_functions; t_glo := t_glo t + g count_globals;
     t_tab := t_tab t + g count_table_entries; t_typ := t_typ t + g count_types; t_dat := t_dat t + g count_data_segments;
     t_ele := t_ele t + g count_elem_segments; t_imp := t_imp t + g count_imports; t_exp := t_exp t + g count_exports;
     t_byt := t_byt t + g count_data_bytes; t_els := t_els t + g count_elements; t_mem := t_mem t + g count_memory |}.
Definition nonneg (t : tot) : Prop :=
  0 <= t_ins t /\ 0 <= t_fns t /\ 0 <= t_glo t /\ 0 <= t_tab t /\ 0 <= t_typ t /\ 0 <= t_dat t /\ 0 <= t_ele t /\ 0 <= t_imp t /\ 0 <= t_exp t
  /\ 0 <= t_byt t /\ 0 <= t_els t /\ 0 <= t_mem t.
Lemma sums_map {A} (f : A -> Z) l : Forall (fun x => 0 <= f x) l -> 0 <= sum (map f l).
Proof. intros F. apply sum_nonneg. induction F; cbn; auto. Qed.
Lemma plus_nonneg t s : sane s -> nonneg t -> nonneg (plus t (fun f => f s)).
Proof.
  intros S (N1 & N2 & N3 & N4 & N5 & N6 & N7 & N8 & N9 & N10 & N11 & N12). unfold nonneg, plus. cbn [t_ins t_fns t_glo t_tab t_typ t_dat t_ele t_imp t_exp t_byt t_els t_mem].
  assert (0 <= count_table_entries s) by (destruct s; cbn in *; try lia; apply sums_map; auto).
  assert (0 <= count_data_bytes s) by (destruct s; cbn in *; try lia; apply sums_map; auto).
  assert (0 <= count_elements s) by (destruct s; cbn in *; try lia; apply sums_map; auto).
  assert (0 <= count_memory s) by (destruct s; cbn in *; try lia; apply (sums_map (fun x => snd x * 65536)); eapply Forall_impl; [|exact S]; cbn; lia).
  assert (0 <= count_instructions s /\ 0 <= count_functions s /\ 0 <= count_globals s /\ 0 <= count_types s /\ 0 <= count_data_segments s /\ 0 <= count_elem_segments s /\ 0 <= count_imports s /\ 0 <= count_exports s)
    by (destruct s; cbn in *; lia).
  repeat split; lia.
Qed.
Lemma add_section_spec t s r : nonneg t -> sane s ->
  add_section (acc_of t) s = Ok r <-> plain_section s /\ r = acc_of (plus t (fun f => f s)).
Proof.
  intros (N1 & N2 & N3 & N4 & N5 & N6 & N7 & N8 & N9 & N10 & N11 & N12) S.
  assert (Z0 : forall z, z + 0 = z) by lia.
  destruct s as [| |l|n|n|n|l|l|n|l|l|n]; unfold add_section, acc_of, plus;
    cbn [a_costs a_elems a_mem n_instructions n_functions n_globals n_table_entries n_types n_data_segments n_elem_segments n_imports n_exports n_data_bytes
         t_ins t_fns t_glo t_tab t_typ t_dat t_ele t_imp t_exp t_byt t_els t_mem
         count_instructions count_functions count_globals count_types count_data_segments count_elem_segments count_imports count_exports];
    cbn [plain_section] in *; cbn [sane] in S.
  - cbn [count_table_entries count_data_bytes count_elements count_memory]. rewrite !Z0. split; [intros [= <-]; auto|intros [_ ->]; auto].
  - split; [discriminate|tauto].
  - destruct (add_mems l (cap (t_mem t))) as [m|e] eqn:A; cbn [rbind].
    + apply add_mems_spec in A as [P ->]; auto. cbn [count_table_entries count_data_bytes count_elements]. rewrite !Z0. split; [intros [= <-]; auto|intros [_ ->]; auto].
    + split; [discriminate|]. intros [P _]. pose proof (proj2 (add_mems_spec l S (t_mem t) _ N12) (conj P eq_refl)). congruence.
  - cbn [count_table_entries count_data_bytes count_elements count_memory]. rewrite !Z0, sat_cap by auto. split; [intros [= <-]; auto|intros [_ ->]; auto].
  - cbn [count_table_entries count_data_bytes count_elements count_memory]. rewrite !Z0, sat_cap by auto. split; [intros [= <-]; auto|intros [_ ->]; auto].
  - cbn [count_table_entries count_data_bytes count_elements count_memory]. rewrite !Z0, sat_cap by auto. split; [intros [= <-]; auto|intros [_ ->]; auto].
  - destruct (add_tables l (cap (t_tab t))) as [m|e] eqn:A; cbn [rbind].
    + apply add_tables_spec in A as [P ->]; auto. cbn [count_memory count_data_bytes count_elements]. rewrite !Z0. split; [intros [= <-]; auto|intros [_ ->]; auto].
    + split; [discriminate|]. intros [P _]. pose proof (proj2 (add_tables_spec l S (t_tab t) _ N4) (conj P eq_refl)). congruence.
  - cbn [count_table_entries count_data_bytes count_elements count_memory]. destruct (forallb simple l) eqn:F.
    + apply simples_spec in F. rewrite !Z0, sat_cap by lia. split; [intros [= <-]; auto|intros [_ ->]; auto].
    + split; [discriminate|]. intros [P _]. apply simples_spec in P. congruence.
  - cbn [count_table_entries count_data_bytes count_elements count_memory]. rewrite !Z0, sat_cap by auto. split; [intros [= <-]; auto|intros [_ ->]; auto].
  - destruct (add_elems l (cap (t_els t))) as [m|e] eqn:A; cbn [rbind].
    + apply add_elems_spec in A as [P ->]; auto. cbn [count_memory count_data_bytes count_table_entries]. rewrite !Z0, sat_cap by lia. split; [intros [= <-]; auto|intros [_ ->]; auto].
    + split; [discriminate|]. intros [P _]. pose proof (proj2 (add_elems_spec l S (t_els t) _ N11) (conj P eq_refl)). congruence.
  - destruct (add_data l (cap (t_byt t))) as [m|e] eqn:A; cbn [rbind].
    + apply add_data_spec in A as [P ->]; auto. cbn [count_memory count_elements count_table_entries]. rewrite !Z0, sat_cap by lia. split; [intros [= <-]; auto|intros [_ ->]; auto].
    + split; [discriminate|]. intros [P _]. pose proof (proj2 (add_data_spec l S (t_byt t) _ N10) (conj P eq_refl)). congruence.
  - cbn [count_table_entries count_data_bytes count_elements count_memory]. rewrite !Z0, sat_cap by auto. split; [intros [= <-]; auto|intros [_ ->]; auto].
Qed.
Lemma plus_plus t g h : plus (plus t g) h = plus t (fun f => g f + h f).
Proof. unfold plus. cbn. f_equal; lia. Qed.
Lemma add_sections_spec l : Forall sane l -> forall t r, nonneg t ->
  add_sections (acc_of t) l = Ok r <-> Forall plain_section l /\ r = acc_of (plus t (fun f => sums f l)).
Proof.
  induction 1 as [|s l S F IH]; intros t r N; cbn [add_sections].
  - assert (plus t (fun f => sums f []) = t) as -> by (unfold plus, sums; cbn; destruct t; cbn; f_equal; lia). split; [intros [= <-]; auto|intros [_ ->]; auto].
  - destruct (add_section (acc_of t) s) as [a|e] eqn:A; cbn [rbind].
    + apply add_section_spec in A as [P ->]; auto. rewrite IH by (apply plus_nonneg; auto). rewrite plus_plus. cbn [sums map sum fold_right].
      fold sum. split.
      * intros [Q ->]. split; auto.
      * intros [Q ->]. inversion_clear Q. auto.
    + split; [discriminate|]. intros [P _]. inversion_clear P as [|? ? P1 P2]. pose proof (proj2 (add_section_spec t s _ N S) (conj P1 eq_refl)). congruence.
Qed.
Definition zero_tot : tot := {| t_ins := 0; t_fns := 0; t_glo := 0; t_tab := 0; t_typ := 0; t_dat := 0; t_ele := 0; t_imp := 0; t_exp := 0; t_byt := 0; t_els := 0; t_mem := 0 |}.
Lemma extract_spec l c : Forall sane l ->
  extract l = Ok c <->
    Forall plain_section l
    /\ cap (sums count_data_bytes l) <= cap (sums count_memory l) /\ cap (sums count_elements l) <= cap (sums count_table_entries l)
    /\ c = {| n_instructions := cap (sums count_instructions l); n_functions := cap (sums count_functions l); n_globals := cap (sums count_globals l);
              n_table_entries := cap (sums count_table_entries l); n_types := cap (sums count_types l); n_data_segments := cap (sums count_data_segments l);
              n_elem_segments := cap (sums count_elem_segments l); n_imports := cap (sums count_imports l); n_exports := cap (sums count_exports l);
              n_data_bytes := cap (sums count_data_bytes l) |}.
Proof.
  intros S. unfold extract. change {| a_costs := no_costs; a_elems := 0; a_mem := 0 |} with (acc_of zero_tot).
  assert (N : nonneg zero_tot) by (unfold nonneg; cbn; lia).
  destruct (add_sections (acc_of zero_tot) l) as [a|e] eqn:A; cbn [rbind].
  - apply (add_sections_spec l S zero_tot a N) in A as [P ->]. unfold acc_of, plus.
    cbn [a_costs a_elems a_mem n_table_entries n_data_bytes t_ins t_fns t_glo t_tab t_typ t_dat t_ele t_imp t_exp t_byt t_els t_mem zero_tot Z.add].
    destruct (Z.ltb_spec (cap (sums count_memory l)) (cap (sums count_data_bytes l))); [split; [discriminate|lia]|].
    destruct (Z.ltb_spec (cap (sums count_table_entries l)) (cap (sums count_elements l))); [split; [discriminate|lia]|].
    split; [intros [= <-]; auto|intros (_ & _ & _ & ->); auto].
  - split; [discriminate|]. intros [P _]. pose proof (proj2 (add_sections_spec l S zero_tot _ N) (conj P eq_refl)). congruence.
Qed.

(* ---- charges *)
Lemma charge_mem b ty n b' : in_shadow b = false -> charge b ty 1 (Some n) = (b', Ok tt) ->
  in_shadow b' = false /\ d_models (mem b') = d_models (mem b)
  /\ exists a, get_cost (mem b) ty 1 (Some n) = Ok a /\ d_net (mem b') = sat_u64 (d_net (mem b) + a).
Proof.
  intros SH. unfold charge. destruct (nth_error (trackers b) ty) as [t|]; [|discriminate]. rewrite SH. destruct (t_inputs t) as [x|]; [|discriminate].
  destruct (dim_charge (cpu b) ty 1 (Some n) false) as [[c ca]|]; [|discriminate]. destruct (check_limit c false); [|discriminate].
  unfold dim_charge, get_cost. destruct (get_cost_model (mem b) ty) as [m|] eqn:G; cbn [rbind]; [|discriminate].
  intros X. apply pair_equal_spec in X as [<- _]. unfold set_track, set_dims. cbn [in_shadow mem d_models d_net]. split; auto. split; auto. exists (evaluate m 1 (Some n)). auto.
Qed.
Lemma get_cost_models d d' ty it i : d_models d = d_models d' -> get_cost d ty it i = get_cost d' ty it i.
Proof. intros E. unfold get_cost, get_cost_model. now rewrite E. Qed.
Lemma add_costs_add l : forall b r x y, add_costs b r l = Ok x -> 0 <= r -> 0 <= y -> r <= u64_max ->
  add_costs b (sat_u64 (y + r)) l = Ok (sat_u64 (y + x)) /\ r <= x.
Proof.
  induction l as [|[ty n] l IH]; cbn [add_costs]; intros b r x y A R Y M.
  - injection A as <-. auto with zarith.
  - destruct (get_cost (mem b) ty 1 (Some n)) as [c|] eqn:G; [|discriminate]. cbn [rbind] in *.
    assert (C : 0 <= c <= u64_max) by (unfold get_cost in G; destruct (get_cost_model (mem b) ty) as [m|]; [|discriminate]; cbn [rbind] in G; injection G as <-; unfold evaluate; destruct (cm_lin m =? 0); unfold sat_u64, clamp, u64_max; lia).
    destruct (IH _ _ _ y A) as [I1 I2]; try (unfold sat_u64, clamp, u64_max in *; lia).
    replace (sat_u64 (sat_u64 (y + r) + c)) with (sat_u64 (y + sat_u64 (r + c))) by (unfold sat_u64, clamp, u64_max in *; lia).
    split; auto. unfold sat_u64, clamp, u64_max in *; lia.
Qed.
Lemma charge_all_mem l : forall b b', in_shadow b = false -> charge_all b l = (b', Ok tt) ->
  0 <= d_net (mem b) <= u64_max ->
  exists c, add_costs b 0 l = Ok c /\ d_net (mem b') = sat_u64 (d_net (mem b) + c).
Proof.
  induction l as [|[ty n] l IH]; cbn [charge_all add_costs]; intros b b' SH C R.
  - injection C as <-. exists 0. split; auto. unfold sat_u64, clamp, u64_max in *. lia.
  - destruct (charge b ty 1 (Some n)) as [b1 [[]|e]] eqn:CH; [|discriminate]. destruct (charge_mem _ _ _ _ SH CH) as (S1 & M1 & a & G & D).
    rewrite G. cbn [rbind]. assert (A : 0 <= a <= u64_max) by (unfold get_cost in G; destruct (get_cost_model (mem b) ty) as [m|]; [|discriminate]; cbn [rbind] in G; injection G as <-; unfold evaluate; destruct (cm_lin m =? 0); unfold sat_u64, clamp, u64_max; lia).
    destruct (IH b1 b' S1 C) as (c & C1 & C2); [rewrite D; unfold sat_u64, clamp, u64_max in *; lia|].
    assert (EQ : forall r, add_costs b1 r l = add_costs b r l).
    { clear -M1. induction l as [|[ty n] l IH]; cbn [add_costs]; auto. intros r. rewrite (get_cost_models (mem b1) (mem b) ty 1 (Some n) M1). destruct (get_cost (mem b) ty 1 (Some n)); cbn [rbind]; auto. }
    rewrite EQ in C1. destruct (add_costs_add l b 0 c a C1) as [I1 I2]; try (unfold u64_max in *; lia). rewrite Z.add_0_r in I1.
    exists (sat_u64 (a + c)). rewrite Z.add_0_l. split; [exact I1|]. rewrite C2, D. unfold sat_u64, clamp, u64_max in *. lia.
Qed.
Lemma parsing_charge b v b' : in_shadow b = false -> 0 <= d_net (mem b) <= u64_max -> charge_for_parsing b v = (b', Ok tt) ->
  exists c, wasm_module_memory_cost b v = Ok c /\ d_net (mem b') = sat_u64 (d_net (mem b) + c).
Proof.
  intros SH R. destruct v as [n|c]; cbn [charge_for_parsing wasm_module_memory_cost].
  - intros C. destruct (charge_mem _ _ _ _ SH C) as (_ & _ & a & G & D). eauto.
  - intros C. now apply charge_all_mem.
Qed.

Lemma price_spec b ty n a : models_ok (d_models (mem b)) -> 0 <= n -> get_cost (mem b) ty 1 (Some n) = Ok a ->
  a = price (d_models (mem b)) (ty, n).
Proof.
  intros M N. unfold get_cost, get_cost_model, price. cbn [fst snd]. destruct (nth_error (d_models (mem b)) ty) as [m|] eqn:X; [|discriminate]. cbn [rbind].
  intros [= <-]. unfold models_ok in M. rewrite Forall_forall in M. destruct (M m (nth_error_In _ _ X)) as [C L].
  unfold evaluate, unscale, scale_bits. rewrite !Z.mul_1_r, Z.shiftr_div_pow2 by lia. change (2 ^ 7) with 128. change (2 ^ 64) with 18446744073709551616 in *.
  pose proof (Z.mul_nonneg_nonneg (cm_lin m) n L N) as P. unfold sat_u64, clamp, u64_max. destruct (Z.eqb_spec (cm_lin m) 0) as [E|E].
  - rewrite E. cbn [Z.mul Z.min]. lia.
  - set (z := cm_lin m * n) in *. Z.div_mod_to_equations. lia.
Qed.
Lemma price_nonneg M x : models_ok M -> 0 <= snd x -> 0 <= price M x <= 2 ^ 64 - 1.
Proof.
  intros MO N. unfold price. destruct (nth_error M (fst x)) as [m|] eqn:X; [|lia]. unfold models_ok in MO. rewrite Forall_forall in MO. destruct (MO m (nth_error_In _ _ X)) as [C L].
  pose proof (Z.mul_nonneg_nonneg (cm_lin m) (snd x) L N) as P. change (2 ^ 64) with 18446744073709551616 in *. set (z := cm_lin m * snd x) in *. Z.div_mod_to_equations. lia.
Qed.
Lemma add_costs_price b l : models_ok (d_models (mem b)) -> Forall (fun x => 0 <= snd x) l -> forall r c, 0 <= r ->
  add_costs b (Z.min r (2 ^ 64 - 1)) l = Ok c -> c = Z.min (r + sum (map (price (d_models (mem b))) l)) (2 ^ 64 - 1).
Proof.
  intros M. induction 1 as [|[ty n] l N F IH]; cbn [add_costs map sum fold_right]; intros r c R A.
  - injection A as <-. now rewrite Z.add_0_r.
  - destruct (get_cost (mem b) ty 1 (Some n)) as [a|] eqn:G; [|discriminate]. cbn [rbind] in A. apply price_spec in G; auto. pose proof (price_nonneg _ (ty, n) M N) as PN. rewrite <- G in PN |- *.
    replace (sat_u64 (Z.min r (2 ^ 64 - 1) + a)) with (Z.min (r + a) (2 ^ 64 - 1)) in A by (unfold sat_u64, clamp, u64_max; change (2 ^ 64) with 18446744073709551616 in *; lia).
    apply IH in A; [|lia]. rewrite A. fold (sum (map (price (d_models (mem b))) l)). now rewrite Z.add_assoc.
Qed.
Lemma memory_cost_price b v c : models_ok (d_models (mem b)) -> parts_ok v -> wasm_module_memory_cost b v = Ok c -> c = total_price (d_models (mem b)) v.
Proof.
  intros M P. destruct v as [n|k]; cbn [wasm_module_memory_cost]; unfold total_price; intros A.
  - inversion_clear P as [|? ? N _]. apply price_spec in A; auto. cbn [parts map sum fold_right]. rewrite Z.add_0_r.
    pose proof (price_nonneg _ (11%nat, n) M N). change VmInstantiation with 11%nat in A. rewrite <- A in *. lia.
  - apply (add_costs_price b _ M P 0); auto. lia.
Qed.
Lemma price_le M ty a b : models_ok M -> 0 <= a <= b -> price M (ty, a) <= price M (ty, b).
Proof.
  intros MO N. unfold price. cbn [fst snd]. destruct (nth_error M ty) as [m|] eqn:X; [|lia]. unfold models_ok in MO. rewrite Forall_forall in MO. destruct (MO m (nth_error_In _ _ X)) as [C L].
  pose proof (Z.mul_le_mono_nonneg_l a b (cm_lin m) L ltac:(lia)) as P. change (2 ^ 64) with 18446744073709551616 in *. 
  assert (Z.min (cm_lin m * a) (18446744073709551616 - 1) / 128 <= Z.min (cm_lin m * b) (18446744073709551616 - 1) / 128) by (apply Z.div_le_mono; lia). lia.
Qed.
Lemma total_price_le M v w : models_ok M -> at_least v w -> total_price M w <= total_price M v.
Proof.
  intros MO A. unfold total_price. assert (sum (map (price M) (parts w)) <= sum (map (price M) (parts v))); [|lia].
  unfold at_least in A. induction A as [|[t x] [t' y] l l' [E N] _ IH]; cbn [map sum fold_right]; [lia|]. cbn [fst snd] in *. subst t'.
  fold (sum (map (price M) l)). fold (sum (map (price M) l')). pose proof (price_le M t y x MO N). lia.
Qed.
