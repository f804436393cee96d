(* Simulation: adjustments, fees, extension and restoration. *)
From Coq Require Import ZArith Lia List Bool Permutation.
From Coq Require Import Floats.SpecFloat.
From Verif Require Import Prelude ValModel HeapModel AMap StorageModel StorageSpec StorageProofs FeesModel FeesSpec FeesProofs FrameModel
  E2EModel E2ESpec E2EProofs2 ReplayProofs E2EProofs3 SimModel SimSpec SimFloatProofs.
Import ListNotations.
Open Scope Z_scope.
Ltac Zify.zify_post_hook ::= Z.div_mod_to_equations.

(* ---------------------------------------------------------------- adjustment *)

Lemma floor_as_range lo hi x : lo <= 0 <= hi -> lo <= floor_as lo hi x <= hi.
Proof. intros H. destruct x as [s|[]| |s m e]; cbn [floor_as]; try lia. unfold clamp. lia. Qed.

Lemma adjust_u32_ge f v : in_u32 v -> 0 <= a_add f ->
  Z.min u32_max (v + (if v =? 0 then 0 else a_add f)) <= adjust_u32 f v <= u32_max.
Proof.
  intros V A. unfold adjust_u32, in_u32 in *. destruct (Z.eqb_spec v 0) as [->|]; [lia|].
  pose proof (floor_as_range 0 u32_max (f64_clamp (S754_zero false) (f64_of_int u32_max) (f64_mul (f64_of_int v) (a_mul f)))).
  unfold sat_u32, clamp. lia.
Qed.
Lemma adjust_u32_0 f : adjust_u32 f 0 = 0.
Proof. reflexivity. Qed.
Lemma adjust_i64_ge f v : in_i64 v -> 0 <= a_add f ->
  Z.min i64_max (v + (if v =? 0 then 0 else a_add f)) <= adjust_i64 f v <= i64_max.
Proof.
  intros V A. unfold adjust_i64, in_i64 in *. destruct (Z.eqb_spec v 0) as [->|]; [unfold i64_max; lia|].
  pose proof (floor_as_range i64_min i64_max (f64_clamp (S754_zero false) (f64_of_int i64_max) (f64_mul (f64_of_int v) (a_mul f)))
                ltac:(unfold i64_min, i64_max; lia)).
  unfold sat_i64, clamp. unfold i64_min, i64_max in *. lia.
Qed.
Lemma adjust_i64_0 f : adjust_i64 f 0 = 0.
Proof. reflexivity. Qed.

Lemma adjust_u32_exact m e a v : 0 < v <= u32_max -> 0 <= a ->
  let f := {| a_mul := S754_finite false m e; a_add := a |} in
  Z.min u32_max (Z.max (v + a) (times_down v (Z.pos m) e)) <= adjust_u32 f v
  <= Z.min u32_max (Z.max (v + a) (times_up v (Z.pos m) e)).
Proof.
  intros V A. cbv zeta. unfold adjust_u32. cbn [a_mul a_add]. replace (v =? 0) with false by lia.
  pose proof (scaled_u32 v m e V) as S0. cbv zeta in S0. unfold sat_u32, clamp. lia.
Qed.
Lemma adjust_i64_exact m e a v : 0 < v < 2 ^ 53 -> in_u32 a -> times_down v (Z.pos m) e < 2 ^ 53 ->
  let f := {| a_mul := S754_finite false m e; a_add := a |} in
  Z.max (v + a) (times_down v (Z.pos m) e) <= adjust_i64 f v <= Z.max (v + a) (times_up v (Z.pos m) e).
Proof.
  intros V A L. cbv zeta. unfold adjust_i64. cbn [a_mul a_add]. replace (v =? 0) with false by lia.
  pose proof (scaled_i64 v m e V L) as S0. cbv zeta in S0. unfold sat_i64, clamp, in_u32, u32_max, i64_min, i64_max in *. lia.
Qed.

Lemma times_one v : times_down v 4503599627370496 (-52) = v /\ times_up v 4503599627370496 (-52) = v.
Proof.
  unfold times_down, times_up. change (2 ^ Z.max (-52) 0) with 1. change (2 ^ Z.max (- (-52)) 0) with 4503599627370496.
  rewrite !Z.mul_1_r, <- Z.mul_opp_l, !Z.div_mul by lia. lia.
Qed.
Lemma unadjusted_u32 v : in_u32 v -> adjust_u32 no_adjustment v = v.
Proof.
  intros V. unfold in_u32 in V. destruct (Z.eq_dec v 0) as [->|]; [reflexivity|].
  pose proof (adjust_u32_exact 4503599627370496 (-52) 0 v) as X. cbv zeta in X. destruct (times_one v) as [D U].
  rewrite D, U in X. specialize (X ltac:(lia) ltac:(lia)). unfold no_adjustment. lia.
Qed.
Lemma unadjusted_i64 v : 0 <= v < 2 ^ 53 -> adjust_i64 no_adjustment v = v.
Proof.
  intros V. destruct (Z.eq_dec v 0) as [->|]; [reflexivity|].
  pose proof (adjust_i64_exact 4503599627370496 (-52) 0 v) as X. cbv zeta in X. destruct (times_one v) as [D U].
  rewrite D, U in X. specialize (X ltac:(lia) ltac:(unfold in_u32, u32_max; lia) ltac:(lia)). unfold no_adjustment. lia.
Qed.

(* ---------------------------------------------------------------- the fee *)

Lemma sat_i64_range x : i64_min <= sat_i64 x <= i64_max.
Proof. unfold sat_i64, clamp, i64_min, i64_max. lia. Qed.
Lemma compute_rent_fee_range es c cur : i64_min <= compute_rent_fee es c cur <= i64_max.
Proof. unfold compute_rent_fee. destruct (rent_loop es c cur 0 0 0) as [[a b] d]. apply sat_i64_range. Qed.

Lemma resource_fee_covers n li j r s rent : ok_fees (n_fees n) -> ok_adjustment j -> ok_resources r -> ok_resources s ->
  resources_le r s -> owed n li r rent <= compute_resource_fee n li s rent j.
Proof.
  intros OF OJ OR OS LE. unfold owed, compute_resource_fee.
  destruct (resource_fee_mono r s (n_fees n) (n_fees n) OR OS OF OF LE) as [F1 F2]; [unfold fees_le; lia|].
  destruct (resource_fee_nonneg s (n_fees n) OS OF) as [N1 N2].
  destruct (compute_transaction_resource_fee s (n_fees n)) as [x y]. cbn [fst snd] in *.
  pose proof (compute_rent_fee_range rent (n_rent n) (li_seq li)) as RR.
  set (z := compute_rent_fee rent (n_rent n) (li_seq li)) in *.
  pose proof (adjust_i64_ge (j_refund j) (sat_i64 (y + z)) (sat_i64_range _)) as AD.
  destruct OJ as (_ & _ & _ & _ & A0). unfold in_u32 in A0. specialize (AD (proj1 A0)).
  pose proof (sat_i64_range (y + z)).
  assert (sat_i64 (y + z) <= adjust_i64 (j_refund j) (sat_i64 (y + z))) by (destruct (sat_i64 (y + z) =? 0); lia).
  set (w := adjust_i64 (j_refund j) (sat_i64 (y + z))) in *. clearbody w. clearbody z.
  unfold sat_i64, clamp, i64_min, i64_max in *. lia.
Qed.

Lemma count_disk (f : lfoot) (l : list nat) :
  count_classic (f_ro f) + count_classic (f_rw f) + Z.of_nat (length l) = from_disk f l.
Proof.
  unfold count_classic, from_disk. rewrite filter_app, app_length.
  assert (X : forall ks, filter classic ks = filter (fun k => match key_durability k with None => true | Some _ => false end) ks).
  { intros ks. apply filter_ext. intros []; reflexivity. }
  rewrite !X. lia.
Qed.

Section Sim.
  Variable cd : codec.
  Variable envelope : sim_op -> lfoot -> list nat -> option Z.
  Variable fill : list Z -> list Z.
  Hypothesis LEN : forall k e, 0 <= entry_len cd k e.

  (* What the common end of the simulations gives. *)
  Lemma finish_spec n j li op r restored rent ev t :
    finish envelope n j li op r restored rent ev = SOk t ->
    exists size, envelope op (s_foot r) restored = Some size
    /\ t_res t = adjust_resources j r /\ t_restored t = restored
    /\ (ok_fees (n_fees n) -> ok_adjustment j ->
        ok_resources (measured (s_foot r) restored (s_insns r) (s_read r) (s_write r) ev size) ->
        forall u, ok_resources u -> resources_le u (measured (s_foot r) restored (s_insns r) (s_read r) (s_write r) ev size) ->
        owed n li u rent <= t_fee t).
  Proof.
    unfold finish, adjusted_transaction_resources. cbn [adjust_resources s_foot].
    destruct (envelope op (s_foot r) restored) as [size|]; [|discriminate]. cbn [sbind fst snd]. intros H. injection H as <-.
    exists size. split; [reflexivity|]. split; [reflexivity|]. split; [reflexivity|]. cbn [t_fee].
    intros OF OJ OM u OU LE. pose proof OJ as (J1 & J2 & J3 & J4 & J5). rewrite count_disk.
    destruct OM as (M1 & M2 & M3 & M4 & M5 & M6 & M7). cbn [measured r_instructions r_disk_read_entries r_write_entries r_disk_read_bytes r_write_bytes r_events_size r_tx_size] in *.
    pose proof (adjust_u32_ge (j_insns j) (s_insns r) M1 (proj1 J1)).
    pose proof (adjust_u32_ge (j_read j) (s_read r) M4 (proj1 J2)).
    pose proof (adjust_u32_ge (j_write j) (s_write r) M5 (proj1 J3)).
    pose proof (adjust_u32_ge (j_size j) size M7 (proj1 J4)).
    unfold in_u32 in *.
    assert (GE : forall v a w, 0 <= v <= u32_max -> 0 <= a -> Z.min u32_max (v + (if v =? 0 then 0 else a)) <= w <= u32_max -> v <= w <= u32_max).
    { intros v a w. destruct (v =? 0); lia. }
    apply GE in H, H0, H1, H2; try lia.
    apply resource_fee_covers; auto.
    - unfold ok_resources, in_u32. cbn. lia.
    - destruct LE as (L1 & L2 & L3 & L4 & L5 & L6 & L7). cbn in L1, L2, L3, L4, L5, L6, L7. unfold resources_le. cbn. lia.
  Qed.
  Lemma finish_ok n j li op r restored rent ev : envelope op (s_foot r) restored <> None ->
    exists t, finish envelope n j li op r restored rent ev = SOk t.
  Proof.
    intros H. unfold finish, adjusted_transaction_resources. cbn [adjust_resources s_foot].
    destruct (envelope op (s_foot r) restored); [|congruence]. cbn [sbind]. eauto.
  Qed.

  Lemma filled_contract src k : key_durability k <> None -> ledger_ok src -> filled fill src k = src k.
  Proof.
    intros D LOK. unfold filled. destruct (src k) as [[e l]|] eqn:S0; [|reflexivity]. destruct e; auto.
    destruct k; cbn in D; try congruence; destruct (LOK _ _ _ S0 eq_refl) as [X _]; cbn in X; congruence.
  Qed.

  Lemma sizes_rent k e s : sizes cd k e = SOk s -> s = (sat_u32 (entry_len cd k e), rent_size cd k e) /\ entry_len cd k e <= u32_max.
  Proof.
    unfold sizes, rent_size, entry_size_for_rent. destruct (Z.leb_spec (entry_len cd k e) u32_max) as [L|]; [|discriminate].
    intros H. injection H as <-. assert (X : sat_u32 (entry_len cd k e) = entry_len cd k e).
    { specialize (LEN k e). unfold sat_u32, clamp. lia. }
    now rewrite X.
  Qed.

  (* ---------------------------------------------------------------- extension *)

  Lemma extend_loop_spec li src to ks p : 0 <= li_seq li -> 0 <= to -> ledger_ok src ->
    extend_loop cd (filled fill src) (li_seq li) (li_seq li + to) ks = SOk p ->
    fst p = filter (needs_extension (li_seq li) to src) ks
    /\ snd p = flat_map (fun k => if needs_extension (li_seq li) to src k
                                  then rent_due li cd (after_extension li cd to src k) else []) ks
    /\ Forall (extendable (li_seq li) src) ks
    /\ Forall (fun k => needs_extension (li_seq li) to src k = true -> forall e l, src k = Some (e, l) -> entry_len cd k e <= u32_max) ks.
  Proof.
    intros SQ TO LOK. revert p. induction ks as [|k ks IH]; intros p; cbn [extend_loop].
    - intros H. injection H as <-. cbn. auto.
    - destruct (key_durability k) as [d|] eqn:KD; [|discriminate].
      rewrite filled_contract by (auto; congruence). cbn [filter flat_map].
      destruct (src k) as [[e [l|]]|] eqn:SK; [|discriminate|].
      2:{ intros H. destruct (IH p H) as (A & B & C & D).
          assert (NE : needs_extension (li_seq li) to src k = false) by (unfold needs_extension; now rewrite SK).
          rewrite NE. split; [exact A|]. split; [exact B|]. split; constructor; auto; [|intros; congruence].
          split; [congruence|]. intros; congruence. }
      assert (EX : li_seq li <= l -> extendable (li_seq li) src k).
      { intros L. split; [congruence|]. intros e' l' H. rewrite SK in H. injection H as <- <-. exists l. auto. }
      assert (NE : needs_extension (li_seq li) to src k = (li_seq li <=? l) && (l <? li_seq li + to))
        by (unfold needs_extension; now rewrite SK).
      rewrite NE. destruct (Z.leb_spec (li_seq li + to) l) as [NL|NL].
      + intros H. destruct (IH p H) as (A & B & C & D). replace (l <? li_seq li + to) with false in * by lia.
        rewrite andb_false_r in *.
        split; [exact A|]. split; [exact B|]. split; constructor; auto; [apply EX; lia|congruence].
      + destruct (Z.ltb_spec l (li_seq li)) as [|SL]; [discriminate|].
        destruct (sizes cd k e) as [s|] eqn:SZ; [|discriminate]. cbn [sbind]. apply sizes_rent in SZ. destruct SZ as [-> SZ].
        destruct (extend_loop cd (filled fill src) (li_seq li) (li_seq li + to) ks) as [q|]; [|discriminate].
        cbn [sbind]. intros H. injection H as <-. destruct (IH q eq_refl) as (A & B & C & D). cbn [fst snd].
        replace (li_seq li <=? l) with true by lia. replace (l <? li_seq li + to) with true by lia. cbn [andb].
        split; [now rewrite A|]. split; [|split; constructor; auto].
        * rewrite B. unfold rent_due, after_extension. cbn [oc_key oc_after]. rewrite KD, SK. cbn [option_map fst].
          unfold end_size. cbn [oc_access]. unfold old_live, old_size, new_live, as_new.
          cbn [oc_restored oc_item oc_after oc_key andb]. unfold provided, now.
          rewrite SK. replace (l <? li_seq li) with false by lia. cbn [option_map snd fst tm_live tm_size].
          replace (Z.max (Z.max (li_seq li + to) l) 0) with (li_seq li + to) by lia.
          replace (l <? li_seq li + to) with true by lia. cbn [orb app is_code]. reflexivity.
        * intros _ e' l' H. rewrite SK in H. injection H as <- <-. exact SZ.
  Qed.

  Lemma extend_loop_ok li src to ks : 0 <= to -> ledger_ok src ->
    Forall (extendable (li_seq li) src) ks ->
    Forall (fun k => needs_extension (li_seq li) to src k = true -> forall e l, src k = Some (e, l) -> entry_len cd k e <= u32_max) ks ->
    exists p, extend_loop cd (filled fill src) (li_seq li) (li_seq li + to) ks = SOk p.
  Proof.
    intros TO LOK. induction ks as [|k ks IH]; intros F1 F2; cbn [extend_loop]; [eauto|].
    inversion F1 as [|? ? [KD X] F1']. inversion F2 as [|? ? SZ F2']. subst. destruct (IH F1' F2') as [p P].
    destruct (key_durability k) as [d|] eqn:D; [|congruence]. rewrite filled_contract by (auto; congruence).
    destruct (src k) as [[e l]|] eqn:SK; [|eauto]. destruct (X e l eq_refl) as (x & -> & L).
    destruct (Z.leb_spec (li_seq li + to) x); [eauto|]. replace (x <? li_seq li) with false by lia.
    assert (NE : needs_extension (li_seq li) to src k = true) by (unfold needs_extension; rewrite SK; lia).
    unfold sizes. specialize (SZ NE e (Some x) eq_refl). replace (entry_len cd k e <=? u32_max) with true by lia.
    cbn [sbind]. rewrite P. cbn [sbind]. eauto.
  Qed.

  Theorem extend_sim src n j li ks to t : 0 <= li_seq li -> 0 <= to -> ledger_ok src ->
    simulate_extend_ttl_op cd envelope fill src n j li ks to = SOk t ->
    let f := {| f_ro := filter (needs_extension (li_seq li) to src) ks; f_rw := [] |} in
    exists size, envelope (OpExtend to) f [] = Some size
    /\ t_res t = {| s_foot := f; s_insns := 0; s_read := 0; s_write := 0 |} /\ t_restored t = []
    /\ (ok_fees (n_fees n) -> ok_adjustment j -> in_u32 size ->
        forall u, ok_resources u -> resources_le u (measured f [] 0 0 0 0 size) ->
        owed n li u (flat_map (fun k => rent_due li cd (after_extension li cd to src k)) (f_ro f)) <= t_fee t).
  Proof.
    intros SQ TO LOK. unfold simulate_extend_ttl_op, extend_resources.
    destruct (li_seq li + to <=? u32_max); [|discriminate]. cbn [sbind].
    destruct (extend_loop cd (filled fill src) (li_seq li) (li_seq li + to) ks) as [p|] eqn:P; [|discriminate].
    cbn [sbind fst snd]. destruct (extend_loop_spec li src to ks p SQ TO LOK P) as (A & B & C & D).
    intros H. apply finish_spec in H. cbn [s_foot s_insns s_read s_write] in H. rewrite A in H. destruct H as (size & EN & TR & T0 & FE).
    cbv zeta. exists size. split; [exact EN|]. split; [rewrite TR; reflexivity|]. split; [exact T0|].
    intros OF OJ SI u OU LE. cbn [f_ro].
    assert (FM : flat_map (fun k => rent_due li cd (after_extension li cd to src k)) (filter (needs_extension (li_seq li) to src) ks) = snd p).
    { rewrite B. clear. induction ks as [|k ks IH]; cbn; [reflexivity|]. destruct (needs_extension (li_seq li) to src k); cbn; now rewrite IH. }
    rewrite FM. apply FE; auto.
    assert (CL : from_disk {| f_ro := filter (needs_extension (li_seq li) to src) ks; f_rw := [] |} [] = 0).
    { unfold from_disk. cbn [f_ro f_rw]. rewrite app_nil_r.
      assert (X : filter (fun k => match key_durability k with None => true | Some _ => false end) (filter (needs_extension (li_seq li) to src) ks) = []).
      { clear - C. induction C as [|k ks [X _] C IH]; cbn; [reflexivity|].
        destruct (needs_extension (li_seq li) to src k); cbn; auto. destruct (key_durability k); [exact IH|congruence]. }
      rewrite X. reflexivity. }
    unfold ok_resources, measured. cbn [r_instructions r_disk_read_entries r_write_entries r_disk_read_bytes r_write_bytes r_events_size r_tx_size].
    rewrite CL. cbn [f_rw length]. unfold in_u32, u32_max in *. lia.
  Qed.
  Theorem extend_sim_ok src n j li ks to : 0 <= li_seq li -> 0 <= to -> ledger_ok src ->
    (exists t, simulate_extend_ttl_op cd envelope fill src n j li ks to = SOk t)
    <-> li_seq li + to <= u32_max /\ Forall (extendable (li_seq li) src) ks
        /\ (forall k e l, In k ks -> needs_extension (li_seq li) to src k = true -> src k = Some (e, l) -> entry_len cd k e <= u32_max)
        /\ envelope (OpExtend to) {| f_ro := filter (needs_extension (li_seq li) to src) ks; f_rw := [] |} [] <> None.
  Proof.
    intros SQ TO LOK. split.
    - intros [t H]. pose proof H as H2. apply extend_sim in H2; auto. destruct H2 as (size & EN & _).
      unfold simulate_extend_ttl_op, extend_resources in H.
      destruct (Z.leb_spec (li_seq li + to) u32_max) as [L|]; [|discriminate]. cbn [sbind] in H.
      destruct (extend_loop cd (filled fill src) (li_seq li) (li_seq li + to) ks) as [p|] eqn:P; [|discriminate].
      destruct (extend_loop_spec li src to ks p SQ TO LOK P) as (A & B & C & D).
      split; [exact L|]. split; [exact C|]. split; [|congruence].
      intros k e l I NE SK. rewrite Forall_forall in D. exact (D k I NE e l SK).
    - intros (L & F1 & F2 & EN). unfold simulate_extend_ttl_op, extend_resources.
      replace (li_seq li + to <=? u32_max) with true by lia.
      destruct (extend_loop_ok li src to ks TO LOK F1) as [p P].
      { apply Forall_forall. intros k I NE e l SK. exact (F2 k e l I NE SK). }
      rewrite P. cbn [sbind fst snd]. destruct (extend_loop_spec li src to ks p SQ TO LOK P) as (A & _).
      apply finish_ok. cbn [s_foot]. now rewrite A.
  Qed.

  (* ---------------------------------------------------------------- restoration *)

  Lemma restore_loop_spec li src ks : li_ok li -> 0 < li_seq li -> ledger_ok src -> forall b p, 0 <= b ->
    restore_loop cd (filled fill src) (li_seq li) (min_live li Persistent) ks (sat_u32 b) = SOk p ->
    fst (fst p) = filter (is_archived li src) ks
    /\ snd (fst p) = sat_u32 (b + total (map (disk_bytes li cd src) ks))
    /\ snd p = flat_map (fun k => if is_archived li src k then rent_due li cd (after_restore li cd src k) else []) ks
    /\ Forall (restorable src) ks
    /\ Forall (fun k => is_archived li src k = true -> forall e l, src k = Some (e, l) -> entry_len cd k e <= u32_max) ks.
  Proof.
    intros LI SQ LOK. induction ks as [|k ks IH]; intros b p B0; cbn [restore_loop].
    - intros H. injection H as <-. cbn [fst snd map total fold_right filter flat_map]. rewrite Z.add_0_r. auto.
    - destruct (key_durability k) as [[]|] eqn:KD; try discriminate.
      rewrite filled_contract by (auto; congruence). cbn [filter flat_map map].
      destruct (src k) as [[e [l|]]|] eqn:SK; [|discriminate|discriminate].
      assert (RE : restorable src k) by (split; [exact KD|exists e, l; exact SK]).
      assert (NE : is_archived li src k = (l <? li_seq li)) by (unfold is_archived; now rewrite KD, SK).
      assert (DB : disk_bytes li cd src k = if l <? li_seq li then sat_u32 (entry_len cd k e) else 0)
        by (unfold disk_bytes; now rewrite SK, KD).
      change (total (disk_bytes li cd src k :: map (disk_bytes li cd src) ks))
        with (disk_bytes li cd src k + total (map (disk_bytes li cd src) ks)).
      rewrite NE, DB. destruct (Z.leb_spec (li_seq li) l) as [NL|NL].
      + intros H. destruct (IH b p B0 H) as (A & A2 & B & C & D). replace (l <? li_seq li) with false in * by lia.
        split; [exact A|]. split; [exact A2|]. split; [exact B|]. split; constructor; auto. congruence.
      + destruct (sizes cd k e) as [s|] eqn:SZ; [|discriminate]. cbn [sbind]. apply sizes_rent in SZ. destruct SZ as [-> SZ].
        cbn [fst]. replace (l <? li_seq li) with true in * by lia.
        assert (S0 : 0 <= sat_u32 (entry_len cd k e)) by (unfold sat_u32, clamp; lia).
        rewrite (sat_add b _ B0 S0).
        destruct (restore_loop cd (filled fill src) (li_seq li) (min_live li Persistent) ks _) as [q|] eqn:Q; [|discriminate].
        cbn [sbind]. intros H. injection H as <-. destruct (IH (b + sat_u32 (entry_len cd k e)) q ltac:(lia) Q) as (A & A2 & B & C & D). cbn [fst snd].
        split; [now rewrite A|]. split; [rewrite A2; f_equal; lia|]. split; [|split; constructor; auto].
        * rewrite B.
          assert (AN : now li k (src k) = Some (e, Some (min_live li Persistent))).
          { unfold now. rewrite SK, KD. now replace (l <? li_seq li) with true by lia. }
          unfold rent_due, end_size, old_live, old_size, new_live, as_new, after_restore, provided.
          cbn [oc_access oc_restored oc_item oc_after oc_key]. rewrite AN, KD. cbn [andb option_map snd tm_live].
          rewrite !Z.max_id.
          assert (MP : 0 < min_live li Persistent) by (clear - SQ LI; destruct LI as (L1 & _ & L3 & _); unfold min_live; lia).
          replace (0 <? min_live li Persistent) with true by lia. cbn [orb app is_code]. reflexivity.
        * intros _ e' l' H. rewrite SK in H. injection H as <- <-. exact SZ.
  Qed.

  Lemma restore_loop_ok li src ks : ledger_ok src -> Forall (restorable src) ks ->
    Forall (fun k => is_archived li src k = true -> forall e l, src k = Some (e, l) -> entry_len cd k e <= u32_max) ks ->
    forall new b, exists p, restore_loop cd (filled fill src) (li_seq li) new ks b = SOk p.
  Proof.
    intros LOK. induction ks as [|k ks IH]; intros F1 F2 new b; cbn [restore_loop]; [eauto|].
    inversion F1 as [|? ? (KD & e & x & SK) F1']. inversion F2 as [|? ? SZ F2']. subst.
    rewrite KD, filled_contract, SK by (auto; congruence).
    destruct (Z.leb_spec (li_seq li) x); [now apply IH|].
    assert (NE : is_archived li src k = true) by (unfold is_archived; rewrite KD, SK; lia).
    unfold sizes. specialize (SZ NE e (Some x) SK). replace (entry_len cd k e <=? u32_max) with true by lia.
    cbn [sbind]. edestruct (IH F1' F2') as [p ->]. cbn [sbind]. eauto.
  Qed.

  Lemma archived_bytes li src ks : Forall (restorable src) ks ->
    total (map (disk_bytes li cd src) ks) = total (map (disk_bytes li cd src) (filter (is_archived li src) ks)).
  Proof.
    intros F. induction F as [|k ks (KD & e & x & SK) F IH]; cbn [map filter]; [reflexivity|].
    unfold total in *. cbn [fold_right]. rewrite IH.
    assert (NE : is_archived li src k = (x <? li_seq li)) by (unfold is_archived; now rewrite KD, SK).
    assert (DB : disk_bytes li cd src k = if x <? li_seq li then sat_u32 (entry_len cd k e) else 0)
      by (unfold disk_bytes; now rewrite SK, KD).
    rewrite NE, DB. destruct (x <? li_seq li) eqn:X; cbn [map fold_right]; [rewrite DB|]; lia.
  Qed.

  Theorem restore_sim src n j li ks t : li_ok li -> 0 < li_seq li -> ledger_ok src ->
    simulate_restore_op cd envelope fill src n j li ks = SOk t ->
    let f := {| f_ro := []; f_rw := filter (is_archived li src) ks |} in
    let bytes := sat_u32 (total (map (disk_bytes li cd src) (f_rw f))) in
    exists size, envelope OpRestore f [] = Some size
    /\ t_res t = adjust_resources j {| s_foot := f; s_insns := 0; s_read := bytes; s_write := bytes |}
    /\ t_restored t = []
    /\ (ok_fees (n_fees n) -> ok_adjustment j -> in_u32 size -> Z.of_nat (length (f_rw f)) <= u32_max ->
        forall u, ok_resources u -> resources_le u (measured f [] 0 bytes bytes 0 size) ->
        owed n li u (flat_map (fun k => rent_due li cd (after_restore li cd src k)) (f_rw f)) <= t_fee t).
  Proof.
    intros LI SQ LOK. unfold simulate_restore_op, restore_resources. rewrite (min_live_ok li Persistent LI).
    destruct (restore_loop cd (filled fill src) (li_seq li) (min_live li Persistent) ks 0) as [p|] eqn:P; [|discriminate].
    cbn [sbind fst snd]. destruct (restore_loop_spec li src ks LI SQ LOK 0 p ltac:(lia) P) as (A & A2 & B & C & D).
    rewrite Z.add_0_l, (archived_bytes li src ks C) in A2.
    intros H. apply finish_spec in H. cbn [s_foot s_insns s_read s_write] in H. rewrite A, A2 in H. destruct H as (size & EN & TR & T0 & FE).
    cbv zeta. exists size. split; [exact EN|]. split; [exact TR|]. split; [exact T0|].
    cbn [f_rw]. intros OF OJ SI LN u OU LE.
    assert (FM : flat_map (fun k => rent_due li cd (after_restore li cd src k)) (filter (is_archived li src) ks) = snd p).
    { rewrite B. clear. induction ks as [|k ks IH]; cbn; [reflexivity|]. destruct (is_archived li src k); cbn; now rewrite IH. }
    rewrite FM. apply FE; auto.
    assert (CL : from_disk {| f_ro := []; f_rw := filter (is_archived li src) ks |} [] = 0).
    { unfold from_disk. cbn [f_ro f_rw app].
      assert (X : filter (fun k => match key_durability k with None => true | Some _ => false end) (filter (is_archived li src) ks) = []).
      { clear - C. induction C as [|k ks (X & _) C IH]; cbn; [reflexivity|].
        destruct (is_archived li src k); cbn; auto. now rewrite X. }
      rewrite X. reflexivity. }
    unfold ok_resources, measured. cbn [r_instructions r_disk_read_entries r_write_entries r_disk_read_bytes r_write_bytes r_events_size r_tx_size].
    rewrite CL. cbn [f_rw]. pose proof (Zle_0_nat (length (filter (is_archived li src) ks))).
    unfold in_u32, sat_u32, clamp, u32_max in *. lia.
  Qed.
  Theorem restore_sim_ok src n j li ks : li_ok li -> 0 < li_seq li -> ledger_ok src ->
    (exists t, simulate_restore_op cd envelope fill src n j li ks = SOk t)
    <-> Forall (restorable src) ks
        /\ (forall k e l, In k ks -> archived li src k -> src k = Some (e, l) -> entry_len cd k e <= u32_max)
        /\ envelope OpRestore {| f_ro := []; f_rw := filter (is_archived li src) ks |} [] <> None.
  Proof.
    intros LI SQ LOK.
    assert (AB : forall k, is_archived li src k = true <-> archived li src k) by (intros k; apply archived_b).
    split.
    - intros [t H]. pose proof H as H2. apply restore_sim in H2; auto. destruct H2 as (size & EN & _).
      unfold simulate_restore_op, restore_resources in H. rewrite (min_live_ok li Persistent LI) in H.
      destruct (restore_loop cd (filled fill src) (li_seq li) (min_live li Persistent) ks 0) as [p|] eqn:P; [|discriminate].
      destruct (restore_loop_spec li src ks LI SQ LOK 0 p ltac:(lia) P) as (A & A2 & B & C & D).
      split; [exact C|]. split; [|cbv zeta in EN; congruence].
      intros k e l I AR SK. rewrite Forall_forall in D. apply AB in AR. exact (D k I AR e l SK).
    - intros (F1 & F2 & EN). unfold simulate_restore_op, restore_resources. rewrite (min_live_ok li Persistent LI).
      destruct (restore_loop_ok li src ks LOK F1) with (new := min_live li Persistent) (b := 0) as [p P].
      { apply Forall_forall. intros k I NE e l SK. apply AB in NE. exact (F2 k e l I NE SK). }
      rewrite P. cbn [sbind fst snd]. destruct (restore_loop_spec li src ks LI SQ LOK 0 p ltac:(lia) P) as (A & _).
      apply finish_ok. cbn [s_foot]. now rewrite A.
  Qed.

  (* ---------------------------------------------------------------- restoring on the fly *)

  Lemma auto_gets_spec src li ks : li_ok li -> ledger_ok src -> Forall (fun k => key_supported k = true) ks ->
    forall r b vs, auto_gets src li (min_live li Persistent) r ks = (b, vs) ->
    vs = map (fun k => Ok (now li k (src k))) ks
    /\ (forall k, In k b <-> In k r \/ (In k ks /\ archived li src k))
    /\ (NoDup r -> NoDup b).
  Proof.
    intros LI LOK F. induction F as [|k ks KS F IH]; intros r b vs; cbn [auto_gets].
    - intros H. injection H as <- <-. cbn. intuition.
    - destruct (auto_get src li (min_live li Persistent) r k) as [a v] eqn:G.
      destruct (auto_gets src li (min_live li Persistent) a ks) as [b' vs'] eqn:GS. intros H. injection H as <- <-.
      destruct (IH a b' vs' GS) as (V & I & N).
      assert (X : v = Ok (now li k (src k)) /\ (forall k', In k' a <-> In k' r \/ (k' = k /\ archived li src k)) /\ (NoDup r -> NoDup a)).
      { unfold auto_get in G. destruct (src k) as [[e l]|] eqn:SK.
        2:{ injection G as <- <-. unfold archived. rewrite SK. split; [reflexivity|]. split; [|auto].
            intros k'. split; [auto|]. intros [?|(_ & _ & e & l & ? & _)]; [auto|discriminate]. }
        unfold archived. rewrite SK. pose proof (LOK k e l SK KS) as LK.
        destruct (key_durability k) as [d|] eqn:KD.
        2:{ injection G as <- <-. split; [|split; [|auto]].
            - destruct l; [|reflexivity]. destruct e; destruct LK; congruence.
            - intros k'. split; [auto|]. intros [?|(_ & ? & _)]; [auto|discriminate]. }
        destruct l as [x|]; [|destruct e; destruct LK; congruence].
        unfold now. rewrite KD. destruct (x <? li_seq li) eqn:XL.
        - destruct d.
          + injection G as <- <-. split; [reflexivity|]. split; [|auto].
            intros k'. split; [auto|]. intros [?|(_ & ? & _)]; [auto|discriminate].
          + injection G as <- <-. split; [reflexivity|].
            assert (AR : Some Persistent = Some Persistent /\ (exists e0 l, Some (e, Some x) = Some (e0, Some l) /\ l < li_seq li)).
            { split; [reflexivity|]. exists e, x. split; [reflexivity|lia]. }
            unfold key_in. destruct (in_dec lkey_eq_dec k r) as [IR|IR].
            * split; [|auto]. intros k'. split; [auto|]. intros [?|[-> _]]; auto.
            * split.
              -- intros k'. rewrite in_app_iff. cbn. intuition (subst; auto).
              -- intros ND. apply (Permutation_NoDup (l := k :: r)); [apply Permutation_cons_append|now constructor].
        - injection G as <- <-. split; [reflexivity|]. split; [|auto].
          intros k'. split; [auto|]. intros [?|(_ & _ & e0 & l & H & L)]; [auto|]. injection H as <- <-. lia. }
      destruct X as (-> & AI & AN). split; [cbn; now rewrite V|]. split; [|auto].
      intros k'. rewrite I, AI. cbn [In]. split.
      + intros [[?|[-> ?]]|[? ?]]; auto.
      + intros [?|[[<-|?] ?]]; auto.
  Qed.

  Theorem restore_keys_sim src n j li b : li_ok li -> 0 < li_seq li -> ledger_ok src ->
    Forall (fun k => key_supported k = true /\ archived li src k) b ->
    forall o, simulate_restore_keys_op cd envelope fill src n j li b = SOk o ->
    match o with
    | None => b = []
    | Some t => f_rw (s_foot (t_res t)) = b /\ f_ro (s_foot (t_res t)) = [] /\ b <> []
    end.
  Proof.
    intros LI SQ LOK F o. unfold simulate_restore_keys_op. destruct b as [|k b]; [intros H; now injection H as <-|].
    destruct (simulate_restore_op cd envelope fill src n j li (k :: b)) as [t|] eqn:S0; [|discriminate].
    cbn [sbind]. intros H. injection H as <-. apply restore_sim in S0; auto. cbv zeta in S0. destruct S0 as (size & _ & TR & _).
    rewrite TR. cbn [adjust_resources s_foot f_rw f_ro]. split; [|split; [reflexivity|discriminate]].
    assert (X : forall l, Forall (fun k => key_supported k = true /\ archived li src k) l -> filter (is_archived li src) l = l).
    { intros l FL. induction FL as [|y l [_ A] FL IH]; cbn [filter]; [reflexivity|].
      assert (Y : is_archived li src y = true) by (apply archived_b; exact A). now rewrite Y, IH. }
    now apply X.
  Qed.
End Sim.
