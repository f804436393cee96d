(* C76: the resources reported for an invocation, and their price. *)
From Coq Require Import ZArith Lia List Bool.
From Verif Require Import Prelude ValModel ContainerModel HeapModel AMap StorageModel StorageSpec FeesModel FeesSpec FeesProofs FrameModel E2EModel
  MeterModel MeterSpec MeterProofs MeterProofs2 MeterProofs3.
Import ListNotations.
Open Scope Z_scope.
Ltac Zify.zify_post_hook ::= idtac.

(* ------------------------------------------------------------ the tree of calls *)

(* The report about any program, whatever an observation is, is the tree of the
   calls of its last outermost invocation. *)
Theorem C76_tree_of_calls : forall (H S : Type) (reset_ : H -> H) (save : H -> S) look within p h last sn,
  match sessions reset_ save look within p h last with
  | None => run reset_ save look within (idle last sn) h p = None
  | Some (h', last') => exists sn', run reset_ save look within (idle last sn) h p = Some (idle last' sn', h')
  end.
Proof. intros. apply run_idle. Qed.
Print Assumptions C76_tree_of_calls.

(* With metering off nothing happens. *)
Theorem C76_off : forall (H S : Type) (reset_ : H -> H) (save : H -> S) look within p h m, mt_on m = false ->
  run reset_ save look within m h p = Some (m, plain p h).
Proof.
  intros H S reset_ save look within p. induction p as [|w k IH|i b IHb k IHk]; intros h m OFF; cbn; auto.
  unfold push. rewrite OFF. cbn. rewrite IHb by exact OFF. cbn. apply IHk, OFF.
Qed.
Print Assumptions C76_off.

(* ------------------------------------------------------------ what is reported *)

Lemma observe_start cd c h : observe cd c (mh_store (reset h)) (reset h) = Some (reset h, u0).
Proof. reflexivity. Qed.
Lemma subtract_0 u : ufits u -> subtract u u0 = u.
Proof.
  unfold ufits, fits32, fits64, subtract, u0. intros F. destruct u; cbn in *.
  unfold sat_i64, sat_i32, clamp, i64_min, i64_max, i32_min, i32_max in *. f_equal; lia.
Qed.
Lemma unsigned_fits u : ufits u -> unsigned u = u.
Proof. unfold ufits, fits32, fits64, unsigned. intros F. destruct u; cbn in *. f_equal; lia. Qed.

(* For an outermost invocation exactly what it used is reported; if that is more
   than the limits, it is a panic.  Looking changes nothing that can be seen of the
   entries. *)
Theorem C76_report_is_exact : forall cd c within i body h h1 subs,
  li_ok (sc_li c) -> (exists src, sc_mode c = Recording src) ->
  let start := mh_store (reset h) in
  calls (observe cd c) start i body (reset h) = Some (h1, subs) ->
  dated c start -> dated c (mh_store h1) -> supported h1 -> small cd c start h1 ->
  Forall (fun p => ~ shortened c (get_from_map (st_map start) (fst p)) (view c (mh_store h1) (fst p))) (st_foot (mh_store h1)) ->
  ufits (used cd c start h1) ->
  exists s', (forall k, view c s' k = view c (mh_store h1) k) /\
  forall last sn,
    run reset mh_store (observe cd c) within (idle last sn) h (MScope i body MEnd)
    = if within (used cd c start h1) (with_mstore h1 s')
      then Some (idle (Some (MT i (used cd c start h1) subs)) (Some start), with_mstore h1 s') else None.
Proof.
  intros cd c within i body h h1 subs LI REC start CL DI DT SU SM NS UF.
  destruct (observe_ok cd c LI REC start h1 DI DT SU SM NS UF) as (s' & OB & VW & _). exists s'. split; [exact VW|]. intros last sn.
  pose proof (run_open reset mh_store (observe cd c) within body start (i, u0, []) [] (reset h)) as RO. cbn [innermost fst snd] in RO.
  cbn [run push idle mt_on mt_depth negb]. rewrite observe_start. cbn [obind fst snd].
  unfold opened in RO at 1. cbn [length fst snd buildp build] in RO. fold start. cbn [obind]. rewrite RO, CL. cbn [obind fst snd replace add_subs app opened buildp build]. unfold pop. cbn [mt_depth length mt_report mt_snap obind].
  unfold opened. cbn [length fst snd replace add_subs app buildp build mt_depth mt_report mt_snap mt_on obind].
  rewrite OB. cbn [obind fst snd at_depth mt_inv mt_use mt_subs Nat.eqb].
  rewrite (subtract_0 _ UF), (unsigned_fits _ UF). destruct (within _ _); reflexivity.
Qed.
Print Assumptions C76_report_is_exact.

(* An entry that lives shorter than at the beginning makes any observation panic. *)
Theorem C76_shortened_entries_panic : forall cd c init h,
  li_ok (sc_li c) -> (exists src, sc_mode c = Recording src) ->
  dated c init -> dated c (mh_store h) -> supported h -> small cd c init h ->
  Exists (fun p => shortened c (get_from_map (st_map init) (fst p)) (view c (mh_store h) (fst p))) (st_foot (mh_store h)) ->
  observe cd c init h = None.
Proof. intros cd c init h LI REC. now apply observe_short. Qed.
Print Assumptions C76_shortened_entries_panic.

(* Reading an entry that is alive, and that storage knew, costs no rent. *)
Theorem C76_reading_costs_no_rent : forall cd c k a o, gone (sc_li c) o = false ->
  rent_of cd c k o o = 0 /\ u_p_bumps (use_of cd c k a o o) = 0 /\ u_t_bumps (use_of cd c k a o o) = 0.
Proof.
  intros cd c k a o G. assert (R : rent_of cd c k o o = 0).
  { destruct o as [[e [l|]]|]; try discriminate G. cbn in G. destruct (Z.ltb_spec l (li_seq (sc_li c))); [discriminate|].
    cbn [rent_of paid_until]. rewrite Z.sub_diag, (Z.max_l l) by lia. rewrite Z.max_id. lia. }
  cbn. rewrite R. cbn. rewrite !andb_false_r. auto.
Qed.
Print Assumptions C76_reading_costs_no_rent.

(* ------------------------------------------------------------ counters *)

Lemma observe_key_insns cd c init s u k a s' u' ok : observe_key cd c init s u k a = Some (s', u', ok) ->
  u_insns u' = u_insns u /\ u_mem u' = u_mem u.
Proof.
  unfold observe_key. destruct (initial cd c init k) as [[[disk il] isz] len]. intros E.
  destruct (match len with Some _ => _ | None => _ end) as [u1|] eqn:E1; [|discriminate E]. cbn [obind] in E.
  assert (A1 : u_insns u1 = u_insns u /\ u_mem u1 = u_mem u).
  { destruct len as [n|]; [destruct disk|]; try (injection E1 as <-; auto). unfold add_disk_b in E1. destruct (add32 _ _); [|discriminate]. injection E1 as <-. auto. }
  destruct (try_get c s k) as [s1 [o|e]]; [|injection E as <- <- <-; exact A1].
  destruct (final cd k o) as [[n sz] lv].
  destruct (add_read u1 disk) as [u2|] eqn:E2; [|discriminate E]. cbn [obind] in E.
  assert (A2 : u_insns u2 = u_insns u1 /\ u_mem u2 = u_mem u1).
  { unfold add_read in E2. destruct (add32 _ _); [|discriminate]. cbn in E2. destruct (add32 _ _); [|discriminate]. injection E2 as <-. auto. }
  destruct (add_write u2 a n) as [u3|] eqn:E3; [|discriminate E]. cbn [obind] in E.
  assert (A3 : u_insns u3 = u_insns u2 /\ u_mem u3 = u_mem u2).
  { unfold add_write in E3. destruct a; [injection E3 as <-; auto|]. destruct (add32 _ _); [|discriminate]. cbn in E3. destruct (add32 _ _); [|discriminate]. injection E3 as <-. auto. }
  destruct (add_rent _ _ _ _ _ _ _) as [u4|] eqn:E4; [|discriminate E]. cbn [obind] in E. injection E as <- <- <-.
  assert (A4 : u_insns u4 = u_insns u3 /\ u_mem u4 = u_mem u3).
  { unfold add_rent in E4. destruct lv as [l|]; [|injection E4 as <-; auto]. destruct (rent_ledger_bytes _ _ _ _ _) as [b|]; [|discriminate]. cbn in E4.
    destruct (0 <? b); [|injection E4 as <-; auto]. unfold add_bump in E4.
    destruct (key_durability k) as [[|]|]; [| |injection E4 as <-; auto];
      (destruct (add64 _ _); [|discriminate]; cbn in E4; destruct (add32 _ _); [|discriminate]; injection E4 as <-; auto). }
  destruct A1, A2, A3, A4. split; congruence.
Qed.
Lemma observe_keys_insns cd c init : forall l s u s' u' ok, observe_keys cd c init s u l = Some (s', u', ok) ->
  u_insns u' = u_insns u /\ u_mem u' = u_mem u.
Proof.
  induction l as [|[k a] l IH]; intros s u s' u' ok E; cbn in E; [injection E as <- <- <-; auto|].
  destruct (observe_key cd c init s u k a) as [[[s1 u1] ok1]|] eqn:E1; [|discriminate]. cbn in E. apply observe_key_insns in E1 as [A B].
  destruct ok1; [|injection E as <- <- <-; auto]. apply IH in E as [C D]. split; congruence.
Qed.
Lemma add_events_insns : forall l u u', add_events u l = Some u' -> u_insns u' = u_insns u /\ u_mem u' = u_mem u.
Proof.
  induction l as [|n l IH]; intros u u' E; cbn in E; [injection E as <-; auto|].
  destruct (add32 _ _); [|discriminate]. cbn in E. apply IH in E. exact E.
Qed.
Lemma observe_counters cd c init h h' u : observe cd c init h = Some (h', u) ->
  (mh_insns h' = mh_insns h /\ mh_mem h' = mh_mem h) /\ u_insns u = as_i64 (mh_insns h) /\ u_mem u = as_i64 (mh_mem h).
Proof.
  unfold observe. intros E. destruct (observe_keys _ _ _ _ _ _) as [[[s1 u1] ok]|] eqn:E1; [|discriminate]. cbn [obind] in E.
  apply observe_keys_insns in E1 as [A B]. cbn in A, B.
  destruct (if ok then add_events u1 (mh_events h) else Some u1) as [u2|] eqn:E2; [|discriminate]. cbn [obind] in E. injection E as <- <-.
  split; [split; reflexivity|]. destruct ok; [|injection E2 as <-; auto]. apply add_events_insns in E2 as [C D]. split; congruence.
Qed.

(* Whatever the program does: of every invocation in a report, the instructions and
   the memory of the calls it made are part of its own. *)
Theorem C76_counters_add_up : forall cd c within p h h' t,
  sessions reset mh_store (observe cd c) within p h None = Some (h', Some t) ->
  (works_up mh_insns p ->
   every (fun n => 0 <= u_insns (mt_use n) /\ zsum (map (fun x => u_insns (mt_use x)) (mt_subs n)) <= u_insns (mt_use n)) t)
  /\ (works_up mh_mem p ->
   every (fun n => 0 <= u_mem (mt_use n) /\ zsum (map (fun x => u_mem (mt_use x)) (mt_subs n)) <= u_mem (mt_use n)) t).
Proof.
  intros cd c within p h h' t E. split; intros W.
  - refine (sessions_up reset mh_store (observe cd c) within mh_insns u_insns _ _ _ p h None h' t W E _).
    + intros sn g g' u O. apply observe_counters in O as ((A & _) & B & _). split; [exact A|]. intros R. rewrite B. apply as_i64_small. exact R.
    + intros. cbn. unfold i64_max. lia.
    + intros a b I. cbn. apply sat_id. exact I.
    + discriminate.
  - refine (sessions_up reset mh_store (observe cd c) within mh_mem u_mem _ _ _ p h None h' t W E _).
    + intros sn g g' u O. apply observe_counters in O as ((_ & A) & _ & B). split; [exact A|]. intros R. rewrite B. apply as_i64_small. exact R.
    + intros. cbn. unfold i64_max. lia.
    + intros a b I. cbn. apply sat_id. exact I.
    + discriminate.
Qed.
Print Assumptions C76_counters_add_up.

(* ------------------------------------------------------------ limits *)

(* entries and keys of the footprint *)
Definition sizes_within (cd : codec) (key_len : lkey -> Z) (lm : limits) (s : storage) : Prop :=
  forall k a, In (k, a) (st_foot s) ->
    (forall x y d, k = LKData x y d -> key_len k <= lm_key lm)
    /\ (forall v l, get_from_map (st_map s) k = Some (EData v, l) -> entry_len cd k (EData v) <= lm_data lm)
    /\ (forall w l, get_from_map (st_map s) k = Some (ECode w, l) -> entry_len cd k (ECode w) <= lm_code lm).
Theorem C76_limits : forall cd key_len lm u s, ufits u -> u_disk_n u + u_mem_n u + u_write_n u <= u32_max ->
  (forall k, fits32 (key_len k)) -> (forall k e, fits32 (entry_len cd k e)) ->
  within_limits cd key_len lm u s = true <->
  (u_insns u <= lm_insns lm /\ u_mem u <= lm_mem lm /\ u_disk_n u + u_mem_n u + u_write_n u <= lm_entries lm
   /\ u_disk_n u <= lm_disk_n lm /\ u_disk_b u <= lm_disk_b lm /\ u_write_n u <= lm_write_n lm /\ u_write_b u <= lm_write_b lm
   /\ u_events u <= lm_events lm /\ sizes_within cd key_len lm s).
Proof.
  intros cd key_len lm u s UF SUM KL EL. unfold within_limits.
  assert (SU : sat_u32 (sat_u32 (u_disk_n u + u_mem_n u) + u_write_n u) = u_disk_n u + u_mem_n u + u_write_n u).
  { unfold ufits, fits32, sat_u32, clamp in *. lia. }
  rewrite SU, !andb_true_iff, !negb_true_iff, !Z.ltb_ge, forallb_forall.
  assert (B : (forall x : lkey * access, In x (st_foot s) ->
    match fst x with LKData _ _ _ => negb (lm_key lm <? as_u32 (key_len (fst x))) | _ => true end &&
    match get_from_map (st_map s) (fst x) with
    | Some (EData v, _) => negb (lm_data lm <? as_u32 (entry_len cd (fst x) (EData v)))
    | Some (ECode w, _) => negb (lm_code lm <? as_u32 (entry_len cd (fst x) (ECode w)))
    | _ => true end = true) <-> sizes_within cd key_len lm s).
  { split.
    - intros F k a I. specialize (F _ I). cbn [fst] in F. apply andb_true_iff in F as [F1 F2]. split; [|split].
      + intros x y d ->. rewrite as_u32_small in F1 by apply KL. apply negb_true_iff, Z.ltb_ge in F1. exact F1.
      + intros v l G. rewrite G in F2. rewrite as_u32_small in F2 by apply EL. apply negb_true_iff, Z.ltb_ge in F2. exact F2.
      + intros w l G. rewrite G in F2. rewrite as_u32_small in F2 by apply EL. apply negb_true_iff, Z.ltb_ge in F2. exact F2.
    - intros F [k a] I. destruct (F k a I) as (A1 & A2 & A3). cbn [fst]. apply andb_true_iff. split.
      + destruct k; try reflexivity. rewrite as_u32_small by apply KL. apply negb_true_iff, Z.ltb_ge. eapply A1. reflexivity.
      + destruct (get_from_map (st_map s) k) as [[[v|w| | |] l]|]; try reflexivity; rewrite as_u32_small by apply EL;
          apply negb_true_iff, Z.ltb_ge; [eapply A2|eapply A3]; reflexivity. }
  rewrite B. tauto.
Qed.
Print Assumptions C76_limits.

(* ------------------------------------------------------------ the price *)

(* The estimate is the sum of its parts.  It is the fee of the network for a
   transaction of these resources, without the fee for its size, with the rent and
   with the fee for reading an entry for each entry that is written. *)
Theorem C76_estimated_fee : forall u fc rent_1kb pd td, ok_fees fc -> ufits u -> 0 <= rent_1kb ->
  let e := estimate_fees u fc rent_1kb pd td in
  let network := compute_transaction_resource_fee (as_transaction u) fc in
  es_total e < i64_max -> fst network < i64_max ->
  es_total e = es_insns e + es_disk_n e + es_write_n e + es_disk_b e + es_write_b e + es_events e + es_p_rent e + es_t_rent e
  /\ es_total e = fst network + snd network - compute_fee_per_increment 300 (f_historical_1kb fc) 1024
                  + f_disk_read_entry fc * u_write_n u + es_p_rent e + es_t_rent e.
Proof. intros u fc rr pd td FC UF RR e network T N. exact (estimate_total fc FC u rr pd td UF RR T N). Qed.
Print Assumptions C76_estimated_fee.

(* Rent of data entries: the network charges the estimate or more, but no more than
   the rent of the added bytes for one ledger, and two per entry, above it. *)
Theorem C76_estimated_rent : forall cd c rc fc d l u, ok_fees fc -> rates_ok rc d -> 0 < li_seq (sc_li c) <= u32_max ->
  charged_all cd c rc d l -> ufits u -> by_dur d (u_p_rent u) (u_t_rent u) = rents cd c l -> rents cd c l * c_rent_1kb rc <= i64_max ->
  let e := estimate_fees u fc (c_rent_1kb rc) (c_persistent_denom rc) (c_temporary_denom rc) in
  let rent := by_dur d (es_p_rent e) (es_t_rent e) - ttl_writes fc (by_dur d (u_p_bumps u) (u_t_bumps u)) in
  by_dur d (es_p_rent e) (es_t_rent e) < i64_max ->
  rent <= network_rent cd c rc l
  <= rent + div_ceil (added cd c l * c_rent_1kb rc) (1024 * by_dur d (c_persistent_denom rc) (c_temporary_denom rc)) + 2 * Z.of_nat (length l).
Proof.
  intros cd c rc fc d l u FC RC SEQ CA UF RS F e rent T.
  assert (RP : 0 <= rents cd c l). { rewrite <- RS. unfold ufits, fits64 in UF. destruct d; cbn; lia. }
  pose proof (rent_bounds cd c SEQ rc d RC l CA RP F) as RB. cbn zeta in RB.
  assert (RE : rent = compute_fee_per_increment (rents cd c l) (c_rent_1kb rc)
                 (sat_i64 (DATA_SIZE_1KB_INCREMENT * by_dur d (c_persistent_denom rc) (c_temporary_denom rc)))).
  { unfold rent, e in *. assert (B : 0 <= u_p_bumps u /\ 0 <= u_t_bumps u) by (unfold ufits, fits32 in UF; lia).
    assert (G : forall den n, 0 <= n -> rent_part fc (rents cd c l) (c_rent_1kb rc) den n < i64_max ->
       rent_part fc (rents cd c l) (c_rent_1kb rc) den n
       = compute_fee_per_increment (rents cd c l) (c_rent_1kb rc) (sat_i64 (DATA_SIZE_1KB_INCREMENT * den)) + ttl_writes fc n).
    { intros den n N L. unfold rent_part in *. apply sat_below; [|exact L]. apply Z.add_nonneg_nonneg; [|apply ttl_nonneg; assumption].
      apply fpi_nonneg; [exact RP|apply RC]. }
    destruct d; cbn [by_dur es_p_rent es_t_rent estimate_fees] in *; rewrite RS in *; rewrite (G _ _) by (tauto || exact T); ring. }
  rewrite RE. exact RB.
Qed.
Print Assumptions C76_estimated_rent.

(* Entries counted as extended: those that live longer and those that grew in time
   already paid. *)
Theorem C76_bumps : forall cd c k o e l, charged cd c k o (Some (e, Some l)) -> 0 < size_of cd k (@Some lentry (e, Some l)) ->
  0 < rent_of cd c k o (Some (e, Some l))
  <-> paid_until c o < l \/ (li_seq (sc_li c) < paid_until c o /\ size_of cd k o < size_of cd k (@Some lentry (e, Some l))).
Proof.
  intros cd c k o e l (S1 & S2 & NS & _) P. cbn [rent_of shortened] in *.
  change (@Some (entry * option Z) (e, Some l)) with (@Some lentry (e, Some l)) in *.
  set (n := size_of cd k (@Some lentry (e, Some l))) in *. set (m := size_of cd k o) in *.
  assert (PG : li_seq (sc_li c) <= paid_until c o) by (destruct o as [[e0 [l0|]]|]; cbn; lia).
  set (p := paid_until c o) in *. set (q := li_seq (sc_li c)) in *. clearbody n m p q. clear S1 S2.
  assert (A : 0 <= (p - q) * Z.max 0 (n - m)) by (apply Z.mul_nonneg_nonneg; lia).
  assert (B : 0 <= (l - p) * n) by (apply Z.mul_nonneg_nonneg; lia).
  split.
  - intros R. destruct (Z.lt_ge_cases p l); [auto|]. right. replace l with p in * by lia. rewrite Z.sub_diag, Z.mul_0_l in R.
    destruct (Z.lt_ge_cases q p); [|replace q with p in R by lia; rewrite Z.sub_diag, Z.mul_0_l in R; lia].
    split; [lia|]. destruct (Z.lt_ge_cases m n); [lia|]. rewrite Z.max_l in R by lia. lia.
  - intros [X|[X Y]].
    + pose proof (Z.mul_pos_pos (l - p) n ltac:(lia) P). lia.
    + pose proof (Z.mul_pos_pos (p - q) (Z.max 0 (n - m)) ltac:(lia) ltac:(lia)). lia.
Qed.
Print Assumptions C76_bumps.

(* The whole rent, when as many entries are reported as extended as were. *)
Theorem C76_estimated_rent_fee : forall cd c rc fc d l u, ok_fees fc -> ok_rent rc -> rates_ok rc d -> 0 < li_seq (sc_li c) <= u32_max ->
  c_write_entry rc = f_write_entry fc -> c_write_1kb rc = f_write_1kb fc ->
  charged_all cd c rc d l -> ufits u -> by_dur d (u_p_rent u) (u_t_rent u) = rents cd c l -> rents cd c l * c_rent_1kb rc <= i64_max ->
  let es := map (fun '(k, o, o') => network_change cd (sc_li c) k o o') l in
  by_dur d (u_p_bumps u) (u_t_bumps u) = Z.of_nat (length (filter (fun e => e_old_live e <? e_new_live e) es)) ->
  48 * by_dur d (u_p_bumps u) (u_t_bumps u) <= u32_max ->
  let e := estimate_fees u fc (c_rent_1kb rc) (c_persistent_denom rc) (c_temporary_denom rc) in
  let estimate := by_dur d (es_p_rent e) (es_t_rent e) in
  let network := compute_rent_fee es rc (li_seq (sc_li c)) in
  estimate < i64_max -> network < i64_max ->
  estimate <= network
  <= estimate + div_ceil (added cd c l * c_rent_1kb rc) (1024 * by_dur d (c_persistent_denom rc) (c_temporary_denom rc)) + 2 * Z.of_nat (length l).
Proof.
  intros cd c rc fc d l u FC OR RC SEQ WE WB CA UF RS F es BU B48 e estimate network T N.
  pose proof (C76_estimated_rent cd c rc fc d l u FC RC SEQ CA UF RS F T) as X. fold e in X. fold estimate in X.
  set (n := by_dur d (u_p_bumps u) (u_t_bumps u)) in *.
  assert (OC : Forall ok_change es).
  { unfold es. apply Forall_map. eapply Forall_impl; [|exact CA]. intros [[k o] o'] (((_ & A1 & _ & A2) & (_ & B1 & _ & B2) & _) & _).
    assert (I : i32_max <= u32_max) by (unfold i32_max, u32_max; lia). unfold fits32 in *.
    unfold ok_change, in_u32, network_change. cbn [e_old_size e_new_size e_old_live e_new_live].
    destruct (gone (sc_li c) o), o as [[e0 [l0|]]|], o' as [[e1 [l1|]]|]; repeat split; lia. }
  assert (CE : count_ext es = n).
  { rewrite BU. clearbody es. clear. induction es as [|x r IH]; [reflexivity|]. cbn [count_ext filter]. rewrite IH.
    destruct (e_old_live x <? e_new_live x); cbn [length]; lia. }
  assert (SF : sum_fee es rc (li_seq (sc_li c)) = network_rent cd c rc l).
  { unfold es, network_rent. clear. induction l as [|[[k o] o'] l IH]; [reflexivity|]. cbn [map sum_fee zsum]. rewrite IH. reflexivity. }
  unfold network in *. rewrite (compute_rent_fee_eq es rc _ OR OC), CE, SF in *.
  assert (NN : 0 <= n) by (rewrite BU; lia).
  assert (TW : ttl_write_fee n rc = ttl_writes fc n \/ i64_max <= ttl_write_fee n rc).
  { unfold ttl_write_fee, ttl_writes. rewrite WE, WB. unfold TTL_ENTRY_SIZE.
    assert (W : 0 <= f_write_entry fc /\ 0 <= f_write_1kb fc) by (unfold ok_fees, rate in FC; lia).
    assert (P : 0 <= f_write_entry fc * n) by (apply Z.mul_nonneg_nonneg; lia).
    assert (NM : Z.min M n = n) by (unfold M, i64_max, u32_max in *; lia). rewrite NM, (Z.min_r _ _ B48).
    rewrite (sat_id (48 * n)) by (unfold i64_min, i64_max, u32_max in *; lia).
    rewrite (sat_nonneg (f_write_entry fc * n)) by exact P.
    change DATA_SIZE_1KB_INCREMENT with 1024. pose proof (fpi_nonneg (48 * n) (f_write_1kb fc) 1024 ltac:(lia) (proj2 W)) as FP.
    set (x := Z.min M (f_write_entry fc * n)) in *. set (y := compute_fee_per_increment (48 * n) (f_write_1kb fc) 1024) in *.
    assert (XP : 0 <= x) by (unfold x; pose proof M_pos; lia). clearbody x y.
    rewrite sat_nonneg by lia. unfold M. lia. }
  assert (NP : 0 <= network_rent cd c rc l) by (rewrite <- SF; apply sum_fee_nonneg; assumption).
  assert (TP : 0 <= ttl_write_fee n rc) by (apply ttl_write_nonneg; assumption).
  unfold M in *. destruct TW as [TW|TW]; lia.
Qed.
Print Assumptions C76_estimated_rent_fee.

(* ------------------------------------------------------------ examples and findings *)

(* storage steps as work of the host, ten instructions each *)
Definition do_op (c : sconf) (op : sop) (h : mhost) : mhost :=
  {| mh_insns := mh_insns h + 10; mh_mem := mh_mem h; mh_store := fst (sstep c (mh_store h) op); mh_events := mh_events h |}.
Fixpoint do_ops (c : sconf) (l : list sop) (k : @mprog mhost) : @mprog mhost :=
  match l with [] => k | op :: r => MWork (do_op c op) (do_ops c r k) end.
(* every step succeeds *)
Fixpoint all_succeed (c : sconf) (s : storage) (l : list sop) : Prop :=
  match l with [] => True | op :: r => (exists x, snd (sstep c s op) = Ok x) /\ all_succeed c (fst (sstep c s op)) r end.

Definition cd_ex : codec := {| entry_len := fun _ e => match e with EData (SU32 x) => 40 + x | _ => 200 end; code_cost := fun _ => 1000 |}.
Definition li_ex : linfo := {| li_seq := 100; li_min_temp := 16; li_min_persistent := 50; li_max_ttl := 1000 |}.
Definition k_ex : lkey := LKData (AContract [1]) (SU32 7) Temporary.
Definition p_ex : lkey := LKData (AContract [1]) (SU32 8) Persistent.
Definition a_ex : lkey := LKAccount [9].
Definition src_ex (k : lkey) : option lentry :=
  if lkey_eq_dec k k_ex then Some (EData (SU32 1), Some 500)
  else if lkey_eq_dec k p_ex then Some (EData (SU32 2), Some 90)          (* archived *)
  else if lkey_eq_dec k a_ex then Some (EAccount [], None) else None.
Definition c_ex : sconf := {| sc_li := li_ex; sc_mode := Recording src_ex; sc_recording_build := true |}.
(* storage that has looked at these entries, and one that has not *)
Definition warm : mhost :=
  {| mh_insns := 5; mh_mem := 6; mh_events := [70];
     mh_store := {| st_foot := [];
                    st_map := [(k_ex, src_ex k_ex); (p_ex, src_ex p_ex); (a_ex, src_ex a_ex)] |} |}.
Definition cold : mhost :=
  {| mh_insns := 5; mh_mem := 6; mh_events := [70]; mh_store := {| st_foot := []; st_map := [] |} |}.
Definition inv_a : minv := InvokeContract (AContract [1]) [97].
Definition inv_b : minv := InvokeContract (AContract [2]) [98].
Definition free : usage -> mhost -> bool := fun _ _ => true.

(* A call restores an archived entry, lets a contract read an account, and writes. *)
Definition body_ex : @mprog mhost :=
  MWork (do_op c_ex (SGet p_ex))
    (MScope inv_b (MWork (do_op c_ex (SGet a_ex)) (MScope inv_b (MWork (do_op c_ex (SGet k_ex)) MEnd) MEnd))
      (MWork (do_op c_ex (SPut k_ex (EData (SU32 11)) (Some 600))) MEnd)).
Example C76_tree_example :
  match run reset mh_store (observe cd_ex c_ex) free (idle None None) warm (MScope inv_a body_ex MEnd) with
  | Some (m, _) => mt_report m =
      Some (MT inv_a {| u_insns := 40; u_mem := 0; u_disk_n := 2; u_mem_n := 1; u_write_n := 2; u_disk_b := 242; u_write_b := 93;
                        u_events := 0; u_p_rent := 49 * 42; u_p_bumps := 1; u_t_rent := 400 * 10 + 100 * 51; u_t_bumps := 1 |}
              [MT inv_b {| u_insns := 20; u_mem := 0; u_disk_n := 1; u_mem_n := 1; u_write_n := 0; u_disk_b := 200; u_write_b := 0;
                           u_events := 0; u_p_rent := 0; u_p_bumps := 0; u_t_rent := 0; u_t_bumps := 0 |} []])
  | None => False
  end.
Proof. vm_compute. reflexivity. Qed.
(* the hypotheses of C76_report_is_exact hold of it *)
Example C76_report_example :
  li_ok (sc_li c_ex) /\ (exists src, sc_mode c_ex = Recording src)
  /\ exists h1 subs, let start := mh_store (reset warm) in
    calls (observe cd_ex c_ex) start inv_a body_ex (reset warm) = Some (h1, subs) /\ length subs = 1%nat
    /\ supported h1 /\ small cd_ex c_ex start h1
    /\ Forall (fun p => ~ shortened c_ex (get_from_map (st_map start) (fst p)) (view c_ex (mh_store h1) (fst p))) (st_foot (mh_store h1))
    /\ ufits (used cd_ex c_ex start h1) /\ u_t_rent (used cd_ex c_ex start h1) = 9100.
Proof.
  split; [unfold li_ok; cbn; unfold u32_max; lia|]. split; [eexists; reflexivity|].
  destruct (calls (observe cd_ex c_ex) (mh_store (reset warm)) inv_a body_ex (reset warm)) as [[h1 subs]|] eqn:E; [|vm_compute in E; discriminate E].
  exists h1, subs. vm_compute in E. injection E as <- <-. cbn zeta. split; [reflexivity|]. split; [reflexivity|].
  split; [repeat constructor|]. split; [|split; [|split]].
  - split; [|split; [constructor|split; unfold fits64, i64_max; cbn; lia]].
    repeat constructor; vm_compute; repeat split; discriminate.
  - repeat (apply Forall_cons; [vm_compute; (discriminate || auto)|]). apply Forall_nil.
  - unfold ufits, fits32, fits64. vm_compute. repeat split; discriminate.
  - reflexivity.
Qed.
Example C76_dated_example : forall h, (h = warm \/ h = cold) -> dated c_ex (mh_store h).
Proof.
  intros h C k e l E.
  assert (X : src_ex k = Some (e, l)).
  { destruct C as [-> | ->]; [|exact E]. unfold held in E. cbn [mh_store warm st_map] in E.
    unfold mget in E. cbn [aget] in E.
    destruct (lkey_eq_dec k k_ex) as [->|N1]; [exact E|]. destruct (lkey_eq_dec k p_ex) as [->|N2]; [exact E|].
    destruct (lkey_eq_dec k a_ex) as [->|N3]; exact E. }
  unfold src_ex in X.
  destruct (lkey_eq_dec k k_ex) as [->|N1]; [injection X as <- <-; cbn; split; discriminate|].
  destruct (lkey_eq_dec k p_ex) as [->|N2]; [injection X as <- <-; cbn; split; discriminate|].
  destruct (lkey_eq_dec k a_ex) as [->|N3]; [|discriminate]. injection X as <- <-. cbn. split; intros Q; now exfalso; apply Q.
Qed.

(* Metering does not change whether an invocation completes: false.  An entry that
   is deleted and written again lives shorter than before; the meter then
   subtracts live-until ledgers below zero. *)
Theorem C76_metering_completes_refuted : ~ (forall cd c h i ops,
  li_ok (sc_li c) -> (exists src, sc_mode c = Recording src) -> dated c (mh_store h) ->
  all_succeed c (mh_store h) ops ->
  exists x, run reset mh_store (observe cd c) free (idle None None) h (MScope i (do_ops c ops MEnd) MEnd) = Some x).
Proof.
  intros A. destruct (A cd_ex c_ex warm inv_a [SDel k_ex; SPut k_ex (EData (SU32 3)) (Some (100 + 16 - 1))]) as (x & X).
  - unfold li_ok; cbn; unfold u32_max; lia.
  - eexists; reflexivity.
  - apply C76_dated_example. auto.
  - cbn. split; [eexists; vm_compute; reflexivity|]. split; [eexists; vm_compute; reflexivity|exact I].
  - vm_compute in X. discriminate X.
Qed.
Print Assumptions C76_metering_completes_refuted.

(* An invocation that only reads entries that are alive on the ledger is reported
   with no rent: false unless storage has looked at them before. *)
Theorem C76_reading_costs_nothing_refuted : ~ (forall cd c h i k m h',
  li_ok (sc_li c) -> (exists src, sc_mode c = Recording src) -> dated c (mh_store h) ->
  gone (sc_li c) (held c (mh_store h) k) = false ->
  run reset mh_store (observe cd c) free (idle None None) h (MScope i (do_ops c [SGet k] MEnd) MEnd) = Some (m, h') ->
  match mt_report m with Some t => u_t_rent (mt_use t) = 0 | None => False end).
Proof.
  intros A.
  destruct (run reset mh_store (observe cd_ex c_ex) free (idle None None) cold (MScope inv_a (do_ops c_ex [SGet k_ex] MEnd) MEnd)) as [[m h']|] eqn:E;
    [|vm_compute in E; discriminate E].
  specialize (A cd_ex c_ex cold inv_a k_ex m h'). vm_compute in E. injection E as <- <-.
  assert (B : 400 * 41 = 0).
  { apply A; [unfold li_ok; cbn; unfold u32_max; lia|eexists; reflexivity|apply C76_dated_example; auto|reflexivity|vm_compute; reflexivity]. }
  discriminate B.
Qed.
Print Assumptions C76_reading_costs_nothing_refuted.

(* The same with the storage that knows the entry. *)
Example C76_reading_example :
  match run reset mh_store (observe cd_ex c_ex) free (idle None None) warm (MScope inv_a (do_ops c_ex [SGet k_ex] MEnd) MEnd) with
  | Some (m, _) => option_map (fun t => (u_t_rent (mt_use t), u_mem_n (mt_use t), u_insns (mt_use t))) (mt_report m) = Some (0, 1, 10)
  | None => False
  end.
Proof. vm_compute. reflexivity. Qed.

Definition fc_ex : fee_config :=
  {| f_instruction_increment := 25; f_disk_read_entry := 6250; f_write_entry := 10000; f_disk_read_1kb := 1786; f_write_1kb := 3500;
     f_historical_1kb := 16235; f_event_1kb := 10000; f_tx_size_1kb := 1624 |}.
Definition rc_ex : rent_config :=
  {| c_write_1kb := 3500; c_rent_1kb := 1000000; c_write_entry := 10000; c_persistent_denom := 1402; c_temporary_denom := 2804 |}.
Definition u_ex : usage :=
  {| u_insns := 1000001; u_mem := 5; u_disk_n := 2; u_mem_n := 1; u_write_n := 3; u_disk_b := 242; u_write_b := 93; u_events := 80;
     u_p_rent := 49 * 42; u_p_bumps := 1; u_t_rent := 9100; u_t_bumps := 1 |}.
(* the estimate is above the fee of the network by three entries read *)
Example C76_estimate_example :
  let e := estimate_fees u_ex fc_ex 1000000 1402 2804 in
  let n := compute_transaction_resource_fee (as_transaction u_ex) fc_ex in
  (es_total e, fst n, snd n, es_p_rent e, es_t_rent e) = (90208, 50499, 782, 11599, 13335)
  /\ es_total e - es_p_rent e - es_t_rent e - 3 * 6250 = 50499 + 782 - 4757
  /\ ok_fees fc_ex /\ ufits u_ex.
Proof.
  split; [vm_compute; reflexivity|]. split; [vm_compute; reflexivity|].
  split; [unfold ok_fees, rate; cbn; unfold i64_max; lia|unfold ufits, fits32, fits64; cbn; unfold i64_max, i32_max; lia].
Qed.
Definition l_ex : changes := [(k_ex, Some (EData (SU32 1), Some 500), Some (EData (SU32 11), Some 600)); (k_ex, None, Some (EData (SU32 5), Some 115))].
Example C76_rent_example :
  charged_all cd_ex c_ex rc_ex Temporary l_ex /\ rates_ok rc_ex Temporary
  /\ (rents cd_ex c_ex l_ex, added cd_ex c_ex l_ex, network_rent cd_ex c_ex rc_ex l_ex) = (9775, 55, 3425).
Proof.
  split; [|split; [unfold rates_ok; cbn; unfold i64_max; lia|vm_compute; reflexivity]].
  unfold l_ex, charged_all. repeat apply Forall_cons; [| |apply Forall_nil];
    (split; [|split; [reflexivity|split; [reflexivity|vm_compute; discriminate]]]).
  - split; [vm_compute; repeat split; discriminate|]. split; [vm_compute; repeat split; discriminate|]. split; [vm_compute; discriminate|].
    do 2 eexists. split; [reflexivity|]. vm_compute. discriminate.
  - split; [vm_compute; repeat split; discriminate|]. split; [vm_compute; repeat split; discriminate|]. split; [vm_compute; discriminate|].
    do 2 eexists. split; [reflexivity|]. vm_compute. discriminate.
Qed.
Example C76_rent_fee_example :
  let es := map (fun '(k, o, o') => network_change cd_ex (sc_li c_ex) k o o') l_ex in
  ok_rent rc_ex /\ length (filter (fun e => e_old_live e <? e_new_live e) es) = 2%nat
  /\ compute_rent_fee es rc_ex 100 = 23754
  /\ es_t_rent (estimate_fees {| u_insns := 0; u_mem := 0; u_disk_n := 0; u_mem_n := 2; u_write_n := 2; u_disk_b := 0; u_write_b := 0; u_events := 0;
       u_p_rent := 0; u_p_bumps := 0; u_t_rent := 9775; u_t_bumps := 2 |} fc_ex 1000000 1402 2804) = 23734.
Proof. cbn zeta. split; [unfold ok_rent, rate; cbn; unfold i64_max; lia|]. vm_compute. auto. Qed.
Definition lm_ex : limits :=
  {| lm_insns := 100; lm_mem := 100; lm_disk_n := 2; lm_write_n := 2; lm_entries := 5; lm_disk_b := 242; lm_write_b := 93; lm_events := 0;
     lm_key := 30; lm_data := 60; lm_code := 10 |}.
(* limits that are just enough, and too little *)
Example C76_limits_example :
  (exists x, run reset mh_store (observe cd_ex c_ex) (fun u h => within_limits cd_ex (fun _ => 30) lm_ex u (mh_store h)) (idle None None) warm (MScope inv_a body_ex MEnd) = Some x)
  /\ run reset mh_store (observe cd_ex c_ex) (fun u h => within_limits cd_ex (fun _ => 31) lm_ex u (mh_store h)) (idle None None) warm (MScope inv_a body_ex MEnd) = None.
Proof. split; [eexists|]; vm_compute; reflexivity. Qed.
