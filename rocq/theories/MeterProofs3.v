(* What the reported resources cost. *)
From Coq Require Import ZArith Lia List Bool.
From Verif Require Import Prelude ValModel ContainerModel HeapModel AMap StorageModel StorageSpec FeesModel FeesSpec FeesProofs FrameModel E2EModel
  MeterModel MeterSpec MeterProofs MeterProofs2.
Import ListNotations.
Open Scope Z_scope.
Ltac Zify.zify_post_hook ::= idtac.

Lemma sat_below x : 0 <= x -> sat_i64 x < i64_max -> sat_i64 x = x.
Proof. intros P L. rewrite sat_nonneg in * by exact P. unfold M in *. lia. Qed.
Lemma sat_ge0 x : 0 <= x -> 0 <= sat_i64 x <= i64_max /\ sat_i64 x <= x.
Proof. intros P. rewrite sat_nonneg by exact P. pose proof M_pos. unfold M in *. lia. Qed.
(* unsaturated sums *)
Lemma sat_sum a b : 0 <= a -> 0 <= b -> sat_i64 (a + b) < i64_max -> sat_i64 (a + b) = a + b /\ a < i64_max /\ b < i64_max.
Proof. intros A B L. rewrite (sat_below (a + b)) in * by lia. lia. Qed.

Section Estimate.
  Variable fc : fee_config.
  Hypothesis FC : ok_fees fc.

  Lemma ttl_nonneg n : 0 <= n -> 0 <= ttl_writes fc n.
  Proof.
    intros N. destruct FC as (_ & _ & (W & _) & _ & (W1 & _) & _). unfold ttl_writes. apply sat_ge0.
    pose proof (proj1 (proj1 (sat_ge0 (f_write_entry fc * n) ltac:(nia)))).
    assert (T : 0 <= TTL_ENTRY_SIZE * n) by (unfold TTL_ENTRY_SIZE; lia).
    pose proof (proj1 (fpi_nonneg (sat_i64 (TTL_ENTRY_SIZE * n)) (f_write_1kb fc) DATA_SIZE_1KB_INCREMENT (proj1 (proj1 (sat_ge0 _ T))) W1)). lia.
  Qed.
  Lemma rent_part_nonneg b r d n : 0 <= b -> 0 <= r -> 0 <= n -> 0 <= rent_part fc b r d n.
  Proof.
    intros B R N. unfold rent_part. apply sat_ge0.
    pose proof (proj1 (fpi_nonneg b r (sat_i64 (DATA_SIZE_1KB_INCREMENT * d)) B R)). pose proof (ttl_nonneg n N). lia.
  Qed.

  Lemma estimate_total u rr pd td : ufits u -> 0 <= rr ->
    es_total (estimate_fees u fc rr pd td) < i64_max -> fst (compute_transaction_resource_fee (as_transaction u) fc) < i64_max ->
    let e := estimate_fees u fc rr pd td in
    let net := compute_transaction_resource_fee (as_transaction u) fc in
    es_total e = es_insns e + es_disk_n e + es_write_n e + es_disk_b e + es_write_b e + es_events e + es_p_rent e + es_t_rent e
    /\ es_total e = fst net + snd net - compute_fee_per_increment 300 (f_historical_1kb fc) DATA_SIZE_1KB_INCREMENT
                    + f_disk_read_entry fc * u_write_n u + es_p_rent e + es_t_rent e.
  Proof.
    intros UF RR. unfold estimate_fees, compute_transaction_resource_fee, as_transaction.
    cbn [es_total es_insns es_disk_n es_write_n es_disk_b es_write_b es_events es_p_rent es_t_rent r_instructions r_disk_read_entries r_write_entries r_disk_read_bytes r_write_bytes r_events_size r_tx_size fst snd].
    unfold ufits, fits32, fits64 in UF. destruct UF as (U1 & U2 & U3 & U4 & U5 & U6 & U7 & U8 & U9 & U10 & U11 & U12).
    destruct FC as ((F1 & _) & (F2 & _) & (F3 & _) & (F4 & _) & (F5 & _) & (F6 & _) & (F7 & _) & (F8 & _)).
    pose proof (proj1 (fpi_nonneg (u_insns u) _ INSTRUCTIONS_INCREMENT (proj1 U1) F1)) as A1.
    pose proof (proj1 (fpi_nonneg (u_disk_b u) _ DATA_SIZE_1KB_INCREMENT (proj1 U6) F4)) as A4.
    pose proof (proj1 (fpi_nonneg (u_write_b u) _ DATA_SIZE_1KB_INCREMENT (proj1 U7) F5)) as A5.
    pose proof (proj1 (fpi_nonneg (u_events u) _ DATA_SIZE_1KB_INCREMENT (proj1 U8) F7)) as A7.
    pose proof (rent_part_nonneg (u_p_rent u) rr pd (u_p_bumps u) (proj1 U9) RR (proj1 U10)) as A8.
    pose proof (rent_part_nonneg (u_t_rent u) rr td (u_t_bumps u) (proj1 U11) RR (proj1 U12)) as A9.
    replace (sat_u32 (0 + TX_BASE_RESULT_SIZE)) with 300 by reflexivity.
    pose proof (proj1 (fpi_nonneg 300 _ DATA_SIZE_1KB_INCREMENT ltac:(lia) F6)) as A6.
    replace (compute_fee_per_increment 0 (f_tx_size_1kb fc) DATA_SIZE_1KB_INCREMENT) with 0 by reflexivity.
    assert (SU : sat_u32 (u_disk_n u + u_write_n u) = u_disk_n u + u_write_n u) by (unfold sat_u32, clamp, u32_max, i32_max in *; lia).
    rewrite SU.
    assert (P2 : 0 <= f_disk_read_entry fc * u_disk_n u) by (apply Z.mul_nonneg_nonneg; lia).
    assert (P2' : 0 <= f_disk_read_entry fc * u_write_n u) by (apply Z.mul_nonneg_nonneg; lia).
    assert (P3 : 0 <= f_write_entry fc * u_write_n u) by (apply Z.mul_nonneg_nonneg; lia).
    rewrite Z.mul_add_distr_l.
    set (x1 := compute_fee_per_increment (u_insns u) _ _) in *. set (x4 := compute_fee_per_increment (u_disk_b u) _ _) in *.
    set (x5 := compute_fee_per_increment (u_write_b u) _ _) in *. set (x7 := compute_fee_per_increment (u_events u) _ _) in *.
    set (x6 := compute_fee_per_increment 300 _ _) in *. set (x8 := rent_part _ _ _ pd _) in *. set (x9 := rent_part _ _ _ td _) in *.
    set (d := f_disk_read_entry fc * u_disk_n u) in *. set (d' := f_disk_read_entry fc * u_write_n u) in *. set (w := f_write_entry fc * u_write_n u) in *.
    clearbody x1 x4 x5 x6 x7 x8 x9 d d' w.
    pose proof (proj1 (proj1 (sat_ge0 (d + d') ltac:(lia)))) as D1. pose proof (proj1 (proj1 (sat_ge0 d P2))) as D2. pose proof (proj1 (proj1 (sat_ge0 w P3))) as D3.
    assert (G : forall a b, 0 <= a -> 0 <= b -> 0 <= sat_i64 (a + b)) by (intros a b Ha Hb; apply sat_ge0; lia).
    intros T N.
    apply sat_sum in T as (T8 & T & _); [|repeat apply G; assumption|assumption].
    apply sat_sum in T as (T7 & T & _); [|repeat apply G; assumption|assumption].
    apply sat_sum in T as (T6 & T & _); [|repeat apply G; assumption|assumption].
    apply sat_sum in T as (T5 & T & _); [|repeat apply G; assumption|assumption].
    apply sat_sum in T as (T4 & T & _); [|repeat apply G; assumption|assumption].
    apply sat_sum in T as (T3 & T & W3); [|repeat apply G; assumption|assumption].
    apply sat_sum in T as (T2 & T & W2); [|assumption|assumption].
    apply sat_sum in N as (N7 & N & _); [|repeat apply G; assumption|lia].
    apply sat_sum in N as (N6 & N & _); [|repeat apply G; assumption|assumption].
    apply sat_sum in N as (N5 & N & _); [|repeat apply G; assumption|assumption].
    apply sat_sum in N as (N4 & N & _); [|repeat apply G; assumption|assumption].
    apply sat_sum in N as (N3 & N & _); [|repeat apply G; assumption|assumption].
    apply sat_sum in N as (N2 & N & M2); [|assumption|assumption].
    rewrite (sat_below _ P3 W3) in *. rewrite (sat_below _ P2 M2) in *. rewrite (sat_below (d + d') ltac:(lia) W2) in *.
    rewrite T8, T7, T6, T5, T4, T3, T2, N7, N6, N5, N4, N3, N2. lia.
  Qed.
End Estimate.

(* ------------------------------------------------------------ rent *)

Section Rent.
  Variable cd : codec.
  Variable c : sconf.
  Let li := sc_li c.
  Let seq := li_seq li.
  Hypothesis SEQ : 0 < seq <= u32_max.

  Local Notation charged := (charged cd c).
  Lemma ledger_bytes_spec k o o' : charged k o o' ->
    ledger_bytes (network_change cd li k o o') seq = rent_of cd c k o o' + bytes_added (network_change cd li k o o').
  Proof.
    intros (S1 & S2 & NS & e & l & -> & LV).
    destruct S1 as (_ & A1 & _ & A2), S2 as (_ & B1 & _ & B2). cbn in B2. cbn [shortened] in NS.
    set (n := size_of cd k (@Some lentry (e, Some l))) in *. unfold fits32 in *.
    unfold ledger_bytes, bytes_added, extension_ledgers, prepaid_ledgers, size_increase, entry_is_new, network_change, exclusive_ledger_diff, inclusive_ledger_diff.
    cbn [e_old_size e_new_size e_old_live e_new_live rent_of]. fold n. fold li. fold seq. fold seq in NS.
    assert (I : i32_max <= u32_max) by (unfold i32_max, u32_max; lia). unfold chk_u32.
    destruct (gone li o) eqn:GO.
    - assert (PU : paid_until c o = seq).
      { destruct o as [[e0 [l0|]]|]; cbn in *; fold li; fold seq; try reflexivity. fold seq in GO. destruct (Z.ltb_spec l0 seq); [lia|discriminate]. }
      rewrite PU. cbn [Z.eqb andb].
      assert (SU : sat_u32 (seq - 1) = seq - 1) by (unfold sat_u32, clamp; lia). rewrite SU, chk_in by lia.
      fold n. rewrite (Z.max_r 0 (n - 0)) by lia. ring.
    - destruct o as [[e0 [l0|]]|]; cbn [gone] in GO; try discriminate. fold seq in GO. destruct (Z.ltb_spec l0 seq) as [|L0]; [discriminate|].
      assert (PU : paid_until c (@Some lentry (e0, Some l0)) = l0) by (cbn; fold li; fold seq; lia).
      set (m := size_of cd k (@Some lentry (e0, Some l0))) in *. rewrite PU in *. cbn in A2.
      assert (E0 : (l0 =? 0) = false) by (apply Z.eqb_neq; lia). rewrite E0, andb_false_r.
      rewrite chk_in by lia. fold n. unfold exclusive_ledger_diff, chk_u32. rewrite (chk_in 0 u32_max (l0 - seq)) by lia. cbn [option_map].
      assert (SU : sat_u32 (l0 - seq + 1) = l0 - seq + 1) by (unfold sat_u32, clamp; lia). rewrite SU.
      destruct (Z.le_gt_cases m n) as [G|G].
      + rewrite chk_in by lia. fold m. rewrite Z.max_r by lia. ring.
      + assert (CN : chk 0 u32_max (n - m) = None) by (unfold chk; destruct (Z.leb_spec 0 (n - m)); [lia|reflexivity]). rewrite CN.
        rewrite Z.max_l by lia. ring.
  Qed.

  (* what the network charges for one entry *)
  Variable rc : rent_config.
  Variable d : durability.
  Let den := DATA_SIZE_1KB_INCREMENT * by_dur d (c_persistent_denom rc) (c_temporary_denom rc).
  Let R := c_rent_1kb rc.
  Hypothesis RC : rates_ok rc d.

  Lemma den_pos : 0 < den <= i64_max /\ Z.max (sat_i64 den) 1 = den.
  Proof.
    destruct RC as (_ & B & L). assert (P : 0 < den) by (unfold den, DATA_SIZE_1KB_INCREMENT in *; lia).
    split; [lia|]. rewrite sat_id; [lia|]. unfold i64_min, i64_max in *. lia.
  Qed.
  Lemma size_fee n l : 0 <= n -> 0 <= l -> n * R * l <= i64_max -> n * R <= i64_max ->
    rent_fee_for_size_and_ledgers (match d with Persistent => true | Temporary => false end) n l rc = div_ceil (n * l * R) den.
  Proof.
    intros N L F F1. destruct den_pos as [_ E]. unfold rent_fee_for_size_and_ledgers.
    assert (Q : Z.max (sat_i64 (DATA_SIZE_1KB_INCREMENT * (if match d with Persistent => true | Temporary => false end then c_persistent_denom rc else c_temporary_denom rc))) 1 = den).
    { rewrite <- E. unfold den. destruct d; reflexivity. }
    rewrite Q. assert (P : 0 <= n * R) by (apply Z.mul_nonneg_nonneg; [exact N|apply RC]).
    assert (P2 : 0 <= n * R * l) by (apply Z.mul_nonneg_nonneg; assumption).
    fold R. rewrite (sat_id (n * R)) by (unfold i64_min, i64_max in *; lia). rewrite sat_id by (unfold i64_min, i64_max in *; lia).
    f_equal. ring.
  Qed.
  Lemma div_ceil_lt a : 0 <= a -> a <= div_ceil a den * den < a + den.
  Proof. intros A. destruct den_pos as [P _]. pose proof (div_ceil_spec a den (proj1 P)) as X. unfold ceil_quotient in X. lia. Qed.

  (* one entry: between its ledger-bytes and two more *)
  Lemma entry_fee k o o' : charged k o o' -> has_dur k d = true -> is_code k = false ->
    (ledger_bytes (network_change cd li k o o') seq + size_of cd k o') * R <= i64_max - 2 * den - 2 ->
    let b := ledger_bytes (network_change cd li k o o') seq in
    let fee := rent_fee_per_entry_change (network_change cd li k o o') rc seq in
    b * R <= fee * den < b * R + 2 * den.
  Proof.
    intros CH HD NC FT. pose proof (ledger_bytes_spec k o o' CH) as LB.
    destruct den_pos as [DP _]. destruct RC as (RP & _).
    assert (PS : e_persistent (network_change cd li k o o') = match d with Persistent => true | Temporary => false end).
    { cbn. unfold has_dur in *. destruct (key_durability k) as [[|]|], d; try discriminate HD; reflexivity. }
    assert (CO : e_code (network_change cd li k o o') = false) by exact NC.
    assert (SZ : 0 <= e_new_size (network_change cd li k o o') /\ e_new_size (network_change cd li k o o') = size_of cd k o').
    { cbn. destruct CH as (_ & (_ & X & _) & _). unfold fits32 in X. split; [lia|reflexivity]. }
    assert (OS : 0 <= e_old_size (network_change cd li k o o')).
    { cbn. destruct CH as ((_ & X & _) & _). unfold fits32 in X. destruct (gone li o); lia. }
    cbn zeta. unfold rent_fee_per_entry_change. unfold ledger_bytes in *. clear LB.
    set (e := network_change cd li k o o') in *. rewrite CO, PS. destruct SZ as [SZ1 SZ2]. rewrite <- SZ2 in FT. clear SZ2.
    assert (X1 : forall l, extension_ledgers e seq = Some l -> 0 <= l).
    { unfold extension_ledgers, exclusive_ledger_diff, chk_u32. intros l X. apply chk_some in X. lia. }
    assert (X2 : forall l, prepaid_ledgers e seq = Some l -> 0 <= l).
    { unfold prepaid_ledgers, inclusive_ledger_diff, exclusive_ledger_diff, chk_u32. intros l. destruct (entry_is_new e); [discriminate|].
      destruct (chk 0 u32_max (e_old_live e - seq)) as [x|] eqn:X; [|discriminate]. cbn. intros [= <-]. unfold sat_u32, clamp, u32_max. lia. }
    assert (X3 : forall x, size_increase e = Some x -> 0 <= x <= e_new_size e).
    { unfold size_increase, chk_u32. intros x X. apply chk_some in X. lia. }
    assert (IM : i64_max = 9223372036854775807) by reflexivity.
    assert (Y1 : forall n l, 0 <= n <= e_new_size e -> 0 <= l -> (n * l + n) * R <= i64_max -> 
       rent_fee_for_size_and_ledgers (match d with Persistent => true | Temporary => false end) n l rc = div_ceil (n * l * R) den
       /\ 0 <= div_ceil (n * l * R) den /\ n * l * R <= div_ceil (n * l * R) den * den < n * l * R + den).
    { intros n l N L F. assert (P : 0 <= n * l) by (apply Z.mul_nonneg_nonneg; lia).
      assert (P1 : 0 <= n * l * R) by (apply Z.mul_nonneg_nonneg; lia). assert (P2 : 0 <= n * R) by (apply Z.mul_nonneg_nonneg; lia).
      rewrite Z.mul_add_distr_r in F. split; [apply size_fee; [lia|lia| |lia]; replace (n * R * l) with (n * l * R) by ring; lia|].
      split; [apply div_ceil_nonneg; lia|apply div_ceil_lt; exact P1]. }
    assert (Z1 : forall x, 0 <= x -> x * den < i64_max -> x <= i64_max) by (intros x Hx Hd; nia).
    destruct (extension_ledgers e seq) as [l1|] eqn:E1; destruct (prepaid_ledgers e seq) as [l2|] eqn:E2; destruct (size_increase e) as [s2|] eqn:E3;
      try specialize (X1 _ eq_refl); try specialize (X2 _ eq_refl); try specialize (X3 _ eq_refl);
      try assert (Q1 : 0 <= l1 * e_new_size e) by (apply Z.mul_nonneg_nonneg; lia);
      try assert (Q2 : 0 <= l2 * s2) by (apply Z.mul_nonneg_nonneg; lia);
      try assert (Q1' : 0 <= l1 * e_new_size e * R) by (apply Z.mul_nonneg_nonneg; lia);
      try assert (Q2' : 0 <= l2 * s2 * R) by (apply Z.mul_nonneg_nonneg; lia);
      try assert (Q3 : s2 * R <= e_new_size e * R) by (apply Z.mul_le_mono_nonneg_r; lia);
      assert (Q4 : 0 <= e_new_size e * R) by (apply Z.mul_nonneg_nonneg; lia);
      rewrite ?Z.mul_add_distr_r in FT;
      try (destruct (Y1 (e_new_size e) l1 ltac:(lia) X1) as (R1 & N1 & B1); [rewrite Z.mul_add_distr_r; replace (e_new_size e * l1) with (l1 * e_new_size e) by ring; lia|]);
      try (destruct (Y1 s2 l2 ltac:(lia) X2) as (R2 & N2 & B2); [rewrite Z.mul_add_distr_r; replace (s2 * l2) with (l2 * s2) by ring; lia|]);
      try rewrite R1; try rewrite R2;
      try (replace (e_new_size e * l1 * R) with (l1 * e_new_size e * R) in * by ring);
      try (replace (s2 * l2 * R) with (l2 * s2 * R) in * by ring);
      try (set (f1 := div_ceil (l1 * e_new_size e * R) den) in *);
      try (set (f2 := div_ceil (l2 * s2 * R) den) in *);
      rewrite ?Z.add_0_l;
      try (rewrite (sat_id f1) by (pose proof (Z1 f1 N1 ltac:(lia)); unfold i64_min; lia));
      try (rewrite (sat_id (f1 + f2)) by (pose proof (Z1 (f1 + f2) ltac:(lia) ltac:(lia)); unfold i64_min; lia));
      try (rewrite (sat_id f2) by (pose proof (Z1 f2 N2 ltac:(lia)); unfold i64_min; lia));
      rewrite ?Z.mul_add_distr_r; lia.
  Qed.

  Local Notation rents := (rents cd c).
  Local Notation added := (added cd c).
  Local Notation network_rent := (network_rent cd c rc).
  Local Notation charged_all := (charged_all cd c rc d).
  Lemma network_sum l : charged_all l ->
    (rents l + added l) * R <= network_rent l * den <= (rents l + added l) * R + 2 * Z.of_nat (length l) * den.
  Proof.
    unfold rents, added, network_rent. induction 1 as [|[[k o] o'] l (A & B & C & F) _ IH]; [cbn; lia|].
    pose proof (entry_fee k o o' A B C F) as E. cbn zeta in E. rewrite (ledger_bytes_spec k o o' A) in E.
    cbn [map zsum length]. rewrite Nat2Z.inj_succ.
    set (x := rent_of cd c k o o') in *. set (y := bytes_added _) in *. set (z := rent_fee_per_entry_change _ _ _) in *.
    set (xs := zsum (map _ l)) in *. set (ys := zsum (map (fun '(k0, o0, o'0) => bytes_added _) l)) in *. set (zs := zsum (map (fun '(k0, o0, o'0) => rent_fee_per_entry_change _ _ _) l)) in *.
    clearbody x y z xs ys zs. set (n := Z.of_nat (length l)) in *. clearbody n. nia.
  Qed.

  Lemma rent_bounds l : charged_all l -> 0 <= rents l -> rents l * R <= i64_max ->
    let E := compute_fee_per_increment (rents l) R (sat_i64 den) in
    E <= network_rent l <= E + div_ceil (added l * R) den + 2 * Z.of_nat (length l).
  Proof.
    intros CA RP F. pose proof (network_sum l CA) as N. destruct den_pos as [DP DE].
    assert (AP : 0 <= added l).
    { unfold added. clear. induction l as [|[[k o] o'] l IH]; cbn; [lia|]. unfold bytes_added at 1. lia. }
    cbn zeta. unfold compute_fee_per_increment. rewrite DE.
    assert (P1 : 0 <= rents l * R) by (apply Z.mul_nonneg_nonneg; [exact RP|apply RC]).
    assert (P2 : 0 <= added l * R) by (apply Z.mul_nonneg_nonneg; [exact AP|apply RC]).
    rewrite sat_id by (unfold i64_min; lia). pose proof (div_ceil_lt _ P1) as X1. pose proof (div_ceil_lt _ P2) as X2.
    rewrite Z.mul_add_distr_r in N. set (a := div_ceil (rents l * R) den) in *. set (b := div_ceil (added l * R) den) in *.
    set (nr := network_rent l) in *. set (p := rents l * R) in *. set (q := added l * R) in *. set (m := Z.of_nat (length l)) in *.
    clearbody a b nr p q m. split; nia.
  Qed.
End Rent.
