(* Observations: what the meter reads off the host. *)
From Coq Require Import ZArith Lia List Bool.
From Verif Require Import Prelude ValModel ContainerModel HeapModel AMap StorageModel StorageSpec StorageProofs FeesModel FrameModel E2EModel
  MeterModel MeterSpec.
Import ListNotations.
Open Scope Z_scope.
Ltac Zify.zify_post_hook ::= idtac.

Lemma as_i32_small x : fits32 x -> as_i32 x = x.
Proof. unfold fits32, i32_max, as_i32. intros X. rewrite Z.mod_small; [lia|]. change (2 ^ 32) with 4294967296. change (2 ^ 31) with 2147483648. lia. Qed.
Lemma as_i64_small x : fits64 x -> as_i64 x = x.
Proof. unfold fits64, i64_max, as_i64. intros X. rewrite Z.mod_small; [lia|]. change (2 ^ 64) with 18446744073709551616. change (2 ^ 63) with 9223372036854775808. lia. Qed.
Lemma as_u32_small x : fits32 x -> as_u32 x = x.
Proof. unfold fits32, i32_max, as_u32. intros X. apply Z.mod_small. change (2 ^ 32) with 4294967296. lia. Qed.
Lemma chk_in lo hi x : lo <= x <= hi -> chk lo hi x = Some x.
Proof. unfold chk. intros X. destruct (Z.leb_spec lo x), (Z.leb_spec x hi); cbn; reflexivity || lia. Qed.
Lemma chk_some lo hi x y : chk lo hi x = Some y -> y = x /\ lo <= x <= hi.
Proof. unfold chk. destruct (Z.leb_spec lo x), (Z.leb_spec x hi); cbn; intros [= <-]; auto. Qed.
Lemma add32_ok x y : 0 <= x + y <= i32_max -> add32 x y = Some (x + y).
Proof. intros X. apply chk_in. unfold i32_min, i32_max in *. lia. Qed.
Lemma add64_ok x y : 0 <= x + y <= i64_max -> add64 x y = Some (x + y).
Proof. intros X. apply chk_in. unfold i64_min, i64_max in *. lia. Qed.

Lemma now_idem li k v : li_ok li -> now li k (now li k v) = now li k v.
Proof.
  intros L. destruct v as [[e [l|]]|]; [|reflexivity|reflexivity]. cbn [now].
  destruct (Z.ltb_spec l (li_seq li)) as [A|A].
  - destruct (key_durability k) as [[|]|] eqn:D; [reflexivity| |].
    + cbn [now]. pose proof (min_live_ge li Persistent L). destruct (Z.ltb_spec (min_live li Persistent) (li_seq li)); [lia|reflexivity].
    + cbn [now]. destruct (Z.ltb_spec l (li_seq li)); [|lia]. rewrite D. reflexivity.
  - cbn [now]. destruct (Z.ltb_spec l (li_seq li)); [lia|reflexivity].
Qed.

Section Obs.
  Variable cd : codec.
  Variable c : sconf.
  Hypothesis LI : li_ok (sc_li c).
  Hypothesis REC : exists src, sc_mode c = Recording src.
  Let li := sc_li c.

  (* looking at an entry shows its view, and leaves the view of all *)
  Lemma look_entry s k : dated c s -> key_supported k = true ->
    exists s', try_get c s k = (s', Ok (view c s k)) /\ (forall k', view c s' k' = view c s k') /\ dated c s'.
  Proof.
    destruct REC as (src & M). intros DT K. unfold try_get, prepare_read_only_access. rewrite K, M.
    set (s1 := record_access s k ReadOnly).
    set (s2 := match mget (st_map s1) k with Some _ => s1 | None => set_map s1 (mset (st_map s1) k (src k)) end).
    set (s3 := record_access s2 k ReadOnly).
    assert (M1 : st_map s1 = st_map s) by apply record_map.
    assert (M3 : st_map s3 = st_map s2) by apply record_map.
    assert (V : mget (st_map s3) k = Some (held c s k)).
    { rewrite M3. unfold s2, held. rewrite M1, M. destruct (mget (st_map s) k) eqn:G; [now rewrite M1|].
      cbn. rewrite mget_mset. destruct (lkey_eq_dec k k); congruence. }
    assert (O3 : forall k', k' <> k -> mget (st_map s3) k' = mget (st_map s) k').
    { intros k' N. rewrite M3. unfold s2. rewrite M1. destruct (mget (st_map s) k) eqn:G; [now rewrite M1|].
      cbn. rewrite mget_mset. destruct (lkey_eq_dec k' k); congruence. }
    destruct (handle_expired (sc_li c) s3 k (held c s k) LI V (fun e l E D => proj1 (DT k e l E) D)) as (s' & HE & G & O & _).
    rewrite HE, G. exists s'. split; [reflexivity|].
    assert (HO : forall k', held c s' k' = if lkey_eq_dec k' k then view c s k else held c s k').
    { intros k'. unfold held at 1. destruct (lkey_eq_dec k' k) as [->|N]; [now rewrite G|]. now rewrite (O k' N), (O3 k' N). }
    split.
    - intros k'. unfold view. rewrite HO. destruct (lkey_eq_dec k' k) as [->|N]; [|reflexivity]. apply now_idem, LI.
    - intros k' e l E. rewrite HO in E. destruct (lkey_eq_dec k' k) as [->|N]; [|exact (DT k' e l E)].
      unfold view, now in E. destruct (held c s k) as [[e0 [l0|]]|] eqn:HK; [| |discriminate E].
      + pose proof (DT k e0 _ HK) as X. destruct (l0 <? li_seq (sc_li c)); [|injection E as <- <-; exact X].
        destruct (key_durability k) as [[|]|]; [discriminate E| |]; injection E as <- <-; (split; [discriminate|]); intros _; try discriminate; apply X; discriminate.
      + injection E as <- <-. exact (DT k e0 None HK).
  Qed.

  Lemma size_small k o : small_entry cd k o ->
    match o with Some (e, _) => entry_size_for_rent cd e (as_u32 (entry_len cd k e)) = size_of cd k o /\ as_u32 (entry_len cd k e) = len_of cd k o | None => True end.
  Proof.
    destruct o as [[e l]|]; [|auto]. intros (A & B & C & _). cbn [len_of] in A.
    rewrite (as_u32_small _ A). split; [|reflexivity]. unfold entry_size_for_rent.
    assert (U : forall z, fits32 z -> sat_u32 z = z).
    { intros z Z0. unfold sat_u32, clamp, u32_max, fits32, i32_max in *. lia. }
    destruct e; cbn [size_of] in *; try (rewrite Z.add_0_r; apply U; exact B).
    rewrite (U (code_cost cd wasm)); [apply U; exact B|]. unfold fits32 in *. lia.
  Qed.

  (* what is found about the entry before *)
  Lemma initial_spec init k : small_entry cd k (get_from_map init k) ->
    (key_durability k = None -> forall e l, get_from_map init k = Some (e, l) -> l = None) ->
    initial cd c init k = (diskb c k (get_from_map init k), paid_until c (get_from_map init k), size_of cd k (get_from_map init k),
                           option_map (fun _ => len_of cd k (get_from_map init k)) (get_from_map init k)).
  Proof.
    intros SM CL. pose proof (size_small k _ SM) as SZ. unfold initial. destruct (get_from_map init k) as [[e lv]|] eqn:G.
    - destruct SZ as [S1 S2]. cbn [option_map]. fold li. rewrite S1.
      assert (LE : entry_len cd k e = len_of cd k (@Some lentry (e, lv))) by reflexivity. rewrite LE.
      destruct lv as [l|].
      + cbn [paid_until]. assert (D : key_durability k <> None) by (intros D; discriminate (CL D e (Some l) eq_refl)).
        destruct (Z.leb_spec (li_seq li) l) as [A|A].
        * rewrite Z.max_l by exact A. unfold diskb. fold li. destruct k as [| |a y [|]| |]; try (exfalso; apply D; reflexivity); cbn [is_classic key_durability].
          -- reflexivity.
          -- destruct (Z.ltb_spec l (li_seq li)); [lia|reflexivity].
          -- destruct (Z.ltb_spec l (li_seq li)); [lia|reflexivity].
        * rewrite Z.max_r by (unfold li in *; lia). unfold diskb. fold li. destruct k as [| |a y [|]| |]; try (exfalso; apply D; reflexivity); cbn [is_persistent_key key_durability].
          -- reflexivity.
          -- destruct (Z.ltb_spec l (li_seq li)); [reflexivity|lia].
          -- destruct (Z.ltb_spec l (li_seq li)); [reflexivity|lia].
      + cbn [paid_until]. unfold diskb. destruct k as [| |a y [|]| |]; reflexivity.
    - cbn [paid_until size_of option_map]. unfold diskb. destruct k as [| |a y [|]| |]; reflexivity.
  Qed.
  Lemma final_spec k o : small_entry cd k o ->
    final cd k o = (len_of cd k o, size_of cd k o, match o with Some (_, l) => l | None => None end).
  Proof.
    intros SM. pose proof (size_small k _ SM) as SZ. unfold final. destruct o as [[e lv]|]; [|reflexivity].
    destruct SZ as [S1 S2]. rewrite S1, S2. reflexivity.
  Qed.

  Lemma paid_ge o : li_seq li <= paid_until c o.
  Proof. destruct o as [[e [l|]]|]; cbn; fold li; lia. Qed.

  Lemma rent_nonneg k o o' : ~ shortened c o o' -> small_entry cd k o' -> 0 <= rent_of cd c k o o'.
  Proof.
    intros NS (_ & S2 & _). destruct o' as [[e [l|]]|]; cbn [rent_of shortened] in *; try lia.
    pose proof (paid_ge o). unfold fits32 in S2. fold li.
    apply Z.add_nonneg_nonneg; apply Z.mul_nonneg_nonneg; [| | |exact (proj1 S2)]; [|apply Z.le_max_l|]; clear S2; lia.
  Qed.
  Lemma seq_u32 : 0 <= li_seq li <= u32_max.
  Proof. pose proof (min_live_ge _ Temporary LI) as G. destruct LI as (A & _ & _ & _ & B & _). unfold li. lia. Qed.
  Lemma rent_spec k o e l : small_entry cd k o -> small_entry cd k (@Some lentry (e, Some l)) ->
    0 <= rent_of cd c k o (@Some lentry (e, Some l)) <= i64_max \/ shortened c o (@Some lentry (e, Some l)) ->
    rent_ledger_bytes c (paid_until c o) (size_of cd k o) l (size_of cd k (@Some lentry (e, Some l)))
    = if l <? paid_until c o then None else Some (rent_of cd c k o (@Some lentry (e, Some l))).
  Proof.
    intros S1 S2 R. pose proof seq_u32 as SQ. unfold rent_ledger_bytes, chk_u32. fold li.
    destruct S1 as (_ & A1 & _ & A2), S2 as (_ & B1 & _ & B2). pose proof (paid_ge o) as PG. unfold fits32 in *.
    assert (PU : paid_until c o <= u32_max) by (destruct o as [[e' [l'|]]|]; cbn in *; fold li; lia).
    set (n := size_of cd k (@Some lentry (e, Some l))) in *. set (m := size_of cd k o) in *.
    destruct (Z.ltb_spec l (paid_until c o)) as [LT|GE].
    - unfold chk. destruct (Z.leb_spec 0 (l - paid_until c o)); [lia|reflexivity].
    - assert (R' : 0 <= rent_of cd c k o (@Some lentry (e, Some l)) <= i64_max) by (destruct R as [R|R]; [exact R|cbn in R; lia]).
      cbn [rent_of] in *. fold li in R'. fold n m in R'. fold li n m.
      rewrite chk_in by (cbn in B2; lia). cbn [obind]. rewrite chk_in by lia. cbn [obind].
      replace (if m <? n then n - m else 0) with (Z.max 0 (n - m)) by (destruct (Z.ltb_spec m n); lia).
      pose proof (Z.mul_nonneg_nonneg (paid_until c o - li_seq li) (Z.max 0 (n - m)) ltac:(lia) ltac:(lia)) as P1.
      pose proof (Z.mul_nonneg_nonneg (l - paid_until c o) n ltac:(lia) ltac:(lia)) as P2.
      unfold chk_i64. rewrite chk_in by (unfold i64_min in *; lia). cbn [obind].
      rewrite chk_in by (unfold i64_min in *; lia). cbn [obind]. apply add64_ok. lia.
  Qed.

  Definition nonneg (u : usage) : Prop :=
    0 <= u_insns u /\ 0 <= u_mem u /\ 0 <= u_disk_n u /\ 0 <= u_mem_n u /\ 0 <= u_write_n u /\ 0 <= u_disk_b u
    /\ 0 <= u_write_b u /\ 0 <= u_events u /\ 0 <= u_p_rent u /\ 0 <= u_p_bumps u /\ 0 <= u_t_rent u /\ 0 <= u_t_bumps u.
  Lemma use_nonneg k a o o' : ~ shortened c o o' -> small_entry cd k o -> small_entry cd k o' -> nonneg (use_of cd c k a o o').
  Proof.
    intros NS S1 S2. pose proof (rent_nonneg k o o' NS S2). destruct S1 as (A & _), S2 as (B & _). unfold fits32 in *.
    unfold use_of, nonneg, b2z. cbn. destruct (diskb c k o), (is_rw a), (has_dur k Persistent), (has_dur k Temporary), (0 <? rent_of cd c k o o');
      cbn; repeat split; lia.
  Qed.
  Lemma dated_from_map s k e l : dated c s -> key_durability k = None -> get_from_map (st_map s) k = Some (e, l) -> l = None.
  Proof.
    intros DT D G. assert (HK : held c s k = Some (e, l)).
    { unfold held. unfold get_from_map in G. destruct (mget (st_map s) k) as [[x|]|]; congruence. }
    destruct l; [|reflexivity]. destruct (DT k e _ HK) as [_ X]. exfalso. apply X; [discriminate|exact D].
  Qed.
  Lemma view_undated s k e l : dated c s -> view c s k = Some (e, l) -> key_durability k = None -> l = None.
  Proof.
    intros DT V D. unfold view, now in V. destruct (held c s k) as [[e0 [l0|]]|] eqn:HK; [| |discriminate].
    - exfalso. apply (DT k e0 _ HK); [discriminate|exact D].
    - congruence.
  Qed.

  Lemma observe_key_ok init s u k a : dated c s -> key_supported k = true ->
    (key_durability k = None -> forall e l, get_from_map init k = Some (e, l) -> l = None) ->
    small_entry cd k (get_from_map init k) -> small_entry cd k (view c s k) ->
    ~ shortened c (get_from_map init k) (view c s k) ->
    nonneg u -> ufits (uadd u (use_of cd c k a (get_from_map init k) (view c s k))) ->
    exists s', observe_key cd c init s u k a = Some (s', uadd u (use_of cd c k a (get_from_map init k) (view c s k)), true)
      /\ (forall k', view c s' k' = view c s k') /\ dated c s'.
  Proof.
    intros DT K CU S1 S2 NS NN UF. destruct (look_entry s k DT K) as (s' & TG & VW & DT').
    exists s'. split; [|split; [exact VW|exact DT']]. unfold observe_key.
    set (o := get_from_map init k) in *. set (o' := view c s k) in *.
    rewrite (initial_spec init k S1 CU). fold o. rewrite TG, (final_spec k o' S2).
    pose proof (use_nonneg k a o o' NS S1 S2) as NU.
    assert (VU : forall e l, o' = Some (e, l) -> key_durability k = None -> l = None) by (intros e l; exact (view_undated s k e l DT)).
    clear CU TG. clearbody o o'.
    destruct u as [ui um udn umn uwn udb uwb ue upr upb utr utb].
    unfold ufits, uadd, nonneg, fits32, fits64 in *. cbn [u_insns u_mem u_disk_n u_mem_n u_write_n u_disk_b u_write_b u_events u_p_rent u_p_bumps u_t_rent u_t_bumps use_of] in *.
    assert (L1 : fits32 (len_of cd k o)) by apply S1. assert (L2 : fits32 (len_of cd k o')) by apply S2.
    assert (E1 : match option_map (fun _ => len_of cd k o) o with
                 | Some n => if diskb c k o then add_disk_b {| u_insns := ui; u_mem := um; u_disk_n := udn; u_mem_n := umn; u_write_n := uwn; u_disk_b := udb; u_write_b := uwb; u_events := ue; u_p_rent := upr; u_p_bumps := upb; u_t_rent := utr; u_t_bumps := utb |} (as_i32 n)
                             else Some {| u_insns := ui; u_mem := um; u_disk_n := udn; u_mem_n := umn; u_write_n := uwn; u_disk_b := udb; u_write_b := uwb; u_events := ue; u_p_rent := upr; u_p_bumps := upb; u_t_rent := utr; u_t_bumps := utb |}
                 | None => Some {| u_insns := ui; u_mem := um; u_disk_n := udn; u_mem_n := umn; u_write_n := uwn; u_disk_b := udb; u_write_b := uwb; u_events := ue; u_p_rent := upr; u_p_bumps := upb; u_t_rent := utr; u_t_bumps := utb |}
                 end = Some {| u_insns := ui; u_mem := um; u_disk_n := udn; u_mem_n := umn; u_write_n := uwn; u_disk_b := udb + (if diskb c k o then len_of cd k o else 0); u_write_b := uwb; u_events := ue; u_p_rent := upr; u_p_bumps := upb; u_t_rent := utr; u_t_bumps := utb |}).
    { destruct o as [oe|] eqn:OE; cbn [option_map].
      - destruct (diskb c k (Some oe)); [|rewrite Z.add_0_r; reflexivity]. rewrite (as_i32_small _ L1). unfold add_disk_b. cbn [u_disk_b].
        rewrite add32_ok by lia. reflexivity.
      - cbn [len_of]. destruct (diskb c k None); rewrite Z.add_0_r; reflexivity. }
    rewrite E1. cbn [obind]. clear E1.
    unfold add_read. cbn [u_insns u_mem u_disk_n u_mem_n u_write_n u_disk_b u_write_b u_events u_p_rent u_p_bumps u_t_rent u_t_bumps].
    change (if diskb c k o then 1 else 0) with (b2z (diskb c k o)).
    replace (if diskb c k o then 0 else 1) with (b2z (negb (diskb c k o))) by (destruct (diskb c k o); reflexivity).
    rewrite add32_ok by lia. cbn [obind]. rewrite add32_ok by lia. cbn [obind].
    assert (E2 : forall v, v = {| u_insns := ui; u_mem := um; u_disk_n := udn + b2z (diskb c k o); u_mem_n := umn + b2z (negb (diskb c k o)); u_write_n := uwn; u_disk_b := udb + (if diskb c k o then len_of cd k o else 0); u_write_b := uwb; u_events := ue; u_p_rent := upr; u_p_bumps := upb; u_t_rent := utr; u_t_bumps := utb |} ->
      add_write v a (len_of cd k o') = Some {| u_insns := ui; u_mem := um; u_disk_n := udn + b2z (diskb c k o); u_mem_n := umn + b2z (negb (diskb c k o)); u_write_n := uwn + b2z (is_rw a); u_disk_b := udb + (if diskb c k o then len_of cd k o else 0); u_write_b := uwb + (if is_rw a then len_of cd k o' else 0); u_events := ue; u_p_rent := upr; u_p_bumps := upb; u_t_rent := utr; u_t_bumps := utb |}).
    { intros v ->. destruct a; cbn [add_write is_rw b2z].
      - rewrite !Z.add_0_r. reflexivity.
      - cbn [u_insns u_mem u_disk_n u_mem_n u_write_n u_disk_b u_write_b u_events u_p_rent u_p_bumps u_t_rent u_t_bumps is_rw b2z] in *.
        rewrite add32_ok by lia. cbn [obind]. rewrite (as_i32_small _ L2), add32_ok by lia. reflexivity. }
    rewrite (E2 _ eq_refl). cbn [obind]. clear E2.
    set (v := {| u_insns := ui |}). 
    assert (E3 : add_rent c v k (paid_until c o) (size_of cd k o) match o' with Some (_, l) => l | None => None end (size_of cd k o')
      = Some {| u_insns := ui; u_mem := um; u_disk_n := udn + b2z (diskb c k o); u_mem_n := umn + b2z (negb (diskb c k o)); u_write_n := uwn + b2z (is_rw a); u_disk_b := udb + (if diskb c k o then len_of cd k o else 0); u_write_b := uwb + (if is_rw a then len_of cd k o' else 0); u_events := ue;
          u_p_rent := upr + (if has_dur k Persistent then rent_of cd c k o o' else 0); u_p_bumps := upb + b2z (has_dur k Persistent && (0 <? rent_of cd c k o o'));
          u_t_rent := utr + (if has_dur k Temporary then rent_of cd c k o o' else 0); u_t_bumps := utb + b2z (has_dur k Temporary && (0 <? rent_of cd c k o o')) |}).
    { assert (NIL : rent_of cd c k o o' = 0 -> Some v = Some {| u_insns := ui; u_mem := um; u_disk_n := udn + b2z (diskb c k o); u_mem_n := umn + b2z (negb (diskb c k o)); u_write_n := uwn + b2z (is_rw a); u_disk_b := udb + (if diskb c k o then len_of cd k o else 0); u_write_b := uwb + (if is_rw a then len_of cd k o' else 0); u_events := ue;
          u_p_rent := upr + (if has_dur k Persistent then rent_of cd c k o o' else 0); u_p_bumps := upb + b2z (has_dur k Persistent && (0 <? rent_of cd c k o o'));
          u_t_rent := utr + (if has_dur k Temporary then rent_of cd c k o o' else 0); u_t_bumps := utb + b2z (has_dur k Temporary && (0 <? rent_of cd c k o o')) |}).
      { intros ->. unfold v. cbn [Z.ltb Z.compare]. rewrite !andb_false_r. cbn [b2z]. destruct (has_dur k Persistent), (has_dur k Temporary); rewrite !Z.add_0_r; reflexivity. }
      destruct o' as [[e' [l'|]]|] eqn:OE; cbn [add_rent]; [|apply NIL; reflexivity|apply NIL; reflexivity].
      pose proof (rent_nonneg k o _ NS S2) as RN.
      destruct (key_durability k) as [[|]|] eqn:D.
      - assert (HP : has_dur k Persistent = false) by (unfold has_dur; rewrite D; reflexivity).
        assert (HT : has_dur k Temporary = true) by (unfold has_dur; rewrite D; reflexivity).
        rewrite HP, HT in *. cbn [andb b2z] in *.
        rewrite rent_spec; [|exact S1|exact S2|left; lia].
        cbn [shortened] in NS. destruct (Z.ltb_spec l' (paid_until c o)); [lia|]. cbn [obind].
        destruct (Z.ltb_spec 0 (rent_of cd c k o (@Some lentry (e', Some l')))) as [P|P].
        + cbn [add_bump b2z] in *. unfold v. cbn [u_insns u_mem u_disk_n u_mem_n u_write_n u_disk_b u_write_b u_events u_p_rent u_p_bumps u_t_rent u_t_bumps].
          rewrite add64_ok by lia. cbn [obind]. rewrite add32_ok by lia. cbn [obind]. rewrite !Z.add_0_r. reflexivity.
        + unfold v. cbn [b2z]. replace (rent_of cd c k o (@Some lentry (e', Some l'))) with 0 by lia. rewrite !Z.add_0_r. reflexivity.
      - assert (HP : has_dur k Persistent = true) by (unfold has_dur; rewrite D; reflexivity).
        assert (HT : has_dur k Temporary = false) by (unfold has_dur; rewrite D; reflexivity).
        rewrite HP, HT in *. cbn [andb b2z] in *.
        rewrite rent_spec; [|exact S1|exact S2|left; lia].
        cbn [shortened] in NS. destruct (Z.ltb_spec l' (paid_until c o)); [lia|]. cbn [obind].
        destruct (Z.ltb_spec 0 (rent_of cd c k o (@Some lentry (e', Some l')))) as [P|P].
        + cbn [add_bump b2z] in *. unfold v. cbn [u_insns u_mem u_disk_n u_mem_n u_write_n u_disk_b u_write_b u_events u_p_rent u_p_bumps u_t_rent u_t_bumps].
          rewrite add64_ok by lia. cbn [obind]. rewrite add32_ok by lia. cbn [obind]. rewrite !Z.add_0_r. reflexivity.
        + unfold v. cbn [b2z]. replace (rent_of cd c k o (@Some lentry (e', Some l'))) with 0 by lia. rewrite !Z.add_0_r. reflexivity.
      - exfalso. discriminate (VU e' _ eq_refl eq_refl). }
    rewrite E3. cbn [obind]. unfold uadd, use_of. cbn. rewrite !Z.add_0_r. reflexivity.
  Qed.

  (* a shortened entry is a panic *)
  Lemma observe_key_short init s u k a : dated c s -> key_supported k = true ->
    (key_durability k = None -> forall e l, get_from_map init k = Some (e, l) -> l = None) ->
    small_entry cd k (get_from_map init k) -> small_entry cd k (view c s k) ->
    shortened c (get_from_map init k) (view c s k) -> observe_key cd c init s u k a = None.
  Proof.
    intros DT K CU S1 S2 SH. destruct (look_entry s k DT K) as (s' & TG & _). unfold observe_key.
    rewrite (initial_spec init k S1 CU). rewrite TG, (final_spec k _ S2).
    destruct (match option_map _ _ with Some _ => _ | None => _ end) as [u1|]; [|reflexivity]. cbn [obind].
    destruct (add_read u1 _) as [u2|]; [|reflexivity]. cbn [obind].
    destruct (add_write u2 _ _) as [u3|]; [|reflexivity]. cbn [obind].
    destruct (view c s k) as [[e' [l'|]]|]; cbn [shortened] in SH; try contradiction.
    cbn [add_rent]. rewrite rent_spec; [|exact S1|exact S2|right; exact SH].
    destruct (Z.ltb_spec l' (paid_until c (get_from_map init k))); [reflexivity|lia].
  Qed.
  Lemma observe_key_keeps init s u k a s' u' ok : dated c s -> key_supported k = true ->
    observe_key cd c init s u k a = Some (s', u', ok) -> ok = true /\ (forall k', view c s' k' = view c s k') /\ dated c s'.
  Proof.
    intros DT K E. destruct (look_entry s k DT K) as (s1 & TG & VW & DT'). unfold observe_key in E.
    destruct (initial cd c init k) as [[[disk il] isz] len]. rewrite TG in E. destruct (final cd k (view c s k)) as [[n sz] lv].
    destruct (match len with Some _ => _ | None => _ end) as [u1|]; [|discriminate E]. cbn [obind] in E.
    destruct (add_read u1 _) as [u2|]; [|discriminate E]. cbn [obind] in E.
    destruct (add_write u2 _ _) as [u3|]; [|discriminate E]. cbn [obind] in E.
    destruct (add_rent _ _ _ _ _ _ _) as [u4|]; [|discriminate E]. cbn [obind] in E. injection E as <- <- <-. auto.
  Qed.

  Lemma uadd_0 u : uadd u u0 = u.
  Proof. destruct u. unfold uadd. cbn. rewrite !Z.add_0_r. reflexivity. Qed.
  Lemma uadd_assoc u v w : uadd u (uadd v w) = uadd (uadd u v) w.
  Proof. unfold uadd. cbn. f_equal; apply Z.add_assoc. Qed.
  Lemma nonneg_add u v : nonneg u -> nonneg v -> nonneg (uadd u v).
  Proof. unfold nonneg, uadd. cbn. intros A B. repeat split; lia. Qed.
  Lemma ufits_l u v : nonneg u -> nonneg v -> ufits (uadd u v) -> ufits u.
  Proof. unfold nonneg, ufits, uadd, fits32, fits64. cbn. intros A B X. repeat split; lia. Qed.

  Lemma use_sum_ext b f g l : (forall k, f k = g k) -> use_sum cd c b f l = use_sum cd c b g l.
  Proof. intros E. induction l as [|[k a] l IH]; [reflexivity|]. cbn. now rewrite E, IH. Qed.
  Lemma use_sum_nonneg b f l : Forall (fun p => small_entry cd (fst p) (b (fst p)) /\ small_entry cd (fst p) (f (fst p)) /\ ~ shortened c (b (fst p)) (f (fst p))) l ->
    nonneg (use_sum cd c b f l).
  Proof.
    induction 1 as [|[k a] l (A & B & N) _ IH]; [unfold nonneg; cbn; repeat split; lia|].
    cbn. apply nonneg_add; [|exact IH]. apply use_nonneg; assumption.
  Qed.

  Lemma observe_keys_ok init : dated c init -> forall l s u, dated c s ->
    Forall (fun p => key_supported (fst p) = true) l ->
    Forall (fun p => small_entry cd (fst p) (get_from_map (st_map init) (fst p)) /\ small_entry cd (fst p) (view c s (fst p))) l ->
    Forall (fun p => ~ shortened c (get_from_map (st_map init) (fst p)) (view c s (fst p))) l ->
    nonneg u -> ufits (uadd u (use_sum cd c (get_from_map (st_map init)) (view c s) l)) ->
    exists s', observe_keys cd c (st_map init) s u l = Some (s', uadd u (use_sum cd c (get_from_map (st_map init)) (view c s) l), true)
      /\ (forall k', view c s' k' = view c s k') /\ dated c s'.
  Proof.
    intros DI. induction l as [|[k a] l IH]; intros s u DT SU SM NS NN UF.
    - exists s. cbn. rewrite uadd_0. auto.
    - inversion SU as [|? ? K SU']; subst. inversion SM as [|? ? [A B] SM']; subst. inversion NS as [|? ? N NS']; subst. cbn [fst] in *.
      cbn [use_sum] in *. rewrite uadd_assoc in *.
      set (b := get_from_map (st_map init)) in *.
      assert (NU : nonneg (use_of cd c k a (b k) (view c s k))) by (apply use_nonneg; assumption).
      assert (NR : nonneg (use_sum cd c b (view c s) l)).
      { apply use_sum_nonneg. rewrite Forall_forall in *. intros p I. specialize (SM' p I). specialize (NS' p I). tauto. }
      destruct (observe_key_ok (st_map init) s u k a DT K) as (s1 & E1 & V1 & D1); fold b; try assumption.
      { intros D e l0. apply (dated_from_map init k e l0 DI D). }
      { apply ufits_l with (v := use_sum cd c b (view c s) l); [apply nonneg_add|..]; assumption. }
      fold b in E1.
      destruct (IH s1 (uadd u (use_of cd c k a (b k) (view c s k)))) as (s2 & E2 & V2 & D2); try assumption.
      { rewrite Forall_forall in *. intros p I. rewrite V1. apply (SM' p I). }
      { rewrite Forall_forall in *. intros p I. rewrite V1. apply (NS' p I). }
      { apply nonneg_add; assumption. }
      { rewrite (use_sum_ext _ _ _ _ V1). exact UF. }
      exists s2. cbn [observe_keys]. rewrite E1. cbn [obind]. rewrite E2. rewrite (use_sum_ext _ _ _ _ V1). split; [reflexivity|].
      split; [|exact D2]. intros k'. rewrite V2. apply V1.
  Qed.
  Lemma observe_keys_short init : dated c init -> forall l s u, dated c s ->
    Forall (fun p => key_supported (fst p) = true) l ->
    Forall (fun p => small_entry cd (fst p) (get_from_map (st_map init) (fst p)) /\ small_entry cd (fst p) (view c s (fst p))) l ->
    Exists (fun p => shortened c (get_from_map (st_map init) (fst p)) (view c s (fst p))) l ->
    observe_keys cd c (st_map init) s u l = None.
  Proof.
    intros DI. induction l as [|[k a] l IH]; intros s u DT SU SM SH; [inversion SH|].
    inversion SU as [|? ? K SU']; subst. inversion SM as [|? ? [A B] SM']; subst. cbn [fst] in *. cbn [observe_keys].
    destruct (observe_key cd c (st_map init) s u k a) as [[[s1 u1] ok]|] eqn:E; [|reflexivity]. cbn [obind].
    destruct (observe_key_keeps _ _ _ _ _ _ _ _ DT K E) as (-> & V1 & D1).
    inversion SH as [? ? N|? ? N]; subst; cbn [fst] in *.
    - rewrite observe_key_short in E; try assumption; [discriminate E|].
      intros D e l0. apply (dated_from_map init k e l0 DI D).
    - apply IH; try assumption.
      + rewrite Forall_forall in *. intros p I. rewrite V1. apply (SM' p I).
      + rewrite Exists_exists in *. destruct N as (p & I & N). exists p. rewrite V1. auto.
  Qed.

  Lemma events_ok : forall l u, Forall fits32 l -> nonneg u -> fits32 (u_events u + zsum l) ->
    add_events u l = Some (uadd u {| u_insns := 0; u_mem := 0; u_disk_n := 0; u_mem_n := 0; u_write_n := 0; u_disk_b := 0; u_write_b := 0;
      u_events := zsum l; u_p_rent := 0; u_p_bumps := 0; u_t_rent := 0; u_t_bumps := 0 |}).
  Proof.
    induction l as [|n l IH]; intros u F NN UF.
    - cbn. fold u0. now rewrite uadd_0.
    - inversion F as [|? ? N F']; subst. cbn [add_events zsum] in *.
      assert (P : 0 <= zsum l). { clear - F'. induction F' as [|x r X _ IH]; cbn; [lia|]. unfold fits32 in X. lia. }
      rewrite (as_i32_small _ N). unfold nonneg, fits32 in *. rewrite add32_ok by lia. cbn [obind]. rewrite IH; [|assumption| |].
      + unfold uadd. cbn. rewrite !Z.add_0_r, Z.add_assoc. reflexivity.
      + unfold nonneg. cbn. repeat split; lia.
      + cbn. unfold fits32. lia.
  Qed.

  Lemma uadd_comm u v : uadd u v = uadd v u.
  Proof. unfold uadd. f_equal; apply Z.add_comm. Qed.

  Theorem observe_ok init h : dated c init -> dated c (mh_store h) -> supported h -> small cd c init h ->
    Forall (fun p => ~ shortened c (get_from_map (st_map init) (fst p)) (view c (mh_store h) (fst p))) (st_foot (mh_store h)) ->
    ufits (used cd c init h) ->
    exists s', observe cd c init h = Some (with_mstore h s', used cd c init h)
      /\ (forall k, view c s' k = view c (mh_store h) k) /\ dated c s'.
  Proof.
    intros DI DT SU (SM & EV & FI & FM) NS UF. unfold observe. rewrite (as_i64_small _ FI), (as_i64_small _ FM).
    set (us := use_sum cd c (get_from_map (st_map init)) (view c (mh_store h)) (st_foot (mh_store h))).
    assert (NR : nonneg us).
    { apply use_sum_nonneg. rewrite Forall_forall in *. intros p I. specialize (SM p I). specialize (NS p I). tauto. }
    assert (EP : 0 <= zsum (mh_events h)). { clear - EV. induction EV as [|x r X _ IH]; cbn; [lia|]. unfold fits32 in X. lia. }
    match goal with |- context [observe_keys _ _ _ _ ?u _] => set (ub := u) end.
    set (eb := {| u_insns := 0; u_mem := 0; u_disk_n := 0; u_mem_n := 0; u_write_n := 0; u_disk_b := 0; u_write_b := 0;
      u_events := zsum (mh_events h); u_p_rent := 0; u_p_bumps := 0; u_t_rent := 0; u_t_bumps := 0 |}).
    assert (US : used cd c init h = uadd (uadd ub us) eb).
    { unfold used. fold us. unfold uadd, ub, eb. cbn. f_equal; lia. }
    assert (NB : nonneg ub). { unfold nonneg, ub, fits64 in *. cbn. repeat split; lia. }
    assert (NE : nonneg eb). { unfold nonneg, eb. cbn. repeat split; lia. }
    destruct (observe_keys_ok init DI (st_foot (mh_store h)) (mh_store h) ub DT SU SM NS NB) as (s' & E & V & D).
    { fold us. rewrite US in UF. apply ufits_l with (v := eb); [apply nonneg_add|..]; assumption. }
    fold us in E. rewrite E. cbn [obind]. rewrite events_ok; [|exact EV|apply nonneg_add; assumption|].
    - cbn [obind]. fold eb. rewrite US. exists s'. auto.
    - rewrite US in UF. unfold ufits in UF. destruct UF as (_ & _ & _ & _ & _ & _ & _ & X & _). exact X.
  Qed.
  Theorem observe_short init h : dated c init -> dated c (mh_store h) -> supported h -> small cd c init h ->
    Exists (fun p => shortened c (get_from_map (st_map init) (fst p)) (view c (mh_store h) (fst p))) (st_foot (mh_store h)) ->
    observe cd c init h = None.
  Proof. intros DI DT SU (SM & _) SH. unfold observe. rewrite observe_keys_short; auto. Qed.
End Obs.
