(* Proofs about ledger storage. *)
From Coq Require Import ZArith Lia List Bool.
From Verif Require Import Prelude ValModel ContainerModel HeapModel AMap StorageModel StorageSpec.
Import ListNotations.
Open Scope Z_scope.

Lemma mget_mset m k v k' : mget (mset m k v) k' = if lkey_eq_dec k' k then Some v else mget m k'.
Proof. apply aget_aset. Qed.
Lemma fget_fset m k v k' : fget (fset m k v) k' = if lkey_eq_dec k' k then Some v else fget m k'.
Proof. apply aget_aset. Qed.
Lemma upd_eq m k v : upd m k v k = v.
Proof. unfold upd. destruct (lkey_eq_dec k k); congruence. Qed.
Lemma upd_ne m k v k' : k' <> k -> upd m k v k' = m k'.
Proof. unfold upd. destruct (lkey_eq_dec k' k); congruence. Qed.

Lemma min_live_ok li d : li_ok li -> min_live_until li d = Some (min_live li d).
Proof.
  intros (A & B & C & D & E & F & G). unfold min_live_until, checked_add_u32, sat_sub_u32, min_live in *.
  destruct d.
  - destruct (Z.leb_spec (li_seq li + Z.max 0 (li_min_temp li - 1)) u32_max); [f_equal; lia|lia].
  - destruct (Z.leb_spec (li_seq li + Z.max 0 (li_min_persistent li - 1)) u32_max); [f_equal; lia|lia].
Qed.
Lemma max_live_ok li : li_ok li -> get_max_live_until li = Ok (max_live li).
Proof.
  intros (A & B & C & D & E & F & G). unfold get_max_live_until, max_live_until, checked_add_u32, sat_sub_u32, max_live in *.
  destruct (Z.leb_spec (li_seq li + Z.max 0 (li_max_ttl li - 1)) u32_max); [f_equal; lia|lia].
Qed.
Lemma min_live_ge li d : li_ok li -> li_seq li <= min_live li d.
Proof. unfold min_live. lia. Qed.

Lemma now_live li k v : li_ok li -> (forall e l, v = Some (e, l) -> key_durability k <> None -> l <> None) -> live li k (now li k v).
Proof.
  intros L H. unfold now, live. destruct v as [[e [l|]]|]; auto.
  - destruct (Z.ltb_spec l (li_seq li)).
    + destruct (key_durability k) as [[|]|] eqn:D; auto.
      * intros _. eexists. split; [reflexivity|]. now apply min_live_ge.
      * intros N. congruence.
    + intros _. eauto.
  - intros N. destruct (H e None eq_refl N). reflexivity.
Qed.

(* footprints only grow *)
Definition covers (f f' : list (lkey * access)) : Prop := forall k a, declared f k a -> declared f' k a.
Lemma covers_refl f : covers f f. Proof. intros k a; auto. Qed.
Lemma covers_trans f g h : covers f g -> covers g h -> covers f h.
Proof. intros A B k a D. apply B, A, D. Qed.

Lemma declaredb_spec f k a : declaredb f k a = true <-> declared f k a.
Proof.
  unfold declaredb, declared. destruct (fget f k) as [[|]|], a; split; intros; try congruence; auto; discriminate.
Qed.
Lemma declared_weaken f k a : declared f k a -> declared f k ReadOnly.
Proof. destruct a; cbn; congruence. Qed.

Lemma record_map s k a : st_map (record_access s k a) = st_map s.
Proof. unfold record_access. destruct (fget (st_foot s) k) as [[|]|], a; reflexivity. Qed.
Lemma record_declared s k a : declared (st_foot (record_access s k a)) k a.
Proof.
  unfold record_access. destruct (fget (st_foot s) k) as [[|]|] eqn:F, a; cbn; rewrite ?fget_fset;
    try (destruct (lkey_eq_dec k k); congruence); congruence.
Qed.
Lemma record_other s k a k' : k' <> k -> fget (st_foot (record_access s k a)) k' = fget (st_foot s) k'.
Proof.
  intros N. unfold record_access. destruct (fget (st_foot s) k) as [[|]|] eqn:F, a; cbn; auto;
    rewrite fget_fset; destruct (lkey_eq_dec k' k); congruence.
Qed.
Lemma record_covers s k a : covers (st_foot s) (st_foot (record_access s k a)).
Proof.
  intros k' b D. destruct (lkey_eq_dec k' k) as [->|N].
  - unfold record_access. destruct (fget (st_foot s) k) as [[|]|] eqn:F, a, b; cbn in *; rewrite ?fget_fset;
      try (destruct (lkey_eq_dec k k)); congruence.
  - destruct b; cbn in *; rewrite record_other; auto.
Qed.

Lemma enforce_spec s k a : enforce_access s k a = if declaredb (st_foot s) k a then Ok tt else Err e_foot.
Proof. unfold enforce_access, declaredb. destruct (fget (st_foot s) k) as [[|]|], a; reflexivity. Qed.

(* expiry is a no-op on live entries *)
Lemma handle_live li s k : (forall o, mget (st_map s) k = Some o -> live li k o) -> handle_maybe_expired li s k = (s, Ok tt).
Proof.
  intros H. unfold handle_maybe_expired. destruct (mget (st_map s) k) as [[[e l]|]|] eqn:M; auto.
  destruct (key_durability k) as [d|] eqn:D; auto. specialize (H _ eq_refl). cbn in H.
  destruct H as (x & -> & L); [congruence|]. destruct (Z.ltb_spec x (li_seq li)); [lia|reflexivity].
Qed.
Lemma cfg_live c s k : (sc_recording_build c = true -> all_live c s) -> maybe_expired_cfg c s k = (s, Ok tt).
Proof.
  intros H. unfold maybe_expired_cfg. destruct (sc_recording_build c) eqn:B; auto.
  apply handle_live. intros o M. now apply H.
Qed.

Lemma handle_expired li s k v : li_ok li -> mget (st_map s) k = Some v ->
  (forall e l, v = Some (e, l) -> key_durability k <> None -> l <> None) ->
  exists s', handle_maybe_expired li s k = (s', Ok tt)
  /\ mget (st_map s') k = Some (now li k v)
  /\ (forall k', k' <> k -> mget (st_map s') k' = mget (st_map s) k')
  /\ covers (st_foot s) (st_foot s')
  /\ (forall k', k' <> k -> fget (st_foot s') k' = fget (st_foot s) k')
  /\ (now li k v = v \/ now li k v = None \/ declared (st_foot s') k ReadWrite).
Proof.
  intros L M W. unfold handle_maybe_expired. rewrite M. destruct v as [[e l]|]; cbn [now].
  - destruct (key_durability k) as [d|] eqn:D.
    + destruct l as [l|]; [|exfalso; apply (W e None eq_refl); [congruence|reflexivity]].
      destruct (Z.ltb_spec l (li_seq li)).
      * destruct d.
        -- eexists. split; [reflexivity|]. cbn. split; [rewrite mget_mset; destruct (lkey_eq_dec k k); congruence|].
           split; [intros k' N; rewrite mget_mset; destruct (lkey_eq_dec k' k); congruence|].
           split; [apply covers_refl|]. split; [auto|]. auto.
        -- rewrite (min_live_ok _ _ L). eexists. split; [reflexivity|]. cbn. rewrite record_map.
           split; [rewrite mget_mset; destruct (lkey_eq_dec k k); congruence|].
           split; [intros k' N; rewrite mget_mset; destruct (lkey_eq_dec k' k); congruence|].
           split; [apply record_covers|]. split; [intros; now apply record_other|].
           right. right. exact (record_declared s k ReadWrite).
      * exists s. split; [reflexivity|]. split; [exact M|]. split; [auto|]. split; [apply covers_refl|]. auto.
    + exists s. split; [reflexivity|].
      assert (N : (match l with Some l0 => if l0 <? li_seq li then Some (e, l) else Some (e, l) | None => Some (e, l) end) = Some (e, l)).
      { destruct l as [l|]; auto. destruct (l <? li_seq li); auto. }
      destruct l as [l|]; cbn in *; [destruct (l <? li_seq li)|]; (split; [exact M|]); (split; [auto|]);
        (split; [apply covers_refl|]); auto.
  - exists s. split; [reflexivity|]. split; [exact M|]. split; [auto|]. split; [apply covers_refl|]. auto.
Qed.

(* ---------------------------------------------------------------- reads *)


Lemma run_ok_live c s : run_ok c s -> sc_recording_build c = true -> all_live c s.
Proof. intros [(A & B & C)|(src & A & B & C & D)]; auto. Qed.

(* what a call may do to the storage besides its own key's entry *)
Definition same_but (c : sconf) (s s' : storage) (k : lkey) : Prop :=
  covers (st_foot s) (st_foot s')
  /\ (sc_mode c = Enforcing -> st_foot s' = st_foot s)
  /\ (forall k', k' <> k -> contents c s' k' = contents c s k').

Lemma contents_mset c s k v k' :
  contents c (set_map s (mset (st_map s) k v)) k' = if lkey_eq_dec k' k then v else contents c s k'.
Proof. unfold contents. cbn. rewrite mget_mset. destruct (lkey_eq_dec k' k); reflexivity. Qed.

Lemma contents_foot c s s' k : st_map s = st_map s' -> contents c s k = contents c s' k.
Proof. intros E. unfold contents. now rewrite E. Qed.

Lemma try_get_enf c s k : enforcing_ok c s -> key_supported k = true ->
  try_get c s k = if declaredb (st_foot s) k ReadOnly then (s, Ok (contents c s k)) else (s, Err e_foot).
Proof.
  intros (M & L & _) K. unfold try_get, prepare_read_only_access. rewrite K, M, enforce_spec.
  destruct (declaredb (st_foot s) k ReadOnly) eqn:D; auto.
  apply declaredb_spec in D. specialize (L k D). unfold contents. rewrite M.
  destruct (mget (st_map s) k); [reflexivity|congruence].
Qed.

Lemma try_get_rec c s k : li_ok (sc_li c) -> recording_ok c s -> key_supported k = true ->
  exists s', try_get c s k = (s', Ok (contents c s k))
  /\ recording_ok c s' /\ covers (st_foot s) (st_foot s') /\ declared (st_foot s') k ReadOnly
  /\ (forall k', contents c s' k' = contents c s k')
  /\ mget (st_map s') k = Some (contents c s k).
Proof.
  intros LI R K. pose proof R as (src & M & SO & B & AL). unfold try_get, prepare_read_only_access. rewrite K, M.
  set (s1 := record_access s k ReadOnly).
  set (s2 := match mget (st_map s1) k with Some _ => s1 | None => set_map s1 (mset (st_map s1) k (src k)) end).
  set (s3 := record_access s2 k ReadOnly).
  assert (C2 : covers (st_foot s) (st_foot s2)).
  { unfold s2. destruct (mget (st_map s1) k); apply record_covers. }
  assert (C3 : covers (st_foot s) (st_foot s3)) by (eapply covers_trans; [exact C2|apply record_covers]).
  assert (M1 : st_map s1 = st_map s) by apply record_map.
  assert (M3 : st_map s3 = st_map s2) by apply record_map.
  set (v := match mget (st_map s) k with Some o => o | None => src k end).
  assert (V : mget (st_map s3) k = Some v).
  { rewrite M3. unfold s2, v. rewrite M1. destruct (mget (st_map s) k) eqn:G.
    - now rewrite M1.
    - cbn. rewrite mget_mset. destruct (lkey_eq_dec k k); congruence. }
  assert (O3 : forall k', k' <> k -> mget (st_map s3) k' = mget (st_map s) k').
  { intros k' N. rewrite M3. unfold s2. rewrite M1. destruct (mget (st_map s) k) eqn:G; [now rewrite M1|].
    cbn. rewrite mget_mset. destruct (lkey_eq_dec k' k); congruence. }
  assert (W : forall e l, v = Some (e, l) -> key_durability k <> None -> l <> None).
  { intros e l E D. unfold v in E. destruct (mget (st_map s) k) as [o|] eqn:G.
    - subst o. destruct (AL k _ G D) as (x & -> & _). congruence.
    - exact (SO k e l E D). }
  destruct (handle_expired (sc_li c) s3 k v LI V W) as (s' & H & G & O & Cv & _ & _). rewrite H, G.
  assert (NC : now (sc_li c) k v = contents c s k).
  { unfold contents, v. rewrite M. destruct (mget (st_map s) k) as [o|] eqn:Gk; auto.
    pose proof (AL k o Gk) as Lo. unfold now. destruct o as [[e [l|]]|]; auto.
    destruct (Z.ltb_spec l (li_seq (sc_li c))); auto. cbn in Lo. destruct (key_durability k) as [[|]|] eqn:D; auto.
    - destruct Lo as (x & X & Y); [congruence|]. injection X as <-. lia.
    - destruct Lo as (x & X & Y); [congruence|]. injection X as <-. lia. }
  exists s'. rewrite <- NC. split; [reflexivity|].
  assert (CS : forall k', contents c s' k' = contents c s k').
  { intros k'. destruct (lkey_eq_dec k' k) as [->|N].
    - rewrite <- NC. unfold contents at 1. now rewrite G.
    - unfold contents. now rewrite (O k' N), (O3 k' N). }
  split.
  { exists src. split; [exact M|]. split; [exact SO|]. split; [exact B|]. intros k' o G'. destruct (lkey_eq_dec k' k) as [->|N].
    - rewrite G in G'. injection G' as <-. now apply now_live.
    - rewrite (O k' N), (O3 k' N) in G'. exact (AL k' o G'). }
  split; [eapply covers_trans; [exact C3|exact Cv]|].
  split; [apply Cv, record_declared|]. split; [exact CS|exact G].
Qed.

(* ---------------------------------------------------------------- one call *)

Lemma mset_run_ok c s k v : run_ok c s -> (sc_recording_build c = true -> live (sc_li c) k v) ->
  run_ok c (set_map s (mset (st_map s) k v)).
Proof.
  intros [(M & L & A)|(src & M & SO & B & A)] H.
  - left. split; [exact M|]. split.
    + intros k' F. cbn in *. rewrite mget_mset. destruct (lkey_eq_dec k' k); [congruence|auto].
    + intros B k' o G. cbn in G. rewrite mget_mset in G. destruct (lkey_eq_dec k' k) as [->|N].
      * injection G as <-. auto.
      * exact (A B k' o G).
  - right. exists src. split; [exact M|]. split; [exact SO|]. split; [exact B|]. intros k' o G. cbn in G.
    rewrite mget_mset in G. destruct (lkey_eq_dec k' k) as [->|N].
    + injection G as <-. auto.
    + exact (A k' o G).
Qed.

Lemma foot_run_ok_rec c s f : recording_ok c s -> recording_ok c (set_foot s f).
Proof. intros (src & A & B & C & D). exists src. auto. Qed.

(* the result of one call, in either mode *)
Definition step_ok (c : sconf) (s : storage) (op : sop) (s' : storage) (r : res sout) : Prop :=
  (* carried out as on a store *)
  (r = snd (meaning (sc_li c) (contents c s) op)
   /\ (forall k, contents c s' k = fst (meaning (sc_li c) (contents c s) op) k)
   /\ (bad_args op = None -> declared (st_foot s') (op_key op) (op_access op))
   /\ run_ok c s' /\ covers (st_foot s) (st_foot s')
   /\ (sc_mode c = Enforcing -> st_foot s' = st_foot s))
  \/ (* or refused: not in the footprint *)
  (sc_mode c = Enforcing /\ bad_args op = None /\ ~ declared (st_foot s) (op_key op) (op_access op)
   /\ r = Err e_foot /\ s' = s).

Lemma put_step c s k (v : option lentry) : li_ok (sc_li c) -> run_ok c s -> key_supported k = true ->
  (match v with Some (e, _) => entry_supported e | None => true end) = true ->
  (sc_recording_build c = true -> live (sc_li c) k v) ->
  (exists s', put_opt c s k v = (s', Ok tt) /\ (forall k', contents c s' k' = upd (contents c s) k v k')
     /\ declared (st_foot s') k ReadWrite /\ run_ok c s' /\ covers (st_foot s) (st_foot s')
     /\ (sc_mode c = Enforcing -> st_foot s' = st_foot s))
  \/ (sc_mode c = Enforcing /\ ~ declared (st_foot s) k ReadWrite /\ put_opt c s k v = (s, Err e_foot)).
Proof.
  intros LI R K EV W. unfold put_opt. rewrite K. change (negb true) with false. cbv iota.
  match goal with |- context [if ?b then (s, Err e_st_internal) else _] => assert (X : b = false) end.
  { destruct v as [[e l]|]; auto. now rewrite EV. }
  rewrite X, (cfg_live c s k (run_ok_live c s R)). destruct (sc_mode c) as [|src] eqn:M.
  - rewrite enforce_spec. destruct (declaredb (st_foot s) k ReadWrite) eqn:D.
    + left. eexists. split; [reflexivity|]. split.
      * intros k'. rewrite contents_mset. unfold upd.
        destruct (lkey_eq_dec k' k); auto. 
      * split; [now apply declaredb_spec|]. split; [now apply mset_run_ok|]. split; [apply covers_refl|]. auto.
    + right. split; auto. split; auto. intros N. apply declaredb_spec in N. congruence.
  - left. eexists. split; [reflexivity|]. split.
    + intros k'. rewrite contents_mset. unfold upd.
      destruct (lkey_eq_dec k' k); auto. apply contents_foot. apply record_map.
    + split; [apply record_declared|]. split.
      * apply mset_run_ok; auto. right. destruct R as [(A & _)|(src' & A & B & C & AL)]; [congruence|].
        exists src'. split; [exact A|]. split; [exact B|]. split; [exact C|]. intros k' o G. rewrite record_map in G. now apply AL.
      * split; [apply record_covers|]. congruence.
Qed.

(* the read made by get, has and the TTL extensions *)
Lemma read_step c s k : li_ok (sc_li c) -> run_ok c s -> key_supported k = true ->
  (exists s', try_get c s k = (s', Ok (contents c s k)) /\ (forall k', contents c s' k' = contents c s k')
     /\ declared (st_foot s') k ReadOnly /\ run_ok c s' /\ covers (st_foot s) (st_foot s')
     /\ (sc_mode c = Enforcing -> st_foot s' = st_foot s)
     /\ mget (st_map s') k = Some (contents c s k))
  \/ (sc_mode c = Enforcing /\ ~ declared (st_foot s) k ReadOnly /\ try_get c s k = (s, Err e_foot)).
Proof.
  intros LI R K. destruct R as [R|R].
  - rewrite (try_get_enf c s k R K). destruct (declaredb (st_foot s) k ReadOnly) eqn:D.
    + left. exists s. split; auto. split; auto. apply declaredb_spec in D. split; [exact D|]. split; [now left|].
      split; [apply covers_refl|]. split; [auto|]. destruct R as (M & L & _). unfold contents. rewrite M.
      specialize (L k D). destruct (mget (st_map s) k); congruence.
    + right. destruct R as (M & _). split; auto. split; auto. intros N. apply declaredb_spec in N. congruence.
  - left. destruct (try_get_rec c s k LI R K) as (s' & A & B & C & D & E & F). exists s'.
    split; [exact A|]. split; [exact E|]. split; [exact D|]. split; [now right|]. split; [exact C|].
    split; [|exact F]. destruct R as (src & M & _). congruence.
Qed.

Lemma live_of c s k : run_ok c s -> sc_recording_build c = true -> forall e l, mget (st_map s) k = Some (Some (e, l)) ->
  live (sc_li c) k (Some (e, l)).
Proof. intros R B e l M. exact (run_ok_live c s R B k _ M). Qed.

(* both extensions: a read, then a computation on the live-until ledger *)
Lemma extend_step c s k (op : sop) (f : Z -> res Z) (finish : storage -> ttl_info -> storage * res unit) (ext : Z) :
  li_ok (sc_li c) -> run_ok c s -> key_supported k = true ->
  op_key op = k -> op_access op = ReadOnly -> bad_args op = None ->
  meaning (sc_li c) (contents c s) op = with_live (contents c s) k f ->
  sstep c s op = unit_out (let '(s1, r) := prepare_extend_ttl c s k ext in
                           match r with Err e => (s1, Err e) | Ok ti => finish s1 ti end) ->
  (* the shared checks *)
  (forall old, match key_durability k with
     | None => f old = Err e_st_internal
     | Some d => if old <? li_seq (sc_li c) then f old = Err e_st_internal
                 else if (match d with Temporary => max_live (sc_li c) <? li_seq (sc_li c) + ext | Persistent => false end)
                 then f old = Err e_st_action
                 else forall s1 e, finish s1 {| ti_entry := e; ti_old := old; ti_ttl := old - li_seq (sc_li c); ti_max := max_live (sc_li c) |}
                        = match f old with
                          | Err x => (s1, Err x)
                          | Ok n => (if old <? n then set_map s1 (mset (st_map s1) k (Some (e, Some n))) else s1, Ok tt)
                          end /\ (forall n, f old = Ok n -> old <= n)
     end) ->
  forall s' r, sstep c s op = (s', r) -> step_ok c s op s' r.
Proof.
  intros LI R K OK OA BA ME ST F s' r E. rewrite ST in E. clear ST.
  unfold prepare_extend_ttl in E. rewrite K in E. cbn [negb] in E.
  rewrite (cfg_live c s k (run_ok_live c s R)) in E.
  destruct (read_step c s k LI R K) as [(s1 & G & CS & D & R1 & Cv & FE & Mg)|(M & ND & G)]; rewrite G in E.
  - left. rewrite ME. unfold with_live. unfold unit_out in E.
    assert (Done : forall e, s' = s1 -> r = Err e -> snd (with_live (contents c s) k f) = Err e ->
      (forall k', fst (with_live (contents c s) k f) k' = contents c s k') ->
      r = snd (with_live (contents c s) k f) /\ (forall k0, contents c s' k0 = fst (with_live (contents c s) k f) k0)
      /\ (bad_args op = None -> declared (st_foot s') (op_key op) (op_access op)) /\ run_ok c s' /\ covers (st_foot s) (st_foot s')
      /\ (sc_mode c = Enforcing -> st_foot s' = st_foot s)).
    { intros e -> -> S1 S2. split; [congruence|]. split; [intros; rewrite S2; apply CS|].
      rewrite OK, OA. repeat (split; auto). }
    unfold with_live in Done. destruct (contents c s k) as [[e l]|] eqn:CK.
    + destruct l as [old|].
      * specialize (F old). destruct (key_durability k) as [d|] eqn:KD.
        -- destruct (old <? li_seq (sc_li c)) eqn:EX.
           { cbn in E. apply pair_equal_spec in E. destruct E as [<- <-]. rewrite F in *. eapply Done; reflexivity. }
           rewrite (max_live_ok _ LI) in E. cbn [rbind] in E.
           assert (TT : (match d with Temporary => true | Persistent => false end) && (sat_sub_u32 (max_live (sc_li c)) (li_seq (sc_li c)) <? ext)
                        = match d with Temporary => max_live (sc_li c) <? li_seq (sc_li c) + ext | Persistent => false end).
           { destruct d; auto. unfold sat_sub_u32, max_live. apply eq_true_iff_eq. rewrite andb_true_l, !Z.ltb_lt. lia. }
           rewrite TT in E. destruct (match d with Temporary => _ | Persistent => false end) eqn:TX.
           { cbn in E. apply pair_equal_spec in E. destruct E as [<- <-]. rewrite F in *. eapply Done; reflexivity. }
           replace (sat_sub_u32 old (li_seq (sc_li c))) with (old - li_seq (sc_li c)) in E by (unfold sat_sub_u32; apply Z.ltb_ge in EX; lia).
           destruct (F s1 e) as [FI GE]. rewrite FI in E. destruct (f old) as [n|x] eqn:FO.
           ++ cbn in E. apply pair_equal_spec in E. destruct E as [<- <-]. cbn [snd fst]. specialize (GE n eq_refl).
              split; [reflexivity|]. rewrite OK, OA. split.
              { intros k'. destruct (Z.ltb_spec old n).
                - rewrite contents_mset. unfold upd.
                  destruct (lkey_eq_dec k' k); auto.
                - assert (n = old) by lia. subst n. rewrite CS. unfold upd. destruct (lkey_eq_dec k' k) as [->|]; [exact CK|reflexivity]. }
              assert (FT : st_foot (if old <? n then set_map s1 (mset (st_map s1) k (Some (e, Some n))) else s1) = st_foot s1)
                by (destruct (old <? n); reflexivity).
              rewrite FT. split; [auto|]. split; [|auto]. destruct (old <? n) eqn:LT; auto.
              apply mset_run_ok; auto. intros B Dk. apply Z.ltb_lt in LT. apply Z.ltb_ge in EX. exists n. split; [reflexivity|lia].
           ++ cbn in E. apply pair_equal_spec in E. destruct E as [<- <-]. eapply Done; reflexivity.
        -- assert (X : (s1, Err e_st_internal) = (s', r)).
           { rewrite <- E. destruct (old <? li_seq (sc_li c)); cbn; auto. rewrite (max_live_ok _ LI). reflexivity. }
           apply pair_equal_spec in X. destruct X as [<- <-]. rewrite F in *. eapply Done; reflexivity.
      * cbn in E. apply pair_equal_spec in E. destruct E as [<- <-]. eapply Done; reflexivity.
    + cbn in E. apply pair_equal_spec in E. destruct E as [<- <-]. eapply Done; reflexivity.
  - right. cbn in E. apply pair_equal_spec in E. destruct E as [<- <-]. rewrite OK, OA. auto.
Qed.

Theorem step_correct c s op s' r : li_ok (sc_li c) -> run_ok c s ->
  (sc_recording_build c = true -> write_ok (sc_li c) op) -> sstep c s op = (s', r) -> step_ok c s op s' r.
Proof.
  intros LI R W E.
  assert (Bad : forall e, bad_args op = Some e -> (s', r) = (s, Err e) -> step_ok c s op s' r).
  { intros e B X. apply pair_equal_spec in X. destruct X as [-> ->]. left. unfold meaning. rewrite B.
    split; [reflexivity|]. split; [reflexivity|]. split; [congruence|]. split; [exact R|]. split; [apply covers_refl|auto]. }
  destruct op as [k|k|k e l|k|k t x|k x mn mx].
  - destruct (key_supported k) eqn:K.
    + cbn in E. destruct (read_step c s k LI R K) as [(s1 & G & CS & D & R1 & Cv & FE & Mg)|(M & ND & G)]; rewrite G in E;
        cbn in E; apply pair_equal_spec in E; destruct E as [<- <-].
      * left. unfold meaning, bad_args. cbn. rewrite K. cbn. repeat (split; auto).
      * right. unfold bad_args. cbn. rewrite K. auto.
    + apply (Bad e_st_internal). { unfold bad_args. cbn. now rewrite K. }
      rewrite <- E. cbn. unfold try_get. now rewrite K.
  - destruct (key_supported k) eqn:K.
    + cbn in E. destruct (read_step c s k LI R K) as [(s1 & G & CS & D & R1 & Cv & FE & Mg)|(M & ND & G)]; rewrite G in E;
        cbn in E; apply pair_equal_spec in E; destruct E as [<- <-].
      * left. unfold meaning, bad_args. cbn. rewrite K. cbn. repeat (split; auto).
      * right. unfold bad_args. cbn. rewrite K. auto.
    + apply (Bad e_st_internal). { unfold bad_args. cbn. now rewrite K. }
      rewrite <- E. cbn. unfold try_get. now rewrite K.
  - destruct (key_supported k) eqn:K; [|apply (Bad e_st_internal); [unfold bad_args; now rewrite K|rewrite <- E; cbn; unfold put_opt; now rewrite K]].
    destruct (entry_supported e) eqn:EV; [|apply (Bad e_st_internal); [unfold bad_args; now rewrite K, EV|rewrite <- E; cbn; unfold put_opt; now rewrite K, EV]].
    cbn in E. destruct (put_step c s k (Some (e, l)) LI R K EV W) as [(s1 & G & CS & D & R1 & Cv & FE)|(M & ND & G)]; rewrite G in E;
        cbn in E; apply pair_equal_spec in E; destruct E as [<- <-].
    + left. unfold meaning, bad_args. rewrite K, EV. cbn. repeat (split; auto).
    + right. unfold bad_args. rewrite K, EV. cbn. auto.
  - destruct (key_supported k) eqn:K; [|apply (Bad e_st_internal); [unfold bad_args; cbn; now rewrite K|rewrite <- E; cbn; unfold put_opt; now rewrite K]].
    cbn [sstep] in E. destruct (put_step c s k None LI R K eq_refl (fun _ => I)) as [(s1 & G & CS & D & R1 & Cv & FE)|(M & ND & G)];
      rewrite G in E; cbn in E; apply pair_equal_spec in E; destruct E as [<- <-].
    + left. unfold meaning, bad_args. cbn. rewrite K. cbn. repeat (split; auto).
    + right. unfold bad_args. cbn. rewrite K. auto.
  - destruct (x <? t) eqn:TX.
    { apply (Bad e_st_input); [unfold bad_args; now rewrite TX|]. rewrite <- E. cbn. unfold extend_ttl. now rewrite TX. }
    destruct (key_supported k) eqn:K.
    2:{ apply (Bad e_st_internal); [unfold bad_args; now rewrite TX, K|]. rewrite <- E. cbn. unfold extend_ttl, prepare_extend_ttl. now rewrite TX, K. }
    assert (BA : bad_args (SExtend k t x) = None) by (unfold bad_args; now rewrite TX, K).
    refine (extend_step c s k (SExtend k t x) (fun old => extended (sc_li c) k old t x)
      (fun s1 ti => match checked_add_u32 (li_seq (sc_li c)) x with
                    | None => (s1, Err e_ctx_internal)
                    | Some n => if ti_ttl ti <=? t then (apply_ttl_extension s1 k ti (Z.min n (ti_max ti)), Ok tt) else (s1, Ok tt)
                    end) x LI R K eq_refl eq_refl BA _ _ _ s' r E).
    + unfold meaning. now rewrite BA.
    + cbn. unfold extend_ttl. rewrite TX. reflexivity.
    + intros old. unfold extended. destruct (key_durability k) as [d|] eqn:KD; auto.
      destruct (Z.ltb_spec old (li_seq (sc_li c))) as [|OL]; auto.
      destruct (match d with Temporary => _ | Persistent => false end); auto.
      intros s1 e. unfold checked_add_u32, apply_ttl_extension. cbn [ti_entry ti_old ti_ttl ti_max].
      destruct (Z.leb_spec (li_seq (sc_li c) + x) u32_max) as [LE|GT]; destruct (Z.ltb_spec u32_max (li_seq (sc_li c) + x)); try lia.
      * set (q := Z.min (li_seq (sc_li c) + x) (max_live (sc_li c))).
        destruct (old - li_seq (sc_li c) <=? t) eqn:TH.
        -- split; [|intros n [= <-]; lia].
           destruct (Z.ltb_spec old q); destruct (Z.ltb_spec old (Z.max old q)); try lia; [|reflexivity].
           rewrite (Z.max_r old q) by lia. reflexivity.
        -- rewrite Z.ltb_irrefl. split; [reflexivity|]. intros n [= <-]; lia.
      * split; [reflexivity|discriminate].
  - destruct (mx <? mn) eqn:TX.
    { apply (Bad e_st_input); [unfold bad_args; now rewrite TX|]. rewrite <- E. cbn. unfold extend_ttl_v2. now rewrite TX. }
    destruct (key_supported k) eqn:K.
    2:{ apply (Bad e_st_internal); [unfold bad_args; now rewrite TX, K|]. rewrite <- E. cbn. unfold extend_ttl_v2, prepare_extend_ttl. now rewrite TX, K. }
    assert (BA : bad_args (SExtendV2 k x mn mx) = None) by (unfold bad_args; now rewrite TX, K).
    refine (extend_step c s k (SExtendV2 k x mn mx) (fun old => extended_v2 (sc_li c) k old x mn mx)
      (fun s1 ti =>
        let init := sat_sub_u32 x (ti_ttl ti) in
        let final := Z.min (Z.min init mx) (sat_sub_u32 (ti_max ti) (ti_old ti)) in
        if final <? mn then (s1, Ok tt)
        else match checked_add_u32 (ti_old ti) final with
             | None => (s1, Err e_ctx_internal)
             | Some n => (apply_ttl_extension s1 k ti n, Ok tt)
             end) x LI R K eq_refl eq_refl BA _ _ _ s' r E).
    + unfold meaning. now rewrite BA.
    + cbn. unfold extend_ttl_v2. rewrite TX. reflexivity.
    + intros old. unfold extended_v2. destruct (key_durability k) as [d|] eqn:KD; auto.
      destruct (Z.ltb_spec old (li_seq (sc_li c))) as [|OL]; auto.
      destruct (match d with Temporary => _ | Persistent => false end); auto.
      intros s1 e. unfold checked_add_u32, apply_ttl_extension, sat_sub_u32. cbn [ti_entry ti_old ti_ttl ti_max]. cbv zeta.
      replace (x - (old - li_seq (sc_li c))) with (li_seq (sc_li c) + x - old) by lia.
      set (a := Z.min _ _).
      destruct (a <? mn) eqn:AM.
      { rewrite Z.ltb_irrefl. split; [reflexivity|]. intros n [= <-]; lia. }
      destruct (Z.leb_spec (old + a) u32_max) as [LE|GT]; destruct (Z.ltb_spec u32_max (old + a)); try lia.
      * split; [|intros n [= <-]; lia].
        destruct (Z.ltb_spec old (old + a)); destruct (Z.ltb_spec old (Z.max old (old + a))); try lia; [|reflexivity].
        rewrite Z.max_r by lia. reflexivity.
      * split; [reflexivity|discriminate].
Qed.
