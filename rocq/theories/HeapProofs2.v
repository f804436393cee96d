(* Consequences of the comparison and conversion lemmas, in the form the
   properties are stated. *)
From Coq Require Import ZArith Lia List Bool Sorted.
From Verif Require Import Prelude ValModel ValSpec ValProofs WideProofs SymbolProofs GuestProofs
  ContainerModel ContainerSpec ContainerProofs HeapModel HeapSpec TreeProofs HeapProofs ConvProofs.
Import ListNotations.
Open Scope Z_scope.

Lemma live_denotes h w : heap_ok h -> live h w -> exists t, denotes h w t.
Proof.
  intros H (W & G & O). destruct (is_object w) eqn:E.
  - destruct (O eq_refl) as (i & o & N & L & ->).
    unfold heap_ok in H. rewrite Forall_forall in H. destruct (H o (nth_error_In _ _ N)) as [t D].
    exists t. now apply dn_object.
  - destruct (has_tag w TgSymbolSmall) eqn:S.
    + apply has_tag_get_tag in S; [|reflexivity]. eexists. now apply dn_symbol.
    + assert (T : get_tag w <> TgSymbolSmall).
      { intros T. apply (has_tag_get_tag w TgSymbolSmall) in T; [congruence|reflexivity]. }
      destruct (good_atom w W G T) as (a & OK & ->).
      destruct a as [b| |u|i|k x|e|t hd]; try (eexists; apply dn_atom; [exact OK|reflexivity]).
      exfalso. assert (X : is_object (word_of_atom (AObj t hd)) = true).
      { apply u8_is_object_tag. rewrite (get_tag_word_of_atom _ OK). destruct OK as [X _]; exact X. }
      congruence.
Qed.

Lemma symbol_word_denotes h w s : symbol_word h w s -> denotes h w (TSymbol s).
Proof.
  intros [w' s' E|i s' V N L].
  - destruct (symbol_roundtrip_lemma s' w' E) as (<- & W & T & G). now apply dn_symbol.
  - apply dn_object; auto. now constructor.
Qed.

Lemma symbols_compare d h a b s t : (1 <= d)%nat -> symbol_word h a s -> symbol_word h b t ->
  cmp_val d h a b = Ok (lex s t).
Proof.
  intros D A B'. rewrite (cmp_val_total h d a b _ _ (symbol_word_denotes _ _ _ A) (symbol_word_denotes _ _ _ B')) by (cbn; lia).
  rewrite tcmp_leaf by reflexivity. reflexivity.
Qed.

Lemma compare_refl d h a : cmp_val d h a a = Ok Eq.
Proof. destruct d; cbn [cmp_val]; rewrite Z.eqb_refl; reflexivity. Qed.

Lemma compare_laws h : heap_ok h -> forall d1 d2 d3 a b c x y z, live h a -> live h b -> live h c ->
  (cmp_val d1 h a b = Ok x -> cmp_val d2 h b a = Ok y -> y = CompOpp x)
  /\ (cmp_val d1 h a b = Ok x -> cmp_val d2 h b c = Ok y -> cmp_val d3 h a c = Ok z ->
      (x = Eq -> z = y) /\ (y = Eq -> z = x) /\ (x = y -> z = x)).
Proof.
  intros H d1 d2 d3 a b c x y z A B' C.
  destruct (live_denotes h a H A) as [ta Da]. destruct (live_denotes h b H B') as [tb Db].
  destruct (live_denotes h c H C) as [tc Dc].
  pose proof (cmp_val_ok h d1 a b _ _ Da Db) as R1. pose proof (cmp_val_ok h d2 b a _ _ Db Da) as R2.
  pose proof (cmp_val_ok h d2 b c _ _ Db Dc) as R3. pose proof (cmp_val_ok h d3 a c _ _ Da Dc) as R4.
  split.
  - intros E1 E2. rewrite E1 in R1. rewrite E2 in R2. cbn in R1, R2. subst. apply tcmp_sym.
  - intros E1 E2 E3. rewrite E1 in R1. rewrite E2 in R3. rewrite E3 in R4. cbn in R1, R3, R4.
    destruct tcmp_total as [TE TS TT].
    assert (X1 : x = Eq -> z = y).
    { intros ->. symmetry in R1. apply TE in R1. subst. reflexivity. }
    assert (X2 : y = Eq -> z = x).
    { intros ->. symmetry in R3. apply TE in R3. subst. reflexivity. }
    split; [exact X1|]. split; [exact X2|]. intros ->.
    destruct y.
    + auto.
    + subst z. apply (TT ta tb tc); congruence.
    + subst z. rewrite (TS tc ta). rewrite (TT tc tb ta); [reflexivity|..];
      [rewrite (TS tb tc), <- R3|rewrite (TS ta tb), <- R1]; reflexivity.
Qed.

Lemma compare_fails h : heap_ok h -> forall d a b e, live h a -> live h b ->
  cmp_val d h a b = Err e ->
  e = ESys TContext CExceededLimit
  /\ exists t u, denotes h a t /\ denotes h b u /\ (d < tdepth t)%nat /\ (d < tdepth u)%nat.
Proof.
  intros H d a b e A B' E.
  destruct (live_denotes h a H A) as [ta Da]. destruct (live_denotes h b H B') as [tb Db].
  pose proof (cmp_val_ok h d a b _ _ Da Db) as R. rewrite E in R. destruct R as (-> & L1 & L2).
  split; [reflexivity|]. exists ta, tb. auto.
Qed.

Lemma compare_means h d a b t u c : denotes h a t -> denotes h b u -> cmp_val d h a b = Ok c -> c = tcmp t u.
Proof. intros A B' E. pose proof (cmp_val_ok h d a b _ _ A B') as R. now rewrite E in R. Qed.

Lemma loaded d h s h' v : sc_typed s -> to_host_val d h s = (h', Ok v) -> fits h' ->
  exists t, tree_of s = Some t /\ denotes h' v t /\ valid_tree t /\ (tdepth t <= d)%nat.
Proof.
  intros T E F. destruct (to_host_sound d h s h' _ T E) as [_ S].
  destruct (S F) as [_ D]. destruct (D v eq_refl) as (t & Et & Dt & Lt'). exists t.
  repeat split; auto. exact (denotes_valid _ _ _ Dt).
Qed.

Lemma load_read d h s h' v : sc_typed s -> to_host_val d h s = (h', Ok v) -> fits h' ->
  forall d' x, (d <= d')%nat -> from_host_val d' false (h' ++ x) v = Ok s.
Proof.
  intros T E F d' x L. destruct (loaded d h s h' v T E F) as (t & Et & Dt & _ & Lt').
  pose proof (from_host_ok d' false _ _ _ (denotes_ext _ x _ _ Dt)) as R.
  destruct (from_host_val d' false (h' ++ x) v) as [s'|e]; cbn in R.
  - destruct R as [-> _]. f_equal. symmetry. now apply tree_xdr.
  - destruct R as [[_ R]|(_ & R & _)]; [lia|discriminate].
Qed.

Lemma load_accepts d h s t : sc_typed s -> tree_of s = Some t -> valid_tree t -> (tdepth t <= d)%nat ->
  room h (tsize t) -> exists h' v, to_host_val d h s = (h', Ok v) /\ fits h'.
Proof.
  intros T E V D R. destruct (to_host_complete d h s t T E V D R) as (h' & v & Eh & L).
  exists h', v. split; [exact Eh|]. unfold fits, room in *. lia.
Qed.

Lemma load_refuses d h s h' r : sc_typed s -> to_host_val d h s = (h', r) -> fits h' ->
  ~ representable s -> exists e, r = Err e.
Proof.
  intros T E F N. destruct r as [v|e]; [|eauto]. exfalso. apply N.
  destruct (loaded d h s h' v T E F) as (t & Et & _ & V & _). exists t. auto.
Qed.

Lemma load_keeps d h s h' r : sc_typed s -> to_host_val d h s = (h', r) -> fits h' ->
  extends h h' /\ (heap_ok h -> heap_ok h').
Proof.
  intros T E F. destruct (to_host_sound d h s h' _ T E) as [X S]. split; [exact X|]. apply S, F.
Qed.

Lemma live_ext h x w : live h w -> live (h ++ x) w.
Proof.
  intros (W & G & O). split; [exact W|]. split; [exact G|]. intros E. destruct (O E) as (i & o & N & L & ->).
  exists i, o. split; [|auto]. rewrite nth_error_app1; [exact N|]. apply nth_error_Some. congruence.
Qed.

Lemma denotes_live h w t : denotes h w t -> live h w.
Proof.
  intros D. apply denotes_cases in D as [D|(i & o & -> & N & L & D)].
  - destruct (small_facts _ _ D) as (_ & O & _ & W & G). repeat split; auto; try apply W. congruence.
  - split; [|split].
    + exact (word_of_atom_word _ (obj_atom_ok i o L)).
    + exact (good_word_of_atom _ (obj_atom_ok i o L)).
    + intros _. exists i, o. auto.
Qed.

Lemma load_live d h s h' v : sc_typed s -> to_host_val d h s = (h', Ok v) -> fits h' -> live h' v.
Proof.
  intros T E F. destruct (loaded d h s h' v T E F) as (t & _ & D & _). exact (denotes_live _ _ _ D).
Qed.

Lemma load_all_ok d : forall l h h' rs, Forall sc_typed l -> load_all d h l = (h', rs) -> fits h' ->
  extends h h' /\ (heap_ok h -> heap_ok h') /\ forall v, In (Ok v) rs -> live h' v.
Proof.
  induction l as [|s l IH]; intros h h' rs T E F; cbn in E.
  - injection E as <- <-. split; [apply extends_refl|]. split; [auto|]. intros v [].
  - destruct (to_host_val d h s) as [h1 r1] eqn:E1. destruct (load_all d h1 l) as [h2 r2] eqn:E2.
    injection E as <- <-. destruct (IH _ _ _ (Forall_inv_tail T) E2 F) as (X2 & K2 & L2).
    pose proof (extends_fits _ _ X2 F) as F1.
    destruct (load_keeps _ _ _ _ _ (Forall_inv T) E1 F1) as [X1 K1].
    split; [exact (extends_trans _ _ _ X1 X2)|]. split; [auto|]. intros v [->|I]; [|auto].
    destruct X2 as [x ->]. apply live_ext. exact (load_live _ _ _ _ _ (Forall_inv T) E1 F1).
Qed.

Lemma orders_agree d1 d2 h s1 s2 h1 h2 v1 v2 : sc_typed s1 -> sc_typed s2 ->
  to_host_val d1 h s1 = (h1, Ok v1) -> to_host_val d2 h1 s2 = (h2, Ok v2) -> fits h2 ->
  forall x,
    (forall d d' c c', cmp_val d (h2 ++ x) v1 v2 = Ok c -> cmp_scval d' s1 s2 = Ok c' -> c = c')
    /\ (forall d d', (d1 <= d \/ d2 <= d)%nat -> (d1 <= d' \/ d2 <= d')%nat ->
        exists c, cmp_val d (h2 ++ x) v1 v2 = Ok c /\ cmp_scval d' s1 s2 = Ok c).
Proof.
  intros T1 T2 E1 E2 F x.
  destruct (load_keeps _ _ _ _ _ T2 E2 F) as [X _]. pose proof (extends_fits _ _ X F) as F1.
  destruct (loaded _ _ _ _ _ T1 E1 F1) as (t1 & Et1 & D1 & _ & L1).
  destruct (loaded _ _ _ _ _ T2 E2 F) as (t2 & Et2 & D2 & _ & L2).
  destruct X as [y ->]. apply (denotes_ext _ y) in D1. apply (denotes_ext _ x) in D1, D2.
  split.
  - intros d d' c c' C C'. pose proof (cmp_val_ok _ d _ _ _ _ D1 D2) as R.
    pose proof (cmp_scval_ok d' _ _ _ _ T1 T2 Et1 Et2) as R'. rewrite C in R. rewrite C' in R'. cbn in *. congruence.
  - intros d d' H H'. exists (tcmp t1 t2). pose proof (cmp_val_ok _ d _ _ _ _ D1 D2) as R.
    pose proof (cmp_scval_ok d' _ _ _ _ T1 T2 Et1 Et2) as R'. split.
    + destruct (cmp_val d _ v1 v2); cbn in R; [congruence|lia].
    + destruct (cmp_scval d' s1 s2); cbn in R'; [congruence|lia].
Qed.

(* a map is accepted by the host exactly when its keys ascend in the XDR order *)
Lemma map_keys_agree d h m h' v : sc_typed (SMap (Some m)) -> to_host_val d h (SMap (Some m)) = (h', Ok v) -> fits h' ->
  forall d', (d <= d')%nat -> check_sorted (cmp_scval d') m = Ok tt.
Proof.
  intros T E F d' L. destruct (loaded _ _ _ _ _ T E F) as (t & Et & _ & V & Dp).
  cbn [tree_of] in Et. destruct (opt_list (opt_pair tree_of) m) as [ts|] eqn:El; [|discriminate]. apply some_inj in Et. subst t.
  apply opt_list_F2 in El. cbn [valid_tree] in V. destruct V as (_ & So & _).
  cbn [sc_typed optP] in T. rewrite allP_Forall in T. cbn [tdepth] in Dp.
  set (kd := fun s => match tree_of s with Some t => t | None => TVoid end).
  set (P := fun s => sc_typed s /\ exists t, tree_of s = Some t /\ (tdepth t <= d')%nat).
  assert (Lts : Forall (fun p => (tdepth (fst p) <= d')%nat) ts).
  { assert (X : (lmax (map (fun p => Nat.max (tdepth (fst p)) (tdepth (snd p))) ts) <= d')%nat) by lia.
    apply lmax_le in X. rewrite Forall_map in X. eapply Forall_impl; [|exact X]. cbn; intros; lia. }
  apply (check_sorted_complete (cmp_scval d') tcmp kd P).
  - intros a b o (Ta & ta & Ea & _) (Tb & tb & Eb & _) C.
    pose proof (cmp_scval_ok d' _ _ _ _ Ta Tb Ea Eb) as R. rewrite C in R. cbn in R. unfold kd. now rewrite Ea, Eb.
  - unfold keysP. clear So E. revert T Lts. induction El as [|[a b] [ta tb] l ts' Ep El IH]; intros T Lts; [constructor|].
    apply opt_pair_some in Ep as [Ea Eb]. constructor.
    + split; [apply (Forall_inv T)|]. exists ta. split; [exact Ea|]. exact (Forall_inv Lts).
    + apply IH; [|exact (Forall_inv_tail T)|exact (Forall_inv_tail Lts)]. cbn [map lmax fold_right] in Dp.
      unfold lmax. lia.
  - intros a b (Ta & ta & Ea & La) (Tb & tb & Eb & Lb). exists (tcmp ta tb).
    pose proof (cmp_scval_ok d' _ _ _ _ Ta Tb Ea Eb) as R. destruct (cmp_scval d' a b); cbn in R; [congruence|lia].
  - unfold map_sorted, keys_ascending in *.
    rewrite (SS_map (fun a b => tcmp a b = Lt) (fun p : scval * scval => kd (fst p))).
    rewrite (SS_map (fun a b => tcmp a b = Lt) (fun p : tval * tval => fst p)) in So.
    replace (map (fun p : scval * scval => kd (fst p)) m) with (map (fun p : tval * tval => fst p) ts); [exact So|].
    clear So E T Lts Dp. induction El as [|[a b] [ta tb] l ts' Ep El IH]; [reflexivity|].
    apply opt_pair_some in Ep as [Ea Eb]. cbn [map fst]. f_equal; [|exact IH]. unfold kd. cbn [fst] in Ea. now rewrite Ea.
Qed.

(* storage conversion refuses exactly the trees holding a muxed address *)
Lemma storage_read d h s h' v : sc_typed s -> to_host_val d h s = (h', Ok v) -> fits h' ->
  forall d' x t, (d <= d')%nat -> tree_of s = Some t ->
  (mux_free t -> from_host_val d' true (h' ++ x) v = Ok s)
  /\ (~ mux_free t -> from_host_val d' true (h' ++ x) v = Err (ESys TStorage CInvalidInput)).
Proof.
  intros T E F d' x t L Et. destruct (loaded d h s h' v T E F) as (t' & Et' & Dt & _ & Lt').
  assert (t' = t) by congruence. subst t'.
  pose proof (from_host_ok d' true _ _ _ (denotes_ext _ x _ _ Dt)) as R.
  destruct (from_host_val d' true (h' ++ x) v) as [s'|e]; cbn in R.
  - destruct R as [-> M]. split; [|intros N; exfalso; auto]. intros _. f_equal. symmetry. now apply tree_xdr.
  - destruct R as [[_ R]|(-> & _ & N)]; [lia|]. split; [contradiction|reflexivity].
Qed.

Lemma xdr_tree t : valid_tree t -> sc_typed (xdr_of t) /\ tree_of (xdr_of t) = Some t.
Proof.
  induction t as [t L1 L2|l IH|m IH] using tval_ind'; intros V.
  - destruct t as [b| |e|x|x|k x|b|b|b|l|m|a|b]; try (split; [exact V|reflexivity]); try (split; [exact I|reflexivity]).
    + split; apply xdr_num_range; exact V.
    + destruct (L1 l eq_refl).
    + destruct (L2 m eq_refl).
    + split; [|reflexivity]. cbn. destruct a; [exact I..|contradiction].
  - cbn [valid_tree] in V. destruct V as [_ V]. rewrite allP_Forall in V. cbn [xdr_of sc_typed optP tree_of].
    rewrite allP_Forall, Forall_map. rewrite Forall_forall in *. split; [intros x I; apply IH; auto|].
    rewrite (proj2 (opt_list_F2 tree_of (map xdr_of l) l)); [reflexivity|].
    assert (G : forall t, In t l -> tree_of (xdr_of t) = Some t) by (intros x I; apply IH; auto).
    clear IH V. induction l; cbn; constructor; [apply G; left; reflexivity|apply IHl; intros; apply G; right; assumption].
  - cbn [valid_tree] in V. destruct V as (_ & _ & V). rewrite allP_Forall in V. cbn [xdr_of sc_typed optP tree_of].
    rewrite allP_Forall, Forall_map. rewrite Forall_forall in *. split.
    { intros x I. cbn [fst snd]. destruct (IH x I), (V x I). split; [apply H; auto|apply H0; auto]. }
    rewrite (proj2 (opt_list_F2 (opt_pair tree_of) (map (fun p => (xdr_of (fst p), xdr_of (snd p))) m) m)); [reflexivity|].
    assert (G : forall p, In p m -> opt_pair tree_of (xdr_of (fst p), xdr_of (snd p)) = Some p).
    { intros x I. apply opt_pair_some. cbn [fst snd]. destruct (IH x I), (V x I). split; [apply H; auto|apply H0; auto]. }
    clear IH V. induction m; cbn; constructor; [apply G; left; reflexivity|apply IHm; intros; apply G; right; assumption].
Qed.

Lemma read_load h v : heap_ok h -> live h v -> forall d s, from_host_val d false h v = Ok s ->
  sc_typed s /\ representable s
  /\ (forall d' h' v', to_host_val d' h s = (h', Ok v') -> fits h' ->
        forall d'', (d' <= d'')%nat -> cmp_val d'' h' v v' = Ok Eq).
Proof.
  intros H L d s E. destruct (live_denotes h v H L) as [t D]. pose proof (denotes_valid _ _ _ D) as V.
  pose proof (from_host_ok d false _ _ _ D) as R. rewrite E in R. destruct R as [-> _].
  destruct (xdr_tree t V) as [T Et]. split; [exact T|]. split; [exists t; auto|].
  intros d' h' v' E' F d'' Ld. destruct (loaded _ _ _ _ _ T E' F) as (t' & Et' & D' & _ & Lt').
  assert (t' = t) by congruence. subst t'.
  destruct (load_keeps _ _ _ _ _ T E' F) as [[x ->] _].
  rewrite (cmp_val_total _ _ _ _ _ _ (denotes_ext _ x _ _ D) D') by lia. now rewrite tcmp_refl.
Qed.
