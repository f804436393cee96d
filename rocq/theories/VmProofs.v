(* Proofs about the acceptance of modules and the module cache. *)
From Coq Require Import ZArith Lia List Bool.
From Verif Require Import Prelude AMap VmTable BudgetModel VmModel VmSpec.
Import ListNotations.
Open Scope Z_scope.

Lemma bytes_eqb_eq a b : bytes_eqb a b = true <-> a = b.
Proof. unfold bytes_eqb. destruct (bytes_eq_dec a b); split; congruence. Qed.
Lemma bytes_eqb_refl a : bytes_eqb a a = true. Proof. now apply bytes_eqb_eq. Qed.
Lemma tys_eqb_eq a : forall b, tys_eqb a b = true <-> a = b.
Proof.
  induction a as [|x a IH]; intros [|y b]; cbn; try (split; congruence).
  rewrite andb_true_iff, IH. destruct x, y; cbn; intuition congruence.
Qed.
Lemma type_eqb_eq a b : type_eqb a b = true <-> a = b.
Proof. unfold type_eqb. rewrite andb_true_iff, !tys_eqb_eq. destruct a, b; cbn. intuition congruence. Qed.

Lemma custom_section_spec l n d : custom_section l n = Some d <->
  exists before after, l = before ++ (n, d) :: after /\ ~ In n (map fst before).
Proof.
  induction l as [|[n' d'] l IH]; cbn.
  - split; [discriminate|]. intros (b & a & E & _). destruct b; discriminate.
  - destruct (bytes_eqb n' n) eqn:B.
    + apply bytes_eqb_eq in B. subst n'. split.
      * intros [= ->]. exists [], l. auto.
      * intros (b & a & E & N). destruct b as [|[x y] b]; [now injection E as -> _|]. injection E as E1 E2 E3. exfalso. apply N. left. now subst.
    + assert (n' <> n) by (intros ->; rewrite bytes_eqb_refl in B; discriminate). rewrite IH. split.
      * intros (b & a & -> & N). exists ((n', d') :: b), a. split; auto. cbn. tauto.
      * intros (b & a & E & N). destruct b as [|[x y] b]; [injection E as E1 E2 E3; congruence|]. injection E as E1 E2 E3. exists b, a. split; auto. intros I. apply N. right. exact I.
Qed.
Lemma be32_spec l n r : be32 l = Some (n, r) <-> exists w, l = w ++ r /\ word_of w n.
Proof.
  split.
  - destruct l as [|a [|b [|c [|d l]]]]; try discriminate. intros [= <- <-]. exists [a; b; c; d]. split; auto. exists a, b, c, d. split; auto. lia.
  - intros (w & -> & a & b & c & d & -> & ->). cbn. f_equal. f_equal. lia.
Qed.
Lemma decode_meta_spec l p q : decode_meta l = Ok (p, q) <->
  exists w0 w1 w2 rest, l = w0 ++ w1 ++ w2 ++ rest /\ word_of w0 0 /\ word_of w1 p /\ word_of w2 q.
Proof.
  unfold decode_meta. split.
  - destruct (be32 l) as [[k r]|] eqn:B; [|discriminate]. destruct (Z.eqb_spec k 0) as [->|]; [|discriminate].
    destruct (be32 r) as [[x r2]|] eqn:B2; [|discriminate]. destruct (be32 r2) as [[y r3]|] eqn:B3; [|discriminate].
    intros [= <- <-]. apply be32_spec in B as (w0 & -> & W0). apply be32_spec in B2 as (w1 & -> & W1). apply be32_spec in B3 as (w2 & -> & W2).
    exists w0, w1, w2, r3. auto.
  - intros (w0 & w1 & w2 & rest & -> & W0 & W1 & W2).
    rewrite (proj2 (be32_spec (w0 ++ w1 ++ w2 ++ rest) 0 (w1 ++ w2 ++ rest))) by eauto. cbn [Z.eqb].
    rewrite (proj2 (be32_spec (w1 ++ w2 ++ rest) p (w2 ++ rest))) by eauto.
    rewrite (proj2 (be32_spec (w2 ++ rest) q rest)) by eauto. reflexivity.
Qed.
Lemma decode_meta_nonempty l v : decode_meta l = Ok v -> l <> [].
Proof. intros E ->. discriminate. Qed.

Section Vm.
  Variable E : henv.

  Lemma check_version_spec ledger p q : ledger <= e_proto E ->
    check_version E ledger (p, q) = Ok tt <-> made_for E ledger p q.
  Proof.
    intros L. unfold check_version, made_for. destruct (Z.ltb_spec (e_proto E) ledger); [lia|].
    destruct (Z.ltb_spec p ledger); [|destruct (Z.eqb_spec p ledger)].
    - destruct (Z.eqb_spec q 0); split; intros X; try discriminate; auto; lia.
    - destruct (Z.eqb_spec (e_pre E) q); split; intros X; try discriminate; auto; lia.
    - split; [discriminate|lia].
  Qed.
  Lemma check_version_le ledger v : check_version E ledger v = Ok tt -> ledger <= e_proto E.
  Proof. unfold check_version. destruct v. destruct (Z.ltb_spec (e_proto E) ledger); [discriminate|auto]. Qed.
  Lemma check_meta_spec ledger m p q :
    check_meta E ledger m = Ok (p, q) <-> ledger <= e_proto E /\ declares m p q /\ made_for E ledger p q.
  Proof.
    unfold check_meta. split.
    - destruct (custom_section (m_custom m) env_meta_name) as [d|] eqn:C; [|discriminate].
      destruct d as [|b d]; [discriminate|]. destruct (decode_meta (b :: d)) as [[x y]|] eqn:D; cbn [rbind]; [|discriminate].
      destruct (check_version E ledger (x, y)) as [[]|] eqn:V; cbn; [|discriminate]. intros [= <- <-].
      pose proof (check_version_le _ _ V) as L. split; auto. split; [|now apply check_version_spec].
      apply custom_section_spec in C as (be & af & C1 & C2). exists be, (b :: d), af. split; auto. split; auto. now apply decode_meta_spec.
    - intros (L & (be & d & af & C1 & C2 & D) & V). rewrite (proj2 (custom_section_spec _ _ d)) by eauto.
      apply decode_meta_spec in D. pose proof (decode_meta_nonempty _ _ D). destruct d; [congruence|]. rewrite D. cbn [rbind].
      rewrite (proj2 (check_version_spec _ _ _ L) V). reflexivity.
  Qed.
  Lemma check_max_args_spec l : check_max_args l = Ok tt <->
    (forall n t, In (n, XFunc t) l -> (length (ft_params t) <= 32)%nat /\ (length (ft_results t) <= 32)%nat).
  Proof.
    induction l as [|[n [t|]] l IH]; cbn [check_max_args].
    - split; auto. intros _ n t [].
    - unfold max_vm_args. destruct (Nat.ltb_spec 32 (length (ft_results t))).
      { split; [discriminate|]. intros X. specialize (X n t (or_introl eq_refl)). lia. }
      destruct (Nat.ltb_spec 32 (length (ft_params t))).
      { split; [discriminate|]. intros X. specialize (X n t (or_introl eq_refl)). lia. }
      rewrite IH. split.
      + intros X n' t' [[= <- <-]|I]; [lia|eauto].
      + intros X n' t' I. apply (X n'). now right.
    - rewrite IH. split.
      + intros X n' t' [A|I]; [discriminate|eauto].
      + intros X n' t' I. apply (X n'). now right.
  Qed.
  Lemma parse_spec ledger w p : parse E ledger w = Ok p <->
    exists pre, e_decode E w = Ok (p_mod p) /\ small_exports (p_mod p) /\ ledger <= e_proto E
      /\ declares (p_mod p) (p_proto p) pre /\ made_for E ledger (p_proto p) pre.
  Proof.
    unfold parse. split.
    - destruct (e_decode E w) as [m|]; [|discriminate]. cbn [rbind]. destruct (check_max_args (m_exports m)) as [[]|] eqn:A; [|discriminate]. cbn [rbind].
      destruct (check_meta E ledger m) as [[x y]|] eqn:M; [|discriminate]. cbn [rbind]. intros [= <-]. cbn. exists y.
      apply check_meta_spec in M as (L & D & V). split; auto. split; [exact (proj1 (check_max_args_spec _) A)|auto].
    - intros (pre & -> & S & L & D & V). cbn [rbind]. unfold small_exports in S. rewrite (proj2 (check_max_args_spec _) S). cbn [rbind].
      rewrite (proj2 (check_meta_spec _ _ _ _) (conj L (conj D V))). cbn. now destruct p.
  Qed.

  Lemma fits_spec p l f : fits p l f = true <-> available p f /\ available l f.
  Proof.
    unfold fits, available. destruct (hf_min f) as [n|], (hf_max f) as [x|]; cbn; rewrite ?andb_true_r.
    - rewrite andb_true_iff, !negb_true_iff, !orb_false_iff, !Z.ltb_ge. split.
      + intros [[A B] [C D]]. repeat split; intros ? [= <-]; lia.
      + intros [[A B] [C D]]. repeat split; auto.
    - rewrite !negb_true_iff, !orb_false_iff, !Z.ltb_ge. split.
      + intros [A B]. repeat split; intros ? [= <-]; lia.
      + intros [[A B] [C D]]. auto.
    - rewrite !negb_true_iff, !orb_false_iff, !Z.ltb_ge. split.
      + intros [A B]. repeat split; intros ? [= <-]; lia.
      + intros [[A B] [C D]]. auto.
    - split; auto. intros _. repeat split; discriminate.
  Qed.

  Lemma lookup_spec l mo fn f : NoDup (map names l) -> lookup l mo fn = Some f <-> In f l /\ hf_mod f = mo /\ hf_fn f = fn.
  Proof.
    intros ND. unfold lookup. split.
    - intros F. apply find_some in F as [I X]. apply andb_true_iff in X as [X Y]. apply bytes_eqb_eq in X, Y. auto.
    - intros (I & <- & <-). induction l as [|g l IH]; [destruct I|]. cbn. inversion_clear ND as [|? ? NI ND']. destruct I as [->|I].
      + now rewrite !bytes_eqb_refl.
      + destruct (bytes_eqb (hf_mod f) (hf_mod g) && bytes_eqb (hf_fn f) (hf_fn g)) eqn:X; [|auto].
        apply andb_true_iff in X as [X Y]. apply bytes_eqb_eq in X, Y. exfalso. apply NI. apply in_map_iff. exists f. unfold names. rewrite X, Y. auto.
  Qed.
  Lemma nodup_filter (q : hostfn -> bool) l : NoDup (map names l) -> NoDup (map names (filter q l)).
  Proof.
    induction l as [|g l IH]; cbn; auto. intros ND. inversion_clear ND as [|? ? NI ND']. destruct (q g); cbn; auto.
    constructor; auto. intros I. apply NI. apply in_map_iff in I as (x & Ex & I). apply filter_In in I as [I _]. apply in_map_iff. eauto.
  Qed.
  (* linking with a table that has unique names *)
  Lemma link_spec l : NoDup (map names l) -> forall is fs, link l is = Ok fs <-> Forall2 imports_fn is fs /\ Forall (fun f => In f l) fs.
  Proof.
    intros ND. induction is as [|[[mo fn] x] is IH]; intros fs; cbn [link].
    - split; [intros [= <-]; auto|]. intros [F _]. inversion F. reflexivity.
    - split.
      + destruct (lookup l mo fn) as [f|] eqn:L; [|discriminate]. destruct x as [t|]; [|discriminate]. destruct (type_eqb t (host_type f)) eqn:T; [|discriminate].
        destruct (link l is) as [fs'|] eqn:K; [|discriminate]. cbn. intros [= <-]. apply type_eqb_eq in T. subst t.
        apply (lookup_spec l mo fn f ND) in L as (I & <- & <-). destruct (proj1 (IH fs') eq_refl) as [K1 K2]. split; constructor; auto. reflexivity.
      + intros [F A]. inversion F as [|? f ? fs' I F']; subst. inversion A; subst. unfold imports_fn in I. injection I as -> -> ->.
        rewrite (proj2 (lookup_spec l (hf_mod f) (hf_fn f) f ND)) by auto. rewrite (proj2 (type_eqb_eq _ _) eq_refl).
        rewrite (proj2 (IH fs')) by auto. reflexivity.
  Qed.
  Lemma imported_spec m f : imported m f = true <->
    (length (hf_mod f) < 10)%nat /\ (length (hf_fn f) < 10)%nat /\ exists t, In (hf_mod f, hf_fn f, XFunc t) (m_imports m).
  Proof.
    unfold imported. rewrite existsb_exists. split.
    - intros ([[mo fn] [t|]] & I & X); [|discriminate]. rewrite !andb_true_iff in X. destruct X as [[[X1 X2] X3] X4].
      apply bytes_eqb_eq in X3, X4. subst mo fn. apply Nat.ltb_lt in X1, X2. unfold sym_len_limit in *. eauto.
    - intros (A & B & t & I). exists (hf_mod f, hf_fn f, XFunc t). split; auto. rewrite !andb_true_iff, !bytes_eqb_refl. unfold sym_len_limit.
      repeat split; auto; now apply Nat.ltb_lt.
  Qed.

  Hypothesis T : table_ok (e_fns E).

  (* the two linkers come to the same *)
  Lemma link_same m : forall is, incl is (m_imports m) -> link (minimal_linker E m) is = link (maximal_linker E) is.
  Proof.
    destruct T as [ND SH]. induction is as [|[[mo fn] x] is IH]; intros I; cbn [link]; auto.
    assert (I' : incl is (m_imports m)) by (intros z Z; apply I; now right). rewrite (IH I').
    destruct (lookup (minimal_linker E m) mo fn) as [f|] eqn:L.
    - apply lookup_spec in L as (L & A & B); [|apply nodup_filter, ND]. apply filter_In in L as [L _].
      rewrite (proj2 (lookup_spec (maximal_linker E) mo fn f ND)) by auto. reflexivity.
    - destruct (lookup (maximal_linker E) mo fn) as [f|] eqn:L2; auto. destruct x as [t|]; auto. exfalso.
      apply lookup_spec in L2 as (L2 & A & B); [|exact ND]. assert (X : lookup (minimal_linker E m) mo fn = Some f); [|congruence].
      apply lookup_spec; [apply nodup_filter, ND|]. split; auto. apply filter_In. split; auto. apply imported_spec.
      rewrite Forall_forall in SH. destruct (SH _ L2) as [S1 S2]. split; auto. split; auto. exists t. subst mo fn. apply I. now left.
  Qed.
  Lemma instantiate_same ledger p : instantiate E ledger p (minimal_linker E (p_mod p)) = instantiate E ledger p (maximal_linker E).
  Proof.
    unfold instantiate. rewrite (link_same (p_mod p) (m_imports (p_mod p)) (incl_refl _)). reflexivity.
  Qed.
  Lemma check_imports_spec ledger p calls : Forall2 imports_fn (m_imports (p_mod p)) calls -> Forall (fun f => In f (e_fns E)) calls ->
    check_imports E ledger p = Ok tt <-> Forall (fun f => available (p_proto p) f /\ available ledger f) calls.
  Proof.
    destruct T as [ND SH]. intros F I. unfold check_imports. split.
    - destruct (forallb _ (e_fns E)) eqn:A; [|discriminate]. intros _. rewrite forallb_forall in A. apply Forall_forall. intros f Hf.
      rewrite Forall_forall in I. specialize (A f (I f Hf)). apply orb_true_iff in A as [A|A]; [|now apply fits_spec].
      exfalso. apply negb_true_iff in A. assert (X : imported (p_mod p) f = true); [|congruence]. apply imported_spec.
      rewrite Forall_forall in SH. destruct (SH _ (I f Hf)) as [S1 S2]. split; auto. split; auto.
      clear -F Hf. induction F as [|i g is gs R F IH]; [destruct Hf|]. destruct Hf as [->|Hf]; [|destruct (IH Hf) as [t X]; exists t; now right].
      eexists. left. exact R.
    - intros A. assert (forallb (fun f => negb (imported (p_mod p) f) || fits (p_proto p) ledger f) (e_fns E) = true) as ->; auto.
      apply forallb_forall. intros f Hf. destruct (imported (p_mod p) f) eqn:Im; auto. cbn. apply fits_spec.
      apply imported_spec in Im as (_ & _ & t & It). rewrite Forall_forall in A. apply A.
      (* the import is bound to the one function of its name *)
      assert (X : exists g, In g calls /\ names g = names f).
      { clear -F It. induction F as [|i g is gs R F IH]; [destruct It|]. destruct It as [->|It].
        - exists g. split; [now left|]. unfold imports_fn in R. injection R as R1 R2 R3. unfold names. congruence.
        - destruct (IH It) as (g' & G1 & G2). exists g'. split; auto. now right. }
      destruct X as (g & G1 & G2). rewrite Forall_forall in I. specialize (I g G1).
      assert (g = f); [|now subst]. clear -ND I Hf G2. induction (e_fns E) as [|h l IH]; [destruct I|].
      cbn in ND. inversion_clear ND as [|? ? NI ND']. destruct I as [->|I], Hf as [->|Hf]; auto.
      + exfalso. apply NI. rewrite G2. now apply in_map.
      + exfalso. apply NI. rewrite <- G2. now apply in_map.
  Qed.

  Lemma instantiate_spec ledger p v : instantiate E ledger p (maximal_linker E) = Ok v <->
    vm_parsed v = p /\ ledger = e_proto E /\ Forall2 imports_fn (m_imports (p_mod p)) (vm_calls v)
    /\ Forall (fun f => In f (e_fns E) /\ available (p_proto p) f /\ available ledger f) (vm_calls v)
    /\ e_init E (p_mod p) = Ok tt /\ m_start (p_mod p) = false.
  Proof.
    destruct T as [ND SH]. unfold instantiate, protocol_supported. split.
    - destruct (Z.ltb_spec ledger (e_proto E)); [discriminate|]. destruct (Z.ltb_spec (e_proto E) ledger); [discriminate|]. cbn [rbind].
      destruct (check_imports E ledger p) as [[]|] eqn:C; [|discriminate]. cbn [rbind].
      destruct (link (maximal_linker E) (m_imports (p_mod p))) as [fs|] eqn:L; [|discriminate]. cbn [rbind].
      destruct (e_init E (p_mod p)) as [[]|]; [|discriminate]. cbn [rbind]. destruct (m_start (p_mod p)); [discriminate|]. intros [= <-]. cbn.
      apply (link_spec _ ND) in L as [L1 L2]. apply (check_imports_spec _ _ _ L1 L2) in C. split; auto. split; [lia|]. split; auto. split; auto.
      rewrite Forall_forall in *. intros f I. split; [now apply L2|now apply C].
    - intros (<- & -> & L & A & I & S). rewrite Z.ltb_irrefl. cbn [rbind].
      assert (A1 : Forall (fun f => In f (e_fns E)) (vm_calls v)) by (eapply Forall_impl; [|exact A]; cbn; tauto).
      assert (A2 : Forall (fun f => available (p_proto (vm_parsed v)) f /\ available (e_proto E) f) (vm_calls v)) by (eapply Forall_impl; [|exact A]; cbn; tauto).
      rewrite (proj2 (check_imports_spec _ _ _ L A1) A2). cbn [rbind].
      rewrite (proj2 (link_spec (maximal_linker E) ND _ _)) by (split; [exact L|exact A1]). cbn [rbind]. rewrite I. cbn [rbind]. rewrite S. now destruct v.
  Qed.
  Lemma vm_new_spec ledger w v : vm_new E ledger w = Ok v <->
    e_decode E w = Ok (p_mod (vm_parsed v)) /\ acceptable E ledger (p_mod (vm_parsed v)) (p_proto (vm_parsed v)) (vm_calls v).
  Proof.
    unfold vm_new, acceptable. split.
    - destruct (parse E ledger w) as [p|] eqn:P; [|discriminate]. cbn [rbind]. rewrite instantiate_same. intros I.
      apply instantiate_spec in I as (<- & L & X). apply parse_spec in P as (pre & D & S & _ & M1 & M2). split; auto. split; auto. split; [eauto|]. split; auto.
    - intros (D & L & (pre & M1 & M2) & S & X). rewrite (proj2 (parse_spec ledger w (vm_parsed v))).
      + cbn [rbind]. rewrite instantiate_same. apply instantiate_spec. tauto.
      + exists pre. split; auto. split; auto. split; [lia|auto].
  Qed.
End Vm.

(* ---- later protocols *)
Lemma made_for_later E E' p q proto : later_host E E' -> made_for E p proto q -> p = e_proto E -> made_for E' (e_proto E') proto q.
Proof.
  intros (L & Z1 & Z2 & _) M ->. unfold made_for in *. rewrite Z1 in M. rewrite Z2.
  destruct M as [[-> ->]|[M ->]]; [|right; lia]. destruct (Z.eq_dec (e_proto E) (e_proto E')); [left; auto|right; lia].
Qed.
Lemma upgrade E E' w v : table_ok (e_fns E) -> table_ok (e_fns E') -> later_host E E' ->
  vm_new E (e_proto E) w = Ok v -> Forall (available (e_proto E')) (vm_calls v) -> vm_new E' (e_proto E') w = Ok v.
Proof.
  intros T T' LH V A. apply (vm_new_spec E T) in V as (D & L & (pre & M1 & M2) & S & F & C & I & ST). apply (vm_new_spec E' T').
  pose proof LH as (_ & _ & _ & IN & DE & IE). split; [now rewrite DE|]. split; auto. split.
  - exists pre. split; auto. eapply made_for_later; eauto.
  - split; auto. split; auto. split; [|split; [now rewrite IE|auto]]. rewrite Forall_forall in *. intros f X. destruct (C f X) as (C1 & C2 & _). auto.
Qed.

(* ---- the cache *)
Section Cache.
  Variable E : henv.
  Variable sha : list Z -> list Z.
  Variable extractable : list Z -> res unit.
  Hypothesis T : table_ok (e_fns E).
  Hypothesis PRE : e_pre E = 0.

  Lemma parse_later p p' w x : p <= p' -> p' <= e_proto E -> parse E p w = Ok x -> parse E p' w = Ok x.
  Proof.
    intros L L' X. apply parse_spec in X as (pre & D & S & _ & M1 & M2). apply parse_spec. exists pre. split; auto. split; auto. split; auto. split; auto.
    unfold made_for in *. rewrite PRE in *. destruct M2 as [[A ->]|[A ->]]; [|right; lia]. destruct (Z.eq_dec (p_proto x) p'); [left; auto|right; lia].
  Qed.
  (* everything cached is what parsing one of the added modules gives *)
  Definition cached_ok (ledger : Z) (all : list cache_op) (c : cache) : Prop :=
    forall h p, aget bytes_eq_dec c h = Some p -> exists l w, l <= ledger /\ h = sha w /\ parse E l w = Ok p /\ added all w.
  Lemma cache_run_ok ledger all : ops_before ledger all -> cached_ok ledger all (cache_run E sha extractable all).
  Proof.
    unfold cache_run. assert (H : forall ops c, incl ops all -> cached_ok ledger all c -> ops_before ledger ops -> cached_ok ledger all (fold_left (cache_step E sha extractable) ops c)).
    { induction ops as [|o ops IH]; cbn; auto. intros c I C B. inversion_clear B as [|? ? B1 B2]. apply incl_cons_inv in I as [I1 I2]. apply IH; auto.
      destruct o as [l w|h|]; cbn [cache_step].
      - unfold cache_add. destruct (extractable w); auto. destruct (aget bytes_eq_dec c (sha w)); auto. destruct (parse E l w) as [p|] eqn:P; auto.
        cbn. intros h q. rewrite aget_aset. destruct (bytes_eq_dec h (sha w)) as [->|]; [|apply C]. intros [= <-]. exists l, w. unfold added. eauto.
      - intros k q. rewrite aget_adel. destruct (bytes_eq_dec k h); [discriminate|apply C].
      - intros k q X. discriminate. }
    intros B. apply H; auto. apply incl_refl. intros h p X. discriminate.
  Qed.
  Lemma cache_transparent ops stored hash :
    ops_before (e_proto E) ops ->
    (forall h w, stored h = Ok (Some w) -> h = sha w) ->
    (forall w w', added ops w -> stored hash = Ok (Some w') -> sha w = sha w' -> w = w') ->
    instantiate_vm E (e_proto E) (Some (cache_run E sha extractable ops)) stored hash = instantiate_vm E (e_proto E) None stored hash.
  Proof.
    intros B ST INJ. pose proof (cache_run_ok _ _ B) as C. unfold instantiate_vm.
    destruct (stored hash) as [[w|]|] eqn:S; cbn [rbind]; auto. destruct (aget bytes_eq_dec _ hash) as [p|] eqn:A; auto.
    destruct (C _ _ A) as (l & w' & L1 & H1 & P & AD). rewrite (ST _ _ S) in H1. symmetry in H1. apply (INJ _ w) in H1; auto. subst w'.
    unfold vm_new. rewrite (parse_later l (e_proto E) w p) by (auto; lia). cbn [rbind]. now rewrite instantiate_same.
  Qed.
  Lemma recording_same ledger live stored hash :
    (forall w, stored hash = Ok (Some w) -> extractable w = Ok tt) -> (exists b, live hash = Ok b) ->
    instantiate_vm_recording E extractable ledger live stored hash = instantiate_vm E ledger None stored hash.
  Proof.
    intros X [b L]. unfold instantiate_vm_recording, instantiate_vm. rewrite L. cbn [rbind]. destruct b; auto.
    destruct (stored hash) as [[w|]|] eqn:S; cbn [rbind]; auto. rewrite (X _ eq_refl). reflexivity.
  Qed.
End Cache.

Lemma export_spec l n : export l n = None -> ~ In n (map fst l).
Proof. induction l as [|[n' x] l IH]; cbn; auto. destruct (bytes_eqb n' n) eqn:B; [discriminate|]. intros Ex [->|I]; [rewrite bytes_eqb_refl in B; discriminate|now apply IH]. Qed.
Lemma export_in l n x : export l n = Some x -> In (n, x) l.
Proof. induction l as [|[n' y] l IH]; cbn; [discriminate|]. destruct (bytes_eqb n' n) eqn:B; [apply bytes_eqb_eq in B; subst; intros [= ->]; auto|auto]. Qed.
Lemma export_nodup l n x : NoDup (map fst l) -> In (n, x) l -> export l n = Some x.
Proof.
  induction l as [|[n' y] l IH]; cbn; [intros _ []|]. intros ND I. inversion_clear ND as [|? ? NI ND']. destruct (bytes_eqb n' n) eqn:B.
  - apply bytes_eqb_eq in B. subst. destruct I as [[= ->]|I]; auto. exfalso. apply NI. apply in_map_iff. exists (n, x). auto.
  - destruct I as [[= -> ->]|I]; [rewrite bytes_eqb_refl in B; discriminate|auto].
Qed.
Lemma resolve_spec v fn n mo : NoDup (map fst (m_exports (p_mod (vm_parsed v)))) ->
  (resolve_call v fn n mo = Ok true <-> (n <= 32)%nat /\ exists r, In (fn, XFunc {| ft_params := repeat I64 n; ft_results := [r] |}) (m_exports (p_mod (vm_parsed v))))
  /\ (resolve_call v fn n mo = Ok false <-> mo = true /\ ~ In fn (map fst (m_exports (p_mod (vm_parsed v))))).
Proof.
  intros ND. unfold resolve_call. destruct (export _ fn) as [[t|]|] eqn:X.
  - pose proof (export_in _ _ _ X) as I. assert (NI : ~ ~ In fn (map fst (m_exports (p_mod (vm_parsed v))))) by (intros N; apply N; apply in_map_iff; exists (fn, XFunc t); auto).
    unfold max_vm_args. split.
    + split.
      * destruct (Nat.ltb_spec 32 n); [discriminate|]. destruct (Nat.eqb (length (ft_params t)) n); [|discriminate]. cbn [negb].
        destruct (tys_eqb _ _) eqn:TY; [|discriminate]. cbn [negb]. destruct (Nat.eqb_spec (length (ft_results t)) 1) as [R|]; [|discriminate]. intros _. split; auto.
        apply tys_eqb_eq in TY. destruct t as [ps [|r [|? ?]]]; try discriminate. cbn in *. subst ps. eauto.
      * intros (L & r & I'). pose proof (export_nodup _ _ _ ND I') as X'. assert (t = {| ft_params := repeat I64 n; ft_results := [r] |}) as -> by congruence. cbn [ft_params ft_results length].
        destruct (Nat.ltb_spec 32 n); [lia|]. rewrite repeat_length, Nat.eqb_refl. cbn [negb]. rewrite (proj2 (tys_eqb_eq _ _) eq_refl). reflexivity.
    + split; [|tauto]. destruct (Nat.ltb 32 n); [discriminate|]. destruct (negb _); [discriminate|]. destruct (negb _); [discriminate|]. destruct (negb _); discriminate.
  - pose proof (export_in _ _ _ X) as I. split; (split; [discriminate|]).
    + intros (L & r & I'). pose proof (export_nodup _ _ _ ND I') as X'. congruence.
    + intros (_ & N). exfalso. apply N. apply in_map_iff. exists (fn, XOther). auto.
  - pose proof (export_spec _ _ X) as N. destruct mo; split; (split; try discriminate; auto).
    + intros (_ & r & I). exfalso. apply N. apply in_map_iff. eexists. split; [|exact I]. reflexivity.
    + intros (_ & r & I). exfalso. apply N. apply in_map_iff. eexists. split; [|exact I]. reflexivity.
    + intros [? _]. discriminate.
Qed.
