(* Proofs for LifeSpec. *)
From Coq Require Import ZArith Lia List Bool.
From Verif Require Import Prelude ValModel ContainerModel HeapModel AMap StorageModel StorageSpec StorageProofs StorageProofs2 StorageProofs3 StorageLogic LifeModel LifeSpec.
Import ListNotations.
Open Scope Z_scope.
Ltac Zify.zify_post_hook ::= idtac.

Notation ikey a := (LKData a SLedgerKeyContractInstance Persistent).

Definition req_op (q : life) (k : lkey) : sop :=
  match q with LifeV1 _ t x => SExtend k t x | LifeV2 _ x mn mx => SExtendV2 k x mn mx end.

Lemma only_longer_refl v : only_longer v v.
Proof. destruct v as [[e [l|]]|]; cbn; auto. split; auto. lia. Qed.
Lemma only_longer_trans u v w : only_longer u v -> only_longer v w -> only_longer u w.
Proof.
  destruct u as [[e [l|]]|], v as [[e1 [l1|]]|], w as [[e2 [l2|]]|]; cbn; try tauto; intros [-> A] [-> B]; split; auto; lia.
Qed.

(* One extension. *)
Lemma req_meaning li q k m : li_ok li -> args_unsigned q ->
  match snd (meaning li m (req_op q k)) with
  | Err _ => fst (meaning li m (req_op q k)) = m
  | Ok o => o = OUnit /\ exists e old new, m k = Some (e, Some old) /\ li_seq li <= old /\ granted li q old new /\ old <= new
            /\ fst (meaning li m (req_op q k)) = upd m k (Some (e, Some new))
  end.
Proof.
  intros LI U. destruct q as [sc t x|sc x mn mx]; cbn [req_op args_unsigned granted] in *; unfold meaning.
  - destruct (bad_args _) eqn:B; [reflexivity|]. unfold with_live. destruct (m k) as [[e [old|]]|] eqn:M; try reflexivity.
    unfold extended. destruct (key_durability k) as [d|]; [|reflexivity]. destruct (Z.ltb_spec old (li_seq li)); [reflexivity|].
    destruct (match d with Temporary => _ | Persistent => false end); [reflexivity|].
    destruct (u32_max <? _); [reflexivity|]. cbn [fst snd]. split; [auto|]. do 3 eexists. split; [reflexivity|]. split; [auto|].
    split; [reflexivity|]. split; [|reflexivity]. destruct (_ <=? t); lia.
  - destruct (bad_args _) eqn:B; [reflexivity|]. unfold with_live. destruct (m k) as [[e [old|]]|] eqn:M; try reflexivity.
    unfold extended_v2. destruct (key_durability k) as [d|]; [|reflexivity]. destruct (Z.ltb_spec old (li_seq li)); [reflexivity|].
    destruct (match d with Temporary => _ | Persistent => false end); [reflexivity|]. cbv zeta.
    set (w := Z.min (Z.min _ mx) _). unfold bad_args in B. destruct (Z.ltb_spec mx mn); [discriminate|].
    destruct (Z.ltb_spec w mn).
    + cbn [fst snd]. split; [auto|]. exists e, old, old. split; [auto|]. split; [auto|]. split; [|split; [lia|auto]].
      split; [auto|]. split; [lia|]. intros b ((B1 & B2) & B3 & B4). subst w. lia.
    + destruct (u32_max <? _); [reflexivity|]. cbn [fst snd]. split; [auto|]. exists e, old, (Z.max old (old + w)).
      split; [auto|]. split; [auto|]. subst w. split; [|split; [lia|auto]].
      split; [|split; [lia|intros b ((B1 & B2) & B3 & B4); lia]].
      destruct (Z.leb_spec (Z.min (Z.max 0 (li_seq li + x - old)) (Z.max 0 (max_live li - old))) 0); [left; lia|].
      destruct (Z.leb_spec mx 0); [left; lia|right; lia].
Qed.

Lemma req_write li q k : write_ok li (req_op q k). Proof. destruct q; exact I. Qed.

(* ---------------------------------------------------------------- what a run does *)

Definition ext_at (li : linfo) (q : life) (m m1 : store) (k : lkey) : Prop :=
  exists e old new, m k = Some (e, Some old) /\ li_seq li <= old /\ granted li q old new /\ old <= new /\ m1 k = Some (e, Some new).

Definition post (li : linfo) (q : life) (m : store) (A : lkey -> Prop) (m1 : store) (r : res sout) : Prop :=
  (forall k, ~ A k -> m1 k = m k) /\ (forall k, only_longer (m k) (m1 k))
  /\ match r with Ok _ => forall k, A k -> ext_at li q m m1 k | Err _ => True end.

Lemma post_ext li q m A : ext_post (post li q m A).
Proof.
  intros m1 m2 r S (X & Y & Z). split; [|split].
  - intros k N. rewrite <- (S k). auto.
  - intros k. rewrite <- (S k). auto.
  - destruct r; auto. intros k K. destruct (Z k K) as (e & o & n & H1 & H2 & H3 & H4 & H5). exists e, o, n. rewrite <- (S k). auto.
Qed.
Lemma post_err li q m A e : post li q m A m (Err e).
Proof. split; [auto|]. split; [intros; apply only_longer_refl|auto]. Qed.
Lemma post_nothing li q m (A : lkey -> Prop) o : (forall k, ~ A k) -> post li q m A m (Ok o).
Proof. intros N. split; [auto|]. split; [intros; apply only_longer_refl|]. intros k K. now apply N in K. Qed.

Lemma post_step li q m k e old new (A B : lkey -> Prop) m2 r :
  m k = Some (e, Some old) -> li_seq li <= old -> granted li q old new -> old <= new ->
  post li q (upd m k (Some (e, Some new))) B m2 r -> ~ B k -> (forall x, A x <-> x = k \/ B x) ->
  post li q m A m2 r.
Proof.
  intros M L G O (X & Y & Z) NB AB. split; [|split].
  - intros x N. rewrite X by (intros B'; apply N, AB; auto). apply upd_ne. intros ->. apply N, AB. auto.
  - intros x. eapply only_longer_trans; [|apply Y]. destruct (lkey_eq_dec x k) as [->|NE].
    + rewrite upd_eq, M. cbn. auto.
    + rewrite upd_ne by auto. apply only_longer_refl.
  - destruct r; auto. intros x Ax. apply AB in Ax as [->|Bx].
    + exists e, old, new. rewrite X, upd_eq by auto. auto.
    + destruct (Z x Bx) as (e1 & o1 & n1 & H1 & H2 & H3 & H4 & H5). exists e1, o1, n1.
      rewrite upd_ne in H1 by (intros ->; auto). auto.
Qed.

Lemma wp_req li q k cont m (Q : store -> res sout -> Prop) : li_ok li -> args_unsigned q ->
  (forall e, Q m (Err e)) ->
  (forall e old new, m k = Some (e, Some old) -> li_seq li <= old -> granted li q old new -> old <= new ->
     wp li (cont OUnit) (upd m k (Some (e, Some new))) Q) ->
  wp li (psucc (req_op q k) cont) m Q.
Proof.
  intros LI U E S. pose proof (req_meaning li q k m LI U) as R. apply wp_psucc; auto using req_write.
  - intros o H. rewrite H in R. destruct R as (-> & e & old & new & M & L & G & O & ->). eauto.
  - intros e H. rewrite H in R. rewrite R. auto.
Qed.

(* a contract's code is where it was *)
Lemma longer_runs m m1 a ex : (forall k, only_longer (m k) (m1 k)) -> runs m a ex <-> runs m1 a ex.
Proof.
  intros L. specialize (L (ikey a)). unfold runs. destruct (m (ikey a)) as [[e l]|], (m1 (ikey a)) as [[e1 l1]|]; cbn in L; try tauto.
  destruct L as [-> _]. split; intros (st & l0 & [= -> ->]); eauto.
Qed.
Lemma longer_code_key m m1 a k : (forall k, only_longer (m k) (m1 k)) -> code_key m a k <-> code_key m1 a k.
Proof.
  intros L. split; intros H; destruct H as [h R|o t R|o t h l R X]; try apply ck_wasm, (longer_runs m m1 a _ L), R;
    try apply ck_ref, (longer_runs m m1 a _ L), R.
  - specialize (L (LKData o (SExecutableTag t) Persistent)) as L1. rewrite X in L1.
    destruct (m1 (LKData o (SExecutableTag t) Persistent)) as [[e l1]|] eqn:E; [|destruct L1].
    destruct L1 as [-> _]. eapply ck_referred; [apply (longer_runs m m1 a _ L), R|exact E].
  - specialize (L (LKData o (SExecutableTag t) Persistent)) as L1. rewrite X in L1.
    destruct (m (LKData o (SExecutableTag t) Persistent)) as [[e l1]|] eqn:E; [|destruct L1].
    destruct L1 as [<- _]. eapply ck_referred; [apply (longer_runs m m1 a _ L), R|exact E].
Qed.

Lemma runs_det m a e1 e2 : runs m a e1 -> runs m a e2 -> e1 = e2.
Proof. intros (s1 & l1 & H1) (s2 & l2 & H2). congruence. Qed.
Lemma code_not_instance m a k : code_key m a k -> k <> ikey a.
Proof. intros [h R|o t R|o t h l R X]; discriminate. Qed.

Lemma wp_inst li q a m : li_ok li -> args_unsigned q ->
  wp li (psucc (req_op q (ikey a)) (fun _ => pdone)) m (post li q m (fun k => k = ikey a)).
Proof.
  intros LI U. apply wp_req; auto using post_err. intros e old new M L G O. cbn.
  eapply (post_step li q m (ikey a) e old new _ (fun _ => False)); eauto; [apply post_nothing; auto|]. intros x; tauto.
Qed.

Lemma wp_code li q a m : li_ok li -> args_unsigned q ->
  wp li (extend_code_ttl (req_op q) (ikey a)) m (post li q m (code_key m a)).
Proof.
  intros LI U. unfold extend_code_ttl, pinstance. apply wp_pget; auto using post_err. intros [e l] M.
  destruct e as [v| | | |]; try apply post_err. destruct v as [ | | | | | | | | | | | | | | | | | | |ex st| | | ]; try apply post_err.
  assert (R : runs m a ex) by (unfold runs; eauto). destruct ex as [h| |o t].
  - apply wp_req; auto using post_err. intros e old new M1 L1 G O. cbn.
    eapply (post_step li q m (LKCode h) e old new _ (fun _ => False)); eauto; [apply post_nothing; auto|].
    intros x. split.
    + intros [h' R'|o t R'|o t h' l' R' X]; pose proof (runs_det _ _ _ _ R R') as E; try discriminate E. injection E as <-. auto.
    + intros [->|[]]. now constructor.
  - cbn. apply post_nothing. intros k [h' R'|o t R'|o t h' l' R' X]; pose proof (runs_det _ _ _ _ R R') as E; discriminate E.
  - apply wp_req; auto using post_err. intros e old new M1 L1 G O. unfold resolve_external_ref, exe_ref_key in *.
    set (rk := LKData o (SExecutableTag t) Persistent) in *.
    assert (St : post li q m (fun k => k = rk) (upd m rk (Some (e, Some new))) (Ok OUnit)).
    { eapply (post_step li q m rk e old new _ (fun _ => False)); eauto; [apply post_nothing; auto|]. intros x; tauto. }
    destruct St as (St1 & St2 & _).
    assert (Er : forall er, post li q m (code_key m a) (upd m rk (Some (e, Some new))) (Err er)).
    { intros er. split; [|split; auto]. intros k N. apply St1. intros ->. apply N. now apply ck_ref. }
    apply wp_pget; auto. intros [e1 l1] M2. rewrite upd_eq in M2. injection M2 as <- <-.
    destruct e as [v| | | |]; try apply Er. destruct v as [ | | | | | | | | | | | | |bs| | | | | | | | | ]; try apply Er. destruct (Nat.eqb (length bs) 32); [|apply Er].
    eapply wp_mono; [intros m2 r X; exact (post_step li q m rk (EData (SBytes bs)) old new (code_key m a) (fun k => k = LKCode bs) m2 r M1 L1 G O X ltac:(discriminate) ltac:(
      intros x; split;
      [ intros [h' R'|o' t' R'|o' t' h' l' R' X']; pose proof (runs_det _ _ _ _ R R') as E; try discriminate E; injection E as <- <-; [auto|fold rk in X'; rewrite M1 in X'; injection X' as <- <-; auto]
      | intros [->| ->]; [now apply ck_ref|eapply ck_referred; [exact R|exact M1]]]))|].
    apply wp_req; auto using post_err. intros e2 old2 new2 M3 L3 G3 O3. cbn.
    eapply (post_step li q _ (LKCode bs) e2 old2 new2 _ (fun _ => False)); eauto; [apply post_nothing; auto|]. intros x; tauto.
Qed.

(* two requests in a row, on disjoint sets of entries *)
Lemma post_trans li q m (A B : lkey -> Prop) m1 o m2 r :
  post li q m A m1 (Ok o) -> post li q m1 B m2 r -> (forall k, B k -> ~ A k) -> (forall k, A k -> ~ B k) ->
  post li q m (fun k => A k \/ B k) m2 r.
Proof.
  intros (X & Y & Z) (X1 & Y1 & Z1) D1 D2. split; [|split].
  - intros k N. rewrite X1, X; auto.
  - intros k. eapply only_longer_trans; eauto.
  - destruct r; auto. intros k [K|K].
    + destruct (Z k K) as (e & x1 & x2 & H1 & H2 & H3 & H4 & H5). exists e, x1, x2. rewrite X1 by auto. auto.
    + destruct (Z1 k K) as (e & x1 & x2 & H1 & H2 & H3 & H4 & H5). exists e, x1, x2. rewrite X in H1 by auto. auto.
Qed.
Lemma post_iff li q m (A B : lkey -> Prop) m1 r : (forall k, A k <-> B k) -> post li q m A m1 r -> post li q m B m1 r.
Proof.
  intros E (X & Y & Z). split; [|split; [auto|]].
  - intros k N. apply X. intros K. apply N, E, K.
  - destruct r; auto. intros k K. apply Z, E, K.
Qed.
Lemma post_more li q m (A B : lkey -> Prop) m1 e : (forall k, A k -> B k) -> post li q m A m1 (Err e) -> post li q m B m1 (Err e).
Proof. intros E (X & Y & Z). split; auto. Qed.

Theorem wp_life li q a m : li_ok li -> args_unsigned q ->
  wp li (life_prog a q) m (fun m1 r => post li q m (covered m a (scope_of q)) m1 r
                                       /\ (is_ok r = true -> exists id, a = AContract id)).
Proof.
  intros LI U.
  assert (Bad : forall p, (forall id, a = AContract id -> wp li p m (fun m1 r => post li q m (covered m a (scope_of q)) m1 r)) ->
     wp li (contract_id_from_address a p) m (fun m1 r => post li q m (covered m a (scope_of q)) m1 r
                                       /\ (is_ok r = true -> exists id, a = AContract id))).
  { intros p H. unfold contract_id_from_address. destruct a as [x|id|x y|x y]; try (split; [apply post_err|discriminate]).
    eapply wp_mono; [|apply (H id eq_refl)]. cbn. intros m1 r P. split; eauto. }
  destruct q as [[] t x|[] x mn mx]; cbn [life_prog]; unfold extend_contract_instance_ttl, extend_contract_code_ttl,
    extend_contract_instance_and_code_ttl, extend_contract_instance_and_code_ttl_v2; apply Bad; intros id _; cbn [scope_of covered].
  - unfold extend_instance_and_code_ttl.
    change (SExtend (instance_key a) t x) with (req_op (LifeV1 ScopeBoth t x) (ikey a)).
    apply wp_req; auto using post_err. intros e old new M L G O.
    assert (St : post li (LifeV1 ScopeBoth t x) m (fun k => k = ikey a) (upd m (ikey a) (Some (e, Some new))) (Ok OUnit)).
    { eapply (post_step li _ m (ikey a) e old new _ (fun _ => False)); eauto; [apply post_nothing; auto|]. intros k; tauto. }
    eapply wp_mono; [|apply (wp_code li (LifeV1 ScopeBoth t x) a (upd m (ikey a) (Some (e, Some new))) LI U)].
    intros m2 r P. destruct St as (S1 & S2 & S3).
    assert (E : forall k, code_key (upd m (ikey a) (Some (e, Some new))) a k <-> code_key m a k)
      by (intros k; symmetry; apply longer_code_key; exact S2).
    eapply (post_trans _ _ _ _ _ _ OUnit); [split; [exact S1|split; [exact S2|exact S3]]|eapply post_iff; [exact E|exact P]| |].
    + intros k K. now apply code_not_instance in K.
    + intros k -> K. now apply code_not_instance in K.
  - apply (wp_inst li (LifeV1 ScopeInstance t x) a m LI U).
  - apply (wp_code li (LifeV1 ScopeCode t x) a m LI U).
  - cbn [extend_instance_and_code_ttl_v2]. apply wp_bind.
    eapply wp_mono; [|apply (wp_code li (LifeV2 ScopeBoth x mn mx) a m LI U)]. intros m1 [o|e] P.
    + eapply wp_mono; [|apply (wp_inst li (LifeV2 ScopeBoth x mn mx) a m1 LI U)]. intros m2 r P2.
      eapply post_iff; [|eapply (post_trans _ _ _ _ _ _ _ _ _ P P2)]; cbn.
      * intros k; tauto.
      * intros k -> K. now apply code_not_instance in K.
      * intros k K. now apply code_not_instance in K.
    + cbn. eapply post_more; [|exact P]. intros k K; right; exact K.
  - apply (wp_inst li (LifeV2 ScopeInstance x mn mx) a m LI U).
  - apply (wp_code li (LifeV2 ScopeCode x mn mx) a m LI U).
Qed.

(* ---------------------------------------------------------------- success *)

(* p, which only reads and extends, touches only keys of D and ends in Q. *)
Fixpoint twp (li : linfo) (D : lkey -> Prop) (p : prog) (m : store) (Q : store -> res sout -> Prop) : Prop :=
  match p with
  | PRet r => Q m r
  | PDo op k => D (op_key op) /\ op_access op = ReadOnly /\ twp li D (k (snd (meaning li m op))) (fst (meaning li m op)) Q
  | PFrame _ _ => False
  end.

Lemma twp_ext li (D : lkey -> Prop) p : forall m m' Q, ext_post Q -> same m m' -> twp li D p m Q -> twp li D p m' Q.
Proof.
  induction p as [r|op k IH|body IHb k IH]; intros m m' Q X S H; cbn in *; auto.
  - eapply X; eauto.
  - destruct H as (A & B & C). destruct (meaning_ext li m m' op S) as [E1 E2]. split; auto. split; auto.
    rewrite <- E1. eapply IH; eauto.
Qed.
Lemma twp_bind li (D : lkey -> Prop) p k : forall m Q, twp li D p m (fun m1 r => twp li D (k r) m1 Q) -> twp li D (pbind p k) m Q.
Proof.
  induction p as [r|op f IH|body IHb f IH]; intros m Q H; cbn in *; auto. destruct H as (A & B & C). auto.
Qed.
Lemma twp_mono li (D : lkey -> Prop) p : forall m (Q Q' : store -> res sout -> Prop), (forall m r, Q m r -> Q' m r) -> twp li D p m Q -> twp li D p m Q'.
Proof.
  induction p as [r|op k IH|body IHb k IH]; intros m Q Q' G H; cbn in *; auto. destruct H as (A & B & C). eauto.
Qed.

Theorem twp_sound c p (D : lkey -> Prop) : li_ok (sc_li c) -> forall s Q s' r t, run_ok c s -> ext_post Q ->
  (sc_mode c = Enforcing -> forall k, D k -> declared (st_foot s) k ReadOnly) ->
  twp (sc_li c) D p (contents c s) Q -> srun c s p = (s', r, t) -> Q (contents c s') r.
Proof.
  intros LI. induction p as [r0|op k IH|body IHb k IH]; intros s Q s' r t R X F H E; cbn in E, H.
  - injection E as <- <- <-. auto.
  - destruct H as (A & B & C). destruct (sstep c s op) as [s1 r1] eqn:ST.
    destruct (srun c s1 (k r1)) as [[s2 r2] t2] eqn:RN. injection E as <- <- <-.
    assert (W : write_ok (sc_li c) op) by (destruct op; try exact I; discriminate B).
    pose proof (step_correct c s op s1 r1 LI R (fun _ => W) ST) as SO. destruct (step_run_ok c s op s1 r1 R SO) as (R1 & Cv & Fo).
    destruct SO as [(-> & CS & _)|(M & _ & N & _)]; [|rewrite B in N; destruct (N (F M _ A))].
    eapply IH; [exact R1|exact X| | |exact RN].
    + intros M. rewrite (Fo M). auto.
    + eapply twp_ext; [exact X| |exact C]. intros q. symmetry. apply CS.
  - destruct H.
Qed.

Lemma twp_get li (D : lkey -> Prop) k cont m Q v : key_supported k = true -> D k -> m k = Some v -> twp li D (cont v) m Q -> twp li D (pget k cont) m Q.
Proof.
  intros K d M H. cbn [pget psucc twp]. split; [exact d|]. split; [reflexivity|].
  unfold meaning, bad_args. cbn [op_key]. rewrite K. cbn [fst snd]. rewrite M. exact H.
Qed.

Lemma req_succeeds li q k m e old : li_ok li -> args_ok li q -> key_durability k = Some Persistent ->
  m k = Some (e, Some old) -> li_seq li <= old <= u32_max ->
  exists new, old <= new <= u32_max /\ meaning li m (req_op q k) = (upd m k (Some (e, Some new)), Ok OUnit).
Proof.
  intros LI U KD M L. pose proof LI as (_ & _ & _ & _ & _ & _ & LM).
  assert (KS : key_supported k = true) by (destruct k; auto; discriminate).
  destruct q as [sc t x|sc x mn mx]; cbn [req_op args_ok] in *; unfold meaning, bad_args; rewrite KS.
  - destruct (Z.ltb_spec x t); [lia|]. unfold with_live. rewrite M. unfold extended. rewrite KD.
    destruct (Z.ltb_spec old (li_seq li)); [lia|]. destruct (Z.ltb_spec u32_max (li_seq li + x)); [lia|].
    eexists. split; [|reflexivity]. destruct (_ <=? t); lia.
  - destruct (Z.ltb_spec mx mn); [lia|]. unfold with_live. rewrite M. unfold extended_v2. rewrite KD.
    destruct (Z.ltb_spec old (li_seq li)); [lia|]. cbv zeta. set (w := Z.min (Z.min _ mx) _).
    assert (W : w <= Z.max 0 (max_live li - old)) by (subst w; lia).
    destruct (w <? mn); [exists old; split; [lia|reflexivity]|].
    destruct (Z.ltb_spec u32_max (old + w)); [lia|]. eexists. split; [|reflexivity]. lia.
Qed.

Lemma twp_req li (D : lkey -> Prop) q k cont m (Q : store -> res sout -> Prop) e old : li_ok li -> args_ok li q -> key_durability k = Some Persistent ->
  D k -> m k = Some (e, Some old) -> li_seq li <= old <= u32_max ->
  (forall new, old <= new <= u32_max -> twp li D (cont OUnit) (upd m k (Some (e, Some new))) Q) ->
  twp li D (psucc (req_op q k) cont) m Q.
Proof.
  intros LI U KD d M L H. destruct (req_succeeds li q k m e old LI U KD M L) as (new & B & E).
  cbn [psucc twp]. rewrite E. cbn [fst snd]. split; [destruct q; exact d|]. split; [destruct q; reflexivity|auto].
Qed.

(* Entries that matter to a are as in m, except that they may live longer. *)
Definition near (m m1 : store) : Prop := forall k, only_longer (m k) (m1 k) /\ (forall e l, m k = Some (e, Some l) -> l <= u32_max -> exists l1, m1 k = Some (e, Some l1) /\ l <= l1 <= u32_max).
Lemma near_refl m : near m m.
Proof. intros k. split; [apply only_longer_refl|]. intros e l -> B. exists l. split; auto. lia. Qed.
Lemma near_upd m m1 k e l new : near m m1 -> m1 k = Some (e, Some l) -> l <= new <= u32_max -> near m (upd m1 k (Some (e, Some new))).
Proof.
  intros N M B x. destruct (N x) as (N1 & N2). destruct (lkey_eq_dec x k) as [->|NE].
  - rewrite upd_eq. rewrite M in N1, N2. split.
    + eapply only_longer_trans; [exact N1|]. cbn. split; auto. lia.
    + intros e0 l0 E0 B0. destruct (N2 e0 l0 E0 B0) as (l1 & [= <- <-] & B1). exists new. split; auto. lia.
  - rewrite upd_ne by auto. auto.
Qed.

Lemma whole_longer li li1 m m1 a : whole li m a -> (forall k, only_longer (m k) (m1 k)) ->
  (forall k, covered m a ScopeBoth k -> exists e old, m1 k = Some (e, Some old) /\ li_seq li1 <= old <= u32_max) -> whole li1 m1 a.
Proof.
  intros ((ex & R) & L & Rf & C) OL Lv.
  split; [exists ex; now apply (longer_runs m m1 a ex OL)|]. split; [|split].
  - intros k K. apply Lv. destruct K as [->|K]; [left; auto|right; now apply (longer_code_key m m1 a k OL)].
  - intros o t R1. apply (longer_runs m m1 a _ OL) in R1. destruct (Rf o t R1) as (h & l & M & LH).
    specialize (OL (LKData o (SExecutableTag t) Persistent)). rewrite M in OL.
    destruct (m1 (LKData o (SExecutableTag t) Persistent)) as [[e1 l1]|]; [|destruct OL]. destruct OL as [-> _]. eauto.
  - intros h K. apply (longer_code_key m m1 a _ OL) in K. destruct (C h K) as (w & l & M).
    specialize (OL (LKCode h)). rewrite M in OL. destruct (m1 (LKCode h)) as [[e1 l1]|]; [|destruct OL]. destruct OL as [-> _]. eauto.
Qed.
Lemma whole_near li m m1 a : whole li m a -> near m m1 -> whole li m1 a.
Proof.
  intros W N. apply (whole_longer li li m); auto; [intros k; apply N|]. destruct W as (_ & L & _).
  intros k K. destruct (L k K) as (e & old & M & B). destruct (N k) as (_ & N2). destruct (N2 e old M) as (l1 & M1 & B1); [lia|].
  exists e, l1. split; auto. lia.
Qed.

Lemma twp_inst li (D : lkey -> Prop) q a m : li_ok li -> args_ok li q -> whole li m a -> D (ikey a) ->
  twp li D (psucc (req_op q (ikey a)) (fun _ => pdone)) m (fun m1 r => r = Ok OUnit /\ near m m1).
Proof.
  intros LI U (_ & L & _) d. destruct (L (ikey a) (or_introl eq_refl)) as (e & old & M & B).
  eapply twp_req; eauto. intros new B1. cbn. split; auto. eapply near_upd; eauto using near_refl.
Qed.

Lemma twp_code li (D : lkey -> Prop) q a m : li_ok li -> args_ok li q -> whole li m a -> (forall k, covered m a ScopeBoth k -> D k) ->
  twp li D (extend_code_ttl (req_op q) (ikey a)) m (fun m1 r => r = Ok OUnit /\ near m m1).
Proof.
  intros LI U ((ex & R) & L & Rf & C) d. pose proof R as (st & l & M). unfold extend_code_ttl, pinstance.
  eapply twp_get; [reflexivity|apply d; left; reflexivity|exact M|]. cbn beta iota. destruct ex as [h| |o t].
  - assert (K : covered m a ScopeBoth (LKCode h)) by (right; now apply ck_wasm).
    destruct (L _ K) as (e & old & M1 & B). eapply twp_req; eauto; try reflexivity. intros new B1. cbn. split; auto.
    eapply near_upd; eauto using near_refl.
  - cbn. auto using near_refl.
  - assert (K : covered m a ScopeBoth (LKData o (SExecutableTag t) Persistent)) by (right; now apply ck_ref).
    destruct (L _ K) as (e & old & M1 & B). unfold exe_ref_key in *. eapply twp_req; eauto; try reflexivity. intros new B1.
    destruct (Rf o t R) as (h & l1 & M2 & LH). rewrite M1 in M2. injection M2 as -> <-.
    unfold resolve_external_ref, exe_ref_key. eapply twp_get; [reflexivity|now apply d|apply upd_eq|]. cbn beta iota.
    rewrite LH. cbn [Nat.eqb].
    assert (K2 : covered m a ScopeBoth (LKCode h)) by (right; eapply ck_referred; eauto).
    destruct (L _ K2) as (e2 & old2 & M3 & B2). eapply twp_req; [exact LI|exact U|reflexivity|now apply d| |exact B2|].
    + rewrite upd_ne by discriminate. exact M3.
    + intros new2 B3. cbn. split; auto. eapply near_upd; [eapply near_upd; eauto using near_refl| |exact B3].
      rewrite upd_ne by discriminate. exact M3.
Qed.

Lemma covered_both m a sc k : covered m a sc k -> covered m a ScopeBoth k.
Proof. destruct sc; cbn; auto. Qed.

Theorem twp_life li (D : lkey -> Prop) q id m : li_ok li -> args_ok li q -> whole li m (AContract id) ->
  (forall k, covered m (AContract id) ScopeBoth k -> D k) ->
  twp li D (life_prog (AContract id) q) m (fun m1 r => r = Ok OUnit).
Proof.
  intros LI U W d. set (a := AContract id) in *.
  assert (I : forall q, args_ok li q -> twp li D (psucc (req_op q (ikey a)) (fun _ => pdone)) m (fun m1 r => r = Ok OUnit)).
  { intros q0 U0. eapply twp_mono; [|apply (twp_inst li D q0 a m LI U0 W)]; [intros ? ? [H _]; exact H|apply d; left; reflexivity]. }
  assert (Co : forall q, args_ok li q -> twp li D (extend_code_ttl (req_op q) (ikey a)) m (fun m1 r => r = Ok OUnit)).
  { intros q0 U0. eapply twp_mono; [|apply (twp_code li D q0 a m LI U0 W d)]. intros ? ? [H _]; exact H. }
  destruct q as [[] t x|[] x mn mx]; cbn [life_prog]; unfold extend_contract_instance_ttl, extend_contract_code_ttl,
    extend_contract_instance_and_code_ttl, extend_contract_instance_and_code_ttl_v2; cbn [contract_id_from_address a].
  - unfold extend_instance_and_code_ttl. pose proof W as (_ & L & _). destruct (L (ikey a) (or_introl eq_refl)) as (e & old & M & B).
    change (SExtend (instance_key a) t x) with (req_op (LifeV1 ScopeBoth t x) (ikey a)).
    eapply twp_req; eauto; [apply d; left; reflexivity|]. intros new B1.
    assert (N : near m (upd m (ikey a) (Some (e, Some new)))) by (eapply near_upd; eauto using near_refl).
    eapply twp_mono; [|apply (twp_code li D (LifeV1 ScopeBoth t x) a _ LI U (whole_near _ _ _ _ W N))]; [intros ? ? [H _]; exact H|].
    intros k [->|K]; apply d; [left; auto|right]. eapply longer_code_key; [|exact K]. intros z. apply N.
  - apply (I (LifeV1 ScopeInstance t x) U).
  - apply (Co (LifeV1 ScopeCode t x) U).
  - cbn [extend_instance_and_code_ttl_v2]. apply twp_bind.
    eapply twp_mono; [|apply (twp_code li D (LifeV2 ScopeBoth x mn mx) a m LI U W d)]. intros m1 r [-> N].
    eapply twp_mono; [|apply (twp_inst li D (LifeV2 ScopeBoth x mn mx) a m1 LI U (whole_near _ _ _ _ W N))]; [intros ? ? [H _]; exact H|].
    apply d; left; reflexivity.
  - apply (I (LifeV2 ScopeInstance x mn mx) U).
  - apply (Co (LifeV2 ScopeCode x mn mx) U).
Qed.

(* ---------------------------------------------------------------- calls *)

Lemma twp_call li (D : lkey -> Prop) m a : whole li m a -> (forall k, covered m a ScopeBoth k -> D k) ->
  twp li D (call_contract_reads a) m (fun m1 r => found m a r).
Proof.
  intros ((ex & R) & L & Rf & C) d. pose proof R as (st & l & M). unfold call_contract_reads, pinstance, instance_key.
  eapply twp_get; [reflexivity|apply d; left; reflexivity|exact M|]. cbn beta iota.
  assert (Wa : forall h, code_key m a (LKCode h) -> twp li D (retrieve_wasm_from_storage h) m (fun _ r => found m a r)).
  { intros h K. destruct (C h K) as (w & l1 & M1). unfold retrieve_wasm_from_storage.
    eapply twp_get; [reflexivity|apply d; right; exact K|exact M1|]. cbn. eauto. }
  destruct ex as [h| |o t].
  - apply Wa. now apply ck_wasm.
  - exact R.
  - destruct (Rf o t R) as (h & l1 & M2 & LH). unfold resolve_external_ref, exe_ref_key.
    eapply twp_get; [reflexivity|apply d; right; now apply ck_ref|exact M2|]. cbn beta iota. rewrite LH. cbn [Nat.eqb].
    apply Wa. eapply ck_referred; eauto.
Qed.

Lemma granted_promised li q old new : args_ok li q -> li_seq li <= old -> granted li q old new -> promised li q <= new.
Proof.
  destruct q as [sc t x|sc x mn mx]; cbn [args_ok granted promised].
  - intros (A & B) L ->. destruct (Z.leb_spec (old - li_seq li) t); lia.
  - intros (A & B) L (G1 & G2 & G3).
    set (b := Z.min mx (Z.min (li_seq li + x) (max_live li) - old)).
    destruct (Z.leb_spec mn b).
    + assert (old + b <= new) by (apply G3; subst b; lia). subst b. lia.
    + subst b. lia.
Qed.
