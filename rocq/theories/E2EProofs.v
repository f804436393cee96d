(* Ledger changes of an enforcing invocation. *)
From Coq Require Import ZArith Lia List Bool.
From Verif Require Import Prelude ValModel ContainerModel HeapModel AMap StorageModel StorageSpec
  StorageProofs StorageProofs2 FeesModel FrameModel FrameSpec FrameProofs FrameProofs2 FrameProofs5 E2EModel E2ESpec.
Import ListNotations.
Open Scope Z_scope.

(* ---------------------------------------------------------------- inputs *)

Lemma restored_spec rw idx : (exists l, build_restored rw idx = Ok l) <-> Forall (fun i => (i < length rw)%nat) idx.
Proof.
  induction idx as [|i r IH]; cbn; [split; eauto|]. destruct (nth_error rw i) as [k|] eqn:N.
  - assert (i < length rw)%nat by (apply nth_error_Some; congruence). split.
    + intros [l H']. destruct (build_restored rw r) as [l'|]; [|discriminate]. constructor; auto. apply IH. eauto.
    + intros F. inversion F; subst. destruct (proj2 IH H3) as [l ->]. cbn. eauto.
  - split; [intros [l H']; discriminate|]. intros F. inversion F; subst. apply nth_error_None in N. lia.
Qed.
Lemma restored_in f idx l : build_restored (f_rw f) idx = Ok l -> forall k, key_in k l = restored_key f idx k.
Proof.
  revert l. induction idx as [|i r IH]; cbn; intros l.
  - intros [= <-] k. reflexivity.
  - destruct (nth_error (f_rw f) i) as [l0|] eqn:N; [|discriminate].
    destruct (build_restored (f_rw f) r) as [l'|] eqn:B; [|discriminate]. cbn. intros [= <-] k.
    specialize (IH l' eq_refl k). unfold key_in in *. unfold restored_key in *.
    destruct (in_dec lkey_eq_dec k (l0 :: l')) as [I|I], (lkey_eq_dec k l0) as [->|NE]; cbn; auto.
    + destruct (in_dec lkey_eq_dec k l') as [I'|I'] in IH; auto. destruct I; [congruence|contradiction].
    + destruct I. now left.
    + destruct (in_dec lkey_eq_dec k l') as [I'|I'] in IH; auto. destruct I. now right.
Qed.

Lemma add_foot_spec a l : forall m m', add_foot a l m = Ok m' ->
  Forall (fun k => key_supported k = true) l
  /\ forall k, fget m' k = if in_dec lkey_eq_dec k l then Some a else fget m k.
Proof.
  induction l as [|k0 l IH]; cbn [add_foot]; intros m m'.
  - intros [= <-]. split; auto.
  - destruct (key_supported k0) eqn:KS; [|discriminate]. intros A. destruct (IH _ _ A) as [F G]. split; auto.
    intros k. rewrite G, fget_fset.
    destruct (in_dec lkey_eq_dec k l) as [I|I], (in_dec lkey_eq_dec k (k0 :: l)) as [J|J], (lkey_eq_dec k k0) as [->|N]; auto; exfalso; cbn in J;
      try tauto; destruct J; congruence.
Qed.
Lemma add_foot_total a l : Forall (fun k => key_supported k = true) l -> forall m, exists m', add_foot a l m = Ok m'.
Proof. induction 1 as [|k l K F IH]; cbn; intros m; eauto. rewrite K. apply IH. Qed.
Lemma footprint_spec f m : build_footprint f = Ok m ->
  Forall (fun k => key_supported k = true) (f_ro f ++ f_rw f)
  /\ forall k, fget m k = if in_dec lkey_eq_dec k (f_ro f) then Some ReadOnly
                          else if in_dec lkey_eq_dec k (f_rw f) then Some ReadWrite else None.
Proof.
  unfold build_footprint. destruct (add_foot ReadWrite (f_rw f) []) as [m1|] eqn:A; [|discriminate]. cbn. intros B.
  destruct (add_foot_spec _ _ _ _ A) as [F1 G1]. destruct (add_foot_spec _ _ _ _ B) as [F2 G2].
  split; [now apply Forall_app|]. intros k. rewrite G2, G1. reflexivity.
Qed.
Lemma footprint_total f : Forall (fun k => key_supported k = true) (f_ro f ++ f_rw f) -> exists m, build_footprint f = Ok m.
Proof.
  intros F. apply Forall_app in F. destruct F as [F1 F2]. unfold build_footprint.
  destruct (add_foot_total ReadWrite _ F2 []) as [m ->]. cbn. now apply add_foot_total.
Qed.

Lemma load_item_spec li k it : item_ok li k it <-> exists v, load_item false (li_seq li) k it = Ok v.
Proof.
  destruct it as [[e|] [t|]]; cbn; destruct (key_durability k); try destruct (Z.ltb_spec (tm_live t) (li_seq li)) as [LT|LT];
    split; intros H; eauto; try discriminate;
    try (destruct H as (t' & [= <-] & L); lia); try (destruct H as (t' & [=] & L)); try (destruct H as [v [=]]).
Qed.
Lemma load_item_val li k it v : load_item false (li_seq li) k it = Ok v -> v = item_entry it.
Proof.
  destruct it as [[e|] [t|]]; cbn; destruct (key_durability k); try destruct (Z.ltb_spec (tm_live t) (li_seq li)) as [LT|LT]; cbn; congruence.
Qed.

Lemma load_items_spec li ks : forall its m m' sizes, length ks = length its ->
  load_items false (li_seq li) ks its m = Ok (m', sizes) ->
  Forall2 (item_ok li) ks its /\ sizes = map (fun it => option_map tm_size (snd it)) its
  /\ (forall k, ~ In k ks -> mget m' k = mget m k)
  /\ (NoDup ks -> forall k, In k ks -> mget m' k = Some (given (combine ks its) k)).
Proof.
  induction ks as [|k0 ks IH]; intros [|it its]; try discriminate; cbn; intros m m' sizes LE.
  - intros [= <- <-]. repeat split; auto. intros _ k [].
  - destruct (key_supported k0); [|discriminate].
    destruct (load_item false (li_seq li) k0 it) as [v|] eqn:L; [|discriminate]. cbn.
    destruct (load_items false (li_seq li) ks its (mset m k0 v)) as [[m1 s1]|] eqn:LS; [|discriminate]. cbn.
    intros [= <- <-]. destruct (IH its (mset m k0 v) m1 s1 ltac:(now inversion LE) LS) as (A & B & C & D).
    split; [constructor; auto; apply load_item_spec; eauto|]. split; [now rewrite B|]. split.
    + intros k N. rewrite C by tauto. rewrite mget_mset. destruct (lkey_eq_dec k k0); [subst; tauto|auto].
    + intros ND k I. inversion ND as [|x y N0 ND']; subst. destruct (lkey_eq_dec k k0) as [->|NE].
      * rewrite C by auto. rewrite mget_mset. destruct (lkey_eq_dec k0 k0); [|congruence]. f_equal. eapply load_item_val; eauto.
      * destruct I as [->|I]; [congruence|]. now apply D.
Qed.
Lemma load_items_total li ks its : Forall2 (item_ok li) ks its -> Forall (fun k => key_supported k = true) ks ->
  forall m, exists p, load_items false (li_seq li) ks its m = Ok p.
Proof.
  induction 1 as [|k it ks its I F2 IH]; cbn; intros F m; eauto. inversion F; subst. rewrite H1.
  destruct (proj1 (load_item_spec li k it) I) as [v ->]. cbn. destruct (IH H2 (mset m k v)) as [p ->]. cbn. eauto.
Qed.

Lemma min_live_ok li : li_ok li -> min_live_until li Persistent = Some (min_live li Persistent).
Proof.
  intros (A & B & C & D & E & F & G). unfold min_live_until, checked_add_u32, sat_sub_u32. unfold min_live in *.
  destruct (Z.leb_spec (li_seq li + Z.max 0 (li_min_persistent li - 1)) u32_max) as [L|L]; [f_equal; lia|lia].
Qed.

(* ---------------------------------------------------------------- changes *)

Lemma given_in ks : forall its k, length ks = length its -> NoDup ks -> forall it, In (k, it) (combine ks its) -> given (combine ks its) k = item_entry it.
Proof.
  induction ks as [|k0 ks IH]; intros [|i its] k LE ND it; cbn; try tauto; try discriminate.
  inversion ND; subst. intros [[= -> ->]|I].
  - destruct (lkey_eq_dec k k); congruence.
  - destruct (lkey_eq_dec k k0) as [->|NE]; [apply in_combine_l in I; contradiction|]. eapply IH; eauto.
Qed.

Lemma foot_accesses_keys f : map snd (foot_accesses f) = f_ro f ++ f_rw f.
Proof. unfold foot_accesses. rewrite map_app, !map_map. cbn. now rewrite !map_id. Qed.

Lemma Forall2_combine {A B} (R : A -> B -> Prop) l : forall l', Forall2 R l l' -> forall a b, In (a, b) (combine l l') -> R a b.
Proof. induction 1; cbn; [tauto|]. intros a b [[= <- <-]|I]; auto. Qed.
Lemma Forall2_len {A B} (R : A -> B -> Prop) l l' : Forall2 R l l' -> length l = length l'.
Proof. induction 1; cbn; auto. Qed.

Section Changes.
  Variable li : linfo.
  Variable cd : codec.
  Variable build : bool.
  Variable restored : list lkey.
  Variable init : lkey -> option (option Z).

  Lemma one_change_report a k it r (new : option lentry) : 0 <= li_seq li ->
    item_ok li k it -> live li k new ->
    init k = match item_entry it with Some (_, l) => Some l | None => None end ->
    r = match a with ReadOnly => false | ReadWrite => key_in k restored end ->
    one_change cd build (li_seq li) (min_live li Persistent) restored init a k (option_map tm_size (snd it)) new
    = Ok (report li cd {| oc_access := a; oc_key := k; oc_item := it; oc_restored := r; oc_after := new |}).
  Proof.
    intros SQ IO LV IN ->. unfold one_change, old_of. rewrite IN.
    unfold report, old_size, old_live, new_live, as_new. cbn [oc_access oc_key oc_item oc_restored oc_after].
    unfold rent_size, entry_size_for_rent, xdr_len, is_code.
    destruct it as [[e|] m].
    - destruct (key_durability k) as [d|] eqn:KD.
      + cbn in IO. rewrite KD in IO. destruct IO as (t & -> & LT). cbn.
        replace (tm_live t <? li_seq li) with false by lia. rewrite Bool.andb_false_r. cbn.
        destruct new as [[e' l]|]; cbn in LV.
        * destruct (LV ltac:(congruence)) as (x & -> & LX). cbn.
          destruct a; cbn; [|destruct (key_in k restored); cbn]; rewrite ?(Z.max_l _ 0) by lia; reflexivity.
        * cbn. destruct a; cbn; [|destruct (key_in k restored)]; reflexivity.
      + cbn in IO. rewrite KD in IO. subst m. cbn.
        destruct new as [[e' [x|]]|]; cbn; destruct a; cbn; try (destruct (key_in k restored); cbn); try reflexivity.
    - cbn in IO. subst m. cbn.
      destruct (key_durability k) as [d|] eqn:KD; cbn.
      + destruct new as [[e' l]|]; cbn in LV.
        * destruct (LV ltac:(congruence)) as (x & -> & LX). cbn.
          destruct a; cbn; [|destruct (key_in k restored); cbn]; rewrite ?(Z.max_l _ 0) by lia; reflexivity.
        * destruct a; cbn; [|destruct (key_in k restored)]; reflexivity.
      + destruct new as [[e' [x|]]|]; cbn; destruct a; cbn; try (destruct (key_in k restored); cbn); try reflexivity.
  Qed.
End Changes.

Section Changes2.
  Variable li : linfo.
  Variable cd : codec.
  Variable build : bool.
  Variable restored : list lkey.
  Variable init : lkey -> option (option Z).
  Variable after : store.

  Lemma changes_report m f idx : 0 <= li_seq li -> (forall k, key_in k restored = restored_key f idx k) ->
    forall ks its, Forall2 (fun p => item_ok li (snd p)) ks its ->
    (forall a k, In (a, k) ks -> mget m k = Some (after k)) -> alive li after ->
    (forall p it, In (p, it) (combine ks its) -> init (snd p) = match item_entry it with Some (_, l) => Some l | None => None end) ->
    changes_of cd build (li_seq li) (min_live li Persistent) restored init m ks (map (fun it => option_map tm_size (snd it)) its)
    = Ok (map (report li cd) (map (fun p => {| oc_access := fst (fst p); oc_key := snd (fst p); oc_item := snd p;
                     oc_restored := match fst (fst p) with ReadWrite => restored_key f idx (snd (fst p)) | ReadOnly => false end;
                     oc_after := after (snd (fst p)) |}) (combine ks its))).
  Proof.
    intros SQ KR ks its F2. induction F2 as [|[a k] it ks its IO F2 IH]; intros M AL IN; cbn; auto.
    rewrite (M a k (or_introl eq_refl)).
    rewrite (one_change_report li cd build restored init a k it
               (match a with ReadWrite => restored_key f idx k | ReadOnly => false end) (after k)).
    - cbn [rbind]. rewrite IH; auto; [intros a' k' I; apply (M a'); now right|intros p i I; apply IN; now right].
    - exact SQ.
    - exact IO.
    - apply AL.
    - exact (IN (a, k) it (or_introl eq_refl)).
    - destruct a; [reflexivity|symmetry; apply KR].
  Qed.
End Changes2.

Lemma in_combine_map {A B C} (g : A -> C) (l : list A) : forall (l' : list B) a b,
  In (a, b) (combine l l') -> In (g a, b) (combine (map g l) l').
Proof. induction l as [|x l IH]; intros [|y l']; cbn; try tauto. intros a b [[= <- <-]|I]; auto. Qed.

Lemma Forall2_map_l {A B C} (R : C -> B -> Prop) (g : A -> C) l l' : Forall2 R (map g l) l' -> Forall2 (fun a b => R (g a) b) l l'.
Proof. revert l'. induction l as [|x l IH]; intros l' H; inversion H; subst; constructor; auto. Qed.

Lemma access_in f p : In p (foot_accesses f) -> access_of f (snd p) <> None.
Proof.
  intros I. apply (in_map snd) in I. rewrite foot_accesses_keys in I. apply in_app_or in I. unfold access_of.
  destruct (in_dec _ _ _); [congruence|]. destruct (in_dec _ _ _); [congruence|tauto].
Qed.

Lemma given_out ks : forall its k, ~ In k ks -> given (combine ks its) k = None.
Proof.
  induction ks as [|x ks IH]; intros [|i its] k N; cbn; auto. cbn in N.
  destruct (lkey_eq_dec k x); [subst; tauto|]. apply IH. tauto.
Qed.

Section Invocation.
  Context {P : Type}.
  Variable E : env P.
  Variable cd : codec.

  Lemma accepted_inputs li build base f idx its fn out : li_ok li ->
    invoke_host_function E cd li build base f idx its fn = Ok out -> input_ok li f idx its.
  Proof.
    intros LI. unfold invoke_host_function.
    destruct (build_restored (f_rw f) idx) as [rs|] eqn:BR; [|discriminate].
    cbn [rbind]. destruct (build_footprint f) as [m|] eqn:BF; [|discriminate]. cbn [rbind].
    rewrite (min_live_ok li LI). cbn [rbind]. unfold build_map.
    destruct (Nat.eqb_spec (length (foot_keys f)) (length its)) as [LE|]; [|discriminate].
    destruct (load_items false (li_seq li) (foot_keys f) its []) as [[m0 sizes]|] eqn:LD; [|discriminate]. intros _.
    destruct (load_items_spec _ _ _ _ _ _ LE LD) as (A & _). destruct (footprint_spec _ _ BF) as (B & _).
    split; [exact A|]. split; [exact B|]. apply restored_spec. eauto.
  Qed.

  Lemma invoke_outcome li build base f idx its fn : li_ok li -> NoDup (f_ro f ++ f_rw f) -> input_ok li f idx its ->
    let c := {| sc_li := li; sc_mode := Enforcing; sc_recording_build := build |} in
    exists s h' r t, starts c f its s /\ invoke E c (fresh_host s base) fn = (h', r, t)
      /\ alive li (contents c (h_store h'))
      /\ keeps (st_foot s) (contents c s) (contents c (h_store h'))
      /\ (is_ok r = false -> forall k, contents c (h_store h') k = contents c s k)
      /\ invoke_host_function E cd li build base f idx its fn
         = Ok {| o_result := r;
                 o_changes := match r with
                              | Ok _ => map (report li cd) (outcomes f idx its (contents c (h_store h')))
                              | Err _ => []
                              end;
                 o_events := match r with Ok _ => filter not_diagnostic (flat_map kept t) | Err _ => [] end |}.
  Proof.
    intros LI ND (I1 & I2 & I3) c.
    destruct (proj2 (restored_spec (f_rw f) idx) I3) as [rs BR]. destruct (footprint_total f I2) as [m BF].
    pose proof (Forall2_len _ _ _ I1) as LE.
    destruct (load_items_total li _ _ I1 I2 []) as [[m0 sizes] LD].
    destruct (load_items_spec _ _ _ _ _ _ LE LD) as (A1 & -> & A3 & A4). specialize (A4 ND).
    destruct (footprint_spec _ _ BF) as (_ & FG).
    set (s := {| st_foot := m; st_map := m0 |}).
    assert (MG : forall k, mget m0 k = if in_dec lkey_eq_dec k (f_ro f ++ f_rw f) then Some (given (combine (f_ro f ++ f_rw f) its) k) else None).
    { intros k. destruct (in_dec lkey_eq_dec k (f_ro f ++ f_rw f)); [auto|]. now rewrite A3. }
    assert (CT : forall k, contents c s k = given (combine (f_ro f ++ f_rw f) its) k).
    { intros k. unfold contents. cbn. rewrite MG. destruct (in_dec _ _ _) as [I|I]; auto. symmetry. now apply given_out. }
    assert (AL : alive li (contents c s)).
    { intros k. rewrite CT. clear - A1. induction A1 as [|k0 it ks its IO F2 IH]; cbn; auto.
      destruct (lkey_eq_dec k k0) as [->|]; auto. destruct it as [[e|] t]; cbn in *; auto.
      intros D. destruct (key_durability k0); [|congruence]. destruct IO as (x & -> & L). cbn. eauto. }
    assert (ST : starts c f its s).
    { split; [|split; [exact AL|split; [exact CT|exact FG]]]. left. split; auto. split.
      - intros k F. change (fget m k <> None) in F. change (mget m0 k <> None). rewrite FG in F. rewrite MG.
        destruct (in_dec lkey_eq_dec k (f_ro f ++ f_rw f)) as [I|I]; [congruence|].
        destruct (in_dec lkey_eq_dec k (f_ro f)) as [J|J]; [destruct I; apply in_or_app; auto|].
        destruct (in_dec lkey_eq_dec k (f_rw f)) as [J'|J']; [destruct I; apply in_or_app; auto|congruence].
      - intros _ k o G. cbn in G. specialize (AL k). unfold contents in AL. cbn in AL. rewrite G in AL. exact AL. }
    destruct (invoke E c (fresh_host s base) fn) as [[h' r] t] eqn:IV.
    assert (ID : idle c (fresh_host s base)) by (split; [apply ST|split; [apply ST|reflexivity]]).
    destruct (invoke_told E c LI _ _ _ _ _ (idle_good c _ ID) eq_refl IV) as (l & TL & (RG & UN & _) & SK).
    destruct RG as ((G1 & G2) & (S1 & S2 & S3 & S4) & _). cbn in S2, S3.
    exists s, h', r, t. split; [exact ST|]. split; [exact IV|]. split; [exact G2|]. split; [exact (S3 eq_refl)|].
    split; [intros RF k; symmetry; apply UN; destruct r; [discriminate|reflexivity]|].
    unfold invoke_host_function. rewrite BR. cbn [rbind]. rewrite BF. cbn [rbind]. rewrite (min_live_ok li LI). cbn [rbind].
    unfold build_map. change (foot_keys f) with (f_ro f ++ f_rw f).
    replace (Nat.eqb (length (f_ro f ++ f_rw f)) (length its)) with true by (symmetry; now apply Nat.eqb_eq).
    rewrite LD. cbn [rbind fst snd]. fold c. fold s. rewrite IV.
    destruct r as [v|e]; [|reflexivity].
    unfold get_ledger_changes. change (foot_keys f) with (f_ro f ++ f_rw f). rewrite map_length.
    rewrite (proj2 (Nat.eqb_eq (length (f_ro f ++ f_rw f)) (@length (option entry * option ttl_meta) its)) LE).
    rewrite (changes_report li cd build rs (map_ttl m0) (contents c (h_store h')) (st_map (h_store h')) f idx).
    - cbn [rbind]. f_equal. f_equal.
      destruct (invoke_events E c _ _ _ _ _ (eq_refl : h_stack (fresh_host s base) = []) IV) as [_ PB].
      cbn in PB. rewrite <- PB. reflexivity.
    - apply LI.
    - eapply restored_in; eauto.
    - apply Forall2_map_l. rewrite foot_accesses_keys. exact I1.
    - intros a k I. apply access_in in I. cbn [snd] in I. unfold access_of in I. rewrite <- FG in I.
      rewrite <- (S2 eq_refl) in I.
      destruct G1 as [(_ & G1 & _)|(src & X & _)]; [|discriminate]. specialize (G1 k I). unfold contents. fold c.
      destruct (mget (st_map (h_store h')) k); [reflexivity|congruence].
    - exact G2.
    - intros p it I. apply (in_combine_map snd) in I. rewrite foot_accesses_keys in I.
      unfold map_ttl. rewrite A4 by (eapply in_combine_l; exact I). now rewrite (given_in _ _ _ LE ND _ I).
  Qed.
End Invocation.
