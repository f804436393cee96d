(* What the storage programs of contract calls do to the ledger: contract
   instances, executable references and code. *)
From Coq Require Import ZArith Lia List Bool.
From Verif Require Import Prelude ValModel ContainerModel HeapModel AMap StorageModel StorageSpec
  StorageProofs StorageProofs2 StorageLogic StorageProofs3 FrameModel FrameSpec.
Import ListNotations.
Open Scope Z_scope.

(* A contract's instance. *)
Definition iview (m : store) (id : list Z) : option (executable * option imap) :=
  match m (instance_key (AContract id)) with
  | Some (EData (SContractInstance ex st), _) => Some (ex, st)
  | _ => None
  end.

(* How ledgers change, as far as code and references go. *)
Record evolves (m m' : store) : Prop := {
  ev_code : forall h, m (LKCode h) <> None -> m' (LKCode h) <> None;
  ev_ref : forall o t, same_entry (m (exe_ref_key o t)) (m' (exe_ref_key o t)) \/ ref_valid m' (m' (exe_ref_key o t));
  ev_ref_keep : forall o t, m (exe_ref_key o t) <> None -> m' (exe_ref_key o t) <> None;
  ev_tmp : forall o t, same_entry (m (LKData o (SExecutableTag t) Temporary)) (m' (LKData o (SExecutableTag t) Temporary));
  ev_inst : forall id, iview m id <> None -> iview m' id <> None;
  ev_run : forall id ex st, iview m' id = Some (ex, st) ->
    (exists st0, iview m id = Some (ex, st0)) \/ runnable m' ex
}.

Lemma same_entry_some v v' : same_entry v v' -> v <> None -> v' <> None.
Proof. unfold same_entry. destruct v, v'; cbn; congruence. Qed.
Lemma runnable_evolves m m' ex : evolves m m' -> runnable m ex -> runnable m' ex.
Proof. intros [A B C D F G]. destruct ex; cbn; auto. Qed.

Lemma evolves_trans a b d : evolves a b -> evolves b d -> evolves a d.
Proof.
  intros A B. constructor.
  - intros h N. apply B, A, N.
  - intros o t. destruct (ev_ref _ _ B o t) as [S|V]; [|auto]. destruct (ev_ref _ _ A o t) as [S1|V1].
    + left. unfold same_entry in *. congruence.
    + right. destruct V1 as (x & l & E1 & E2 & E3). rewrite E1 in S. unfold same_entry in S. cbn in S.
      destruct (d (exe_ref_key o t)) as [[e l']|]; [|discriminate]. injection S as ->.
      exists x, l'. split; auto. split; auto. now apply B.
  - intros o t N. apply B, A, N.
  - intros o t. pose proof (ev_tmp _ _ A o t). pose proof (ev_tmp _ _ B o t). unfold same_entry in *. congruence.
  - intros id N. apply B, A, N.
  - intros id ex st V. destruct (ev_run _ _ B _ _ _ V) as [[st0 V0]|R]; [|auto].
    destruct (ev_run _ _ A _ _ _ V0) as [V1|R]; [auto|]. right. eapply runnable_evolves; eauto.
Qed.

Lemma same_evolves m m' : same m m' -> evolves m m'.
Proof.
  intros S. assert (I : forall id, iview m' id = iview m id) by (intros; unfold iview; now rewrite S).
  constructor; intros; rewrite ?I, <- ?S in *; auto.
  - left. reflexivity.
  - reflexivity.
  - left. eauto.
Qed.
Lemma evolves_refl m : evolves m m. Proof. apply same_evolves, same_refl. Qed.

(* Only lifetimes change. *)
Definition ttl_only (m m' : store) : Prop := forall k, same_entry (m k) (m' k).
Lemma ttl_refl m : ttl_only m m. Proof. intros k. reflexivity. Qed.
Lemma ttl_trans a b d : ttl_only a b -> ttl_only b d -> ttl_only a d.
Proof. intros A B k. specialize (A k). specialize (B k). unfold same_entry in *. congruence. Qed.
Lemma ttl_iview m m' id : ttl_only m m' -> iview m' id = iview m id.
Proof.
  intros T. specialize (T (instance_key (AContract id))). unfold same_entry, iview in *.
  destruct (m _) as [[e l]|], (m' _) as [[e' l']|]; cbn in T; try congruence. injection T as ->. reflexivity.
Qed.
Lemma ttl_evolves m m' : ttl_only m m' -> evolves m m'.
Proof.
  intros T. constructor; intros; auto.
  - eapply same_entry_some; eauto.
  - eapply same_entry_some; eauto.
  - rewrite (ttl_iview _ _ _ T). assumption.
  - left. rewrite (ttl_iview _ _ _ T) in H. eauto.
Qed.

(* A write elsewhere. *)
Definition plain_key (k : lkey) : Prop :=
  match k with
  | LKCode _ => False
  | LKData _ (SExecutableTag _) _ => False
  | LKData _ SLedgerKeyContractInstance _ => False
  | _ => True
  end.
Definition agree_off (P : lkey -> Prop) (m m' : store) : Prop := forall k, ~ P k -> m' k = m k.
Lemma plain_iview m m' id : agree_off plain_key m m' -> iview m' id = iview m id.
Proof. intros A. unfold iview. rewrite A; auto. Qed.
Lemma plain_evolves m m' : agree_off plain_key m m' -> evolves m m'.
Proof.
  intros A. constructor; intros.
  - rewrite A; auto.
  - left. rewrite A; [reflexivity|auto].
  - rewrite A; auto.
  - rewrite A; [reflexivity|auto].
  - rewrite (plain_iview _ _ _ A). assumption.
  - left. rewrite (plain_iview _ _ _ A) in H. eauto.
Qed.

(* ---------------------------------------------------------------- posts *)

(* what every storage program guarantees, and what it does to instances *)
Definition post := store -> res sout -> Prop.
Definition quiet_post (li : linfo) (m : store) : post := fun m' _ =>
  alive li m' /\ evolves m m' /\ forall id, iview m' id = iview m id.
Lemma quiet_ext li m : ext_post (quiet_post li m).
Proof.
  intros a b r S (A & B & C). split; [intros k; rewrite <- S; apply A|]. split.
  - eapply evolves_trans; [exact B|now apply same_evolves].
  - intros id. rewrite <- C. unfold iview. now rewrite S.
Qed.
Lemma quiet_same li m m' r : alive li m -> same m m' -> quiet_post li m m' r.
Proof.
  intros A S. split; [intros k; rewrite <- S; apply A|]. split; [now apply same_evolves|].
  intros id. unfold iview. now rewrite S.
Qed.
Lemma quiet_refl li m r : alive li m -> quiet_post li m m r.
Proof. intros A. apply quiet_same; auto using same_refl. Qed.
Lemma quiet_ttl li m m' r : alive li m' -> ttl_only m m' -> quiet_post li m m' r.
Proof. intros A T. split; auto. split; [now apply ttl_evolves|]. intros id. now apply ttl_iview. Qed.

(* programs that only read and extend *)
Definition quiet_op (op : sop) : bool := match op with SPut _ _ _ | SDel _ => false | _ => true end.
Fixpoint quiet (p : prog) : Prop :=
  match p with
  | PRet _ => True
  | PDo op k => quiet_op op = true /\ forall r, quiet (k r)
  | PFrame _ _ => False
  end.

Lemma with_live_ttl m k f : ttl_only m (fst (with_live m k f)).
Proof. intros k'. apply with_live_entry. Qed.
Lemma meaning_ttl li m op : quiet_op op = true -> ttl_only m (fst (meaning li m op)).
Proof.
  intros Q. unfold meaning. destruct (bad_args op); [apply ttl_refl|].
  destruct op; try discriminate; try apply ttl_refl; apply with_live_ttl.
Qed.
Lemma quiet_write li op : quiet_op op = true -> write_ok li op.
Proof. destruct op; cbn; auto; discriminate. Qed.

Lemma quiet_wp li p : quiet p -> forall m m0, ttl_only m0 m -> alive li m -> wp li p m (fun m' _ => ttl_only m0 m' /\ alive li m').
Proof.
  induction p as [r|op k IH|]; cbn; intros Q m m0 T A; [auto| |contradiction].
  destruct Q as [Q1 Q2]. split; [now apply quiet_write|]. split.
  - apply IH; auto.
    + eapply ttl_trans; [exact T|now apply meaning_ttl].
    + apply meaning_alive; auto. now apply quiet_write.
  - apply IH; auto.
Qed.
Lemma quiet_prog li p m : quiet p -> alive li m -> wp li p m (quiet_post li m).
Proof.
  intros Q A. eapply wp_mono; [|apply (quiet_wp li p Q m m (ttl_refl m) A)].
  intros m' r [T A']. now apply quiet_ttl.
Qed.

Lemma quiet_psucc op k : quiet_op op = true -> (forall o, quiet (k o)) -> quiet (psucc op k).
Proof. intros Q K. cbn. split; auto. intros [o|e]; cbn; auto. Qed.
Lemma quiet_pget k f : (forall e, quiet (f e)) -> quiet (pget k f).
Proof. intros K. apply quiet_psucc; auto. intros [| |[e|]]; cbn; auto. Qed.
Lemma quiet_phas k f : (forall b, quiet (f b)) -> quiet (phas k f).
Proof. intros K. apply quiet_psucc; auto. intros [| |]; cbn; auto. Qed.
Lemma quiet_bind p k : quiet p -> (forall r, quiet (k r)) -> quiet (pbind p k).
Proof. induction p as [r|op f IH|]; cbn; [auto| |contradiction]. intros [A B] K. split; auto. Qed.

Lemma quiet_resolve o t f : (forall h, quiet (f h)) -> quiet (resolve_external_ref o t f).
Proof.
  intros K. unfold resolve_external_ref. apply quiet_pget. intros [e l]. destruct e; cbn; auto. destruct v; cbn; auto.
  destruct (Nat.eqb _ _); cbn; auto.
Qed.
Lemma quiet_instance k f : (forall ex st, quiet (f ex st)) -> quiet (pinstance k f).
Proof. intros K. unfold pinstance. apply quiet_pget. intros [e l]. destruct e; cbn; auto. destruct v; cbn; auto. Qed.
Lemma quiet_extend_code ext k : (forall x, quiet_op (ext x) = true) -> quiet (extend_code_ttl ext k).
Proof.
  intros Q. unfold extend_code_ttl. apply quiet_instance. intros ex st. destruct ex; cbn [quiet pdone]; auto.
  - apply quiet_psucc; auto. intros; exact I.
  - apply quiet_psucc; auto. intros _. apply quiet_resolve. intros h. apply quiet_psucc; auto. intros; exact I.
Qed.

(* ---------------------------------------------------------------- contract data *)

Definition put_ok (li : linfo) (m : store) (c : addr) (k v : scval) (d : durability) : post := fun m' r =>
  put_post li m (LKData c k d) d v m' r
  /\ (is_ok r = true -> forall t, k = SExecutableTag t ->
        d = Persistent /\ exists b, v = SBytes b /\ length b = 32%nat /\ m (LKCode b) <> None).

Lemma wp_validate2 li m c k v d : li_ok li -> alive li m ->
  wp li (put_contract_data li c k v d) m (put_ok li m c k v d).
Proof.
  intros LI A. unfold put_contract_data, validate_put.
  assert (G : forall (H : forall t, k = SExecutableTag t ->
        d = Persistent /\ exists b, v = SBytes b /\ length b = 32%nat /\ m (LKCode b) <> None),
    wp li (put_data_into_ledger li (LKData c k d) d v) m (put_ok li m c k v d)).
  { intros H. eapply wp_mono; [|apply wp_put_ledger; auto]. intros m' r Q. split; auto. }
  assert (F : forall e, put_ok li m c k v d m (Err e)) by (intros e; split; [apply same_refl|discriminate]).
  destruct k; try (apply G; intros; discriminate).
  destruct d; [apply F|]. destruct v; try apply F. destruct (Nat.eqb (length b0) 32) eqn:L; [|apply F].
  unfold verify_wasm_exists. apply wp_phas; auto; [intros _; apply F|]. intros N. apply G.
  intros t _. split; auto. exists b0. split; auto. split; [now apply Nat.eqb_eq|auto].
Qed.

Lemma guest_instance k c d id : guest_key k = true -> LKData c k d <> instance_key (AContract id).
Proof. intros G [= -> -> ->]. discriminate. Qed.

Lemma put_ok_quiet li m c k v d m' r : guest_key k = true -> alive li m' -> put_ok li m c k v d m' r -> quiet_post li m m' r.
Proof.
  intros G A' [Q V]. destruct r as [o|e].
  - unfold put_post in Q. specialize (V eq_refl).
    assert (I : forall id, iview m' id = iview m id).
    { intros id. unfold iview. rewrite Q. destruct (lkey_eq_dec _ _) as [X|]; [|auto]. symmetry in X. now apply guest_instance in X. }
    split; auto. split; [|exact I]. constructor.
    + intros h N. rewrite Q. destruct (lkey_eq_dec _ _); [discriminate|auto].
    + intros ow t. rewrite Q. destruct (lkey_eq_dec (exe_ref_key ow t) (LKData c k d)) as [X|]; [|left; reflexivity].
      unfold exe_ref_key in X. injection X as <- <- <-. destruct (V t eq_refl) as (_ & b & -> & L & N). right.
      exists b, (put_live li (m (LKData ow (SExecutableTag t) Persistent)) Persistent). split; auto. split; auto.
      rewrite Q. destruct (lkey_eq_dec _ _); [discriminate|auto].
    + intros ow t N. rewrite Q. destruct (lkey_eq_dec _ _); [discriminate|auto].
    + intros ow t. rewrite Q. destruct (lkey_eq_dec _ _) as [X|]; [|reflexivity].
      injection X as <- <- <-. destruct (V t eq_refl) as [X _]. discriminate.
    + intros id N. now rewrite I.
    + intros id ex st H. left. rewrite I in H. eauto.
  - cbn in Q. split; auto. split; [apply same_evolves; intros q; symmetry; apply Q|].
    intros id. unfold iview. now rewrite Q.
Qed.

Lemma wp_and li p : forall m (Q Q' : post), wp li p m Q -> wp li p m Q' -> wp li p m (fun m' r => Q m' r /\ Q' m' r).
Proof.
  induction p as [r|op k IH|body IHb k IH]; cbn; intros m Q Q' A B; auto.
  - destruct A as (A1 & A2 & A3), B as (B1 & B2 & B3). split; auto.
  - eapply wp_mono; [|exact (IHb _ _ _ A B)]. intros m1 r [X Y]. now apply IH.
Qed.

Lemma hop_quiet li c h m : li_ok li -> alive li m -> hop_key_ok h = true -> wp li (hop_prog li c h) m (quiet_post li m).
Proof.
  intros LI A G. pose proof (hop_alive li c h m LI A) as HA.
  destruct h; cbn [hop_prog hop_key_ok] in *.
  - eapply wp_mono; [|apply (wp_and li _ m _ _ HA (wp_validate2 li m c k v d LI A))].
    intros m' r [A' Q]. now apply put_ok_quiet in Q.
  - apply quiet_prog; auto. apply quiet_psucc; auto. intros; exact I.
  - apply quiet_prog; auto. unfold get_contract_data. apply quiet_pget. intros [e l]. destruct e; exact I.
  - unfold del_contract_data in *.
    assert (D : k <> SExecutableTag [] -> (forall t, k <> SExecutableTag t) ->
      wp li (psucc (SDel (LKData c k d)) (fun _ => pdone)) m (quiet_post li m)).
    { intros _ N. apply wp_sdel; auto; [now apply quiet_refl|]. cbn.
      assert (PK : plain_key (LKData c k d)) by (destruct k; try exact I; try discriminate; destruct (N b); reflexivity).
      assert (AG : agree_off plain_key m (upd m (LKData c k d) None)).
      { intros q Nq. unfold upd. destruct (lkey_eq_dec q _) as [->|]; [contradiction|auto]. }
      split; [apply alive_upd; auto; exact I|]. split; [now apply plain_evolves|]. intros id. now apply plain_iview. }
    destruct k; try (apply D; [discriminate|intros; discriminate]). now apply quiet_refl.
  - apply quiet_prog; auto. apply quiet_psucc; auto. intros; exact I.
  - apply quiet_prog; auto. apply quiet_psucc; auto. intros; exact I.
  - apply quiet_prog; auto. apply quiet_psucc; auto. intros _. apply quiet_extend_code. auto.
  - apply quiet_prog; auto. unfold extend_instance_and_code_ttl_v2. destruct sc.
    + apply quiet_bind; [apply quiet_extend_code; auto|]. intros [o|e]; [|exact I]. apply quiet_psucc; auto. intros; exact I.
    + apply quiet_psucc; auto. intros; exact I.
    + apply quiet_extend_code; auto.
Qed.

Lemma classic_quiet li op m : alive li m -> classic_op op = true -> wp li (PDo op PRet) m (quiet_post li m).
Proof.
  intros A C. destruct (quiet_op op) eqn:Q.
  - apply quiet_prog; auto. split; auto. intros; exact I.
  - assert (K : key_durability (op_key op) = None /\ plain_key (op_key op)).
    { destruct op; cbn in *; destruct k; try discriminate; split; cbn; auto. }
    destruct K as [K PK]. cbn. split.
    + destruct op; cbn in *; auto. intros X. now rewrite K in X.
    + split; [|now apply quiet_refl].
      assert (AG : agree_off plain_key m (fst (meaning li m op))).
      { intros q N. destruct (lkey_eq_dec q (op_key op)) as [->|NE]; [contradiction|].
        now apply meaning_other. }
      split; [apply meaning_alive; auto|].
      * destruct op; cbn in *; auto. intros X. now rewrite K in X.
      * split; [now apply plain_evolves|]. intros id. now apply plain_iview.
Qed.

Lemma nonce_quiet li a n l m : li_ok li -> alive li m -> wp li (consume_nonce li a n l) m (quiet_post li m).
Proof.
  intros LI A. unfold consume_nonce, get_min_live_until. rewrite (min_live_ok li Temporary LI).
  apply wp_phas; auto; [now apply quiet_refl| |intros _; now apply quiet_refl].
  intros N. pose proof (min_live_ge li Temporary LI) as G. apply wp_pput; auto.
  - cbn. intros _. eexists. split; [reflexivity|lia].
  - now apply quiet_refl.
  - set (k := LKData a (SLedgerKeyNonce n) Temporary).
    assert (AG : forall v, agree_off plain_key m (upd m k v)).
    { intros v q Nq. unfold upd. destruct (lkey_eq_dec q k) as [->|]; [|auto]. destruct Nq. exact I. }
    split; [apply alive_upd; auto|].
    + cbn. intros _. eexists. split; [reflexivity|lia].
    + split; [now apply plain_evolves|]. intros id. now apply plain_iview.
Qed.

Lemma upload_quiet li h code m : li_ok li -> alive li m -> wp li (upload_code li h code) m (quiet_post li m).
Proof.
  intros LI A. unfold upload_code, get_min_live_until. rewrite (min_live_ok li Persistent LI).
  pose proof (min_live_ge li Persistent LI) as G.
  assert (PUT : wp li (pput (LKCode h) (ECode code) (Some (min_live li Persistent))) m (quiet_post li m)).
  { apply wp_pput; auto.
    - cbn. intros _. eexists. split; [reflexivity|lia].
    - now apply quiet_refl.
    - assert (I : forall id, iview (upd m (LKCode h) (Some (ECode code, Some (min_live li Persistent)))) id = iview m id).
      { intros id. unfold iview, upd. destruct (lkey_eq_dec _ _); [discriminate|auto]. }
      split; [apply alive_upd; auto|].
      + cbn. intros _. eexists. split; [reflexivity|lia].
      + split; [|exact I]. constructor; unfold upd.
        * intros h' N. destruct (lkey_eq_dec _ _); [discriminate|auto].
        * intros o t. destruct (lkey_eq_dec _ _); [discriminate|left; reflexivity].
        * intros o t N. destruct (lkey_eq_dec _ _); [discriminate|auto].
        * intros o t. destruct (lkey_eq_dec _ _); [discriminate|reflexivity].
        * intros id N. fold (upd m (LKCode h) (Some (ECode code, Some (min_live li Persistent)))). now rewrite I.
        * intros id ex st H. left. fold (upd m (LKCode h) (Some (ECode code, Some (min_live li Persistent)))) in H.
          rewrite I in H. eauto. }
  apply wp_phas; auto; [now apply quiet_refl|]. intros N. apply wp_pget; auto; try (intros; now apply quiet_refl).
  intros [e l] M. destruct e; try (apply quiet_refl; assumption).
  destruct (zlist_eq_dec wasm code); [now apply quiet_refl|exact PUT].
Qed.

(* ---------------------------------------------------------------- instances *)

Definition store_post (li : linfo) (m : store) (id : list Z) (ex : option executable) (st : option imap) : post := fun m' r =>
  alive li m' /\
  match r with
  | Err _ => same m m'
  | Ok _ =>
      (forall k, k <> instance_key (AContract id) -> m' k = m k)
      /\ match iview m id with
         | Some (e0, s0) => iview m' id = Some (match ex with Some e => e | None => e0 end,
                                               match st with Some x => Some x | None => s0 end)
         | None => m (instance_key (AContract id)) = None
                   /\ exists e, ex = Some e /\ iview m' id = Some (e, st)
                      /\ m' (instance_key (AContract id)) = Some (EData (SContractInstance e st), Some (min_live li Persistent))
         end
  end.

Lemma store_post_ext li m id ex st : ext_post (store_post li m id ex st).
Proof.
  intros a b r S (A & B). split; [intros k; rewrite <- S; apply A|].
  assert (V : iview b id = iview a id) by (unfold iview; now rewrite S).
  destruct r as [o|e].
  - destruct B as [B1 B2]. split; [intros k N; rewrite <- S; now apply B1|]. rewrite V, <- S. exact B2.
  - intros k. rewrite (B k). apply S.
Qed.

Lemma iview_upd m id v : iview (upd m (instance_key (AContract id)) v) id =
  match v with Some (EData (SContractInstance ex st), _) => Some (ex, st) | _ => None end.
Proof. unfold iview, upd. destruct (lkey_eq_dec _ _); congruence. Qed.

Lemma wp_store_instance li m id ex st : li_ok li -> alive li m ->
  wp li (store_instance li id ex st) m (store_post li m id ex st).
Proof.
  intros LI A. unfold store_instance.
  assert (F : forall e, store_post li m id ex st m (Err e)) by (intros; split; [exact A|apply same_refl]).
  assert (U : forall k v, k <> instance_key (AContract id) -> upd m (instance_key (AContract id)) v k = m k).
  { intros k v N. unfold upd. destruct (lkey_eq_dec k _); congruence. }
  apply wp_phas; auto.
  - intros N. destruct ex as [e|]; [|apply F]. unfold get_min_live_until. rewrite (min_live_ok li Persistent LI).
    pose proof (min_live_ge li Persistent LI) as G.
    apply wp_pput; auto.
    + cbn. intros _. eexists. split; [reflexivity|lia].
    + split; [apply alive_upd; auto; cbn; intros _; eexists; split; [reflexivity|lia]|]. split; [intros k NE; now apply U|].
      rewrite iview_upd. unfold iview at 1. rewrite N. split; auto. eexists. split; [reflexivity|]. split; auto.
      unfold upd. destruct (lkey_eq_dec _ _); congruence.
  - intros N. apply wp_pget; auto. intros [e l] M. destruct e; try apply F. destruct v; try apply F.
    pose proof (A (instance_key (AContract id))) as L. rewrite M in L.
    apply wp_pput; auto. split; [apply alive_upd; auto|]. split; [intros k NE; now apply U|].
    rewrite iview_upd. unfold iview. rewrite M. reflexivity.
Qed.

Lemma store_post_evolves li m id ex st m' r : store_post li m id ex st m' r ->
  (forall e, ex = Some e -> runnable m e) -> evolves m m'.
Proof.
  intros [A B] R. destruct r as [o|e]; [|now apply same_evolves]. destruct B as [B1 B2].
  assert (O : forall i, i <> id -> iview m' i = iview m i).
  { intros i N. unfold iview. rewrite B1; auto. intros [= ->]. congruence. }
  assert (C : forall h, m' (LKCode h) = m (LKCode h)) by (intros; apply B1; discriminate).
  assert (T : forall o t, m' (exe_ref_key o t) = m (exe_ref_key o t)) by (intros; apply B1; discriminate).
  assert (R' : forall e, runnable m e -> runnable m' e) by (intros [h| |ow t]; cbn; rewrite ?C, ?T; auto).
  constructor.
  - intros h. now rewrite C.
  - intros ow t. left. rewrite T. reflexivity.
  - intros ow t. now rewrite T.
  - intros ow t. rewrite B1 by discriminate. reflexivity.
  - intros i N. destruct (zlist_eq_dec i id) as [->|NE]; [|now rewrite O].
    destruct (iview m id) as [[e0 s0]|]; [|congruence]. rewrite B2. discriminate.
  - intros i e st' V. destruct (zlist_eq_dec i id) as [->|NE]; [|rewrite O in V; eauto].
    destruct (iview m id) as [[e0 s0]|].
    + rewrite B2 in V. injection V as <- <-. destruct ex as [e|]; [right; auto|left; eauto].
    + destruct B2 as (_ & e1 & -> & V1 & _). rewrite V1 in V. injection V as <- <-. right; auto.
Qed.

Definition create_post (li : linfo) (m : store) (id : list Z) (ex : executable) : post := fun m' r =>
  alive li m' /\ evolves m m' /\
  match r with
  | Err _ => same m m'
  | Ok _ => (forall k, k <> instance_key (AContract id) -> m' k = m k)
            /\ m (instance_key (AContract id)) = None
            /\ m' (instance_key (AContract id)) = Some (EData (SContractInstance ex None), Some (min_live li Persistent))
            /\ iview m' id = Some (ex, None) /\ runnable m' ex
  end.
Lemma create_post_ext li m id ex : ext_post (create_post li m id ex).
Proof.
  intros a b r S (A & B & C). split; [intros k; rewrite <- S; apply A|].
  split; [eapply evolves_trans; [exact B|now apply same_evolves]|].
  assert (V : iview b id = iview a id) by (unfold iview; now rewrite S).
  destruct r as [o|e].
  - destruct C as (C1 & C2 & C2' & C3 & C4). split; [intros k N; rewrite <- S; now apply C1|]. split; auto. rewrite V, <- S. split; auto. split; auto.
    destruct ex; cbn in *; rewrite <- ?S; auto.
  - intros k. rewrite (C k). apply S.
Qed.

Lemma wp_create li m id ex : li_ok li -> alive li m -> wp li (create_with_id li id ex) m (create_post li m id ex).
Proof.
  intros LI A. unfold create_with_id.
  assert (F : forall e, create_post li m id ex m (Err e)).
  { intros e. split; [exact A|]. split; [apply evolves_refl|apply same_refl]. }
  apply wp_phas; auto; [|intros _; apply F]. intros N.
  assert (ST : runnable m ex -> wp li (store_instance li id (Some ex) None) m (create_post li m id ex)).
  { intros R. eapply wp_mono; [|apply (wp_store_instance li m id (Some ex) None LI A)]. intros m' r Q.
    assert (EV : evolves m m') by (eapply store_post_evolves; [exact Q|intros e [= <-]; exact R]).
    destruct Q as [A' Q]. split; [exact A'|]. split; [exact EV|]. destruct r; [|exact Q]. destruct Q as [Q1 Q2].
    assert (IV : iview m id = None) by (unfold iview; now rewrite N). rewrite IV in Q2.
    destruct Q2 as (_ & e & [= <-] & V & V'). split; [exact Q1|]. split; [exact N|]. split; [exact V'|]. split; [exact V|]. eapply runnable_evolves; eauto. }
  destruct ex.
  - unfold verify_wasm_exists. apply wp_phas; auto. intros _. apply F.
  - apply ST. exact I.
  - unfold verify_ref_exists. apply wp_phas; auto. intros _. apply F.
Qed.

(* reading an instance *)
Definition read_post (li : linfo) (m : store) (id : list Z) (R : store -> Prop) : post := fun m' r =>
  alive li m' /\ same m m' /\
  forall o, r = Ok o -> R m' /\ exists e st l e0,
    o = OEntry (Some (EData (SContractInstance e st), l)) /\ iview m id = Some (e0, st).
Lemma read_post_ext li m id (R : store -> Prop) : (forall a b, same a b -> R a -> R b) -> ext_post (read_post li m id R).
Proof.
  intros X a b r S (A & B & C). split; [intros k; rewrite <- S; apply A|].
  split; [intros k; rewrite (B k); apply S|]. intros o H. destruct (C o H). split; eauto.
Qed.
Lemma read_fail li m id R e : alive li m -> read_post li m id R m (Err e).
Proof. intros A. split; auto. split; [apply same_refl|discriminate]. Qed.

Lemma wp_load li m id : alive li m -> wp li (load_contract id) m (read_post li m id (fun _ => True)).
Proof.
  intros A. assert (F : forall e, read_post li m id (fun _ => True) m (Err e)) by (intros; now apply read_fail).
  unfold load_contract, pinstance. apply wp_pget; auto. intros [e l] M. destruct e; try apply F. destruct v; try apply F.
  assert (V : iview m id = Some (e, storage)) by (unfold iview; now rewrite M).
  assert (LD : forall h, wp li (pget (LKCode h) (fun '(e0, _) =>
      match e0 with
      | ECode _ => PRet (Ok (OEntry (Some (EData (SContractInstance (ExWasm h) storage), None))))
      | _ => pfail e_st_internal
      end)) m (read_post li m id (fun _ => True))).
  { intros h. apply wp_pget; auto. intros [e0 l0] _. destruct e0; try apply F.
    split; auto. split; [apply same_refl|]. intros o [= <-]. split; auto. do 4 eexists. split; [reflexivity|exact V]. }
  destruct e.
  - apply LD.
  - split; auto. split; [apply same_refl|]. intros o [= <-]. split; auto. do 4 eexists. split; [reflexivity|exact V].
  - unfold resolve_external_ref. apply wp_pget; auto. intros [e0 l0] _. destruct e0; try apply F. destruct v; try apply F.
    destruct (Nat.eqb _ 32); [apply LD|apply F].
Qed.

Definition loads_wasm (hash : list Z) : post := fun _ r =>
  forall o, r = Ok o -> exists st l, o = OEntry (Some (EData (SContractInstance (ExWasm hash) st), l)).
Lemma wp_load_wasm li m id hash l : alive li m -> m (instance_key (AContract id)) = Some (EData (SContractInstance (ExWasm hash) None), l) ->
  wp li (load_contract id) m (loads_wasm hash).
Proof.
  intros A V. assert (F : forall e, loads_wasm hash m (Err e)) by (intros e o; discriminate).
  unfold load_contract, pinstance. apply wp_pget; auto. intros [e l1] M. rewrite V in M. injection M as <- <-.
  apply wp_pget; auto. intros [e0 l0] _. destruct e0; try apply F. intros o [= <-]. eauto.
Qed.

Definition read_instance (id : list Z) : prog :=
  pinstance (instance_key (AContract id)) (fun ex st => PRet (Ok (OEntry (Some (EData (SContractInstance ex st), None))))).
Lemma wp_read li m id : alive li m -> wp li (read_instance id) m (read_post li m id (fun _ => True)).
Proof.
  intros A. assert (F : forall e, read_post li m id (fun _ => True) m (Err e)) by (intros; now apply read_fail).
  unfold read_instance, pinstance. apply wp_pget; auto. intros [e l] M. destruct e; try apply F. destruct v; try apply F.
  split; auto. split; [apply same_refl|]. intros o [= <-]. split; auto. do 4 eexists. split; [reflexivity|]. unfold iview. now rewrite M.
Qed.

Lemma wp_update_check li m id ex : alive li m ->
  wp li (update_check id ex) m (read_post li m id (fun m' => runnable m' ex)).
Proof.
  intros A. assert (F : forall e, read_post li m id (fun m' => runnable m' ex) m (Err e)) by (intros; now apply read_fail).
  assert (OLD : runnable m ex -> wp li (pinstance (instance_key (AContract id)) (fun e0 s0 =>
    PRet (Ok (OEntry (Some (EData (SContractInstance e0 s0), None)))))) m (read_post li m id (fun m' => runnable m' ex))).
  { intros R. unfold pinstance. apply wp_pget; auto. intros [e l] M. destruct e; try apply F. destruct v; try apply F.
    split; auto. split; [apply same_refl|]. intros o [= <-]. split; auto. do 4 eexists. split; [reflexivity|]. unfold iview. now rewrite M. }
  unfold update_check. destruct ex.
  - unfold verify_wasm_exists. apply wp_phas; auto. intros _. apply F.
  - apply F.
  - unfold verify_ref_exists. apply wp_phas; auto. intros _. apply F.
Qed.
