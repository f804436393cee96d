(* What an execution changes of the authorization state: only nodes get used,
   and a failed call changes nothing. *)
From Coq Require Import ZArith Lia List Bool.
From Verif Require Import Prelude ValModel ContainerModel HeapModel AMap StorageModel StorageSpec
  StorageProofs StorageProofs2 StorageLogic StorageProofs3 FrameModel FrameSpec FrameProofs FrameStore FrameProofs2
  AuthModel AuthSpec AuthProofs.
Import ListNotations.

(* ---------------------------------------------------------------- nonces and other storage *)

Definition is_nonce (k : lkey) : Prop := exists a n, k = nonce_key a n.
Fixpoint avoids (p : prog) : Prop :=
  match p with
  | PRet _ => True
  | PDo op k => ~ is_nonce (op_key op) /\ forall r, avoids (k r)
  | PFrame b k => avoids b /\ forall r, avoids (k r)
  end.
Definition same_nonces (m m' : store) : Prop := forall k, is_nonce k -> m' k = m k.
Lemma avoids_wp li p : avoids p -> forall m m0 Q, same_nonces m0 m -> wp li p m Q -> wp li p m (fun m' r => Q m' r /\ same_nonces m0 m').
Proof.
  induction p as [r|op k IH|b IHb k IH]; cbn; intros A m m0 Q S W.
  - auto.
  - destruct A as [A1 A2]. destruct W as (W1 & W2 & W3). split; auto. split; apply IH; auto.
    intros x N. rewrite meaning_other; auto. intros ->. contradiction.
  - destruct A as [A1 A2].
    eapply wp_mono; [|apply (IHb A1 m m0 _ S W)]. intros m1 r [H1 H2]. cbn in H1. apply IH; auto. destruct r; auto.
Qed.

Lemma av_psucc op k : ~ is_nonce (op_key op) -> (forall o, avoids (k o)) -> avoids (psucc op k).
Proof. intros N K. cbn. split; auto. intros [o|e]; cbn; auto. Qed.
Lemma av_pget k f : ~ is_nonce k -> (forall e, avoids (f e)) -> avoids (pget k f).
Proof. intros N K. apply av_psucc; auto. intros [| |[e|]]; cbn; auto. Qed.
Lemma av_phas k f : ~ is_nonce k -> (forall b, avoids (f b)) -> avoids (phas k f).
Proof. intros N K. apply av_psucc; auto. intros [| |]; cbn; auto. Qed.
Lemma av_pput k e l : ~ is_nonce k -> avoids (pput k e l).
Proof. intros N. apply av_psucc; cbn [op_key]; auto. intros; exact I. Qed.
Lemma av_bind p k : avoids p -> (forall r, avoids (k r)) -> avoids (pbind p k).
Proof. induction p as [r|op f IH|b IHb f IH]; cbn; [auto| |]; intros [A B] K; split; auto. Qed.
Lemma nn_inst a : ~ is_nonce (instance_key a). Proof. intros (x & n & E). discriminate. Qed.
Lemma nn_code h : ~ is_nonce (LKCode h). Proof. intros (x & n & E). discriminate. Qed.
Lemma nn_ref o t : ~ is_nonce (exe_ref_key o t). Proof. intros (x & n & E). discriminate. Qed.
Lemma nn_guest c k d : guest_key k = true -> ~ is_nonce (LKData c k d).
Proof. intros G (x & n & E). injection E as _ -> _. discriminate. Qed.
#[local] Hint Resolve nn_inst nn_code nn_ref nn_guest : core.

Lemma av_instance a f : (forall ex st, avoids (f ex st)) -> avoids (pinstance (instance_key a) f).
Proof. intros K. unfold pinstance. apply av_pget; auto. intros [e l]. destruct e; cbn; auto. destruct v; cbn; auto. Qed.
Lemma av_resolve o t f : (forall h, avoids (f h)) -> avoids (resolve_external_ref o t f).
Proof.
  intros K. unfold resolve_external_ref. apply av_pget; auto. intros [e l]. destruct e; cbn; auto. destruct v; cbn; auto.
  destruct (Nat.eqb _ _); cbn; auto.
Qed.
Lemma av_extend_code ext a : (forall x, op_key (ext x) = x) -> avoids (extend_code_ttl ext (instance_key a)).
Proof.
  intros K. unfold extend_code_ttl. apply av_instance. intros ex st. destruct ex; cbn [avoids pdone]; auto.
  - apply av_psucc; [rewrite K; auto|]. intros; exact I.
  - apply av_psucc; [rewrite K; auto|]. intros _. apply av_resolve. intros h. apply av_psucc; [rewrite K; auto|]. intros; exact I.
Qed.
Lemma av_store li id ex st : avoids (store_instance li id ex st).
Proof.
  unfold store_instance. apply av_phas; auto. intros [].
  - apply av_pget; auto. intros [e l]. destruct e; cbn [avoids pfail]; auto. destruct v; cbn [avoids pfail]; auto. apply av_pput; auto.
  - destruct ex; [|exact I]. destruct (get_min_live_until li Persistent); [apply av_pput; auto|exact I].
Qed.
Lemma av_create li id ex : avoids (create_with_id li id ex).
Proof.
  unfold create_with_id. apply av_phas; auto. intros []; [exact I|]. destruct ex; [| apply av_store|].
  - unfold verify_wasm_exists. apply av_phas; auto. intros []; [apply av_store|exact I].
  - unfold verify_ref_exists. apply av_phas; auto. intros []; [apply av_store|exact I].
Qed.
Lemma av_upload li h code : avoids (upload_code li h code).
Proof.
  unfold upload_code. assert (P : avoids match get_min_live_until li Persistent with
    | Ok l => pput (LKCode h) (ECode code) (Some l) | Err e => pfail e end)
    by (destruct (get_min_live_until li Persistent); [apply av_pput; auto|exact I]).
  apply av_phas; auto. intros []; auto. apply av_pget; auto. intros [e l]. destruct e; cbn [avoids pdone]; auto.
  destruct (zlist_eq_dec _ _); [exact I|exact P].
Qed.
Lemma av_classic op : classic_op op = true -> avoids (PDo op PRet).
Proof. intros C. split; [|intros; exact I]. intros (a & n & E). destruct op; cbn in *; subst; discriminate. Qed.
Lemma av_put li c k d v : ~ is_nonce (LKData c k d) -> avoids (put_data_into_ledger li (LKData c k d) d v).
Proof.
  intros N. unfold put_data_into_ledger. apply av_phas; auto. intros [].
  - apply av_pget; auto. intros [e l]. destruct e; cbn [avoids pfail]; auto. apply av_pput; auto.
  - destruct (get_min_live_until li d); [apply av_pput; auto|exact I].
Qed.
Lemma av_hop li c h : hop_key_ok h = true -> avoids (hop_prog li c h).
Proof.
  intros K. destruct h; cbn [hop_key_ok hop_prog] in K |- *.
  - unfold put_contract_data, validate_put. destruct k; try (apply av_put; auto; fail). destruct d; [exact I|].
    destruct v; try exact I. destruct (Nat.eqb _ _); [|exact I].
    unfold verify_wasm_exists. apply av_phas; auto. intros []; [apply av_put; auto|exact I].
  - unfold has_contract_data. apply av_psucc; cbn [op_key]; auto. intros; exact I.
  - unfold get_contract_data. apply av_pget; auto. intros [e l]. destruct e; exact I.
  - unfold del_contract_data. destruct k; try exact I; (apply av_psucc; cbn [op_key]; [auto|intros; exact I]).
  - unfold extend_contract_data_ttl. apply av_psucc; cbn [op_key]; auto. intros; exact I.
  - unfold extend_contract_data_ttl_v2. apply av_psucc; cbn [op_key]; auto. intros; exact I.
  - unfold extend_instance_and_code_ttl. apply av_psucc; cbn [op_key]; auto. intros _. apply av_extend_code. auto.
  - unfold extend_instance_and_code_ttl_v2. destruct sc.
    + apply av_bind; [apply av_extend_code; auto|]. intros [o|e]; [apply av_psucc; cbn [op_key]; auto; intros|]; exact I.
    + apply av_psucc; cbn [op_key]; auto. intros; exact I.
    + apply av_extend_code; auto.
Qed.

(* ---------------------------------------------------------------- lists *)

Lemma set_nth_acc_eq l : forall i (a : acct), set_nth_acc l i a =
  match nth_error l i with Some _ => firstn i l ++ a :: skipn (S i) l | None => l end.
Proof.
  induction l as [|x l IH]; intros i a; [now destruct i|]. destruct i; cbn; auto.
  change (x :: set_nth_acc l i a = match nth_error l i with Some _ => x :: (firstn i l ++ a :: match l with [] => [] | _ :: l0 => skipn i l0 end) | None => x :: l end).
  rewrite IH. destruct (nth_error l i); auto.
Qed.
Lemma nth_set_acc l : forall i (a : acct) j, nth_error (set_nth_acc l i a) j =
  if Nat.eq_dec j i then option_map (fun _ => a) (nth_error l j) else nth_error l j.
Proof.
  induction l as [|x l IH]; intros i a j.
  - assert (X : set_nth_acc [] i a = []) by now destruct i. rewrite X. destruct (Nat.eq_dec j i); auto. destruct j; auto.
  - destruct i, j; cbn; auto. change (nth_error (set_nth_acc l i a) j = if Nat.eq_dec (S j) (S i) then option_map (fun _ => a) (nth_error l j) else nth_error l j).
    rewrite IH. destruct (Nat.eq_dec j i), (Nat.eq_dec (S j) (S i)); auto; lia.
Qed.
Lemma nth_set_inv l : forall i (a : invk) j, nth_error (set_nth_inv l i a) j =
  if Nat.eq_dec j i then option_map (fun _ => a) (nth_error l j) else nth_error l j.
Proof.
  induction l as [|x l IH]; intros i a j.
  - assert (X : set_nth_inv [] i a = []) by now destruct i. rewrite X. destruct (Nat.eq_dec j i); auto. destruct j; auto.
  - destruct i, j; cbn; auto. change (nth_error (set_nth_inv l i a) j = if Nat.eq_dec (S j) (S i) then option_map (fun _ => a) (nth_error l j) else nth_error l j).
    rewrite IH. destruct (Nat.eq_dec j i), (Nat.eq_dec (S j) (S i)); auto; lia.
Qed.
Lemma Forall2_nth {A B} (R : A -> B -> Prop) l l' :
  Forall2 R l l' <-> (forall i, match nth_error l i, nth_error l' i with Some a, Some b => R a b | None, None => True | _, _ => False end).
Proof.
  split.
  - induction 1; intros [|i]; cbn; auto. apply IHForall2.
  - revert l'. induction l as [|a l IH]; intros [|b l'] H; auto; try (specialize (H 0%nat); cbn in H; contradiction).
    constructor; [exact (H 0%nat)|]. apply IH. intros i. exact (H (S i)).
Qed.
Lemma Forall_nth' {A} (R : A -> Prop) l : Forall R l <-> (forall i a, nth_error l i = Some a -> R a).
Proof.
  rewrite Forall_forall. split; intros H.
  - intros i a N. apply H. eapply nth_error_In; eauto.
  - intros a I. apply In_nth_error in I as [i N]. eauto.
Qed.

(* ---------------------------------------------------------------- pre-authorizations in scope *)

Definition ne (v : invk) : Prop := tk_ms (iv_trk v) <> [].
Definition em (v : invk) : Prop := tk_ms (iv_trk v) = [].
Lemma drop_em B : Forall em B -> drop_scoped B = [].
Proof. induction 1 as [|v B E _ IH]; cbn; auto. rewrite IH. unfold em in E. now rewrite E. Qed.
Lemma drop_split A B : Forall ne A -> Forall em B -> drop_scoped (A ++ B) = A.
Proof.
  intros HA HB. induction HA as [|v A E _ IH]; cbn; [now apply drop_em|]. rewrite IH. destruct A; auto.
  destruct (tk_ms (iv_trk v)) eqn:X; auto. contradiction.
Qed.
Definition scoped (l : list invk) : Prop := exists A B, l = A ++ B /\ Forall ne A /\ Forall em B.
Lemma split_unique A : forall B A' B', A ++ B = A' ++ B' -> Forall ne A -> Forall ne A' -> Forall em B -> Forall em B' -> A = A' /\ B = B'.
Proof.
  intros B A' B' E HA HA' HB HB'. assert (X : drop_scoped (A ++ B) = drop_scoped (A' ++ B')) by now rewrite E.
  rewrite !drop_split in X by auto. subst A'. split; auto. now apply app_inv_head in E.
Qed.

(* ---------------------------------------------------------------- what executions preserve *)

Definition wka (a a' : acct) : Prop :=
  ac_addr a' = ac_addr a /\ ac_cred a' = ac_cred a /\ ac_busy a' = ac_busy a
  /\ (ac_busy a = true -> a' = a)
  /\ (ac_busy a = false -> ext (ac_trk a) (ac_trk a') /\ (ac_verified a = true -> ac_verified a' = true)).
Definition wkv (v v' : invk) : Prop := iv_by v' = iv_by v /\ ext (iv_trk v) (iv_trk v').
Definition wki (l l' : list invk) : Prop :=
  exists A B A' B', l = A ++ B /\ l' = A' ++ B' /\ Forall ne A /\ Forall em B /\ Forall em B' /\ Forall2 wkv A A'.

Lemma wka_refl a : wka a a.
Proof. repeat split; auto using ext_refl, same_frames_refl. Qed.
Lemma wka_trans a b d : wka a b -> wka b d -> wka a d.
Proof.
  intros (A1 & A2 & A3 & A4 & A5) (B1 & B2 & B3 & B4 & B5).
  split; [congruence|]. split; [congruence|]. split; [congruence|]. split.
  - intros X. rewrite <- (A4 X). apply B4. congruence.
  - intros X. destruct (A5 X) as [C1 C2]. destruct (B5 (eq_trans A3 X)) as [D1 D2]. split; [eapply ext_trans; eauto|auto].
Qed.
Lemma wkv_refl v : wkv v v. Proof. split; auto using ext_refl. Qed.
Lemma wkv_trans a b d : wkv a b -> wkv b d -> wkv a d.
Proof. intros [A1 A2] [B1 B2]. split; [congruence|eapply ext_trans; eauto]. Qed.
Lemma wkv_ne A A' : Forall2 wkv A A' -> Forall ne A -> Forall ne A'.
Proof.
  induction 1 as [|v v' A A' [_ (_ & W & _)] _ IH]; auto. intros H. inversion H as [|? ? N NN]; subst. constructor; auto.
  unfold ne in *. destruct W as [[X _]|(m & m' & r & X & Y)]; [contradiction|]. rewrite Y. discriminate.
Qed.
Lemma Forall2_refl {A} (R : A -> A -> Prop) l : (forall x, R x x) -> Forall2 R l l.
Proof. intros H. induction l; auto. Qed.
Lemma Forall2_trans {A} (R : A -> A -> Prop) : (forall x y z, R x y -> R y z -> R x z) -> forall l1 l2, Forall2 R l1 l2 -> forall l3, Forall2 R l2 l3 -> Forall2 R l1 l3.
Proof. intros T. induction 1; intros l3 H3; inversion H3; subst; constructor; eauto. Qed.
Lemma wki_refl l : scoped l -> wki l l.
Proof. intros (A & B & -> & HA & HB). exists A, B, A, B. repeat split; auto. apply Forall2_refl, wkv_refl. Qed.
Lemma wki_trans a b d : wki a b -> wki b d -> wki a d.
Proof.
  intros (A & B & A' & B' & -> & -> & H1 & H2 & H3 & H4) (C & D & C' & D' & E & -> & K1 & K2 & K3 & K4).
  apply split_unique in E as [<- <-]; auto; [|eapply wkv_ne; eauto].
  exists A, B, C', D'. repeat split; auto. eapply Forall2_trans; [exact wkv_trans| |]; eauto.
Qed.

Section Exec.
  Variable c : sconf.
  Hypothesis LI : li_ok (sc_li c).
  Notation li := (sc_li c).

  Definition acont (st : astate) : store := contents c (as_store st).
  Definition ainv (st : astate) : Prop :=
    run_ok c (as_store st) /\ alive li (acont st)
    /\ Forall (fun a => trk_inv (ac_trk a)) (as_acc st) /\ Forall (fun v => trk_inv (iv_trk v)) (as_inv st)
    /\ scoped (as_inv st).
  Definition wk (st st' : astate) : Prop :=
    as_stack st' = as_stack st /\ Forall2 wka (as_acc st) (as_acc st') /\ wki (as_inv st) (as_inv st')
    /\ sle c (as_store st) (as_store st').
  Lemma wk_refl st : ainv st -> wk st st.
  Proof. intros (_ & _ & _ & _ & S). split; auto. split; [apply Forall2_refl, wka_refl|]. split; [now apply wki_refl|apply sle_refl]. Qed.
  Lemma wk_trans a b d : wk a b -> wk b d -> wk a d.
  Proof.
    intros (A1 & A2 & A3 & A4) (B1 & B2 & B3 & B4). split; [congruence|]. split; [eapply Forall2_trans; eauto using wka_trans|].
    split; [eapply wki_trans; eauto|eapply sle_trans; eauto].
  Qed.

  (* ---- storage *)
  Lemma nonce_post_ext m (Q : post) : ext_post Q -> ext_post (fun m' r => Q m' r /\ same_nonces m m').
  Proof. intros X a b r S [A B]. split; [eapply X; eauto|]. intros k N. rewrite <- (S k). now apply B. Qed.
  Lemma aop_spec st o q : ainv st -> aop_prog c st o = Some q ->
    wp li q (acont st) (fun m' r => alive li m' /\ same_nonces (acont st) m').
  Proof.
    intros (R & A & _) E.
    assert (X : wp li q (acont st) (alive_post li) /\ avoids q).
    { destruct o; cbn in E.
      - destruct (as_stack st) as [|[id fn|] ?]; try discriminate. destruct (hop_key_ok h) eqn:K; [|discriminate]. injection E as <-.
        split; [now apply hop_alive|now apply av_hop].
      - destruct (classic_op op) eqn:K; [|discriminate]. injection E as <-. split; [|now apply av_classic].
        eapply wp_mono; [|now apply classic_quiet]. intros m r H. apply H.
      - destruct (as_stack st) as [|[id fn|] ?]; try discriminate. injection E as <-. split; [|apply av_store].
        eapply wp_mono; [|now apply wp_store_instance]. intros m r H. apply H.
      - injection E as <-. split; [|apply av_upload]. eapply wp_mono; [|now apply upload_quiet]. intros m r H. apply H.
      - injection E as <-. split; [|apply av_create]. eapply wp_mono; [|now apply wp_create]. intros m r H. apply H. }
    destruct X as [W V]. eapply wp_mono; [|apply (avoids_wp li q V (acont st) (acont st) (alive_post li)); auto].
    - intros m r H. exact H.
    - intros k _. reflexivity.
  Qed.
  Lemma run_store_spec st q st' r (Q : post) : ainv st -> ext_post Q -> wp li q (acont st) (fun m' r => alive li m' /\ Q m' r) ->
    run_store c st q = (st', r) -> ainv st' /\ wk st st' /\ Q (acont st') r /\ as_acc st' = as_acc st /\ as_inv st' = as_inv st.
  Proof.
    intros I X W. unfold run_store. destruct (srun c (as_store st) q) as [[s r0] t] eqn:RN. intros [= <- <-].
    assert (X' : ext_post (fun m' r => alive li m' /\ Q m' r)).
    { intros a b rr S [A B]. split; [intros k; rewrite <- (S k); apply A|eapply X; eauto]. }
    destruct (srun_spec c LI (as_store st) q _ s r0 t (proj1 I) X' W RN) as (R1 & S1 & A1 & Q1).
    assert (G : ainv (with_store st s)) by (split; auto; split; auto; apply I).
    split; auto. split; [|auto]. destruct (wk_refl st I) as (K1 & K2 & K3 & _). split; auto.
  Qed.
End Exec.
