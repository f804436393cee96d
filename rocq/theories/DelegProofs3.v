(* Whole transactions, and what their events say. *)
From Coq Require Import ZArith Lia List Bool.
From Verif Require Import Prelude HeapModel HeapSpec FrameModel DelegModel DelegSpec DelegProofs DelegProofs2.
Import ListNotations.
Open Scope Z_scope.

(* ---- entries *)
Definition fresh_track (e : dentry) : track :=
  {| tk_addr := de_addr e; tk_source := match de_cred e with DSource => true | _ => false end;
     tk_sig := de_sig e; tk_payload := de_payload e; tk_ctx := de_ctx e;
     tk_root := if has_delegates e then Some (map fresh (delegates e)) else None; tk_match := []; tk_verified := false; tk_busy := false |}.
Lemma ordered_err l : ordered l = Ok tt \/ ordered l = Err e_deleg_input.
Proof. induction l as [|a [|b l] IH]; auto. cbn [ordered]. destruct (addr_cmp a b); auto. Qed.
Lemma node_of_err t : (exists n, node_of t = Ok n) \/ node_of t = Err e_deleg_input.
Proof.
  induction t as [a s l IH] using dtree_ind'. cbn [node_of]. rewrite node_of_list. destruct (ordered_err (map d_addr l)) as [->| ->]; cbn [rbind]; auto.
  assert (X : (exists n, nodes_of l = Ok n) \/ nodes_of l = Err e_deleg_input).
  { induction IH as [|x l [[n N]|N] F X]; cbn [nodes_of]; eauto; rewrite N; cbn [rbind]; auto. destruct X as [[r ->]| ->]; cbn [rbind]; eauto. }
  destruct X as [[r ->]| ->]; cbn [rbind]; eauto.
Qed.
Lemma root_of_err l : (exists n, root_of l = Ok n) \/ root_of l = Err e_deleg_input.
Proof.
  unfold root_of. destruct (ordered_err (map d_addr l)) as [->| ->]; cbn [rbind]; auto. induction l as [|x l IH]; cbn [nodes_of]; eauto.
  destruct (node_of_err x) as [[n ->]| ->]; cbn [rbind]; auto. destruct IH as [[r ->]| ->]; cbn [rbind]; eauto.
Qed.
Lemma track_of_spec e : (ordered_everywhere (delegates e) /\ track_of e = Ok (fresh_track e)) \/ (~ ordered_everywhere (delegates e) /\ track_of e = Err e_deleg_input).
Proof.
  unfold track_of, fresh_track, delegates, has_delegates. destruct (de_cred e) as [| |l] eqn:C.
  - left. split; [apply oe_nil|]. cbn. reflexivity.
  - left. split; [apply oe_nil|]. cbn. reflexivity.
  - destruct (root_of_err l) as [[n N]|N]; rewrite N; cbn [rbind].
    + left. apply root_of_spec in N as [O ->]. auto.
    + right. split; auto. intros O. assert (root_of l = Ok (map fresh l)) by (apply root_of_spec; auto). congruence.
Qed.
Lemma tracks_of_spec l : (well_formed l /\ tracks_of l = Ok (map fresh_track l)) \/ (~ well_formed l /\ tracks_of l = Err e_deleg_input).
Proof.
  unfold well_formed. induction l as [|e l IH]; cbn [tracks_of map]; [left; auto|]. destruct (track_of_spec e) as [[O ->]|[O ->]]; cbn [rbind].
  - destruct IH as [[W ->]|[W ->]]; cbn [rbind]; [left; auto|right; split; auto]. intros F. inversion F; auto.
  - right. split; auto. intros F. inversion F; auto.
Qed.

Section Whole.
  Variable acct : addr -> list Z -> scval -> res unit.
  Variable entries : list dentry.
  Lemma fresh_entries es : Forall2 entry_ok es (map fresh_track es).
  Proof.
    induction es; cbn; constructor; auto. unfold entry_ok. cbn. repeat split; auto. destruct (has_delegates a); auto. cbn. now rewrite shapes_fresh.
  Qed.
  Lemma transaction_spec id p : Forall typed_entry entries -> typed_prog p -> well_formed entries ->
    transaction acct entries id p = spec_transaction acct entries id p.
  Proof.
    intros TY TP WF. unfold transaction, spec_transaction. destruct (tracks_of_spec entries) as [[_ ->]|[W _]]; [|contradiction].
    set (s := {| d_frames := [(AContract id, false)]; d_auth := []; d_trk := map fresh_track entries |}). set (v := {| v_used := []; v_verified := [] |}).
    assert (FT : forall i t, nth_error (d_trk s) i = Some t -> exists e, t = fresh_track e).
    { intros i t N. cbn in N. rewrite nth_error_map in N. destruct (nth_error entries i) as [e|]; [|discriminate]. injection N as <-. eauto. }
    assert (R0 : R entries s v (AContract id) None []).
    { constructor.
      - apply fresh_entries.
      - intros i t N. destruct (FT i t N) as (e & ->). cbn. split; [discriminate|contradiction].
      - intros i t N. destruct (FT i t N) as (e & ->). cbn. split; [discriminate|contradiction].
      - intros i t l path b N. destruct (FT i t N) as (e & ->). cbn. destruct (has_delegates e); [|discriminate]. intros [= <-] F. apply flag_fresh in F. subst b. split; [discriminate|contradiction].
      - intros i t N. destruct (FT i t N) as (e & ->). reflexivity.
      - exists false, []. split; reflexivity. }
    destruct (refine_all acct entries TY p TP _ _ _ _ _ R0) as (v' & SP & K & RK). unfold in_frame. cbn [with_frames d_frames d_auth d_trk]. match goal with |- context [exec acct p ?x] => change x with s end. rewrite SP.
    destruct (exec acct p s) as [[s1 r] t]. cbn [fst snd] in *. destruct r as [[]|e]; auto.
    destruct (roll_tracks_of _ _ (k_static _ _ _ K)) as (l2 & E & _). cbn [s d_trk] in E. rewrite E. reflexivity.
  Qed.
  Lemma transaction_rejects id p : ~ well_formed entries -> transaction acct entries id p = (Err e_deleg_input, []).
  Proof. intros N. unfold transaction. destruct (tracks_of_spec entries) as [[W _]|[_ ->]]; [contradiction|reflexivity]. Qed.

  Notation event_listed := (event_listed entries).
  Notation passed := (passed acct).
  Lemma find_addr_nth l a : forall i n t, find_addr l a i = Some (n, t) -> exists k, n = (i + k)%nat /\ nth_error l k = Some t /\ d_addr t = a.
  Proof.
    induction l as [|x l IH]; intros i n t; cbn [find_addr]; [discriminate|]. destruct (addr_dec (d_addr x) a) as [E|E].
    - intros [= <- <-]. exists 0%nat. split; [lia|auto].
    - intros F. destruct (IH _ _ _ F) as (k & -> & N & A). exists (S k). split; [lia|auto].
  Qed.
  Definition cur_ok (me : addr) (cur : option signer) : Prop := match cur with None => True | Some (i, path) => exists e, nth_error entries i = Some e /\ signer_addr e path me end.
  Lemma signer_addr_app e path n t a : delegate_at (delegates e) path n = Some t -> a = d_addr t -> signer_addr e (path ++ [n]) a.
  Proof.
    intros D A. unfold signer_addr. destruct (path ++ [n]) eqn:E; [now destruct path|]. rewrite <- E, removelast_last, last_last. eauto.
  Qed.
  Lemma dropped_snd t : map snd (dropped t) = map snd t. Proof. unfold dropped. rewrite map_map. reflexivity. Qed.
  Lemma kept_dropped t : kept (dropped t) = []. Proof. unfold kept, dropped. induction t; cbn; auto. Qed.
  Lemma kept_app a b : kept (a ++ b) = kept a ++ kept b. Proof. unfold kept. now rewrite filter_app, map_app. Qed.
  Lemma kept_cons d t : kept ((true, d) :: t) = d :: kept t. Proof. reflexivity. Qed.

  Lemma spec_listed p : forall me cur busy v, cur_ok me cur -> Forall event_listed (map snd (snd (spec acct entries p me cur busy v))).
  Proof.
    induction p as [|x|a body IHb k IHk|k IHk|id try body IHb k IHk kf IHf|i body IHb nonce k IHk]; intros me cur busy v CO; cbn [spec]; try (constructor; fail).
    - destruct cur as [[i path]|]; [|constructor]. destruct CO as (e & NE & SA). rewrite NE. destruct (has_delegates e); [cbn [negb]|constructor].
      destruct (below (delegates e) path) as [cs|] eqn:BE; [|constructor]. destruct (find_addr cs a 0) as [[n t]|] eqn:FA; [|constructor].
      destruct (find_addr_nth _ _ _ _ _ FA) as (k0 & -> & NC & DA). cbn [Nat.add].
      assert (DT : delegate_at (delegates e) path k0 = Some t) by (unfold delegate_at; now rewrite BE).
      destruct (in_dec signer_eq_dec (i, path ++ [k0]) (v_used v)); [constructor|].
      assert (EV : event_listed (EvDelegate i (path ++ [k0]) me a (de_payload e) (d_sig t) (de_ctx e))) by (exists e, path, k0, t; repeat split; auto).
      set (v1 := {| v_used := (i, path ++ [k0]) :: v_used v; v_verified := v_verified v |}).
      assert (CK : Forall event_listed (map snd (snd (spec_check acct a (de_payload e) (d_sig t) v1 (spec acct entries body a (Some (i, path ++ [k0])) busy v1))))).
      { unfold spec_check. destruct a; cbn [snd map]; try constructor. apply IHb. exists e. split; auto. eapply signer_addr_app; eauto. }
      destruct (spec_check _ _ _ _ _ _) as [[r v2] tr]. cbn [snd] in CK. destruct r as [[]|x].
      + assert (CO' : cur_ok me (Some (i, path))) by (exists e; auto). pose proof (IHk me (Some (i, path)) busy v2 CO') as F. destruct (spec acct entries k me (Some (i, path)) busy v2) as [[r3 v3] tr3]. cbn [snd map] in *. constructor; auto. rewrite map_app. apply Forall_app. auto.
      + cbn [snd map]. constructor; auto.
    - destruct cur as [[i path]|]; [|constructor]. pose proof CO as (e & NE & SA). rewrite NE. destruct (has_delegates e); [cbn [negb]|apply IHk; auto]. destruct (below (delegates e) path); [apply IHk; auto|constructor].
    - pose proof (IHb (AContract id) None busy v I) as FB. destruct (spec acct entries body (AContract id) None busy v) as [[r v1] t]. cbn [snd] in FB. destruct r as [[]|x].
      + pose proof (IHk me cur busy v1 CO) as F. destruct (spec acct entries k me cur busy v1) as [[r2 v2] t2]. cbn [snd] in *. rewrite map_app. apply Forall_app. auto.
      + destruct (try && recoverable x); [|exact FB]. pose proof (IHf me cur busy v CO) as F. destruct (spec acct entries kf me cur busy v) as [[r2 v2] t2]. cbn [snd] in *. rewrite map_app, dropped_snd. apply Forall_app. auto.
    - destruct (nth_error entries i) as [e|] eqn:NE; [|constructor]. destruct (in_dec Nat.eq_dec i busy); [constructor|]. destruct (in_dec Nat.eq_dec i (v_verified v)); [apply IHk; auto|].
      set (res3 := match de_cred e with DSource => (Ok tt, v, []) | _ => _ end).
      assert (F3 : Forall event_listed (map snd (snd res3))).
      { assert (CK : Forall event_listed (map snd (snd (spec_check acct (de_addr e) (de_payload e) (de_sig e) v (spec acct entries body (de_addr e) (Some (i, [])) (i :: busy) v))))).
        { unfold spec_check. destruct (de_addr e) eqn:DA; cbn [snd map]; try constructor. apply IHb. exists e. split; auto. cbn. auto. }
        unfold res3. destruct (de_cred e) as [| |ls] eqn:C; [constructor| |]; destruct (spec_check _ _ _ _ _ _) as [[r v2] tr]; cbn [snd map] in *; constructor; auto; exists e; repeat split; auto; congruence. }
      destruct res3 as [[r3 v3] t3]. cbn [snd] in F3. destruct (spec_decorate r3) as [[]|x]; [|exact F3]. destruct nonce as [[]|x]; [|exact F3].
      pose proof (IHk me cur busy {| v_used := v_used v3; v_verified := i :: v_verified v3 |} CO) as F. destruct (spec acct entries k me cur busy _) as [[r5 v5] t5]. cbn [snd] in *. rewrite map_app. apply Forall_app. auto.
  Qed.

  (* ---- what a successful part of the transaction keeps *)
  Definition held (d : dev) (busy : list nat) (v : view) : Prop :=
    match d with EvEntry i _ _ _ _ => In i busy \/ In i (v_verified v) | EvDelegate i path _ _ _ _ _ => In (i, path) (v_used v) end.
  Record good (busy : list nat) (v v' : view) (cur : option signer) (t : dtrace) : Prop := {
    g_used : incl (v_used v) (v_used v');
    g_ver : incl (v_verified v) (v_verified v');
    g_new : Forall (fun d => ~ held d busy v /\ held d [] v' /\ (forall i path by_ a pl sg cx, d = EvDelegate i path by_ a pl sg cx -> path <> [])) (kept t);
    g_nodup : NoDup (map who (kept t));
    g_pass : Forall passed (kept t);
    g_parent : forall t1 d t2, kept t = t1 ++ d :: t2 -> match parent_of d with None => True | Some w => cur = Some w \/ In w (map who t1) end
  }.
  Lemma who_inj_held d busy v : (forall i path by_ a pl sg cx, d = EvDelegate i path by_ a pl sg cx -> path <> []) -> forall d', (forall i path by_ a pl sg cx, d' = EvDelegate i path by_ a pl sg cx -> path <> []) -> who d = who d' -> held d busy v -> held d' busy v.
  Proof.
    intros P d' P' W H. destruct d as [i a pl sg cx|i path by_ a pl sg cx], d' as [i' a' pl' sg' cx'|i' path' by' a' pl' sg' cx']; cbn [who held] in *; try (now injection W as <-).
    - injection W as <- <-. exfalso. eapply P'; eauto.
    - injection W as <- ->. exfalso. eapply P; eauto.
    - injection W as <- <-. auto.
  Qed.
  Lemma held_mono d v v' : incl (v_used v) (v_used v') -> incl (v_verified v) (v_verified v') -> held d [] v -> held d [] v'.
  Proof. intros A B. destruct d; cbn; [intros [[]|H]; auto|apply A]. Qed.
  Lemma held_busy d busy v : held d [] v -> held d busy v. Proof. destruct d; cbn; [intros [[]|H]; auto|auto]. Qed.
  Lemma app_split {A} (x y a b : list A) d : x ++ y = a ++ d :: b -> (exists b', x = a ++ d :: b' /\ b = b' ++ y) \/ (exists a', a = x ++ a' /\ y = a' ++ d :: b).
  Proof.
    revert a. induction x as [|z x IH]; intros a E; cbn in E; [right; exists a; auto|]. destruct a as [|z' a]; cbn in E; injection E as <- E.
    - left. exists x. auto.
    - destruct (IH a E) as [(b' & -> & ->)|(a' & -> & ->)]; [left; exists b'; auto|right; exists a'; auto].
  Qed.
  Lemma good_nil busy v cur : good busy v v cur [].
  Proof. constructor; try apply incl_refl; try constructor. intros [|x t1] d t2; discriminate. Qed.
  Lemma good_app busy v v1 v2 cur t1 t2 : good busy v v1 cur t1 -> good busy v1 v2 cur t2 -> good busy v v2 cur (t1 ++ t2).
  Proof.
    intros [A1 A2 A3 A4 A5 A6] [B1 B2 B3 B4 B5 B6]. constructor; rewrite ?kept_app, ?map_app.
    - eapply incl_tran; eauto.
    - eapply incl_tran; eauto.
    - apply Forall_app. split; [eapply Forall_impl; [|exact A3]|eapply Forall_impl; [|exact B3]]; cbn; intros d (X & Y & Z).
      + split; [exact X|]. split; [eapply held_mono; eauto|exact Z].
      + split; [|split; [exact Y|exact Z]]. intros W. apply X. destruct d; cbn in *; [destruct W; auto|apply A1; auto].
    - rewrite Forall_forall in A3, B3. assert (DJ : forall w, In w (map who (kept t1)) -> ~ In w (map who (kept t2))).
      { intros w I1 I2. apply in_map_iff in I1 as (d1 & <- & I1). apply in_map_iff in I2 as (d2 & W & I2). destruct (A3 d1 I1) as (_ & H1 & P1), (B3 d2 I2) as (H2 & _ & P2).
        apply H2. apply (who_inj_held d1 busy v1 P1 d2 P2); auto. now apply held_busy. }
      clear -A4 B4 DJ. induction (map who (kept t1)) as [|w l IH]; cbn; auto. inversion A4; subst. constructor.
      + rewrite in_app_iff. intros [X|X]; [auto|]. apply (DJ w); cbn; auto.
      + apply IH; auto. intros w' I. apply DJ. cbn. auto.
    - apply Forall_app. auto.
    - intros u1 d u2 E. apply app_split in E as [(b' & E & ->)|(a' & -> & E)]; [apply (A6 _ _ _ E)|]. specialize (B6 _ _ _ E). destruct (parent_of d); auto. destruct B6; auto. right. rewrite map_app, in_app_iff. auto.
  Qed.

  Lemma spec_good p : forall me cur busy v,
    fst (fst (spec acct entries p me cur busy v)) = Ok tt -> good busy v (snd (fst (spec acct entries p me cur busy v))) cur (snd (spec acct entries p me cur busy v)).
  Proof.
    induction p as [|x|a body IHb k IHk|k IHk|id try body IHb k IHk kf IHf|i body IHb nonce k IHk]; intros me cur busy v; cbn [spec].
    - cbn. intros _. apply good_nil.
    - cbn. discriminate.
    - destruct cur as [[i path]|]; [|discriminate]. destruct (nth_error entries i) as [e|]; [|discriminate]. destruct (has_delegates e); [cbn [negb]|discriminate].
      destruct (below (delegates e) path) as [cs|] eqn:BE; [|discriminate]. destruct (find_addr cs a 0) as [[n t]|] eqn:FA; [|discriminate].
      destruct (in_dec signer_eq_dec (i, path ++ [n]) (v_used v)) as [IN|NI]; [discriminate|].
      set (v1 := {| v_used := (i, path ++ [n]) :: v_used v; v_verified := v_verified v |}). set (ev := EvDelegate i (path ++ [n]) me a (de_payload e) (d_sig t) (de_ctx e)).
      assert (CK : let X := spec_check acct a (de_payload e) (d_sig t) v1 (spec acct entries body a (Some (i, path ++ [n])) busy v1) in
                fst (fst X) = Ok tt -> passed ev /\ good busy v1 (snd (fst X)) (Some (i, path ++ [n])) (snd X)).
      { unfold spec_check, passed, ev. cbn [addr_of payload_of sig_of]. destruct a; cbn [fst snd]; try discriminate.
        - intros A. split; auto. apply good_nil.
        - intros A. split; auto. }
      cbv zeta in CK. destruct (spec_check _ _ _ _ _ _) as [[r v2] tr]. cbn [fst snd] in CK. destruct r as [[]|x]; [|discriminate]. destruct (CK eq_refl) as [PA GB].
      specialize (IHk me (Some (i, path)) busy v2). destruct (spec acct entries k me (Some (i, path)) busy v2) as [[r3 v3] tr3]. cbn [fst snd] in *. intros ->. specialize (IHk eq_refl).
      rewrite app_comm_cons. eapply good_app; [|exact IHk]. destruct GB as [G1 G2 G3 G4 G5 G6]. cbn [v1 v_used v_verified] in *.
      assert (NP : path ++ [n] <> []) by (destruct path; discriminate).
      constructor; rewrite ?kept_cons; cbn [map].
      + intros w W. apply G1. cbn. auto.
      + auto.
      + constructor.
        * cbn. split; auto. split; [apply G1; cbn; auto|]. unfold ev. intros ? ? ? ? ? ? ? [= <- <-]. auto.
        * eapply Forall_impl; [|exact G3]. cbn. intros d (X & Y & Z). split; [|split; [exact Y|exact Z]]. intros W. apply X. destruct d; cbn in *; auto.
      + constructor; auto. intros I. apply in_map_iff in I as (d & W & I). rewrite Forall_forall in G3. destruct (G3 d I) as (X & _ & Z). apply X.
        destruct d as [i' a' pl' sg' cx'|i' path' by' a' pl' sg' cx']; cbn [who held ev] in *; [injection W as _ W; exfalso; auto|]. rewrite W. cbn. auto.
      + constructor; auto.
      + intros [|d0 u1] d u2 E; cbn [app] in E; injection E as E1 E2.
        * subst d. cbn [parent_of ev]. rewrite removelast_last. auto.
        * subst d0. specialize (G6 _ _ _ E2). destruct (parent_of d); auto. destruct G6 as [[= <-]|G6]; right; cbn; auto.
    - destruct cur as [[i path]|]; [|discriminate]. destruct (nth_error entries i) as [e|]; [|discriminate]. destruct (has_delegates e); [cbn [negb]|apply IHk; auto]. destruct (below (delegates e) path); [apply IHk; auto|discriminate].
    - specialize (IHb (AContract id) None busy v). destruct (spec acct entries body (AContract id) None busy v) as [[r v1] t]. cbn [fst snd] in IHb. destruct r as [[]|x].
      + specialize (IHk me cur busy v1). destruct (spec acct entries k me cur busy v1) as [[r2 v2] t2]. cbn [fst snd] in *. intros ->. eapply good_app; [|apply IHk; auto]. specialize (IHb eq_refl).
        destruct IHb as [G1 G2 G3 G4 G5 G6]. constructor; auto. intros t1 d u E. specialize (G6 t1 d u E). destruct (parent_of d); auto. destruct G6; [discriminate|auto].
      + destruct (try && recoverable x); [|discriminate]. specialize (IHf me cur busy v). destruct (spec acct entries kf me cur busy v) as [[r2 v2] t2]. cbn [fst snd] in *. intros ->.
        eapply good_app; [|apply IHf; auto]. constructor; rewrite ?kept_dropped; try apply incl_refl; try constructor. intros [|y t1] d u; discriminate.
    - destruct (nth_error entries i) as [e|] eqn:NE; [|discriminate]. destruct (in_dec Nat.eq_dec i busy) as [|NB]; [discriminate|]. destruct (in_dec Nat.eq_dec i (v_verified v)) as [|NV]; [apply IHk; auto|].
      set (res3 := match de_cred e with DSource => (Ok tt, v, []) | _ => _ end).
      assert (G3 : fst (fst res3) = Ok tt -> good busy v {| v_used := v_used (snd (fst res3)); v_verified := i :: v_verified (snd (fst res3)) |} cur (snd res3)).
      { set (ev := EvEntry i (de_addr e) (de_payload e) (de_sig e) (de_ctx e)).
        assert (CK : let X := spec_check acct (de_addr e) (de_payload e) (de_sig e) v (spec acct entries body (de_addr e) (Some (i, [])) (i :: busy) v) in
                fst (fst X) = Ok tt -> passed ev /\ good (i :: busy) v (snd (fst X)) (Some (i, [])) (snd X)).
        { unfold spec_check, passed, ev. cbn [addr_of payload_of sig_of]. destruct (de_addr e) eqn:DA; cbn [fst snd]; try discriminate.
          - intros A. split; auto. apply good_nil.
          - intros A. split; auto. }
        cbv zeta in CK.
        assert (DO : forall X, (fst (fst X) = Ok tt -> passed ev /\ good (i :: busy) v (snd (fst X)) (Some (i, [])) (snd X)) ->
            fst (fst (let '(r, v2, t) := X in (r, v2, (true, ev) :: t))) = Ok tt ->
            good busy v {| v_used := v_used (snd (fst (let '(r, v2, t) := X in (r, v2, (true, ev) :: t)))); v_verified := i :: v_verified (snd (fst (let '(r, v2, t) := X in (r, v2, (true, ev) :: t)))) |} cur (snd (let '(r, v2, t) := X in (r, v2, (true, ev) :: t)))).
        { intros [[r v2] t] H. cbn [fst snd] in *. intros ->. destruct (H eq_refl) as [PA [G1 G2 G3 G4 G5 G6]]. constructor; rewrite ?kept_cons; cbn [map v_used v_verified].
          - auto.
          - intros w W. cbn. auto.
          - constructor.
            + cbn. split; [intros [X|X]; auto|]. split; [auto|]. unfold ev. discriminate.
            + eapply Forall_impl; [|exact G3]. cbn. intros d (X & Y & Z). split; [|split; [|exact Z]].
              * intros W. apply X. destruct d; cbn in *; [destruct W; auto|auto].
              * destruct d; cbn in *; [destruct Y as [[]|Y]; auto|auto].
          - constructor; auto. intros I. apply in_map_iff in I as (d & W & I). rewrite Forall_forall in G3. destruct (G3 d I) as (X & _ & Z).
            destruct d as [i' a' pl' sg' cx'|i' path' by' a' pl' sg' cx']; cbn [who held ev] in *; [injection W as ->; apply X; cbn; auto|injection W as _ ->; eapply Z; eauto].
          - constructor; auto.
          - intros [|d0 u1] d u2 E; cbn [app] in E; injection E as E1 E2.
            + subst d. exact I.
            + subst d0. specialize (G6 _ _ _ E2). destruct (parent_of d); auto. destruct G6 as [[= <-]|G6]; right; cbn; auto. }
        unfold res3. destruct (de_cred e) as [| |ls].
        - cbn [fst snd]. intros _. constructor; cbn [v_used v_verified]; rewrite ?map_nil; try apply incl_refl; try (constructor; fail); [intros w W; cbn; auto|]. intros [|y t1] d u; discriminate.
        - apply DO. exact CK.
        - apply DO. exact CK. }
      destruct res3 as [[r3 v3] t3]. cbn [fst snd] in G3. unfold spec_decorate. destruct r3 as [[]|x]; [|destruct (recoverable x); discriminate]. destruct nonce as [[]|x]; [|discriminate].
      specialize (IHk me cur busy {| v_used := v_used v3; v_verified := i :: v_verified v3 |}). destruct (spec acct entries k me cur busy _) as [[r5 v5] t5]. cbn [fst snd] in *. intros ->. eapply good_app; [apply G3|apply IHk]; auto.
  Qed.
End Whole.
