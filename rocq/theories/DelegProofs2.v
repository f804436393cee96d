(* The trackers, stacks and rollbacks of delegated authentication do what DelegSpec says. *)
From Coq Require Import ZArith Lia List Bool.
From Verif Require Import Prelude HeapModel HeapSpec FrameModel DelegModel DelegSpec DelegProofs.
Import ListNotations.
Open Scope Z_scope.

Lemma f2_length {A B} (P : A -> B -> Prop) a b : Forall2 P a b -> length a = length b.
Proof. induction 1; cbn; auto. Qed.

Section Refine.
  Variable acct : addr -> list Z -> scval -> res unit.
  Variable entries : list dentry.
  Hypothesis TY : Forall typed_entry entries.
  Notation exec := (exec acct).
  Notation spec := (spec acct entries).

  Definition entry_ok (e : dentry) (t : track) : Prop :=
    tk_addr t = de_addr e /\ tk_source t = match de_cred e with DSource => true | _ => false end
    /\ tk_sig t = de_sig e /\ tk_payload t = de_payload e /\ tk_ctx t = de_ctx e
    /\ option_map (map shape) (tk_root t) = (if has_delegates e then Some (delegates e) else None).
  Definition at_signer (s : dst) (cur : option signer) (c : bool) : Prop :=
    match cur with
    | None => c = false
    | Some (i, path) => c = true /\ exists e fr rest t, d_auth s = fr :: rest /\ af_entry fr = i /\ nth_error entries i = Some e
        /\ af_payload fr = de_payload e /\ af_ctx fr = de_ctx e /\ nth_error (d_trk s) i = Some t /\ tk_match t = path /\ tk_busy t = true
    end.
  Record R (s : dst) (v : view) (me : addr) (cur : option signer) (busy : list nat) : Prop := {
    r_ent : Forall2 entry_ok entries (d_trk s);
    r_ver : forall i t, nth_error (d_trk s) i = Some t -> (tk_verified t = true <-> In i (v_verified v));
    r_busy : forall i t, nth_error (d_trk s) i = Some t -> (tk_busy t = true <-> In i busy);
    r_used : forall i t l path b, nth_error (d_trk s) i = Some t -> tk_root t = Some l -> flag l path = Some b -> (b = true <-> In (i, path) (v_used v));
    r_idle : forall i t, nth_error (d_trk s) i = Some t -> tk_busy t = false -> tk_match t = [];
    r_top : exists c rest, d_frames s = (me, c) :: rest /\ at_signer s cur c
  }.
  (* what a program leaves alone *)
  Definition not_cur (cur : option signer) (i : nat) : Prop := forall path, cur <> Some (i, path).
  Record kept_by (s s' : dst) (cur : option signer) : Prop := {
    k_frames : d_frames s' = d_frames s;
    k_auth : d_auth s' = d_auth s;
    k_static : Forall2 same_static (d_trk s) (d_trk s');
    k_others : forall i t, nth_error (d_trk s) i = Some t -> tk_busy t = true -> not_cur cur i -> nth_error (d_trk s') i = Some t
  }.
  Lemma f2_refl l : Forall2 same_static l l. Proof. induction l; constructor; auto using ss_refl. Qed.
  Lemma f2_trans : forall a b c, Forall2 same_static a b -> Forall2 same_static b c -> Forall2 same_static a c.
  Proof. intros a b c H. revert c. induction H as [|x y a b S F IH]; intros c G; inversion_clear G; constructor; eauto using ss_trans. Qed.
  Lemma f2_nth {A B} (P : A -> B -> Prop) a b : Forall2 P a b -> forall i x, nth_error a i = Some x -> exists y, nth_error b i = Some y /\ P x y.
  Proof. induction 1 as [|x y a b S F IH]; intros [|i] z; cbn; try discriminate; [intros [= <-]; eauto|apply IH]. Qed.
  Lemma f2_nth_r {A B} (P : A -> B -> Prop) a b : Forall2 P a b -> forall i y, nth_error b i = Some y -> exists x, nth_error a i = Some x /\ P x y.
  Proof. induction 1 as [|x y a b S F IH]; intros [|i] z; cbn; try discriminate; [intros [= <-]; eauto|apply IH]. Qed.
  Lemma f2_set : forall l i x y, nth_error l i = Some x -> same_static x y -> Forall2 same_static l (set_at l i y).
  Proof. induction l as [|z l IH]; intros [|i] x y; cbn; try discriminate; [intros [= ->]; constructor; auto using f2_refl|constructor; eauto using ss_refl]. Qed.
  Lemma Forall2_nth_static : forall l l', length l' = length l -> (forall j x y, nth_error l j = Some x -> nth_error l' j = Some y -> same_static x y) -> Forall2 same_static l l'.
  Proof.
    induction l as [|x l IH]; intros [|y l'] L H; try discriminate; constructor.
    - exact (H O x y eq_refl eq_refl).
    - apply IH; [cbn in L; lia|]. intros j a b A B. exact (H (S j) a b A B).
  Qed.
  Lemma kept_refl s cur : kept_by s s cur. Proof. constructor; auto using f2_refl. Qed.
  Lemma kept_trans a b c cur : kept_by a b cur -> kept_by b c cur -> kept_by a c cur.
  Proof.
    intros [A1 A2 A3 A4] [B1 B2 B3 B4]. constructor; try congruence; eauto using f2_trans.
  Qed.
  Lemma kept_none a b cur : kept_by a b None -> kept_by a b cur.
  Proof. intros [A1 A2 A3 A4]. constructor; auto. intros i t N B _. apply A4; auto. intros p X. discriminate. Qed.
  Lemma entry_static e t t' : entry_ok e t -> same_static t t' -> entry_ok e t'.
  Proof. intros (A1 & A2 & A3 & A4 & A5 & A6) (B1 & B2 & B3 & B4 & B5 & B6 & _). unfold entry_ok. repeat split; congruence. Qed.
  Lemma entries_static_gen es l l' : Forall2 entry_ok es l -> Forall2 same_static l l' -> Forall2 entry_ok es l'.
  Proof. intros F. revert l'. induction F as [|e t es ts E F IH]; intros l' G; inversion G; subst; constructor; [eapply entry_static; eauto|auto]. Qed.
  Definition entries_static l l' := entries_static_gen entries l l'.

  Definition refines (p : dprog) : Prop := forall s v me cur busy, R s v me cur busy ->
    exists v', spec p me cur busy v = (snd (fst (exec p s)), v', snd (exec p s))
      /\ kept_by s (fst (fst (exec p s))) cur
      /\ (snd (fst (exec p s)) = Ok tt -> R (fst (fst (exec p s))) v' me cur busy).

  (* ---- frames *)
  Lemma push_R s v me cur busy a : R s v me cur busy -> R (with_frames s ((a, false) :: d_frames s)) v a None busy.
  Proof. intros [A1 A2 A3 A4 A5 A6]. constructor; auto. exists false, (d_frames s). split; auto. reflexivity. Qed.
  Lemma at_signer_kept s s' cur c : at_signer s cur c -> d_auth s' = d_auth s -> (forall i path t, cur = Some (i, path) -> nth_error (d_trk s) i = Some t -> tk_busy t = true -> tk_match t = path ->
      exists t', nth_error (d_trk s') i = Some t' /\ tk_match t' = path /\ tk_busy t' = true) -> at_signer s' cur c.
  Proof.
    unfold at_signer. destruct cur as [[i path]|]; auto. intros (C & e & fr & rest & t & A1 & A2 & A3 & A4 & A5 & A6 & A7 & A8) AU K. split; auto.
    destruct (K i path t eq_refl A6 A8 A7) as (t' & B1 & B2 & B3). exists e, fr, rest, t'. rewrite AU. auto 10.
  Qed.
  Lemma frame_call body s v me cur busy a : refines body -> R s v me cur busy ->
    exists v', spec body a None busy v = (snd (fst (in_frame (a, false) (exec body) s)), v', snd (in_frame (a, false) (exec body) s))
      /\ kept_by s (fst (fst (in_frame (a, false) (exec body) s))) None
      /\ (snd (fst (in_frame (a, false) (exec body) s)) = Ok tt -> R (fst (fst (in_frame (a, false) (exec body) s))) v' me cur busy)
      /\ (snd (fst (in_frame (a, false) (exec body) s)) <> Ok tt -> fst (fst (in_frame (a, false) (exec body) s)) = s).
  Proof.
    intros RF RS. destruct (RF _ _ _ _ _ (push_R s v me cur busy a RS)) as (v' & SP & K & RK). unfold in_frame.
    destruct (exec body (with_frames s ((a, false) :: d_frames s))) as [[s1 r] t]. cbn [fst snd] in *. exists v'. destruct K as [K1 K2 K3 K4]. cbn [with_frames d_frames d_auth d_trk] in *.
    destruct r as [[]|e]; cbn [fst snd].
    - split; auto. split; [|split; [|congruence]].
      + constructor; cbn; auto. now rewrite K1.
      + intros _. destruct (RK eq_refl) as [B1 B2 B3 B4 B5 B6]. destruct RS as [A1 A2 A3 A4 A5 A6]. constructor; auto. cbn [with_frames d_frames d_trk]. rewrite K1. cbn [tl].
        destruct A6 as (c & rest & F & AT). exists c, rest. split; auto. eapply at_signer_kept; [exact AT|exact K2|]. intros i path t0 -> N BU M. exists t0. cbn [d_trk]. split; auto.
        apply K4; auto. intros p X. discriminate.
    - destruct (roll_tracks_of _ _ K3) as (l2 & -> & S2 & N2). cbn [fst snd]. split; auto.
      assert (EQ : l2 = d_trk s).
      { assert (L : forall i, nth_error l2 i = nth_error (d_trk s) i).
        { intros i. destruct (nth_error (d_trk s) i) as [t0|] eqn:N.
          - rewrite (N2 i t0 N). destruct (tk_busy t0) eqn:B; auto. rewrite (K4 i t0); auto. intros p X. discriminate.
          - apply nth_error_None. apply nth_error_None in N. apply f2_length in S2. lia. }
        clear -L. revert L. generalize (d_trk s). induction l2 as [|x l IH]; intros [|y m] L; auto; try (specialize (L O); discriminate). f_equal; [specialize (L O); cbn in L; congruence|]. apply IH. intros i. exact (L (S i)). }
      subst l2. assert (ES : with_frames (with_trk s1 (d_trk s)) (tl (d_frames s1)) = s) by (unfold with_frames, with_trk; cbn; rewrite K1, K2; cbn; destruct s; reflexivity).
      rewrite ES. split; [apply kept_refl|]. split; [discriminate|auto].
  Qed.

  (* a check of an address whose `__check_auth` runs as signer [who] *)
  Lemma frame_check body a payload sig s v me cur0 who busy :
    refines body -> R s v me cur0 busy -> at_signer s (Some who) true ->
    exists v', spec_check acct a payload sig v (spec body a (Some who) busy v)
        = (snd (fst (check_addr acct a payload sig (exec body) s)), v', snd (check_addr acct a payload sig (exec body) s))
      /\ kept_by s (fst (fst (check_addr acct a payload sig (exec body) s))) (Some who)
      /\ (snd (fst (check_addr acct a payload sig (exec body) s)) = Ok tt ->
            let s' := fst (fst (check_addr acct a payload sig (exec body) s)) in
            Forall2 entry_ok entries (d_trk s')
            /\ (forall i t, nth_error (d_trk s') i = Some t -> (tk_verified t = true <-> In i (v_verified v')))
            /\ (forall i t, nth_error (d_trk s') i = Some t -> (tk_busy t = true <-> In i busy))
            /\ (forall i t l path b, nth_error (d_trk s') i = Some t -> tk_root t = Some l -> flag l path = Some b -> (b = true <-> In (i, path) (v_used v')))
            /\ (forall i t, nth_error (d_trk s') i = Some t -> tk_busy t = false -> tk_match t = [])
            /\ at_signer s' (Some who) true).
  Proof.
    intros RF RS AT. unfold check_addr, spec_check. destruct a as [k|id|m k|d k]; cbn [fst snd];
      try (exists v; split; [reflexivity|]; split; [apply kept_refl|]; intros E; destruct RS; auto 10; fail).
    assert (RP : R (with_frames s ((AContract id, true) :: d_frames s)) v (AContract id) (Some who) busy).
    { destruct RS as [A1 A2 A3 A4 A5 A6]. constructor; auto. exists true, (d_frames s). split; auto. }
    destruct (RF _ _ _ _ _ RP) as (v' & SP & K & RK). unfold in_frame.
    destruct (exec body (with_frames s ((AContract id, true) :: d_frames s))) as [[s1 r] t]. cbn [fst snd] in *. exists v'. destruct K as [K1 K2 K3 K4]. cbn [with_frames d_frames d_auth d_trk] in *.
    destruct r as [[]|e]; cbn [fst snd].
    - split; auto. split; [constructor; cbn; auto; now rewrite K1|]. intros _. destruct (RK eq_refl) as [B1 B2 B3 B4 B5 B6]. cbn [with_frames d_trk]. refine (conj B1 (conj B2 (conj B3 (conj B4 (conj B5 _))))).
      destruct who as [i path]. destruct B6 as (c & rest & _ & AT'). destruct AT' as (_ & e & fr & rest' & t0 & X). split; [reflexivity|]. exists e, fr, rest', t0. exact X.
    - destruct (roll_tracks_of _ _ K3) as (l2 & -> & S2 & N2). cbn [fst snd]. split; auto. split; [|discriminate].
      constructor; cbn; auto; [now rewrite K1|]. intros i t0 N B C. rewrite (N2 i t0 N), B. auto.
  Qed.

  Lemma entry_of s v me cur busy i t : R s v me cur busy -> nth_error (d_trk s) i = Some t -> exists e, nth_error entries i = Some e /\ entry_ok e t /\ all_typed (delegates e).
  Proof.
    intros RS N. destruct (f2_nth_r _ _ _ (r_ent _ _ _ _ _ RS) i t N) as (e & NE & EO). exists e. split; auto. split; auto. apply all_typed_forall.
    rewrite Forall_forall in TY. apply (TY e). eapply nth_error_In; eauto.
  Qed.
  Lemma root_shape e t l : entry_ok e t -> tk_root t = Some l -> has_delegates e = true /\ map shape l = delegates e.
  Proof. intros (_ & _ & _ & _ & _ & E) T. rewrite T in E. cbn in E. destruct (has_delegates e); [injection E as ->; auto|discriminate]. Qed.
  Lemma noroot e t : entry_ok e t -> tk_root t = None -> has_delegates e = false.
  Proof. intros (_ & _ & _ & _ & _ & E) T. rewrite T in E. cbn in E. destruct (has_delegates e); [discriminate|auto]. Qed.

  Lemma refine_all p : typed_prog p -> refines p.
  Proof.
    induction p as [|e|a body IHb k IHk|k IHk|id try body IHb k IHk kf IHf|i body IHb nonce k IHk]; cbn [typed_prog]; intros TP s v me cur busy RS.
    - cbn. exists v. split; auto. split; auto using kept_refl.
    - cbn. exists v. split; auto. split; auto using kept_refl; discriminate.
    - (* delegate *)
      destruct TP as (TA & TB & TK). specialize (IHb TB). specialize (IHk TK). destruct (r_top _ _ _ _ _ RS) as (c & rest & FR & AT). cbn [DelegModel.exec DelegSpec.spec]. rewrite FR.
      destruct cur as [[i path]|]; cbn [at_signer] in AT.
      2:{ subst c. cbn [fst snd]. exists v. split; auto. split; auto using kept_refl; discriminate. }
      destruct AT as (-> & e & fr & rest' & t & AU & AE & NE & AP & AC & NT & MT & BT). subst i path. rewrite AU, NT, NE.
      destruct (entry_of _ _ _ _ _ _ _ RS NT) as (e' & NE' & EO & TYE). assert (e' = e) by congruence. subst e'.
      destruct (tk_root t) as [root|] eqn:RT.
      2:{ rewrite (noroot e t EO RT). cbn [negb fst snd]. exists v. split; auto. split; auto using kept_refl; discriminate. }
      destruct (root_shape e t root EO RT) as [HD SH]. rewrite HD. cbn [negb].
      pose proof (use_at_spec (tk_match t) root a) as U. rewrite SH in U. specialize (U TYE TA).
      destruct (below (delegates e) (tk_match t)) as [cs|] eqn:BE.
      2:{ rewrite U. cbn [fst snd]. exists v. split; auto. split; auto using kept_refl; discriminate. }
      destruct (find_addr cs a 0) as [[n t0]|] eqn:FA.
      2:{ rewrite U. cbn [fst snd]. exists v. split; auto. split; auto using kept_refl; discriminate. }
      destruct U as (u & FL & NC & DA & U).
      pose proof (r_used _ _ _ _ _ RS (af_entry fr) t root (tk_match t ++ [n]) u NT RT FL) as UU.
      destruct (in_dec signer_eq_dec (af_entry fr, tk_match t ++ [n]) (v_used v)) as [IN|NI].
      { assert (u = true) by (apply UU; auto). subst u. rewrite U. cbn [fst snd]. exists v. split; auto. split; auto using kept_refl; discriminate. }
      assert (u = false) by (destruct u; auto; exfalso; apply NI; apply UU; auto). subst u. destruct U as (root' & -> & SH' & FL').
      set (i := af_entry fr) in *. set (who := (i, tk_match t ++ [n])). set (t1 := on_tree t (Some root') (tk_match t ++ [n])).
      set (s1 := on_track s i t1). set (v1 := {| v_used := who :: v_used v; v_verified := v_verified v |}).
      assert (SS1 : same_static t t1) by (unfold same_static, t1; cbn; rewrite RT; cbn; repeat split; auto; try congruence; discriminate).
      assert (NTH : forall j x, nth_error (d_trk s1) j = Some x -> (j = i /\ x = t1) \/ (j <> i /\ nth_error (d_trk s) j = Some x)).
      { intros j x. unfold s1, on_track. cbn [with_trk d_trk]. rewrite nth_set_at, NT. destruct (Nat.eq_dec i j) as [<-|NEJ]; [intros [= <-]; auto|auto]. }
      assert (N1 : nth_error (d_trk s1) i = Some t1) by (unfold s1, on_track; cbn [with_trk d_trk]; rewrite nth_set_at, NT; destruct (Nat.eq_dec i i); congruence).
      assert (AT1 : at_signer s1 (Some who) true).
      { unfold who. cbn. split; auto. exists e, fr, rest', t1. rewrite AU. auto 10. }
      assert (R1 : R s1 v1 me (Some who) busy).
      { destruct RS as [A1 A2 A3 A4 A5 A6]. constructor.
        - eapply entries_static; [exact A1|]. unfold s1, on_track. cbn. eapply f2_set; eauto.
        - intros j x N. destruct (NTH j x N) as [[-> ->]|[NE2 N2]]; [apply (A2 i t NT)|apply (A2 j x N2)].
        - intros j x N. destruct (NTH j x N) as [[-> ->]|[NE2 N2]]; [apply (A3 i t NT)|apply (A3 j x N2)].
        - intros j x l q b N RTX FX. unfold v1. cbn [v_used In]. destruct (NTH j x N) as [[-> ->]|[NE2 N2]].
          + cbn in RTX. injection RTX as <-. rewrite FL' in FX. destruct (list_eq_dec Nat.eq_dec q (tk_match t ++ [n])) as [->|NQ].
            * injection FX as <-. unfold who. tauto.
            * pose proof (A4 i t root q b NT RT FX) as X. split; [intros B; right; apply X; auto|]. intros [W|W]; [unfold who in W; congruence|apply X; auto].
          + pose proof (A4 j x l q b N2 RTX FX) as X. split; [intros B; right; apply X; auto|]. intros [W|W]; [unfold who in W; congruence|apply X; auto].
        - intros j x N B. destruct (NTH j x N) as [[-> ->]|[NE2 N2]]; [|apply (A5 j x N2 B)]. cbn in B. congruence.
        - exists true, rest. split; auto. }
      destruct (frame_check body a (af_payload fr) (d_sig t0) s1 v1 me (Some who) who busy IHb R1 AT1) as (v2 & SP2 & K2 & RK2).
      rewrite <- AP. fold who. rewrite <- AC.
      destruct (check_addr acct a (af_payload fr) (d_sig t0) (exec body) s1) as [[s2 r2] tr2]. cbn [fst snd] in *. match type of SP2 with ?L = _ => match goal with |- context [spec_check ?x1 ?x2 ?x3 ?x4 ?x5 ?x6] => change (spec_check x1 x2 x3 x4 x5 x6) with L end end; rewrite SP2.
      assert (K02 : kept_by s s2 (Some (i, tk_match t))).
      { destruct K2 as [Q1 Q2 Q3 Q4]. constructor; cbn [s1 on_track with_trk d_frames d_auth d_trk] in *; auto.
        - eapply f2_trans; [|exact Q3]. eapply f2_set; eauto.
        - intros j x N B C. assert (j <> i) by (intros ->; apply (C (tk_match t)); auto). apply Q4; auto.
          + rewrite nth_set_at. destruct (Nat.eq_dec i j); [congruence|auto].
          + intros p X. unfold who in X. congruence. }
      destruct r2 as [[]|x].
      2:{ cbn [fst snd]. exists v2. split; auto. split; auto; discriminate. }
      destruct (RK2 eq_refl) as (B1 & B2 & B3 & B4 & B5 & B6). destruct B6 as (_ & e2 & fr2 & rest2 & tr' & D1 & D2 & D3 & D4 & D5 & D6 & D7 & D8). rewrite D1, D2. rewrite D6.
      set (t3 := on_tree tr' (tk_root tr') (removelast (tk_match tr'))). set (s3 := on_track s2 i t3).
      assert (MT3 : tk_match t3 = tk_match t) by (unfold t3; cbn; rewrite D7; apply removelast_last).
      assert (FRE : fr2 = fr) by (assert (Q : d_auth s2 = d_auth s1) by apply K2; rewrite D1 in Q; cbn in Q; congruence). subst fr2.
      assert (ST : same_static t tr').
      { destruct K02 as [_ _ S _]. destruct (f2_nth _ _ _ S i t NT) as (y & NY & SY). congruence. }
      assert (RTR : tk_root tr' <> None) by (destruct ST as (_ & _ & _ & _ & _ & S & _); rewrite RT in S; destruct (tk_root tr'); [discriminate|exact (fun _ => ltac:(discriminate))]).
      assert (SS3 : same_static tr' t3) by (unfold same_static, t3; cbn; repeat split; auto; intros X; congruence).
      assert (NTH3 : forall j x, nth_error (d_trk s3) j = Some x -> (j = i /\ x = t3) \/ (j <> i /\ nth_error (d_trk s2) j = Some x)).
      { intros j x. unfold s3, on_track. cbn [with_trk d_trk]. rewrite nth_set_at, D6. destruct (Nat.eq_dec i j) as [<-|NEJ]; [intros [= <-]; auto|auto]. }
      assert (N3 : nth_error (d_trk s3) i = Some t3) by (unfold s3, on_track; cbn [with_trk d_trk]; rewrite nth_set_at, D6; destruct (Nat.eq_dec i i); congruence).
      assert (K03 : kept_by s s3 (Some (i, tk_match t))).
      { destruct K02 as [Q1 Q2 Q3 Q4]. constructor; cbn [s3 on_track with_trk d_frames d_auth d_trk] in *; auto.
        - eapply f2_trans; [exact Q3|]. eapply f2_set; eauto.
        - intros j x N B C. assert (j <> i) by (intros ->; apply (C (tk_match t)); auto). rewrite nth_set_at. destruct (Nat.eq_dec i j); [congruence|auto]. }
      assert (R3 : R s3 v2 me (Some (i, tk_match t)) busy).
      { constructor.
        - eapply entries_static; [exact B1|]. unfold s3, on_track. cbn. eapply f2_set; eauto.
        - intros j x N. destruct (NTH3 j x N) as [[-> ->]|[NE2 N2]]; [apply (B2 i tr' D6)|apply (B2 j x N2)].
        - intros j x N. destruct (NTH3 j x N) as [[-> ->]|[NE2 N2]]; [apply (B3 i tr' D6)|apply (B3 j x N2)].
        - intros j x l q b N RTX FX. destruct (NTH3 j x N) as [[-> ->]|[NE2 N2]]; [apply (B4 i tr' l q b D6 RTX FX)|apply (B4 j x l q b N2 RTX FX)].
        - intros j x N B. destruct (NTH3 j x N) as [[-> ->]|[NE2 N2]]; [|apply (B5 j x N2 B)]. cbn in B. congruence.
        - exists true, rest. split; [rewrite (k_frames _ _ _ K03); auto|]. cbn. split; auto. exists e, fr, rest', t3. rewrite <- AU. repeat split; auto. exact (k_auth _ _ _ K03). }
      destruct (IHk _ _ _ _ _ R3) as (v4 & SP4 & K4 & RK4). fold i. fold s3. destruct (exec k s3) as [[s4 r4] t4]. cbn [fst snd] in *.
      match type of SP4 with ?L = _ => match goal with |- context [DelegSpec.spec ?x1 ?x2 ?x3 ?x4 ?x5 ?x6 ?x7] => change (DelegSpec.spec x1 x2 x3 x4 x5 x6 x7) with L end end. rewrite SP4. exists v4. split; auto. split; auto. eapply kept_trans; eauto.
    - (* signers *)
      destruct (r_top _ _ _ _ _ RS) as (c & rest & FR & AT). cbn [DelegModel.exec DelegSpec.spec]. rewrite FR.
      destruct cur as [[i path]|]; cbn [at_signer] in AT.
      2:{ subst c. cbn [fst snd]. exists v. split; auto. split; auto using kept_refl; discriminate. }
      destruct AT as (-> & e & fr & rest' & t & AU & AE & NE & AP & AC & NT & MT & BT). subst i path. rewrite AU, NT, NE.
      destruct (entry_of _ _ _ _ _ _ _ RS NT) as (e' & NE' & EO & TYE). assert (e' = e) by congruence. subst e'.
      destruct (tk_root t) as [root|] eqn:RT.
      2:{ rewrite (noroot e t EO RT). cbn [negb]. apply (IHk []); auto. }
      destruct (root_shape e t root EO RT) as [HD SH]. rewrite HD. cbn [negb]. rewrite signers_at_spec, SH.
      destruct (below (delegates e) (tk_match t)) as [cs|] eqn:BE.
      + apply (IHk (map d_addr cs)); auto. apply TP. pose proof (below_typed _ _ _ TYE BE) as T. apply all_typed_forall in T. rewrite Forall_forall in *. intros x I. apply in_map_iff in I as (y & <- & Y).
        specialize (T y Y). now apply typed_tree_spec in T.
      + cbn [fst snd]. exists v. split; auto. split; auto using kept_refl; discriminate.
    - (* call *)
      destruct TP as (TB & TK & TF). specialize (IHb TB). specialize (IHk TK). specialize (IHf TF). cbn [DelegModel.exec DelegSpec.spec].
      destruct (frame_call body s v me cur busy (AContract id) IHb RS) as (v1 & SP & K & RK & ES). destruct (in_frame (AContract id, false) (exec body) s) as [[s1 r] t]. cbn [fst snd] in *. rewrite SP.
      destruct r as [[]|x].
      + destruct (IHk _ _ _ _ _ (RK eq_refl)) as (v2 & SP2 & K2 & RK2). destruct (exec k s1) as [[s2 r2] t2]. cbn [fst snd] in *. rewrite SP2. exists v2. split; auto. split; auto.
        eapply kept_trans; eauto using kept_none.
      + assert (s1 = s) by (apply ES; discriminate). subst s1. destruct (try && recoverable x).
        * destruct (IHf _ _ _ _ _ RS) as (v2 & SP2 & K2 & RK2). destruct (exec kf s) as [[s2 r2] t2]. cbn [fst snd] in *. rewrite SP2. exists v2. auto.
        * cbn [fst snd]. exists v1. split; auto. split; auto using kept_refl; discriminate.
    - (* require *)
      destruct TP as (TB & TK). specialize (IHb TB). specialize (IHk TK). cbn [DelegModel.exec DelegSpec.spec].
      destruct (nth_error (d_trk s) i) as [t|] eqn:NT.
      2:{ assert (nth_error entries i = None) as ->.
          { apply nth_error_None. apply nth_error_None in NT. pose proof (f2_length _ _ _ (r_ent _ _ _ _ _ RS)). lia. }
          cbn [fst snd]. exists v. split; auto. split; auto using kept_refl; discriminate. }
      destruct (entry_of _ _ _ _ _ _ _ RS NT) as (e & NE & EO & TYE). rewrite NE.
      pose proof (r_busy _ _ _ _ _ RS i t NT) as BU. pose proof (r_ver _ _ _ _ _ RS i t NT) as VE.
      destruct (in_dec Nat.eq_dec i busy) as [IN|NI].
      { assert (tk_busy t = true) as -> by (apply BU; auto). cbn [fst snd]. exists v. split; auto. split; auto using kept_refl; discriminate. }
      assert (NB : tk_busy t = false) by (destruct (tk_busy t); auto; exfalso; apply NI; apply BU; auto). rewrite NB.
      destruct (in_dec Nat.eq_dec i (v_verified v)) as [IV|NV].
      { assert (tk_verified t = true) as -> by (apply VE; auto). apply IHk; auto. }
      assert (NVT : tk_verified t = false) by (destruct (tk_verified t); auto; exfalso; apply NV; apply VE; auto). rewrite NVT.
      pose proof EO as (E1 & E2 & E3 & E4 & E5 & E6).
      set (t1 := on_flags t false true). set (s1 := on_track s i t1).
      set (fr := {| af_entry := i; af_payload := tk_payload t; af_ctx := tk_ctx t |}). set (s2 := with_auth s1 (fr :: d_auth s1)).
      assert (NTH : forall j x, nth_error (d_trk s1) j = Some x -> (j = i /\ x = t1) \/ (j <> i /\ nth_error (d_trk s) j = Some x)).
      { intros j x. unfold s1, on_track. cbn [with_trk d_trk]. rewrite nth_set_at, NT. destruct (Nat.eq_dec i j) as [<-|NEJ]; [intros [= <-]; auto|auto]. }
      assert (N1 : nth_error (d_trk s1) i = Some t1) by (unfold s1, on_track; cbn [with_trk d_trk]; rewrite nth_set_at, NT; destruct (Nat.eq_dec i i); congruence).
      assert (NCI : not_cur cur i).
      { intros path ->. destruct (r_top _ _ _ _ _ RS) as (c & rest & _ & (_ & e' & fr' & rest' & t' & _ & _ & _ & _ & _ & X & _ & Y)). congruence. }
      assert (EN1 : Forall2 entry_ok entries (d_trk s1)).
      { assert (EOT1 : entry_ok e t1) by (unfold entry_ok, t1; cbn; auto).
        assert (G : forall es l j, Forall2 entry_ok es l -> nth_error es j = Some e -> nth_error l j = Some t -> Forall2 entry_ok es (set_at l j t1)).
        { clear -EOT1. intros es l j F. revert j. induction F as [|x y es l P F IH]; intros [|j]; cbn; try discriminate.
          - intros [= ->] [= ->]. constructor; auto.
          - intros A B. constructor; auto. }
        unfold s1, on_track. cbn. apply G; auto. apply RS. }
      assert (AT2 : at_signer s2 (Some (i, [])) true).
      { cbn. split; auto. exists e, fr, (d_auth s1), t1. unfold fr. cbn. repeat split; auto. exact (r_idle _ _ _ _ _ RS i t NT NB). }
      assert (R2 : R s2 v me (Some (i, [])) (i :: busy) \/ True) by auto.
      assert (R2a : R (with_frames s2 ((me, true) :: d_frames s2)) v me (Some (i, [])) (i :: busy)).
      { destruct RS as [A1 A2 A3 A4 A5 A6]. constructor; auto.
        - intros j x N. destruct (NTH j x N) as [[-> ->]|[NE2 N2]]; [unfold t1; cbn; rewrite <- NVT; apply (A2 i t NT)|apply (A2 j x N2)].
        - intros j x N. destruct (NTH j x N) as [[-> ->]|[NE2 N2]]; [unfold t1; cbn; split; auto|]. pose proof (A3 j x N2) as X. cbn. split; [intros B; right; apply X; auto|]. intros [W|W]; [congruence|apply X; auto].
        - intros j x l q b N RTX FX. destruct (NTH j x N) as [[-> ->]|[NE2 N2]]; [apply (A4 i t l q b NT RTX FX)|apply (A4 j x l q b N2 RTX FX)].
        - intros j x N B. destruct (NTH j x N) as [[-> ->]|[NE2 N2]]; [cbn in B; discriminate|apply (A5 j x N2 B)].
        - exists true, (d_frames s2). split; auto. }
      clear R2.
      (* what follows the check *)
      assert (AFTER : forall s3 v3, kept_by s1 s3 (Some (i, [])) ->
         exists t3, nth_error (d_trk s3) i = Some t3 /\ tk_busy t3 = true /\
         (forall e', kept_by s (on_track s3 i (on_flags t3 false false)) cur /\ Err (A:=unit) e' <> Ok tt)
         /\ ((Forall2 entry_ok entries (d_trk s3)
            /\ (forall j x, nth_error (d_trk s3) j = Some x -> (tk_verified x = true <-> In j (v_verified v3)))
            /\ (forall j x, nth_error (d_trk s3) j = Some x -> (tk_busy x = true <-> In j (i :: busy)))
            /\ (forall j x l q b, nth_error (d_trk s3) j = Some x -> tk_root x = Some l -> flag l q = Some b -> (b = true <-> In (j, q) (v_used v3)))
            /\ (forall j x, nth_error (d_trk s3) j = Some x -> tk_busy x = false -> tk_match x = [])
            /\ tk_match t3 = []) ->
            kept_by s (on_track s3 i (on_flags t3 true false)) cur
            /\ R (on_track s3 i (on_flags t3 true false)) {| v_used := v_used v3; v_verified := i :: v_verified v3 |} me cur busy)).
      { intros s3 v3 [Q1 Q2 Q3 Q4]. destruct (f2_nth _ _ _ Q3 i t1 N1) as (t3 & N3 & SS3). exists t3. split; auto.
        assert (BT3 : tk_busy t3 = true) by (destruct SS3 as (_ & _ & _ & _ & _ & _ & B & _); rewrite B; reflexivity). split; auto.
        assert (KB : forall ve, kept_by s (on_track s3 i (on_flags t3 ve false)) cur).
        { intros ve. assert (SSF : same_static t (on_flags t3 ve false)).
          { destruct SS3 as (A1 & A2 & A3 & A4 & A5 & A6 & A7 & A8). unfold same_static, t1 in *. cbn in *. repeat split; auto. }
          constructor; cbn [on_track with_trk d_frames d_auth d_trk]; auto.
          - apply Forall2_nth_static; [|].
            + rewrite set_at_length. apply f2_length in Q3. unfold s1, on_track in Q3. cbn in Q3. rewrite set_at_length in Q3. auto.
            + intros j x y NX NY. rewrite nth_set_at, N3 in NY. destruct (Nat.eq_dec i j) as [<-|NEJ].
              * injection NY as <-. assert (x = t) by congruence. subst x. exact SSF.
              * assert (N1J : nth_error (d_trk s1) j = Some x) by (unfold s1, on_track; cbn; rewrite nth_set_at; destruct (Nat.eq_dec i j); [congruence|auto]).
                destruct (f2_nth _ _ _ Q3 j x N1J) as (y' & NY' & SY). congruence.
          - intros j x NX BX NC. assert (j <> i) by congruence. rewrite nth_set_at. destruct (Nat.eq_dec i j); [congruence|]. apply Q4; auto.
            + unfold s1, on_track. cbn. rewrite nth_set_at. destruct (Nat.eq_dec i j); [congruence|auto].
            + intros p X. congruence. }
        split; [intros e'; split; [apply KB|discriminate]|]. intros (B1 & B2 & B3 & B4 & B5 & B6). split; [apply KB|].
        assert (NTH3 : forall j x, nth_error (d_trk (on_track s3 i (on_flags t3 true false))) j = Some x -> (j = i /\ x = on_flags t3 true false) \/ (j <> i /\ nth_error (d_trk s3) j = Some x)).
        { intros j x. unfold on_track. cbn [with_trk d_trk]. rewrite nth_set_at, N3. destruct (Nat.eq_dec i j) as [<-|NEJ]; [intros [= <-]; auto|auto]. }
        constructor; cbn [v_verified v_used].
        - assert (EO3 : entry_ok e (on_flags t3 true false)).
          { destruct (f2_nth_r _ _ _ B1 i t3 N3) as (e3 & NE3 & EO3). assert (e3 = e) by congruence. subst e3. exact EO3. }
          assert (G : forall es l j, Forall2 entry_ok es l -> nth_error es j = Some e -> Forall2 entry_ok es (set_at l j (on_flags t3 true false))).
          { clear -EO3. intros es l j F. revert j. induction F as [|x y es l P F IH]; intros [|j]; cbn; try discriminate.
            - intros [= ->]. constructor; auto.
            - intros A. constructor; auto. }
          cbn. apply G; auto.
        - intros j x N. destruct (NTH3 j x N) as [[-> ->]|[NE2 N2]]; [cbn; split; auto|]. pose proof (B2 j x N2) as X. cbn. split; [intros B; right; apply X; auto|]. intros [W|W]; [congruence|apply X; auto].
        - intros j x N. destruct (NTH3 j x N) as [[-> ->]|[NE2 N2]]; [cbn; split; [discriminate|intros W; exfalso; auto]|]. pose proof (B3 j x N2) as X. cbn in X. split; [intros B; apply X in B as [W|W]; [congruence|auto]|]. intros W. apply X. auto.
        - intros j x l q b N RTX FX. destruct (NTH3 j x N) as [[-> ->]|[NE2 N2]]; [apply (B4 i t3 l q b N3 RTX FX)|apply (B4 j x l q b N2 RTX FX)].
        - intros j x N B. destruct (NTH3 j x N) as [[-> ->]|[NE2 N2]]; [cbn; auto|apply (B5 j x N2 B)].
        - destruct (r_top _ _ _ _ _ RS) as (c & rest & FR & AT). exists c, rest. split; [cbn; rewrite Q1; exact FR|]. eapply at_signer_kept; [exact AT|cbn; rewrite Q2; reflexivity|].
          intros j path x -> NX BX MX. exists x. split; auto. assert (j <> i) by congruence. cbn. rewrite nth_set_at. destruct (Nat.eq_dec i j); [congruence|]. apply Q4; auto.
          + unfold s1, on_track. cbn. rewrite nth_set_at. destruct (Nat.eq_dec i j); [congruence|auto].
          + intros p X. congruence. }
      rewrite E2. destruct (match de_cred e with DSource => true | _ => false end) eqn:SRC.
      + assert (de_cred e = DSource) as -> by (destruct (de_cred e); congruence).
        destruct (AFTER s1 v (kept_refl _ _)) as (t3 & N3 & BT3 & KE & KR). assert (t3 = t1) by congruence. subst t3. rewrite N1. cbn [decorate spec_decorate].
        destruct nonce as [[]|x].
        * destruct KR as [KK KR]; [destruct R2a as [A1 A2 A3 A4 A5 A6]; refine (conj A1 (conj A2 (conj A3 (conj A4 (conj A5 _)))))|].
          { exact (r_idle _ _ _ _ _ RS i t NT NB). }
          destruct (IHk _ _ _ _ _ KR) as (v5 & SP5 & K5 & RK5). destruct (exec k _) as [[s5 r5] t5]. cbn [fst snd] in *. rewrite SP5. exists v5. split; auto. split; auto. eapply kept_trans; eauto.
        * cbn [fst snd]. exists v. split; auto. split; [apply (KE x)|discriminate].
      + assert (SPX : exists v', (let '(r, v2, t0) := spec_check acct (de_addr e) (de_payload e) (de_sig e) v (spec body (de_addr e) (Some (i, [])) (i :: busy) v) in
                       (r, v2, (true, EvEntry i (de_addr e) (de_payload e) (de_sig e) (de_ctx e)) :: t0))
                     = (snd (fst (check_addr acct (tk_addr t) (tk_payload t) (tk_sig t) (exec body) s2)), v',
                        (true, EvEntry i (tk_addr t) (tk_payload t) (tk_sig t) (tk_ctx t)) :: snd (check_addr acct (tk_addr t) (tk_payload t) (tk_sig t) (exec body) s2))
                /\ kept_by s2 (fst (fst (check_addr acct (tk_addr t) (tk_payload t) (tk_sig t) (exec body) s2))) (Some (i, []))
                /\ (snd (fst (check_addr acct (tk_addr t) (tk_payload t) (tk_sig t) (exec body) s2)) = Ok tt ->
                    let s' := fst (fst (check_addr acct (tk_addr t) (tk_payload t) (tk_sig t) (exec body) s2)) in
                    Forall2 entry_ok entries (d_trk s')
                    /\ (forall i t, nth_error (d_trk s') i = Some t -> (tk_verified t = true <-> In i (v_verified v')))
                    /\ (forall j t, nth_error (d_trk s') j = Some t -> (tk_busy t = true <-> In j (i :: busy)))
                    /\ (forall i t l path b, nth_error (d_trk s') i = Some t -> tk_root t = Some l -> flag l path = Some b -> (b = true <-> In (i, path) (v_used v')))
                    /\ (forall i t, nth_error (d_trk s') i = Some t -> tk_busy t = false -> tk_match t = [])
                    /\ at_signer s' (Some (i, [])) true)).
        { rewrite E1, E3, E4, E5.
          assert (RT2 : R s2 v (fst (hd (me, true) (d_frames s))) None (i :: busy) \/ R s2 v (fst (hd (me, true) (d_frames s))) (Some (i, [])) (i :: busy)).
          { destruct (r_top _ _ _ _ _ RS) as (c & rest & FR & _). rewrite FR. cbn [hd fst]. destruct R2a as [A1 A2 A3 A4 A5 _]. destruct c.
            - right. constructor; auto. exists true, rest. split; auto.
            - left. constructor; auto. exists false, rest. split; auto. reflexivity. }
          destruct RT2 as [RT2|RT2]; destruct (frame_check body (de_addr e) (de_payload e) (de_sig e) s2 v _ _ (i, []) (i :: busy) IHb RT2 AT2) as (v' & SP & K & RK); exists v';
            (match type of SP with ?L = _ => match goal with |- context [spec_check ?x1 ?x2 ?x3 ?x4 ?x5 ?x6] => change (spec_check x1 x2 x3 x4 x5 x6) with L end end); rewrite SP; auto. }
        destruct SPX as (v3 & SP & K & RK).
        assert (RHS : (match de_cred e with
                       | DSource => (Ok tt, v, [])
                       | _ => let '(r, v2, t0) := spec_check acct (de_addr e) (de_payload e) (de_sig e) v (spec body (de_addr e) (Some (i, [])) (i :: busy) v) in
                              (r, v2, (true, EvEntry i (de_addr e) (de_payload e) (de_sig e) (de_ctx e)) :: t0)
                       end) = (let '(r, v2, t0) := spec_check acct (de_addr e) (de_payload e) (de_sig e) v (spec body (de_addr e) (Some (i, [])) (i :: busy) v) in
                              (r, v2, (true, EvEntry i (de_addr e) (de_payload e) (de_sig e) (de_ctx e)) :: t0))) by (destruct (de_cred e); [discriminate|reflexivity|reflexivity]).
        rewrite RHS, SP. clear RHS SP.
        destruct (check_addr acct (tk_addr t) (tk_payload t) (tk_sig t) (exec body) s2) as [[s3 r3] t3]. cbn [fst snd] in *.
        assert (K3 : kept_by s1 (with_auth s3 (tl (d_auth s3))) (Some (i, []))).
        { destruct K as [Q1 Q2 Q3 Q4]. constructor; cbn; auto. rewrite Q2. reflexivity. }
        destruct (AFTER (with_auth s3 (tl (d_auth s3))) v3 K3) as (t4 & N4 & BT4 & KE & KR). rewrite N4.
        unfold decorate, spec_decorate. destruct r3 as [[]|x].
        * destruct nonce as [[]|x].
          -- destruct KR as [KK KR].
             { destruct (RK eq_refl) as (B1 & B2 & B3 & B4 & B5 & B6). cbn [with_auth d_trk]. refine (conj B1 (conj B2 (conj B3 (conj B4 (conj B5 _))))).
               destruct B6 as (_ & e' & fr' & rest' & t' & _ & _ & _ & _ & _ & X & Y & _). cbn in N4. congruence. }
             destruct (IHk _ _ _ _ _ KR) as (v5 & SP5 & K5 & RK5). destruct (exec k _) as [[s5 r5] t5]. cbn [fst snd] in *. rewrite SP5. exists v5. split; auto. split; auto. eapply kept_trans; eauto.
          -- cbn [fst snd]. exists v3. split; auto. split; [apply (KE x)|discriminate].
        * destruct (recoverable x); cbn [fst snd]; exists v3; (split; [reflexivity|]; split; [apply (KE x)|discriminate]).
  Qed.
End Refine.
