(* Every execution is explained by the ledger of used authorizations. *)
From Coq Require Import ZArith Lia List Bool.
From Verif Require Import Prelude ValModel ContainerModel HeapModel AMap StorageModel StorageSpec
  StorageProofs StorageProofs2 StorageLogic StorageProofs3 FrameModel FrameSpec FrameProofs FrameStore FrameProofs2
  AuthModel AuthSpec AuthProofs AuthProofs2 AuthProofs3.
Import ListNotations.
Open Scope nat_scope.

(* the node each frame was matched with *)
Definition mp (m : mstate) (r : list mstate) : option path :=
  match m with Unmatched => None | RootMatch => Some [] | SubMatch i => match near r with Some p => Some (p ++ [i]) | None => None end end.
Fixpoint mpaths (ms : list mstate) : list (option path) :=
  match ms with [] => [] | m :: r => mp m r :: mpaths r end.
Definition byn (t : tid) (fr : sframe) : option path := by_node fr t.
Definition nob (t : tid) (fr : sframe) : Prop := by_node fr t = None.

Lemma bool_cases (b : bool) : b = true \/ b = false.
Proof. destruct b; auto. Qed.
Lemma mpaths_length ms : length (mpaths ms) = length ms.
Proof. induction ms; cbn; auto. Qed.
Lemma nearest_app t a b : Forall (nob t) a -> nearest (a ++ b) t = nearest b t.
Proof. induction 1 as [|x a E _ IH]; cbn; auto. unfold nob in E. now rewrite E. Qed.
Lemma nearest_none t a : Forall (nob t) a -> nearest a t = None.
Proof. intros H. rewrite <- (app_nil_r a). rewrite nearest_app; auto. Qed.
Lemma nearest_near t cur : forall ms old, map (byn t) cur = mpaths ms -> Forall (nob t) old -> nearest (cur ++ old) t = near ms.
Proof.
  induction cur as [|fr cur IH]; intros [|m r] old E O; cbn in E; try discriminate; [now apply nearest_none|].
  injection E as E1 E2. cbn. unfold byn in E1. rewrite E1. destruct m; cbn; auto.
  rewrite (IH _ _ E2 O). destruct (near r); auto.
Qed.

Lemma Forall2_in_l {A B} {P : A -> B -> Prop} {l l'} : Forall2 P l l' -> forall a, In a l -> exists b, P a b.
Proof. induction 1 as [|a b l l' X _ IH]; intros y I; [destruct I|]. destruct I as [<-|I]; eauto. Qed.

Lemma Forall2_impl {A B} (P Q : A -> B -> Prop) l l' : (forall a b, P a b -> Q a b) -> Forall2 P l l' -> Forall2 Q l l'.
Proof. intros H. induction 1; auto. Qed.

Lemma flag_fresh' t : forall p, flag (fresh t) p = false.
Proof.
  induction t as [f l IH] using ftree_ind'. intros [|i p]; [reflexivity|]. unfold flag. cbn. rewrite nth_error_map.
  destruct (nth_error l i) as [x|] eqn:N; cbn; auto. rewrite Forall_forall in IH. exact (IH x (nth_error_In _ _ N) p).
Qed.

Section Rel.
  Variable entries : list entry_.
  Variable c : sconf.
  Hypothesis LI : li_ok (sc_li c).
  Notation li := (sc_li c).
  Notation ainv := (ainv c).
  Notation wk := (wk c).
  Notation explained := (explained li entries).

  Definition used_by (s : sstate) (t : tid) (k : tracker) : Prop :=
    forall p, In (t, p) (s_used s) <-> flag (tk_root k) p = true.
  (* frames: those pushed while the tracker was away, those it has seen, those
     before it was made *)
  Definition aligned (fs : list sframe) (t : tid) (ms : list mstate) (n o : nat) : Prop :=
    exists new cur old, fs = new ++ cur ++ old /\ length new = n /\ length old = o
      /\ Forall (nob t) new /\ Forall (nob t) old /\ map (byn t) cur = mpaths ms.
  Record rel_acct (s : sstate) (i : nat) (e : entry_) (x : acct) : Prop := {
    ra_addr : ac_addr x = en_addr e;
    ra_cred : ac_cred x = en_cred e;
    ra_tree : erase (tk_root (ac_trk x)) = en_tree e;
    ra_ver : ac_verified x = true <-> In i (s_ver s);
    ra_busy : ac_busy x = true <-> In i (s_busy s);
    ra_used : used_by s (TE i) (ac_trk x);
    ra_al : exists n, aligned (s_frames s) (TE i) (tk_ms (ac_trk x)) n 0 /\ (ac_busy x = false -> n = 0)
  }.
  Record rel_pre (s : sstate) (q : pre_) (v : invk) : Prop := {
    rp_by : iv_by v = p_by q;
    rp_tree : erase (tk_root (iv_trk v)) = p_tree q;
    rp_used : used_by s (TP (p_id q)) (iv_trk v);
    rp_id : p_id q < s_next s;
    rp_al : aligned (s_frames s) (TP (p_id q)) (tk_ms (iv_trk v)) 0 (p_depth q)
  }.
  Record R (s : sstate) (st : astate) : Prop := {
    r_stack : as_stack st = map sf_fn (s_frames s);
    r_acc : forall i, match nth_error entries i, nth_error (as_acc st) i with
                      | Some e, Some x => rel_acct s i e x | None, None => True | _, _ => False end;
    r_pre : Forall2 (rel_pre s) (s_pre s) (as_inv st);
    r_ids : NoDup (map p_id (s_pre s));
    r_fresh : forall n, s_next s <= n -> Forall (nob (TP n)) (s_frames s) /\ forall p, ~ In (TP n, p) (s_used s);
    r_nonce : forall a n, s_nonce s a n = nonces c st a n;
    r_by : forall fr x, In fr (s_frames s) -> In x (sf_by fr) -> In x (s_used s);
    r_pend : forall q, In q (s_pre s) -> 0 < p_depth q /\ (p_depth q = length (s_frames s) -> current_contract s = Some (p_by q))
  }.

  (* ---- the ledger alone *)
  Lemma exp_next s t s' : explained s t s' -> s_next s <= s_next s'.
  Proof.
    induction 1; cbn in *; try lia.
  Qed.
  Lemma exp_busy s t s' : explained s t s' -> s_busy s' = s_busy s.
  Proof. induction 1; cbn in *; try congruence. Qed.

  Definition tells (s : sstate) (r : res unit) (t : list atree) (s' : sstate) : Prop :=
    match r with
    | Ok _ => forall l s2, explained s' l s2 -> explained s (t ++ l) s2
    | Err _ => explained s t s'
    end.
  Lemma tells_explained s r t s' : tells s r t s' -> explained s t s'.
  Proof. destruct r; cbn; auto. intros H. rewrite <- (app_nil_r t). apply H, x_nil. Qed.

  (* ---- frames *)
  Lemma al_length fs t ms n o : aligned fs t ms n o -> length fs = n + length ms + o.
  Proof.
    intros (new & cur & old & -> & <- & <- & _ & _ & E). rewrite !app_length.
    pose proof (f_equal (@length _) E) as L. rewrite map_length, mpaths_length in L. lia.
  Qed.
  Lemma al_nearest fs t ms n o : aligned fs t ms n o -> nearest fs t = near ms.
  Proof. intros (new & cur & old & -> & _ & _ & A & B & E). rewrite nearest_app; auto. now apply nearest_near. Qed.
  Lemma al_push fs t ms o f : aligned fs t ms 0 o -> aligned ({| sf_fn := f; sf_by := [] |} :: fs) t (Unmatched :: ms) 0 o.
  Proof.
    intros (new & cur & old & -> & L & <- & _ & B & E). destruct new; [|discriminate].
    exists [], ({| sf_fn := f; sf_by := [] |} :: cur), old. cbn. repeat split; auto. f_equal. exact E.
  Qed.
  Lemma al_push_away fs t ms n o f : aligned fs t ms n o -> aligned ({| sf_fn := f; sf_by := [] |} :: fs) t ms (S n) o.
  Proof.
    intros (new & cur & old & -> & <- & <- & A & B & E).
    exists ({| sf_fn := f; sf_by := [] |} :: new), cur, old. cbn. repeat split; auto. constructor; auto. reflexivity.
  Qed.
  Lemma al_pop fs t ms o : aligned fs t ms 0 o -> ms <> [] -> aligned (tl fs) t (tl ms) 0 o.
  Proof.
    intros (new & cur & old & -> & L & <- & _ & B & E) N. destruct new; [|discriminate].
    destruct ms as [|m r]; [congruence|]. destruct cur as [|fr cur]; [discriminate|]. injection E as _ E.
    exists [], cur, old. cbn. auto 10.
  Qed.
  Lemma al_pop_away fs t ms n o : aligned fs t ms (S n) o -> aligned (tl fs) t ms n o.
  Proof.
    intros (new & cur & old & -> & L & <- & A & B & E). destruct new as [|fr new]; [discriminate|]. inversion A; subst.
    exists new, cur, old. cbn in *. repeat split; auto.
  Qed.
  Lemma al_old fs t ms n o : aligned fs t ms n o -> ms <> [] -> o < length fs.
  Proof. intros A N. apply al_length in A. destruct ms; [congruence|]. cbn in A. lia. Qed.

  Lemma R_push s st f : R s st -> R (s_push s f) (push_frame f st).
  Proof.
    intros [A B C D E F G H]. split; cbn.
    - now rewrite A.
    - intros i. rewrite nth_error_map. specialize (B i). destruct (nth_error entries i) as [e|], (nth_error (as_acc st) i) as [x|]; cbn; auto.
      destruct B as [B1 B2 B3 B4 B5 B6 (n & B7 & B8)]. unfold push_acct. destruct (bool_cases (ac_busy x)) as [BZ|BZ]; rewrite BZ.
      + split; auto. exists (S n). cbn. split; [now apply al_push_away|congruence].
      + split; cbn; auto. exists 0. split; auto. rewrite (B8 BZ) in B7. now apply al_push.
    - clear H. induction C as [|q v l l' [X1 X2 X3 X4 X5] _ IH]; cbn; auto. constructor; [|apply IH; now inversion D].
      split; cbn; auto. now apply al_push.
    - exact D.
    - intros n L. destruct (E n L) as [E1 E2]. split; auto. constructor; auto. reflexivity.
    - exact F.
    - intros fr x [<-|I]; [intros []|now apply G].
    - intros q I. split; [now apply H|]. intros L. exfalso. destruct (Forall2_in_l C q I) as (v & X). apply rp_al in X. apply al_length in X. lia.
  Qed.

  Lemma filter_rel (g : pre_ -> bool) (P : pre_ -> invk -> Prop) l A B :
    Forall2 P l (A ++ B) -> (forall q v, P q v -> In v A -> g q = true) -> (forall q v, P q v -> In v B -> g q = false) ->
    Forall2 P (filter g l) A.
  Proof.
    intros W GA GB. apply Forall2_app_inv_r in W as (l1 & l2 & W1 & W2 & ->). rewrite filter_app.
    assert (X1 : filter g l1 = l1).
    { clear GB W2. induction W1 as [|q v l1 A X _ IH]; cbn; auto. rewrite (GA q v X (or_introl eq_refl)). f_equal. apply IH.
      intros q' v' P' I'. apply (GA q' v' P'). now right. }
    assert (X2 : filter g l2 = []).
    { clear GA W1. induction W2 as [|q v l2 B X _ IH]; cbn; auto. rewrite (GB q v X (or_introl eq_refl)). apply IH.
      intros q' v' P' I'. apply (GB q' v' P'). now right. }
    now rewrite X1, X2, app_nil_r.
  Qed.
  Lemma filter_nodup (g : pre_ -> bool) l : NoDup (map p_id l) -> NoDup (map p_id (filter g l)).
  Proof.
    induction l as [|q l IH]; cbn; auto. intros H. inversion H as [|? ? N ND]; subst. destruct (g q); cbn; auto. constructor; auto.
    intros I. apply N. apply in_map_iff in I as (y & E & I). apply filter_In in I as [I _]. apply in_map_iff. eauto.
  Qed.
  Lemma Forall2_map_r {A B C} (P : A -> C -> Prop) (h : B -> C) l l' : Forall2 (fun a b => P a (h b)) l l' -> Forall2 P l (map h l').
  Proof. induction 1; cbn; auto. Qed.

  Lemma R_pop f s st s1 st2 : ainv st -> wk (push_frame f st) st2 -> R s st -> R s1 st2 -> R (s_pop s1) (pop_frame st2).
  Proof.
    intros I K R0 [A B C D E F G H]. destruct K as (K1 & K2 & K3 & K4). cbn in K1, K2.
    destruct I as (_ & _ & _ & _ & SC). destruct (pop_shape f st st2 SC K3) as (A0 & B0 & A1 & B1 & S1 & _ & _ & E2 & WA & NA & NB).
    unfold pop_frame. rewrite K1.
    assert (DR : drop_scoped (map pop_inv (as_inv st2)) = map pop_inv A1) by (rewrite E2, map_app; now apply drop_split).
    rewrite DR. assert (LEN : length (s_frames s1) = S (length (s_frames s))).
    { rewrite K1 in A. apply (f_equal (@length _)) in A. rewrite map_length in A. cbn in A. rewrite (r_stack _ _ R0), map_length in A. lia. }
    assert (HF : exists fr fs, s_frames s1 = fr :: fs) by (destruct (s_frames s1); [discriminate|eauto]). destruct HF as (fr & fs & HF).
    split; cbn.
    - rewrite K1, HF in A. cbn in A. rewrite HF. cbn. congruence.
    - intros i. rewrite nth_error_map. specialize (B i). pose proof (r_acc _ _ R0 i) as B0'.
      rewrite Forall2_nth in K2. specialize (K2 i). rewrite nth_error_map in K2.
      destruct (nth_error entries i) as [e|], (nth_error (as_acc st2) i) as [x|], (nth_error (as_acc st) i) as [x0|]; cbn in *; auto; try contradiction.
      destruct B as [X1 X2 X3 X4 X5 X6 (n & X7 & X8)], B0' as [_ _ _ _ _ _ (n0 & Y7 & Y8)].
      unfold pop_acct. destruct (bool_cases (ac_busy x)) as [BZ|BZ]; rewrite BZ.
      + assert (X0 : x = x0).
        { unfold push_acct in K2. destruct (ac_busy x0) eqn:BZ0; [now apply K2|]. destruct K2 as (_ & _ & Z & _). cbn in Z. congruence. }
        subst x0. split; auto. apply al_length in X7 as L1. apply al_length in Y7 as L2.
        destruct n as [|n]; [lia|]. exists n. split; [now apply al_pop_away|congruence].
      + split; cbn; auto. exists 0. split; auto. rewrite (X8 BZ) in X7. apply al_pop; auto. apply al_length in X7.
        destruct (tk_ms (ac_trk x)); [|discriminate]. cbn in X7. lia.
    - assert (W : Forall2 (fun q v' => exists v, v' = pop_inv v /\ rel_pre s1 q v) (s_pre s1) (map pop_inv A1 ++ map pop_inv B1)).
      { rewrite <- map_app, <- E2. apply Forall2_map_r. eapply Forall2_impl; [|exact C]. cbn. eauto. }
      apply (filter_rel (in_scope (length (tl (s_frames s1))))) in W.
      + clear - W NA. revert W NA. generalize (map pop_inv A1) (filter (in_scope (length (tl (s_frames s1)))) (s_pre s1)). intros l l0.
        induction 1 as [|q v' l0 l (v & -> & [X1 X2 X3 X4 X5]) _ IH]; intros H; inversion H as [|? ? N NN]; subst; constructor; auto.
        split; cbn; auto. apply al_pop; auto. intros X. apply N. cbn. now rewrite X.
      + intros q v' (v & -> & [_ _ _ _ X5]) IN. rewrite Forall_forall in NA. specialize (NA _ IN). unfold ne in NA. cbn in NA.
        apply al_length in X5. unfold in_scope. apply Nat.ltb_lt. rewrite HF in *. cbn in *.
        destruct (tk_ms (iv_trk v)) as [|m [|m' r]]; cbn in *; try congruence; lia.
      + intros q v' (v & -> & [_ _ _ _ X5]) IN. rewrite Forall_forall in NB. specialize (NB _ IN). unfold em in NB. cbn in NB.
        apply al_length in X5. unfold in_scope. apply Nat.ltb_ge. rewrite HF in *. cbn in *.
        destruct (tk_ms (iv_trk v)) as [|m [|m' r]]; cbn in *; try congruence; lia.
    - now apply filter_nodup.
    - intros n L. destruct (E n L) as [E3 E4]. split; auto. rewrite HF in *. now inversion E3.
    - exact F.
    - intros fr0 x I. apply G. rewrite HF in *. now right.
    - intros q I. apply filter_In in I as [II I]. split; [now apply H|]. intros L. unfold in_scope in I. apply Nat.ltb_lt in I. lia.
  Qed.

  (* a failed frame: everything is as it was *)
  Lemma R_fail s st s1 st' : ainv st -> R s st -> s_next s <= s_next s1 ->
    as_acc st' = as_acc st -> as_inv st' = drop_scoped (as_inv st) -> as_stack st' = as_stack st ->
    (forall a n, nonces c st' a n = nonces c st a n) -> R (s_fail s s1) st'.
  Proof.
    intros (_ & _ & _ & _ & (A0 & B0 & S1 & S2 & S3)) [A B C D E F G H] NX EA EI ES EN.
    assert (DR : as_inv st' = A0) by (rewrite EI, S1; now apply drop_split). split; cbn.
    - congruence.
    - intros i. rewrite EA. specialize (B i). destruct (nth_error entries i), (nth_error (as_acc st) i); auto.
      destruct B. now split.
    - rewrite DR. rewrite S1 in C. apply (filter_rel (in_scope (length (s_frames s)))) in C.
      + eapply Forall2_impl; [|exact C]. intros q v [X1 X2 X3 X4 X5]. split; cbn; auto. lia.
      + intros q v [_ _ _ _ X5] IN. rewrite Forall_forall in S2. apply Nat.ltb_lt. eapply al_old; eauto. now apply S2.
      + intros q v [_ _ _ _ X5] IN. rewrite Forall_forall in S3. apply Nat.ltb_ge. apply al_length in X5. specialize (S3 _ IN).
        unfold em in S3. rewrite S3 in X5. cbn in X5. lia.
    - now apply filter_nodup.
    - intros n L. apply E. lia.
    - intros a n. now rewrite F, EN.
    - exact G.
    - intros q I. apply filter_In in I as [II I]. split; [now apply H|]. intros L. unfold in_scope in I. apply Nat.ltb_lt in I. lia.
  Qed.

  Lemma R_store s st st' : R s st -> as_acc st' = as_acc st -> as_inv st' = as_inv st -> as_stack st' = as_stack st ->
    (forall a n, nonces c st' a n = nonces c st a n) -> R s st'.
  Proof.
    intros [A B C D E F G H] EA EI ES EN. split; auto; try congruence.
    - intros i. rewrite EA. apply B.
  Qed.

  (* ---- using a node *)
  Lemma byn_use fr t p u : by_node {| sf_fn := sf_fn fr; sf_by := (t, p) :: sf_by fr |} u = if tid_eq_dec t u then Some p else by_node fr u.
  Proof. reflexivity. Qed.
  Lemma al_use_other s t p u ms n o : u <> t -> aligned (s_frames s) u ms n o -> aligned (s_frames (s_use s t p)) u ms n o.
  Proof.
    intros N (new & cur & old & E & L1 & L2 & A & B & M). unfold s_use; cbn. destruct (s_frames s) as [|fr l] eqn:SF.
    - exists new, cur, old. auto 10.
    - set (fr' := {| sf_fn := sf_fn fr; sf_by := (t, p) :: sf_by fr |}).
      assert (BY : by_node fr' u = by_node fr u) by (unfold fr'; rewrite byn_use; destruct (tid_eq_dec t u); congruence).
      destruct new as [|x new]; [destruct cur as [|x cur]; [destruct old as [|x old]; [discriminate|]|]|]; cbn in E; injection E as -> ->.
      + exists [], [], (fr' :: old). cbn. repeat split; auto. inversion B; subst. constructor; auto. unfold nob in *. congruence.
      + exists [], (fr' :: cur), old. cbn. repeat split; auto. rewrite <- M. cbn. f_equal. exact BY.
      + exists (fr' :: new), cur, old. cbn. repeat split; auto. inversion A; subst. constructor; auto. unfold nob in *. congruence.
  Qed.
  Lemma used_other s t p u k : u <> t -> used_by s u k -> used_by (s_use s t p) u k.
  Proof.
    intros N U q. cbn. rewrite <- (U q). split; [intros [X|I]; [congruence|auto]|auto].
  Qed.

  Lemma extend_may s t k f al k' p o : maybe_extend k f al = Ok (Some (k', p)) -> used_by s t k -> aligned (s_frames s) t (tk_ms k) 0 o ->
    may_use s t (erase (tk_root k)) p f
    /\ used_by (s_use s t p) t k' /\ aligned (s_frames (s_use s t p)) t (tk_ms k') 0 o
    /\ erase (tk_root k') = erase (tk_root k) /\ (p = [] -> al = true).
  Proof.
    intros ME U (new & cur & old & E & L1 & L2 & _ & B & M). destruct new; [|discriminate]. cbn in E.
    destruct (extend_spec _ _ _ _ _ ME) as (m & rest & x & MS & -> & NA & UX & FX & RT & DN & CS).
    rewrite MS in M. destruct cur as [|fr cur]; [discriminate|]. cbn in M. injection M as M1 M2. cbn in E.
    pose proof (nearest_near _ _ _ _ M2 B) as NR.
    split; [|split; [|split; [|split]]].
    - split; [|split].
      + rewrite node_at_tree, NA. cbn. destruct x as [fx ux lx]. cbn in *. subst fx. eauto.
      + intros I. apply U in I. unfold flag in I. rewrite NA in I. congruence.
      + rewrite E. split; [exact M1|]. rewrite NR. destruct CS as [(-> & -> & _)|(q & i & -> & -> & _)]; eauto.
    - intros q. cbn. rewrite RT. split.
      + intros [X|I]; [injection X as <-; apply flag_mark_self; congruence|apply flag_mark_mono; now apply U].
      + intros X. apply flag_mark in X as [X|[-> _]]; [right; now apply U|now left].
    - unfold s_use; cbn. rewrite E. exists [], ({| sf_fn := sf_fn fr; sf_by := (t, p) :: sf_by fr |} :: cur), old. cbn. repeat split; auto.
      destruct CS as [(_ & -> & _ & -> & _)|(q & i & NQ & -> & -> & _)]; cbn; f_equal; auto; unfold byn, by_node; cbn;
        destruct (tid_eq_dec t t); try congruence; auto. now rewrite NQ.
    - rewrite RT. apply erase_mark.
    - intros ->. destruct CS as [(_ & _ & -> & _)|(q & i & _ & X & _)]; auto. destruct q; discriminate.
  Qed.

  Lemma stack_use s t p : map sf_fn (s_frames (s_use s t p)) = map sf_fn (s_frames s).
  Proof. unfold s_use; cbn. now destruct (s_frames s). Qed.
  Lemma fresh_use s t p n : (forall k, t = TP k -> k < s_next s) -> s_next s <= n ->
    Forall (nob (TP n)) (s_frames s) /\ (forall q, ~ In (TP n, q) (s_used s)) ->
    Forall (nob (TP n)) (s_frames (s_use s t p)) /\ (forall q, ~ In (TP n, q) (s_used (s_use s t p))).
  Proof.
    intros T L [X Y]. assert (N : t <> TP n) by (intros ->; specialize (T n eq_refl); lia). split.
    - unfold s_use; cbn. destruct X as [|fr l X XS]; auto. constructor; auto. unfold nob in *. rewrite byn_use. destruct (tid_eq_dec t (TP n)); congruence.
    - intros q [Z|Z]; [congruence|now apply (Y q)].
  Qed.
  Lemma by_use s t p : (forall fr x, In fr (s_frames s) -> In x (sf_by fr) -> In x (s_used s)) ->
    forall fr x, In fr (s_frames (s_use s t p)) -> In x (sf_by fr) -> In x (s_used (s_use s t p)).
  Proof.
    intros G fr x. unfold s_use; cbn. destruct (s_frames s) as [|fr0 l]; [intros []|].
    intros [<-|I] X; cbn in X; [destruct X as [X|X]; [now left|]|].
    - right. apply (G fr0); [now left|exact X].
    - right. apply (G fr); [now right|exact X].
  Qed.
  Lemma len_use s t p : length (s_frames (s_use s t p)) = length (s_frames s).
  Proof. unfold s_use; cbn. now destruct (s_frames s). Qed.
  Lemma cc_use s t p : current_contract (s_use s t p) = current_contract s.
  Proof. unfold current_contract, s_use; cbn. destruct (s_frames s) as [|[[] ?] ?]; reflexivity. Qed.
  Lemma nth_id l : NoDup (map p_id l) -> forall j k q r, nth_error l j = Some q -> nth_error l k = Some r -> p_id q = p_id r -> j = k.
  Proof.
    intros ND j k q r A B E. assert (X : nth_error (map p_id l) j = nth_error (map p_id l) k) by (rewrite !nth_error_map, A, B; cbn; congruence).
    rewrite NoDup_nth_error in ND. apply ND; auto. rewrite map_length. apply nth_error_Some. congruence.
  Qed.

  (* whatever may be used is found, or something before it *)
  Lemma extend_all s t k f al o : trk_inv k -> used_by s t k -> aligned (s_frames s) t (tk_ms k) 0 o -> tk_ms k <> [] ->
    (forall fr x, In fr (s_frames s) -> In x (sf_by fr) -> In x (s_used s)) ->
    exists r, maybe_extend k f al = Ok r
    /\ forall p', may_use s t (erase (tk_root k)) p' f -> (p' = [] -> al = true) ->
       exists k' p, r = Some (k', p) /\ last p 0 <= last p' 0.
  Proof.
    intros TI U AL NE BY.
    destruct (extend_complete k f al TI NE) as (r & E & C).
    { intros p N. rewrite <- (al_nearest _ _ _ _ _ AL) in N.
      assert (I : In (t, p) (s_used s)).
      { clear - N BY. revert N BY. generalize (s_used s). intros us. induction (s_frames s) as [|fr fs IH]; cbn; [discriminate|].
        intros N BY. destruct (by_node fr t) as [p0|] eqn:B; [|apply IH; [auto|intros fr' x I; apply BY; now right]].
        injection N as ->. apply (BY fr (t, p)); [now left|]. unfold by_node in B. clear - B. induction (sf_by fr) as [|[x q] l IH]; cbn in *; [discriminate|].
        destruct (tid_eq_dec x t) as [->|]; [injection B as ->; now left|right; auto]. }
      apply U in I. unfold flag in I. destruct (node_at (tk_root k) p); [discriminate|congruence]. }
    exists r. split; auto. intros p' ((sub & TA) & NU & SF) PA.
    destruct AL as (new & cur & old & EF & L1 & L2 & _ & B & M). destruct new; [|discriminate]. cbn in EF.
    destruct (tk_ms k) as [|m rest] eqn:MS; [congruence|]. destruct cur as [|fr cur]; [discriminate|]. cbn in M. injection M as M1 M2.
    cbn in EF. rewrite EF in SF. destruct SF as [S1 S2]. rewrite (nearest_near _ _ _ _ M2 B) in S2.
    rewrite node_at_tree in TA. destruct (node_at (tk_root k) p') as [x|] eqn:NA; [|discriminate]. cbn in TA. injection TA as TA.
    destruct TI as [W _]. rewrite MS in W. unfold byn in M1. rewrite S1 in M1.
    assert (m = Unmatched) as ->.
    { destruct m as [| |i]; auto; cbn in M1; [discriminate|]. cbn in W. destruct (near rest); [discriminate|]. now destruct W. }
    apply (C rest p' x); auto.
    - destruct (n_used x) eqn:UX; auto. exfalso. apply NU, U. unfold flag. now rewrite NA.
    - destruct x; cbn in *. congruence.
    - destruct (near rest); auto.
  Qed.

  Lemma R_use_pre s st j v v' f p : R s st -> nth_error (as_inv st) j = Some v -> iv_by v' = iv_by v ->
    maybe_extend (iv_trk v) f true = Ok (Some (iv_trk v', p)) ->
    exists q, nth_error (s_pre s) j = Some q /\ p_by q = iv_by v /\ may_use s (TP (p_id q)) (p_tree q) p f
      /\ R (s_use s (TP (p_id q)) p) (with_inv st (set_nth_inv (as_inv st) j v')).
  Proof.
    intros [A B C D E F G H] N EB ME. pose proof C as C'. rewrite Forall2_nth in C. pose proof (C j) as CJ. rewrite N in CJ.
    destruct (nth_error (s_pre s) j) as [q|] eqn:NQ; [|contradiction]. destruct CJ as [X1 X2 X3 X4 X5].
    destruct (extend_may _ _ _ _ _ _ _ _ ME X3 X5) as (M1 & M2 & M3 & M4 & _). rewrite X2 in M1.
    exists q. split; auto. split; auto. split; auto. split; auto; cbn [as_stack as_acc as_inv with_inv].
    - now rewrite stack_use.
    - intros i. specialize (B i). destruct (nth_error entries i), (nth_error (as_acc st) i); auto. destruct B as [B1 B2 B3 B4 B5 B6 (n & B7 & B8)].
      split; auto; [apply used_other; auto; discriminate|]. exists n. split; auto. apply al_use_other; auto. discriminate.
    - apply Forall2_nth. intros k. rewrite nth_set_inv. pose proof (C k) as CK. destruct (Nat.eq_dec k j) as [->|NE].
      + cbn [s_pre s_use]. rewrite NQ, N. cbn. split; auto; congruence.
      + cbn [s_pre s_use]. destruct (nth_error (s_pre s) k) as [q'|] eqn:NK, (nth_error (as_inv st) k); auto. destruct CK as [Y1 Y2 Y3 Y4 Y5].
        assert (TN : TP (p_id q') <> TP (p_id q)) by (intros [= Z]; apply NE; eapply nth_id; eauto).
        split; auto; [now apply used_other|now apply al_use_other].
    - intros n L. apply fresh_use; auto. intros k [= <-]. exact X4.
    - now apply by_use.
    - intros q' I. rewrite len_use, cc_use. now apply H.
  Qed.

  Lemma R_use_acc s st i x f al tk p : R s st -> ainv st -> nth_error (as_acc st) i = Some x -> ac_busy x = false ->
    al = negb (has_active (as_acc st) (ac_addr x)) ->
    maybe_extend (ac_trk x) f al = Ok (Some (tk, p)) ->
    exists e, nth_error entries i = Some e /\ en_addr e = ac_addr x /\ en_cred e = ac_cred x
      /\ entry_may entries s (ac_addr x) f i p /\ ~ In i (s_busy s) /\ (ac_verified x = true <-> In i (s_ver s))
      /\ R (s_use s (TE i) p) (with_acc st (set_nth_acc (as_acc st) i (set_trk x tk))).
  Proof.
    intros [A B C D E F G H] INV N BX AL ME. pose proof (B i) as BI. rewrite N in BI. destruct (nth_error entries i) as [e|] eqn:NE; [|contradiction].
    destruct BI as [B1 B2 B3 B4 B5 B6 (n & B7 & B8)]. rewrite (B8 BX) in B7.
    destruct (extend_may _ _ _ _ _ _ _ _ ME B6 B7) as (M1 & M2 & M3 & M4 & M5). rewrite B3 in M1.
    assert (NB : ~ In i (s_busy s)) by (intros X; apply B5 in X; congruence).
    exists e. split; auto. split; auto. split; auto. split; [|split; [auto|split; [auto|]]].
    - exists e. split; auto. split; auto. split; auto. split; auto. intros PE j e' NJ EJ NBJ NR.
      rewrite (M5 PE) in AL. symmetry in AL. apply negb_true_iff in AL.
      specialize (B j). rewrite NJ in B. destruct (nth_error (as_acc st) j) as [y|] eqn:NY; [|contradiction].
      destruct B as [Y1 Y2 Y3 Y4 Y5 Y6 (k & Y7 & Y8)].
      assert (BY : ac_busy y = false) by (destruct (ac_busy y); auto; exfalso; apply NBJ; now apply Y5).
      rewrite (Y8 BY) in Y7. rewrite (al_nearest _ _ _ _ _ Y7) in NR.
      destruct INV as (_ & _ & TI & _). rewrite Forall_nth' in TI. destruct (TI _ _ NY) as [W TR].
      assert (RP : rootpos (tk_ms (ac_trk y)) <> None) by (intros X; apply NR; now apply near_root).
      assert (AC : is_active (ac_trk y) = true).
      { unfold is_active. destruct (tk_rxf (ac_trk y)) as [k0|]; [|destruct TR as (_ & _ & X); congruence].
        destruct TR as [-> TR]. destruct (tk_done (ac_trk y)); [congruence|reflexivity]. }
      assert (FM : frame_matched (ac_trk y) = true).
      { unfold has_active in AL. destruct (frame_matched (ac_trk y)) eqn:FM; auto. exfalso.
        assert (X : existsb (fun x0 => negb (ac_busy x0) && (if addr_eq_dec (ac_addr x0) (ac_addr x) then true else false)
                      && is_active (ac_trk x0) && negb (frame_matched (ac_trk x0))) (as_acc st) = true).
        { apply existsb_exists. exists y. split; [eapply nth_error_In; eauto|]. rewrite BY, AC, FM.
          destruct (addr_eq_dec (ac_addr y) (ac_addr x)); [reflexivity|congruence]. }
        congruence. }
      destruct Y7 as (new & cur & old & Z1 & Z2 & Z3 & _ & _ & Z4). destruct new; [|discriminate]. cbn in Z1.
      unfold frame_matched in FM. destruct (tk_ms (ac_trk y)) as [|m r]; [discriminate|]. destruct cur as [|fr cur]; [discriminate|].
      cbn in Z4. injection Z4 as Z4 _. rewrite Z1. cbn. unfold byn in Z4. rewrite Z4.
      destruct m as [| |k0]; cbn in *; try discriminate. destruct W as [_ W]. destruct (near r); congruence.
    - split; auto; cbn [as_stack as_acc as_inv with_acc].
      + now rewrite stack_use.
      + intros j. rewrite nth_set_acc. destruct (Nat.eq_dec j i) as [->|NJ].
        * rewrite NE, N. cbn. split; cbn; auto; [congruence|]. exists 0. auto.
        * specialize (B j). destruct (nth_error entries j), (nth_error (as_acc st) j); auto. destruct B as [Y1 Y2 Y3 Y4 Y5 Y6 (k & Y7 & Y8)].
          assert (TN : TE j <> TE i) by congruence.
          split; auto; [now apply used_other|]. exists k. split; auto. now apply al_use_other.
      + apply Forall2_nth. rewrite Forall2_nth in C. intros k. specialize (C k). cbn [s_pre s_use].
        destruct (nth_error (s_pre s) k) as [q'|], (nth_error (as_inv st) k); auto. destruct C as [Y1 Y2 Y3 Y4 Y5].
        assert (TN : TP (p_id q') <> TE i) by discriminate.
        split; auto; [now apply used_other|now apply al_use_other].
      + intros k L. apply fresh_use; auto. discriminate.
      + now apply by_use.
      + intros q' I. rewrite len_use, cc_use. now apply H.
  Qed.

  Lemma R_authorize s st a ts : R s st -> ainv st -> current_contract s = Some a -> R (s_authorize s a ts)
    (with_inv st (as_inv st ++ map (fun t => {| iv_by := a; iv_trk := new_tracker t |}) ts)).
  Proof.
    intros [A B C D E F G H] INV CC. split; cbn; auto.
    - intros i. specialize (B i). destruct (nth_error entries i), (nth_error (as_acc st) i); auto. destruct B. now split.
    - apply Forall2_app.
      + eapply Forall2_impl; [|exact C]. intros q v [X1 X2 X3 X4 X5]. split; cbn; auto. lia.
      + assert (G0 : forall k, s_next s <= k -> k + length ts <= s_next s + length ts + (k - s_next s) ->
          forall us, k + length us <= s_next s + length ts ->
          Forall2 (rel_pre (s_authorize s a ts)) (number k a (length (s_frames s)) us) (map (fun t => {| iv_by := a; iv_trk := new_tracker t |}) us)).
        { intros k L _ us. revert k L. induction us as [|t us IH]; intros k L H0; cbn in *; auto. constructor; [|apply IH; lia].
          destruct (E k L) as [E1 E2]. split; cbn; auto; [apply erase_fresh|intros p; cbn; split; [intros I; now apply E2 in I|intros I; now rewrite flag_fresh' in I]|lia|].
          exists [], [], (s_frames s). cbn. auto 10. }
        apply G0; lia.
    - rewrite map_app. assert (L : forall q, In q (s_pre s) -> p_id q < s_next s).
      { intros q I. destruct (Forall2_in_l C q I) as (v & X). apply X. }
      clear - D L. assert (NB : forall us n d, (forall x, In x (map p_id (number n a d us)) -> n <= x) /\ NoDup (map p_id (number n a d us))).
      { induction us as [|t us IH]; intros n d; cbn; [split; [tauto|constructor]|]. destruct (IH (S n) d) as [I1 I2]. split.
        - intros x [<-|X]; auto. apply I1 in X. lia.
        - constructor; auto. intros X. apply I1 in X. lia. }
      destruct (NB ts (s_next s) (length (s_frames s))) as [N1 N2]. revert N1 N2.
      generalize (map p_id (number (s_next s) a (length (s_frames s)) ts)). intros l N1 N2.
      induction (s_pre s) as [|q ps IH]; cbn; auto. inversion D; subst. constructor; [|apply IH; auto; intros; apply L; now right].
      intros X. apply in_app_or in X as [X|X]; auto. apply N1 in X. specialize (L q (or_introl eq_refl)). lia.
    - intros n L. apply E. lia.
    - intros q I. apply in_app_or in I as [I|I]; [now apply H|].
      assert (NB : forall us n d, In q (number n a d us) -> p_by q = a /\ p_depth q = d).
      { induction us as [|t us IH]; intros n d; cbn; [intros []|]. intros [<-|X]; [split; reflexivity|eauto]. }
      destruct (NB _ _ _ I) as [-> ->]. split; [|intros _; exact CC]. unfold current_contract in CC. destruct (s_frames s); [discriminate|cbn; lia].
  Qed.

  (* ---- authentication *)
  Lemma R_busy_on s st i x : R s st -> nth_error (as_acc st) i = Some x -> ac_busy x = false ->
    R (s_set_busy s (i :: s_busy s)) (set_busy_at st i true).
  Proof.
    intros [A B C D E F G H] N BX. rewrite (nth_busy _ _ _ _ N). split; cbn; auto.
    - intros j. rewrite nth_set_acc. pose proof (B j) as BJ. destruct (Nat.eq_dec j i) as [->|NJ].
      + rewrite N in *. destruct (nth_error entries i) as [e|]; [|contradiction]. cbn. destruct BJ as [Y1 Y2 Y3 Y4 Y5 Y6 (k & Y7 & Y8)].
        split; cbn; auto; [tauto|]. exists k. split; auto.
      + destruct (nth_error entries j), (nth_error (as_acc st) j); auto. destruct BJ as [Y1 Y2 Y3 Y4 Y5 Y6 Y7].
        split; cbn; auto. rewrite Y5. split; [auto|]. intros [X|X]; [congruence|auto].
    - eapply Forall2_impl; [|exact C]. intros q v [X1 X2 X3 X4 X5]. split; auto.
  Qed.
  Lemma R_busy_off s st i x s1 st1 : R s st -> nth_error (as_acc st) i = Some x -> ac_busy x = false ->
    R s1 st1 -> nth_error (as_acc st1) i = Some (set_busy x true) -> as_stack st1 = as_stack st -> s_busy s1 = i :: s_busy s ->
    R (s_set_busy s1 (s_busy s)) (set_busy_at st1 i false).
  Proof.
    intros R0 N BX [A B C D E F G H] N1 ST SB. rewrite (nth_busy _ _ _ _ N1).
    assert (LEN : length (s_frames s1) = length (s_frames s)).
    { rewrite ST, (r_stack _ _ R0) in A. apply (f_equal (@length _)) in A. now rewrite !map_length in A. }
    pose proof (r_acc _ _ R0 i) as BI. rewrite N in BI. destruct (nth_error entries i) as [e|] eqn:NE; [|contradiction].
    assert (NB : ~ In i (s_busy s)) by (intros X; apply (ra_busy _ _ _ _ BI) in X; congruence).
    split; cbn; auto.
    - intros j. rewrite nth_set_acc. pose proof (B j) as BJ. destruct (Nat.eq_dec j i) as [->|NJ].
      + rewrite N1, NE in *. cbn. destruct BJ as [Y1 Y2 Y3 Y4 Y5 Y6 (k & Y7 & Y8)].
        split; cbn; auto; [split; [discriminate|tauto]|]. exists k. cbn in Y7. split; auto. intros _.
        destruct (ra_al _ _ _ _ BI) as (k0 & Z1 & Z2). rewrite (Z2 BX) in Z1. apply al_length in Z1, Y7. lia.
      + destruct (nth_error entries j), (nth_error (as_acc st1) j); auto. destruct BJ as [Y1 Y2 Y3 Y4 Y5 Y6 Y7].
        split; cbn; auto. rewrite Y5, SB. split; [|cbn; auto]. intros [X|X]; [congruence|auto].
    - eapply Forall2_impl; [|exact C]. intros q v [X1 X2 X3 X4 X5]. split; auto.
  Qed.
  Definition s_verified (s : sstate) (i : nat) (n : addr -> Z -> option lentry) : sstate :=
    {| s_frames := s_frames s; s_used := s_used s; s_ver := i :: s_ver s; s_busy := s_busy s;
       s_pre := s_pre s; s_next := s_next s; s_nonce := n |}.
  Lemma R_verified s st st2 i x : R s st -> as_acc st2 = as_acc st -> as_inv st2 = as_inv st -> as_stack st2 = as_stack st ->
    nth_error (as_acc st) i = Some x ->
    R (s_verified s i (nonces c st2)) (with_acc st2 (set_nth_acc (as_acc st2) i (set_verified x true))).
  Proof.
    intros [A B C D E F G H] E1 E2 E3 N. split; cbn; auto; try congruence.
    - intros j. rewrite nth_set_acc, E1. pose proof (B j) as BJ. destruct (Nat.eq_dec j i) as [->|NJ].
      + rewrite N in *. destruct (nth_error entries i) as [e|]; [|contradiction]. cbn. destruct BJ as [Y1 Y2 Y3 Y4 Y5 Y6 Y7].
        split; cbn; auto. tauto.
      + destruct (nth_error entries j), (nth_error (as_acc st) j); auto. destruct BJ as [Y1 Y2 Y3 Y4 Y5 Y6 Y7].
        split; cbn; auto. rewrite Y4. split; [auto|]. intros [X|X]; [congruence|auto].
    - rewrite E2. eapply Forall2_impl; [|exact C]. intros q v [X1 X2 X3 X4 X5]. split; auto.
  Qed.

  Lemma authorize_ainv st a ts : ainv st -> ainv (with_inv st (as_inv st ++ map (fun t => {| iv_by := a; iv_trk := new_tracker t |}) ts)).
  Proof.
    set (nw := map _ ts). intros (A1 & A2 & A3 & A4 & (A & B & S1 & S2 & S3)). split; auto. split; auto. split; auto. cbn. split.
    - apply Forall_app. split; auto. apply Forall_map, Forall_forall. intros x _. apply inv_new.
    - exists A, (B ++ nw). rewrite S1, <- app_assoc. split; auto. split; auto. apply Forall_app; split; auto.
      apply Forall_map, Forall_forall. intros; reflexivity.
  Qed.

  (* ---- executions *)
  Definition explains (body : astate -> astate * res unit * list atree) : Prop :=
    forall s st st' r t, ainv st -> R s st -> body st = (st', r, t) -> exists s', R s' st' /\ tells s r t s'.
  Definition carries (s : sstate) (t : list atree) (s' : sstate) : Prop :=
    forall l s2, explained s' l s2 -> explained s (t ++ l) s2.
  Lemma carries_tells s r t s' : carries s t s' -> tells s r t s'.
  Proof. intros H. destruct r; [exact H|]. cbn. rewrite <- (app_nil_r t). apply H, x_nil. Qed.
  Lemma tells_app s t s' r t2 s2 : carries s t s' -> tells s' r t2 s2 -> tells s r (t ++ t2) s2.
  Proof.
    intros H. destruct r; cbn; [|apply H]. intros T l s3 X. rewrite <- app_assoc. apply H, T, X.
  Qed.

  Lemma with_aframe_explains id fn body s st st' r t : good_body c body -> explains body -> ainv st -> R s st ->
    with_aframe id fn body st = (st', r, t) -> exists s', R s' st' /\ carries s t s'.
  Proof.
    intros GB EX I RR E. destruct (with_aframe_ok c _ _ _ _ _ _ _ GB I E) as (I' & K' & st2 & l & BD & -> & CS).
    pose proof (ainv_push c (FrContract id fn) st I) as IP. destruct (GB _ _ _ _ IP BD) as [I2 K2].
    destruct (EX _ _ _ _ _ IP (R_push _ _ (FrContract id fn) RR) BD) as (s1 & R1 & T1). apply tells_explained in T1.
    destruct r as [[]|e].
    - subst st'. exists (s_pop s1). split; [exact (R_pop _ _ _ _ _ I K2 RR R1)|]. intros l2 s2 X. cbn. eapply x_call; eauto.
    - destruct CS as (P1 & P2 & P3 & P4). exists (s_fail s s1). split.
      + apply (R_fail s st); auto; [apply exp_next in T1; exact T1|]. intros a n. unfold nonces, acont. rewrite P4. reflexivity.
      + intros l2 s2 X. cbn. eapply x_call_failed; eauto.
  Qed.

  (* the search finds what the specification allows *)
  Lemma pre_found s st a f fr rest : ainv st -> R s st -> as_stack st = fr :: rest ->
    exists o, try_invokers (cur_contract st) (as_inv st) a f 0 = Ok o
    /\ forall j p, pre_may s a f j p -> exists i v p0, o = Some (i, v, p0) /\ before i p0 j p.
  Proof.
    intros (_ & _ & _ & TI & _) RR SK. destruct RR as [A B C D E F G H].
    assert (CC : current_contract s = cur_contract st).
    { unfold cur_contract, current_contract. rewrite A. destruct (s_frames s) as [|[[] ?] ?]; reflexivity. }
    rewrite Forall2_nth in C. rewrite Forall_nth' in TI.
    assert (EXT : forall j v, nth_error (as_inv st) j = Some v -> is_addr (cur_contract st) (iv_by v) = false ->
      exists q, nth_error (s_pre s) j = Some q /\ iv_by v = p_by q /\
      exists r, maybe_extend (iv_trk v) f true = Ok r
      /\ forall p', may_use s (TP (p_id q)) (p_tree q) p' f -> exists k' p, r = Some (k', p) /\ last p 0 <= last p' 0).
    { intros j v N IA. pose proof (C j) as CJ. rewrite N in CJ. destruct (nth_error (s_pre s) j) as [q|] eqn:NQ; [|contradiction].
      destruct CJ as [X1 X2 X3 X4 X5]. exists q. split; auto. split; auto.
      assert (NM : tk_ms (iv_trk v) <> []).
      { intros X. apply al_length in X5. rewrite X in X5. cbn in X5. destruct (H q (nth_error_In _ _ NQ)) as [_ H2].
        rewrite CC, <- X1 in H2. rewrite (H2 (eq_sym X5)) in IA. cbn in IA. destruct (addr_eq_dec _ _); [discriminate|congruence]. }
      destruct (extend_all s (TP (p_id q)) (iv_trk v) f true _ (TI _ _ N) X3 X5 NM G) as (r & E1 & E2).
      exists r. split; auto. intros p' MU. apply E2; auto. now rewrite X2. }
    destruct (try_invokers_complete (cur_contract st) (as_inv st) a f) with (k := 0) as (o & TO & CO).
    { intros j v N IA _. destruct (EXT _ _ N IA) as (q & _ & _ & r & E1 & _). eauto. }
    exists o. split; auto. intros j p (q & NQ & PB & NC & MU). pose proof (C j) as CJ. rewrite NQ in CJ.
    destruct (nth_error (as_inv st) j) as [v|] eqn:N; [|contradiction]. destruct CJ as [X1 _ _ _ _].
    assert (IA : is_addr (cur_contract st) (iv_by v) = false).
    { rewrite <- CC. unfold is_addr. destruct (current_contract s) as [z|] eqn:Z; auto. destruct (addr_eq_dec z (iv_by v)); auto. congruence. }
    destruct (EXT _ _ N IA) as (q' & NQ' & _ & r & E1 & E2). assert (q' = q) as -> by congruence.
    destruct (E2 p MU) as (k' & p1 & -> & L). destruct (CO j v k' p1 N IA) as (i & v' & p0 & -> & P); [congruence|auto|].
    exists i, v', p0. split; auto. unfold before. destruct P as [P|[P ->]]; [left; lia|right; split; [lia|exact L]].
  Qed.
  Lemma pre_alone s st a f fr j p : R s st -> as_stack st = [fr] -> ~ pre_may s a f j p.
  Proof.
    intros [A B C D E F G H] SK (q & NQ & PB & NC & MU). rewrite Forall2_nth in C. specialize (C j). rewrite NQ in C.
    destruct (nth_error (as_inv st) j) as [v|]; [|contradiction]. destruct C as [_ _ _ _ X5]. apply al_length in X5.
    destruct (H q (nth_error_In _ _ NQ)) as [H1 H2]. rewrite SK in A. apply (f_equal (@length _)) in A. rewrite map_length in A. cbn in A.
    apply NC. rewrite H2; [congruence|lia].
  Qed.
  Lemma acc_found s st a f fr rest : ainv st -> R s st -> as_stack st = fr :: rest ->
    exists o, try_accounts (as_acc st) a f (negb (has_active (as_acc st) a)) 0 = Ok o
    /\ forall i p, entry_may entries s a f i p -> exists i0 x p0, o = Some (i0, x, p0) /\ before i0 p0 i p.
  Proof.
    intros (_ & _ & TI & _) RR SK. destruct RR as [A B C D E F G H]. rewrite Forall_nth' in TI.
    assert (LEN : 0 < length (s_frames s)) by (rewrite SK in A; destruct (s_frames s); [discriminate|cbn; lia]).
    set (al := negb (has_active (as_acc st) a)).
    assert (EXT : forall j x, nth_error (as_acc st) j = Some x -> ac_busy x = false ->
      exists e, nth_error entries j = Some e /\ ac_addr x = en_addr e /\
      exists r, maybe_extend (ac_trk x) f al = Ok r
      /\ forall p', may_use s (TE j) (en_tree e) p' f -> (p' = [] -> al = true) -> exists k' p, r = Some (k', p) /\ last p 0 <= last p' 0).
    { intros j x N BX. pose proof (B j) as BJ. rewrite N in BJ. destruct (nth_error entries j) as [e|] eqn:NE; [|contradiction].
      destruct BJ as [Y1 Y2 Y3 Y4 Y5 Y6 (n & Y7 & Y8)]. rewrite (Y8 BX) in Y7. exists e. split; auto. split; auto.
      assert (NM : tk_ms (ac_trk x) <> []) by (intros X; apply al_length in Y7; rewrite X in Y7; cbn in Y7; lia).
      destruct (extend_all s (TE j) (ac_trk x) f al _ (TI _ _ N) Y6 Y7 NM G) as (r & E1 & E2).
      exists r. split; auto. intros p' MU. apply E2. now rewrite Y3. }
    destruct (try_accounts_complete (as_acc st) a f al) with (k := 0) as (o & TO & CO).
    { intros j x N BX _. destruct (EXT _ _ N BX) as (q & _ & _ & r & E1 & _). eauto. }
    exists o. split; auto. intros i p (e & NE & EA & NB & MU & RT). pose proof (B i) as BI. rewrite NE in BI.
    destruct (nth_error (as_acc st) i) as [x|] eqn:N; [|contradiction]. destruct BI as [X1 _ _ _ X5 _ _].
    assert (BX : ac_busy x = false) by (destruct (ac_busy x); auto; exfalso; apply NB; now apply X5).
    destruct (EXT _ _ N BX) as (e' & NE' & _ & r & E1 & E2). assert (e' = e) as -> by congruence.
    assert (AL : p = [] -> al = true).
    { intros P. specialize (RT P). unfold al. destruct (has_active (as_acc st) a) eqn:HA; auto. exfalso.
      unfold has_active in HA. apply existsb_exists in HA as (y & IY & HA). apply In_nth_error in IY as (j & NJ).
      apply andb_prop in HA as [HA H4]. apply andb_prop in HA as [HA H3]. apply andb_prop in HA as [H1 H2].
      destruct (ac_busy y) eqn:BY; [discriminate|]. destruct (addr_eq_dec (ac_addr y) a) as [AY|]; [|discriminate].
      pose proof (B j) as BJ. rewrite NJ in BJ. destruct (nth_error entries j) as [ej|] eqn:NEJ; [|contradiction].
      destruct BJ as [Y1 Y2 Y3 Y4 Y5 Y6 (n & Y7 & Y8)]. rewrite (Y8 BY) in Y7.
      assert (NR : nearest (s_frames s) (TE j) <> None).
      { rewrite (al_nearest _ _ _ _ _ Y7). destruct (TI _ _ NJ) as [W T]. intros X. apply (near_root _ W) in X.
        unfold is_active in H3. apply andb_prop in H3 as [U DN]. destruct (tk_rxf (ac_trk y)); [|destruct T; congruence].
        destruct T as [_ T]. destruct (tk_done (ac_trk y)); [discriminate|congruence]. }
      specialize (RT j ej NEJ ltac:(congruence) ltac:(intros X; apply Y5 in X; congruence) NR).
      destruct Y7 as (new & cur & old & Z1 & Z2 & Z3 & _ & _ & Z4). destruct new; [|discriminate]. cbn in Z1.
      unfold frame_matched in H4. destruct (tk_ms (ac_trk y)) as [|m ms].
      - destruct cur; [|discriminate]. cbn in Z1. destruct old; [|discriminate]. rewrite Z1 in LEN. cbn in LEN. lia.
      - destruct cur as [|fr0 cur]; [discriminate|]. cbn in Z4. injection Z4 as Z4 _. rewrite Z1 in RT. cbn in RT. unfold byn in Z4.
        destruct m; try discriminate. cbn in Z4. congruence. }
    destruct (E2 p MU AL) as (k' & p1 & -> & L). destruct (CO i x k' p1 N BX) as (i0 & x' & p0 & -> & P); [congruence|auto|].
    exists i0, x', p0. split; auto. unfold before. destruct P as [P|[P ->]]; [left; lia|right; split; [lia|exact L]].
  Qed.

  Lemma require_explains a args sig check s st st' r t : (forall i, good_body c (check i)) -> (forall i, explains (check i)) ->
    ainv st -> R s st -> require c st a args sig check = (st', r, t) -> exists s', R s' st' /\ tells s r t s'.
  Proof.
    intros GB EX I RR E. destruct (require_spec c _ _ _ _ _ _ _ _ E) as [(_ & e & -> & -> & ->)|(fr & rest & SK & CS)].
    { exists s. split; auto. apply x_nil. }
    set (f := to_fn fr args) in *. cbv zeta in CS.
    assert (CF : current_fn s f /\ (forall id fn rest', rest = FrContract id fn :: rest' -> direct_invoker s = Some (AContract id))
               /\ (forall x, direct_invoker s = Some x -> exists id fn rest', rest = FrContract id fn :: rest' /\ x = AContract id)
               /\ current_contract s = cur_contract st).
    { pose proof (r_stack _ _ RR) as S. unfold cur_contract. rewrite SK in S |- *. unfold current_fn, direct_invoker, current_contract.
      destruct (s_frames s) as [|[g b] fs]; [discriminate|]. injection S as <- S. split; [exists args; reflexivity|].
      split; [|split; [|now destruct fr]].
      - intros id fn rest' ->. destruct fs as [|[g b2] fs]; [discriminate|]. injection S as <- S. reflexivity.
      - intros x. destruct fs as [|[[id fn|] b2] fs]; try discriminate. intros [= <-]. cbn in S. eauto. }
    destruct CF as (CF & DI & DI' & CC).
    destruct (pre_found s st a f fr rest I RR SK) as (o1 & TIO & PF). destruct (acc_found s st a f fr rest I RR SK) as (o2 & TA & AF).
    assert (NONE : check_invoker st a f = Ok None -> direct_invoker s <> Some a /\ forall j p, ~ pre_may s a f j p).
    { intros CI. destruct (check_invoker_none _ _ _ _ _ SK CI) as [N1 N2]. split.
      - intros X. destruct (DI' _ X) as (id & fn & r' & E1 & E2). exact (N1 _ _ _ E1 E2).
      - destruct N2 as [->|N2]; [intros j p; eapply pre_alone; eauto|]. intros j p PM. destruct (PF j p PM) as (i & v & p0 & X & _). congruence. }
    destruct CS as [(e & -> & -> & -> & CS)|[(-> & -> & -> & id & fn & rest' & -> & ->)|[CS|CS]]].
    - exists s. split; auto. cbn. apply x_no; auto. destruct CS as [CS|(CI & CS)].
      + exfalso. unfold check_invoker in CS. rewrite SK, TIO in CS. destruct rest; [discriminate|].
        destruct (match a0 with FrContract _ _ => _ | _ => _ end); [discriminate|]. destruct o1 as [[[? ?] ?]|]; discriminate.
      + destruct (NONE CI) as [N1 N2]. split; auto. split; auto. intros i p EM. destruct (AF i p EM) as (i0 & x & p0 & X & _).
        destruct CS as [CS|[CS _]]; congruence.
    - exists s. split; auto. apply (carries_tells s (Ok tt)). intros l s2 X. cbn. apply x_invoker; auto. eapply DI; eauto.
    - destruct CS as (j & v & v' & p & -> & -> & N & BY & BY' & NC & ME & -> & TI' & ND).
      destruct (R_use_pre _ _ _ _ _ _ _ RR N BY' ME) as (q & NQ & PB & MU & R').
      eexists. split; [exact R'|]. intros l s2 X. cbn. eapply x_pre; eauto; [congruence| |].
      + rewrite CC. intros Z. rewrite Z in NC. cbn in NC. destruct (addr_eq_dec a a); [discriminate|congruence].
      + split.
        * intros Z. destruct (DI' _ Z) as (id & fn & r' & E1 & E2). exact (ND _ _ _ E1 E2).
        * intros j' p' PM. destruct (PF j' p' PM) as (i & w & p0 & X1 & BF). rewrite TIO in TI'. subst o1. injection TI' as -> -> ->. exact BF.
    - destruct CS as (i & x & tk & p & N & BX & AX & ME & CI & TA' & CS).
      assert (EF : entry_first entries s a f i p).
      { destruct (NONE CI) as [N1 N2]. split; auto. split; auto. intros i' p' EM. destruct (AF i' p' EM) as (i0 & w & p0 & X1 & BF).
        rewrite TA in TA'. subst o2. injection TA' as -> -> ->. exact BF. }
      subst a.
      destruct (R_use_acc _ _ _ _ _ _ _ _ RR I N BX eq_refl ME) as (e & NE & EA & EC & EM & NB & VER & R').
      set (st1 := with_acc st (set_nth_acc (as_acc st) i (set_trk x tk))) in *. cbv zeta in CS.
      destruct CS as [(VX & -> & -> & ->)|(VX & o & l & AU & -> & ->)].
      { eexists. split; [exact R'|]. intros l s2 X. cbn. apply x_entry; auto. now apply VER. }
      assert (NV : ~ In i (s_ver s)) by (intros X; apply VER in X; congruence).
      assert (TI : trk_inv (ac_trk x)) by (destruct I as (_ & _ & TI & _); rewrite Forall_nth' in TI; eauto).
      destruct (extend_ext _ _ _ _ _ TI ME) as [_ TI'].
      assert (I1 : ainv st1) by (eapply set_acc_ok; eauto).
      assert (N1 : nth_error (as_acc st1) i = Some (set_trk x tk)).
      { unfold st1; cbn. rewrite nth_set_acc, N. destruct (Nat.eq_dec i i); [reflexivity|congruence]. }
      destruct (authenticate_spec c LI _ _ _ _ _ _ _ _ (GB i) I1 N1 BX AU) as (sta & r1 & CS & Ia & Ka & Na & FIN).
      cbn [ac_cred ac_addr set_trk] in CS, FIN.
      set (s0 := s_use s (TE i) p) in *.
      assert (S1 : exists s1, explained (s_set_busy s0 (i :: s_busy s)) l s1 /\ R (s_set_busy s1 (s_busy s)) sta).
      { pose proof (R_busy_on _ _ _ _ R' N1 BX) as RB. change (s_busy s0) with (s_busy s) in RB.
        destruct CS as [(C1 & -> & -> & ->)|(C1 & st0 & -> & J0 & K0 & CS)].
        - exists (s_set_busy s0 (i :: s_busy s)). split; [apply x_nil|]. destruct R'. now split.
        - destruct (busy_wk c _ _ _ _ I1 N1 BX J0 K0) as (Z1 & _).
          destruct CS as [(E0 & -> & _)|(id & AD & WA)].
          + exists (s_set_busy s0 (i :: s_busy s)). split; [apply x_nil|].
            subst st0. eapply (R_busy_off s0 st1); eauto. rewrite (nth_busy _ _ _ _ N1). reflexivity.
          + destruct (with_aframe_explains _ _ _ _ _ _ _ _ (GB i) (EX i) (ainv_busy c _ _ _ I1) RB WA) as (s1 & R1 & T1).
            assert (T2 : explained (s_set_busy s0 (i :: s_busy s)) l s1) by (rewrite <- (app_nil_r l); apply T1, x_nil).
            exists s1. split; auto. eapply (R_busy_off s0 st1); eauto.
            * destruct K0 as (K0 & _). rewrite K0. rewrite (nth_busy _ _ _ _ N1). reflexivity.
            * apply exp_busy in T2. exact T2. }
      destruct S1 as (s1 & X1 & Ra).
      destruct r1 as [u|e1].
      + destruct FIN as (st2 & r2 & CN & FIN). destruct (consume_spec c LI _ _ _ _ _ Ia CN) as (I2 & K2 & C3 & C4 & C5).
        destruct K2 as (K2 & _).
        destruct r2 as [u2|e2]; destruct FIN as [-> ->].
        * exists (s_verified (s_set_busy s1 (s_busy s)) i (nonces c st2)). split; [eapply R_verified; eauto|].
          intros l2 s2 X. cbn [is_ok app]. eapply (x_first li entries s _ f i p e l s1 (s_verified (s_set_busy s1 (s_busy s)) i (nonces c st2))); eauto; try reflexivity.
          cbn [s_nonce s_verified]. rewrite EC. pose proof (r_nonce _ _ Ra) as NN. cbn [s_nonce s_set_busy] in NN.
          unfold consumed in *. destruct (ac_cred x) as [[n lv]|]; [|intros y k; now rewrite C5, NN].
          destruct C5 as (Q1 & Q2 & Q3 & Q4). split; auto. split; [now rewrite NN|]. split; auto. intros y k NE'. now rewrite NN, Q4.
        * exists (s_set_busy s1 (s_busy s)). destruct C5 as [C5 C6]. split; [eapply R_store; eauto|]. cbn. eapply x_first_nonce; eauto.
          rewrite EC. pose proof (r_nonce _ _ Ra) as NN. cbn [s_nonce s_set_busy] in NN. unfold unconsumable in *.
          destruct (ac_cred x) as [[n lv]|]; [|exact C6]. rewrite NN. exact C6.
      + destruct FIN as (-> & ->). exists (s_set_busy s1 (s_busy s)). split; auto. cbn. now apply x_first_failed.
  Qed.

  Theorem exec_explains p : explains (fun st => exec c st p).
  Proof.
    induction p as [r|id fn try body IHb k IHk|pre ex args body IHb k IHk|a args sig check IHc k IHk|ts k IHk|o k IHk]; intros s st st' r' t' I RR; cbn.
    - intros [= <- <- <-]. exists s. split; auto. destruct r; [|apply x_nil]. intros l s2 X. exact X.
    - destruct (with_aframe id fn _ st) as [[st1 r1] t1] eqn:WA.
      destruct (with_aframe_explains _ _ _ _ _ _ _ _ (exec_wk c LI body) IHb I RR WA) as (s1 & R1 & T1).
      destruct (with_aframe_ok c _ _ _ _ _ _ _ (exec_wk c LI body) I WA) as (I1 & _).
      assert (GO : forall r0 : res unit, (let '(st2, r2, t2) := exec c st1 (k r0) in (st2, r2, t1 ++ t2)) = (st', r', t') ->
        exists s', R s' st' /\ tells s r' t' s').
      { intros r0. destruct (exec c st1 (k r0)) as [[st2 r2] t2] eqn:EK. intros [= <- <- <-].
        destruct (IHk _ _ _ _ _ _ I1 R1 EK) as (s2 & R2 & T2). exists s2. split; auto. eapply tells_app; eauto. }
      destruct r1 as [u|e]; [apply GO|]. destruct (try && recoverable e); [apply GO|].
      intros [= <- <- <-]. exists s1. split; auto. now apply carries_tells.
    - destruct (exec c (push_frame (FrCreate pre ex args) st) body) as [[st1 r1] t1] eqn:EB.
      pose proof (ainv_push c (FrCreate pre ex args) st I) as IP.
      destruct (exec_wk c LI body _ _ _ _ IP EB) as [I1 K1].
      destruct (IHb _ _ _ _ _ IP (R_push _ _ (FrCreate pre ex args) RR) EB) as (s1 & R1 & T1). apply tells_explained in T1.
      destruct (pop_ok c _ _ _ I I1 K1) as [I2 K2]. pose proof (R_pop _ _ _ _ _ I K1 RR R1) as R2.
      assert (CR : carries s [TCreate pre ex args t1] (s_pop s1)) by (intros l s2 X; eapply x_create; eauto).
      destruct r1 as [u|e].
      + destruct (exec c (pop_frame st1) k) as [[st3 r3] t3] eqn:EK. intros [= <- <- <-].
        destruct (IHk _ _ _ _ _ I2 R2 EK) as (s3 & R3 & T3). exists s3. split; auto. exact (tells_app _ _ _ _ _ _ CR T3).
      + intros [= <- <- <-]. exists (s_pop s1). split; auto. now apply carries_tells.
    - destruct (require c st a args sig _) as [[st1 r1] t1] eqn:RQ.
      assert (GB : forall i, good_body c (fun s0 => exec c s0 (check i))) by (intros i; apply (exec_wk c LI (check i))).
      destruct (require_explains _ _ _ _ _ _ _ _ _ GB (fun i => IHc i) I RR RQ) as (s1 & R1 & T1).
      destruct (require_wk c LI _ _ _ _ _ _ _ _ GB I RQ) as [I1 _].
      destruct r1 as [u|e].
      + destruct (exec c st1 k) as [[st2 r2] t2] eqn:EK. intros [= <- <- <-].
        destruct (IHk _ _ _ _ _ I1 R1 EK) as (s2 & R2 & T2). exists s2. split; auto. eapply tells_app; eauto.
      + intros [= <- <- <-]. exists s1. auto.
    - destruct (cur_contract st) as [a|] eqn:CC; [|intros [= <- <- <-]; exists s; split; auto; apply x_nil].
      set (st1 := with_inv st _).
      assert (I1 : ainv st1) by (now apply authorize_ainv).
      assert (CS : current_contract s = Some a).
      { rewrite <- CC. pose proof (r_stack _ _ RR) as S. unfold cur_contract, current_contract. rewrite S. destruct (s_frames s) as [|[[] b] fs]; reflexivity. }
      pose proof (R_authorize s st a ts RR I CS) as R1. fold st1 in R1.
      destruct (exec c st1 k) as [[st2 r2] t2] eqn:EK. intros [= <- <- <-].
      destruct (IHk _ _ _ _ _ I1 R1 EK) as (s2 & R2 & T2). exists s2. split; auto.
      assert (CR : carries s [TPre a ts] (s_authorize s a ts)).
      { intros l s3 X. apply x_pre_made; auto. }
      exact (tells_app _ _ _ _ _ _ CR T2).
    - destruct (aop_prog c st o) as [q|] eqn:AO; [|intros [= <- <- <-]; exists s; split; auto; apply x_nil].
      destruct (run_store c st q) as [st1 r1] eqn:RS.
      eapply (run_store_spec c LI) with (Q := fun m' _ => same_nonces (acont c st) m') in RS; eauto.
      2:{ intros x y rr SM H kk KK. rewrite <- (SM kk). now apply H. }
      2:{ eapply aop_spec; eauto. }
      destruct RS as (I1 & K1 & SN & E1 & E2).
      assert (R1 : R s st1). { eapply R_store; eauto; [apply K1|]. intros x n. unfold nonces. apply SN. now exists x, n. }
      destruct r1 as [v|e]; [|intros [= <- <- <-]; exists s; split; auto; apply x_nil].
      destruct (exec c st1 (k (Ok v))) as [[st2 r2] t2] eqn:EK. intros [= <- <- <-].
      exact (IHk _ _ _ _ _ _ I1 R1 EK).
  Qed.

  Lemma start_related sto : R (start (fun a n => contents c sto (nonce_key a n))) (new_enforcing sto entries).
  Proof.
    split; cbn; auto; try constructor; auto; try match goal with H : False |- _ => destruct H end.
      intros i. rewrite nth_error_map. destruct (nth_error entries i) as [e|]; cbn; auto. split; cbn; auto; try (split; [discriminate|tauto]).
      - apply erase_fresh.
      - intros p0; cbn; split; [intros []|intros X; now rewrite flag_fresh' in X].
      - exists 0. split; auto. exists [], [], []. cbn. auto 10.
  Qed.
  Theorem exec_explained p st' r t sto : run_ok c sto -> alive li (contents c sto) ->
    exec c (new_enforcing sto entries) p = (st', r, t) ->
    exists s', R s' st' /\ explained (start (fun a n => contents c sto (nonce_key a n))) t s'.
  Proof.
    intros RO AL E. assert (I : ainv (new_enforcing sto entries)).
    { split; auto. split; auto. cbn. split; [|split; auto; exists [], []; auto]. apply Forall_map. apply Forall_forall. intros e _. apply inv_new. }
    destruct (exec_explains p _ _ _ _ _ I (start_related sto) E) as (s' & R' & T). exists s'. split; auto. eapply tells_explained; eauto.
  Qed.
End Rel.
