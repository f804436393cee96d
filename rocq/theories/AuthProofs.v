(* Trackers: what a call changes of them, and that rolling back restores them. *)
From Coq Require Import ZArith Lia List Bool.
From Verif Require Import Prelude ValModel ContainerModel HeapModel AMap StorageModel StorageSpec
  StorageProofs StorageProofs2 StorageLogic StorageProofs3 FrameModel FrameSpec FrameStore FrameProofs2 AuthModel AuthSpec.
Import ListNotations.

(* ---------------------------------------------------------------- trees *)

Fixpoint erase (n : node) : ftree := let 'Node f _ l := n in FT f (map erase l).
Fixpoint node_at (n : node) (p : path) : option node :=
  match p with
  | [] => Some n
  | i :: p' => match nth_error (n_subs n) i with Some s => node_at s p' | None => None end
  end.
Definition flag (n : node) (p : path) : bool := match node_at n p with Some x => n_used x | None => false end.

Section NodeInd.
  Variable P : node -> Prop.
  Hypothesis H : forall f u l, Forall P l -> P (Node f u l).
  Fixpoint node_ind' (n : node) : P n :=
    let 'Node f u l := n in
    H f u l ((fix go (l : list node) : Forall P l :=
                match l with [] => Forall_nil _ | x :: l' => Forall_cons _ (node_ind' x) (go l') end) l).
End NodeInd.
Section FtreeInd.
  Variable P : ftree -> Prop.
  Hypothesis H : forall f l, Forall P l -> P (FT f l).
  Fixpoint ftree_ind' (n : ftree) : P n :=
    let 'FT f l := n in
    H f l ((fix go (l : list ftree) : Forall P l :=
                match l with [] => Forall_nil _ | x :: l' => Forall_cons _ (ftree_ind' x) (go l') end) l).
End FtreeInd.

Lemma erase_fresh t : erase (fresh t) = t.
Proof.
  induction t as [f l IH] using ftree_ind'. cbn. f_equal. rewrite map_map.
  induction IH as [|x l X _ IH]; cbn; [auto|]. now rewrite X, IH.
Qed.

Fixpoint mark_at (l : list node) (i : nat) (p : path) : list node :=
  match l, i with
  | [], _ => []
  | x :: l', O => mark x p :: l'
  | x :: l', S i' => x :: mark_at l' i' p
  end.
Lemma mark_cons f u l i p : mark (Node f u l) (i :: p) = Node f u (mark_at l i p).
Proof. cbn. f_equal. revert i. induction l as [|x l IH]; intros [|i]; cbn; auto. f_equal. apply IH. Qed.

Lemma erase_mark n : forall p, erase (mark n p) = erase n.
Proof.
  induction n as [f u l IH] using node_ind'. intros [|i p]; [reflexivity|]. rewrite mark_cons. cbn. f_equal.
  revert i. induction IH as [|x l X _ IH]; intros [|i]; cbn; auto; [now rewrite X|now rewrite IH].
Qed.
Lemma used_mark n p : n_used n = true -> n_used (mark n p) = true.
Proof. destruct n as [f u l], p; auto. Qed.
Lemma nth_mark l : forall i p j, nth_error (mark_at l i p) j =
  if Nat.eq_dec j i then option_map (fun x => mark x p) (nth_error l j) else nth_error l j.
Proof.
  induction l as [|x l IH]; intros i p j.
  - assert (X : mark_at [] i p = []) by now destruct i. rewrite X. destruct (Nat.eq_dec j i); auto. destruct j; reflexivity.
  - destruct i, j; cbn [mark_at nth_error]; auto.
    rewrite IH. destruct (Nat.eq_dec j i), (Nat.eq_dec (S j) (S i)); auto; lia.
Qed.
Lemma flag_mark n : forall p q, flag (mark n p) q = true -> flag n q = true \/ (q = p /\ node_at n p <> None).
Proof.
  induction n as [f u l IH] using node_ind'. intros [|i p] [|j q] F; auto.
  - right. split; auto. discriminate.
  - revert F. rewrite mark_cons. unfold flag in *. cbn [node_at n_subs]. rewrite nth_mark.
    destruct (Nat.eq_dec j i) as [->|]; [|auto]. destruct (nth_error l i) as [x|] eqn:N; cbn; [|discriminate].
    intros F. rewrite Forall_forall in IH. destruct (IH x (nth_error_In _ _ N) p q F) as [A|[-> A]]; auto.
Qed.
Lemma flag_mark_mono n : forall p q, flag n q = true -> flag (mark n p) q = true.
Proof.
  induction n as [f u l IH] using node_ind'. intros [|i p] [|j q] F; auto. rewrite mark_cons.
  unfold flag in *; cbn [node_at n_subs] in *. rewrite nth_mark. destruct (Nat.eq_dec j i) as [->|]; [|auto]. destruct (nth_error l i) as [x|] eqn:N; cbn; [|discriminate].
  rewrite Forall_forall in IH. apply (IH x (nth_error_In _ _ N) p q F).
Qed.
Lemma flag_mark_self n : forall p, node_at n p <> None -> flag (mark n p) p = true.
Proof.
  induction n as [f u l IH] using node_ind'. intros [|i p] F; auto. rewrite mark_cons. unfold flag in *. cbn [node_at n_subs] in *.
  rewrite nth_mark. destruct (Nat.eq_dec i i) as [_|]; [|congruence]. destruct (nth_error l i) as [x|] eqn:N; cbn; [|congruence].
  rewrite Forall_forall in IH. apply (IH x (nth_error_In _ _ N) p F).
Qed.
Lemma node_at_tree n : forall p, tree_at (erase n) p = option_map erase (node_at n p).
Proof.
  induction n as [f u l IH] using node_ind'. intros [|i p]; auto. cbn. rewrite nth_error_map.
  destruct (nth_error l i) as [x|] eqn:N; cbn; auto. rewrite Forall_forall in IH. apply (IH x (nth_error_In _ _ N)).
Qed.
Lemma node_at_app n : forall p q, node_at n (p ++ q) = match node_at n p with Some x => node_at x q | None => None end.
Proof.
  intros p. revert n. induction p as [|i p IH]; intros n q; cbn; auto. destruct (nth_error (n_subs n) i); auto.
Qed.

(* rolling back *)
Fixpoint roll_list (l : list node) (sl : list snap) : option (list node) :=
  match l, sl with
  | [], [] => Some []
  | x :: l', y :: sl' =>
      match rollback_node x y, roll_list l' sl' with
      | Some x', Some r => Some (x' :: r)
      | _, _ => None
      end
  | _, _ => None
  end.
Lemma rollback_eq f u l v sl : rollback_node (Node f u l) (Snap v sl) =
  match roll_list l sl with Some l' => Some (Node f v l') | None => None end.
Proof.
  cbn. match goal with |- match ?a with _ => _ end = match ?b with _ => _ end => enough (X : a = b) by now rewrite X end.
  revert sl. induction l as [|x l IH]; intros [|y sl]; cbn; auto.
Qed.
Lemma rollback_snapshot n : forall m, erase n = erase m -> rollback_node n (snapshot_node m) = Some m.
Proof.
  induction n as [f u l IH] using node_ind'. intros [f' u' l'] E. cbn in E. injection E as -> E.
  change (snapshot_node (Node f' u' l')) with (Snap u' (map snapshot_node l')). rewrite rollback_eq.
  replace (roll_list l (map snapshot_node l')) with (Some l'); auto.
  revert l' E. induction IH as [|x l X _ IH]; intros [|y l'] E; cbn in E; try discriminate; auto.
  injection E as E1 E2. cbn. now rewrite (X y E1), <- (IH l' E2).
Qed.

(* ---------------------------------------------------------------- match stacks *)

(* the path of the last matched node *)
Fixpoint near (ms : list mstate) : option path :=
  match ms with
  | [] => None
  | Unmatched :: r => near r
  | RootMatch :: _ => Some []
  | SubMatch i :: r => match near r with Some p => Some (p ++ [i]) | None => None end
  end.
(* position of the root match, from the outside *)
Fixpoint rootpos (ms : list mstate) : option nat :=
  match ms with [] => None | RootMatch :: r => Some (length r) | _ :: r => rootpos r end.
Fixpoint wfms (ms : list mstate) : Prop :=
  match ms with
  | [] => True
  | Unmatched :: r => wfms r
  | RootMatch :: r => wfms r /\ near r = None
  | SubMatch _ :: r => wfms r /\ near r <> None
  end.
Lemma rootpos_lt ms i : rootpos ms = Some i -> (i < length ms)%nat.
Proof. induction ms as [|[| |] r IH]; cbn; try discriminate; intros X; try (injection X as <-; lia); apply IH in X; lia. Qed.
Lemma near_root ms : wfms ms -> (near ms = None <-> rootpos ms = None).
Proof.
  induction ms as [|[| |i] r IH]; cbn; [tauto|auto|intros _; split; discriminate|].
  intros [W N]. specialize (IH W). destruct (near r) as [p|]; [|congruence]. split; [discriminate|]. intros X. apply IH in X. discriminate.
Qed.

Definition stp (o : option path) (m : mstate) : option path :=
  match m with Unmatched => o | RootMatch => Some [] | SubMatch i => match o with Some p => Some (p ++ [i]) | None => None end end.
Lemma near_fold ms : near ms = fold_left stp (rev ms) None.
Proof.
  induction ms as [|m r IH]; cbn; auto. rewrite fold_left_app. cbn. rewrite <- IH. destruct m; cbn; auto.
Qed.
Lemma descend_spec l : forall n q x p, descend n l = Ok (x, p) -> fold_left stp l (Some q) = Some (q ++ p) /\ node_at n p = Some x.
Proof.
  induction l as [|[| |i] l IH]; intros n q x p; cbn.
  - intros [= <- <-]. now rewrite app_nil_r.
  - apply IH.
  - discriminate.
  - destruct (nth_error (n_subs n) i) as [s|] eqn:N; [|discriminate].
    destruct (descend s l) as [[y p']|] eqn:D; [|discriminate]. intros [= <- <-].
    destruct (IH s (q ++ [i]) _ _ D) as [A B]. split; [|cbn; rewrite N; auto].
    etransitivity; [exact A|]. now rewrite <- app_assoc.
Qed.
Lemma last_spec root l o : last_authorized root l = Ok o ->
  match o with
  | None => fold_left stp l None = None
  | Some (x, p) => fold_left stp l None = Some p /\ node_at root p = Some x
  end.
Proof.
  induction l as [|[| |i] l IH]; cbn; try discriminate.
  - intros [= <-]. reflexivity.
  - exact IH.
  - destruct (descend root l) as [[x p]|] eqn:D; [|discriminate]. intros [= <-]. exact (descend_spec l root [] x p D).
Qed.
Lemma last_near root ms o : last_authorized root (rev ms) = Ok o ->
  match o with None => near ms = None | Some (x, p) => near ms = Some p /\ node_at root p = Some x end.
Proof. rewrite near_fold. apply last_spec. Qed.

Lemma find_sub_spec l f : forall i j, find_sub l f i = Some j ->
  exists x, nth_error l (j - i) = Some x /\ (i <= j)%nat /\ n_used x = false /\ n_fn x = f.
Proof.
  induction l as [|x l IH]; intros i j; cbn; [discriminate|].
  destruct (negb (n_used x) && _) eqn:C.
  - intros [= <-]. apply andb_prop in C as [C1 C2]. exists x. rewrite Nat.sub_diag. cbn.
    destruct (n_used x); [discriminate|]. destruct (afn_eq_dec (n_fn x) f); [auto|discriminate].
  - intros F. destruct (IH _ _ F) as (y & A & B & D). exists y. split; [|split; [lia|exact D]].
    replace (j - i)%nat with (S (j - S i)) by lia. exact A.
Qed.

(* ---------------------------------------------------------------- tracker invariant *)

Definition trk_inv (t : tracker) : Prop :=
  wfms (tk_ms t)
  /\ match tk_rxf t with
     | None => n_used (tk_root t) = false /\ tk_done t = false /\ rootpos (tk_ms t) = None
     | Some i => n_used (tk_root t) = true /\ rootpos (tk_ms t) = (if tk_done t then None else Some i)
     end.
Lemma inv_push t : trk_inv t -> trk_inv (trk_push t).
Proof. intros [A B]. split; auto. Qed.
Lemma inv_pop t : trk_inv t -> trk_inv (trk_pop t).
Proof.
  destruct t as [rt ms rx dn]. unfold trk_inv, trk_pop; cbn. intros [W B]. destruct ms as [|m r]; cbn.
  - split; auto. destruct rx as [i|]; auto. cbn in B. destruct B as [B1 B2]. destruct dn; [auto|discriminate].
  - split; [destruct m; cbn in W; tauto|]. destruct rx as [i|]; [|destruct m; cbn in *; destruct B as (B1 & B2 & B3); try discriminate; auto].
    destruct B as [B1 B2]. split; auto. destruct dn.
    + destruct m; cbn in B2; try discriminate; rewrite B2; destruct (Nat.leb _ _); auto.
    + destruct m; cbn in *.
      * pose proof (rootpos_lt _ _ B2). destruct (Nat.leb_spec (length r) i); [lia|auto].
      * injection B2 as <-. rewrite Nat.leb_refl. now apply near_root.
      * pose proof (rootpos_lt _ _ B2). destruct (Nat.leb_spec (length r) i); [lia|auto].
Qed.
Lemma inv_new t : trk_inv (new_tracker t).
Proof. destruct t. split; cbn; auto. Qed.

(* What maybe_extend does. *)
Lemma extend_spec t f allow t' p : maybe_extend t f allow = Ok (Some (t', p)) ->
  exists m rest x,
    tk_ms t = m :: rest /\ m = Unmatched
    /\ node_at (tk_root t) p = Some x /\ n_used x = false /\ n_fn x = f
    /\ tk_root t' = mark (tk_root t) p /\ tk_done t' = tk_done t
    /\ ((near rest = None /\ p = [] /\ allow = true /\ tk_ms t' = RootMatch :: rest /\ tk_rxf t' = Some (length rest))
        \/ (exists q i, near rest = Some q /\ p = q ++ [i] /\ tk_ms t' = SubMatch i :: rest /\ tk_rxf t' = tk_rxf t)).
Proof.
  unfold maybe_extend. destruct (tk_ms t) as [|m rest] eqn:MS; [discriminate|].
  destruct (is_matched m) eqn:IM; [discriminate|]. assert (m = Unmatched) as -> by (destruct m; auto; discriminate).
  destruct (last_authorized (tk_root t) (rev (Unmatched :: rest))) as [o|e] eqn:LA; [|discriminate].
  apply last_near in LA. cbn [near] in LA. destruct o as [[n q]|].
  - destruct LA as [L1 L2]. destruct (find_sub (n_subs n) f 0) as [i|] eqn:FS; [|discriminate]. intros [= <- <-].
    destruct (find_sub_spec _ _ _ _ FS) as (x & X1 & _ & X2 & X3). rewrite Nat.sub_0_r in X1.
    exists Unmatched, rest, x. split; auto. split; auto. split; [|split; [auto|split; [auto|]]].
    + rewrite node_at_app, L2. cbn. now rewrite X1.
    + split; auto. split; auto. right. exists q, i. auto.
  - destruct (negb _ && _ && _) eqn:C; [|discriminate]. intros [= <- <-]. apply andb_prop in C as [C C3]. apply andb_prop in C as [C1 C2].
    exists Unmatched, rest, (tk_root t). destruct (n_used (tk_root t)) eqn:U; [discriminate|]. destruct (afn_eq_dec _ _) as [F|]; [|discriminate].
    split; auto. split; auto. split; auto. split; auto. split; auto. split; auto. split; auto. left. auto.
Qed.

(* within one frame: same tree, only the innermost match changes, and a used root
   stays as it is *)
Definition same_frames (a b : list mstate) : Prop := (a = [] /\ b = []) \/ exists m m' r, a = m :: r /\ b = m' :: r.
Definition ext (t t' : tracker) : Prop :=
  erase (tk_root t') = erase (tk_root t) /\ same_frames (tk_ms t) (tk_ms t')
  /\ (n_used (tk_root t) = true -> n_used (tk_root t') = true /\ tk_rxf t' = tk_rxf t /\ tk_done t' = tk_done t).
Lemma same_frames_refl a : same_frames a a.
Proof. destruct a as [|m r]; [left|right; exists m, m, r]; auto. Qed.
Lemma ext_refl t : ext t t.
Proof. split; auto. split; auto. apply same_frames_refl. Qed.
Lemma ext_trans a b d : ext a b -> ext b d -> ext a d.
Proof.
  intros (A1 & A2 & A3) (B1 & B2 & B3). split; [congruence|]. split.
  - destruct A2 as [[X Y]|(m & m' & r & X & Y)], B2 as [[Z W]|(n & n' & q & Z & W)]; try congruence; [left; auto|right].
    exists m, n', r. split; congruence.
  - intros U. destruct (A3 U) as (C1 & C2 & C3). destruct (B3 C1) as (D1 & D2 & D3). repeat split; congruence.
Qed.
Lemma extend_ext t f allow t' p : trk_inv t -> maybe_extend t f allow = Ok (Some (t', p)) -> ext t t' /\ trk_inv t'.
Proof.
  intros [W I] E. destruct (extend_spec _ _ _ _ _ E) as (m & rest & x & MS & -> & NA & U & F & RT & DN & CS).
  rewrite MS in *. cbn in W.
  assert (ER : erase (tk_root t') = erase (tk_root t)) by (rewrite RT; apply erase_mark).
  assert (UM : n_used (tk_root t) = true -> n_used (tk_root t') = true) by (rewrite RT; apply used_mark).
  destruct CS as [(N & -> & _ & MS' & RX)|(q & i & N & -> & MS' & RX)].
  - injection NA as <-. split.
    + split; auto. split; [rewrite MS, MS'; right; eauto|]. congruence.
    + split; [rewrite MS'; cbn; auto|]. rewrite RX, MS', DN, RT.
      destruct (tk_rxf t) as [j|]; [destruct I; congruence|]. destruct I as (_ & -> & _). split; [now destruct (tk_root t)|reflexivity].
  - assert (NR : rootpos rest <> None) by (intros X; apply (near_root rest W) in X; congruence).
    cbn in I. destruct (tk_rxf t) as [j|] eqn:RXT; [|destruct I as (_ & _ & I); congruence]. destruct I as [I1 I2]. split.
    + split; auto. split; [rewrite MS, MS'; right; eauto|]. intros _. rewrite RX, RXT. auto.
    + split; [rewrite MS'; cbn; split; congruence|]. rewrite RX, MS', DN. cbn. auto.
Qed.

(* rolling back to the start of a frame and popping it *)
Lemma rollback_pop t t' : trk_inv t -> ext (trk_push t) t' ->
  exists t1, trk_rollback t' (snapshot_node (tk_root (trk_push t))) = Some t1 /\ trk_pop t1 = t.
Proof.
  intros [W I] (E1 & E2 & E3). unfold trk_rollback. rewrite rollback_snapshot by (exact E1).
  eexists. split; [reflexivity|]. destruct t as [rt ms rx dn], t' as [rt' ms' rx' dn']. cbn in *.
  destruct E2 as [[X _]|(m & m' & r & X & ->)]; [discriminate|]. injection X as <- <-.
  destruct (n_used rt) eqn:U; unfold trk_pop; cbn.
  - destruct (E3 eq_refl) as (_ & -> & ->). destruct rx as [i|]; [|reflexivity]. destruct I as [_ I]. f_equal.
    destruct dn; [now destruct (Nat.leb _ _)|]. apply rootpos_lt in I. destruct (Nat.leb_spec (length ms) i); [lia|auto].
  - destruct rx as [i|]; [destruct I; congruence|]. destruct I as (_ & -> & _). reflexivity.
Qed.
Lemma ext_pop t t' : trk_inv t -> ext (trk_push t) t' -> ext t (trk_pop t').
Proof.
  intros [W I] (E1 & E2 & E3). destruct t as [rt ms rx dn], t' as [rt' ms' rx' dn']. cbn in *. unfold trk_pop; cbn.
  destruct E2 as [[X _]|(m & m' & r & X & ->)]; [discriminate|]. injection X as <- <-. cbn.
  split; auto. split; [apply same_frames_refl|]. cbn. intros U. destruct (E3 U) as (U' & -> & ->). split; auto. split; auto.
  rewrite U in I. destruct rx as [i|]; [|reflexivity]. destruct I as [_ I].
  destruct dn; [now destruct (Nat.leb _ _)|]. apply rootpos_lt in I. destruct (Nat.leb_spec (length ms) i); [lia|auto].
Qed.
Lemma ext_push_ms t t' : ext (trk_push t) t' -> tl (tk_ms t') = tk_ms t /\ tk_ms t' <> [].
Proof.
  intros (_ & E2 & _). cbn in E2. destruct E2 as [[X _]|(m & m' & r & X & ->)]; [discriminate|]. injection X as <- <-. cbn. split; auto. discriminate.
Qed.

(* ---------------------------------------------------------------- a match is always found *)

Lemma descend_un n l : descend n (l ++ [Unmatched]) = descend n l.
Proof. revert n. induction l as [|[| |i] l IH]; intros n; cbn; auto. destruct (nth_error (n_subs n) i); auto. now rewrite IH. Qed.
Lemma descend_sub n l i x p y : descend n l = Ok (x, p) -> nth_error (n_subs x) i = Some y -> descend n (l ++ [SubMatch i]) = Ok (y, p ++ [i]).
Proof.
  revert n x p. induction l as [|[| |j] l IH]; intros n x p; cbn; try discriminate.
  - intros [= <- <-] ->. reflexivity.
  - apply IH.
  - destruct (nth_error (n_subs n) j) as [s|]; [|discriminate]. destruct (descend s l) as [[z q]|] eqn:D; [|discriminate].
    intros [= <- <-] N. now rewrite (IH _ _ _ D N).
Qed.
Lemma last_un root l : last_authorized root (l ++ [Unmatched]) = last_authorized root l.
Proof. induction l as [|[| |i] l IH]; cbn; auto. now rewrite descend_un. Qed.
Lemma last_root root l : last_authorized root l = Ok None -> last_authorized root (l ++ [RootMatch]) = Ok (Some (root, [])).
Proof. induction l as [|[| |i] l IH]; cbn; auto; try discriminate. destruct (descend root l); discriminate. Qed.
Lemma last_sub root l i x p y : last_authorized root l = Ok (Some (x, p)) -> nth_error (n_subs x) i = Some y ->
  last_authorized root (l ++ [SubMatch i]) = Ok (Some (y, p ++ [i])).
Proof.
  induction l as [|[| |j] l IH]; cbn; try discriminate; auto. destruct (descend root l) as [z|] eqn:D; [|discriminate].
  intros [= ->] N. now rewrite (descend_sub _ _ _ _ _ _ D N).
Qed.
Lemma last_total root ms : wfms ms -> (forall p, near ms = Some p -> node_at root p <> None) ->
  last_authorized root (rev ms) = Ok match near ms with
    | None => None | Some p => match node_at root p with Some x => Some (x, p) | None => None end end.
Proof.
  induction ms as [|[| |i] r IH]; cbn [wfms near rev]; intros W V; auto.
  - rewrite last_un. auto.
  - destruct W as [W N]. rewrite N in IH. apply last_root. apply IH; auto. discriminate.
  - destruct W as [W N]. destruct (near r) as [q|] eqn:NR; [|congruence].
    specialize (V _ eq_refl). rewrite node_at_app in V |- *. cbn [node_at] in V |- *.
    destruct (node_at root q) as [x|] eqn:NA; [|congruence]. destruct (nth_error (n_subs x) i) as [y|] eqn:NY; [|congruence].
    apply (last_sub root (rev r) i x q y); auto. rewrite IH; auto. intros p [= <-]. congruence.
Qed.
Lemma find_sub_all l f : forall i j x, nth_error l j = Some x -> n_used x = false -> n_fn x = f ->
  exists k, find_sub l f i = Some k /\ (k <= i + j)%nat.
Proof.
  induction l as [|y l IH]; intros i j x N U F; [destruct j; discriminate|]. cbn.
  destruct (negb (n_used y) && _) eqn:C; [exists i; split; auto; lia|].
  destruct j as [|j].
  - injection N as ->. rewrite U in C. cbn in C. destruct (afn_eq_dec (n_fn x) f); [discriminate|congruence].
  - destruct (IH (S i) j x N U F) as (k & A & B). exists k. split; auto. lia.
Qed.
Lemma last_snoc {A} (l : list A) x d : last (l ++ [x]) d = x.
Proof. induction l as [|y l IH]; cbn; auto. destruct (l ++ [x]) eqn:E; [destruct l; discriminate|exact IH]. Qed.
Lemma extend_complete t f al : trk_inv t -> tk_ms t <> [] -> (forall p, near (tk_ms t) = Some p -> node_at (tk_root t) p <> None) ->
  exists o, maybe_extend t f al = Ok o
  /\ forall rest p' x, tk_ms t = Unmatched :: rest -> node_at (tk_root t) p' = Some x -> n_used x = false -> n_fn x = f ->
     match near rest with None => p' = [] /\ al = true | Some q => exists n, p' = q ++ [n] end ->
     exists t' p, o = Some (t', p) /\ (last p 0 <= last p' 0)%nat.
Proof.
  intros [W I] NE V. unfold maybe_extend. rewrite (last_total _ _ W V). destruct (tk_ms t) as [|m rest] eqn:MS; [congruence|].
  destruct (is_matched m) eqn:IM.
  - exists None. split; auto. intros rest' p' x [= -> _]. discriminate.
  - assert (m = Unmatched) as -> by (destruct m; auto; discriminate). cbn [near] in *. destruct (near rest) as [q|] eqn:NR.
    + specialize (V q eq_refl). destruct (node_at (tk_root t) q) as [y|] eqn:NY; [|congruence].
      destruct (find_sub (n_subs y) f 0) as [i|] eqn:FS.
      * eexists. split; [reflexivity|]. intros rest' p' x [= <-] NX U F. rewrite NR. intros (n & ->).
        rewrite node_at_app, NY in NX. cbn in NX. destruct (nth_error (n_subs y) n) as [z|] eqn:NZ; [|discriminate]. injection NX as ->.
        destruct (find_sub_all _ f 0%nat _ _ NZ U F) as (k & A & B). assert (k = i) as -> by congruence.
        do 2 eexists. split; [reflexivity|]. now rewrite !last_snoc.
      * eexists. split; [reflexivity|]. intros rest' p' x [= <-] NX U F. rewrite NR. intros (n & ->).
        rewrite node_at_app, NY in NX. cbn in NX. destruct (nth_error (n_subs y) n) as [z|] eqn:NZ; [|discriminate]. injection NX as ->.
        destruct (find_sub_all _ f 0%nat _ _ NZ U F) as (k & A & B). congruence.
    + match goal with |- exists o, (if ?b then Ok ?u else Ok ?v) = Ok o /\ _ => exists (if b then u else v); split; [now destruct b|] end.
      intros rest' p' x [= <-] NX U F. rewrite NR. intros (-> & ->). injection NX as <-. rewrite U, F.
      destruct (afn_eq_dec f f); [|congruence]. cbn. do 2 eexists. split; [reflexivity|]. cbn. lia.
Qed.
