(* Recorded trees as they grow, and storages that differ in the lifetimes of nonces. *)
From Coq Require Import ZArith Lia List Bool.
From Verif Require Import Prelude ValModel ContainerModel HeapModel AMap StorageModel StorageSpec
  StorageProofs StorageProofs2 StorageLogic StorageProofs3 FrameModel FrameSpec FrameProofs FrameStore FrameProofs2
  AuthModel AuthSpec AuthProofs AuthProofs2 AuthProofs3 AuthRecModel AuthRecSpec.
Import ListNotations.

(* ---------------------------------------------------------------- trees *)

Fixpoint graft_at (l : list node) (i : nat) (p : path) (x : node) : list node :=
  match l, i with
  | [], _ => []
  | y :: l', O => graft y p x :: l'
  | y :: l', S i' => y :: graft_at l' i' p x
  end.
Lemma graft_cons f u l i p x : graft (Node f u l) (i :: p) x = Node f u (graft_at l i p x).
Proof. cbn. f_equal. revert i. induction l as [|y l IH]; intros [|i]; cbn; auto. f_equal. apply IH. Qed.
Lemma nth_graft l : forall i p x j, nth_error (graft_at l i p x) j =
  if Nat.eq_dec j i then option_map (fun y => graft y p x) (nth_error l j) else nth_error l j.
Proof.
  induction l as [|y l IH]; intros i p x j.
  - assert (X : graft_at [] i p x = []) by now destruct i. rewrite X. destruct (Nat.eq_dec j i); auto. destruct j; reflexivity.
  - destruct i, j; cbn [graft_at nth_error]; auto.
    rewrite IH. destruct (Nat.eq_dec j i), (Nat.eq_dec (S j) (S i)); auto; lia.
Qed.
Lemma graft_fn n p x : n_fn (graft n p x) = n_fn n.
Proof. destruct n, p; reflexivity. Qed.
Lemma graft_used n p x : n_used (graft n p x) = n_used n.
Proof. destruct n, p; reflexivity. Qed.

(* n is the beginning of m *)
Definition sub_of (n m : node) : Prop :=
  forall p x, node_at n p = Some x -> exists y, node_at m p = Some y /\ n_fn y = n_fn x.
Lemma sub_refl n : sub_of n n. Proof. intros p x H. eauto. Qed.
Lemma sub_trans a b d : sub_of a b -> sub_of b d -> sub_of a d.
Proof. intros A B p x H. destruct (A p x H) as (y & Y1 & Y2). destruct (B p y Y1) as (z & Z1 & Z2). exists z. split; congruence. Qed.

Lemma graft_sub n : forall p x, sub_of n (graft n p x).
Proof.
  induction n as [f u l IH] using node_ind'. intros [|i p] x q y.
  - cbn [graft]. destruct q as [|j q]; cbn; [intros [= <-]; eauto|].
    destruct (nth_error l j) as [s|] eqn:N; [|discriminate]. rewrite nth_error_app1, N by (apply nth_error_Some; congruence). eauto.
  - rewrite graft_cons. destruct q as [|j q]; cbn; [intros [= <-]; eauto|]. rewrite nth_graft.
    destruct (nth_error l j) as [s|] eqn:N; [|discriminate]. destruct (Nat.eq_dec j i); cbn; [|eauto].
    intros H. rewrite Forall_forall in IH. apply (IH s (nth_error_In _ _ N) p x q y H).
Qed.
Lemma graft_new n : forall p x s, node_at n p = Some s -> node_at (graft n p x) (p ++ [length (n_subs s)]) = Some x.
Proof.
  induction n as [f u l IH] using node_ind'. intros [|i p] x s.
  - cbn. intros [= <-]. cbn. rewrite nth_error_app2, Nat.sub_diag by lia. reflexivity.
  - rewrite graft_cons. cbn. rewrite nth_graft. destruct (nth_error l i) as [y|] eqn:N; [|discriminate].
    destruct (Nat.eq_dec i i); [|congruence]. cbn. intros H. rewrite Forall_forall in IH. now apply (IH y (nth_error_In _ _ N)).
Qed.
Lemma nth_error_nil {A} i : nth_error (@nil A) i = None.
Proof. now destruct i. Qed.
Lemma graft_inv n : forall p f s q, node_at n p = Some s -> node_at (graft n p (Node f true [])) q <> None ->
  node_at n q <> None \/ q = p ++ [length (n_subs s)].
Proof.
  induction n as [g u l IH] using node_ind'. intros [|i p] f s q.
  - cbn. intros [= <-]. destruct q as [|j q]; cbn; [left; discriminate|].
    destruct (Nat.ltb_spec j (length l)).
    + rewrite nth_error_app1 by auto. auto.
    + rewrite nth_error_app2 by auto. destruct (j - length l)%nat as [|d] eqn:D; cbn; [|rewrite nth_error_nil; congruence || (destruct d; cbn; congruence)].
      destruct q as [|j' q]; cbn; [right; f_equal; lia|]. destruct j'; cbn; congruence.
  - rewrite graft_cons. cbn [node_at n_subs]. destruct (nth_error l i) as [y|] eqn:N; [|discriminate]. intros H.
    destruct q as [|j q]; cbn [node_at n_subs]; [left; discriminate|]. rewrite nth_graft.
    destruct (Nat.eq_dec j i) as [->|]; [|auto]. rewrite N. cbn. intros G. rewrite Forall_forall in IH.
    destruct (IH y (nth_error_In _ _ N) p f s q H G) as [A|A]; [left; auto|right]. now rewrite A.
Qed.
Lemma node_at_subs n s : forall p, node_at n p = Some s -> forall j, node_at n (p ++ [j]) = nth_error (n_subs s) j.
Proof. intros p H j. rewrite node_at_app, H. cbn. now destruct (nth_error (n_subs s) j). Qed.

Lemma plain_erase n : plain n = erase n.
Proof. reflexivity. Qed.
Lemma all_used_flag n : (forall p, node_at n p <> None -> flag n p = true) -> all_used n = true.
Proof.
  induction n as [f u l IH] using node_ind'. intros H. cbn. rewrite (H [] ltac:(discriminate) : u = true). cbn.
  apply forallb_forall. intros x I. rewrite Forall_forall in IH. apply IH; auto.
  intros p N. apply In_nth_error in I as [i I]. specialize (H (i :: p)). unfold flag in *. cbn in H. rewrite I in H. auto.
Qed.
Lemma flag_fresh t : forall p, flag (fresh t) p = false.
Proof.
  induction t as [f l IH] using ftree_ind'. intros [|i p]; auto. unfold flag. cbn. rewrite nth_error_map.
  destruct (nth_error l i) as [x|] eqn:N; cbn; auto. rewrite Forall_forall in IH. apply (IH x (nth_error_In _ _ N)).
Qed.

(* ---------------------------------------------------------------- finding the node *)

Lemma descend_sub l : forall n m x p, (forall q, node_at n q <> None -> node_at m q <> None) ->
  descend n l = Ok (x, p) -> exists y, descend m l = Ok (y, p).
Proof.
  induction l as [|[| |i] l IH]; intros n m x p H; cbn.
  - intros [= _ <-]. eauto.
  - now apply IH.
  - discriminate.
  - destruct (nth_error (n_subs n) i) as [s|] eqn:N; [|discriminate].
    destruct (nth_error (n_subs m) i) as [s'|] eqn:N'.
    2:{ specialize (H [i]). cbn in H. rewrite N, N' in H. exfalso. apply H; congruence. }
    destruct (descend s l) as [[y q]|] eqn:D; [|discriminate]. intros [= <- <-].
    destruct (IH s s' y q) as (z & Z); auto; [|rewrite Z; eauto].
    intros q' F. specialize (H (i :: q')). cbn in H. rewrite N, N' in H. auto.
Qed.
Lemma last_sub l : forall n m x p, (forall q, node_at n q <> None -> node_at m q <> None) ->
  last_authorized n l = Ok (Some (x, p)) -> exists y, last_authorized m l = Ok (Some (y, p)).
Proof.
  induction l as [|[| |i] l IH]; intros n m x p H; cbn; try discriminate.
  - now apply IH.
  - destruct (descend n l) as [[y q]|] eqn:D; [|discriminate]. intros [= <- <-]. destruct (descend_sub _ _ _ _ _ H D) as (z & ->). eauto.
Qed.
Lemma last_none root l : existsb is_matched l = false -> last_authorized root l = Ok None.
Proof. induction l as [|[| |] l IH]; cbn; auto; discriminate. Qed.
Lemma existsb_rev {A} (f : A -> bool) l : existsb f (rev l) = existsb f l.
Proof. induction l; cbn; auto. rewrite existsb_app, IHl. cbn. rewrite orb_false_r. apply orb_comm. Qed.
Lemma find_sub_first l f : forall k i y, (forall j, (j < k)%nat -> exists x, nth_error l j = Some x /\ n_used x = true) ->
  nth_error l k = Some y -> n_used y = false -> n_fn y = f -> find_sub l f i = Some (i + k)%nat.
Proof.
  induction l as [|x l IH]; intros k i y H N U F; [destruct k; discriminate|]. cbn. destruct k as [|k].
  - injection N as ->. rewrite U. cbn. destruct (afn_eq_dec (n_fn y) f); [|congruence]. f_equal. lia.
  - destruct (H 0%nat) as (z & Z & ZU); [lia|]. injection Z as ->. rewrite ZU. cbn.
    rewrite (IH k (S i) y); auto; [f_equal; lia|]. intros j L. apply (H (S j)). lia.
Qed.
Lemma in_stack_rootpos t : trk_inv t -> in_stack t = true -> tk_rxf t <> None /\ tk_done t = false /\ n_used (tk_root t) = true.
Proof.
  unfold in_stack. intros [W I] M.
  assert (NN : near (tk_ms t) <> None).
  { clear I. induction (tk_ms t) as [|m r IH]; cbn in *; [discriminate|]. destruct m; cbn in *; auto; [discriminate|].
    destruct W as [_ W]. destruct (near r); congruence. }
  assert (RP : rootpos (tk_ms t) <> None) by (intros X; apply near_root in X; auto).
  destruct (tk_rxf t) as [i|]; [|destruct I as (_ & _ & X); congruence]. destruct I as [U R]. destruct (tk_done t); [congruence|].
  repeat split; auto. discriminate.
Qed.
Lemma not_in_stack_done t : trk_inv t -> in_stack t = false -> n_used (tk_root t) = true -> tk_done t = true.
Proof.
  unfold in_stack. intros [W I] M U.
  assert (RP : rootpos (tk_ms t) = None).
  { clear - M. induction (tk_ms t) as [|[| |] r IH]; cbn in *; auto; discriminate. }
  destruct (tk_rxf t) as [i|]; [|destruct I; congruence]. destruct I as [_ R]. destruct (tk_done t); congruence.
Qed.
Lemma pop_push t : trk_inv t -> trk_pop (trk_push t) = t.
Proof.
  intros [W I]. destruct t as [rt ms rx dn]. unfold trk_pop. cbn in *. f_equal. destruct rx as [i|]; auto. destruct I as [_ I].
  destruct dn; [now destruct (Nat.leb _ _)|]. apply rootpos_lt in I. destruct (Nat.leb_spec (length ms) i); [lia|auto].
Qed.
