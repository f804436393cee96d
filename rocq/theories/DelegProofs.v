(* Proofs about delegated authentication: trees, flags and rollbacks. *)
From Coq Require Import ZArith Lia List Bool.
From Verif Require Import Prelude HeapModel HeapSpec FrameModel DelegModel DelegSpec.
Import ListNotations.
Open Scope Z_scope.

Lemma bytes_cmp_eq a : forall b, bytes_cmp a b = Eq <-> a = b.
Proof.
  induction a as [|x a IH]; intros [|y b]; cbn; try (split; congruence). destruct (Z.compare_spec x y) as [->|L|L].
  - rewrite IH. split; congruence.
  - split; [discriminate|]. intros [= -> _]. lia.
  - split; [discriminate|]. intros [= -> _]. lia.
Qed.
Lemma then_cmp_eq i j a b : then_cmp (i ?= j) (bytes_cmp a b) = Eq <-> i = j /\ a = b.
Proof. unfold then_cmp. destruct (Z.compare_spec i j) as [->|L|L]; [rewrite bytes_cmp_eq; intuition congruence| |]; split; try discriminate; lia. Qed.
Lemma addr_cmp_eq a b : addr_typed a -> addr_typed b -> addr_cmp a b = Eq <-> a = b.
Proof.
  intros A B. destruct a, b; cbn [addr_cmp addr_disc addr_typed] in *; rewrite ?bytes_cmp_eq, ?then_cmp_eq; try (split; congruence);
    try (destruct A; subst); try (destruct B; subst); cbn; try (split; [discriminate|congruence]); split; intuition congruence.
Qed.

(* ---- trees *)
Lemma nth_nil {A} n : nth_error (@nil A) n = None. Proof. now destruct n. Qed.
Section DnodeInd.
  Variable P : dnode -> Prop.
  Hypothesis H : forall a s u l, Forall P l -> P (DN a s u l).
  Fixpoint dnode_ind' (n : dnode) : P n :=
    let 'DN a s u l := n in H a s u l ((fix all (l : list dnode) : Forall P l := match l with [] => Forall_nil _ | x :: l' => Forall_cons _ (dnode_ind' x) (all l') end) l).
End DnodeInd.
Section DtreeInd.
  Variable P : dtree -> Prop.
  Hypothesis H : forall a s l, Forall P l -> P (DT a s l).
  Fixpoint dtree_ind' (n : dtree) : P n :=
    let 'DT a s l := n in H a s l ((fix all (l : list dtree) : Forall P l := match l with [] => Forall_nil _ | x :: l' => Forall_cons _ (dtree_ind' x) (all l') end) l).
End DtreeInd.

Fixpoint shape (n : dnode) : dtree := let 'DN a s _ l := n in DT a s (map shape l).
Fixpoint fresh (t : dtree) : dnode := let 'DT a s l := t in DN a s false (map fresh l).
Lemma shape_fresh t : shape (fresh t) = t.
Proof. induction t as [a s l IH] using dtree_ind'. cbn. f_equal. rewrite map_map. induction IH; cbn; congruence. Qed.
Lemma shapes_fresh l : map shape (map fresh l) = l.
Proof. rewrite map_map. induction l; cbn; [auto|]. now rewrite shape_fresh, IHl. Qed.

Lemma ordered_spec l : ordered l = Ok tt <-> in_order l.
Proof.
  induction l as [|a [|b l] IH]; try (cbn; split; auto; fail). cbn [ordered in_order]. unfold lt_addr in *. destruct (addr_cmp a b); try (split; [discriminate|intros [X _]; discriminate]).
  rewrite IH. split; [auto|intros [_ X]; auto].
Qed.
Lemma node_of_list l : (fix all (l : list dtree) : res (list dnode) :=
   match l with [] => Ok [] | x :: l' => let? n := node_of x in let? r := all l' in Ok (n :: r) end) l = nodes_of l.
Proof. induction l as [|x l IH]; cbn [nodes_of]; [auto|]. destruct (node_of x); cbn [rbind]; [now rewrite IH|auto]. Qed.
Lemma oe_nil : ordered_everywhere [].
Proof. intros [|n p] cs; cbn [below]; [intros [= <-]; exact I|]. destruct n; discriminate. Qed.
Lemma oe_spec l : ordered_everywhere l <-> in_order (map d_addr l) /\ Forall (fun t => ordered_everywhere (d_subs t)) l.
Proof.
  split.
  - intros O. split; [exact (O [] l eq_refl)|]. apply Forall_forall. intros t I path cs B. apply In_nth_error in I as [n N]. apply (O (n :: path)). cbn. now rewrite N.
  - intros [O F] [|n p] cs; cbn; [now intros [= <-]|]. destruct (nth_error l n) as [t|] eqn:N; [|discriminate]. rewrite Forall_forall in F. apply (F t). eapply nth_error_In; eauto.
Qed.
Lemma nodes_of_spec l : Forall (fun t => forall n, node_of t = Ok n <-> ordered_everywhere (d_subs t) /\ n = fresh t) l ->
  forall r, nodes_of l = Ok r <-> Forall (fun t => ordered_everywhere (d_subs t)) l /\ r = map fresh l.
Proof.
  induction 1 as [|t l T F IH]; intros r; cbn [nodes_of map].
  - split; [intros [= <-]; auto|intros [_ ->]; auto].
  - destruct (node_of t) as [n|e] eqn:N; cbn [rbind].
    + destruct (proj1 (T n) eq_refl) as [O ->]. destruct (nodes_of l) as [r'|e] eqn:NL; cbn [rbind].
      * destruct (proj1 (IH r') eq_refl) as [O' ->]. split; [intros [= <-]; auto|intros [_ ->]; auto].
      * split; [discriminate|]. intros [O' _]. inversion_clear O' as [|? ? _ O2]. pose proof (proj2 (IH (map fresh l)) (conj O2 eq_refl)). congruence.
    + split; [discriminate|]. intros [O' _]. inversion_clear O' as [|? ? O1 _]. pose proof (proj2 (T (fresh t)) (conj O1 eq_refl)). congruence.
Qed.
Lemma node_of_spec t : forall n, node_of t = Ok n <-> ordered_everywhere (d_subs t) /\ n = fresh t.
Proof.
  induction t as [a s l IH] using dtree_ind'. intros n. cbn [node_of d_subs fresh]. rewrite node_of_list.
  destruct (ordered (map d_addr l)) as [[]|e] eqn:O; cbn [rbind].
  - apply ordered_spec in O. destruct (nodes_of l) as [r|e] eqn:N; cbn [rbind].
    + apply (nodes_of_spec l IH) in N as [F ->]. rewrite oe_spec. split; [intros [= <-]; auto|intros [_ ->]; auto].
    + split; [discriminate|]. rewrite oe_spec. intros [[_ F] _]. pose proof (proj2 (nodes_of_spec l IH (map fresh l)) (conj F eq_refl)). congruence.
  - split; [discriminate|]. rewrite oe_spec. intros [[X _] _]. apply ordered_spec in X. congruence.
Qed.
Lemma root_of_spec l r : root_of l = Ok r <-> ordered_everywhere l /\ r = map fresh l.
Proof.
  unfold root_of. assert (F : Forall (fun t => forall n, node_of t = Ok n <-> ordered_everywhere (d_subs t) /\ n = fresh t) l) by (apply Forall_forall; intros; apply node_of_spec).
  destruct (ordered (map d_addr l)) as [[]|e] eqn:O; cbn [rbind].
  - apply ordered_spec in O. rewrite (nodes_of_spec l F), oe_spec. tauto.
  - split; [discriminate|]. rewrite oe_spec. intros [[X _] _]. apply ordered_spec in X. congruence.
Qed.

(* ---- flags *)
Fixpoint flag (l : list dnode) (path : list nat) : option bool :=
  match path with
  | [] => None
  | n :: path' =>
      match nth_error l n with
      | None => None
      | Some (DN _ _ u subs) => match path' with [] => Some u | _ => flag subs path' end
      end
  end.
Lemma flag_fresh path : forall l b, flag (map fresh l) path = Some b -> b = false.
Proof.
  induction path as [|n p IH]; cbn; [discriminate|]. intros l b. rewrite nth_error_map. destruct (nth_error l n) as [[a s subs]|]; cbn; [|discriminate].
  destruct p; [now intros [= <-]|apply IH].
Qed.
Lemma set_at_length {A} (l : list A) : forall n x, length (set_at l n x) = length l.
Proof. induction l as [|y l IH]; intros [|n] x; cbn; auto. Qed.
Lemma nth_set_at {A} (l : list A) : forall n x m, nth_error (set_at l n x) m = if Nat.eq_dec n m then match nth_error l n with Some _ => Some x | None => None end else nth_error l m.
Proof.
  induction l as [|y l IH]; intros n x m; cbn [set_at].
  - rewrite !nth_nil. now destruct (Nat.eq_dec n m).
  - destruct n as [|n], m as [|m]; try reflexivity. cbn [nth_error]. rewrite IH. destruct (Nat.eq_dec n m) as [E|E], (Nat.eq_dec (S n) (S m)) as [F|F]; auto; exfalso; lia.
Qed.
Lemma map_set_at {A B} (f : A -> B) (l : list A) : forall n x y, nth_error l n = Some y -> f x = f y -> map f (set_at l n x) = map f l.
Proof. induction l as [|z l IH]; intros [|n] x y; cbn; try discriminate. - intros [= ->] E. now rewrite E. - intros N E. now rewrite (IH n x y N E). Qed.

Fixpoint all_typed (l : list dtree) : Prop := match l with [] => True | x :: l' => typed_tree x /\ all_typed l' end.
Lemma typed_tree_spec t : typed_tree t <-> addr_typed (d_addr t) /\ all_typed (d_subs t).
Proof. destruct t as [a s l]. cbn. assert (X : forall l, (fix all (l : list dtree) : Prop := match l with [] => True | x :: l' => typed_tree x /\ all l' end) l <-> all_typed l) by (induction l0; cbn; [tauto|rewrite IHl0; tauto]). now rewrite X. Qed.
Lemma all_typed_forall l : all_typed l <-> Forall typed_tree l.
Proof. induction l; cbn; [split; auto|]. rewrite IHl. split; [intros []; auto|intros F; inversion_clear F; auto]. Qed.
Lemma all_typed_nth l n t : all_typed l -> nth_error l n = Some t -> typed_tree t.
Proof. rewrite all_typed_forall, Forall_forall. intros F N. apply F. eapply nth_error_In; eauto. Qed.
Lemma below_typed path : forall l cs, all_typed l -> below l path = Some cs -> all_typed cs.
Proof.
  induction path as [|n p IH]; cbn; [now intros l cs T [= <-]|]. intros l cs T. destruct (nth_error l n) as [t|] eqn:N; [|discriminate].
  apply IH. apply (all_typed_nth l n t T) in N. now apply typed_tree_spec in N.
Qed.

Lemma use_child_spec l : all_typed (map shape l) -> forall a i, addr_typed a ->
  match find_addr (map shape l) a i with
  | None => use_child l a i = Err e_deleg_input
  | Some (n, t) => exists k, n = (i + k)%nat /\ exists u, flag l [k] = Some u /\ nth_error (map shape l) k = Some t /\ d_addr t = a /\
      if u then use_child l a i = Err e_deleg_input
      else exists l', use_child l a i = Ok (l', n, d_sig t) /\ map shape l' = map shape l
           /\ forall q, flag l' q = if list_eq_dec Nat.eq_dec q [k] then Some true else flag l q
  end.
Proof.
  induction l as [|[x s u subs] l IH]; intros T a i TA; cbn [map find_addr use_child shape d_addr]; auto.
  cbn [map all_typed shape] in T. destruct T as [T1 T2]. apply typed_tree_spec in T1 as [T1 _]. cbn [d_addr] in T1.
  destruct (addr_dec x a) as [->|NE].
  - assert (addr_cmp a a = Eq) as -> by now apply addr_cmp_eq. exists O. rewrite Nat.add_0_r. split; auto. exists u. cbn [flag nth_error]. split; auto. split; auto. split; auto.
    destruct u; auto. exists (DN a s true subs :: l). split; auto. split; auto.
    intros [|[|q] q']; cbn [flag nth_error]; try (destruct (list_eq_dec _ _ _); [discriminate|auto]). destruct q'; destruct (list_eq_dec _ _ _) as [X|X]; auto; try discriminate X; congruence.
  - assert (NC : addr_cmp x a <> Eq) by (rewrite addr_cmp_eq; auto). specialize (IH T2 a (S i) TA). destruct (find_addr (map shape l) a (S i)) as [[n t]|].
    + destruct IH as (k & -> & v & F & N & DA & R). exists (S k). split; [lia|]. exists v. split; [exact F|]. split; [exact N|]. split; auto. destruct v.
      * rewrite R. destruct (addr_cmp x a); auto. congruence.
      * destruct R as (l' & -> & SH & FL). cbn [rbind]. exists (DN x s u subs :: l'). split; [destruct (addr_cmp x a); auto; congruence|]. split; [cbn; congruence|].
        intros [|[|q] q']; cbn [flag nth_error].
        -- destruct (list_eq_dec _ _ _); [discriminate|auto].
        -- destruct (list_eq_dec _ _ _); [discriminate|auto].
        -- specialize (FL (q :: q')). cbn [flag] in FL. rewrite FL. destruct (list_eq_dec Nat.eq_dec (q :: q') [k]) as [X|X], (list_eq_dec Nat.eq_dec (S q :: q') [S k]) as [Y|Y]; auto; exfalso; [apply Y|apply X]; congruence.
    + rewrite IH. destruct (addr_cmp x a); auto. congruence.
Qed.
Lemma use_at_spec path : forall l a, all_typed (map shape l) -> addr_typed a ->
  match below (map shape l) path with
  | None => use_at l path a = Err e_deleg_internal
  | Some cs =>
      match find_addr cs a 0 with
      | None => use_at l path a = Err e_deleg_input
      | Some (n, t) => exists u, flag l (path ++ [n]) = Some u /\ nth_error cs n = Some t /\ d_addr t = a /\
          if u then use_at l path a = Err e_deleg_input
          else exists l', use_at l path a = Ok (l', n, d_sig t) /\ map shape l' = map shape l
               /\ forall q, flag l' q = if list_eq_dec Nat.eq_dec q (path ++ [n]) then Some true else flag l q
      end
  end.
Proof.
  induction path as [|m p IH]; intros l a T TA; cbn [below use_at].
  - pose proof (use_child_spec l T a 0 TA) as U. destruct (find_addr (map shape l) a 0) as [[n t]|]; auto. destruct U as (k & -> & u & F & N & DA & R). exists u. cbn [app Nat.add]. auto.
  - rewrite nth_error_map. destruct (nth_error l m) as [[x s v subs]|] eqn:N; cbn [option_map shape d_subs]; auto.
    assert (T2 : all_typed (map shape subs)).
    { assert (NT : nth_error (map shape l) m = Some (DT x s (map shape subs))) by (rewrite nth_error_map, N; reflexivity).
      apply (all_typed_nth _ _ _ T) in NT. now apply typed_tree_spec in NT as [_ NT]. }
    specialize (IH subs a T2 TA). destruct (below (map shape subs) p) as [cs|]; [|now rewrite IH]. destruct (find_addr cs a 0) as [[n t]|]; [|now rewrite IH].
    destruct IH as (u & F & NC & DA & R). exists u. split.
    { cbn [flag app]. rewrite N. destruct (p ++ [n]) eqn:PN; auto. destruct p; discriminate. }
    split; auto. split; auto. destruct u; [now rewrite R|]. destruct R as (subs' & -> & SH & FL). cbn [rbind]. eexists. split; [reflexivity|]. split.
    + eapply map_set_at; eauto. cbn. now rewrite SH.
    + intros [|q q']; cbn [flag app].
      * destruct (list_eq_dec _ _ _); [discriminate|auto].
      * rewrite nth_set_at. destruct (Nat.eq_dec m q) as [<-|NE].
        -- rewrite N. destruct q' as [|q1 q2].
           ++ destruct (list_eq_dec Nat.eq_dec [m] (m :: p ++ [n])) as [X|X]; auto. injection X as X. destruct p; discriminate.
           ++ rewrite FL. destruct (list_eq_dec Nat.eq_dec (q1 :: q2) (p ++ [n])) as [X|X], (list_eq_dec Nat.eq_dec (m :: q1 :: q2) (m :: p ++ [n])) as [Y|Y]; auto; exfalso; [apply Y|apply X]; congruence.
        -- destruct (list_eq_dec Nat.eq_dec (q :: q') (m :: p ++ [n])) as [X|X]; [congruence|]. auto.
Qed.
Lemma signers_at_spec path : forall l,
  signers_at l path = match below (map shape l) path with Some cs => Ok (map d_addr cs) | None => Err e_deleg_internal end.
Proof.
  induction path as [|m p IH]; intros l; cbn [signers_at below].
  - f_equal. rewrite map_map. apply map_ext. now intros [a s u subs].
  - rewrite nth_error_map. destruct (nth_error l m) as [[x s v subs]|]; cbn [option_map shape d_subs]; auto.
Qed.

(* ---- rollbacks *)
Lemma roll_list l : forall sl, (fix zip (l : list dnode) (sl : list dsnap) : option (list dnode) :=
           match l, sl with
           | [], [] => Some []
           | x :: l', y :: sl' => match roll_node x y, zip l' sl' with Some x', Some r => Some (x' :: r) | _, _ => None end
           | _, _ => None
           end) l sl = roll_nodes l sl.
Proof. induction l as [|x l IH]; intros [|y sl]; cbn [roll_nodes]; auto. Qed.
Lemma roll_nodes_of l : Forall (fun n => forall n', shape n = shape n' -> roll_node n' (snap_node n) = Some n) l ->
  forall l', map shape l = map shape l' -> roll_nodes l' (map snap_node l) = Some l.
Proof. induction 1 as [|n l N F IH]; intros [|n' l'] E; try discriminate; cbn [map roll_nodes] in *; auto. injection E as E1 E2. now rewrite (N n' E1), (IH l' E2). Qed.
Lemma roll_node_of n : forall n', shape n = shape n' -> roll_node n' (snap_node n) = Some n.
Proof.
  induction n as [a s u l IH] using dnode_ind'. intros [a' s' u' l'] E. cbn [shape] in E. injection E as <- <- E. cbn [roll_node snap_node]. rewrite roll_list, (roll_nodes_of l IH l' E). reflexivity.
Qed.
Lemma roll_roots l l' : map shape l = map shape l' -> roll_nodes l' (map snap_node l) = Some l.
Proof. apply roll_nodes_of. apply Forall_forall. intros n _. apply roll_node_of. Qed.

Definition same_static (t t' : track) : Prop :=
  tk_addr t' = tk_addr t /\ tk_source t' = tk_source t /\ tk_sig t' = tk_sig t /\ tk_payload t' = tk_payload t /\ tk_ctx t' = tk_ctx t
  /\ option_map (map shape) (tk_root t') = option_map (map shape) (tk_root t) /\ tk_busy t' = tk_busy t
  /\ (tk_root t = None -> tk_match t' = tk_match t).
Lemma ss_refl t : same_static t t. Proof. unfold same_static. intuition. Qed.
Lemma ss_trans a b c : same_static a b -> same_static b c -> same_static a c.
Proof.
  intros (A1 & A2 & A3 & A4 & A5 & A6 & A7 & A8) (B1 & B2 & B3 & B4 & B5 & B6 & B7 & B8). unfold same_static.
  repeat split; try congruence. intros N. rewrite B8, A8; auto. rewrite N in A6. destruct (tk_root b); [discriminate|auto].
Qed.
Lemma roll_track_of t t' : same_static t t' -> roll_track t' (snap_track t) = Some (if tk_busy t then t' else t).
Proof.
  intros (A1 & A2 & A3 & A4 & A5 & A6 & A7 & A8). unfold snap_track. destruct (tk_busy t) eqn:B; [reflexivity|]. cbn [roll_track]. rewrite A7.
  destruct t as [a so sg pl cx root m ve bu], t' as [a' so' sg' pl' cx' root' m' ve' bu']. cbn in *. subst. destruct root as [l|], root' as [l'|]; try discriminate; cbn.
  - injection A6 as A6. now rewrite (roll_roots l l').
  - now rewrite A8.
Qed.
Lemma roll_tracks_of l l' : Forall2 same_static l l' ->
  exists l2, roll_tracks l' (map snap_track l) = Some l2 /\ Forall2 same_static l l2
    /\ forall i t, nth_error l i = Some t -> nth_error l2 i = (if tk_busy t then nth_error l' i else Some t).
Proof.
  induction 1 as [|t t' l l' S F IH].
  - exists []. split; auto. split; auto. intros i t. rewrite nth_nil. discriminate.
  - destruct IH as (l2 & R & S2 & N). cbn [roll_tracks map]. rewrite (roll_track_of t t' S), R. eexists. split; [reflexivity|]. split.
    + constructor; auto. destruct (tk_busy t); auto using ss_refl.
    + intros [|i] u U; cbn in *; [injection U as <-; destruct (tk_busy t); auto|auto].
Qed.
