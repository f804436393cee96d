(* An enforcing run with the recorded entries follows the recording. *)
From Coq Require Import ZArith Lia List Bool.
From Verif Require Import Prelude ValModel ContainerModel HeapModel AMap StorageModel StorageSpec
  StorageProofs StorageProofs2 StorageLogic StorageProofs3 FrameModel FrameSpec FrameProofs FrameStore FrameProofs2
  AuthModel AuthSpec AuthProofs AuthProofs2 AuthProofs3 AuthRecModel AuthRecSpec AuthRecProofs AuthRecProofs2 AuthRecProofs3.
Import ListNotations.
Open Scope Z_scope.

(* ---------------------------------------------------------------- trackers *)

Lemma erase_node n m p x : erase n = erase m -> node_at n p = Some x -> exists y, node_at m p = Some y /\ erase y = erase x.
Proof.
  intros E N. pose proof (node_at_tree n p) as A. pose proof (node_at_tree m p) as B. rewrite E, N in A. rewrite A in B.
  destruct (node_at m p) as [y|]; [|discriminate]. cbn in B. injection B as B. eauto.
Qed.
Lemma erase_fn n m : erase n = erase m -> n_fn n = n_fn m.
Proof. destruct n, m. cbn. intros [= -> _]. reflexivity. Qed.

Definition quiet_ms (ms : list mstate) : Prop := existsb is_matched ms = false.
Lemma extend_idle t f al : tk_ms t <> [] -> (frame_matched t = true \/ in_stack t = false) ->
  n_used (tk_root t) = true \/ al = false \/ n_fn (tk_root t) <> f -> maybe_extend t f al = Ok None.
Proof.
  intros N Q H. unfold maybe_extend. destruct (tk_ms t) as [|m rest] eqn:MS; [contradiction|].
  destruct (is_matched m) eqn:IM; auto. destruct Q as [Q|Q]; [unfold frame_matched in Q; rewrite MS in Q; congruence|].
  unfold in_stack in Q. rewrite MS in Q. rewrite last_none by (rewrite existsb_rev; exact Q).
  destruct H as [->|[->|H]]; cbn; auto; rewrite ?andb_false_r; auto.
  destruct (afn_eq_dec _ _); [contradiction|]. now rewrite andb_false_r.
Qed.
Lemma extend_root t f m r : tk_ms t = m :: r -> in_stack t = false -> n_used (tk_root t) = false -> n_fn (tk_root t) = f ->
  maybe_extend t f true = Ok (Some ({| tk_root := mark (tk_root t) []; tk_ms := RootMatch :: r; tk_rxf := Some (length r); tk_done := tk_done t |}, [])).
Proof.
  intros MS Q U F. unfold maybe_extend. rewrite MS. unfold in_stack in Q. rewrite MS in Q.
  assert (is_matched m = false) as -> by (cbn in Q; now destruct (is_matched m)).
  rewrite last_none by (rewrite existsb_rev; exact Q). rewrite U. cbn. destruct (afn_eq_dec _ _); [reflexivity|contradiction].
Qed.
Lemma try_accounts_at l a f al : forall i k x t p, nth_error l i = Some x -> ac_busy x = false -> ac_addr x = a ->
  maybe_extend (ac_trk x) f al = Ok (Some (t, p)) ->
  (forall j z, (j < i)%nat -> nth_error l j = Some z -> ac_addr z = a -> maybe_extend (ac_trk z) f al = Ok None) ->
  try_accounts l a f al k = Ok (Some ((k + i)%nat, set_trk x t, p)).
Proof.
  induction l as [|y l IH]; intros i k x t p N B A M H; [destruct i; discriminate|]. cbn. destruct i as [|i].
  - injection N as ->. rewrite B. destruct (addr_eq_dec (ac_addr x) a); [|contradiction]. rewrite M. now rewrite Nat.add_0_r.
  - replace (k + S i)%nat with (S k + i)%nat by lia.
    assert (R : try_accounts l a f al (S k) = Ok (Some ((S k + i)%nat, set_trk x t, p))).
    { eapply IH; eauto. intros j z L. apply (H (S j)). lia. }
    destruct (ac_busy y); auto. destruct (addr_eq_dec (ac_addr y) a) as [E|]; auto.
    now rewrite (H 0%nat y ltac:(lia) eq_refl E).
Qed.

Lemma set_acc_length l : forall k (v : acct), length (set_nth_acc l k v) = length l.
Proof. induction l as [|x l IH]; intros [|k] v; cbn; auto. f_equal. apply IH. Qed.
Lemma set_acc_twice l : forall k (v w : acct), set_nth_acc (set_nth_acc l k v) k w = set_nth_acc l k w.
Proof. induction l as [|x l IH]; intros [|k] v w; cbn; auto. f_equal. apply IH. Qed.
Lemma set_acc_same l : forall k (v : acct), nth_error l k = Some v -> set_nth_acc l k v = l.
Proof. induction l as [|x l IH]; intros [|k] v; cbn; try discriminate; [intros [= ->]; auto|intros N; f_equal; apply IH; auto]. Qed.

(* ---------------------------------------------------------------- frames *)

Definition pp_ok (t : tracker) : Prop := forall i, tk_rxf t = Some i -> tk_done t = false -> (i < length (tk_ms t))%nat.
Lemma pp_inv t : trk_inv t -> pp_ok t.
Proof. intros [W I] i R D. rewrite R, D in I. destruct I as [_ I]. now apply rootpos_lt. Qed.
Lemma pp_pop t : pp_ok t -> trk_pop (trk_push t) = t.
Proof.
  intros H. destruct t as [rt ms rx dn]. unfold trk_pop, pp_ok in *. cbn in *. f_equal. destruct rx as [i|]; auto.
  destruct dn; [now destruct (Nat.leb _ _)|]. specialize (H i eq_refl eq_refl). destruct (Nat.leb_spec (length ms) i); [lia|auto].
Qed.
Lemma pp_acct x : pp_ok (ac_trk x) -> pop_acct (push_acct x) = x.
Proof.
  intros H. unfold pop_acct, push_acct. destruct (ac_busy x) eqn:B; rewrite ?B; auto. cbn. rewrite B, pp_pop by auto.
  now destruct x.
Qed.
Lemma pp_invk v : pp_ok (iv_trk v) -> pop_inv (push_inv v) = v.
Proof. intros H. unfold pop_inv, push_inv. cbn. rewrite pp_pop by auto. now destruct v. Qed.
Lemma map_id' {A} (f : A -> A) l : (forall x, In x l -> f x = x) -> map f l = l.
Proof. intros H. induction l; cbn; auto. rewrite H, IHl; auto; [intros; apply H|]; cbn; auto. Qed.
Lemma drop_ne l : Forall ne l -> drop_scoped l = l.
Proof. intros H. rewrite <- (app_nil_r l) at 1. now apply drop_split. Qed.
Lemma drop_is_ne l : scoped l -> Forall ne (drop_scoped l).
Proof. intros (A & B & -> & HA & HB). now rewrite drop_split. Qed.

Definition view (st : astate) : list (addr * list mstate) := map (fun x => (ac_addr x, tk_ms (ac_trk x))) (as_acc st).
(* at most one entry of an address is in use *)
Definition uniq (v : list (addr * list mstate)) : Prop := forall i j a m m',
  nth_error v i = Some (a, m) -> nth_error v j = Some (a, m') -> existsb is_matched m = true -> existsb is_matched m' = true -> i = j.
(* who has authorized the current call *)
Definition heads (v : list (addr * list mstate)) (A : list addr) : Prop := forall i a m r,
  nth_error v i = Some (a, m :: r) -> is_matched m = true -> In a A.
Definition idle_inv (b : bool) (l : list invk) : Prop := b = false -> Forall ne l.

Section Sim.
  Variable c : sconf.
  Hypothesis LI : li_ok (sc_li c).
  Notation li := (sc_li c).
  Variable source : option addr.
  Variable name : nat -> addr -> Z.
  Hypothesis NAME : forall n m a b, name n a = name m b -> a = b.
  Variable nonces : nat -> Z.
  Variable root_only : bool.
  Variable ents : list entry_.
  Hypothesis CREDS : forall e n exp, In e ents -> en_cred e = Some (n, exp) ->
    (exists mx, get_max_live_until li = Ok mx /\ li_seq li <= exp <= mx)
    /\ match en_addr e with AAccount _ | AContract _ => True | _ => False end.
  Notation ainv := (ainv c).
  Notation wk := (wk c).
  Notation rexec := (rexec c source name nonces root_only).
  Notation acc r := (as_acc (rc_st r)).

  Definition started (y x : acct) : Prop :=
    ac_addr y = ac_addr x /\ ac_busy y = false /\ ac_verified x = true
    /\ tk_ms (ac_trk y) = tk_ms (ac_trk x) /\ tk_rxf (ac_trk y) = tk_rxf (ac_trk x) /\ tk_done (ac_trk y) = tk_done (ac_trk x)
    /\ forall p, flag (tk_root (ac_trk x)) p = true <-> node_at (tk_root (ac_trk y)) p <> None.
  Definition waiting (len : nat) (e : entry_) (x : acct) : Prop :=
    ac_verified x = false
    /\ ac_trk x = {| tk_root := fresh (en_tree e); tk_ms := repeat Unmatched len; tk_rxf := None; tk_done := false |}.
  Definition follows (len : nat) (oy : option acct) (e : entry_) (x : acct) : Prop :=
    ac_addr x = en_addr e /\ ac_cred x = en_cred e /\ ac_busy x = false /\ erase (tk_root (ac_trk x)) = en_tree e
    /\ length (tk_ms (ac_trk x)) = len
    /\ match oy with Some y => started y x | None => waiting len e x end.
  Record core (R : rstate) (E : astate) : Prop := {
    co_stack : as_stack (rc_st R) = as_stack E;
    co_inv : as_inv (rc_st R) = as_inv E;
    co_store : nsim c (as_store (rc_st R)) (as_store E);
    co_ainv : ainv E;
    co_len : length (as_acc E) = length ents;
    co_acc : forall i e x, nth_error ents i = Some e -> nth_error (as_acc E) i = Some x ->
      follows (length (as_stack E)) (nth_error (acc R) i) e x;
    co_by : forall h i, In (h, i) (rc_by R) -> exists y n, nth_error (acc R) i = Some y /\ h = name n (ac_addr y)
  }.
  Definition below (l : list acct) : Prop := forall i y, nth_error l i = Some y ->
    exists e, nth_error ents i = Some e /\ en_addr e = ac_addr y /\ option_map fst (en_cred e) = option_map fst (ac_cred y)
      /\ sub_of (tk_root (ac_trk y)) (fresh (en_tree e)).
  Lemma below_grow l l' : grow l l' -> below l' -> below l.
  Proof.
    intros G B i y N. destruct (G i y N) as (z & Z & G1 & G2 & G3). destruct (B i z Z) as (e & E1 & E2 & E3 & E4).
    exists e. split; auto. split; [congruence|]. split; [congruence|]. eapply sub_trans; eauto.
  Qed.
  Lemma below_trees l l' : trees l = trees l' -> below l' -> below l.
  Proof. intros T. apply below_grow, trees_grow. auto. Qed.

  Lemma core_x R E i e : core R E -> nth_error ents i = Some e -> exists x, nth_error (as_acc E) i = Some x /\ follows (length (as_stack E)) (nth_error (acc R) i) e x.
  Proof.
    intros C N. destruct (nth_error (as_acc E) i) as [x|] eqn:X.
    - exists x. split; auto. eapply co_acc; eauto.
    - apply nth_error_None in X. rewrite (co_len _ _ C) in X. apply nth_error_None in X. congruence.
  Qed.
  Lemma core_e R E i x : core R E -> nth_error (as_acc E) i = Some x -> exists e, nth_error ents i = Some e /\ follows (length (as_stack E)) (nth_error (acc R) i) e x.
  Proof.
    intros C N. destruct (nth_error ents i) as [e|] eqn:X.
    - exists e. split; auto. eapply co_acc; eauto.
    - apply nth_error_None in X. rewrite <- (co_len _ _ C) in X. apply nth_error_None in X. congruence.
  Qed.
  Lemma core_trk R E i x : core R E -> nth_error (as_acc E) i = Some x -> trk_inv (ac_trk x).
  Proof. intros C N. destruct (co_ainv _ _ C) as (_ & _ & H & _). rewrite Forall_nth' in H. eauto. Qed.

  (* ---- frames *)
  Lemma core_push f R E : core R E -> core (rpush f R) (push_frame f E).
  Proof.
    intros C. constructor; cbn.
    - now rewrite (co_stack _ _ C).
    - now rewrite (co_inv _ _ C).
    - apply C.
    - apply ainv_push, C.
    - rewrite map_length. apply C.
    - intros i e x Ne. rewrite !nth_error_map. destruct (nth_error (as_acc E) i) as [z|] eqn:Nz; [|discriminate]. intros [= <-].
      pose proof (co_acc _ _ C i e z Ne Nz) as (A1 & A2 & A3 & A4 & A5 & A6). 
      replace (push_acct z) with (set_trk z (trk_push (ac_trk z))) by (unfold push_acct; now rewrite A3).
      unfold follows. cbn. repeat (split; [auto; congruence|]). destruct (nth_error (acc R) i) as [y|]; cbn.
      + destruct A6 as (B1 & B2 & B3 & B4 & B5 & B6 & B7). unfold push_acct. rewrite B2. unfold started. cbn.
        repeat (split; [auto; congruence|]). exact B7.
      + destruct A6 as (B1 & B2). split; auto. rewrite B2. reflexivity.
    - intros h i I. destruct (co_by _ _ C h i I) as (y & n & N & H). rewrite nth_error_map, N. cbn. do 2 eexists. split; [reflexivity|].
      rewrite H. f_equal. unfold push_acct. now destruct (ac_busy y).
  Qed.
  Lemma core_pop fr rest R E : core R E -> as_stack E = fr :: rest -> ainv (pop_frame E) -> core (rpop R) (pop_frame E).
  Proof.
    intros C SK AI. constructor; auto; unfold rpop; cbn [on_st rc_st rc_by]; unfold pop_frame; rewrite ?(co_stack _ _ C), ?SK; cbn; auto.
    - now rewrite (co_inv _ _ C).
    - apply C.
    - rewrite map_length. apply C.
    - intros i e x Ne. rewrite !nth_error_map. destruct (nth_error (as_acc E) i) as [z|] eqn:Nz; [|discriminate]. intros [= <-].
      pose proof (co_acc _ _ C i e z Ne Nz) as (A1 & A2 & A3 & A4 & A5 & A6). 
      replace (pop_acct z) with (set_trk z (trk_pop (ac_trk z))) by (unfold pop_acct; now rewrite A3). rewrite SK in *. cbn in A5.
      unfold follows. cbn. repeat (split; [auto; congruence|]).
      split; [destruct (tk_ms (ac_trk z)); cbn in *; lia|]. destruct (nth_error (acc R) i) as [y|]; cbn.
      + destruct A6 as (B1 & B2 & B3 & B4 & B5 & B6 & B7). unfold pop_acct. rewrite B2. unfold started. cbn. rewrite B4, B5, B6.
        repeat (split; [auto; congruence|]). exact B7.
      + destruct A6 as (B1 & B2). split; auto. rewrite B2. reflexivity.
    - intros h i I. destruct (co_by _ _ C h i I) as (y & n & N & H). rewrite nth_error_map, N. cbn. do 2 eexists. split; [reflexivity|].
      rewrite H. f_equal. unfold pop_acct. now destruct (ac_busy y).
  Qed.
  Lemma pp_rec R E : core R E -> map pop_acct (map push_acct (acc R)) = acc R \/ exists i, nth_error (acc R) i <> None /\ nth_error ents i = None.
  Proof.
    intros C. destruct (Nat.leb_spec (length (acc R)) (length ents)) as [L|L].
    - left. rewrite map_map. apply map_id'. intros y I. apply In_nth_error in I as [i N]. apply pp_acct.
      assert (LT : (i < length (acc R))%nat) by (apply nth_error_Some; congruence).
      destruct (nth_error ents i) as [e|] eqn:Ne; [|apply nth_error_None in Ne; lia].
      destruct (core_x _ _ _ _ C Ne) as (x & Nx & _ & _ & _ & _ & _ & F). rewrite N in F. destruct F as (_ & _ & _ & F4 & F5 & F6 & _).
      pose proof (pp_inv _ (core_trk _ _ _ _ C Nx)) as P. intros j. rewrite F4, F5, F6. apply P.
    - right. exists (length ents). split; [apply nth_error_Some; auto|]. apply nth_error_None. lia.
  Qed.

  Lemma view_push f st : Forall (fun x => ac_busy x = false) (as_acc st) -> view (push_frame f st) = map (fun q => (fst q, Unmatched :: snd q)) (view st).
  Proof.
    intros H. unfold view. cbn. rewrite !map_map. apply map_ext_in. intros x I. rewrite Forall_forall in H. unfold push_acct. now rewrite (H x I).
  Qed.
  Lemma core_nobusy R E : core R E -> Forall (fun x => ac_busy x = false) (as_acc E).
  Proof. intros C. apply Forall_nth'. intros i x N. destruct (core_e _ _ _ _ C N) as (e & _ & _ & _ & B & _). exact B. Qed.
  Lemma uniq_push v : uniq v -> uniq (map (fun q => (fst q, Unmatched :: snd q)) v).
  Proof.
    intros U i j a m m'. rewrite !nth_error_map. destruct (nth_error v i) as [[a1 m1]|] eqn:N1; [|discriminate].
    destruct (nth_error v j) as [[a2 m2]|] eqn:N2; [|discriminate]. cbn. intros [= -> <-] [= -> <-]. cbn. eapply U; eauto.
  Qed.
  Lemma heads_push v : heads (map (fun q => (fst q, Unmatched :: snd q)) v) [].
  Proof. intros i a m r. rewrite nth_error_map. destruct (nth_error v i) as [[a1 m1]|]; [|discriminate]. cbn. intros [= <- <- <-]. discriminate. Qed.
  Lemma view_pop f st st2 : Forall (fun x => ac_busy x = false) (as_acc st) -> wk (push_frame f st) st2 -> view (pop_frame st2) = view st.
  Proof.
    intros NB (K1 & K2 & _). unfold view, pop_frame. rewrite K1. cbn [push_frame as_stack as_acc] in *. cbn.
    revert NB K2. generalize (as_acc st2). induction (as_acc st) as [|a l IH]; intros l2 NB W; inversion W as [|? ? ? ? WA WR]; subst; cbn; auto.
    inversion NB as [|? ? BA NR]; subst. f_equal; auto. unfold push_acct in WA. rewrite BA in WA.
    destruct WA as (W1 & _ & W3 & _ & W5). cbn in W1, W3, W5. destruct (W5 BA) as [W6 _]. destruct (ext_push_ms _ _ W6) as [W7 _].
    unfold pop_acct. rewrite W3, BA. cbn. now rewrite W1, W7.
  Qed.
  Lemma ne_pop f st st2 : ainv st -> wk (push_frame f st) st2 -> Forall ne (as_inv (pop_frame st2)).
  Proof.
    intros (_ & _ & _ & _ & SC) (K1 & _ & K3 & _). destruct (pop_shape f st st2 SC K3) as (A0 & B0 & A1 & B1 & _ & _ & _ & E2 & _ & NA & NB).
    unfold pop_frame. rewrite K1. cbn. rewrite E2, map_app, drop_split; auto.
  Qed.
  Lemma pop_push_frame f st : ainv st -> Forall ne (as_inv st) -> pop_frame (push_frame f st) = st.
  Proof.
    intros (_ & _ & A & V & _) N. unfold pop_frame. cbn. rewrite !map_map.
    rewrite (map_id' (fun x => pop_acct (push_acct x))), (map_id' (fun x => pop_inv (push_inv x))).
    - rewrite drop_ne by auto. now destruct st.
    - intros v I. apply pp_invk, pp_inv. rewrite Forall_forall in V. auto.
    - intros x I. apply pp_acct, pp_inv. rewrite Forall_forall in A. auto.
  Qed.

  (* ---- contracts' own authorizations *)
  Lemma check_invoker_sim st st' a f : as_stack st = as_stack st' -> as_inv st = as_inv st' ->
    check_invoker st' a f = match check_invoker st a f with
                            | Err e => Err e
                            | Ok None => Ok None
                            | Ok (Some (s1, m)) => Ok (Some (with_inv st' (as_inv s1), m))
                            end.
  Proof.
    intros S V. unfold check_invoker, cur_contract. rewrite <- S, <- V. destruct (as_stack st) as [|x [|g l]]; auto.
    match goal with |- context [if ?b then _ else _] => destruct b end; [rewrite V; now destruct st'|].
    destruct (try_invokers _ _ _ _ _) as [[[[j v] q]|]|]; auto.
  Qed.
  Lemma check_invoker_keeps st a f s1 m : check_invoker st a f = Ok (Some (s1, m)) ->
    as_stack s1 = as_stack st /\ as_store s1 = as_store st /\ as_acc s1 = as_acc st /\ (Forall ne (as_inv st) -> Forall ne (as_inv s1)).
  Proof.
    unfold check_invoker. destruct (as_stack st) as [|x [|g l]] eqn:SK; try discriminate.
    match goal with |- context [if ?b then _ else _] => destruct b end; [intros [= <- _]; auto|].
    destruct (try_invokers _ _ _ _ _) as [[[[j v] q]|]|] eqn:TI; try discriminate. intros [= <- _]. cbn. repeat split; auto.
    intros F. destruct (try_invokers_spec _ _ _ _ _ _ _ _ TI) as (v0 & _ & _ & _ & _ & _ & ME).
    destruct (extend_spec _ _ _ _ _ ME) as (m0 & rest & y & _ & _ & _ & _ & _ & _ & _ & MS).
    apply Forall_nth'. intros k w. rewrite nth_set_inv. rewrite Forall_nth' in F. destruct (Nat.eq_dec k j) as [->|]; [|apply F].
    destruct (nth_error (as_inv st) j); cbn; [|discriminate]. intros [= <-]. unfold ne.
    destruct MS as [(_ & _ & _ & -> & _)|(? & ? & _ & _ & -> & _)]; discriminate.
  Qed.

  (* ---- an entry in use *)
  Lemma sub_entry n e x p z : erase (tk_root (ac_trk x)) = en_tree e -> sub_of n (fresh (en_tree e)) -> node_at n p = Some z ->
    exists w, node_at (tk_root (ac_trk x)) p = Some w /\ n_fn w = n_fn z.
  Proof.
    intros ER SB N. destruct (SB p z N) as (w & W1 & W2).
    destruct (erase_node (fresh (en_tree e)) (tk_root (ac_trk x)) p w) as (v & V1 & V2); auto; [rewrite erase_fresh; auto|].
    exists v. split; auto. apply erase_fn in V2. congruence.
  Qed.
  Lemma extend_started y x e f t : started y x -> erase (tk_root (ac_trk x)) = en_tree e -> tk_ms (ac_trk x) <> [] ->
    record_in (ac_trk y) f = Ok t -> sub_of (tk_root t) (fresh (en_tree e)) ->
    exists t' p, maybe_extend (ac_trk x) f false = Ok (Some (t', p)) /\ started (set_trk y t) (set_trk x t')
      /\ erase (tk_root t') = en_tree e /\ length (tk_ms t') = length (tk_ms (ac_trk x)).
  Proof.
    intros (B1 & B2 & B3 & B4 & B5 & B6 & B7) ER NE RI SB. destruct (record_in_spec _ _ _ RI) as (FM & n & p & LA & RT & MS & RX & DN).
    assert (SUB : forall q, node_at (tk_root (ac_trk y)) q <> None -> node_at (tk_root (ac_trk x)) q <> None).
    { intros q Q. apply B7 in Q. unfold flag in Q. destruct (node_at (tk_root (ac_trk x)) q); [discriminate|discriminate]. }
    destruct (last_sub _ _ _ _ _ SUB LA) as (m & LM). rewrite B4 in LM.
    pose proof (last_near _ _ _ LA) as [_ NY]. pose proof (last_near _ _ _ LM) as [_ NX]. set (k := length (n_subs n)) in *.
    assert (NEW : node_at (tk_root t) (p ++ [k]) = Some (Node f true [])) by (rewrite RT; now apply graft_new).
    destruct (sub_entry _ _ _ _ _ ER SB NEW) as (w & W1 & W2).
    assert (UN : n_used w = false).
    { destruct (n_used w) eqn:U; auto. assert (F : flag (tk_root (ac_trk x)) (p ++ [k]) = true) by (unfold flag; now rewrite W1).
      apply B7 in F. rewrite (node_at_subs _ _ _ NY) in F. exfalso. apply F. apply nth_error_None. unfold k. lia. }
    assert (FS : find_sub (n_subs m) f 0 = Some (0 + k)%nat).
    { apply (find_sub_first _ _ _ _ w).
      - intros j L. assert (F : node_at (tk_root (ac_trk y)) (p ++ [j]) <> None).
        { rewrite (node_at_subs _ _ _ NY). apply nth_error_Some. exact L. }
        apply B7 in F. unfold flag in F. rewrite (node_at_subs _ _ _ NX) in F. destruct (nth_error (n_subs m) j) as [z|]; [eauto|discriminate].
      - now rewrite <- (node_at_subs _ _ _ NX).
      - exact UN.
      - rewrite W2. reflexivity. }
    cbn [Nat.add] in FS. destruct (tk_ms (ac_trk x)) as [|m0 r0] eqn:MX; [contradiction|].
    do 2 eexists. split; [|split; [|split]].
    - unfold maybe_extend. rewrite MX. assert (IM : is_matched m0 = false).
      { unfold frame_matched in FM. now rewrite B4 in FM. }
      rewrite IM, LM, FS. reflexivity.
    - unfold started. cbn. rewrite MS, B4, RX, DN. repeat (split; [auto; congruence|]). intros q. rewrite RT. split.
      + intros F. apply flag_mark in F as [F|[-> _]].
        * apply B7 in F. destruct (node_at (tk_root (ac_trk y)) q) as [z|] eqn:Z; [|congruence].
          destruct (graft_sub _ p (Node f true []) _ _ Z) as (z' & -> & _). discriminate.
        * rewrite <- RT, NEW. discriminate.
      + intros F. apply (graft_inv _ _ _ n) in F as [F| ->]; auto.
        * apply flag_mark_mono. now apply B7.
        * apply flag_mark_self. fold k. rewrite W1. discriminate.
    - cbn. rewrite erase_mark. exact ER.
    - reflexivity.
  Qed.

  Lemma waiting_quiet len e x : waiting len e x -> in_stack (ac_trk x) = false /\ n_used (tk_root (ac_trk x)) = false.
  Proof.
    intros [_ ->]. unfold in_stack. cbn. split; [|destruct (en_tree e); reflexivity]. now induction len.
  Qed.
  Lemma view_nth st i x : nth_error (as_acc st) i = Some x -> nth_error (view st) i = Some (ac_addr x, tk_ms (ac_trk x)).
  Proof. intros N. unfold view. now rewrite nth_error_map, N. Qed.
  Lemma view_inv st i a m : nth_error (view st) i = Some (a, m) -> exists x, nth_error (as_acc st) i = Some x /\ ac_addr x = a /\ tk_ms (ac_trk x) = m.
  Proof. unfold view. rewrite nth_error_map. destruct (nth_error (as_acc st) i) as [x|]; [|discriminate]. cbn. intros [= <- <-]. eauto. Qed.

  (* what an authorization leaves in the enforcing run *)
  Lemma sim_old R E R' A a f fr rest sig check args b :
    core R E -> uniq (view E) -> heads (view E) A -> as_stack E = fr :: rest -> f = to_fn fr args ->
    check_invoker E a f = Ok None -> recorded c source name R R' a f (Recorded false) -> below (acc R') -> idle_inv b (as_inv E) ->
    exists E' t', require c E a args sig check = (E', Ok tt, t') /\ (ainv E' -> core R' E') /\ uniq (view E') /\ heads (view E') (a :: A)
      /\ as_inv E' = as_inv E.
  Proof.
    intros C U M SK FE CI (RS & RV & [(i & y & t & _ & NY & IS & RI & WHO & RA & RST & RB)|(cred & X & _)]) BL PN; [|discriminate].
    assert (AY : ac_addr y = a).
    { destruct WHO as [W|(n & W)]; auto. destruct (co_by _ _ C _ _ W) as (y' & n' & N' & H). apply NAME in H. congruence. }
    assert (NY' : nth_error (acc R') i = Some (set_trk y t)) by (rewrite RA, nth_set_acc; destruct (Nat.eq_dec i i); [now rewrite NY|congruence]).
    destruct (BL _ _ NY') as (e & NE & E1 & E2 & E3). cbn in E1, E2, E3.
    destruct (core_x _ _ _ _ C NE) as (x & NX & F1 & F2 & F3 & F4 & F5 & F6). rewrite NY in F6.
    assert (NM : tk_ms (ac_trk x) <> []) by (rewrite SK in F5; destruct (tk_ms (ac_trk x)); [discriminate|discriminate]).
    destruct (extend_started _ _ _ _ _ F6 F4 NM RI E3) as (t' & p & ME & ST & ER & LN).
    destruct F6 as (B1 & B2 & B3 & B4 & B5 & B6 & B7).
    assert (ISX : in_stack (ac_trk x) = true) by (unfold in_stack in *; now rewrite <- B4).
    destruct (record_in_spec _ _ _ RI) as (FM & _).
    assert (FMX : frame_matched (ac_trk x) = false) by (unfold frame_matched in *; now rewrite <- B4).
    destruct (in_stack_rootpos _ (core_trk _ _ _ _ C NX) ISX) as (_ & DX & UX).
    assert (HA : has_active (as_acc E) a = true).
    { unfold has_active. apply existsb_exists. exists x. split; [eapply nth_error_In; eauto|]. rewrite F3, FMX.
      destruct (addr_eq_dec (ac_addr x) a); [|congruence]. unfold is_active. now rewrite UX, DX. }
    assert (TA : try_accounts (as_acc E) a f false 0 = Ok (Some ((0 + i)%nat, set_trk x t', p))).
    { apply try_accounts_at; auto; [congruence|]. intros j z L NZ AZ. destruct (core_e _ _ _ _ C NZ) as (e' & _ & _ & _ & _ & _ & LZ & _).
      apply extend_idle; auto.
      - intros X. rewrite X, SK in LZ. discriminate.
      - right. destruct (in_stack (ac_trk z)) eqn:IZ; auto. exfalso.
        assert (j = i); [|lia]. apply (U j i a (tk_ms (ac_trk z)) (tk_ms (ac_trk x))); auto.
        + rewrite <- AZ. now apply view_nth.
        + rewrite (view_nth _ _ _ NX). congruence. }
    cbn [Nat.add] in TA. set (E' := with_acc E (set_nth_acc (as_acc E) i (set_trk x t'))).
    assert (NTH : forall j z', nth_error (as_acc E') j = Some z' -> (j = i /\ z' = set_trk x t') \/ (j <> i /\ nth_error (as_acc E) j = Some z')).
    { intros j z'. unfold E'. cbn. rewrite nth_set_acc. destruct (Nat.eq_dec j i) as [->|]; [|auto]. rewrite NX. intros [= <-]. auto. }
    exists E'. eexists. split; [|split; [|split; [|split]]].
    - unfold require. rewrite SK. cbv zeta. rewrite <- FE, CI, HA. cbn [negb]. rewrite TA. cbn. rewrite B3. reflexivity.
    - intros AI. constructor; auto.
      + rewrite RS. apply C.
      + rewrite RV. apply C.
      + rewrite RST. apply C.
      + unfold E'. cbn. rewrite <- (co_len _ _ C). apply set_acc_length.
      + intros j e' z' NJ NZ. destruct (NTH _ _ NZ) as [[-> ->]|[NJI NZ']].
        * rewrite NY'. assert (e' = e) as -> by congruence. unfold follows. cbn [ac_addr ac_cred ac_busy ac_trk set_trk].
          repeat (split; [auto; congruence|]). split; [cbn; congruence|]. exact ST.
        * rewrite RA, nth_set_acc. destruct (Nat.eq_dec j i); [contradiction|]. exact (co_acc _ _ C j e' z' NJ NZ').
      + intros h j I. destruct (co_by _ _ C _ _ (RB _ I)) as (y' & n & N' & H). rewrite RA, nth_set_acc.
        destruct (Nat.eq_dec j i) as [->|]; [|eauto]. rewrite N'. cbn. assert (y' = y) as -> by congruence. eauto.
    - intros j1 j2 a0 m1 m2 V1 V2 X1 X2. apply view_inv in V1 as (z1 & Z1 & W1 & <-). apply view_inv in V2 as (z2 & Z2 & W2 & <-).
      assert (OLD : forall j z, nth_error (as_acc E') j = Some z -> existsb is_matched (tk_ms (ac_trk z)) = true ->
        exists m, nth_error (view E) j = Some (ac_addr z, m) /\ existsb is_matched m = true).
      { intros j z NZ IZ. destruct (NTH _ _ NZ) as [[-> ->]|[_ NZ']]; [|exists (tk_ms (ac_trk z)); split; auto; now apply view_nth].
        exists (tk_ms (ac_trk x)). split; [exact (view_nth _ _ _ NX)|exact ISX]. }
      destruct (OLD _ _ Z1 X1) as (n1 & V1 & Y1). destruct (OLD _ _ Z2 X2) as (n2 & V2 & Y2).
      eapply U; eauto. congruence.
    - intros j a0 m r V IM. apply view_inv in V as (z & NZ & <- & MZ). destruct (NTH _ _ NZ) as [[-> ->]|[_ NZ']].
      + left. cbn. congruence.
      + right. apply (M j (ac_addr z) m r); auto. rewrite (view_nth _ _ _ NZ'). congruence.
    - reflexivity.
  Qed.

  (* ---- an entry used for the first time *)
  Lemma busy_back st i x : nth_error (as_acc st) i = Some x -> ac_busy x = false -> set_busy_at (set_busy_at st i true) i false = st.
  Proof.
    intros N B. assert (NN : nth_error (set_nth_acc (as_acc st) i (set_busy x true)) i = Some (set_busy x true)).
    { rewrite nth_set_acc. destruct (Nat.eq_dec i i); [|congruence]. now rewrite N. }
    unfold set_busy_at at 2. rewrite N. unfold set_busy_at. cbn [as_acc with_acc]. rewrite NN. unfold with_acc. cbn.
    rewrite set_acc_twice, set_acc_same; [now destruct st|]. rewrite N. destruct x. cbn in *. now subst.
  Qed.
  Lemma sim_new R E R' A a f fr rest sig check args b :
    core R E -> uniq (view E) -> heads (view E) A -> as_stack E = fr :: rest -> f = to_fn fr args -> ~ In a A ->
    (forall i, sig i = Ok tt) -> (forall i s, check i s = (s, Ok tt, [])) ->
    check_invoker E a f = Ok None -> recorded c source name R R' a f (Recorded true) -> below (acc R') ->
    idle_inv b (as_inv E) -> b && runs_check source a = false ->
    exists E' t', require c E a args sig check = (E', Ok tt, t') /\ (ainv E' -> core R' E') /\ uniq (view E') /\ heads (view E') (a :: A)
      /\ as_inv E' = as_inv E.
  Proof.
    intros C U M SK FE NA SIG CHK CI (RS & RV & [(i & y & t & X & _)|(cred & _ & FR & RA & RB & RC)]) BL PN RCK; [discriminate|].
    set (n := length (acc R)) in *. set (len := length (as_stack E)) in *. assert (LR : length (as_stack (rc_st R)) = len) by (unfold len; now rewrite (co_stack _ _ C)).
    rewrite LR in RA. set (ny := {| ac_addr := a; ac_cred := cred; ac_trk := new_rec_tracker f len; ac_verified := true; ac_busy := false |}) in *.
    assert (NNY : nth_error (acc R') n = Some ny) by (rewrite RA; unfold n; rewrite nth_error_app2, Nat.sub_diag by lia; reflexivity).
    assert (NRN : nth_error (acc R) n = None) by (apply nth_error_None; unfold n; lia).
    destruct (BL _ _ NNY) as (e & NE & E1 & E2 & E3). cbn in E1, E2, E3.
    destruct (core_x _ _ _ _ C NE) as (x & NX & F1 & F2 & F3 & F4 & F5 & F6). rewrite NRN in F6. fold len in F5, F6.
    destruct (waiting_quiet _ _ _ F6) as [QX UX]. destruct F6 as [VX TX].
    assert (LEN : len = S (length rest)) by (unfold len; now rewrite SK).
    assert (NIS : forall j z, nth_error (as_acc E) j = Some z -> ac_addr z = a -> in_stack (ac_trk z) = true -> frame_matched (ac_trk z) = true).
    { intros j z NZ AZ IZ. destruct (core_e _ _ _ _ C NZ) as (e' & _ & _ & _ & _ & _ & _ & G). destruct (nth_error (acc R) j) as [y|] eqn:NY.
      - destruct G as (B1 & _ & _ & B4 & _). specialize (FR y (nth_error_In _ _ NY)). unfold in_stack, frame_matched in *. rewrite B4 in FR.
        apply FR; auto. congruence.
      - apply waiting_quiet in G as [G _]. congruence. }
    assert (HA : has_active (as_acc E) a = false).
    { unfold has_active. destruct (existsb _ _) eqn:X; auto. apply existsb_exists in X as (z & IZ & Z). apply In_nth_error in IZ as [j NZ].
      apply andb_prop in Z as [Z Z4]. apply andb_prop in Z as [Z Z3]. apply andb_prop in Z as [Z1 Z2].
      destruct (addr_eq_dec (ac_addr z) a) as [AZ|]; [|discriminate]. unfold is_active in Z3. apply andb_prop in Z3 as [Z3 Z5].
      destruct (in_stack (ac_trk z)) eqn:IS.
      - rewrite (NIS _ _ NZ AZ IS) in Z4. discriminate.
      - rewrite (not_in_stack_done _ (core_trk _ _ _ _ C NZ) IS Z3) in Z5. discriminate. }
    assert (FN : n_fn (tk_root (ac_trk x)) = f).
    { destruct (sub_entry _ _ _ [] (Node f true []) F4 E3 eq_refl) as (w & W1 & W2). cbn in W1. injection W1 as <-. rewrite W2. reflexivity. }
    assert (MSX : tk_ms (ac_trk x) = Unmatched :: repeat Unmatched (length rest)) by (rewrite TX, LEN; reflexivity).
    set (t' := {| tk_root := mark (tk_root (ac_trk x)) []; tk_ms := RootMatch :: repeat Unmatched (length rest);
                  tk_rxf := Some (length (repeat Unmatched (length rest))); tk_done := tk_done (ac_trk x) |}).
    assert (ME : maybe_extend (ac_trk x) f true = Ok (Some (t', []))) by (exact (extend_root _ _ _ _ MSX QX UX FN)).
    assert (TA : try_accounts (as_acc E) a f true 0 = Ok (Some ((0 + n)%nat, set_trk x t', []))).
    { apply try_accounts_at; auto; [congruence|]. intros j z L NZ AZ. destruct (core_e _ _ _ _ C NZ) as (e' & _ & _ & _ & _ & _ & LZ & G).
      assert (NM : tk_ms (ac_trk z) <> []) by (intros X; rewrite X, SK in LZ; discriminate).
      assert (UZ : n_used (tk_root (ac_trk z)) = true).
      { destruct (nth_error (acc R) j) as [y|] eqn:NY; [|apply nth_error_None in NY; unfold n in L; lia].
        destruct G as (_ & _ & _ & _ & _ & _ & B7). apply (B7 []). discriminate. }
      apply extend_idle; auto. destruct (in_stack (ac_trk z)) eqn:IZ; auto. left. eapply NIS; eauto. }
    cbn [Nat.add] in TA. set (x1 := set_trk x t') in *. set (st1 := with_acc E (set_nth_acc (as_acc E) n x1)).
    assert (NX1 : nth_error (as_acc st1) n = Some x1) by (unfold st1; cbn; rewrite nth_set_acc, NX; destruct (Nat.eq_dec n n); [reflexivity|contradiction]).
    assert (TI : trk_inv t').
    { destruct (extend_ext _ _ _ _ _ (core_trk _ _ _ _ C NX) ME) as [_ X]. exact X. }
    assert (AI1 : ainv st1) by (eapply set_acc_ok; eauto; apply C).
    (* the authentication *)
    assert (AU : exists sE t2, authenticate c st1 n x1 (sig n) (check n)
        = (with_acc (with_store st1 sE) (set_nth_acc (as_acc st1) n (set_verified x1 true)), AuthOk, t2) /\ nsim c (as_store (rc_st R')) sE).
    { assert (PART1 : forall nonce exp, ac_cred x1 = Some (nonce, exp) -> exists t2,
         (let stb := set_busy_at st1 n true in
          let '(s1, r, t) := match ac_addr x1 with
            | AAccount _ => (stb, sig n, [])
            | AContract id => with_aframe id s_check_auth (check n) stb
            | _ => (stb, Err (ESys TObject CInternalError), [])
            end in (set_busy_at s1 n false, r, t)) = (st1, Ok tt, t2)).
      { intros nonce exp CR. cbv zeta. pose proof (busy_back _ _ _ NX1 F3) as BB.
        assert (IE : In e ents) by (eapply nth_error_In; eauto).
        assert (CE : en_cred e = Some (nonce, exp)) by (rewrite <- F2; exact CR).
        destruct (CREDS e nonce exp IE CE) as [_ AD]. change (ac_addr x1) with (ac_addr x). rewrite F1.
        destruct (en_addr e) as [key|id|?|?] eqn:EA; try contradiction.
        - rewrite SIG, BB. eauto.
        - assert (NS : is_addr source a = false).
          { destruct RC as [(_ & RC2 & _)|[RC _]]; auto. rewrite RC2, CE in E2. discriminate. }
          assert (BF : b = false).
          { destruct b; auto. unfold runs_check in RCK. rewrite <- E1 in RCK, NS. rewrite NS in RCK. discriminate. }
          unfold with_aframe. rewrite CHK. rewrite pop_push_frame.
          + rewrite BB. eauto.
          + assert (ab : forall y : acct, trk_inv (ac_trk y) -> trk_inv (ac_trk (set_busy y true))) by auto.
            unfold set_busy_at. rewrite NX1. eapply set_acc_ok; eauto.
          + unfold set_busy_at. rewrite NX1. cbn. apply PN. exact BF. }
      assert (PART2 : exists sE, consume c st1 (ac_addr x1) (ac_cred x1) = (with_store st1 sE, Ok tt) /\ nsim c (as_store (rc_st R')) sE).
      { change (ac_cred x1) with (ac_cred x). change (ac_addr x1) with (ac_addr x). rewrite F2, F1, E1.
        destruct (en_cred e) as [[nonce exp]|] eqn:CE.
        - destruct RC as [(_ & RC2 & _)|(_ & n1 & mx & o & t & RC2 & RC3 & RC4)]; [rewrite RC2 in E2; discriminate|].
          rewrite RC2 in E2. cbn in E2. injection E2 as ->.
          destruct (CREDS e n1 exp (nth_error_In _ _ NE) CE) as [(mx' & MX & L1 & L2) _]. assert (mx' = mx) as -> by congruence.
          assert (L0 : li_seq li <= mx) by lia.
          destruct (nsim_consume c LI _ _ a n1 mx exp _ _ _ (co_store _ _ C) L0 L1 RC4) as (sE & o' & t2 & SR & NS).
          exists sE. split; auto. unfold consume. replace (li_seq li >? exp) with false by lia. rewrite MX. replace (exp >? mx) with false by lia.
          unfold run_store. unfold st1 at 1. cbn [as_store with_acc]. rewrite SR. reflexivity.
        - destruct RC as [(_ & _ & RC3)|(_ & n1 & mx & o & t & RC2 & _)]; [|rewrite RC2 in E2; discriminate].
          exists (as_store E). split; [reflexivity|]. rewrite RC3. apply C. }
      destruct PART2 as (sE & CO & NS). exists sE. unfold authenticate.
      destruct (ac_cred x1) as [[nonce exp]|] eqn:CR.
      - destruct (PART1 nonce exp eq_refl) as (t2 & P1). cbv zeta in P1. exists t2. split; auto.
        destruct (match ac_addr x1 with AAccount _ => _ | _ => _ end) as [[s1 r] t] eqn:Q. apply pair_equal_spec in P1 as [P1 ->].
        apply pair_equal_spec in P1 as [-> ->]. rewrite CO. cbn [as_acc with_store]. rewrite NX1. reflexivity.
      - exists []. split; auto. rewrite CO. cbn [as_acc with_store]. rewrite NX1. reflexivity. }
    destruct AU as (sE & t2 & AU & NS). set (x2 := set_verified x1 true) in *.
    set (E' := with_acc (with_store st1 sE) (set_nth_acc (as_acc st1) n x2)).
    assert (NTH : forall j z', nth_error (as_acc E') j = Some z' -> (j = n /\ z' = x2) \/ (j <> n /\ nth_error (as_acc E) j = Some z')).
    { intros j z'. unfold E', st1. cbn [as_acc with_acc with_store]. rewrite !nth_set_acc. destruct (Nat.eq_dec j n) as [->|]; [|auto]. rewrite NX. cbn. intros [= <-]. auto. }
    exists E'. eexists. split; [|split; [|split; [|split]]].
    - unfold require. rewrite SK. cbv zeta. rewrite <- FE, CI, HA. cbn [negb]. rewrite TA. change (ac_verified x1) with (ac_verified x). rewrite VX.
      fold st1. rewrite AU. reflexivity.
    - intros AI. constructor; auto.
      + rewrite RS. apply C.
      + rewrite RV. apply C.
      + unfold E', st1. cbn [as_acc with_acc with_store]. rewrite <- (co_len _ _ C), !set_acc_length. reflexivity.
      + intros j e' z' NJ NZ. change (length (as_stack E')) with len. destruct (NTH _ _ NZ) as [[-> ->]|[NJI NZ']].
        * rewrite NNY. assert (e' = e) as -> by congruence. unfold follows. cbn [ac_addr ac_cred ac_busy ac_trk set_trk set_verified x2 x1 t' tk_root tk_ms].
          repeat (split; [auto; congruence|]). split; [rewrite erase_mark; exact F4|]. split; [cbn [length]; rewrite repeat_length; lia|].
          unfold started. cbn [ac_addr ac_cred ac_busy ac_verified ac_trk set_trk set_verified ny x2 x1 t' new_rec_tracker tk_root tk_ms tk_rxf tk_done].
          rewrite LEN. replace (S (length rest) - 1)%nat with (length rest) by lia. rewrite repeat_length.
          split; [congruence|]. repeat (split; [auto; congruence|]). split; [rewrite TX; reflexivity|].
          intros q. split.
          -- intros F. apply flag_mark in F as [F|[-> _]]; [|discriminate]. rewrite TX in F. cbn in F. rewrite flag_fresh in F. discriminate.
          -- intros F. destruct q as [|k q]; [|exfalso; apply F; cbn; now destruct k]. apply flag_mark_self. discriminate.
        * rewrite RA. destruct (Nat.ltb_spec j n).
          -- rewrite nth_error_app1 by exact H. exact (co_acc _ _ C j e' z' NJ NZ').
          -- rewrite nth_error_app2 by exact H. pose proof (co_acc _ _ C j e' z' NJ NZ') as G.
             replace (nth_error (acc R) j) with (@None acct) in G by (symmetry; apply nth_error_None; exact H).
             replace (nth_error [ny] (j - length (acc R))) with (@None acct); [exact G|].
             symmetry. apply nth_error_None. cbn. unfold n in *. lia.
      + intros h j I. destruct (RB _ I) as [I'|(n' & I')].
        * destruct (co_by _ _ C _ _ I') as (y' & n' & N' & H). exists y', n'. split; auto. rewrite RA, nth_error_app1; auto.
          apply nth_error_Some. congruence.
        * injection I' as -> ->. exists ny, n'. split; auto.
    - assert (NEWIN : forall j z, j <> n -> nth_error (as_acc E) j = Some z -> ac_addr z = a -> existsb is_matched (tk_ms (ac_trk z)) = true -> False).
      { intros j z _ NZ AZ IZ. apply NA. pose proof (NIS _ _ NZ AZ IZ) as FM. unfold frame_matched in FM. destruct (tk_ms (ac_trk z)) as [|m r] eqn:MZ; [discriminate|].
        apply (M j a m r); auto. rewrite (view_nth _ _ _ NZ). congruence. }
      assert (AX2 : ac_addr x2 = a) by (cbn; congruence).
      intros j1 j2 a0 m1 m2 V1 V2 X1 X2. apply view_inv in V1 as (z1 & Z1 & W1 & <-). apply view_inv in V2 as (z2 & Z2 & W2 & <-).
      destruct (NTH _ _ Z1) as [[-> ->]|[N1 Y1]], (NTH _ _ Z2) as [[-> ->]|[N2 Y2]]; auto.
      + exfalso. apply (NEWIN j2 z2); auto. congruence.
      + exfalso. apply (NEWIN j1 z1); auto. congruence.
      + apply (U j1 j2 a0 (tk_ms (ac_trk z1)) (tk_ms (ac_trk z2))); auto; [rewrite (view_nth _ _ _ Y1)|rewrite (view_nth _ _ _ Y2)]; congruence.
    - intros j a0 m r V IM. apply view_inv in V as (z & NZ & <- & MZ). destruct (NTH _ _ NZ) as [[-> ->]|[_ NZ']].
      + left. cbn. congruence.
      + right. apply (M j (ac_addr z) m r); auto. rewrite (view_nth _ _ _ NZ'). congruence.
    - reflexivity.
  Qed.

  (* ---- storage *)
  Lemma aop_avoids st o q : aop_prog c st o = Some q -> avoids q.
  Proof.
    destruct o; cbn; intros E.
    - destruct (as_stack st) as [|[id fn|] ?]; try discriminate. destruct (hop_key_ok h) eqn:K; [|discriminate]. injection E as <-. now apply av_hop.
    - destruct (classic_op op) eqn:K; [|discriminate]. injection E as <-. now apply av_classic.
    - destruct (as_stack st) as [|[id fn|] ?]; try discriminate. injection E as <-. apply av_store.
    - injection E as <-. apply av_upload.
    - injection E as <-. apply av_create.
  Qed.
  Lemma aop_same st st' o : as_stack st = as_stack st' -> aop_prog c st o = aop_prog c st' o.
  Proof. intros S. unfold aop_prog. now rewrite S. Qed.

  Lemma rep_app A b t1 t2 : replayable source A b (t1 ++ t2) -> t1 = [] -> replayable source A b t2.
  Proof. intros H ->. exact H. Qed.

  Lemma sim p : forall R R' o t E A b, accepts p -> core R E -> uniq (view E) -> heads (view E) A -> idle_inv b (as_inv E) ->
    rexec R p = (R', o, t) -> replayable source A b t -> below (acc R') ->
    exists E' t', exec c E p = (E', o, t') /\ core R' E'.
  Proof.
    induction p as [r0|id fn tr body IHb k IHk|pre ex args body IHb k IHk|a args sig check IHc k IHk|ts k IHk|op k IHk];
      intros R R' o t E A b AC C U M PN RX RP BL; cbn in AC.
    - cbn in RX. injection RX as <- <- <-. exists E, []. auto.
    - (* a call *)
      destruct AC as [AB AK]. cbn [AuthRecModel.rexec] in RX.
      destruct (with_rframe id fn (fun s => rexec s body) R) as [[r1 o1] t1] eqn:WF.
      pose proof (with_rframe_grow id fn _ (rexec_grow c source name nonces root_only body) _ _ _ _ WF) as [GW _].
      assert (GX : grow (acc r1) (acc R') /\ exists t2, t = t1 ++ t2).
      { destruct o1 as [u|e].
        - destruct (rexec r1 (k (Ok tt))) as [[r2 o2] t2] eqn:RK. injection RX as <- <- <-. split; [apply (rexec_grow _ _ _ _ _ _ _ _ _ _ RK)|eauto].
        - destruct (tr && recoverable e).
          + destruct (rexec r1 (k (Err e))) as [[r2 o2] t2] eqn:RK. injection RX as <- <- <-. split; [apply (rexec_grow _ _ _ _ _ _ _ _ _ _ RK)|eauto].
          + injection RX as <- <- <-. split; [apply grow_refl|]. exists []. now rewrite app_nil_r. }
      destruct GX as [GX (t2 & TT)]. pose proof (below_grow _ _ GX BL) as BL1. pose proof (below_grow _ _ GW BL1) as BL0.
      unfold with_rframe in WF. destruct (rexec (rpush (FrContract id fn) R) body) as [[r2 o2] tb] eqn:RB.
      assert (T1 : t1 = [RCall id fn o2 tb]).
      { destruct o2; [now injection WF|]. destruct (rrollback _ _ _ _ _); now injection WF. }
      rewrite T1 in TT. subst t. cbn [app] in RP.
      assert (RP' : replayable source [] false tb /\ (is_ok o2 = false -> idle tb) /\ replayable source A false t2) by (inversion RP; auto).
      destruct RP' as (RPB & RPI & RPK).
      assert (BLB : below (acc r2)).
      { destruct o2 as [u|e].
        - injection WF as <- <- _. eapply below_trees; [|exact BL1]. symmetry. apply trees_pop_frame.
        - destruct (rexec_grow _ _ _ _ _ _ _ _ _ _ RB) as [_ GI]. eapply below_trees; [|exact BL0]. rewrite (GI (RPI eq_refl)). apply trees_push. }
      assert (UP : uniq (view (push_frame (FrContract id fn) E))) by (rewrite view_push by exact (core_nobusy _ _ C); now apply uniq_push).
      assert (MP : heads (view (push_frame (FrContract id fn) E)) []) by (rewrite view_push by exact (core_nobusy _ _ C); apply heads_push).
      assert (PP : idle_inv false (as_inv (push_frame (FrContract id fn) E))).
      { intros _. cbn. apply Forall_map, Forall_forall. intros v _. discriminate. }
      destruct (IHb _ _ _ _ _ _ _ AB (core_push _ _ _ C) UP MP PP RB RPB BLB) as (E2 & tb' & EB & C2).
      destruct (exec_wk c LI body _ _ _ _ (ainv_push c _ _ (co_ainv _ _ C)) EB) as [I2 W2].
      destruct (with_aframe id fn (fun s => exec c s body) E) as [[st1 e1] x1] eqn:WA.
      destruct (with_aframe_ok c _ _ _ _ _ _ _ (exec_wk c LI body) (co_ainv _ _ C) WA) as (I1 & W1 & st2 & l & EB' & TX & CS).
      rewrite EB in EB'. injection EB' as <- <- <-.
      assert (FIN : o1 = o2 /\ core r1 st1 /\ uniq (view st1) /\ heads (view st1) A /\ idle_inv false (as_inv st1)).
      { destruct o2 as [u|e].
        - injection WF as <- <- _. subst st1. split; auto. destruct W2 as (K1 & K2). cbn in K1.
          split; [eapply core_pop; eauto|]. rewrite (view_pop (FrContract id fn) E E2 (core_nobusy _ _ C) (conj K1 K2)).
          split; auto. split; auto. intros _. exact (ne_pop (FrContract id fn) E E2 (co_ainv _ _ C) (conj K1 K2)).
        - destruct CS as (CS1 & CS2 & CS3 & CS4).
          destruct W2 as (K1 & K2 & K3 & K4). cbn in K1.
          destruct (wki_pushed _ _ K3) as (A' & B' & E2' & EB' & W2').
          destruct (co_ainv _ _ C) as (_ & _ & _ & I4 & SC).
          destruct (rollback_invs_ok _ _ B' I4 W2') as (v4 & R2 & P2).
          unfold rrollback in WF. cbn [take_snapshot sn_inv rpush on_st rc_st push_frame as_acc as_inv] in WF.
          rewrite (co_inv _ _ C2), E2', (co_inv _ _ C), R2 in WF. injection WF as <- <- _. split; auto.
          assert (VV : view st1 = view E) by (unfold view; now rewrite CS1). rewrite VV.
          split; [|split; [auto|split; [auto|]]].
          + assert (PR : map pop_acct (map push_acct (acc R)) = acc R).
            { destruct (pp_rec _ _ C) as [X|(i & X1 & X2)]; auto. destruct (nth_error (acc R) i) as [y|] eqn:NY; [|congruence].
              destruct (BL0 _ _ NY) as (e' & NE & _). congruence. }
            match goal with |- core ?r _ => assert (RE : r = {| rc_st := {| as_store := set_map (as_store (rc_st r2)) (st_map (as_store (rc_st R)));
              as_stack := as_stack E; as_acc := acc R; as_inv := drop_scoped (as_inv E) |}; rc_by := rc_by R; rc_asks := rc_asks r2; rc_drawn := rc_drawn r2 |}) end.
            { unfold rpop, on_st, pop_frame. cbn [rc_st as_stack as_inv as_store as_acc rc_by rc_asks rc_drawn].
              rewrite (co_stack _ _ C2), K1. cbn [rc_st as_stack as_inv as_store as_acc rc_by rc_asks rc_drawn]. now rewrite PR, P2. }
            rewrite RE. constructor; cbn [rc_st as_stack as_inv as_store as_acc rc_by]; rewrite ?CS1, ?CS2, ?CS3, ?CS4; auto; try apply C.
            apply nsim_rollback; [apply C|apply C2].
          + intros _. rewrite CS2. now apply drop_is_ne. }
      destruct FIN as (-> & C1 & U1 & M1 & P1). cbn [exec]. rewrite WA. destruct o2 as [u|e].
      + destruct (rexec r1 (k (Ok tt))) as [[r3 o3] t3] eqn:RK. injection RX as <- <- TE.
        assert (t3 = t2) as -> by (rewrite T1 in TE; now injection TE).
        destruct (IHk _ _ _ _ _ _ _ _ (AK _) C1 U1 M1 P1 RK RPK BL) as (E' & t' & -> & CF). eauto.
      + destruct (tr && recoverable e).
        * destruct (rexec r1 (k (Err e))) as [[r3 o3] t3] eqn:RK. injection RX as <- <- TE.
          assert (t3 = t2) as -> by (rewrite T1 in TE; now injection TE).
          destruct (IHk _ _ _ _ _ _ _ _ (AK _) C1 U1 M1 P1 RK RPK BL) as (E' & t' & -> & CF). eauto.
        * injection RX as <- <- _. eauto.
    - (* the deployment of a contract *)
      destruct AC as [AB AK]. cbn [AuthRecModel.rexec] in RX. set (fr := FrCreate pre ex args) in *.
      destruct (rexec (rpush fr R) body) as [[r1 o1] tb] eqn:RB.
      assert (GX : grow (acc (rpop r1)) (acc R') /\ exists t2, t = RCreate tb :: t2).
      { destruct o1 as [u|e].
        - destruct (rexec (rpop r1) k) as [[r2 o2] t2] eqn:RK. injection RX as <- <- <-. split; [apply (rexec_grow _ _ _ _ _ _ _ _ _ _ RK)|eauto].
        - injection RX as <- <- <-. split; [apply grow_refl|eauto]. }
      destruct GX as [GX (t2 & ->)]. pose proof (below_grow _ _ GX BL) as BL1.
      assert (BLB : below (acc r1)) by (eapply below_trees; [|exact BL1]; symmetry; apply trees_pop_frame).
      assert (RP' : replayable source [] false tb /\ replayable source A false t2) by (inversion RP; auto).
      destruct RP' as (RPB & RPK).
      assert (UP : uniq (view (push_frame fr E))) by (rewrite view_push by exact (core_nobusy _ _ C); now apply uniq_push).
      assert (MP : heads (view (push_frame fr E)) []) by (rewrite view_push by exact (core_nobusy _ _ C); apply heads_push).
      assert (PP : idle_inv false (as_inv (push_frame fr E))).
      { intros _. cbn. apply Forall_map, Forall_forall. intros v _. discriminate. }
      destruct (IHb _ _ _ _ _ _ _ AB (core_push _ _ _ C) UP MP PP RB RPB BLB) as (E2 & tb' & EB & C2).
      destruct (exec_wk c LI body _ _ _ _ (ainv_push c _ _ (co_ainv _ _ C)) EB) as [I2 W2].
      destruct (pop_ok c _ _ _ (co_ainv _ _ C) I2 W2) as [I3 W3]. pose proof W2 as (K1 & _). cbn in K1.
      assert (C3 : core (rpop r1) (pop_frame E2)) by (eapply core_pop; eauto).
      assert (VV : view (pop_frame E2) = view E) by (eapply view_pop; eauto using core_nobusy).
      assert (P3 : idle_inv false (as_inv (pop_frame E2))) by (intros _; eapply ne_pop; [apply (co_ainv _ _ C)|eauto]).
      cbn [exec]. fold fr. rewrite EB. destruct o1 as [u|e].
      + destruct (rexec (rpop r1) k) as [[r3 o3] t3] eqn:RK. injection RX as <- <- ->.
        rewrite <- VV in U, M. destruct (IHk _ _ _ _ _ _ _ AK C3 U M P3 RK RPK BL) as (E' & t' & -> & CF). eauto.
      + injection RX as <- <- _. eauto.
    - (* an authorization *)
      destruct AC as [AS AK]. cbn [AuthRecModel.rexec] in RX.
      destruct (rrequire c source name nonces root_only R a args) as [[r1 o1] t1] eqn:RQ.
      assert (GX : grow (acc r1) (acc R') /\ exists t2, t = t1 ++ t2).
      { destruct o1 as [u|e].
        - destruct (rexec r1 k) as [[r2 o2] t2] eqn:RK. injection RX as <- <- <-. split; [apply (rexec_grow _ _ _ _ _ _ _ _ _ _ RK)|eauto].
        - injection RX as <- <- <-. split; [apply grow_refl|]. exists []. now rewrite app_nil_r. }
      destruct GX as [GX (t2 & ->)]. pose proof (below_grow _ _ GX BL) as BL1. cbn [exec].
      set (chk := fun i s => exec c s (check i)) in *.
      assert (GB : forall i, good_body c (chk i)) by (intros i; apply (exec_wk c LI (check i))).
      unfold rrequire in RQ. destruct (as_stack (rc_st R)) as [|fr rest] eqn:SR.
      { injection RQ as <- <- <-. injection RX as <- <- _. exists E, []. split; auto. unfold require. rewrite <- (co_stack _ _ C), SR. reflexivity. }
      pose proof SR as SK. rewrite (co_stack _ _ C) in SK. cbv zeta in RQ. set (f := to_fn fr args) in *.
      pose proof (check_invoker_sim _ _ a f (co_stack _ _ C) (co_inv _ _ C)) as CIE.
      destruct (check_invoker (rc_st R) a f) as [[[s1 m]|]|e] eqn:CI.
      + injection RQ as <- <- <-. destruct (check_invoker_keeps _ _ _ _ _ CI) as (S1 & S2 & S3 & S4).
        assert (RE : require c E a args sig chk = (with_inv E (as_inv s1), Ok tt, [TReq a f m])).
        { unfold require. rewrite SK. cbv zeta. fold f. rewrite CIE. reflexivity. }
        destruct (require_wk c LI _ _ _ _ _ _ _ _ GB (co_ainv _ _ C) RE) as [I1 _]. rewrite RE.
        destruct (rexec (on_st R s1) k) as [[r3 o3] t3] eqn:RK. injection RX as <- <- TE. subst t3.
        cbn [app] in RP. assert (RPK : replayable source A b t2) by (inversion RP; auto).
        assert (C1 : core (on_st R s1) (with_inv E (as_inv s1))).
        { constructor; cbn; auto; rewrite ?S1, ?S2, ?S3; apply C. }
        assert (P1 : idle_inv b (as_inv (with_inv E (as_inv s1)))).
        { intros X. cbn. apply S4. rewrite (co_inv _ _ C). now apply PN. }
        destruct (IHk _ _ _ _ _ _ _ AK C1 U M P1 RK RPK BL) as (E' & t' & -> & CF). eauto.
      + destruct (require_recording c source name nonces root_only R a f) as [r2 [w|er]] eqn:RR.
        2:{ injection RQ as <- <- <-. cbn [app] in RP. inversion RP. }
        injection RQ as <- <- <-. pose proof (require_recording_spec _ _ _ _ _ _ _ _ _ _ RR) as REC.
        destruct (rexec r2 k) as [[r3 o3] t3] eqn:RK. injection RX as <- <- TE. subst t3. cbn [app] in RP.
        assert (NW : exists new, w = Recorded new /\ ~ In a A /\ new && b && runs_check source a = false /\ replayable source (a :: A) b t2).
        { inversion RP; subst; eauto 10. cbn in REC. destruct REC as (_ & _ & [(? & ? & ? & X & _)|(? & X & _)]); discriminate. }
        destruct NW as (new & -> & NI & NB & RPK).
        assert (SM : exists E1 x1, require c E a args sig chk = (E1, Ok tt, x1) /\ (ainv E1 -> core r2 E1)
          /\ uniq (view E1) /\ heads (view E1) (a :: A) /\ as_inv E1 = as_inv E).
        { destruct new.
          - eapply sim_new; eauto; [apply AS|]. intros i s. unfold chk. now rewrite (proj2 (AS i)).
          - eapply sim_old; eauto. }
        destruct SM as (E1 & x1 & RE & C1 & U1 & M1 & P1). rewrite RE.
        destruct (require_wk c LI _ _ _ _ _ _ _ _ GB (co_ainv _ _ C) RE) as [I1 _].
        rewrite <- P1 in PN. destruct (IHk _ _ _ _ _ _ _ AK (C1 I1) U1 M1 PN RK RPK BL) as (E' & t' & -> & CF). eauto.
      + injection RQ as <- <- <-. cbn [app] in RP. inversion RP.
    - (* authorize_as_curr_contract *)
      cbn [AuthRecModel.rexec] in RX. cbn [exec].
      assert (CC : cur_contract (rc_st R) = cur_contract E) by (unfold cur_contract; now rewrite (co_stack _ _ C)). rewrite CC in RX.
      destruct (cur_contract E) as [a|]; [|injection RX as <- <- <-; eauto]. cbv zeta in RX. set (nw := map _ ts) in *.
      destruct (rexec (on_st R _) k) as [[r3 o3] t3] eqn:RK. injection RX as <- <- <-.
      assert (RPK : replayable source A true t3) by (inversion RP; auto).
      assert (I1 : ainv (with_inv E (as_inv E ++ nw))).
      { destruct (co_ainv _ _ C) as (A1 & A2 & A3 & A4 & (AA & B & S1 & S2 & S3)). split; auto. split; auto. split; auto. cbn.
        assert (EN : Forall em nw) by (apply Forall_map; apply Forall_forall; intros; reflexivity). split.
        - apply Forall_app. split; auto. apply Forall_map, Forall_forall. intros x _. apply inv_new.
        - exists AA, (B ++ nw). rewrite S1, <- app_assoc. split; auto. split; auto. apply Forall_app; auto. }
      assert (C1 : core (on_st R (with_inv (rc_st R) (as_inv (rc_st R) ++ nw))) (with_inv E (as_inv E ++ nw))).
      { constructor; cbn; auto; try apply C. now rewrite (co_inv _ _ C). }
      assert (P1 : idle_inv true (as_inv (with_inv E (as_inv E ++ nw)))) by (intros X; discriminate).
      destruct (IHk _ _ _ _ _ _ _ AC C1 U M P1 RK RPK BL) as (E' & t' & -> & CF). eauto.
    - (* storage *)
      cbn [AuthRecModel.rexec] in RX. cbn [exec]. rewrite (aop_same _ E op (co_stack _ _ C)) in RX.
      destruct (aop_prog c E op) as [q|] eqn:OP; [|injection RX as <- <- <-; eauto].
      unfold run_store in RX. destruct (srun c (as_store (rc_st R)) q) as [[sR x] tR] eqn:SR.
      destruct (nsim_run c _ (aop_avoids _ _ _ OP) _ _ _ _ _ (co_store _ _ C) SR) as (sE & SE & NS).
      assert (RS : run_store c E q = (with_store E sE, x)) by (unfold run_store; now rewrite SE).
      pose proof RS as RS'. eapply run_store_spec in RS'; [|exact LI|exact (co_ainv _ _ C)| |apply (aop_spec c LI E op q (co_ainv _ _ C) OP)].
      2:{ intros y z rr S H kk Nk. rewrite <- (S kk). now apply H. }
      destruct RS' as (I1 & _). rewrite RS.
      assert (C1 : core (on_st R (with_store (rc_st R) sR)) (with_store E sE)) by (constructor; cbn; auto; apply C).
      destruct x as [v|e]; [|injection RX as <- <- <-; eauto].
      destruct (IHk _ _ _ _ _ _ _ _ (AC _) C1 U M PN RX RP BL) as (E' & t' & -> & CF). eauto.
  Qed.
End Sim.
