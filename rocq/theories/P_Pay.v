(* Property C79: copying, building, searching, comparing and cloning values is
   charged to the budget at least as much as the memory really touched. *)
From Coq Require Import ZArith Lia List Bool.
From Verif Require Import Prelude ValModel ContainerModel HeapModel BudgetModel BudgetSpec BudgetProofs BudgetProofs2 StorageModel PaySpec PayModel PayProofs PayProofs2 PayProofs3 P_Budget.
Import ListNotations.
Open Scope Z_scope.
Ltac Zify.zify_post_hook ::= idtac.

(* Every configured budget meters. *)
Theorem C79_every_budget_meters b : fresh b -> metering b.
Proof.
  intros F. destruct (fresh_ok b F) as (OK & Sh & _).
  destruct F as (cl & ml & cp & mp & _ & _ & _ & E).
  assert (T : trackers b = map (fun b : bool => {| t_iterations := 0;
           t_inputs := if b then Some 0 else None; t_cpu := 0; t_mem := 0 |}) default_takes_input).
  { unfold budget_of_configs in E. destruct (dim_of_config cp cl); [|discriminate].
    destruct (dim_of_config mp ml); [|discriminate]. injection E as <-. reflexivity. }
  split; [exact OK|]. split; [exact Sh|].
  unfold input_shape. rewrite T. cbn. repeat split; intros; congruence.
Qed.
Print Assumptions C79_every_budget_meters.

(* ------------------------------------------------------------ vectors *)

(* Containers of any element type whose declared size ds is at least its size rs.
   The answer is the one of the container without metering. *)
Theorem C79_vector_reads {A} ds rs (l : list A) i : 0 <= rs <= ds ->
  pays 0 (mv_get ds rs l i) (mvec_get l i)
  /\ pays 0 (mv_front ds rs l) (mvec_front l)
  /\ pays 0 (mv_back ds rs l) (mvec_back l)
  /\ pays 0 (mv_to_vec ds rs l) (Ok l).
Proof.
  intros H. repeat split; apply O_pays; auto using o_get, o_front, o_back, o_clone, s_get, s_front, s_back.
Qed.
Print Assumptions C79_vector_reads.

(* An update builds a new vector; when the budget cannot pay it, that vector is
   all that was done without payment. *)
Theorem C79_vector_updates {A} ds rs (l m : list A) i j x : 0 <= rs <= ds ->
  let n := 24 + rs * (len l + 1) in
  pays 0 (mv_set ds rs l i x) (mvec_set l i x)
  /\ pays n (mv_push_front ds rs l x) (mvec_push_front l x)
  /\ pays n (mv_push_back ds rs l x) (mvec_push_back l x)
  /\ pays n (mv_pop_front ds rs l) (mvec_pop_front l)
  /\ pays n (mv_pop_back ds rs l) (mvec_pop_back l)
  /\ pays n (mv_insert ds rs l i x) (mvec_insert l i x)
  /\ pays n (mv_remove ds rs l i) (mvec_remove l i)
  /\ pays n (mv_slice ds rs l i j) (mvec_slice l i j)
  /\ pays (24 + rs * (len l + len m)) (mv_append ds rs l m) (mvec_append l m).
Proof.
  intros H n.
  repeat split; apply O_pays.
  - apply o_set, H.
  - apply s_set.
  - apply o_push_front, H.
  - apply s_push_front.
  - apply o_push_back, H.
  - apply s_push_back.
  - apply o_pop_front, H.
  - apply s_pop_front.
  - apply o_pop_back, H.
  - apply s_pop_back.
  - apply o_insert, H.
  - apply s_insert.
  - apply o_remove, H.
  - apply s_remove.
  - apply o_slice, H.
  - apply s_slice.
  - apply o_append, H.
  - apply s_append.
Qed.
Print Assumptions C79_vector_updates.

(* Searches and comparisons of vectors of values, including every comparison of
   elements and every object looked up for it. *)
Lemma search_ext {A} (f g : A -> res comparison) l : (forall x, f x = g x) -> bsearch f l = bsearch g l.
Proof.
  intros E. unfold bsearch, bsearch_trace.
  cut (forall fuel hi size lo, bsearch_loop f l fuel size lo hi = bsearch_loop g l fuel size lo hi).
  { intros L. rewrite L. reflexivity. }
  induction fuel as [|fuel IH]; intros hi size lo; cbn [bsearch_loop]; [reflexivity|].
  destruct (Nat.ltb lo hi); [|reflexivity]. cbv zeta. destruct (nth_error l _); [|reflexivity].
  rewrite E. destruct (g a) as [c|]; [|reflexivity]. destruct c; try reflexivity.
  all: rewrite IH; reflexivity.
Qed.
Lemma first_ext {A} (f g : A -> res comparison) l : (forall x, f x = g x) ->
  forall b, first_index_from f l b = first_index_from g l b.
Proof.
  intros E. induction l as [|x l IH]; intros b; cbn [first_index_from]; [reflexivity|].
  rewrite E. destruct (g x) as [c|]; [|reflexivity]. cbn [rbind]. destruct c; auto.
Qed.
Lemma last_ext {A} (f g : A -> res comparison) l : (forall x, f x = g x) ->
  forall b, last_index_from f l b = last_index_from g l b.
Proof.
  intros E. induction l as [|x l IH]; intros b; cbn [last_index_from]; [reflexivity|].
  rewrite E. destruct (g x) as [c|]; [|reflexivity]. cbn [rbind]. destruct c; auto.
Qed.

Theorem C79_vector_searches d h (l m : list Z) x :
  pays 0 (mv_first_index_of 8 8 (fun y => mcmp_val d h x y) l) (mvec_first_index_of (fun y => cmp_val d h x y) l)
  /\ pays 0 (mv_last_index_of 8 8 (fun y => mcmp_val d h x y) l) (mvec_last_index_of (fun y => cmp_val d h x y) l)
  /\ pays 0 (mv_binary_search 8 8 (fun y => mcmp_val d h y x) l) (bsearch (fun y => cmp_val d h y x) l)
  /\ pays 0 (mv_compare 8 8 (mcmp_val d h) l m) (cmp_list (cmp_val d h) l m).
Proof.
  assert (H : 0 <= 8 <= 8) by lia.
  repeat split; apply O_pays.
  - apply o_first; [exact H|]. intros. apply o_val.
  - rewrite s_first. apply first_ext. intros. apply s_val.
  - apply o_last; [exact H|]. intros. apply o_val.
  - rewrite s_last. apply last_ext. intros. apply s_val.
  - apply o_search; [exact H|]. intros. apply o_val.
  - rewrite s_search. apply search_ext. intros. apply s_val.
  - apply o_mv_compare; [exact H|]. intros. apply o_val.
  - rewrite s_mv_compare. apply cmp_list_ext. intros. apply s_val.
Qed.
Print Assumptions C79_vector_searches.

(* ------------------------------------------------------------ maps *)

Section MapExt.
  Context {K V : Type}.
  Variables f g : K -> K -> res comparison.
  Hypothesis E : forall x y, f x y = g x y.
  Lemma find_ext (m : list (K * V)) k : omap_find f m k = omap_find g m k.
  Proof. apply search_ext. intros. apply E. Qed.
  Lemma sorted_ext (m : list (K * V)) : check_sorted f m = check_sorted g m.
  Proof.
    induction m as [|a m IH]; [reflexivity|]. cbn [check_sorted]. destruct m as [|b m]; [reflexivity|].
    rewrite E. destruct (g (fst a) (fst b)) as [c|]; [|reflexivity]. cbn [rbind]. destruct c; auto.
  Qed.
  Lemma from_ext (m : list (K * V)) : omap_from f m = omap_from g m.
  Proof. unfold omap_from. rewrite sorted_ext. reflexivity. Qed.
  Lemma get_ext (m : list (K * V)) k : omap_get f m k = omap_get g m k.
  Proof. unfold omap_get. rewrite find_ext. reflexivity. Qed.
  Lemma contains_ext (m : list (K * V)) k : omap_contains f m k = omap_contains g m k.
  Proof. unfold omap_contains. rewrite find_ext. reflexivity. Qed.
  Lemma insert_ext (m : list (K * V)) k v : omap_insert f m k v = omap_insert g m k v.
  Proof.
    unfold omap_insert. rewrite find_ext. destruct (omap_find g m k) as [r|]; [|reflexivity]. cbn [rbind].
    destruct r; rewrite ?from_ext; reflexivity.
  Qed.
  Lemma remove_ext (m : list (K * V)) k : omap_remove f m k = omap_remove g m k.
  Proof.
    unfold omap_remove. rewrite find_ext. destruct (omap_find g m k) as [r|]; [|reflexivity]. cbn [rbind].
    destruct r; [|reflexivity]. rewrite !from_ext. reflexivity.
  Qed.
End MapExt.

(* Maps of values: an entry is declared as 24 bytes and has 16. *)
Theorem C79_map_operations d h (m : list (Z * Z)) k v i :
  let n := 24 + 16 * (len m + 1) in
  pays n (mm_from_exact_iter 24 16 (mcmp_val d h) m) (omap_from (cmp_val d h) m)
  /\ pays 0 (mm_from_map 24 16 (mcmp_val d h) m) (omap_from (cmp_val d h) m)
  /\ pays 0 (mm_get 24 16 (mcmp_val d h) m k) (omap_get (cmp_val d h) m k)
  /\ pays 0 (mm_contains 24 16 (mcmp_val d h) m k) (omap_contains (cmp_val d h) m k)
  /\ pays 0 (mm_at 24 16 m i) (omap_at m i)
  /\ pays n (mm_insert 24 16 (mcmp_val d h) m k v) (omap_insert (cmp_val d h) m k v)
  /\ pays n (mm_remove 24 16 8 8 (mcmp_val d h) m k) (omap_remove (cmp_val d h) m k)
  /\ pays n (mm_collect 24 16 fst 8 8 m) (mvec_from (map fst m))
  /\ pays n (mm_collect 24 16 snd 8 8 m) (mvec_from (map snd m)).
Proof.
  intros n. assert (H : 0 <= 16 <= 24) by lia. assert (H8 : 0 <= 8 <= 8) by lia.
  pose proof (len_pos m).
  assert (C : forall x y, True -> O none 0 (mcmp_val d h x y)) by (intros; apply o_val).
  assert (T : Forall (fun p : Z * Z => True) m) by (apply Forall_forall; auto).
  assert (E : forall x y, snd (mcmp_val d h x y) = cmp_val d h x y) by (intros; apply s_val).
  repeat split; apply O_pays.
  - apply (o_mm_iter 24 16 H _ _ C _ _ T). unfold n. lia.
  - rewrite s_mm_iter. apply from_ext, E.
  - exact (o_from_map 24 16 H _ _ C _ T).
  - rewrite s_from_map. apply from_ext, E.
  - exact (o_mm_get 24 16 H _ _ C _ k T).
  - rewrite s_mm_get. apply get_ext, E.
  - exact (o_contains 24 16 H _ _ C _ k T).
  - rewrite s_contains. apply contains_ext, E.
  - exact (o_at 24 16 H (fun _ => True) m i).
  - apply s_at.
  - exact (o_mm_insert 24 16 H _ _ C _ k v T I).
  - rewrite s_mm_insert. apply insert_ext, E.
  - exact (o_mm_remove 24 16 8 8 H H8 _ _ C _ k T).
  - rewrite s_mm_remove. apply remove_ext, E.
  - apply (O_mono none _ (24 + 8 * len m)); [exact (o_collect 24 16 H (fun _ => True) _ 8 8 m H8)|lia|unfold n; lia].
  - apply s_collect.
  - apply (O_mono none _ (24 + 8 * len m)); [exact (o_collect 24 16 H (fun _ => True) _ 8 8 m H8)|lia|unfold n; lia].
  - apply s_collect.
Qed.
Print Assumptions C79_map_operations.

(* The maps of the ledger, keyed by ledger keys, with values of any type: entries
   declared as ds bytes and having rs, values declared as vds and having vrs. *)
Theorem C79_storage_maps {V} ds rs vds vrs d (m : list (lkey * V)) k v :
  0 <= rs <= ds -> 0 <= vrs <= vds ->
  Forall (fun p => short_key (fst p)) m -> short_key k ->
  let n := 24 + rs * (len m + 1) in
  pays 0 (mm_get ds rs (mcmp_lkey d) m k) (omap_get (key_order d) m k)
  /\ pays 0 (mm_contains ds rs (mcmp_lkey d) m k) (omap_contains (key_order d) m k)
  /\ pays n (mm_insert ds rs (mcmp_lkey d) m k v) (omap_insert (key_order d) m k v)
  /\ pays n (mm_remove ds rs vds vrs (mcmp_lkey d) m k) (omap_remove (key_order d) m k).
Proof.
  intros H Hv T Hk n. assert (E : forall x y, snd (mcmp_lkey d x y) = key_order d x y) by (intros; apply s_key).
  assert (C : forall x y, short_key x -> O none 0 (mcmp_lkey d x y)) by (intros; apply o_key; assumption).
  repeat split; apply O_pays.
  - exact (o_mm_get ds rs H _ _ C _ k T).
  - rewrite s_mm_get. apply get_ext, E.
  - exact (o_contains ds rs H _ _ C _ k T).
  - rewrite s_contains. apply contains_ext, E.
  - exact (o_mm_insert ds rs H _ _ C _ k v T Hk).
  - rewrite s_mm_insert. apply insert_ext, E.
  - exact (o_mm_remove ds rs vds vrs H Hv _ _ C _ k T).
  - rewrite s_mm_remove. apply remove_ext, E.
Qed.
Print Assumptions C79_storage_maps.

(* ------------------------------------------------------------ comparisons *)

Theorem C79_comparisons d h :
  (forall a b, pays 0 (mcmp_val d h a b) (cmp_val d h a b))
  /\ (forall a b, short_tags a -> pays 0 (mcmp_scval d a b) (cmp_scval d a b))
  /\ (forall a b, short_key a -> pays 0 (mcmp_lkey d a b) (key_order d a b)).
Proof.
  repeat split; intros; apply O_pays; auto using o_val, s_val, o_scval, s_scval, o_key, s_key.
Qed.
Print Assumptions C79_comparisons.

(* ------------------------------------------------------------ clones *)

(* A clone is paid for, with all it owns, before anything is copied. *)
Theorem C79_clones d :
  (forall v, within v d -> pays 0 (clone_scval d v) (Ok v))
  /\ (forall v, exists r, pays 0 (clone_scval d v) r
        /\ (r = Ok v \/ r = Err (ESys TContext CExceededLimit) \/ r = Err (ESys TValue CInvalidInput)))
  /\ (forall c v p, within v d -> pays 0 (clone_lkey d (LKData c v p)) (Ok (LKData c v p)))
  /\ (forall k, (forall c v p, k <> LKData c v p) -> (forall t, k <> LKOther t) -> pays 0 (clone_lkey d k) (Ok k))
  /\ (forall c, Forall (fun v => within v d) (cr_args c) -> pays 0 (clone_creation d c) (Ok c)).
Proof.
  repeat split.
  - intros v W. apply O_pays; [apply o_clone_with; [lia|apply buys_scval]|].
    unfold clone_scval. rewrite s_clone_with, (s_sub d v W). reflexivity.
  - intros v. exists (snd (clone_scval d v)). split.
    + apply O_pays; [apply o_clone_with; [lia|apply buys_scval]|reflexivity].
    + unfold clone_scval. rewrite s_clone_with.
      destruct (sub_stops d v) as [E|[E|E]]; rewrite E; cbn; auto.
  - intros c v p W. apply O_pays; [apply o_clone_with; [lia|apply buys_scval]|].
    unfold clone_lkey. rewrite s_clone_with. cbn [sub_lkey]. rewrite (s_sub d v W). reflexivity.
  - intros k A B. apply O_pays.
    + apply o_clone_with; [lia|]. destruct k; cbn [sub_lkey key_owned]; try apply buys_ret.
      * exfalso. eapply A. reflexivity.
      * exfalso. eapply B. reflexivity.
    + unfold clone_lkey. rewrite s_clone_with. destruct k; try reflexivity.
      * exfalso. eapply A. reflexivity.
      * exfalso. eapply B. reflexivity.
  - intros c F. apply O_pays.
    + apply o_clone_with; [lia|]. apply buys_seq; [apply buys_exe|]. unfold args_owned. rewrite owned_vec.
      apply buys_vec; [lia|]. intros x _. apply buys_scval.
    + unfold clone_creation. rewrite s_clone_with, snd_bind, s_exe. cbn [rbind].
      rewrite s_sub_vec, s_each; [reflexivity|]. revert F. apply Forall_impl. intros v. apply s_sub.
Qed.
Print Assumptions C79_clones.

(* ------------------------------------------------------------ what is not paid *)

Lemma O_short {A} c n (m : op A) r : O c 0 m -> (forall k, c k <= n) -> snd m = r -> short_by n m r.
Proof.
  intros (Gd & N & _ & P & E) C R b M. unfold run_under.
  pose proof (steps_run (fst m) Gd b M) as S.
  destruct (take_steps b (fst m)) as [[b' d] [e|]].
  - destruct S as (-> & s & Es). split; [|auto]. intros k. specialize (P d s Es k). specialize (C k). lia.
  - subst d. split; [|auto]. intros k. specialize (E k). specialize (C k). lia.
Qed.

(* Comparing calls for authorization: the words of the arguments are not charged;
   everything behind them is. *)
Theorem C79_call_comparison d h a b :
  short_by (8 * Z.min (len (ca_args a)) (len (ca_args b))) (mcmp_called d h a b)
    (let? c := cmp_val d h (ca_contract a) (ca_contract b) in
     match c with
     | Eq => let? c := cmp_symbol_typed d h (ca_name a) (ca_name b) in
             match c with Eq => cmp_list (cmp_val d h) (ca_args a) (ca_args b) | _ => Ok c end
     | _ => Ok c
     end).
Proof.
  pose proof (len_pos (ca_args a)). pose proof (len_pos (ca_args b)).
  apply (O_short (on Memory (8 * Z.min (len (ca_args a)) (len (ca_args b))))).
  - unfold mcmp_called. apply r_op; [apply o_val|kinds|intros c _].
    destruct c; try (apply r_ret; [kinds|lia]).
    apply r_op; [apply o_symbol|kinds|intros c _]. destruct c; try (apply r_ret; [kinds|lia]).
    apply (o_elems 8 8); [lia|]. intros. apply o_val.
  - kinds.
  - unfold mcmp_called, cmp_symbol_typed, mcmp_symbol. rewrite snd_bind, s_val.
    destruct (cmp_val d h (ca_contract a) _) as [c|]; [|reflexivity]. cbn [rbind]. destruct c; try reflexivity.
    rewrite snd_bind. destruct (_ ?= _); try reflexivity.
    assert (E : forall f g x, (forall c, snd (f c) = g c) -> rbind x (fun c : comparison => snd (f c : op comparison)) = rbind x g).
    { intros f g [c|] E; [apply E|reflexivity]. }
    assert (F : forall c, snd (match c with Eq => cmp_elems 8 (mcmp_val d h) (ca_args a) (ca_args b) | _ => ret c end)
                = match c with Eq => cmp_list (cmp_val d h) (ca_args a) (ca_args b) | _ => Ok c end).
    { intros []; try reflexivity. rewrite s_elems. apply cmp_list_ext. intros. apply s_val. }
    destruct (get_tag (ca_name a)); rewrite ?s_val; try (apply E; exact F).
Qed.
Print Assumptions C79_call_comparison.

(* The argument words are indeed free: comparing two equal calls with many inline
   arguments reads any number of bytes and charges nothing. *)
Theorem C79_call_arguments_refuted :
  forall n, exists a b, forall d h bud,
  exists done, run_under bud (mcmp_called d h a b) = (bud, done, Ok Eq)
    /\ n < work Memory done /\ paid Memory done = 0.
Proof.
  intros n. set (a := {| ca_contract := 0; ca_name := 0x0000_0000_0000_000e; ca_args := repeat 0 (Z.to_nat n + 1) |}).
  exists a, a. intros d h bud. exists (repeat (Read 8) (Z.to_nat n + 1)).
  assert (V : mcmp_val d h 0 0 = ret Eq) by (destruct d; reflexivity).
  assert (E : forall k, cmp_elems 8 (mcmp_val d h) (repeat 0 k) (repeat 0 k) = (repeat (Read 8) k, Ok Eq)).
  { induction k as [|k IH]; [reflexivity|]. cbn [repeat cmp_elems]. rewrite V.
    unfold obnd, act, ret. cbn [fst snd app]. rewrite IH. reflexivity. }
  assert (M : mcmp_called d h a a = (repeat (Read 8) (Z.to_nat n + 1), Ok Eq)).
  { unfold mcmp_called. cbn [ca_contract ca_name ca_args a]. rewrite V.
    change (mcmp_symbol d h 14 14) with (@ret comparison Eq).
    rewrite E. reflexivity. }
  assert (W : forall k, work Memory (repeat (Read 8) k) = 8 * Z.of_nat k /\ paid Memory (repeat (Read 8) k) = 0).
  { induction k as [|k [I1 I2]]; [split; reflexivity|]. unfold work, paid in *. cbn [repeat sum_of did charged]. lia. }
  assert (T : forall k, take_steps bud (repeat (Read 8) k) = (bud, repeat (Read 8) k, None)).
  { induction k as [|k IH]; [reflexivity|]. cbn [repeat take_steps]. rewrite IH. reflexivity. }
  rewrite M. unfold run_under. cbn [fst snd]. rewrite T. destruct (W (Z.to_nat n + 1)%nat) as [W1 W2].
  split; [reflexivity|]. split; [lia|exact W2].
Qed.
Print Assumptions C79_call_arguments_refuted.

(* Creations with constructor arguments: the same for the 96 bytes of each. *)
Theorem C79_creation_comparison d a b :
  short_tag (cr_exe a) -> Forall short_tags (cr_args a) ->
  short_by (96 * Z.min (len (cr_args a)) (len (cr_args b))) (mcmp_creation d a b)
    (match bytes_cmp (cr_preimage a) (cr_preimage b) with
     | Eq => match exe_cmp (cr_exe a) (cr_exe b) with
             | Eq => cmp_list (cmp_scval d) (cr_args a) (cr_args b)
             | c => Ok c
             end
     | c => Ok c
     end).
Proof.
  intros St Fa. pose proof (len_pos (cr_args a)). pose proof (len_pos (cr_args b)).
  apply (O_short (on Memory (96 * Z.min (len (cr_args a)) (len (cr_args b))))).
  - unfold mcmp_creation. apply r_op; [apply o_fixed; lia|kinds|intros c _].
    destruct c; try (apply r_ret; [kinds|lia]).
    apply r_op; [apply o_exe, St|kinds|intros c _]. destruct c; try (apply r_ret; [kinds|lia]).
    apply (o_elems 96 96); [lia|]. intros x y Hx. apply o_scval. exact (proj1 (Forall_forall _ _) Fa x Hx).
  - kinds.
  - unfold mcmp_creation. rewrite snd_bind. cbn [snd mcmp_fixed obnd pay act ret rbind fst app].
    destruct (bytes_cmp _ _); try reflexivity. rewrite snd_bind. cbn [snd mcmp_exe mcmp_fixed obnd pay act ret rbind fst app].
    destruct (exe_cmp _ _); try reflexivity. rewrite s_elems. apply cmp_list_ext. intros. apply s_scval.
Qed.
Print Assumptions C79_creation_comparison.

Theorem C79_constructor_arguments_refuted :
  forall n, exists a b, forall d, (0 < d)%nat ->
  snd (mcmp_creation d a b) = Ok Eq
  /\ n < work Memory (fst (mcmp_creation d a b)) /\ paid Memory (fst (mcmp_creation d a b)) = 0.
Proof.
  intros n. set (a := {| cr_preimage := []; cr_exe := ExStellarAsset; cr_args := repeat SVoid (Z.to_nat n + 1) |}).
  exists a, a. intros d D. destruct d as [|d]; [lia|].
  assert (E : forall k, cmp_elems 96 (mcmp_scval (S d)) (repeat SVoid k) (repeat SVoid k) = (repeat (Read 96) k, Ok Eq)).
  { induction k as [|k IH]; [reflexivity|]. cbn [repeat cmp_elems].
    change (mcmp_scval (S d) SVoid SVoid) with (@ret comparison Eq).
    unfold obnd, act, ret. cbn [fst snd app]. rewrite IH. reflexivity. }
  assert (W : forall k, work Memory (repeat (Read 96) k) = 96 * Z.of_nat k /\ paid Memory (repeat (Read 96) k) = 0).
  { induction k as [|k [I1 I2]]; [split; reflexivity|]. unfold work, paid in *. cbn [repeat sum_of did charged]. lia. }
  destruct (W (Z.to_nat n + 1)%nat) as [W1 W2].
  assert (M : mcmp_creation (S d) a a =
    ([Pay MemCmp (Some 80); Match 80; Pay MemCmp (Some 72); Match 0] ++ repeat (Read 96) (Z.to_nat n + 1), Ok Eq)).
  { unfold mcmp_creation. cbn [cr_preimage cr_exe cr_args a]. rewrite E. reflexivity. }
  rewrite M. cbn [fst snd]. rewrite work_app, paid_app, W1, W2. split; [reflexivity|].
  split; [|reflexivity]. unfold work. cbn [sum_of did]. lia.
Qed.
Print Assumptions C79_constructor_arguments_refuted.

(* References to external executables: the comparison is charged as 72 bytes
   however long their tags are. *)
Theorem C79_long_tags_refuted :
  forall n, exists a b, forall d, (0 < d)%nat ->
  snd (mcmp_scval d a b) = Ok Eq
  /\ work Bytes (fst (mcmp_scval d a b)) > paid Bytes (fst (mcmp_scval d a b)) + n
  /\ paid Bytes (fst (mcmp_scval d a b)) = 72.
Proof.
  intros n. set (t := repeat 97 (Z.to_nat n + 25)). set (o := AContract (repeat 0 32)).
  exists (SContractInstance (ExExternalRef o t) None), (SContractInstance (ExExternalRef o t) None).
  intros d D. destruct d as [|d]; [lia|].
  assert (C : forall l, bytes_cmp l l = Eq).
  { induction l as [|x l IH]; [reflexivity|]. cbn [bytes_cmp]. rewrite Z.compare_refl. exact IH. }
  assert (X : forall l, examined l l = len l).
  { induction l as [|x l IH]; [reflexivity|]. cbn [examined]. rewrite Z.eqb_refl, IH, len_cons. reflexivity. }
  assert (O1 : addr_cmp o o = Eq) by reflexivity.
  assert (E1 : exe_cmp (ExExternalRef o t) (ExExternalRef o t) = Eq).
  { unfold exe_cmp. rewrite ?O1. cbn [then_cmp]. rewrite ?C. reflexivity. }
  cbn [mcmp_scval]. unfold mcmp_exe, mcmp_fixed, exe_examined. rewrite E1, O1, X.
  unfold obnd, pay, act, ret. cbn [fst snd app].
  assert (L : len t = Z.of_nat (Z.to_nat n + 25)) by (unfold len, t; rewrite repeat_length; reflexivity).
  unfold work, paid. cbn [sum_of did charged MemCmp]. split; [reflexivity|]. split; lia.
Qed.
Print Assumptions C79_long_tags_refuted.

(* ------------------------------------------------------------ examples *)

Example C79_hyp_budget : metering ex_budget.
Proof. exact (C79_every_budget_meters _ ex_fresh). Qed.

(* A push that the budget can pay, and one that it cannot: 1000 cpu, 5000 bytes. *)
Example C79_hyp_vector :
  (exists b d, run_under ex_budget (mv_push_back 8 8 [4; 20] 36) = (b, d, Ok [4; 20; 36])
     /\ work Heap d = 24 /\ paid Heap d = 24 /\ work Memory d = 48 /\ paid Memory d = 48)
  /\ (exists b d, run_under ex_budget (mv_append 8 8 (repeat 4 400) (repeat 4 400)) = (b, d, Err (ESys TBudget CExceededLimit))
     /\ work Heap d = 6400 /\ covered_but 6424 d).
Proof.
  split.
  - eexists. eexists. split; [vm_compute; reflexivity|]. repeat split; reflexivity.
  - eexists. eexists. split; [vm_compute; reflexivity|]. split; [reflexivity|].
    intros []; vm_compute; discriminate.
Qed.
Example C79_hyp_storage :
  let k := LKData (AContract (repeat 1 32)) (SVec (Some [SSymbol [66]; SU32 7])) Persistent in
  let m := [(LKAccount (repeat 2 32), 1); (k, 2)] in
  Forall (fun p => short_key (fst p)) m /\ short_key k
  /\ snd (mm_get 40 40 (mcmp_lkey 10) m k) = Ok (Some 2)
  /\ (exists b d, run_under ex_budget (mm_get 40 40 (mcmp_lkey 10) m k) = (b, d, Ok (Some 2)) /\ 0 < work Bytes d)
  /\ within (SVec (Some [SSymbol [66]; SU32 7])) 2 /\ owned (SVec (Some [SSymbol [66]; SU32 7])) = 193.
Proof.
  cbv zeta. split; [repeat constructor|]. split; [repeat constructor|]. split; [vm_compute; reflexivity|].
  split; [|split; [cbn; auto|reflexivity]].
  eexists. eexists. split; [vm_compute; reflexivity|]. reflexivity.
Qed.
