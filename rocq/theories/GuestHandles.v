(* Handle translation and the transfers of a run. *)
From Coq Require Import ZArith Lia List Bool.
From Verif Require Import Prelude ValModel ValSpec ValProofs SymbolProofs GuestProofs ContainerModel ContainerSpec HeapModel HeapSpec TreeProofs HeapProofs ConvProofs
  HostFnModel HostFnSpec HostFnProofs HostFnProofs2 GuestModel GuestSpec.
Import ListNotations.
Open Scope Z_scope.
Ltac Zify.zify_post_hook ::= Z.div_mod_to_equations.

(* ------------------------------------------------------------ words *)

Lemma as_u64_word x : word (as_u64 x).
Proof. unfold word, as_u64. lia. Qed.
Lemma as_u64_id w : word w -> as_u64 w = w.
Proof. unfold word, as_u64. lia. Qed.
Lemma get_major_range v : 0 <= get_major v < 2 ^ 32.
Proof. unfold get_major, as_u32. lia. Qed.
Lemma obj_tag_real v : is_object v = true -> real_tag (get_tag v) = true.
Proof. unfold is_object, u8_is_object, get_tag. cbn [tag_num]. intros H. apply tag_from_u8_obj. lia. Qed.
Lemma obj_tag_num v : is_object v = true -> tag_num (get_tag v) = get_tag_u8 v.
Proof. intros H. symmetry. apply get_tag_num. now apply obj_tag_real. Qed.

Lemma object_word_facts hd t : 0 <= hd < 2 ^ 32 -> In t object_tags ->
  object_word hd t = word_of_atom (AObj t hd) /\ get_major (object_word hd t) = hd /\ get_tag (object_word hd t) = t
  /\ is_object (object_word hd t) = true /\ word (object_word hd t) /\ is_good (object_word hd t) = true.
Proof.
  intros H I. assert (E : object_word hd t = word_of_atom (AObj t hd)).
  { unfold object_word. rewrite fmm_eq by lia. cbn [word_of_atom]. lia. }
  assert (OK : atom_ok (AObj t hd)) by (split; auto).
  pose proof (word_of_atom_word _ OK) as W.
  rewrite E. split; [reflexivity|]. split.
  { rewrite get_major_eq by auto. cbn [word_of_atom]. pose proof (tag_num_range t). lia. }
  assert (T : get_tag (word_of_atom (AObj t hd)) = t) by (now rewrite get_tag_word_of_atom).
  split; auto. split. { apply u8_is_object_tag. rewrite T. exact I. }
  split; auto.
  unfold is_good. rewrite T. rewrite get_minor_eq. cbn [word_of_atom]. pose proof (tag_num_range t).
  assert (M : (hd * 2 ^ 32 + tag_num t) / 2 ^ 8 mod 2 ^ 24 = 0) by lia. rewrite M.
  cbn in I. repeat (destruct I as [<-|I]; [reflexivity|]). destruct I.
Qed.

Lemma obj_in_tags v : is_object v = true -> In (get_tag v) object_tags.
Proof. intros H. now apply u8_is_object_tag. Qed.

Lemma i2h n : Z.of_nat n <= u32_max -> index_to_handle n true = Ok (as_u32 (2 * Z.of_nat n)).
Proof.
  intros L. unfold index_to_handle, fits_u32. destruct (Z.leb_spec (Z.of_nat n) u32_max); [|lia].
  rewrite Z.shiftl_mul_pow2 by lia. change (2 ^ 1) with 2. now rewrite Z.mul_comm.
Qed.
Lemma i2h_err n e : index_to_handle n true = Err e -> u32_max < Z.of_nat n.
Proof. intros H. destruct (Z.leb_spec (Z.of_nat n) u32_max) as [L|L]; [|lia]. rewrite i2h in H by auto. discriminate. Qed.

Lemma rel_bit h : 0 <= h -> is_relative_handle h = true <-> exists i, h = 2 * Z.of_nat i.
Proof.
  intros P. unfold is_relative_handle. rewrite land_1, Z.eqb_eq. split.
  - intros H. exists (Z.to_nat (h / 2)). lia.
  - intros [i ->]. lia.
Qed.
Lemma h2i i : handle_to_index (2 * Z.of_nat i) = i.
Proof. unfold handle_to_index. rewrite Z.shiftr_div_pow2 by lia. change (2 ^ 1) with 2. lia. Qed.

(* ------------------------------------------------------------ translation *)

Lemma r2a_names table w a : relative_to_absolute table w = Ok a <-> names table w a.
Proof.
  unfold relative_to_absolute. split.
  - destruct (is_object w) eqn:O.
    2:{ intros [= <-]. now constructor. }
    destruct (is_relative_handle (get_major w)) eqn:R; [|discriminate].
    destruct (proj1 (rel_bit _ (proj1 (get_major_range w))) R) as [i Hi]. rewrite Hi, h2i.
    destruct (nth_error table i) as [x|] eqn:N; [|discriminate].
    destruct (Z.eqb_spec (tag_num (get_tag x)) (tag_num (get_tag w))) as [E|]; [|discriminate].
    intros [= <-]. apply tag_num_inj in E. now apply (nm_obj table w i x).
  - intros H. destruct H as [w O|w i a O Hi N T].
    + now rewrite O.
    + rewrite O, Hi. rewrite (proj2 (rel_bit (2 * Z.of_nat i) ltac:(lia))) by eauto. rewrite h2i, N, T, Z.eqb_refl. reflexivity.
Qed.
Lemma names_fun table w a b : names table w a -> names table w b -> a = b.
Proof. rewrite <- !r2a_names. congruence. Qed.
Lemma r2a_err table w e : relative_to_absolute table w = Err e -> e = e_val_invalid.
Proof.
  unfold relative_to_absolute. destruct (is_object w); [|discriminate]. destruct (is_relative_handle _); [|congruence].
  destruct (nth_error _ _); [|congruence]. destruct (_ =? _); congruence.
Qed.
Lemma r2a_none table w : (forall a, ~ names table w a) -> relative_to_absolute table w = Err e_val_invalid.
Proof.
  intros N. destruct (relative_to_absolute table w) eqn:E; [|now apply r2a_err in E; subst].
  apply r2a_names in E. now apply N in E.
Qed.
Lemma names_app table x w a : names table w a -> names (table ++ x) w a.
Proof.
  intros [w' O|w' i b O H N T]; [now constructor|]. apply (nm_obj _ w' i b); auto.
  rewrite nth_error_app1; auto. apply nth_error_Some. congruence.
Qed.
Lemma names_tag table w a : names table w a -> get_tag_u8 a = get_tag_u8 w /\ is_object a = is_object w.
Proof.
  intros [w' O|w' i b O H N T]; auto.
  assert (R : real_tag (get_tag b) = true) by (rewrite T; now apply obj_tag_real).
  pose proof (get_tag_num b R) as E. rewrite T, obj_tag_num in E by auto. unfold is_object. now rewrite E.
Qed.
Lemma names_type table w a ty : names table w a -> has_type ty a = has_type ty w.
Proof. intros N. destruct (names_tag _ _ _ N) as [E _]. destruct ty; cbn; auto; unfold has_tag; now rewrite E. Qed.

Lemma a2r_cases table a t r : absolute_to_relative table a = (t, r) ->
  (is_object a = false /\ t = table /\ r = Ok a)
  \/ (is_object a = true /\ is_relative_handle (get_major a) = true /\ t = table /\ r = Err e_host_internal)
  \/ (is_object a = true /\ t = table ++ [a] /\ Z.of_nat (length table) <= u32_max
      /\ r = Ok (object_word (as_u32 (2 * Z.of_nat (length table))) (get_tag a)))
  \/ (is_object a = true /\ t = table ++ [a] /\ u32_max < Z.of_nat (length table) /\ exists e, r = Err e).
Proof.
  unfold absolute_to_relative. destruct (is_object a) eqn:O.
  - destruct (is_relative_handle _) eqn:R; [intros E; apply pair_equal_spec in E as [<- <-]; tauto|].
    destruct (Z.leb_spec (Z.of_nat (length table)) u32_max) as [L|L].
    + cbv zeta. rewrite (i2h (length table) L). intros E. apply pair_equal_spec in E as [<- <-]. right; right; left. auto.
    + destruct (index_to_handle (length table) true) as [z|e] eqn:I.
      * exfalso. unfold index_to_handle, fits_u32 in I. destruct (Z.leb_spec (Z.of_nat (length table)) u32_max); [lia|discriminate].
      * intros E. apply pair_equal_spec in E as [<- <-]. right; right; right. eauto.
  - intros E. apply pair_equal_spec in E as [<- <-]. auto.
Qed.

Lemma word_as_u32 n : 0 <= as_u32 n < 2 ^ 32.
Proof. unfold as_u32. lia. Qed.

Lemma a2r_back table a t w : absolute_to_relative table a = (t, Ok w) -> Z.of_nat (length table) < 2 ^ 31 ->
  names t w a /\ (is_object a = true -> w = rel_word (get_tag a) (length table)).
Proof.
  intros E L. destruct (a2r_cases _ _ _ _ E) as [(O & -> & R)|[(_ & _ & _ & R)|[(O & -> & _ & R)|(_ & _ & B & e & R)]]];
    try discriminate R; apply (f_equal (fun r => match r with Ok x => x | _ => 0 end)) in R; cbn beta iota in R; subst w.
  - split; [now constructor|]. rewrite O. discriminate.
  - assert (H : as_u32 (2 * Z.of_nat (length table)) = 2 * Z.of_nat (length table)) by (unfold as_u32; lia).
    rewrite H. destruct (object_word_facts (2 * Z.of_nat (length table)) (get_tag a) ltac:(lia) (obj_in_tags _ O)) as (F1 & F2 & F3 & F4 & F5 & F6).
    split.
    + apply (nm_obj _ _ (length table) a); auto. rewrite nth_error_app2, Nat.sub_diag by lia. reflexivity.
    + intros _. rewrite F1. reflexivity.
Qed.

(* ------------------------------------------------------------ transfers *)

(* How transfers change the relative objects of a frame. *)
Inductive transfers : list Z -> list xfer -> list Z -> Prop :=
| tr_nil t : transfers t [] t
| tr_took t x a r t' : relative_to_absolute t x = Ok a -> transfers t r t' -> transfers t (Took x a :: r) t'
| tr_gave t x a t1 r t' : absolute_to_relative t a = (t1, Ok x) -> transfers t1 r t' -> transfers t (Gave x a :: r) t'
| tr_lost t a e t1 r t' : absolute_to_relative t a = (t1, Err e) -> transfers t1 r t' -> transfers t r t'.

Lemma transfers_app t1 l1 t2 : transfers t1 l1 t2 -> forall l2 t3, transfers t2 l2 t3 -> transfers t1 (l1 ++ l2) t3.
Proof.
  induction 1; intros l2 t3 H2; cbn; auto.
  - econstructor; eauto.
  - econstructor; eauto.
  - eapply tr_lost; eauto.
Qed.
Lemma transfers_table t l t' : transfers t l t' -> exists x, t' = t ++ x.
Proof.
  induction 1 as [t|t x a r t' R H IH|t x a t1 r t' A H IH|t a e t1 r t' A H IH]; auto.
  - exists []. now rewrite app_nil_r.
  - destruct IH as [y ->]. destruct (a2r_cases _ _ _ _ A) as [(_ & -> & _)|[(_ & _ & -> & _)|[(_ & -> & _)|(_ & -> & _)]]]; eauto;
      rewrite <- app_assoc; eauto.
  - destruct IH as [y ->]. destruct (a2r_cases _ _ _ _ A) as [(_ & -> & _)|[(_ & _ & -> & _)|[(_ & -> & _)|(_ & -> & _)]]]; eauto;
      rewrite <- app_assoc; eauto.
Qed.

Definition moves (g g' : guest) : Prop :=
  exists l, g_log g' = g_log g ++ l /\ transfers (g_table g) l (g_table g').

Lemma moves_refl g : moves g g.
Proof. exists []. rewrite app_nil_r. split; auto. constructor. Qed.
Lemma moves_trans a b c : moves a b -> moves b c -> moves a c.
Proof.
  intros (l & L & T) (l2 & L2 & T2). exists (l ++ l2). rewrite L2, L, app_assoc. split; auto.
  eapply transfers_app; eauto.
Qed.
Lemma moves_heap g g' h : moves g g' -> moves g (set_heap g' h).
Proof. intros H. exact H. Qed.
Lemma moves_mem g g' m : moves g g' -> moves g (set_mem g' m).
Proof. intros H. exact H. Qed.

Lemma take_moves g w g' r : take g w = (g', r) -> moves g g'.
Proof.
  unfold take. destruct (relative_to_absolute (g_table g) w) as [a|e] eqn:E; intros X; apply pair_equal_spec in X as [<- _].
  - exists [Took w a]. split; auto. eapply tr_took; eauto. constructor.
  - apply moves_refl.
Qed.
Lemma give_moves g a g' r : give g a = (g', r) -> moves g g'.
Proof.
  unfold give. destruct (absolute_to_relative (g_table g) a) as [t [w|e]] eqn:E; intros X; apply pair_equal_spec in X as [<- _].
  - exists [Gave w a]. split; auto. eapply tr_gave; eauto. constructor.
  - exists []. rewrite app_nil_r. split; auto. eapply tr_lost; eauto. constructor.
Qed.
Lemma dispatch_arg_moves g ty i g' r : dispatch_arg g ty i = (g', r) -> moves g g'.
Proof.
  unfold dispatch_arg. destruct (marshal_from_wasm i) as [v|]; [|intros X; apply pair_equal_spec in X as [<- _]; apply moves_refl].
  destruct (has_type ty v); [|intros X; apply pair_equal_spec in X as [<- _]; apply moves_refl].
  destruct (take g v) as [g1 r1] eqn:T. apply take_moves in T.
  destruct r1; [destruct (has_type ty _)|]; intros X; apply pair_equal_spec in X as [<- _]; exact T.
Qed.
Lemma dispatch_args_moves l : forall g g' r, dispatch_args g l = (g', r) -> moves g g'.
Proof.
  induction l as [|[ty i] l IH]; intros g g' r; cbn.
  - intros X; apply pair_equal_spec in X as [<- _]. apply moves_refl.
  - destruct (dispatch_arg g ty i) as [g1 a] eqn:D. apply dispatch_arg_moves in D. destruct a.
    + destruct (dispatch_args g1 l) as [g2 rs] eqn:DD. intros X; apply pair_equal_spec in X as [<- _].
      eapply moves_trans; eauto.
    + intros X; apply pair_equal_spec in X as [<- _]. auto.
Qed.
Lemma dispatch_result_moves g a g' r : dispatch_result g a = (g', r) -> moves g g'.
Proof.
  unfold dispatch_result. destruct (check_val_integrity _ _).
  - apply give_moves.
  - intros X; apply pair_equal_spec in X as [<- _]. apply moves_refl.
Qed.

Ltac pe X := apply pair_equal_spec in X as [<- <-].

Lemma host_call_moves d g op g' r : host_call d g op = (g', r) -> moves g g'.
Proof.
  unfold host_call. destruct (arg_types op) as [tys|]; [|intros X; pe X; apply moves_refl].
  destruct (dispatch_args g _) as [g1 ra] eqn:D. apply dispatch_args_moves in D.
  destruct ra as [la|]; [|intros X; pe X; auto].
  destruct (hstep d (g_heap g1) _) as [h rr] eqn:HS.
  destruct rr as [ws|]; [|intros X; pe X; exact D].
  destruct ws as [|a [|]]; try (intros X; pe X; exact D).
  intros X. apply dispatch_result_moves in X. exact (moves_trans _ _ _ (moves_heap _ _ h D) X).
Qed.

Lemma new_object_moves g o g' r : new_object g o = (g', r) -> moves g g'.
Proof.
  unfold new_object. destruct (add_host_object (g_heap g) o) as [h [a|e]] eqn:A; intros X.
  - apply dispatch_result_moves in X. exact X.
  - pe X. exact (moves_refl g).
Qed.
Lemma write_loop_moves l : forall g pos g' r, write_loop g pos l = (g', r) -> moves g g'.
Proof.
  induction l as [|v l IH]; intros g pos g' r; cbn.
  - intros X; pe X. apply moves_refl.
  - destruct (give g v) as [g1 w] eqn:G. apply give_moves in G. destruct w.
    + intros X. apply IH in X. eapply moves_trans; [|exact X]. exact (moves_mem _ _ _ G).
    + intros X; pe X. auto.
Qed.
Lemma write_vals_moves g pos l g' r : write_vals g pos l = (g', r) -> moves g g'.
Proof. unfold write_vals. destruct (vals_range _ _ _); [apply write_loop_moves|]. intros X; pe X; apply moves_refl. Qed.
Lemma read_loop_moves n : forall g pos g' r, read_loop g pos n = (g', r) -> moves g g'.
Proof.
  induction n as [|n IH]; intros g pos g' r; cbn.
  - intros X; pe X. apply moves_refl.
  - destruct (take g _) as [g1 a] eqn:G. apply take_moves in G. destruct a.
    + destruct (read_loop g1 (pos + 8) n) as [g2 rr] eqn:RL. apply IH in RL. intros X; pe X. eapply moves_trans; eauto.
    + intros X; pe X. auto.
Qed.
Lemma read_vals_moves g pos n g' r : read_vals g pos n = (g', r) -> moves g g'.
Proof. unfold read_vals. destruct (vals_range _ _ _); [apply read_loop_moves|]. intros X; pe X; apply moves_refl. Qed.

Lemma with_arg_moves g ty i k g' r : (forall g1 a g' r, k g1 a = (g', r) -> moves g1 g') ->
  with_arg g ty i k = (g', r) -> moves g g'.
Proof.
  intros K. unfold with_arg. destruct (dispatch_arg g ty i) as [g1 r1] eqn:D. apply dispatch_arg_moves in D.
  destruct r1; intros X.
  - apply K in X. eapply moves_trans; eauto.
  - pe X. auto.
Qed.

Ltac mv X := unfold fail in X; first
  [ pe X; solve [apply moves_refl | assumption | apply moves_mem, moves_refl]
  | match type of X with
    | new_object _ _ = _ => apply new_object_moves in X; assumption
    | (match ?e with _ => _ end) = _ => let H := fresh "Q" in destruct e eqn:H; mv X
    end ].

Lemma mem_call_moves d g op g' r : mem_call d g op = (g', r) -> moves g g'.
Proof.
  destruct op as [k obj op lp len|obj op lp len|k lp len|s lp len|pos len|v pos len|sp ks vs len|sp m ks vs len]; cbn [mem_call].
  - apply with_arg_moves. intros g1 a g2 r2 X. unfold copy_to in X. mv X.
  - apply with_arg_moves. intros g1 a g2 r2 X. unfold copy_from in X. cbv zeta in X. mv X.
  - intros X. unfold new_from in X. mv X.
  - apply with_arg_moves. intros g1 a g2 r2 X. unfold symbol_index in X. pe X. apply moves_refl.
  - intros X. unfold vec_new in X. destruct (read_vals g pos len) as [g1 rr] eqn:R. apply read_vals_moves in R.
    destruct (rbind _ _); [apply new_object_moves in X; eapply moves_trans; eauto|]. unfold fail in X. pe X. auto.
  - apply with_arg_moves. intros g1 a g2 r2 X. unfold vec_unpack in X. destruct (visit_vec _ _); [|mv X].
    destruct (_ =? _); [|mv X]. destruct (write_vals _ _ _) as [g3 r3] eqn:W. apply write_vals_moves in W. pe X. auto.
  - intros X. unfold map_new in X. destruct (scan_slices _ _ _ _); [|mv X]. destruct (read_vals g vs len) as [g1 rr] eqn:R.
    apply read_vals_moves in R. destruct rr; [|mv X]. destruct (map_from_slices _ _ _ _ _) as [h rm].
    destruct rm; [|unfold fail in X; pe X; exact R]. apply new_object_moves in X. exact (moves_trans _ _ _ (moves_heap _ _ h R) X).
  - apply with_arg_moves. intros g1 a g2 r2 X. unfold map_unpack_lm in X. destruct (rbind _ _); [|mv X].
    destruct (write_vals _ _ _) as [g3 r3] eqn:W. apply write_vals_moves in W. pe X. auto.
Qed.
Lemma give_all_moves l : forall g g' r, give_all g l = (g', r) -> moves g g'.
Proof.
  induction l as [|a l IH]; intros g g' r; cbn.
  - intros X; pe X. apply moves_refl.
  - destruct (give g a) as [g1 w] eqn:G. apply give_moves in G. destruct w.
    + destruct (give_all g1 l) as [g2 ws] eqn:GA. apply IH in GA. intros X; pe X. eapply moves_trans; eauto.
    + intros X; pe X. auto.
Qed.

(* ------------------------------------------------------------ logs *)

Lemma grants_app f a b : grants f (a ++ b) = grants f a ++ grants f b.
Proof. unfold grants. apply flat_map_app. Qed.
Lemma grants_other f f' l : f <> f' -> grants f (map (pair f') l) = [].
Proof.
  intros N. unfold grants. induction l as [|e l IH]; cbn [map flat_map]; auto. rewrite IH. destruct e; auto.
  destruct (Nat.eqb_spec f' f); [congruence|reflexivity].
Qed.
Lemma grants_In f log x a : In (x, a) (grants f log) -> In (f, Gave x a) log /\ is_object a = true.
Proof.
  unfold grants. rewrite in_flat_map. intros ([f' [w b|w b]] & I & H); [|destruct H].
  destruct (Nat.eqb_spec f' f) as [->|]; [|destruct H]. cbn in H. destruct (is_object b) eqn:O; [|destruct H].
  destruct H as [[= -> ->]|[]]. auto.
Qed.
Lemma In_grants f log x a : In (f, Gave x a) log -> is_object a = true -> In (x, a) (grants f log).
Proof.
  intros I O. unfold grants. rewrite in_flat_map. exists (f, Gave x a). split; auto. rewrite Nat.eqb_refl, O. now left.
Qed.

(* The frame's relative objects are those it was granted, the [n]th under handle 2n. *)
Definition tracks (t : list Z) (gr : list (Z * Z)) : Prop :=
  (exists extra, t = map snd gr ++ extra /\ (extra <> [] -> u32_max < Z.of_nat (length gr)))
  /\ forall n x a, nth_error gr n = Some (x, a) ->
       is_object a = true /\ x = object_word (as_u32 (2 * Z.of_nat n)) (get_tag a).

(* Every object a frame used had been granted to it under the same handle and type. *)
Definition sourced (log : list (nat * xfer)) : Prop :=
  forall pre f x a post, log = pre ++ (f, Took x a) :: post ->
  if is_object x then
    exists x', In (f, Gave x' a) pre /\ get_tag a = get_tag x /\ get_tag x' = get_tag x
      /\ get_major x' = get_major x /\ (word x -> is_good x = true -> x' = x)
  else a = x.

Lemma snoc_split {A} (l : list A) (e : A) pre x post :
  l ++ [e] = pre ++ x :: post -> (post = [] /\ pre = l /\ x = e) \/ (exists post', post = post' ++ [e] /\ l = pre ++ x :: post').
Proof.
  destruct (rev post) as [|y r] eqn:R.
  - assert (post = []) by (rewrite <- (rev_involutive post), R; reflexivity). subst. intros E.
    apply app_inj_tail in E as [-> ->]. auto.
  - assert (P : post = rev r ++ [y]) by (rewrite <- (rev_involutive post), R; reflexivity). subst.
    intros E. right. exists (rev r). replace (pre ++ x :: rev r ++ [y]) with ((pre ++ x :: rev r) ++ [y]) in E
      by (now rewrite <- app_assoc). apply app_inj_tail in E as [-> ->]. auto.
Qed.

Lemma good_obj_word v : word v -> is_good v = true -> is_object v = true -> v = object_word (get_major v) (get_tag v).
Proof.
  intros W G O. destruct (object_word_facts (get_major v) (get_tag v) (get_major_range v) (obj_in_tags v O)) as (E & _).
  rewrite E. cbn [word_of_atom]. rewrite get_major_eq, obj_tag_num by auto.
  assert (M : get_minor v = 0).
  { unfold is_good in G. pose proof (obj_in_tags v O) as I. remember (get_tag v) as t. clear -G I.
    cbn in I. repeat (destruct I as [<-|I]; [now apply Z.eqb_eq|]). destruct I. }
  rewrite get_minor_eq in M. rewrite get_tag_u8_eq. unfold word in W. lia.
Qed.

Lemma names_source t gr w a : tracks t gr -> names t w a -> is_object w = true ->
  exists x, In (x, a) gr /\ get_tag a = get_tag w /\ get_tag x = get_tag w /\ get_major x = get_major w
    /\ (word w -> is_good w = true -> x = w).
Proof.
  intros [(extra & -> & E) G] N O. destruct N as [w O'|w i a O' H N T]; [congruence|].
  pose proof (get_major_range w) as R. rewrite H in R.
  assert (L : (i < length gr)%nat).
  { destruct extra as [|y e].
    - rewrite app_nil_r in N. rewrite <- (map_length snd). apply nth_error_Some. congruence.
    - unfold u32_max in E. specialize (E ltac:(discriminate)). lia. }
  rewrite nth_error_app1 in N by (now rewrite map_length).
  destruct (nth_error gr i) as [[x b]|] eqn:Ni.
  2:{ apply nth_error_None in Ni. lia. }
  rewrite (map_nth_error snd i gr Ni) in N. injection N as <-. cbn [snd] in *.
  destruct (G i x b Ni) as [Ob Ex]. exists x. apply nth_error_In in Ni.
  assert (A32 : as_u32 (2 * Z.of_nat i) = 2 * Z.of_nat i) by (unfold as_u32; lia). rewrite A32 in Ex.
  destruct (object_word_facts (2 * Z.of_nat i) (get_tag b) ltac:(lia) (obj_in_tags b Ob)) as (F1 & F2 & F3 & _).
  subst x. split; auto. split; auto. split; [congruence|]. split; [congruence|].
  intros W Gd. rewrite (good_obj_word w W Gd O), H, T. reflexivity.
Qed.

Lemma tracks_gave t gr a t1 x : tracks t gr -> absolute_to_relative t a = (t1, Ok x) ->
  tracks t1 (if is_object a then gr ++ [(x, a)] else gr).
Proof.
  intros [(extra & E & X) G] A. destruct (a2r_cases _ _ _ _ A) as [(O & -> & R)|[(_ & _ & _ & R)|[(O & T & L & R)|(_ & _ & B & e & R)]]];
    try discriminate R; rewrite O.
  - split; eauto.
  - assert (extra = []).
    { destruct extra as [|y ex]; auto. specialize (X ltac:(discriminate)). subst t. rewrite app_length, map_length in L. lia. }
    subst extra. rewrite app_nil_r in E. split.
    + exists []. rewrite app_nil_r, map_app. cbn. split; [now rewrite T, E|congruence].
    + intros n y b N. destruct (Nat.lt_ge_cases n (length gr)) as [Ln|Ln].
      * rewrite nth_error_app1 in N by auto. eauto.
      * rewrite nth_error_app2 in N by auto. destruct (n - length gr)%nat as [|k] eqn:K; [|destruct k; discriminate].
        cbn in N. apply (f_equal (fun o => match o with Some p => p | None => (0, 0) end)) in N. cbn beta iota in N.
        apply pair_equal_spec in N as [<- <-]. split; auto.
        apply (f_equal (fun r => match r with Ok x => x | _ => 0 end)) in R. cbn beta iota in R. rewrite R.
        assert (n = length t) by (rewrite E, map_length; lia). now subst n.
Qed.
Lemma tracks_lost t gr a t1 e : tracks t gr -> absolute_to_relative t a = (t1, Err e) -> tracks t1 gr.
Proof.
  intros [(extra & E & X) G] A. destruct (a2r_cases _ _ _ _ A) as [(O & -> & R)|[(_ & _ & -> & R)|[(O & T & L & R)|(_ & -> & B & R)]]];
    try discriminate R.
  - split; eauto.
  - split; auto. exists (extra ++ [a]). rewrite app_assoc, <- E. split; auto. intros _.
    destruct extra as [|y ex]; [|apply X; discriminate]. subst t. rewrite app_nil_r, map_length in B. auto.
Qed.

Lemma transfers_log f t l t' : transfers t l t' -> forall log, tracks t (grants f log) -> sourced log ->
  tracks t' (grants f (log ++ map (pair f) l)) /\ sourced (log ++ map (pair f) l).
Proof.
  induction 1 as [t|t x a r t' R H IH|t x a t1 r t' A H IH|t a e t1 r t' A H IH]; intros log TR S; cbn [map].
  - rewrite app_nil_r. auto.
  - replace (log ++ (f, Took x a) :: map (pair f) r) with ((log ++ [(f, Took x a)]) ++ map (pair f) r) by (now rewrite <- app_assoc).
    apply IH.
    + rewrite grants_app. cbn. now rewrite app_nil_r.
    + intros pre f' x' a' post E. apply snoc_split in E as [(-> & -> & [= -> -> ->])|(post' & -> & E)].
      2:{ exact (S pre f' x' a' post' E). }
      apply r2a_names in R. destruct (is_object x) eqn:O.
      * destruct (names_source t _ x a TR R O) as (y & I & F). apply grants_In in I as [I _]. exists y. tauto.
      * destruct R as [w|w i b O']; [reflexivity|congruence].
  - replace (log ++ (f, Gave x a) :: map (pair f) r) with ((log ++ [(f, Gave x a)]) ++ map (pair f) r) by (now rewrite <- app_assoc).
    apply IH.
    + rewrite grants_app. cbn. rewrite Nat.eqb_refl. cbn. pose proof (tracks_gave _ _ _ _ _ TR A) as T.
      destruct (is_object a); rewrite ?app_nil_r; auto.
    + intros pre f' x' a' post E. apply snoc_split in E as [(_ & _ & E)|(post' & -> & E)]; [discriminate|].
      exact (S pre f' x' a' post' E).
  - apply IH; auto. eapply tracks_lost; eauto.
Qed.

(* ------------------------------------------------------------ runs *)

Definition log_inv (w : world) : Prop :=
  NoDup (map fr_id (w_frames w)) /\ Forall (fun f => (fr_id f < w_next w)%nat) (w_frames w)
  /\ Forall (fun e => (fst e < w_next w)%nat) (w_log w)
  /\ Forall (fun f => tracks (fr_table f) (grants (fr_id f) (w_log w))) (w_frames w)
  /\ sourced (w_log w).

Lemma tracks_nil : tracks [] [].
Proof. split; [exists []; split; auto; congruence|]. intros n x a N. destruct n; discriminate. Qed.

Lemma leave_inv w f rest g : w_frames w = f :: rest -> log_inv w -> moves (enter_guest w f) g -> log_inv (leave_guest w f rest g).
Proof.
  intros E (ND & LT & LL & TR & S) (l & Lg & T). unfold log_inv, leave_guest. cbn [w_frames w_next w_log].
  rewrite E in *. cbn [map fr_id]. inversion ND as [|? ? NI ND']; subst. inversion LT as [|? ? L0 LT']; subst.
  inversion TR as [|? ? T0 TR']; subst. cbn [enter_guest g_table g_log] in *. rewrite app_nil_l in Lg. rewrite Lg.
  destruct (transfers_log (fr_id f) _ _ _ T (w_log w) T0 S) as [T1 S1].
  split; [now constructor|]. split; [now constructor|]. split.
  { apply Forall_app. split; auto. apply Forall_forall. intros e I. apply in_map_iff in I as (y & <- & _). exact L0. }
  split; [|exact S1]. constructor; [exact T1|]. apply Forall_forall. intros f' I.
  rewrite Forall_forall in TR'. rewrite grants_app, grants_other, app_nil_r; [now apply TR'|].
  intros X. apply NI. rewrite <- X. now apply in_map.
Qed.
Lemma pop_inv w f rest : w_frames w = f :: rest -> log_inv w ->
  log_inv {| w_heap := w_heap w; w_frames := rest; w_next := w_next w; w_log := w_log w |}.
Proof.
  intros E (ND & LT & LL & TR & S). rewrite E in *. inversion ND; inversion LT; inversion TR; subst.
  unfold log_inv. cbn. auto.
Qed.
Lemma grants_fresh f log : Forall (fun e => (fst e < f)%nat) log -> grants f log = [].
Proof.
  intros F. unfold grants. induction F as [|[f' e] l L F IH]; cbn [flat_map]; auto. cbn in L. rewrite IH. destruct e; auto.
  destruct (Nat.eqb_spec f' f); [lia|reflexivity].
Qed.
Lemma push_inv w m : log_inv w ->
  log_inv {| w_heap := w_heap w; w_frames := {| fr_id := w_next w; fr_table := []; fr_mem := m |} :: w_frames w;
             w_next := S (w_next w); w_log := w_log w |}.
Proof.
  intros (ND & LT & LL & TR & S). unfold log_inv. cbn [w_frames w_next w_log map fr_id]. split.
  { constructor; auto. intros I. apply in_map_iff in I as (f & E & I). rewrite Forall_forall in LT. apply LT in I. lia. }
  split. { constructor; [cbn; lia|]. eapply Forall_impl; [|exact LT]. intros; cbn in *; lia. }
  split. { eapply Forall_impl; [|exact LL]. intros; cbn in *; lia. }
  split; auto. constructor; auto. cbn. rewrite grants_fresh by auto. apply tracks_nil.
Qed.

Lemma fst_eq {A B} (p : A * B) a b : p = (a, b) -> fst p = a.
Proof. now intros ->. Qed.

Lemma step_inv d w s : log_inv w -> log_inv (step d w s).
Proof.
  intros I. unfold step. destruct (w_frames w) as [|f rest] eqn:E; auto. destruct s as [op|op|o|m|args m|i|].
  - apply leave_inv; auto. destruct (host_call d _ op) as [g' r] eqn:H. eapply host_call_moves; eauto.
  - apply leave_inv; auto. destruct (mem_call d _ op) as [g' r] eqn:H. eapply mem_call_moves; eauto.
  - apply leave_inv; auto. destruct (new_object _ o) as [g' r] eqn:H. eapply new_object_moves; eauto.
  - apply leave_inv; auto. exact (moves_mem _ _ m (moves_refl _)).
  - destruct (dispatch_arg _ _ args) as [g1 r] eqn:D. apply dispatch_arg_moves in D.
    pose proof (leave_inv w f rest g1 E I D) as I1. destruct (rbind _ _) as [l|]; [|exact I1].
    apply (push_inv _ m) in I1.
    match type of I1 with log_inv ?w3 =>
      refine (leave_inv w3 (hd f (w_frames w3)) (tl (w_frames w3)) _ eq_refl I1 _) end.
    cbn [w_frames hd tl w_heap w_next w_log].
    destruct (give_all _ l) as [g2 r2] eqn:GA. apply give_all_moves in GA. exact GA.
  - destruct (marshal_from_wasm i) as [v|]; [|now apply (pop_inv w f rest)].
    destruct (take _ v) as [g1 r] eqn:T. apply take_moves in T. pose proof (leave_inv w f rest g1 E I T) as I1.
    assert (I2 := pop_inv (leave_guest w f rest g1) _ rest eq_refl I1). destruct r as [a|]; [|exact I2]. destruct rest as [|c rest']; [exact I2|].
    apply leave_inv; [reflexivity|exact I2|]. destruct (dispatch_result _ a) as [g2 r2] eqn:DR. eapply dispatch_result_moves; eauto.
  - now apply (pop_inv w f rest).
Qed.
Lemma run_inv d l : forall w, log_inv w -> log_inv (run d w l).
Proof. induction l as [|s l IH]; intros w I; cbn; auto. apply IH. now apply step_inv. Qed.
Lemma start_inv h args m : log_inv (start h args m).
Proof.
  unfold start.
  set (w0 := {| w_heap := h; w_frames := [{| fr_id := 0; fr_table := []; fr_mem := m |}]; w_next := 1; w_log := [] |}).
  assert (I0 : log_inv w0).
  { unfold log_inv, w0. cbn. split; [constructor; [tauto|constructor]|]. split; [repeat constructor; cbn; lia|]. split; [constructor|].
    split; [constructor; [apply tracks_nil|constructor]|]. intros pre f x a post E. destruct pre; discriminate. }
  apply (leave_inv w0 _ []); auto. destruct (give_all _ args) as [g r] eqn:G. apply give_all_moves in G. exact G.
Qed.
