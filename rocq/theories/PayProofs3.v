(* Comparisons and clones are paid for and answer as without metering. *)
From Coq Require Import ZArith Lia List Bool.
From Verif Require Import Prelude ValModel ContainerModel HeapModel TreeProofs BudgetModel BudgetSpec BudgetProofs StorageModel PaySpec PayModel PayProofs PayProofs2.
Import ListNotations.
Open Scope Z_scope.
Ltac Zify.zify_post_hook ::= idtac.

Lemma obnd_assoc {A B C} (m : op A) (g : A -> op B) (f : B -> op C) :
  obnd (obnd m g) f = obnd m (fun x => obnd (g x) f).
Proof.
  unfold obnd. destruct m as [t [x|e]]; cbn [fst snd]; [|reflexivity].
  destruct (g x) as [t2 [y|e]]; cbn [fst snd]; [|reflexivity].
  rewrite app_assoc. reflexivity.
Qed.

(* ------------------------------------------------------------ comparisons *)

Lemma examined_min a : forall b, 0 <= examined a b <= Z.min (len a) (len b).
Proof.
  assert (N : len (@nil Z) = 0) by reflexivity.
  induction a as [|x a IH]; intros [|y b]; cbn [examined]; rewrite ?N, ?len_cons;
    try (pose proof (len_pos a)); try (pose proof (len_pos b)); try lia.
  specialize (IH b). destruct (x =? y); lia.
Qed.
Lemma o_bytes a b : O none 0 (mcmp_bytes a b).
Proof.
  pose proof (examined_min a b). unfold mcmp_bytes.
  apply (r_pay _ _ _ _ _ Bytes); [auto|lia|kinds|].
  apply r_act; [cbn [good]; lia|kinds|kinds|lia|]. apply r_ret; [kinds|lia].
Qed.
Lemma o_fixed ds rs c : 0 <= rs <= ds -> O none 0 (mcmp_fixed ds rs c).
Proof.
  intros H. unfold mcmp_fixed. apply (r_pay _ _ _ _ _ Bytes); [auto|lia|kinds|].
  apply r_act; [cbn [good]; lia|kinds|kinds|lia|]. apply r_ret; [kinds|lia].
Qed.
Lemma o_pair {A} (f : A -> A -> op comparison) p q :
  O none 0 (f (fst p) (fst q)) -> O none 0 (f (snd p) (snd q)) -> O none 0 (mcmp_pair f p q).
Proof.
  intros H1 H2. unfold mcmp_pair. apply r_op; [exact H1|kinds|intros c _]. destruct c; [exact H2|apply O_ret..].
Qed.
Lemma s_pair {A} (f : A -> A -> op comparison) p q :
  snd (mcmp_pair f p q) = cmp_pair (fun x y => snd (f x y)) p q.
Proof.
  unfold mcmp_pair, cmp_pair. rewrite snd_bind. destruct p, q. cbn [fst snd].
  destruct (snd (f _ _)) as [c|e]; [|reflexivity]. destruct c; reflexivity.
Qed.
Lemma o_exe a b : short_tag a -> O none 0 (mcmp_exe a b).
Proof.
  intros S. unfold mcmp_exe. apply o_fixed. destruct a as [h| |x s], b as [h'| |y t]; cbn [exe_examined]; try lia.
  unfold short_tag, tag_bytes in S. pose proof (examined_min s t). destruct (addr_cmp x y); lia.
Qed.

Lemma tags_vec l : short_tags (SVec (Some l)) -> Forall short_tags l.
Proof. cbn [short_tags]. induction l as [|x l IH]; [constructor|]. intros [H1 H2]. constructor; auto. Qed.
Lemma tags_pairs m :
  (fix go (m : list (scval * scval)) : Prop :=
    match m with [] => True | (a, b) :: m => short_tags a /\ short_tags b /\ go m end) m ->
  Forall (fun p => short_tags (fst p) /\ short_tags (snd p)) m.
Proof.
  induction m as [|[a b] m IH]; [constructor|]. intros (H1 & H2 & H3). constructor; [cbn [fst snd]; auto|auto].
Qed.

Lemma cmp_list_ext {A} (f g : A -> A -> res comparison) : (forall x y, f x y = g x y) ->
  forall a b, cmp_list f a b = cmp_list g a b.
Proof.
  intros E. induction a as [|x a IH]; intros [|y b]; cbn [cmp_list]; try reflexivity.
  rewrite E. destruct (g x y) as [c|e]; [|reflexivity]. cbn [rbind]. destruct c; auto.
Qed.
Lemma cmp_pair_ext {A} (f g : A -> A -> res comparison) : (forall x y, f x y = g x y) ->
  forall p q, cmp_pair f p q = cmp_pair g p q.
Proof. intros E [a b] [c d]. unfold cmp_pair. rewrite !E. reflexivity. Qed.

Lemma s_scval : forall d a b, snd (mcmp_scval d a b) = cmp_scval d a b.
Proof.
  induction d as [|d IH]; intros a b; [reflexivity|].
  assert (V : forall x y, snd (mcmp_scvec 96 96 (mcmp_scval d) x y) = cmp_list (cmp_scval d) x y).
  { intros. rewrite s_scvec. apply cmp_list_ext. intros. apply IH. }
  assert (M : forall x y, snd (mcmp_scvec 192 192 (mcmp_pair (mcmp_scval d)) x y)
                          = cmp_list (cmp_pair (cmp_scval d)) x y).
  { intros. rewrite s_scvec. apply cmp_list_ext. intros. rewrite s_pair. apply cmp_pair_ext. intros. apply IH. }
  destruct a as [| | | | | | | | | | | | | | | |[|]|[|]| | | | |]; destruct b as [| | | | | | | | | | | | | | | |[|]|[|]| | | | |];
    cbn [mcmp_scval cmp_scval]; try reflexivity; try apply V; try apply M.
  all: rewrite snd_bind; cbn [snd mcmp_exe mcmp_fixed obnd pay act ret rbind fst app].
  all: match goal with |- context [match exe_cmp ?x ?y with _ => _ end] => destruct (exe_cmp x y) end; try reflexivity.
  all: match goal with |- context [match ?x with Some _ => _ | None => _ end] => destruct x end.
  all: match goal with |- context [match ?x with Some _ => _ | None => _ end] => destruct x end.
  all: cbn [cmp_opt]; try reflexivity; try apply M.
Qed.

Lemma o_scval : forall d a b, short_tags a -> O none 0 (mcmp_scval d a b).
Proof.
  induction d as [|d IH]; intros a b S; [apply O_fail|].
  assert (V : forall x y, Forall short_tags x -> O none 0 (mcmp_scvec 96 96 (mcmp_scval d) x y)).
  { intros x y F. apply o_scvec; [lia|]. intros p q Hp. apply IH. exact (proj1 (Forall_forall _ _) F p Hp). }
  assert (M : forall x y, Forall (fun p => short_tags (fst p) /\ short_tags (snd p)) x ->
                O none 0 (mcmp_scvec 192 192 (mcmp_pair (mcmp_scval d)) x y)).
  { intros x y F. apply o_scvec; [lia|]. intros p q Hp.
    destruct (proj1 (Forall_forall _ _) F p Hp). apply o_pair; apply IH; assumption. }
  destruct a as [| | | | | | | | | | | | | | | |[|]|[|]| | | | |]; destruct b as [| | | | | | | | | | | | | | | |[|]|[|]| | | | |];
    cbn [mcmp_scval]; try apply O_ret; try apply O_fail; try apply o_bytes; try (apply o_fixed; lia).
  all: try (apply V, tags_vec; exact S).
  all: try (apply M, tags_pairs; exact S).
  all: destruct S as [S1 S2]; apply r_op; [apply o_exe; exact S1|kinds|intros c _].
  all: destruct c; try apply O_ret.
  all: match goal with |- context [match ?x with Some _ => _ | None => _ end] => destruct x end.
  all: match goal with |- context [match ?x with Some _ => _ | None => _ end] => destruct x end.
  all: try apply O_ret.
  all: apply M, tags_pairs; exact S2.
Qed.

Lemma o_key d a b : short_key a -> O none 0 (mcmp_lkey d a b).
Proof.
  intros S. destruct a, b; cbn [mcmp_lkey]; try apply O_ret; try apply O_fail; try (apply o_fixed; lia).
  apply r_op; [apply o_fixed; lia|kinds|intros c _]. destruct c; try apply O_ret.
  apply r_op; [apply o_scval; exact S|kinds|intros c _]. destruct c; try apply O_ret. apply o_fixed; lia.
Qed.
Lemma s_key d a b : snd (mcmp_lkey d a b) = key_order d a b.
Proof.
  destruct a, b; cbn [mcmp_lkey key_order]; try reflexivity.
  - cbn. unfold then_cmp. destruct (bytes_cmp _ _); reflexivity.
  - rewrite snd_bind. cbn [snd mcmp_fixed obnd pay act ret rbind fst app].
    destruct (addr_cmp _ _); try reflexivity. rewrite snd_bind, s_scval.
    destruct (cmp_scval _ _ _) as [c|e]; [|reflexivity]. cbn [rbind]. destruct c; try reflexivity.
    cbn. match goal with |- context [dur_cmp ?p ?q] => destruct p, q end; reflexivity.
Qed.

Lemma r_look {A} c n (f : unit -> op A) : (forall k, 0 <= c k) -> O (plus c (on Objects 1)) n (f tt) ->
  O c n (obnd (([Pay VisitObject None], Ok tt) : op unit) f).
Proof.
  intros C H. unfold O, obnd. cbn [fst snd app]. apply G_pay.
  - right. auto.
  - intros []; reflexivity.
  - exact C.
  - apply (G_mono (plus c (on Objects 1)) _ n); [exact H| |lia].
    intros []; unfold plus; cbn; lia.
Qed.
Lemma o_visit h v : O none 0 (mvisit h v).
Proof.
  unfold mvisit. apply r_look; [kinds|]. apply r_act; [exact I|kinds|kinds|lia|]. apply r_lift; [kinds|lia].
Qed.
Lemma s_visit h v : snd (mvisit h v) = visit_obj_untyped h v.
Proof. reflexivity. Qed.
Lemma num_pos k : 0 <= num_size k <= num_size k.
Proof. destruct k; cbn; lia. Qed.

Lemma o_hobj cv a b : (forall x y, O none 0 (cv x y)) -> O none 0 (mcmp_hobj cv a b).
Proof.
  intros H. destruct a, b; cbn [mcmp_hobj]; try apply O_ret; try apply o_bytes; try (apply o_fixed; lia).
  - destruct (numty_eqb k k0); [apply o_fixed, num_pos|apply O_ret].
  - apply o_mv_compare; [lia|]. auto.
  - apply o_scvec; [lia|]. intros. apply o_pair; apply H.
Qed.
Lemma s_hobj cv a b : snd (mcmp_hobj cv a b) = cmp_hobj (fun x y => snd (cv x y)) a b.
Proof.
  destruct a, b; cbn [mcmp_hobj cmp_hobj]; try reflexivity.
  - destruct (numty_eqb k k0); reflexivity.
  - apply s_mv_compare.
  - rewrite s_scvec. apply cmp_list_ext. intros. apply s_pair.
Qed.
Lemma o_small o rv : O none 0 (mtry_small o rv).
Proof.
  destruct o; cbn [mtry_small]; try apply O_ret.
  - destruct (small_to_num k rv); [|apply O_ret].
    apply r_op; [apply o_fixed, num_pos|kinds|intros; apply O_ret].
  - destruct (has_tag rv _); [|apply O_ret]. apply r_op; [apply o_bytes|kinds|intros; apply O_ret].
Qed.
Lemma s_small o rv : snd (mtry_small o rv) = Ok (try_compare_to_small o rv).
Proof.
  destruct o; cbn [mtry_small try_compare_to_small]; try reflexivity.
  - destruct (small_to_num k rv); reflexivity.
  - destruct (has_tag rv _); reflexivity.
Qed.
Lemma o_obj ho h a b : (forall x y, O none 0 (ho x y)) -> O none 0 (mobj_cmp ho h a b).
Proof.
  intros H. unfold mobj_cmp.
  assert (F : forall r, O none 0 (match r with Some c => ret c | None =>
    if scty_num a =? scty_num b then fail (ESys TValue CInternalError) else ret (scty_num a ?= scty_num b) end)).
  { intros [c|]; [apply O_ret|]. destruct (_ =? _); [apply O_fail|apply O_ret]. }
  destruct (is_object a), (is_object b).
  - apply r_op; [apply o_visit|kinds|intros ao _]. apply r_op; [apply o_visit|kinds|intros bo _].
    apply r_op; [apply H|kinds|intros c _]. apply O_ret.
  - apply r_op; [apply o_visit|kinds|intros ao _]. apply r_op; [apply o_small|kinds|intros c _]. apply F.
  - apply r_op; [apply o_visit|kinds|intros bo _]. apply r_op; [apply o_small|kinds|intros c _]. apply F.
  - apply O_fail.
Qed.
Lemma s_obj ho h a b : snd (mobj_cmp ho h a b) = obj_cmp (fun x y => snd (ho x y)) h a b.
Proof.
  unfold mobj_cmp, obj_cmp. destruct (is_object a), (is_object b); [..|reflexivity].
  - rewrite snd_bind, s_visit. destruct (visit_obj_untyped h a); [|reflexivity]. cbn [rbind].
    rewrite snd_bind, s_visit. destruct (visit_obj_untyped h b); [|reflexivity]. cbn [rbind].
    rewrite snd_bind. destruct (snd (ho _ _)); reflexivity.
  - rewrite snd_bind, s_visit. destruct (visit_obj_untyped h a); [|reflexivity]. cbn [rbind].
    rewrite snd_bind, s_small. cbn [rbind]. destruct (try_compare_to_small _ _); [reflexivity|].
    destruct (_ =? _); reflexivity.
  - rewrite snd_bind, s_visit. destruct (visit_obj_untyped h b); [|reflexivity]. cbn [rbind].
    rewrite snd_bind, s_small. cbn [rbind]. destruct (try_compare_to_small _ _); [reflexivity|]. cbn [option_map].
    destruct (_ =? _); reflexivity.
Qed.
Lemma o_val h : forall d a b, O none 0 (mcmp_val d h a b).
Proof.
  induction d as [|d IH]; intros a b; cbn [mcmp_val]; (destruct (a =? b); [apply O_ret|]);
    (destruct (is_object a || is_object b); [|apply O_ret]); apply o_obj; intros.
  - apply O_fail.
  - apply o_hobj. exact IH.
Qed.
Lemma obj_cmp_ext f g h a b : (forall x y, f x y = g x y) -> obj_cmp f h a b = obj_cmp g h a b.
Proof.
  intros E. unfold obj_cmp. destruct (is_object a), (is_object b); try reflexivity.
  destruct (visit_obj_untyped h a); [|reflexivity]. cbn [rbind].
  destruct (visit_obj_untyped h b); [|reflexivity]. cbn [rbind]. rewrite E. reflexivity.
Qed.
Lemma cmp_hobj_ext f g a b : (forall x y, f x y = g x y) -> cmp_hobj f a b = cmp_hobj g a b.
Proof.
  intros E. destruct a, b; cbn [cmp_hobj]; try reflexivity; apply cmp_list_ext; [exact E|].
  apply cmp_pair_ext. exact E.
Qed.
Lemma s_val h : forall d a b, snd (mcmp_val d h a b) = cmp_val d h a b.
Proof.
  induction d as [|d IH]; intros a b; cbn [mcmp_val cmp_val]; (destruct (a =? b); [reflexivity|]);
    (destruct (is_object a || is_object b); [|reflexivity]); rewrite s_obj; apply obj_cmp_ext; intros.
  - reflexivity.
  - rewrite s_hobj. apply cmp_hobj_ext. exact IH.
Qed.

(* ------------------------------------------------------------ clones *)

(* m pays for x bytes of heap and the copying of them *)
Definition both (x : Z) (k : kind) : Z := match k with Heap | Memory => x | _ => 0 end.
Definition buys (m : op unit) (x : Z) : Prop :=
  0 <= x /\ forall B (f : unit -> op B) c n, 0 <= n -> (forall k, 0 <= c k) ->
    (snd m = Ok tt -> O (plus c (both x)) n (f tt)) -> O c n (obnd m f).

Lemma buys_eq m x y : buys m x -> x = y -> buys m y.
Proof. intros H <-. exact H. Qed.
Lemma buys_ret : buys (ret tt) 0.
Proof.
  split; [lia|]. intros B f c n N C H. specialize (H eq_refl). unfold O, obnd. cbn [fst snd ret app].
  apply (G_mono (plus c (both 0)) _ n); [exact H| |lia]. intros []; unfold plus; cbn; lia.
Qed.
Lemma buys_fail e x : 0 <= x -> buys (fail e) x.
Proof. intros X. split; [exact X|]. intros B f c n N C _. apply (r_fail c n e); auto. Qed.
Lemma buys_seq m1 m2 x y : buys m1 x -> buys m2 y -> buys (do _ <- m1; m2) (x + y).
Proof.
  intros [X B1] [Y B2]. split; [lia|]. intros B f c n N C H. rewrite obnd_assoc. apply B1; [exact N|exact C|].
  intros E1. apply B2; [exact N|intros k; specialize (C k); unfold plus; destruct k; cbn; lia|].
  intros E2. apply (O_mono (plus c (both (x + y))) _ n); [|intros []; unfold plus; cbn; lia|lia].
  apply H. rewrite snd_bind, E1. cbn [rbind]. exact E2.
Qed.
Lemma buys_pay n sz : 0 <= n -> 0 <= sz ->
  buys (do _ <- charge_heap_alloc n sz; charge_shallow_copy n sz) (n * sz).
Proof.
  intros N S. split; [nia|]. intros B f c m M C H. rewrite obnd_assoc. unfold charge_heap_alloc, charge_shallow_copy.
  apply (r_sat _ _ _ _ _ Heap); [auto|nia|exact C|].
  apply (r_sat _ _ _ _ _ Memory); [auto|nia|intros k; specialize (C k); unfold plus; destruct k; cbn; nia|].
  apply (O_mono (plus c (both (n * sz))) _ m); [apply H; reflexivity|intros []; unfold plus; cbn; lia|lia].
Qed.
Fixpoint total {A} (g : A -> Z) (l : list A) : Z := match l with [] => 0 | x :: l => g x + total g l end.
Lemma buys_each {A} (f : A -> op unit) g l : (forall x, In x l -> buys (f x) (g x)) -> buys (each f l) (total g l).
Proof.
  induction l as [|x l IH]; intros H; cbn [each total]; [apply buys_ret|].
  apply buys_seq; [apply H; left; reflexivity|apply IH; intros; apply H; right; assumption].
Qed.
Lemma buys_vec {A} (f : A -> op unit) g ds l : 0 <= ds -> (forall x, In x l -> buys (f x) (g x)) ->
  buys (sub_vec f ds l) (len l * ds + total g l).
Proof.
  intros D H. unfold sub_vec. pose proof (len_pos l).
  assert (E : buys (do _ <- (do _ <- charge_heap_alloc (len l) ds; charge_shallow_copy (len l) ds); each f l)
                   (len l * ds + total g l)).
  { apply buys_seq; [apply buys_pay; lia|apply buys_each; exact H]. }
  rewrite obnd_assoc in E. exact E.
Qed.
Lemma buys_bytes b : buys (sub_bytes b) (len b).
Proof. pose proof (len_pos b). unfold sub_bytes. apply (buys_eq _ (len b * 1)); [apply buys_pay; lia|lia]. Qed.
Lemma buys_exe e : buys (sub_exe e) (tag_bytes e).
Proof. destruct e; cbn [sub_exe tag_bytes]; [apply buys_ret|apply buys_ret|apply buys_bytes]. Qed.

Lemma owned_vec l : owned (SVec (Some l)) = len l * 96 + total owned l.
Proof.
  cbn [owned]. induction l as [|x l IH]; [reflexivity|]. rewrite len_cons. cbn [total]. rewrite IH. lia.
Qed.
Definition owned_pair (p : scval * scval) : Z := owned (fst p) + owned (snd p).
Lemma owned_pairs m : (fix go (m : list (scval * scval)) : Z :=
    match m with [] => 0 | (a, b) :: m => 192 + owned a + owned b + go m end) m = len m * 192 + total owned_pair m.
Proof.
  induction m as [|[a b] m IH]; [reflexivity|]. rewrite len_cons, IH. cbn [total]. unfold owned_pair at 2. cbn [fst snd]. lia.
Qed.
Lemma total_pos {A} (g : A -> Z) l : Forall (fun x => 0 <= g x) l -> 0 <= total g l.
Proof. induction 1; cbn [total]; lia. Qed.
Lemma owned_pos v : 0 <= owned v.
Proof.
  induction v as [v A B C|l IH|m IH|e m IH] using scval_ind'.
  - destruct v; try (cbn; lia); try (cbn [owned]; apply len_pos).
    + destruct l; [exfalso; eapply A; reflexivity|cbn; lia].
    + destruct m; [exfalso; eapply B; reflexivity|cbn; lia].
    + destruct storage; [exfalso; eapply C; reflexivity|]. cbn [owned].
      match goal with |- context [tag_bytes ?e] => destruct e as [| |o t]; cbn [tag_bytes]; try lia; pose proof (len_pos t); lia end.
  - rewrite owned_vec. pose proof (len_pos l). pose proof (total_pos _ _ IH). lia.
  - cbn [owned]. rewrite owned_pairs. pose proof (len_pos m).
    assert (0 <= total owned_pair m); [|lia]. apply total_pos. revert IH. apply Forall_impl.
    unfold owned_pair. intros p [? ?]. lia.
  - cbn [owned]. rewrite owned_pairs. pose proof (len_pos m).
    assert (0 <= total owned_pair m).
    { apply total_pos. revert IH. apply Forall_impl. unfold owned_pair. intros p [? ?]. lia. }
    assert (0 <= tag_bytes e) by (destruct e; cbn [tag_bytes]; try lia; apply len_pos). lia.
Qed.

Lemma buys_scval : forall d v, buys (sub_scval d v) (owned v).
Proof.
  induction d as [|d IH]; intros v; [apply buys_fail, owned_pos|].
  assert (E : forall m, buys (sub_vec (fun p => do _ <- sub_scval d (fst p); sub_scval d (snd p)) 192 m)
                          (len m * 192 + total owned_pair m)).
  { intros m. apply buys_vec; [lia|]. intros p _. apply buys_seq; apply IH. }
  destruct v as [| | | | | | | | | | | | | | | |[l|]|[m|]| |e [m|]| | |]; cbn [sub_scval]; try apply buys_ret; try apply buys_bytes;
    try (apply buys_fail, owned_pos).
  - rewrite owned_vec. apply buys_vec; [lia|]. intros x _. apply IH.
  - cbn [owned]. rewrite owned_pairs. apply E.
  - cbn [owned]. rewrite owned_pairs. apply buys_seq; [apply buys_exe|apply E].
  - cbn [owned]. apply buys_seq; [apply buys_exe|apply buys_ret].
Qed.

Lemma o_clone_with {A} size own sub (x : A) : 0 <= size -> buys sub own -> O none 0 (clone_with size own sub x).
Proof.
  intros S [Y B]. unfold clone_with, charge_shallow_copy.
  apply (r_sat _ _ _ _ _ Memory); [auto|lia|kinds|].
  apply B; [lia|kinds|intros _].
  apply r_act; [cbn [good]; lia|kinds; cbn [both]; lia|kinds|lia|].
  apply r_act; [cbn [good]; lia|kinds; cbn [both]; lia|kinds|lia|].
  apply r_ret; [kinds; cbn [both]; lia|lia].
Qed.
Lemma s_clone_with {A} size own sub (x : A) : snd (clone_with size own sub x) = rbind (snd sub) (fun _ => Ok x).
Proof. unfold clone_with. rewrite snd_bind. cbn [snd charge_shallow_copy pay rbind]. rewrite snd_bind. reflexivity. Qed.

Lemma s_each {A} (f : A -> op unit) l : Forall (fun x => snd (f x) = Ok tt) l -> snd (each f l) = Ok tt.
Proof. induction 1 as [|x l E F IH]; [reflexivity|]. cbn [each]. rewrite snd_bind, E. exact IH. Qed.
Lemma s_sub_vec {A} (f : A -> op unit) ds l : snd (sub_vec f ds l) = snd (each f l).
Proof. unfold sub_vec. rewrite snd_bind. cbn [snd charge_heap_alloc charge_shallow_copy pay rbind]. rewrite ?snd_bind. reflexivity. Qed.
Lemma s_exe e : snd (sub_exe e) = Ok tt.
Proof. destruct e; reflexivity. Qed.
Lemma within_pairs d m :
  (fix go (m : list (scval * scval)) : Prop :=
     match m with [] => True | (a, b) :: m => within a d /\ within b d /\ go m end) m ->
  Forall (fun p => within (fst p) d /\ within (snd p) d) m.
Proof. induction m as [|[a b] m IH]; [constructor|]. intros (? & ? & ?). constructor; cbn [fst snd]; auto. Qed.
Lemma within_vec d l :
  (fix go (l : list scval) : Prop := match l with [] => True | x :: l => within x d /\ go l end) l ->
  Forall (fun x => within x d) l.
Proof. induction l as [|x l IH]; [constructor|]. intros (? & ?). constructor; auto. Qed.

Lemma s_sub : forall d v, within v d -> snd (sub_scval d v) = Ok tt.
Proof.
  induction d as [|d IH]; intros v W; [destruct v; destruct W|].
  assert (E : forall m, Forall (fun p => within (fst p) d /\ within (snd p) d) m ->
     snd (sub_vec (fun p => do _ <- sub_scval d (fst p); sub_scval d (snd p)) 192 m) = Ok tt).
  { intros m F. rewrite s_sub_vec. apply s_each. revert F. apply Forall_impl. intros p [A B].
    rewrite snd_bind, (IH _ A). cbn [rbind]. apply IH. exact B. }
  destruct v as [| | | | | | | | | | | | | | | |[l|]|[m|]| |e [m|]| | |]; cbn [sub_scval]; try reflexivity; try (destruct W).
  - rewrite s_sub_vec. apply s_each. apply within_vec in W. revert W. apply Forall_impl. intros x. apply IH.
  - apply E, within_pairs, W.
  - rewrite snd_bind, s_exe. cbn [rbind]. apply E, within_pairs, W.
  - rewrite snd_bind, s_exe. reflexivity.
Qed.
Definition stops (r : res unit) : Prop := r = Ok tt \/ r = Err e_depth \/ r = Err e_val_invalid.
Lemma each_stops {A} (f : A -> op unit) l : (forall x, stops (snd (f x))) -> stops (snd (each f l)).
Proof.
  intros H. induction l as [|x l IH]; [left; reflexivity|]. cbn [each]. rewrite snd_bind.
  destruct (H x) as [E|[E|E]]; rewrite E; cbn [rbind]; [exact IH|right; left; reflexivity|right; right; reflexivity].
Qed.
Lemma sub_stops : forall d v, stops (snd (sub_scval d v)).
Proof.
  induction d as [|d IH]; intros v; [right; left; reflexivity|].
  assert (E : forall m, stops (snd (sub_vec (fun p => do _ <- sub_scval d (fst p); sub_scval d (snd p)) 192 m))).
  { intros m. rewrite s_sub_vec. apply each_stops. intros p. rewrite snd_bind.
    destruct (IH (fst p)) as [X|[X|X]]; rewrite X; cbn [rbind]; [apply IH|right; left; reflexivity|right; right; reflexivity]. }
  destruct v as [| | | | | | | | | | | | | | | |[l|]|[m|]| |e [m|]| | |]; cbn [sub_scval];
    try (left; reflexivity); try (right; right; reflexivity).
  - rewrite s_sub_vec. apply each_stops. exact IH.
  - apply E.
  - rewrite snd_bind, s_exe. cbn [rbind]. apply E.
  - rewrite snd_bind, s_exe. left. reflexivity.
Qed.

(* the arguments of calls and creations *)
Lemma o_symbol d h a b : O none 0 (mcmp_symbol d h a b).
Proof.
  unfold mcmp_symbol. destruct (_ ?= _); try apply O_ret. destruct (get_tag a); try apply o_val. apply O_ret.
Qed.
