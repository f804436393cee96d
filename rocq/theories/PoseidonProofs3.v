(* Poseidon and Poseidon2 permute the states: every step is injective when
   the matrices are, and the published ones are. *)
From Coq Require Import ZArith Znumtheory Lia List Bool String.
From Verif Require Import Prelude FieldModel FieldSpec PrimeProofs FieldCert FieldProofs
  PoseidonModel PoseidonSpec PoseidonProofs PoseidonProofs2.
Import ListNotations.
Open Scope Z_scope.
Ltac Zify.zify_post_hook ::= idtac.

(* -------------------------------------------------- matrices with inverses *)

Fixpoint vplus (xs ys : list Z) : list Z :=
  match xs, ys with
  | x :: xs, y :: ys => (x + y) :: vplus xs ys
  | _, _ => []
  end.

Definition vscale (b : Z) (xs : list Z) : list Z := map (Z.mul b) xs.

(* row times matrix *)
Fixpoint vecmat (t : nat) (row : list Z) (m : list (list Z)) : list Z :=
  match row, m with
  | b :: row, r :: m => vplus (vscale b r) (vecmat t row m)
  | _, _ => repeat 0 t
  end.

Lemma dot_nil_l x : dot [] x = 0.
Proof. reflexivity. Qed.

Lemma dot_cons a xs b ys : dot (a :: xs) (b :: ys) = a * b + dot xs ys.
Proof. reflexivity. Qed.

Lemma dot_vplus : forall xs ys zs, List.length xs = List.length ys ->
  dot (vplus xs ys) zs = dot xs zs + dot ys zs.
Proof.
  induction xs as [|x xs IH]; intros [|y ys] zs H; try discriminate; [reflexivity|].
  destruct zs as [|z zs]; [reflexivity|]. cbn [vplus]. rewrite !dot_cons.
  rewrite IH by (injection H as H; exact H). ring.
Qed.

Lemma dot_vscale b : forall xs zs, dot (vscale b xs) zs = b * dot xs zs.
Proof.
  induction xs as [|x xs IH]; intros zs; [unfold vscale; cbn [map]; rewrite dot_nil_l; ring|].
  destruct zs as [|z zs]; [unfold dot; cbn; ring|].
  unfold vscale in *. cbn [map]. rewrite !dot_cons. rewrite IH. ring.
Qed.

Lemma dot_zeros t : forall zs, dot (repeat 0 t) zs = 0.
Proof.
  induction t as [|t IH]; intros zs; [reflexivity|]. destruct zs as [|z zs]; [reflexivity|].
  cbn [repeat]. rewrite dot_cons, IH. reflexivity.
Qed.

Lemma vplus_length : forall xs ys, List.length xs = List.length ys ->
  List.length (vplus xs ys) = List.length xs.
Proof.
  induction xs as [|x xs IH]; intros [|y ys] H; try discriminate; [reflexivity|].
  cbn [vplus List.length]. rewrite IH; [reflexivity|]. injection H as H. exact H.
Qed.

Lemma vecmat_length t : forall row m, Forall (fun r => List.length r = t) m ->
  List.length (vecmat t row m) = t.
Proof.
  induction row as [|b row IH]; intros m Hm; cbn [vecmat]; [apply repeat_length|].
  destruct m as [|r m]; [apply repeat_length|]. inversion Hm; subst.
  rewrite vplus_length; unfold vscale; rewrite map_length; [reflexivity|].
  rewrite IH by assumption. reflexivity.
Qed.

Lemma dot_vecmat t x : forall row m, Forall (fun r => List.length r = t) m ->
  dot row (map (fun r => dot r x) m) = dot (vecmat t row m) x.
Proof.
  induction row as [|b row IH]; intros m Hm; cbn [vecmat].
  - rewrite dot_zeros. reflexivity.
  - destruct m as [|r m]; [rewrite dot_zeros; reflexivity|]. inversion Hm; subst.
    cbn [map]. rewrite dot_cons, dot_vplus.
    + rewrite dot_vscale, <- IH by assumption. reflexivity.
    + unfold vscale. rewrite map_length, vecmat_length; [reflexivity|assumption].
Qed.

(* reducing the vector first does not change the dot product modulo p *)
Lemma dot_mod p row : p <> 0 -> forall x,
  dot row (map (fun a => a mod p) x) mod p = dot row x mod p.
Proof.
  intros Hp. induction row as [|b row IH]; intros x; [reflexivity|].
  destruct x as [|a x]; [reflexivity|]. cbn [map]. rewrite !dot_cons.
  rewrite (Z.add_mod (b * (a mod p))), (Z.add_mod (b * a)) by assumption. rewrite IH.
  rewrite Z.mul_mod_idemp_r by assumption. reflexivity.
Qed.

(* lam on place i, zero elsewhere *)
Definition unit_row (lam : Z) (t i : nat) : list Z :=
  map (fun j => if Nat.eqb i j then lam else 0) (seq 0 t).

Lemma dot_unit lam : forall x i k,
  dot (map (fun j => if Nat.eqb (k + i) j then lam else 0) (seq k (List.length x))) x
  = lam * nth i x 0.
Proof.
  assert (Z0 : forall x k i, (i < k)%nat ->
    dot (map (fun j => if Nat.eqb i j then lam else 0) (seq k (List.length x))) x = 0).
  { induction x as [|a x IH]; intros k i Hi; [reflexivity|].
    cbn [List.length seq map]. rewrite dot_cons.
    destruct (Nat.eqb_spec i k); [lia|]. rewrite IH by lia. ring. }
  induction x as [|a x IH]; intros i k.
  - cbn [List.length seq map]. rewrite dot_nil_l. destruct i; cbn [nth]; ring.
  - cbn [List.length seq map]. rewrite dot_cons. destruct i as [|i].
    + rewrite Nat.add_0_r, Nat.eqb_refl. rewrite Z0 by lia. cbn [nth]. ring.
    + destruct (Nat.eqb_spec (k + S i) k); [lia|].
      replace (k + S i)%nat with (S k + i)%nat by lia.
      rewrite IH. cbn [nth]. ring.
Qed.

Definition zlist_eqb (a b : list Z) : bool :=
  if list_eq_dec Z.eq_dec a b then true else false.

(* [inv] times [m] is [lam] times the unit matrix *)
Definition inverse_ok (t : nat) (lam : Z) (inv m : list (list Z)) : bool :=
  forallb (fun r => Nat.eqb (List.length r) t) m
  && forallb (fun i => zlist_eqb (vecmat t (nth i inv []) m) (unit_row lam t i)) (seq 0 t).

Lemma inverse_nonsingular p t lam inv m :
  prime p -> 0 < lam < p -> inverse_ok t lam inv m = true -> nonsingular p t m.
Proof.
  intros Hp Hlam Hc x y Lx Ly Rx Ry E.
  assert (Hp1 := prime_ge_2 p Hp).
  apply andb_prop in Hc. destruct Hc as [Hlen Hc].
  assert (HF : Forall (fun r => List.length r = t) m).
  { apply Forall_forall. intros r Hr. rewrite forallb_forall in Hlen.
    apply Nat.eqb_eq. apply Hlen. exact Hr. }
  apply (nth_ext x y 0 0); [lia|]. intros i Hi.
  rewrite forallb_forall in Hc. specialize (Hc i ltac:(apply in_seq; lia)).
  unfold zlist_eqb in Hc.
  destruct (list_eq_dec Z.eq_dec (vecmat t (nth i inv []) m) (unit_row lam t i)) as [Ei|];
    [|discriminate].
  assert (K : forall z, List.length z = t ->
              (lam * nth i z 0) mod p = dot (nth i inv []) (mat_vec p m z) mod p).
  { intros z Lz. rewrite <- mat_vec_h. rewrite dot_mod by lia.
    rewrite (dot_vecmat t) by assumption. rewrite Ei. unfold unit_row.
    assert (Hu := dot_unit lam z i 0). cbn [Nat.add] in Hu. rewrite Lz in Hu. rewrite Hu. reflexivity. }
  assert (Hmod : (lam * nth i x 0) mod p = (lam * nth i y 0) mod p).
  { rewrite (K x Lx), (K y Ly), E. reflexivity. }
  assert (Bx : 0 <= nth i x 0 < p).
  { rewrite Forall_forall in Rx. apply Rx, nth_In. lia. }
  assert (By : 0 <= nth i y 0 < p).
  { rewrite Forall_forall in Ry. apply Ry, nth_In. lia. }
  assert (Hdiv : (p | lam * (nth i x 0 - nth i y 0))).
  { apply Z.mod_divide; [lia|]. rewrite Z.mul_sub_distr_l. rewrite Zminus_mod, Hmod.
    rewrite Z.sub_diag. apply Z.mod_0_l. lia. }
  apply prime_mult in Hdiv; [|assumption]. destruct Hdiv as [Hd|Hd].
  - apply Z.divide_pos_le in Hd; lia.
  - destruct Hd as [k Hk]. assert (k = 0) by (clear - Hk Bx By Hp1; nia). lia.
Qed.

(* ------------------------------------------------- the published matrices *)

(* 8 times the inverse of M4 *)
Definition A4 : list (list Z) :=
  [[-1; 3; -6; 7]; [1; -1; 4; -5]; [-6; 7; -1; 3]; [4; -5; 1; -1]].
Definition a4 (i j : nat) : Z := nth j (nth i A4 []) 0.

Definition external_inverse (t : nat) : list (list Z) :=
  match t with
  | 2%nat => [[2; -1]; [-1; 2]]
  | 3%nat => [[3; -1; -1]; [-1; 3; -1]; [-1; -1; 3]]
  | 4%nat => A4
  | _ => let k := Z.of_nat (t / 4) in
         matrix t (fun i j => (if Nat.eqb (i / 4) (j / 4) then k else -1)
                              * a4 (i mod 4) (j mod 4))
  end.

Definition external_scale (t : nat) : Z :=
  match t with
  | 2%nat => 3 | 3%nat => 4 | 4%nat => 8 | _ => 8 * (Z.of_nat (t / 4) + 1)
  end.

Lemma external_nonsingular c t : In t sizes ->
  nonsingular (order c) (Z.to_nat t) (external_matrix (Z.to_nat t)).
Proof.
  intros Ht.
  apply (inverse_nonsingular _ _ (external_scale (Z.to_nat t)) (external_inverse (Z.to_nat t))).
  - apply order_prime.
  - cbn [sizes In] in Ht.
    repeat (destruct Ht as [<-|Ht]; [destruct c; vm_compute; split; reflexivity|]).
    contradiction.
  - cbn [sizes In] in Ht.
    repeat (destruct Ht as [<-|Ht]; [vm_compute; reflexivity|]). contradiction.
Qed.

Lemma internal_small_nonsingular c t diag : t = 2 \/ t = 3 ->
  nonsingular (order c) (Z.to_nat t) (internal_matrix (Z.to_nat t) diag).
Proof.
  intros [->| ->].
  - apply (inverse_nonsingular _ _ 5 [[3; -1]; [-1; 2]]).
    + apply order_prime.
    + destruct c; vm_compute; split; reflexivity.
    + vm_compute. reflexivity.
  - apply (inverse_nonsingular _ _ 7 [[5; -2; -1]; [-2; 5; -1]; [-1; -1; 3]]).
    + apply order_prime.
    + destruct c; vm_compute; split; reflexivity.
    + vm_compute. reflexivity.
Qed.

(* ------------------------------------------------------ steps are injective *)

Section Inj.
Variable c : curve.
Let p := order c.
Let Hp : 2 < p := proj1 (order_range c).

Lemma add_inj a b k : 0 <= a < p -> 0 <= b < p -> (a + k) mod p = (b + k) mod p -> a = b.
Proof.
  intros Ha Hb E.
  rewrite <- (Z.mod_small a p), <- (Z.mod_small b p) by assumption.
  replace a with (a + k - k) by ring. replace b with (b + k - k) by ring.
  rewrite Zminus_mod, E, <- Zminus_mod. reflexivity.
Qed.

Lemma add_all_inj : forall x y k, List.length x = List.length k -> List.length y = List.length k ->
  reduced p x -> reduced p y -> add_all p x k = add_all p y k -> x = y.
Proof.
  unfold add_all.
  induction x as [|a x IH]; intros [|b y] [|k ks] Lx Ly Rx Ry E; try discriminate; [reflexivity|].
  cbn [combine map fst snd] in E. injection E as E1 E2.
  inversion Rx; inversion Ry; subst.
  f_equal; [eapply add_inj; eassumption|].
  apply (IH y ks); try assumption; [injection Lx as Lx|injection Ly as Ly]; assumption.
Qed.

Lemma fifth_inj a b : 0 <= a < p -> 0 <= b < p -> a ^ 5 mod p = b ^ 5 mod p -> a = b.
Proof.
  intros Ha Hb E. apply pow5_inj in E. fold p in E.
  rewrite !Z.mod_small in E by assumption. exact E.
Qed.

Lemma fifth_all_inj : forall x y, reduced p x -> reduced p y ->
  fifth_all p x = fifth_all p y -> x = y.
Proof.
  unfold fifth_all.
  induction x as [|a x IH]; intros [|b y] Rx Ry E; try discriminate; [reflexivity|].
  cbn [map] in E. pose proof (f_equal (fun l => hd 0 l) E) as E1.
  pose proof (f_equal (fun l => tl l) E) as E2. cbn [hd tl] in E1, E2.
  inversion Rx; inversion Ry; subst.
  f_equal; [apply fifth_inj; assumption|]. apply IH; assumption.
Qed.

Lemma fifth_first_inj x y : reduced p x -> reduced p y ->
  fifth_first p x = fifth_first p y -> x = y.
Proof.
  intros Rx Ry E. destruct x as [|a x], y as [|b y]; try discriminate; [reflexivity|].
  cbn [fifth_first] in E. pose proof (f_equal (fun l => hd 0 l) E) as E1.
  pose proof (f_equal (fun l => tl l) E) as E2. cbn [hd tl] in E1, E2.
  inversion Rx; inversion Ry; subst. f_equal. apply fifth_inj; assumption.
Qed.

Lemma add_first_inj x y k : List.length x = List.length y -> (0 < List.length k)%nat ->
  reduced p x -> reduced p y -> add_first p x k = add_first p y k -> x = y.
Proof.
  intros Hl Hk Rx Ry E. destruct k as [|k ks]; [cbn in Hk; lia|].
  destruct x as [|a x], y as [|b y]; try discriminate; [reflexivity|].
  cbn [add_first] in E. injection E as E1 E2. inversion Rx; inversion Ry; subst.
  f_equal. eapply add_inj; eassumption.
Qed.

Lemma add_first_red x k : reduced p x -> reduced p (add_first p x k).
Proof.
  intros Rx. destruct x as [|a x], k as [|k ks]; cbn [add_first]; try assumption.
  inversion Rx; subst. constructor; [apply Z.mod_pos_bound; lia|assumption].
Qed.

Lemma add_first_len x k : List.length (add_first p x k) = List.length x.
Proof. destruct x, k; reflexivity. Qed.

(* a state of t elements *)
Definition state (t : nat) (x : list Z) : Prop := List.length x = t /\ reduced p x.

(* injective on states, and into states *)
Definition permutes (t : nat) (f : list Z -> list Z) : Prop :=
  (forall x, state t x -> state t (f x))
  /\ (forall x y, state t x -> state t y -> f x = f y -> x = y).

Lemma permutes_id t : permutes t (fun x => x).
Proof. split; auto. Qed.

Lemma permutes_comp t f g : permutes t f -> permutes t g -> permutes t (fun x => g (f x)).
Proof.
  intros [F1 F2] [G1 G2]. split; intros; [apply G1, F1; assumption|].
  apply F2; try assumption. apply G2; try assumption; apply F1; assumption.
Qed.

Lemma permutes_fold t (f : list Z -> list Z -> list Z) ks :
  Forall (fun k => permutes t (fun x => f x k)) ks -> permutes t (fun x => fold_left f ks x).
Proof.
  induction 1 as [|k ks Hk Hks IH]; cbn [fold_left]; [apply permutes_id|].
  apply (permutes_comp t (fun x => f x k) (fun x => fold_left f ks x)); assumption.
Qed.

Lemma permutes_mat t m : List.length m = t -> nonsingular p t m -> permutes t (mat_vec p m).
Proof.
  intros Hl Hn. split.
  - intros x _. split; [rewrite mat_vec_len; assumption|apply mat_vec_red; lia].
  - intros x y [Lx Rx] [Ly Ry] E. apply Hn; assumption.
Qed.

Lemma permutes_add_all t k : List.length k = t -> permutes t (fun x => add_all p x k).
Proof.
  intros Hk. split.
  - intros x [Lx Rx]. split; [|apply add_all_red; lia].
    rewrite add_all_len; [assumption|]. unfold len. congruence.
  - intros x y [Lx Rx] [Ly Ry] E. apply (add_all_inj x y k); congruence || assumption.
Qed.

Lemma permutes_add_first t k : (0 < List.length k)%nat -> permutes t (fun x => add_first p x k).
Proof.
  intros Hk. split.
  - intros x [Lx Rx]. split; [rewrite add_first_len; assumption|apply add_first_red; assumption].
  - intros x y [Lx Rx] [Ly Ry] E. apply (add_first_inj x y k); congruence || assumption.
Qed.

Lemma permutes_fifth_all t : permutes t (fifth_all p).
Proof.
  split.
  - intros x [Lx Rx]. split; [rewrite fifth_all_len; assumption|apply fifth_all_red; lia].
  - intros x y [Lx Rx] [Ly Ry] E. apply fifth_all_inj; assumption.
Qed.

Lemma permutes_fifth_first t : permutes t (fifth_first p).
Proof.
  split.
  - intros x [Lx Rx]. split; [rewrite fifth_first_len; assumption|].
    apply fifth_first_red; [lia|assumption].
  - intros x y [Lx Rx] [Ly Ry] E. apply fifth_first_inj; assumption.
Qed.

Lemma permutes_rounds t full part rf rp rcs :
  let half := Nat.div rf 2 in
  Forall (fun k => permutes t (fun x => full x k)) (firstn half rcs) ->
  Forall (fun k => permutes t (fun x => part x k)) (firstn rp (skipn half rcs)) ->
  Forall (fun k => permutes t (fun x => full x k)) (skipn (half + rp) rcs) ->
  permutes t (in_rounds full part rf rp rcs).
Proof.
  intros half H1 H2 H3. unfold in_rounds. fold half.
  apply (permutes_comp t
           (fun x => fold_left part (firstn rp (skipn half rcs)) (fold_left full (firstn half rcs) x))
           (fold_left full (skipn (half + rp) rcs))).
  - apply (permutes_comp t (fold_left full (firstn half rcs))
             (fold_left part (firstn rp (skipn half rcs)))).
    + apply permutes_fold. assumption.
    + apply permutes_fold. assumption.
  - apply permutes_fold. assumption.
Qed.

Lemma Forall_part {A} (P : A -> Prop) l a b : Forall P l ->
  Forall P (firstn a l) /\ Forall P (firstn b (skipn a l)) /\ Forall P (skipn (a + b) l).
Proof.
  intros H. rewrite (segments l a b) in H. apply Forall_app in H. destruct H as [H1 H].
  apply Forall_app in H. tauto.
Qed.

Lemma poseidon_permutes t mds rf rp rcs :
  List.length mds = t -> ((0 < List.length rcs)%nat -> nonsingular p t mds) ->
  Forall (fun k => List.length k = t) rcs ->
  permutes t (poseidon p mds rf rp rcs).
Proof.
  intros Hl Hn Hk.
  assert (HF : forall l, (forall k, In k l -> In k rcs) ->
    Forall (fun k => permutes t (fun x => mat_vec p mds (fifth_all p (add_all p x k)))) l
    /\ Forall (fun k => permutes t (fun x => mat_vec p mds (fifth_first p (add_all p x k)))) l).
  { intros l Hsub. rewrite Forall_forall in Hk. split; apply Forall_forall; intros k Hin;
      apply Hsub in Hin;
      (assert (Hne : (0 < List.length rcs)%nat) by (destruct rcs; [destruct Hin|cbn; lia])).
    - apply (permutes_comp t (fun x => fifth_all p (add_all p x k)) (mat_vec p mds)).
      + apply (permutes_comp t (fun x => add_all p x k) (fifth_all p)).
        * apply permutes_add_all. apply Hk. assumption.
        * apply permutes_fifth_all.
      + apply permutes_mat; [assumption|]. apply Hn. assumption.
    - apply (permutes_comp t (fun x => fifth_first p (add_all p x k)) (mat_vec p mds)).
      + apply (permutes_comp t (fun x => add_all p x k) (fifth_first p)).
        * apply permutes_add_all. apply Hk. assumption.
        * apply permutes_fifth_first.
      + apply permutes_mat; [assumption|]. apply Hn. assumption. }
  unfold poseidon. set (h := Nat.div rf 2).
  assert (Hall := fun k (Hin : In k rcs) => Hin). clear Hall.
  apply permutes_rounds; fold h.
  - apply HF. intros k Hin. rewrite (segments rcs h rp). apply in_or_app. left. exact Hin.
  - apply HF. intros k Hin. rewrite (segments rcs h rp). apply in_or_app. right.
    apply in_or_app. left. exact Hin.
  - apply HF. intros k Hin. rewrite (segments rcs h rp). apply in_or_app. right.
    apply in_or_app. right. exact Hin.
Qed.

Lemma poseidon2_permutes t diag rf rp rcs : In t sizes ->
  let n := Z.to_nat t in
  let half := Nat.div rf 2 in
  ((0 < rp)%nat -> nonsingular p n (internal_matrix n diag)) ->
  Forall (fun k => List.length k = n) (firstn half rcs) ->
  Forall (fun k => (0 < List.length k)%nat) (firstn rp (skipn half rcs)) ->
  Forall (fun k => List.length k = n) (skipn (half + rp) rcs) ->
  permutes n (poseidon2 p n diag rf rp rcs).
Proof.
  intros Ht n half Hn H1 H2 H3.
  assert (HE : permutes n (mat_vec p (external_matrix n))).
  { apply permutes_mat; [apply matrix_len|]. apply external_nonsingular. assumption. }
  assert (HF : forall k, List.length k = n ->
    permutes n (fun x => mat_vec p (external_matrix n) (fifth_all p (add_all p x k)))).
  { intros k Hk.
    apply (permutes_comp n (fun x => fifth_all p (add_all p x k)) (mat_vec p (external_matrix n))).
    - apply (permutes_comp n (fun x => add_all p x k) (fifth_all p));
        [apply permutes_add_all; assumption|apply permutes_fifth_all].
    - exact HE. }
  unfold poseidon2.
  apply (permutes_comp n (mat_vec p (external_matrix n))
    (in_rounds (fun x k => mat_vec p (external_matrix n) (fifth_all p (add_all p x k)))
       (fun x k => mat_vec p (internal_matrix n diag) (fifth_first p (add_first p x k)))
       rf rp rcs)); [exact HE|].
  apply permutes_rounds; fold half.
  - eapply Forall_impl; [|exact H1]. exact HF.
  - destruct rp as [|rp']; [constructor|].
    eapply Forall_impl; [|exact H2]. intros k Hk. cbv beta in Hk.
    apply (permutes_comp n (fun x => fifth_first p (add_first p x k))
             (mat_vec p (internal_matrix n diag))).
    + apply (permutes_comp n (fun x => add_first p x k) (fifth_first p));
        [apply permutes_add_first; assumption|apply permutes_fifth_first].
    + apply permutes_mat; [apply matrix_len|]. apply Hn. lia.
  - eapply Forall_impl; [|exact H3]. exact HF.
Qed.

(* ----------------------------------- injective on finitely many: surjective *)

Fixpoint all_states (t : nat) : list (list Z) :=
  match t with
  | O => [[]]
  | S t => flat_map (fun a => map (cons (Z.of_nat a)) (all_states t)) (seq 0 (Z.to_nat p))
  end.

Lemma all_states_in t : forall x, state t x <-> In x (all_states t).
Proof.
  induction t as [|t IH]; intros x; cbn [all_states].
  - split.
    + intros [Hl _]. destruct x; [left; reflexivity|discriminate].
    + intros [<-|[]]. split; [reflexivity|constructor].
  - rewrite in_flat_map. split.
    + intros [Hl Hr]. destruct x as [|a x]; [discriminate|]. inversion Hr; subst.
      exists (Z.to_nat a). split; [apply in_seq; lia|].
      rewrite Z2Nat.id by lia. apply in_map. apply IH. split; [injection Hl as Hl; exact Hl|assumption].
    + intros (a & Ha & Hx). apply in_seq in Ha. apply in_map_iff in Hx.
      destruct Hx as (y & <- & Hy). apply IH in Hy. destruct Hy as [Hl Hr].
      split; [cbn [List.length]; rewrite Hl; reflexivity|]. constructor; [lia|exact Hr].
Qed.

Lemma permutes_onto t f : permutes t f -> forall y, state t y -> exists x, state t x /\ f x = y.
Proof.
  intros [F1 F2] y Hy.
  set (L := nodup (list_eq_dec Z.eq_dec) (all_states t)).
  assert (HL : forall x, In x L <-> state t x).
  { intros x. unfold L. rewrite nodup_In. symmetry. apply all_states_in. }
  assert (ND : NoDup (map f L)).
  { apply NoDup_map_in.
    - intros u v Hu Hv. apply F2; apply HL; assumption.
    - apply NoDup_nodup. }
  assert (HI : incl (map f L) L).
  { intros z Hz. apply in_map_iff in Hz. destruct Hz as (x & <- & Hx).
    apply HL, F1, HL, Hx. }
  assert (HR : incl L (map f L)).
  { apply NoDup_length_incl; [assumption|rewrite map_length; reflexivity|assumption]. }
  apply HL, HR, in_map_iff in Hy. destruct Hy as (x & E & Hx).
  exists x. split; [apply HL; exact Hx|exact E].
Qed.

End Inj.
