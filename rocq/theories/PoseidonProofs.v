(* The model of the permutations computes the published ones. *)
From Coq Require Import ZArith Lia List Bool String.
From Verif Require Import Prelude FieldModel FieldSpec PrimeProofs PoseidonModel PoseidonSpec.
Import ListNotations.
Open Scope Z_scope.
Ltac Zify.zify_post_hook ::= idtac.

(* ------------------------------------------ reduction modulo p commutes *)

Section Hom.
Variable p : Z.
Hypothesis Hp : p <> 0.

Let h (a : Z) : Z := a mod p.

Lemma h_add a b : fadd p (h a) (h b) = h (a + b).
Proof. unfold fadd, h. symmetry. apply Z.add_mod. exact Hp. Qed.

Lemma h_mul a b : fmul p (h a) (h b) = h (a * b).
Proof. unfold fmul, h. symmetry. apply Z.mul_mod. exact Hp. Qed.

Lemma h_0 : h 0 = 0.
Proof. apply Z.mod_0_l. exact Hp. Qed.

Lemma nth_h i s : nth i (map h s) 0 = h (nth i s 0).
Proof. rewrite <- (map_nth h). rewrite h_0. reflexivity. Qed.

Lemma m4_hom : forall s, m4_chunks Z (fadd p) (map h s) = map h (m4_chunks Z Z.add s).
Proof.
  fix IH 1. intros [|a [|b [|c [|d s]]]]; try reflexivity.
  cbn [m4_chunks map]. unfold double. rewrite !h_add. rewrite IH. reflexivity.
Qed.

Lemma stored_hom t4 s l :
  stored Z 0 (fadd p) t4 (map h s) l = h (stored Z 0 Z.add t4 s l).
Proof.
  unfold stored. rewrite nth_h. generalize (nth l s 0) as a.
  induction (seq 1 (t4 - 1)) as [|j js IH]; intros a; cbn [fold_left]; [reflexivity|].
  rewrite nth_h, h_add. apply IH.
Qed.

Lemma m4_length : forall s, List.length (m4_chunks Z Z.add s) = List.length s.
Proof.
  fix IH 1. intros [|a [|b [|c [|d s]]]]; try reflexivity.
  cbn [m4_chunks List.length]. rewrite IH. reflexivity.
Qed.

Lemma matmul_m4_hom t s :
  matmul_m4 Z (fadd p) t (map h s) = rmap (map h) (matmul_m4 Z Z.add t s).
Proof.
  unfold matmul_m4. rewrite map_length.
  destruct (negb (t mod 4 =? 0)); [reflexivity|].
  destruct (negb (Z.of_nat (List.length s) =? t)); [reflexivity|].
  cbn [rmap]. rewrite m4_hom. reflexivity.
Qed.

Lemma ext_hom t s :
  matmul_external Z 0 (fadd p) t (map h s) = rmap (map h) (matmul_external Z 0 Z.add t s).
Proof.
  unfold matmul_external. rewrite map_length.
  destruct (negb (Z.of_nat (List.length s) =? t)); [reflexivity|].
  destruct (t =? 2).
  { destruct s as [|a [|b [|c s]]]; try reflexivity.
    cbn [map rmap]. rewrite !h_add. reflexivity. }
  destruct (t =? 3).
  { destruct s as [|a [|b [|c [|d s]]]]; try reflexivity.
    cbn [map rmap]. rewrite !h_add. reflexivity. }
  destruct (t =? 4); [apply matmul_m4_hom|].
  destruct (existsb (Z.eqb t) [8; 12; 16; 20; 24]); [|reflexivity].
  rewrite matmul_m4_hom. destruct (matmul_m4 Z Z.add t s) as [m|e]; [|reflexivity].
  cbn [rbind rmap]. rewrite map_length. f_equal. rewrite map_map.
  apply map_ext. intros i. rewrite nth_h.
  assert (E : map (stored Z 0 (fadd p) (Z.to_nat (t / 4)) (map h m)) [0; 1; 2; 3]%nat
              = map h (map (stored Z 0 Z.add (Z.to_nat (t / 4)) m) [0; 1; 2; 3]%nat)).
  { rewrite map_map. apply map_ext. intros l. apply stored_hom. }
  rewrite E, nth_h. apply h_add.
Qed.

Lemma int_hom t diag s :
  matmul_internal Z (fadd p) (fmul p) t (map h diag) (map h s)
  = rmap (map h) (matmul_internal Z Z.add Z.mul t diag s).
Proof.
  unfold matmul_internal. rewrite !map_length.
  destruct (negb (t =? Z.of_nat (List.length s)) || negb (t =? Z.of_nat (List.length diag)));
    [reflexivity|].
  destruct (t =? 2).
  { destruct s as [|a [|b [|c s]]]; try reflexivity.
    cbn [map rmap]. unfold double. rewrite !h_add. reflexivity. }
  destruct (t =? 3).
  { destruct s as [|a [|b [|c [|d s]]]]; try reflexivity.
    cbn [map rmap]. unfold double. rewrite !h_add. reflexivity. }
  destruct (existsb (Z.eqb t) [4; 8; 12; 16; 20; 24]); [|reflexivity].
  destruct s as [|a s]; [reflexivity|].
  change (map h (a :: s)) with (h a :: map h s).
  cbn [rmap]. f_equal.
  assert (E : forall a, fold_left (fadd p) (map h s) (h a) = h (fold_left Z.add s a)).
  { induction s as [|b s IH]; intros x; cbn [map fold_left]; [reflexivity|].
    rewrite h_add. apply IH. }
  rewrite E. generalize (fold_left Z.add s a) as m. intros m.
  change (h a :: map h s) with (map h (a :: s)). generalize (a :: s) as l. clear E.
  intros l. revert diag. induction l as [|x l IH]; intros [|d diag]; cbn [map combine];
    try reflexivity.
  rewrite IH. cbn [fst snd]. rewrite h_mul, h_add. reflexivity.
Qed.

End Hom.

(* -------------------------------------------- the layers over the integers *)

Ltac list_ring := repeat (apply f_equal2; [ring|]); reflexivity.

Lemma length_0 {A} (s : list A) : List.length s = 0%nat -> s = [].
Proof. destruct s; [reflexivity|discriminate]. Qed.

Lemma length_S {A} (s : list A) n :
  List.length s = S n -> exists a s', s = a :: s' /\ List.length s' = n.
Proof. destruct s as [|a s]; intros H; [discriminate|]. injection H as H. eauto. Qed.

Ltac split_list s H :=
  lazymatch type of H with
  | List.length s = 0%nat => apply length_0 in H; subst s
  | List.length s = S _ =>
      let a := fresh "a" in let s' := fresh "s" in let H' := fresh "H" in
      apply length_S in H; destruct H as (a & s' & -> & H');
      split_list s' H'
  end.

Definition ext_pure_at (t : Z) (n : nat) : Prop := forall s, List.length s = n ->
  matmul_external Z 0 Z.add t s = Ok (map (fun row => dot row s) (external_matrix n)).

Ltac ext_tac n :=
  let s := fresh "s" in let H := fresh "H" in
  intros s H;
  unfold matmul_external, matmul_m4;
  rewrite H;
  let m := eval vm_compute in (external_matrix n) in
  change (external_matrix n) with m;
  split_list s H.

Lemma ext_pure_2 : ext_pure_at 2 2.
Proof.
  ext_tac 2%nat. unfold dot. cbn [map combine fold_right fst snd].
  change (negb (Z.of_nat 2 =? 2)) with false. cbv iota.
  change (2 =? 2) with true. cbv iota. cbv zeta.
  f_equal. list_ring.
Qed.

Lemma ext_pure_3 : ext_pure_at 3 3.
Proof.
  ext_tac 3%nat. unfold dot. cbn [map combine fold_right fst snd].
  change (negb (Z.of_nat 3 =? 3)) with false. cbv iota.
  change (3 =? 2) with false. change (3 =? 3) with true. cbv iota. cbv zeta.
  f_equal. list_ring.
Qed.

Lemma ext_pure_4 : ext_pure_at 4 4.
Proof.
  ext_tac 4%nat. unfold dot. cbn [map combine fold_right fst snd List.length].
  change (negb (Z.of_nat 4 =? 4)) with false.
  change (4 =? 2) with false. change (4 =? 3) with false. change (4 =? 4) with true.
  change (negb (4 mod 4 =? 0)) with false. cbv iota.
  cbn [m4_chunks]. unfold double. cbv zeta.
  f_equal. list_ring.
Qed.

Ltac ext_big t n q :=
  unfold dot; cbn [map combine fold_right fst snd List.length];
  change (negb (Z.of_nat n =? t)) with false;
  change (t =? 2) with false; change (t =? 3) with false; change (t =? 4) with false;
  change (existsb (Z.eqb t) [8; 12; 16; 20; 24]) with true;
  change (negb (t mod 4 =? 0)) with false;
  change (Z.to_nat (t / 4)) with q;
  cbv iota;
  cbn [m4_chunks rbind]; unfold double, stored;
  cbv beta iota zeta delta [map nth seq fold_left List.length Nat.modulo Nat.divmod
    Nat.sub Nat.mul Nat.add fst snd];
  f_equal; list_ring.

Lemma ext_pure_8 : ext_pure_at 8 8.
Proof. ext_tac 8%nat. ext_big 8 8%nat 2%nat. Qed.

Lemma ext_pure_12 : ext_pure_at 12 12.
Proof. ext_tac 12%nat. ext_big 12 12%nat 3%nat. Qed.

Lemma ext_pure_16 : ext_pure_at 16 16.
Proof. ext_tac 16%nat. ext_big 16 16%nat 4%nat. Qed.

Lemma ext_pure_20 : ext_pure_at 20 20.
Proof. ext_tac 20%nat. ext_big 20 20%nat 5%nat. Qed.

Lemma ext_pure_24 : ext_pure_at 24 24.
Proof. ext_tac 24%nat. ext_big 24 24%nat 6%nat. Qed.

Definition int_pure_at (t : Z) (n : nat) : Prop := forall diag s,
  List.length s = n -> List.length diag = n ->
  matmul_internal Z Z.add Z.mul t diag s
  = Ok (map (fun row => dot row s) (internal_matrix n diag)).

Ltac int_tac t n :=
  let diag := fresh "diag" in let s := fresh "s" in
  let H := fresh "H" in let Hd := fresh "Hd" in
  intros diag s H Hd;
  unfold matmul_internal; rewrite H, Hd;
  split_list s H; split_list diag Hd;
  change (negb (t =? Z.of_nat n) || negb (t =? Z.of_nat n)) with false;
  unfold internal_matrix, matrix, diagonal_used, double, dot;
  cbv beta iota zeta delta [map nth seq fold_left fold_right combine Nat.eqb fst snd].

Ltac int_big t n :=
  int_tac t n;
  change (t =? 2) with false; change (t =? 3) with false;
  change (existsb (Z.eqb t) [4; 8; 12; 16; 20; 24]) with true;
  cbv iota; f_equal; list_ring.

Lemma int_pure_2 : int_pure_at 2 2.
Proof.
  int_tac 2 2%nat. change (2 =? 2) with true. cbv iota. f_equal. list_ring.
Qed.

Lemma int_pure_3 : int_pure_at 3 3.
Proof.
  int_tac 3 3%nat. change (3 =? 2) with false. change (3 =? 3) with true.
  cbv iota. f_equal. list_ring.
Qed.

Lemma int_pure_4 : int_pure_at 4 4.
Proof. int_big 4 4%nat. Qed.

Lemma int_pure_8 : int_pure_at 8 8.
Proof. int_big 8 8%nat. Qed.

Lemma int_pure_12 : int_pure_at 12 12.
Proof. int_big 12 12%nat. Qed.

Lemma int_pure_16 : int_pure_at 16 16.
Proof. int_big 16 16%nat. Qed.

Lemma int_pure_20 : int_pure_at 20 20.
Proof. int_big 20 20%nat. Qed.

Lemma int_pure_24 : int_pure_at 24 24.
Proof. int_big 24 24%nat. Qed.

Definition sizes : list Z := [2; 3; 4; 8; 12; 16; 20; 24].

Lemma ext_pure t s : In t sizes -> Z.of_nat (List.length s) = t ->
  matmul_external Z 0 Z.add t s
  = Ok (map (fun row => dot row s) (external_matrix (Z.to_nat t))).
Proof.
  intros Ht Hs. assert (Hn : List.length s = Z.to_nat t) by lia. clear Hs.
  cbn [sizes In] in Ht.
  repeat (destruct Ht as [<-|Ht]); [..|contradiction];
    [apply ext_pure_2|apply ext_pure_3|apply ext_pure_4|apply ext_pure_8
    |apply ext_pure_12|apply ext_pure_16|apply ext_pure_20|apply ext_pure_24]; exact Hn.
Qed.

Lemma int_pure t diag s : In t sizes ->
  Z.of_nat (List.length s) = t -> Z.of_nat (List.length diag) = t ->
  matmul_internal Z Z.add Z.mul t diag s
  = Ok (map (fun row => dot row s) (internal_matrix (Z.to_nat t) diag)).
Proof.
  intros Ht Hs Hd. assert (Hn : List.length s = Z.to_nat t) by lia.
  assert (Hm : List.length diag = Z.to_nat t) by lia. clear Hs Hd.
  cbn [sizes In] in Ht.
  repeat (destruct Ht as [<-|Ht]); [..|contradiction];
    [apply int_pure_2|apply int_pure_3|apply int_pure_4|apply int_pure_8
    |apply int_pure_12|apply int_pure_16|apply int_pure_20|apply int_pure_24];
    assumption.
Qed.

(* ------------------------------------------------------ modulo p *)

Definition reduced (p : Z) (xs : list Z) : Prop := Forall (fun a => 0 <= a < p) xs.

Lemma reduced_h p xs : reduced p xs -> map (fun a => a mod p) xs = xs.
Proof.
  induction 1 as [|a xs Ha Hr IH]; cbn [map]; [reflexivity|].
  rewrite IH, Z.mod_small by assumption. reflexivity.
Qed.

Lemma mat_vec_h p m x :
  map (fun a => a mod p) (map (fun row => dot row x) m) = mat_vec p m x.
Proof. unfold mat_vec. rewrite map_map. reflexivity. Qed.

Lemma ext_spec p t s : p <> 0 -> In t sizes -> Z.of_nat (List.length s) = t -> reduced p s ->
  matmul_external Z 0 (fadd p) t s = Ok (mat_vec p (external_matrix (Z.to_nat t)) s).
Proof.
  intros Hp Ht Hs Hr. rewrite <- (reduced_h p s Hr) at 1.
  rewrite ext_hom by assumption. rewrite ext_pure by assumption.
  cbn [rmap]. rewrite mat_vec_h. reflexivity.
Qed.

Lemma int_spec p t diag s : p <> 0 -> In t sizes ->
  Z.of_nat (List.length s) = t -> Z.of_nat (List.length diag) = t ->
  reduced p s -> reduced p diag ->
  matmul_internal Z (fadd p) (fmul p) t diag s
  = Ok (mat_vec p (internal_matrix (Z.to_nat t) diag) s).
Proof.
  intros Hp Ht Hs Hd Hr Hrd.
  rewrite <- (reduced_h p s Hr) at 1. rewrite <- (reduced_h p diag Hrd) at 1.
  rewrite int_hom by assumption. rewrite int_pure by assumption.
  cbn [rmap]. rewrite mat_vec_h. reflexivity.
Qed.

Lemma ext_other p t s : ~ In t sizes ->
  exists e, matmul_external Z 0 (fadd p) t s = Err e.
Proof.
  intros Ht. unfold matmul_external.
  destruct (negb (Z.of_nat (List.length s) =? t)); [eauto|].
  destruct (Z.eqb_spec t 2) as [->|]; [exfalso; apply Ht; cbn; auto|].
  destruct (Z.eqb_spec t 3) as [->|]; [exfalso; apply Ht; cbn; auto|].
  destruct (Z.eqb_spec t 4) as [->|]; [exfalso; apply Ht; cbn; auto|].
  destruct (existsb (Z.eqb t) [8; 12; 16; 20; 24]) eqn:E; [|eauto].
  exfalso. apply existsb_exists in E. destruct E as (x & Hx & E).
  apply Z.eqb_eq in E. subst x. apply Ht. unfold sizes.
  right. right. right. exact Hx.
Qed.

(* ------------------------------------------------------ the other layers *)

Lemma add_rc_ok p x k : len x = len k -> add_rc Z (fadd p) x k = Ok (add_all p x k).
Proof.
  intros H. unfold add_rc, len in *. rewrite H, Z.eqb_refl. reflexivity.
Qed.

Lemma add_rc_bad p x k : len x <> len k -> exists e, add_rc Z (fadd p) x k = Err e.
Proof.
  intros H. unfold add_rc, len in *.
  destruct (Z.eqb_spec (Z.of_nat (List.length x)) (Z.of_nat (List.length k))); [contradiction|].
  cbn [negb]. eauto.
Qed.

Lemma sbox_p_spec p a : p <> 0 -> sbox_p Z (fpow p) 5 a = a ^ 5 mod p.
Proof. intros Hp. unfold sbox_p. apply fpow_spec; [assumption|lia]. Qed.

Lemma sbox_spec p x : p <> 0 -> sbox Z (fpow p) 5 x = fifth_all p x.
Proof. intros Hp. apply map_ext. intros a. apply sbox_p_spec. assumption. Qed.

Lemma fold_dot p row x : 0 < p -> forall acc,
  fold_left (fun acc mi => fadd p acc (fmul p (fst mi) (snd mi))) (combine row x) (acc mod p)
  = (acc + dot row x) mod p.
Proof.
  intros Hp. unfold dot. induction (combine row x) as [|[a b] l IH]; intros acc;
    cbn [fold_left map fold_right fst snd].
  - rewrite Z.add_0_r. reflexivity.
  - unfold fadd, fmul at 2. rewrite <- Z.add_mod by lia. rewrite IH. f_equal. ring.
Qed.

Lemma matmul_rows_ok p t m x : 0 < p -> Forall (fun row => len row = t) m ->
  matmul_rows Z 0 (fadd p) (fmul p) t m x = Ok (mat_vec p m x).
Proof.
  intros Hp. induction 1 as [|row m Hrow Hm IH]; cbn [matmul_rows]; [reflexivity|].
  unfold len in Hrow. rewrite Hrow, Z.eqb_refl. cbn [negb]. cbv zeta. rewrite IH. cbn [rbind].
  unfold mat_vec at 2. cbn [map]. f_equal. f_equal.
  change 0 with (0 mod p) at 1. rewrite fold_dot by assumption. reflexivity.
Qed.

Lemma matmul_rows_bad p t m x : ~ Forall (fun row => len row = t) m ->
  exists e, matmul_rows Z 0 (fadd p) (fmul p) t m x = Err e.
Proof.
  induction m as [|row m IH]; intros H; cbn [matmul_rows]; [exfalso; apply H; constructor|].
  destruct (Z.eqb_spec (Z.of_nat (List.length row)) t) as [E|E]; cbn [negb]; [|eauto].
  destruct IH as [e He].
  - intros Hf. apply H. constructor; [exact E|exact Hf].
  - cbv zeta. rewrite He. cbn [rbind]. eauto.
Qed.

(* --------------------------------------------------------------- lengths *)

Lemma mat_vec_len p m x : List.length (mat_vec p m x) = List.length m.
Proof. apply map_length. Qed.

Lemma mat_vec_red p m x : 0 < p -> reduced p (mat_vec p m x).
Proof.
  intros Hp. apply Forall_forall. intros a Ha. apply in_map_iff in Ha.
  destruct Ha as (row & <- & _). apply Z.mod_pos_bound. assumption.
Qed.

Lemma add_all_len p x k : len x = len k -> List.length (add_all p x k) = List.length x.
Proof.
  unfold len. intros H. unfold add_all. rewrite map_length, combine_length. lia.
Qed.

Lemma add_all_red p x k : 0 < p -> reduced p (add_all p x k).
Proof.
  intros Hp. apply Forall_forall. intros a Ha. apply in_map_iff in Ha.
  destruct Ha as (row & <- & _). apply Z.mod_pos_bound. assumption.
Qed.

Lemma fifth_all_len p x : List.length (fifth_all p x) = List.length x.
Proof. apply map_length. Qed.

Lemma fifth_all_red p x : 0 < p -> reduced p (fifth_all p x).
Proof.
  intros Hp. apply Forall_forall. intros a Ha. apply in_map_iff in Ha.
  destruct Ha as (row & <- & _). apply Z.mod_pos_bound. assumption.
Qed.

Lemma fifth_first_len p x : List.length (fifth_first p x) = List.length x.
Proof. destruct x; reflexivity. Qed.

Lemma fifth_first_red p x : 0 < p -> reduced p x -> reduced p (fifth_first p x).
Proof.
  intros Hp H. destruct H; cbn [fifth_first]; constructor; [|assumption].
  apply Z.mod_pos_bound. assumption.
Qed.

Lemma matrix_len t e : List.length (matrix t e) = t.
Proof. unfold matrix. rewrite map_length. apply seq_length. Qed.

(* ---------------------------------------------------------------- rounds *)

Section Rounds.
Variable inv : list Z -> Prop.
Variable good : list Z -> Prop.
Variable body : list Z -> list Z -> res (list Z).
Variable f : list Z -> list Z -> list Z.
Hypothesis body_ok : forall k x, good k -> inv x -> body k x = Ok (f x k) /\ inv (f x k).

Lemma rounds_ok rcs : forall n lo x, (lo + n <= List.length rcs)%nat -> inv x ->
  Forall good (firstn n (skipn lo rcs)) ->
  rounds_loop Z body rcs lo n x = Ok (fold_left f (firstn n (skipn lo rcs)) x)
  /\ inv (fold_left f (firstn n (skipn lo rcs)) x).
Proof.
  induction n as [|n IH]; intros lo x Hl Hx Hg; cbn [rounds_loop].
  - cbn [firstn fold_left]. auto.
  - destruct (nth_error rcs lo) as [k|] eqn:E.
    2:{ apply nth_error_None in E. lia. }
    assert (Es : skipn lo rcs = k :: skipn (S lo) rcs).
    { clear - E. revert rcs E. induction lo as [|lo IHl]; intros [|y rcs] E; try discriminate.
      - injection E as ->. reflexivity.
      - cbn [skipn]. cbn [nth_error] in E. rewrite (IHl rcs E). reflexivity. }
    rewrite Es in *. cbn [firstn] in *. inversion Hg; subst.
    destruct (body_ok k x) as [-> Hi]; [assumption|assumption|].
    cbn [rbind fold_left]. apply IH; [lia|assumption|assumption].
Qed.

Hypothesis good_dec : forall k, good k \/ ~ good k.
Hypothesis body_bad : forall k x, ~ good k -> inv x -> exists e, body k x = Err e.

Lemma rounds_bad rcs : forall n lo x, (lo + n <= List.length rcs)%nat -> inv x ->
  ~ Forall good (firstn n (skipn lo rcs)) ->
  exists e, rounds_loop Z body rcs lo n x = Err e.
Proof.
  induction n as [|n IH]; intros lo x Hl Hx Hg; cbn [rounds_loop].
  - exfalso. apply Hg. constructor.
  - destruct (nth_error rcs lo) as [k|] eqn:E; [|eauto].
    assert (Es : skipn lo rcs = k :: skipn (S lo) rcs).
    { clear - E. revert rcs E. induction lo as [|lo IHl]; intros [|y rcs] E; try discriminate.
      - injection E as ->. reflexivity.
      - cbn [skipn]. cbn [nth_error] in E. rewrite (IHl rcs E). reflexivity. }
    rewrite Es in *. cbn [firstn] in *.
    destruct (good_dec k) as [Hk|Hk].
    + destruct (body_ok k x) as [-> Hi]; [assumption|assumption|]. cbn [rbind].
      apply IH; [lia|assumption|]. intros Hf. apply Hg. constructor; assumption.
    + destruct (body_bad k x Hk Hx) as [e ->]. cbn [rbind]. eauto.
Qed.
End Rounds.
