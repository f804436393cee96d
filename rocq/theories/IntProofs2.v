(* Number functions: values in the object table. *)
From Coq Require Import ZArith Lia List Bool.
From Verif Require Import Prelude ValModel ValSpec ValProofs WideProofs HeapModel HeapSpec HeapProofs
  ConvProofs HostFnModel HostFnProofs GuestModel IntModel IntSpec IntProofs.
Import ListNotations.
Open Scope Z_scope.
Ltac Zify.zify_post_hook ::= idtac.

Lemma num_range_wide w x : num_range (kind w) x <-> in_range w x.
Proof. destruct w; reflexivity. Qed.

Lemma numty_eqb_refl k : numty_eqb k k = true.
Proof. destruct k; reflexivity. Qed.
Lemma numty_eqb_eq k k' : numty_eqb k k' = true -> k = k'.
Proof. destruct k, k'; discriminate || reflexivity. Qed.
Lemma object_tag_num_real k : real_tag (object_tag_of_num k) = true.
Proof. destruct k; reflexivity. Qed.
Lemma object_tag_num_inj k k' : object_tag_of_num k = object_tag_of_num k' -> k = k'.
Proof. destruct k, k'; discriminate || reflexivity. Qed.

(* a number word: small, or an object holding the number *)
Lemma num_word h v k x : denotes h v (TNum k x) ->
  (is_object v = false /\ small_to_num k v = Some x)
  \/ (is_object v = true /\ small_to_num k v = None /\ obj_to_num k h v = Ok x).
Proof.
  intros D. destruct (denotes_cases h v _ D) as [Sm|(i & o & -> & N & L & O)].
  - destruct (small_facts v _ Sm) as (_ & Ho & F & _). left. split; [exact Ho|]. exact (proj1 F).
  - right. inversion O; subst. refine (conj (obj_is_object i _ L) (conj _ _)).
    + unfold small_to_num. rewrite tag_false; [reflexivity|apply small_tag_real|].
      rewrite obj_get_tag by exact L. cbn [hobj_tag]. destruct k; discriminate.
    + unfold obj_to_num, typed. rewrite tag_true; [|apply object_tag_num_real|apply obj_get_tag; exact L].
      unfold visit_num. rewrite (visit_obj h i _ N L). cbn [rbind].
      rewrite numty_eqb_refl. reflexivity.
Qed.

(* words of other values are refused *)
Lemma not_num_word h v k t : denotes h v t -> (forall x, t <> TNum k x) ->
  small_to_num k v = None /\ exists e, obj_to_num k h v = Err e.
Proof.
  intros D Hn. destruct (denotes_cases h v _ D) as [Sm|(i & o & -> & N & L & O)].
  - destruct (small_facts v _ Sm) as (T & Ho & F & _). split.
    + unfold small_to_num. rewrite tag_false; [reflexivity|apply small_tag_real|].
      rewrite T. destruct t as [[]| | | | |k' x'| | | | | | |]; cbn [stag sfield] in *; try contradiction;
        try (destruct k; discriminate).
      intros E. apply (Hn x'). f_equal. destruct k', k; discriminate || reflexivity.
    + unfold obj_to_num, typed. rewrite tag_false; [eexists; reflexivity|apply object_tag_num_real|].
      rewrite T. clear - F. destruct t as [[]| | | | |k' x'| | | | | | |]; cbn [stag sfield] in *; try contradiction;
        try (destruct k; discriminate). destruct k', k; discriminate.
  - split.
    + unfold small_to_num. rewrite tag_false; [reflexivity|apply small_tag_real|].
      rewrite obj_get_tag by exact L. destruct o as [k' x| | | | | | | |]; destruct k; cbn; try discriminate;
        destruct k'; discriminate.
    + unfold obj_to_num, typed.
      destruct (has_tag (obj_word i o) (object_tag_of_num k)); [|eexists; reflexivity].
      unfold visit_num. rewrite (visit_obj h i o N L). cbn [rbind].
      destruct o as [k' x| | | | | | | |]; try (eexists; reflexivity).
      destruct (numty_eqb k k') eqn:E; [|eexists; reflexivity].
      apply numty_eqb_eq in E. subst k'. inversion O; subst. exfalso. exact (Hn x eq_refl).
Qed.

Lemma denotes_num_range h v k x : denotes h v (TNum k x) -> num_range k x.
Proof. intros D. apply denotes_valid in D. exact D. Qed.

Lemma wide_of_val_ok w h v x : denotes h v (TNum (kind w) x) -> wide_of_val w h v = Ok x.
Proof.
  intros D. assert (R := denotes_num_range _ _ _ _ D).
  unfold wide_of_val. destruct (num_word h v _ x D) as [[_ ->]|(_ & -> & E)]; [reflexivity|].
  destruct w; cbn [kind num_range] in *.
  - unfold obj_to_u256_pieces. rewrite E. cbn [rbind].
    assert (J := u256_join_split x R). destruct (u256_into_pieces x) as [[[a b] c] d].
    rewrite J. reflexivity.
  - unfold obj_to_i256_pieces. rewrite E. cbn [rbind].
    assert (J := i256_join_split x R). destruct (i256_into_pieces x) as [[[a b] c] d].
    rewrite J. reflexivity.
Qed.

Lemma wide_of_val_bad w h v t : denotes h v t -> (forall x, t <> TNum (kind w) x) ->
  exists e, wide_of_val w h v = Err e.
Proof.
  intros D Hn. destruct (not_num_word h v (kind w) t D Hn) as (E1 & e & E2).
  unfold wide_of_val. rewrite E1. exists e. destruct w; cbn [kind] in *;
    unfold obj_to_u256_pieces, obj_to_i256_pieces; rewrite E2; reflexivity.
Qed.

Lemma rhs_of_val_ok w f h v b : second w f h v b -> rhs_of_val w f h v = Ok b.
Proof.
  unfold second, rhs_of_val. destruct (by_u32 f); intros D; [|apply wide_of_val_ok; exact D].
  destruct (denotes_cases h v _ D) as [Sm|(i & o & _ & _ & _ & O)]; [|inversion O].
  destruct (small_facts v _ Sm) as (T & _ & F & _). unfold u32_of_val.
  rewrite tag_true by (reflexivity || exact T). cbn [sfield] in F. rewrite F. reflexivity.
Qed.

Lemma rhs_of_val_bad w f h v t : denotes h v t ->
  (forall b, t <> (if by_u32 f then TU32 b else TNum (kind w) b)) ->
  exists e, rhs_of_val w f h v = Err e.
Proof.
  unfold rhs_of_val. destruct (by_u32 f); intros D Hn; [|eapply wide_of_val_bad; eassumption].
  unfold u32_of_val. rewrite tag_false; [eexists; reflexivity|reflexivity|].
  destruct (denotes_cases h v _ D) as [Sm|(i & o & -> & N & L & O)].
  - destruct (small_facts v _ Sm) as (-> & _ & F & _).
    destruct t as [[]| | |x| |[] x'| | | | | | |]; cbn [stag small_tag sfield] in *; try contradiction; try discriminate.
    exfalso. exact (Hn x eq_refl).
  - rewrite obj_get_tag by exact L. destruct o as [[] x| | | | | | | |]; discriminate.
Qed.

Lemma second_in_range w f h v b : second w f h v b -> second_range w f b.
Proof.
  unfold second, second_range. destruct (by_u32 f); intros D.
  - apply denotes_valid in D. cbn [valid_tree] in D. exact D.
  - apply num_range_wide. exact (denotes_num_range _ _ _ _ D).
Qed.

(* ----------------------------------------------------------------- results *)

Lemma add_object_word h o t h' r : add_host_object h o = (h', r) -> fits h' -> obj_denotes h o t ->
  extends h h' /\ (heap_ok h -> heap_ok h') /\ exists v, r = Ok v /\ denotes h' v t /\ is_object v = true.
Proof.
  intros E F D. destruct (add_step h o t h' r E (fun _ => D)) as [X Y]. destruct (Y F) as [Y1 Y2].
  refine (conj X (conj Y1 _)). destruct r as [v|e]; [|destruct (add_fits _ _ _ _ E F)].
  exists v. refine (conj eq_refl (conj (Y2 v eq_refl) _)).
  destruct (add_denotes _ _ _ _ E F) as (_ & -> & L). apply obj_is_object. exact L.
Qed.

Lemma wide_to_val_ok w h x h' r : in_range w x -> wide_to_val w h x = (h', r) -> fits h' ->
  extends h h' /\ (heap_ok h -> heap_ok h') /\ exists v, r = Ok v /\ returned w h' v x.
Proof.
  intros R E F. apply num_range_wide in R. unfold wide_to_val in E.
  destruct (num_to_small_spec (kind w) x R) as [[Sm En]|[Sm En]]; rewrite En in E.
  - injection E as <- <-. refine (conj (extends_refl h) (conj (fun H => H) _)).
    exists (word_of_atom (ANum (kind w) x)). split; [reflexivity|].
    assert (Ds : small_denotes (word_of_atom (ANum (kind w) x)) (TNum (kind w) x))
      by (constructor; [exact Sm|reflexivity]).
    split; [apply small_denotes_any; exact Ds|].
    destruct (small_facts _ _ Ds) as (_ & Ho & _). split; intros; [exact Sm|exact Ho].
  - assert (E' : add_host_object h (HONum (kind w) x) = (h', r)).
    { destruct w; cbn [kind num_range] in *.
      - assert (J := u256_join_split x R). destruct (u256_into_pieces x) as [[[a b] c] d].
        unfold obj_from_u256_pieces, obj_from_num in E. rewrite J in E. exact E.
      - assert (J := i256_join_split x R). destruct (i256_into_pieces x) as [[[a b] c] d].
        unfold obj_from_i256_pieces, obj_from_num in E. rewrite J in E. exact E. }
    destruct (add_object_word h _ (TNum (kind w) x) h' r E' F (do_num h _ x R))
      as (X & K & v & Er & D & O).
    refine (conj X (conj K _)). exists v. refine (conj Er (conj D _)).
    rewrite O. split; [discriminate|contradiction].
Qed.

Lemma wide_to_val_extends w h x h' r : wide_to_val w h x = (h', r) -> extends h h'.
Proof.
  unfold wide_to_val. destruct (num_to_small (kind w) x); intros E.
  - injection E as <- <-. apply extends_refl.
  - destruct w.
    + destruct (u256_into_pieces x) as [[[a b] c] d]. eapply add_prefix. exact E.
    + destruct (i256_into_pieces x) as [[[a b] c] d]. eapply add_prefix. exact E.
Qed.

Lemma bignum_eq w f h l r a b : denotes h l (TNum (kind w) a) -> second w f h r b ->
  bignum w f h l r = match method f w a b with
                     | None => (h, Err e_overflow) | Some x => wide_to_val w h x end
  /\ bignum_checked w f h l r = match method f w a b with
                     | None => (h, Ok val_void) | Some x => wide_to_val w h x end.
Proof.
  intros Dl Dr. unfold bignum, bignum_checked.
  rewrite (wide_of_val_ok w h l a Dl), (rhs_of_val_ok w f h r b Dr). split; reflexivity.
Qed.

Lemma bignum_spec w f h l r a b h' out :
  denotes h l (TNum (kind w) a) -> second w f h r b ->
  bignum w f h l r = (h', out) -> fits h' ->
  extends h h' /\ (heap_ok h -> heap_ok h')
  /\ match out with
     | Ok v => bignum_checked w f h l r = (h', Ok v)
               /\ exists z, meant f a b z /\ in_range w z /\ ~ overflowing_rem w f a b
                            /\ returned w h' v z
     | Err e => h' = h /\ e = e_overflow /\ bignum_checked w f h l r = (h, Ok val_void)
                /\ forall z, meant f a b z -> in_range w z -> overflowing_rem w f a b
     end.
Proof.
  intros Dl Dr E F. destruct (bignum_eq w f h l r a b Dl Dr) as [E1 E2].
  assert (Ra : in_range w a) by (apply num_range_wide; exact (denotes_num_range _ _ _ _ Dl)).
  assert (M := method_spec w f a b Ra (second_in_range _ _ _ _ _ Dr)).
  rewrite E1 in E. destruct (method f w a b) as [z|].
  - destruct M as (M1 & M2 & M3).
    destruct (wide_to_val_ok w h z h' out M2 E F) as (X & K & v & -> & Rv).
    refine (conj X (conj K (conj _ _))); [rewrite E2; exact E|].
    exists z. refine (conj M1 (conj M2 (conj M3 Rv))).
  - injection E as <- <-. refine (conj (extends_refl h) (conj (fun H => H) _)).
    refine (conj eq_refl (conj eq_refl (conj E2 M))).
Qed.

(* ------------------------------------------------------------------- bytes *)

Lemma be_number_spec bs : be_number bs = big_endian bs.
Proof.
  unfold be_number.
  assert (G : forall bs acc, fold_left (fun acc b => 256 * acc + b) bs acc
                = acc * 256 ^ Z.of_nat (length bs) + big_endian bs).
  { clear. induction bs as [|b bs IH]; intros acc; cbn [fold_left big_endian length].
    - rewrite Z.pow_0_r. ring.
    - rewrite IH, Nat2Z.inj_succ, Z.pow_succ_r by lia. ring. }
  rewrite G. ring.
Qed.

Lemma big_endian_range bs : Forall (fun b => 0 <= b < 256) bs ->
  0 <= big_endian bs < 256 ^ Z.of_nat (length bs).
Proof.
  induction 1 as [|b bs Hb Hbs IH]; cbn [big_endian length]; [split; reflexivity || lia|].
  rewrite Nat2Z.inj_succ, Z.pow_succ_r by lia.
  generalize dependent (256 ^ Z.of_nat (length bs)). intros. nia.
Qed.

Lemma big_endian_app a b : big_endian (a ++ b) = big_endian a * 256 ^ Z.of_nat (length b) + big_endian b.
Proof.
  induction a as [|x a IH]; cbn [big_endian app]; [ring|].
  rewrite IH, app_length, Nat2Z.inj_add, Z.pow_add_r by lia. ring.
Qed.

Lemma big_endian_le n : forall x, big_endian (rev (le_bytes n x)) = x mod 256 ^ Z.of_nat n.
Proof.
  induction n as [|n IH]; intros x; [cbn; rewrite Z.mod_1_r; reflexivity|].
  cbn [le_bytes rev]. rewrite big_endian_app, IH. cbn [length big_endian].
  change (256 ^ Z.of_nat 1) with 256. change (256 ^ Z.of_nat 0) with 1.
  rewrite Nat2Z.inj_succ, Z.pow_succ_r by lia.
  rewrite Z.rem_mul_r by (lia || apply Z.pow_pos_nonneg; lia). ring.
Qed.

Lemma le_bytes_length n : forall x, length (le_bytes n x) = n.
Proof. induction n as [|n IH]; intros x; cbn [le_bytes length]; [reflexivity|]. rewrite IH. reflexivity. Qed.

Lemma le_bytes_bytes n : forall x, Forall (fun b => 0 <= b < 256) (le_bytes n x).
Proof.
  induction n as [|n IH]; intros x; cbn [le_bytes]; constructor; [|apply IH].
  apply Z.mod_pos_bound. reflexivity.
Qed.

Lemma pow_bytes : 256 ^ Z.of_nat 32 = 2 ^ 256. Proof. reflexivity. Qed.

(* numbers are determined by their bytes and conversely *)
Lemma big_endian_inj a : forall b, length a = length b ->
  Forall (fun b => 0 <= b < 256) a -> Forall (fun b => 0 <= b < 256) b ->
  big_endian a = big_endian b -> a = b.
Proof.
  induction a as [|x a IH]; intros [|y b] L Ha Hb E; try discriminate; [reflexivity|].
  cbn [big_endian] in E. injection L as L. rewrite <- L in E.
  inversion Ha; inversion Hb; subst.
  assert (Ra := big_endian_range a ltac:(assumption)).
  assert (Rb := big_endian_range b ltac:(assumption)). rewrite <- L in Rb.
  assert (x = y).
  { generalize dependent (256 ^ Z.of_nat (length a)). intros. nia. }
  subst y. f_equal. apply IH; try assumption. lia.
Qed.

Lemma bytes_mean_unique w a b z :
  Forall (fun b => 0 <= b < 256) a -> Forall (fun b => 0 <= b < 256) b ->
  bytes_mean w a z -> bytes_mean w b z -> a = b.
Proof.
  intros Ha Hb (La & R & Ea) (Lb & _ & Eb).
  assert (Ra := big_endian_range a Ha). assert (Rb := big_endian_range b Hb).
  rewrite La, pow_bytes in Ra. rewrite Lb, pow_bytes in Rb.
  apply big_endian_inj; [congruence|exact Ha|exact Hb|].
  destruct Ea as [Ea|[_ Ea]], Eb as [Eb|[_ Eb]]; lia.
Qed.

Lemma mean_unique w bs z z' : bytes_mean w bs z -> bytes_mean w bs z' -> z = z'.
Proof.
  intros (_ & R & E) (_ & R' & E').
  destruct E as [E|[-> E]], E' as [E'|[Ew E']]; try congruence.
  - subst w. apply (in_range_unique WI z z' 1); [exact R|exact R'|]. lia.
  - apply (in_range_unique WI z z' (-1)); [exact R|exact R'|]. lia.
Qed.

Lemma of_be_bytes_mean w bs : length bs = 32%nat -> Forall (fun b => 0 <= b < 256) bs ->
  bytes_mean w bs (of_be_bytes w bs).
Proof.
  intros L Hb. assert (R := big_endian_range bs Hb). rewrite L, pow_bytes in R.
  refine (conj L (conj (wrap_in_range w _) _)). unfold of_be_bytes. rewrite be_number_spec.
  destruct w; cbn [wrap].
  - left. apply Z.mod_small. exact R.
  - unfold as_i256. cbv zeta. rewrite Z.mod_small by exact R.
    destruct (_ <? _); [left; reflexivity|right; split; reflexivity].
Qed.

Lemma to_be_bytes_mean w x : in_range w x ->
  bytes_mean w (to_be_bytes x) x /\ bytes_ok (to_be_bytes x).
Proof.
  intros R. unfold to_be_bytes.
  assert (L : length (rev (le_bytes 32 (x mod 2 ^ 256))) = 32%nat)
    by (rewrite rev_length, le_bytes_length; reflexivity).
  split; [refine (conj L (conj R _))|split].
  - rewrite big_endian_le, pow_bytes, Z.mod_mod by discriminate.
    destruct w; cbn [in_range] in R.
    + left. rewrite Z.mod_small by exact R. reflexivity.
    + destruct (Z_lt_dec x 0) as [H|H].
      * right. split; [reflexivity|].
        rewrite <- (Z.mod_unique_pos x (2 ^ 256) (-1) (x + 2 ^ 256)); [ring| |ring].
        rewrite p256_255. lia.
      * left. rewrite Z.mod_small; [reflexivity|]. rewrite p256_255. lia.
  - unfold short. rewrite L. discriminate.
  - apply Forall_rev, le_bytes_bytes.
Qed.

Lemma val_from_be_bytes_spec w h v bs h' out : denotes h v (TBytes bs) ->
  val_from_be_bytes w h v = (h', out) -> fits h' ->
  extends h h' /\ (heap_ok h -> heap_ok h')
  /\ match out with
     | Ok x => exists z, bytes_mean w bs z /\ returned w h' x z
     | Err e => length bs <> 32%nat /\ h' = h
     end.
Proof.
  intros D E F. unfold val_from_be_bytes in E.
  assert (A := arg_bytes_den h v _ D). destruct (arg_bytes h v) as [m|e].
  - destruct A as [A Hb]. injection A as <-.
    destruct (Nat.eqb_spec (length bs) 32) as [L|L].
    + assert (M := of_be_bytes_mean w bs L (proj2 Hb)).
      destruct (wide_to_val_ok w h _ h' out (proj1 (proj2 M)) E F) as (X & K & x & -> & Rx).
      refine (conj X (conj K _)). exists (of_be_bytes w bs). split; assumption.
    + injection E as <- <-. refine (conj (extends_refl h) (conj (fun H => H) _)). split; [exact L|reflexivity].
  - specialize (A (fun _ => Some [])). discriminate.
Qed.

Lemma val_to_be_bytes_spec w h v z h' out : denotes h v (TNum (kind w) z) ->
  val_to_be_bytes w h v = (h', out) -> fits h' ->
  extends h h' /\ (heap_ok h -> heap_ok h')
  /\ exists x bs, out = Ok x /\ denotes h' x (TBytes bs) /\ bytes_mean w bs z.
Proof.
  intros D E F. assert (R := denotes_num_range _ _ _ _ D). apply num_range_wide in R.
  destruct (to_be_bytes_mean w z R) as [M Hb].
  assert (E' : add_host_object h (HOBytes (to_be_bytes z)) = (h', out)).
  { unfold val_to_be_bytes in E.
    destruct (num_word h v _ z D) as [[_ Es]|(_ & Es & Eo)]; rewrite Es in E; [exact E|].
    rewrite Eo in E. exact E. }
  destruct (add_object_word h _ _ h' out E' F (do_bytes h _ Hb)) as (X & K & x & -> & Dx & _).
  refine (conj X (conj K _)). exists x, (to_be_bytes z). split; [reflexivity|]. split; assumption.
Qed.
