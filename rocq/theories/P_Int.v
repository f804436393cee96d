(* C69: number functions return the exact integer or refuse. *)
From Coq Require Import ZArith Lia List Bool.
From Verif Require Import Prelude ValModel ValSpec ValProofs WideProofs HeapModel HeapSpec HeapProofs
  ConvProofs HostFnModel HostFnProofs GuestModel IntModel IntSpec IntProofs IntProofs2.
Import ListNotations.
Open Scope Z_scope.
Ltac Zify.zify_post_hook ::= idtac.

(* Every 256-bit function, on arguments that are numbers of its type (small
   words or objects alike): it returns the canonical word of the integer it
   stands for, or fails with the overflow error exactly when no integer in range
   is that result (the remainder of the least number by -1 apart).  The checked
   variant agrees with it, with Void in place of the error.  The object table
   only grows, and not on failure. *)
Theorem C69_exact_or_refused : forall w f h l r a b h' out,
  denotes h l (TNum (kind w) a) -> second w f h r b ->
  bignum w f h l r = (h', out) -> fits h' ->
  extends h h' /\ (heap_ok h -> heap_ok h')
  /\ match out with
     | Ok v => bignum_checked w f h l r = (h', Ok v)
               /\ exists z, meant f a b z /\ in_range w z /\ ~ overflowing_rem w f a b
                            /\ returned w h' v z
     | Err e => h' = h /\ e = ESys TObject CArithDomain /\ bignum_checked w f h l r = (h, Ok val_void)
                /\ forall z, meant f a b z -> in_range w z -> overflowing_rem w f a b
     end.
Proof. exact bignum_spec. Qed.
Print Assumptions C69_exact_or_refused.

(* That integer is unique. *)
Theorem C69_one_meaning : forall w f a b z z',
  in_range w z -> in_range w z' -> meant f a b z -> meant f a b z' -> z = z'.
Proof. exact meant_unique. Qed.
Print Assumptions C69_one_meaning.

(* Arguments of any other type are refused and nothing changes. *)
Theorem C69_other_types_refused : forall w f h l r t t',
  denotes h l t -> denotes h r t' ->
  (forall a, t <> TNum (kind w) a)
  \/ (forall b, t' <> (if by_u32 f then TU32 b else TNum (kind w) b)) ->
  exists e, bignum w f h l r = (h, Err e) /\ bignum_checked w f h l r = (h, Err e).
Proof.
  intros w f h l r t t' Dl Dr H. unfold bignum, bignum_checked.
  destruct (wide_of_val w h l) as [a|e] eqn:E; [|exists e; split; reflexivity].
  destruct H as [H|H].
  - destruct (wide_of_val_bad w h l t Dl H) as [e E']. congruence.
  - destruct (rhs_of_val_bad w f h r t' Dr H) as [e ->]. exists e. split; reflexivity.
Qed.
Print Assumptions C69_other_types_refused.

(* Quotient and remainder: they fit together for unsigned numbers, and for
   signed ones unless the first is negative and not a multiple; then the
   remainder is too large by the size of the divisor, since the quotient is
   rounded towards zero and the remainder is Euclidean. *)
Theorem C69_quotient_and_remainder : forall a b q r,
  meant FDiv a b q -> meant FRem a b r ->
  (0 <= a \/ r = 0 -> a = b * q + r) /\ (a < 0 -> r <> 0 -> a = b * q + r - Z.abs b).
Proof.
  intros a b q r (m & Ea & Hm & Hs) ((q' & Eq) & Hr).
  assert (D : b * (q' - q) = m - r) by lia.
  assert (C : m - r = 0 \/ m - r = - Z.abs b \/ Z.abs (m - r) >= 2 * Z.abs b \/ m - r = Z.abs b).
  { rewrite <- D. clear - Hr. destruct (Z_lt_dec b 0).
    - rewrite (Z.abs_neq b) by lia. rewrite Z.abs_mul, (Z.abs_neq b) by lia.
      destruct (Z.eq_dec (q' - q) 0) as [E|E]; [left; rewrite E; ring|].
      destruct (Z.eq_dec (q' - q) 1) as [E1|E1]; [right; left; rewrite E1; ring|].
      destruct (Z.eq_dec (q' - q) (-1)) as [E2|E2]; [right; right; right; rewrite E2; ring|].
      right. right. left. assert (Z.abs (q' - q) >= 2) by lia. nia.
    - rewrite (Z.abs_eq b) by lia. rewrite Z.abs_mul, (Z.abs_eq b) by lia.
      destruct (Z.eq_dec (q' - q) 0) as [E|E]; [left; rewrite E; ring|].
      destruct (Z.eq_dec (q' - q) 1) as [E1|E1]; [right; right; right; rewrite E1; ring|].
      destruct (Z.eq_dec (q' - q) (-1)) as [E2|E2]; [right; left; rewrite E2; ring|].
      right. right. left. assert (Z.abs (q' - q) >= 2) by lia. nia. }
  split.
  - intros [Ha|Hz].
    + assert (Hm0 : 0 <= m \/ a = 0) by (destruct (Z.eq_dec a 0); [right; assumption|left; clear - Hs Ha n; nia]).
      destruct Hm0 as [Hm0|Ha0]; [lia|]. subst a.
      destruct C as [C|[C|[C|C]]]; try lia.
      exfalso. assert (r = m + Z.abs b) by lia.
      assert (Z.abs (b * q) < Z.abs b) by (replace (b * q) with (- m) by lia; lia).
      rewrite Z.abs_mul in H0. assert (q = 0) by (clear - H0; nia). subst q. lia.
    + lia.
  - intros Ha Hz. assert (m <= 0) by (clear - Hs Ha; nia). lia.
Qed.
Print Assumptions C69_quotient_and_remainder.

(* Numbers from bytes: exactly 32 bytes, read as a big-endian number in two's
   complement; every other length is refused. *)
Theorem C69_from_bytes : forall w h v bs h' out,
  denotes h v (TBytes bs) -> val_from_be_bytes w h v = (h', out) -> fits h' ->
  extends h h' /\ (heap_ok h -> heap_ok h')
  /\ match out with
     | Ok x => exists z, bytes_mean w bs z /\ returned w h' x z
     | Err e => length bs <> 32%nat /\ h' = h
     end.
Proof. exact val_from_be_bytes_spec. Qed.
Print Assumptions C69_from_bytes.

(* ... and back: every number has its 32 bytes. *)
Theorem C69_to_bytes : forall w h v z h' out,
  denotes h v (TNum (kind w) z) -> val_to_be_bytes w h v = (h', out) -> fits h' ->
  extends h h' /\ (heap_ok h -> heap_ok h')
  /\ exists x bs, out = Ok x /\ denotes h' x (TBytes bs) /\ bytes_mean w bs z.
Proof. exact val_to_be_bytes_spec. Qed.
Print Assumptions C69_to_bytes.

(* Arguments of any other type are refused and nothing changes. *)
Theorem C69_bytes_of_other_types_refused : forall w h v t,
  denotes h v t ->
  ((forall bs, t <> TBytes bs) -> exists e, val_from_be_bytes w h v = (h, Err e))
  /\ ((forall z, t <> TNum (kind w) z) -> exists e, val_to_be_bytes w h v = (h, Err e)).
Proof.
  intros w h v t D. split; intros H.
  - unfold val_from_be_bytes. assert (A := arg_bytes_den h v _ D).
    destruct (arg_bytes h v) as [m|e]; [|exists e; reflexivity].
    destruct A as [A _]. exfalso. exact (H m A).
  - unfold val_to_be_bytes. destruct (not_num_word h v (kind w) t D H) as (-> & e & ->).
    exists e. reflexivity.
Qed.
Print Assumptions C69_bytes_of_other_types_refused.

(* The two are inverse: the bytes of a number read as that number, the number
   of 32 bytes is written as those bytes. *)
Theorem C69_bytes_round_trip : forall w h v h1 x h2 y,
  (forall z, denotes h v (TNum (kind w) z) ->
     val_to_be_bytes w h v = (h1, Ok x) -> val_from_be_bytes w h1 x = (h2, Ok y) -> fits h2 ->
     returned w h2 y z)
  /\ (forall bs, denotes h v (TBytes bs) ->
     val_from_be_bytes w h v = (h1, Ok x) -> val_to_be_bytes w h1 x = (h2, Ok y) -> fits h2 ->
     denotes h2 y (TBytes bs)).
Proof.
  intros w h v h1 x h2 y. split.
  - intros z D E1 E2 F.
    assert (F1 : fits h1).
    { unfold val_from_be_bytes in E2. destruct (arg_bytes h1 x); [|discriminate].
      destruct (Nat.eqb _ _); [|discriminate].
      apply (extends_fits h1 h2); [|exact F]. eapply wide_to_val_extends. exact E2. }
    destruct (val_to_be_bytes_spec w h v z h1 _ D E1 F1) as (_ & _ & x' & bs & Ex & Dx & M).
    injection Ex as <-.
    destruct (val_from_be_bytes_spec w h1 x bs h2 _ Dx E2 F) as (_ & _ & z' & M' & R).
    rewrite (mean_unique w bs z z' M M'). exact R.
  - intros bs D E1 E2 F.
    assert (F1 : fits h1).
    { apply (extends_fits h1 h2); [|exact F]. unfold val_to_be_bytes in E2.
      destruct (small_to_num (kind w) x); [eapply add_prefix; exact E2|].
      destruct (obj_to_num (kind w) h1 x); [eapply add_prefix; exact E2|discriminate]. }
    destruct (val_from_be_bytes_spec w h v bs h1 _ D E1 F1) as (_ & _ & z & M & Dx & _).
    destruct (val_to_be_bytes_spec w h1 x z h2 _ Dx E2 F) as (_ & _ & y' & bs' & Ey & Dy & M').
    injection Ey as <-. apply denotes_valid in Dy as V'. apply denotes_valid in D as V.
    cbn [valid_tree] in V, V'.
    rewrite (bytes_mean_unique w bs bs' z (proj2 V) (proj2 V') M M'). exact Dy.
Qed.
Print Assumptions C69_bytes_round_trip.

(* Number objects: one made from a number in range holds it, and reading it as
   the same type gives it back; words of other types are refused. *)
Theorem C69_number_objects : forall k h x h' v,
  num_range k x -> obj_from_num k h x = (h', Ok v) -> fits h' ->
  extends h h' /\ denotes h' v (TNum k x) /\ is_object v = true /\ obj_to_num k h' v = Ok x
  /\ forall k', k' <> k -> exists e, obj_to_num k' h' v = Err e.
Proof.
  intros k h x h' v R E F.
  destruct (add_object_word h _ (TNum k x) h' _ E F (do_num h k x R)) as (X & _ & v' & Ev & D & O).
  injection Ev as <-. refine (conj X (conj D (conj O (conj _ _)))).
  - destruct (num_word h' v k x D) as [[Ho _]|(_ & _ & E')]; [congruence|exact E'].
  - intros k' Hk. apply (not_num_word h' v k' _ D). intros y Ey. injection Ey as Ek _. congruence.
Qed.
Print Assumptions C69_number_objects.

(* 128- and 256-bit objects in 64-bit pieces, the top piece signed for signed
   numbers: the object holds the positional value, and the same pieces return. *)
Theorem C69_pieces : forall h h' v hh hl lh ll s,
  0 <= hh < 2 ^ 64 -> 0 <= hl < 2 ^ 64 -> 0 <= lh < 2 ^ 64 -> 0 <= ll < 2 ^ 64 ->
  - 2 ^ 63 <= s < 2 ^ 63 -> fits h' ->
  (obj_from_u128_pieces h hh hl = (h', Ok v) ->
     denotes h' v (TNum NU128 (hh * 2 ^ 64 + hl)) /\ obj_to_u128_pieces h' v = Ok (hh, hl))
  /\ (obj_from_i128_pieces h s hl = (h', Ok v) ->
     denotes h' v (TNum NI128 (s * 2 ^ 64 + hl)) /\ obj_to_i128_pieces h' v = Ok (s, hl))
  /\ (obj_from_u256_pieces h hh hl lh ll = (h', Ok v) ->
     denotes h' v (TNum NU256 (hh * 2 ^ 192 + hl * 2 ^ 128 + lh * 2 ^ 64 + ll))
     /\ obj_to_u256_pieces h' v = Ok (hh, hl, lh, ll))
  /\ (obj_from_i256_pieces h s hl lh ll = (h', Ok v) ->
     denotes h' v (TNum NI256 (s * 2 ^ 192 + hl * 2 ^ 128 + lh * 2 ^ 64 + ll))
     /\ obj_to_i256_pieces h' v = Ok (s, hl, lh, ll)).
Proof.
  intros h h' v hh hl lh ll s H1 H2 H3 H4 Hs F.
  refine (conj _ (conj _ (conj _ _))); intros E.
  - destruct (u128_split_join hh hl H1 H2) as (R & P1 & P2).
    destruct (C69_number_objects NU128 h _ h' v R E F) as (_ & D & _ & T & _).
    unfold obj_to_u128_pieces. rewrite T. cbn [rbind]. rewrite P1, P2.
    unfold u128_from_pieces in D. rewrite shiftl_lor in D by exact H2. split; [exact D|reflexivity].
  - destruct (i128_split_join s hl Hs H2) as (R & P1 & P2).
    destruct (C69_number_objects NI128 h _ h' v R E F) as (_ & D & _ & T & _).
    unfold obj_to_i128_pieces. rewrite T. cbn [rbind]. rewrite P1, P2.
    rewrite i128_from_pieces_eq in D by assumption. split; [exact D|reflexivity].
  - destruct (u256_split_join hh hl lh ll H1 H2 H3 H4) as (R & P).
    destruct (C69_number_objects NU256 h _ h' v R E F) as (_ & D & _ & T & _).
    unfold obj_to_u256_pieces. rewrite T. cbn [rbind]. rewrite P.
    rewrite u256_from_pieces_eq in D by assumption.
    replace (hh * 2 ^ 192 + hl * 2 ^ 128 + lh * 2 ^ 64 + ll)
      with (((hh * 2 ^ 64 + hl) * 2 ^ 64 + lh) * 2 ^ 64 + ll) by ring.
    split; [exact D|reflexivity].
  - destruct (i256_split_join s hl lh ll Hs H2 H3 H4) as (R & P).
    destruct (C69_number_objects NI256 h _ h' v R E F) as (_ & D & _ & T & _).
    unfold obj_to_i256_pieces. rewrite T. cbn [rbind]. rewrite P.
    rewrite i256_from_pieces_eq in D by assumption.
    replace (s * 2 ^ 192 + hl * 2 ^ 128 + lh * 2 ^ 64 + ll)
      with (((s * 2 ^ 64 + hl) * 2 ^ 64 + lh) * 2 ^ 64 + ll) by ring.
    split; [exact D|reflexivity].
Qed.
Print Assumptions C69_pieces.

(* ---------------------------------------------------------------- examples *)

(* a table with the least I256 and the largest U256 *)
Definition ex_int : heap := [HONum NI256 (- 2 ^ 255); HONum NU256 (2 ^ 256 - 1)].
Definition ex_min : Z := obj_word 0 (HONum NI256 (- 2 ^ 255)).
Definition ex_max : Z := obj_word 1 (HONum NU256 (2 ^ 256 - 1)).
Definition small (k : numty) (x : Z) : Z := word_of_atom (ANum k x).

Lemma ex_small k x : small_range k x -> denotes ex_int (small k x) (TNum k x).
Proof. intros H. apply small_denotes_any. constructor; [exact H|reflexivity]. Qed.

Example C69_exact_hyp :
  denotes ex_int ex_min (TNum NI256 (- 2 ^ 255)) /\ denotes ex_int ex_max (TNum NU256 (2 ^ 256 - 1))
  /\ second WI FRem ex_int (small NI256 (-1)) (-1)
  /\ second WU FPow ex_int (val_of_u32 255) 255
  /\ fits ex_int /\ heap_ok ex_int.
Proof.
  assert (A : obj_denotes ex_int (HONum NI256 (- 2 ^ 255)) (TNum NI256 (- 2 ^ 255)))
    by (constructor; cbn [num_range]; lia).
  assert (B : obj_denotes ex_int (HONum NU256 (2 ^ 256 - 1)) (TNum NU256 (2 ^ 256 - 1)))
    by (constructor; cbn [num_range]; lia).
  refine (conj _ (conj _ (conj _ (conj _ (conj _ _))))).
  - apply dn_object with (i := 0%nat); [reflexivity|cbn; lia|exact A].
  - apply dn_object with (i := 1%nat); [reflexivity|cbn; lia|exact B].
  - apply ex_small. cbn. lia.
  - apply u32_den. unfold u32_max. lia.
  - unfold fits. cbn. lia.
  - constructor; [eexists; exact A|]. constructor; [eexists; exact B|constructor].
Qed.

(* results: small words, new objects, errors, Void *)
Example C69_exact_run :
  bignum WI FRem ex_int (small NI256 (-7)) (small NI256 2) = (ex_int, Ok (small NI256 1))
  /\ bignum WI FDiv ex_int (small NI256 (-7)) (small NI256 2) = (ex_int, Ok (small NI256 (-3)))
  /\ bignum WI FRem ex_int ex_min (small NI256 (-1)) = (ex_int, Err (ESys TObject CArithDomain))
  /\ bignum WU FAdd ex_int ex_max (small NU256 1) = (ex_int, Err (ESys TObject CArithDomain))
  /\ bignum_checked WU FAdd ex_int ex_max (small NU256 1) = (ex_int, Ok val_void)
  /\ fst (bignum WU FPow ex_int (small NU256 2) (val_of_u32 255)) = ex_int ++ [HONum NU256 (2 ^ 255)]
  /\ bignum WI FPow ex_int (small NI256 2) (val_of_u32 255) = (ex_int, Err (ESys TObject CArithDomain))
  /\ bignum WU FShl ex_int ex_max (val_of_u32 256) = (ex_int, Err (ESys TObject CArithDomain))
  /\ fst (bignum WU FShl ex_int ex_max (val_of_u32 4)) = ex_int ++ [HONum NU256 (2 ^ 256 - 16)]
  /\ (exists e, bignum WU FAdd ex_int ex_min (small NU256 1) = (ex_int, Err e))
  /\ (exists e, bignum WU FPow ex_int (small NU256 2) (small NU256 3) = (ex_int, Err e)).
Proof. repeat split; try (vm_compute; reflexivity); eexists; vm_compute; reflexivity. Qed.

(* the remainder that is refused although it is representable *)
Example C69_rem_refused :
  meant FRem (- 2 ^ 255) (-1) 0 /\ in_range WI 0 /\ overflowing_rem WI FRem (- 2 ^ 255) (-1)
  /\ bignum WI FRem ex_int ex_min (small NI256 (-1)) = (ex_int, Err (ESys TObject CArithDomain)).
Proof.
  refine (conj _ (conj _ (conj _ _))); [|cbn; lia|repeat split|vm_compute; reflexivity].
  split; [exists (2 ^ 255); ring|cbn; lia].
Qed.

Example C69_quotient_hyp :
  meant FDiv (-7) 2 (-3) /\ meant FRem (-7) 2 1 /\ -7 <> 2 * -3 + 1 /\ -7 = 2 * -3 + 1 - Z.abs 2.
Proof.
  refine (conj _ (conj _ (conj _ _))); [exists (-1); cbn; lia|split; [exists (-4); reflexivity|cbn; lia]|lia|reflexivity].
Qed.

Example C69_bytes_run :
  let bs := 255 :: repeat 0 30 ++ [1] in
  bytes_mean WI bs (1 - 2 ^ 248) /\ bytes_mean WU bs (255 * 2 ^ 248 + 1)
  /\ snd (val_from_be_bytes WI [HOBytes bs] (obj_word 0 (HOBytes bs))) <> Err (ESys TObject CUnexpectedSize)
  /\ fst (val_from_be_bytes WI [HOBytes bs] (obj_word 0 (HOBytes bs))) = [HOBytes bs; HONum NI256 (1 - 2 ^ 248)]
  /\ val_from_be_bytes WI [HOBytes (1 :: bs)] (obj_word 0 (HOBytes (1 :: bs))) = ([HOBytes (1 :: bs)], Err (ESys TObject CUnexpectedSize))
  /\ fst (val_to_be_bytes WI ex_int ex_min) = ex_int ++ [HOBytes (128 :: repeat 0 31)].
Proof.
  cbv zeta. refine (conj _ (conj _ (conj _ (conj _ (conj _ _))))); try (vm_compute; reflexivity).
  - refine (conj eq_refl (conj _ (or_intror (conj eq_refl _)))); [cbn [in_range]; lia|vm_compute; reflexivity].
  - refine (conj eq_refl (conj _ (or_introl _))); [cbn [in_range]; lia|vm_compute; reflexivity].
  - vm_compute. discriminate.
Qed.

Example C69_pieces_run :
  let '(h, r) := obj_from_i256_pieces [] (-1) 0 0 5 in
  match r with
  | Ok v => h = [HONum NI256 (5 - 2 ^ 192)] /\ obj_to_i256_pieces h v = Ok (-1, 0, 0, 5)
            /\ obj_to_num NU256 h v <> Ok (5 - 2 ^ 192)
  | Err _ => False
  end.
Proof. vm_compute. repeat split; discriminate. Qed.
