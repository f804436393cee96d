(* C71: signature functions take exactly well-formed keys, digests and
   signatures, and of each pair of equivalent ECDSA signatures only one. *)
From Coq Require Import ZArith Lia List Bool.
From Verif Require Import Prelude GuestModel FieldModel IntSpec IntProofs2 PointModel PointSpec PointProofs EcdsaModel EcdsaSpec.
Import ListNotations.
Open Scope Z_scope.
Ltac Zify.zify_post_hook ::= idtac.

Lemma low_iff c s : (Z.shiftr (ec_order c) 1 <? s) = false <-> low c s.
Proof.
  unfold low. rewrite Z.ltb_ge.
  assert (E : ec_order c = 2 * Z.shiftr (ec_order c) 1 + 1) by (destruct c; vm_compute; reflexivity).
  revert E. generalize (Z.shiftr (ec_order c) 1). intros h ->. lia.
Qed.

Lemma scalar_iff n bs v : bytes bs ->
  read_scalar n bs = Some v <-> big_endian bs = v /\ 0 < v < n.
Proof.
  intros B. assert (R := big_endian_range bs B). unfold read_scalar. rewrite read_be_rd. unfold rd.
  destruct (big_endian bs <? n) eqn:E.
  - apply Z.ltb_lt in E. destruct (big_endian bs =? 0) eqn:Z0.
    + apply Z.eqb_eq in Z0. split; [discriminate|]. lia.
    + apply Z.eqb_neq in Z0. split; [intros [= <-]; lia|]. intros [-> _]. reflexivity.
  - apply Z.ltb_ge in E. split; [discriminate|]. lia.
Qed.

Lemma parse_iff c bs r s : bytes bs ->
  parse_signature c bs = Some (r, s) <-> signature_bytes c bs r s.
Proof.
  intros B. unfold parse_signature, signature_bytes. destruct (Nat.eqb (length bs) 64) eqn:Ln.
  - apply Nat.eqb_eq in Ln. assert (L0 := chunk_length 32 0 bs 2 Ln ltac:(lia)).
    assert (L1 := chunk_length 32 1 bs 2 Ln ltac:(lia)).
    assert (B0 := chunk_bytes 32 0 bs B). assert (B1 := chunk_bytes 32 1 bs B).
    split.
    + destruct (read_scalar _ (chunk 32 0 bs)) as [r'|] eqn:Er; [|discriminate].
      destruct (read_scalar _ (chunk 32 1 bs)) as [s'|] eqn:Es; [|discriminate].
      intros E. apply (f_equal (option_map fst)) in E as E1. apply (f_equal (option_map snd)) in E as E2.
      cbn [option_map fst snd] in E1, E2. injection E1 as <-. injection E2 as <-.
      apply scalar_iff in Er, Es; try assumption.
      exists (chunk 32 0 bs), (chunk 32 1 bs). split; [apply (chunk_halves 32); exact Ln|]. tauto.
    + intros (br & bs' & -> & Bb & Bs & Lr & Ls & Er & Es & Rr & Rs).
      rewrite chunk_app0, chunk_app1 by assumption.
      rewrite (proj2 (scalar_iff (ec_order c) br r Bb)) by tauto.
      rewrite (proj2 (scalar_iff (ec_order c) bs' s Bs)) by tauto. reflexivity.
  - apply Nat.eqb_neq in Ln. split; [discriminate|].
    intros (br & bs' & -> & _ & _ & Lr & Ls & _). exfalso. apply Ln. rewrite app_length. lia.
Qed.

Lemma sig_iff c bs r s : bytes bs ->
  ecdsa_signature_from_bytes c bs = Ok (r, s) <-> signature_bytes c bs r s /\ low c s.
Proof.
  intros B. unfold ecdsa_signature_from_bytes.
  destruct (parse_signature c bs) as [[r' s']|] eqn:E.
  - apply parse_iff in E as P; [|exact B]. destruct (_ <? s') eqn:Lo.
    + split; [discriminate|]. intros [P' H]. apply parse_iff in P'; [|exact B].
      rewrite P' in E. apply (f_equal (option_map snd)) in E. cbn [option_map snd] in E. injection E as <-.
      apply low_iff in H. congruence.
    + apply low_iff in Lo. split.
      * intros H. assert (H' : (r', s') = (r, s)) by congruence. apply pair_equal_spec in H'.
        destruct H' as [<- <-]. auto.
      * intros [P' _]. apply parse_iff in P'; [|exact B]. congruence.
  - split; [discriminate|]. intros [P _]. apply parse_iff in P; [|exact B]. congruence.
Qed.
Lemma sig_err c bs : ecdsa_signature_from_bytes c bs = Err INVALID_INPUT
  \/ exists r s, ecdsa_signature_from_bytes c bs = Ok (r, s).
Proof.
  unfold ecdsa_signature_from_bytes. destruct (parse_signature c bs) as [[r s]|]; [|auto].
  destruct (_ <? s); eauto.
Qed.

Lemma key_iff bs x y : bytes bs -> secp256r1_decode bs = Ok (x, y) <-> key_bytes bs x y.
Proof.
  intros B. unfold secp256r1_decode. destruct bs as [|t bs].
  { split; [discriminate|]. intros (bx & by_ & E & _). discriminate. }
  destruct (t =? 4) eqn:T.
  2:{ apply Z.eqb_neq in T. split.
      - destruct (negb (tag_known t)); discriminate.
      - intros (bx & by_ & [= E _] & _). congruence. }
  apply Z.eqb_eq in T. subst t. change (negb (tag_known 4)) with false. cbn [negb].
  inversion B as [|? ? _ Bt]; subst. unfold from_sec1_bytes. cbn [length tl].
  destruct (Nat.eqb (S (length bs)) 65) eqn:Ln.
  2:{ apply Nat.eqb_neq in Ln. split; [discriminate|].
      intros (bx & by_ & [= ->] & _ & _ & Lx & Ly & _). exfalso. apply Ln. rewrite app_length. lia. }
  apply Nat.eqb_eq in Ln. injection Ln as Ln.
  assert (L0 := chunk_length 32 0 bs 2 Ln ltac:(lia)). assert (L1 := chunk_length 32 1 bs 2 Ln ltac:(lia)).
  assert (B0 := chunk_bytes 32 0 bs Bt). assert (B1 := chunk_bytes 32 1 bs Bt).
  rewrite !read_be_rd. unfold rd.
  assert (Hq : 0 < r1_modulus) by reflexivity.
  assert (Eqn : forall x y, ((y * y) mod r1_modulus =? (x * x * x - 3 * x + r1_b) mod r1_modulus) = true
                <-> (r1_modulus | y * y - x * x * x + 3 * x - r1_b)).
  { intros x' y'. rewrite eq_mod by exact Hq.
    replace (y' * y' - (x' * x' * x' - 3 * x' + r1_b)) with (y' * y' - x' * x' * x' + 3 * x' - r1_b) by ring.
    reflexivity. }
  revert Hq Eqn. unfold key_bytes. generalize r1_b. generalize r1_modulus. intros q b Hq Eqn.
  split.
  - destruct (big_endian (chunk 32 0 bs) <? q) eqn:Ex; [|discriminate].
    destruct (big_endian (chunk 32 1 bs) <? q) eqn:Ey; [|discriminate].
    destruct (_ =? _) eqn:Ee; [|discriminate]. intros E.
    assert (E' : (big_endian (chunk 32 0 bs), big_endian (chunk 32 1 bs)) = (x, y)) by congruence.
    apply pair_equal_spec in E'. destruct E' as [E1 E2].
    apply Z.ltb_lt in Ex, Ey. apply Eqn in Ee. rewrite E1, E2 in Ee.
    exists (chunk 32 0 bs), (chunk 32 1 bs).
    split; [f_equal; apply (chunk_halves 32); exact Ln|]. rewrite <- E1, <- E2 in *. tauto.
  - intros (bx & by_ & [= ->] & Bx & By & Lx & Ly & <- & <- & Rx & Ry & D).
    rewrite chunk_app0, chunk_app1 by assumption.
    apply Z.ltb_lt in Rx, Ry. rewrite Rx, Ry. apply Eqn in D. rewrite D. reflexivity.
Qed.
Lemma key_err bs : secp256r1_decode bs = Err INVALID_INPUT
  \/ exists k, secp256r1_decode bs = Ok k.
Proof.
  unfold secp256r1_decode. destruct bs as [|t bs]; [auto|].
  destruct (negb (tag_known t)); [auto|]. destruct (negb (t =? 4)); [auto|].
  destruct (from_sec1_bytes (t :: bs)); eauto.
Qed.

Lemma fixed_iff n bs : fixed_length n bs = Ok bs /\ length bs = n
  \/ fixed_length n bs = Err UNEXPECTED_SIZE /\ length bs <> n.
Proof.
  unfold fixed_length. destruct (Nat.eqb (length bs) n) eqn:E.
  - apply Nat.eqb_eq in E. auto.
  - apply Nat.eqb_neq in E. auto.
Qed.

(* ---------------------------------------------------------------- theorems *)

(* Verification on P-256 succeeds exactly for the uncompressed key of a point of
   the curve, a digest of 32 bytes and a low signature that verifies. *)
Theorem C71_secp256r1 V pk digest sig : bytes pk -> bytes sig ->
  verify_sig_ecdsa_secp256r1 V pk digest sig = Ok tt
  <-> exists x y r s, key_bytes pk x y /\ length digest = 32%nat
      /\ signature_bytes R1 sig r s /\ low R1 s /\ r1_verify V (x, y) digest r s = true.
Proof.
  intros Bk Bs. unfold verify_sig_ecdsa_secp256r1. split.
  - destruct (secp256r1_decode pk) as [[x y]|] eqn:Ek; cbn [rbind]; [|discriminate].
    destruct (ecdsa_signature_from_bytes R1 sig) as [[r s]|] eqn:Es; cbn [rbind]; [|discriminate].
    destruct (fixed_iff 32 digest) as [[E L]|[E L]]; rewrite E; cbn [rbind fst snd]; [|discriminate].
    destruct (r1_verify V (x, y) digest r s) eqn:Ev; [|discriminate]. intros _.
    apply key_iff in Ek; [|exact Bk]. apply sig_iff in Es; [|exact Bs].
    exists x, y, r, s. tauto.
  - intros (x & y & r & s & Hk & L & Hs & Lo & Hv).
    apply key_iff in Hk; [|exact Bk]. rewrite Hk. cbn [rbind].
    rewrite (proj2 (sig_iff R1 sig r s Bs) (conj Hs Lo)). cbn [rbind].
    destruct (fixed_iff 32 digest) as [[E _]|[_ N]]; [|contradiction]. rewrite E. cbn [rbind fst snd].
    rewrite Hv. reflexivity.
Qed.
Print Assumptions C71_secp256r1.

(* Recovery on secp256k1 succeeds exactly for a digest of 32 bytes, a low
   signature and a recovery id up to 3 for which a key exists; the key is
   returned uncompressed. *)
Theorem C71_secp256k1 V digest sig rid k : bytes sig -> 0 <= rid < 2 ^ 32 ->
  recover_key_ecdsa_secp256k1 V digest sig rid = Ok k
  <-> exists x y r s, length digest = 32%nat /\ signature_bytes K1 sig r s /\ low K1 s
      /\ rid <= 3 /\ k1_recover V digest r s rid = Some (x, y)
      /\ k = 4 :: rev (le_bytes 32 x) ++ rev (le_bytes 32 y).
Proof.
  intros Bs Hr. unfold recover_key_ecdsa_secp256k1.
  assert (Rid : recovery_id rid = if rid <=? 3 then Ok rid else Err INVALID_INPUT).
  { unfold recovery_id. destruct (rid <=? 3) eqn:E.
    - apply Z.leb_le in E. assert (F : (3 <? rid) = false) by (apply Z.ltb_ge; exact E). rewrite F.
      rewrite Z.mod_small by lia. assert (G : (rid <=? 3) = true) by (apply Z.leb_le; exact E).
      rewrite G. reflexivity.
    - apply Z.leb_gt in E. assert (F : (3 <? rid) = true) by (apply Z.ltb_lt; exact E). rewrite F. reflexivity. }
  rewrite Rid. split.
  - destruct (ecdsa_signature_from_bytes K1 sig) as [[r s]|] eqn:Es; cbn [rbind]; [|discriminate].
    destruct (rid <=? 3) eqn:Er; cbn [rbind]; [|discriminate]. apply Z.leb_le in Er.
    destruct (fixed_iff 32 digest) as [[E L]|[E L]]; rewrite E; cbn [rbind fst snd]; [|discriminate].
    destruct (k1_recover V digest r s rid) as [[x y]|] eqn:Ev; [|discriminate]. intros [= <-].
    apply sig_iff in Es; [|exact Bs]. exists x, y, r, s. tauto.
  - intros (x & y & r & s & L & Hs & Lo & Er & Hv & ->).
    rewrite (proj2 (sig_iff K1 sig r s Bs) (conj Hs Lo)). cbn [rbind].
    apply Z.leb_le in Er. rewrite Er. cbn [rbind].
    destruct (fixed_iff 32 digest) as [[E _]|[_ N]]; [|contradiction]. rewrite E. cbn [rbind fst snd].
    rewrite Hv. reflexivity.
Qed.
Print Assumptions C71_secp256k1.

(* Ed25519: keys of 32 bytes, signatures of 64, strict verification. *)
Theorem C71_ed25519 V k x s :
  verify_sig_ed25519 V k x s = Ok tt
  <-> length k = 32%nat /\ length s = 64%nat /\ ed_key_ok V k = true /\ ed_verify_strict V k x s = true.
Proof.
  unfold verify_sig_ed25519, ed25519_pub_key_from_bytes.
  destruct (Nat.eqb (length k) 32) eqn:Lk; cbn [negb].
  - apply Nat.eqb_eq in Lk. destruct (ed_key_ok V k) eqn:Ek; cbn [rbind].
    + destruct (fixed_iff 64 s) as [[E L]|[E L]]; rewrite E; cbn [rbind].
      * destruct (ed_verify_strict V k x s) eqn:Ev; split; try discriminate; try tauto.
        intros (_ & _ & _ & H). discriminate.
      * split; [discriminate|]. tauto.
    + split; [discriminate|]. intros (_ & _ & H & _). discriminate.
  - apply Nat.eqb_neq in Lk. split; [discriminate|]. tauto.
Qed.
Print Assumptions C71_ed25519.

(* Whatever else they are given, the functions fail with an error that names
   the input. *)
Theorem C71_refused V :
  (forall k x s, verify_sig_ed25519 V k x s <> Ok tt ->
     verify_sig_ed25519 V k x s = Err INVALID_INPUT \/ verify_sig_ed25519 V k x s = Err UNEXPECTED_SIZE)
  /\ (forall k d s, verify_sig_ecdsa_secp256r1 V k d s <> Ok tt ->
     verify_sig_ecdsa_secp256r1 V k d s = Err INVALID_INPUT
     \/ verify_sig_ecdsa_secp256r1 V k d s = Err UNEXPECTED_SIZE)
  /\ (forall d s rid, (forall k, recover_key_ecdsa_secp256k1 V d s rid <> Ok k) ->
     recover_key_ecdsa_secp256k1 V d s rid = Err INVALID_INPUT
     \/ recover_key_ecdsa_secp256k1 V d s rid = Err UNEXPECTED_SIZE).
Proof.
  refine (conj _ (conj _ _)).
  - intros k x s H. unfold verify_sig_ed25519, ed25519_pub_key_from_bytes in *.
    destruct (negb _); cbn [rbind] in *; [auto|]. destruct (ed_key_ok V k); cbn [rbind] in *; [|auto].
    destruct (fixed_iff 64 s) as [[E _]|[E _]]; rewrite E in *; cbn [rbind] in *; [|auto].
    destruct (ed_verify_strict V k x s); [congruence|auto].
  - intros k d s H. unfold verify_sig_ecdsa_secp256r1 in *.
    destruct (key_err k) as [E|(pk & E)]; rewrite E in *; cbn [rbind] in *; [auto|].
    destruct (sig_err R1 s) as [E1|(r & s' & E1)]; rewrite E1 in *; cbn [rbind] in *; [auto|].
    destruct (fixed_iff 32 d) as [[E2 _]|[E2 _]]; rewrite E2 in *; cbn [rbind] in *; [|auto].
    destruct (r1_verify V pk d _ _); [congruence|auto].
  - intros d s rid H. unfold recover_key_ecdsa_secp256k1 in *.
    destruct (sig_err K1 s) as [E1|(r & s' & E1)]; rewrite E1 in *; cbn [rbind] in *; [auto|].
    unfold recovery_id in *. destruct (3 <? rid); cbn [rbind] in *; [auto|].
    destruct (_ <=? 3); cbn [rbind] in *; [|auto].
    destruct (fixed_iff 32 d) as [[E2 _]|[E2 _]]; rewrite E2 in *; cbn [rbind] in *; [|auto].
    destruct (k1_recover V d _ _ _) as [k|]; [|auto]. destruct (H (encode_sec1 k) eq_refl).
Qed.
Print Assumptions C71_refused.

(* No second byte string can stand for an accepted signature: r and s determine
   it, and the twin with -s, which verifies as well, is refused. *)
Theorem C71_not_malleable c :
  (forall a b r s, signature_bytes c a r s -> signature_bytes c b r s -> a = b)
  /\ (forall s, 0 < s < ec_order c -> low c s <-> ~ low c (ec_order c - s))
  /\ (forall a r s V pk d rid, signature_bytes c a r s -> ~ low c s -> 0 <= rid < 2 ^ 32 -> bytes pk ->
      (c = R1 -> verify_sig_ecdsa_secp256r1 V pk d a <> Ok tt)
      /\ (c = K1 -> forall k, recover_key_ecdsa_secp256k1 V d a rid <> Ok k)).
Proof.
  assert (Inj : forall a b r s, signature_bytes c a r s -> signature_bytes c b r s -> a = b).
  { intros a b r s (a1 & a2 & -> & A1 & A2 & L1 & L2 & E1 & E2 & _)
                   (b1 & b2 & -> & B1 & B2 & M1 & M2 & F1 & F2 & _).
    f_equal; apply big_endian_inj; try assumption; congruence. }
  split; [exact Inj|]. split.
  - intros s Hs. unfold low.
    assert (O : ec_order c = 2 * (ec_order c / 2) + 1) by (destruct c; vm_compute; reflexivity).
    revert O Hs. generalize (ec_order c / 2). generalize (ec_order c). intros n h -> Hs. lia.
  - intros a r s V pk d rid Hs Hh Hr Bk.
    assert (Ba : bytes a).
    { destruct Hs as (a1 & a2 & -> & A1 & A2 & _). apply bytes_app. auto. }
    assert (Uniq : forall r' s', signature_bytes c a r' s' -> s' = s).
    { intros r' s' H. apply parse_iff in H, Hs; try assumption. congruence. }
    split.
    + intros -> H. apply C71_secp256r1 in H; try assumption.
      destruct H as (x & y & r' & s' & _ & _ & H & Lo & _). apply Uniq in H. subst s'. contradiction.
    + intros -> k H. apply C71_secp256k1 in H; try assumption.
      destruct H as (x & y & r' & s' & _ & H & Lo & _). apply Uniq in H. subst s'. contradiction.
Qed.
Print Assumptions C71_not_malleable.

(* One byte string per key; keys with other tags (compressed, hybrid, identity)
   are refused. *)
Theorem C71_keys_are_unique :
  (forall a b x y, key_bytes a x y -> key_bytes b x y -> a = b)
  /\ (forall a x y x' y', key_bytes a x y -> key_bytes a x' y' -> x = x' /\ y = y')
  /\ (forall V t k d s, bytes (t :: k) -> bytes s -> t <> 4 ->
      verify_sig_ecdsa_secp256r1 V (t :: k) d s <> Ok tt).
Proof.
  split; [|split].
  - intros a b x y (a1 & a2 & -> & A1 & A2 & L1 & L2 & E1 & E2 & _)
                   (b1 & b2 & -> & B1 & B2 & M1 & M2 & F1 & F2 & _).
    f_equal. f_equal; apply big_endian_inj; try assumption; congruence.
  - intros a x y x' y' H H'.
    assert (B : bytes a).
    { destruct H as (a1 & a2 & -> & A1 & A2 & _). constructor; [lia|]. apply bytes_app. auto. }
    apply key_iff in H, H'; try assumption. apply pair_equal_spec. congruence.
  - intros V t k d s Bk Bs Ht H. apply C71_secp256r1 in H; try assumption.
    destruct H as (x & y & r & s' & (bx & by_ & [= E _] & _) & _). contradiction.
Qed.
Print Assumptions C71_keys_are_unique.

(* the constants are the published ones *)
Theorem C71_parameters :
  r1_modulus = p256_modulus
  /\ ec_order R1 = words [4294967295; 0; 4294967295; 4294967295; 3169254061; 2803342980; 4089039554; 4234356049]
  /\ ec_order K1 = words [4294967295; 4294967295; 4294967295; 4294967294; 3132021990; 2940772411; 3218235020; 3493216577]
  /\ r1_b = words [1522939352; 2855965671; 3018571093; 1989707452; 1696401072; 3428036854; 1003371582; 668098635].
Proof. repeat split; vm_compute; reflexivity. Qed.
Print Assumptions C71_parameters.

(* --------------------------------------------------------------- examples *)

Definition verifier0 : verifier := {|
  ed_key_ok := fun k => match k with b :: _ => b =? 1 | [] => false end;
  ed_verify_strict := fun _ x _ => Nat.eqb (length x) 3;
  r1_verify := fun _ _ r s => r =? s;
  k1_recover := fun _ r s rid => if rid =? 0 then Some (r, s) else None
|}.
Definition num32 (v : Z) : list Z := rev (le_bytes 32 v).
(* the base point of P-256 *)
Definition r1_base : list Z := 4
  :: num32 48439561293906451759052585252797914202762949526041747995844080717082404635286
  ++ num32 36134250956749795798585127919587881956611106672985015071877198253568414405109.
Example verify_example :
  verify_sig_ecdsa_secp256r1 verifier0 r1_base (repeat 7 32) (num32 5 ++ num32 5) = Ok tt
  /\ verify_sig_ecdsa_secp256r1 verifier0 r1_base (repeat 7 32)
       (num32 (ec_order R1 - 5) ++ num32 (ec_order R1 - 5)) = Err INVALID_INPUT
  /\ verify_sig_ecdsa_secp256r1 verifier0 r1_base (repeat 7 31) (num32 5 ++ num32 5) = Err UNEXPECTED_SIZE
  /\ verify_sig_ecdsa_secp256r1 verifier0 (2 :: num32 5) (repeat 7 32) (num32 5 ++ num32 5) = Err INVALID_INPUT
  /\ verify_sig_ecdsa_secp256r1 verifier0 (4 :: num32 5 ++ num32 5) (repeat 7 32) (num32 5 ++ num32 5)
     = Err INVALID_INPUT.
Proof. repeat split; vm_compute; reflexivity. Qed.
Example recover_example :
  recover_key_ecdsa_secp256k1 verifier0 (repeat 7 32) (num32 5 ++ num32 6) 0 = Ok (4 :: num32 5 ++ num32 6)
  /\ recover_key_ecdsa_secp256k1 verifier0 (repeat 7 32) (num32 5 ++ num32 6) 4 = Err INVALID_INPUT
  /\ recover_key_ecdsa_secp256k1 verifier0 (repeat 7 32) (num32 0 ++ num32 6) 0 = Err INVALID_INPUT
  /\ recover_key_ecdsa_secp256k1 verifier0 (repeat 7 32) (num32 5 ++ num32 (ec_order K1 - 6)) 0
     = Err INVALID_INPUT.
Proof. repeat split; vm_compute; reflexivity. Qed.
Example ed_example :
  verify_sig_ed25519 verifier0 (1 :: repeat 0 31) [1; 2; 3] (repeat 9 64) = Ok tt
  /\ verify_sig_ed25519 verifier0 (2 :: repeat 0 31) [1; 2; 3] (repeat 9 64) = Err INVALID_INPUT
  /\ verify_sig_ed25519 verifier0 (1 :: repeat 0 31) [1; 2; 3] (repeat 9 63) = Err UNEXPECTED_SIZE.
Proof. repeat split; vm_compute; reflexivity. Qed.
