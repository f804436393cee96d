(* Signature functions: the checks around the verification of signatures.

   Modelled: soroban-env-host/src/crypto/mod.rs:36-257 and host.rs:3035-3076.

   External: the verification of Ed25519 signatures and keys, of ECDSA
   signatures and the recovery of keys are the functions of an arbitrary
   [verifier]; parsing of ECDSA signatures and of SEC1 keys is modelled on
   integers.  Hashes (compute_hash_sha256, compute_hash_keccak256) are not
   modelled.  Budget charges are left out (BudgetModel has the budget). *)
From Coq Require Import ZArith Lia List Bool.
From Verif Require Import Prelude GuestModel FieldModel PointModel.
Import ListNotations.
Open Scope Z_scope.

(* the two curves of ECDSA: k256::Secp256k1, p256::NistP256 *)
Inductive ecurve := K1 | R1.

(* their orders (external constants) *)
Definition ec_order (c : ecurve) : Z :=
  match c with
  | K1 => 115792089237316195423570985008687907852837564279074904382605163141518161494337
  | R1 => 115792089210356248762697446949407573529996955224135760342422259061068512044369
  end.

(* the field of P-256 and its equation y^2 = x^3 - 3 x + b (external constants) *)
Definition r1_modulus : Z :=
  115792089210356248762697446949407573530086143415290314195533631308867097853951.
Definition r1_b : Z :=
  41058363725152142129326129780047268409114441015993725554835256314039467401291.

Record verifier := {
  (* ed25519_dalek::VerifyingKey::from_bytes succeeds *)
  ed_key_ok : list Z -> bool;
  (* VerifyingKey::verify_strict(payload, sig) succeeds: key, payload, signature *)
  ed_verify_strict : list Z -> list Z -> list Z -> bool;
  (* p256 verify_prehash(digest, sig) succeeds: key, digest, r, s *)
  r1_verify : Z * Z -> list Z -> Z -> Z -> bool;
  (* k256 recover_from_prehash(digest, sig, rid): digest, r, s, rid *)
  k1_recover : list Z -> Z -> Z -> Z -> option (Z * Z)
}.

Definition UNEXPECTED_SIZE : err := ESys TObject CUnexpectedSize.

(* fixed_length_bytes_from_slice: host/conversion.rs:86-108 *)
Definition fixed_length (n : nat) (bs : list Z) : res (list Z) :=
  if Nat.eqb (length bs) n then Ok bs else Err UNEXPECTED_SIZE.

(* a nonzero scalar below the order (ecdsa::Signature::try_from, external) *)
Definition read_scalar (n : Z) (bs : list Z) : option Z :=
  match read_be n bs with
  | Some v => if v =? 0 then None else Some v
  | None => None
  end.

(* ecdsa::Signature::try_from (external): two scalars of 32 bytes *)
Definition parse_signature (c : ecurve) (bs : list Z) : option (Z * Z) :=
  if Nat.eqb (length bs) 64 then
    match read_scalar (ec_order c) (chunk 32 0 bs), read_scalar (ec_order c) (chunk 32 1 bs) with
    | Some r, Some s => Some (r, s)
    | _, _ => None
    end
  else None.

(* ecdsa_signature_from_bytes: crypto/mod.rs:168-195; is_high compares with the
   order shifted right by one *)
Definition ecdsa_signature_from_bytes (c : ecurve) (bs : list Z) : res (Z * Z) :=
  match parse_signature c bs with
  | None => Err INVALID_INPUT
  | Some (r, s) => if Z.shiftr (ec_order c) 1 <? s then Err INVALID_INPUT else Ok (r, s)
  end.

(* sec1::point::Tag::from_u8 (external) *)
Definition tag_known (b : Z) : bool :=
  (b =? 0) || (b =? 2) || (b =? 3) || (b =? 4) || (b =? 5).

(* VerifyingKey::from_sec1_bytes (external) on an uncompressed encoding: 65
   bytes, reduced coordinates, on the curve *)
Definition from_sec1_bytes (bs : list Z) : option (Z * Z) :=
  if Nat.eqb (length bs) 65 then
    match read_be r1_modulus (chunk 32 0 (tl bs)), read_be r1_modulus (chunk 32 1 (tl bs)) with
    | Some x, Some y =>
        if (y * y) mod r1_modulus =? (x * x * x - 3 * x + r1_b) mod r1_modulus
        then Some (x, y) else None
    | _, _ => None
    end
  else None.

(* secp256r1_decode_sec1_uncompressed_pubkey: crypto/mod.rs:119-156 *)
Definition secp256r1_decode (bs : list Z) : res (Z * Z) :=
  match bs with
  | [] => Err INVALID_INPUT
  | tag :: _ =>
      if negb (tag_known tag) then Err INVALID_INPUT
      else if negb (tag =? 4) then Err INVALID_INPUT
      else match from_sec1_bytes bs with Some k => Ok k | None => Err INVALID_INPUT end
  end.

(* secp256k1_recovery_id_from_u32val: crypto/mod.rs:214-235; RecoveryId::MAX is 3 *)
Definition recovery_id (rid : Z) : res Z :=
  if 3 <? rid then Err INVALID_INPUT
  else if rid mod 256 <=? 3 then Ok (rid mod 256) else Err INVALID_INPUT.

Section Verify.
Variable V : verifier.

(* ed25519_pub_key_from_bytes: crypto/mod.rs:46-67 *)
Definition ed25519_pub_key_from_bytes (bs : list Z) : res (list Z) :=
  if negb (Nat.eqb (length bs) 32) then Err INVALID_INPUT
  else if ed_key_ok V bs then Ok bs else Err INVALID_INPUT.

(* verify_sig_ed25519: host.rs:3035-3048, crypto/mod.rs:78-97 *)
Definition verify_sig_ed25519 (k x s : list Z) : res unit :=
  let? key := ed25519_pub_key_from_bytes k in
  let? sig := fixed_length 64 s in
  if ed_verify_strict V key x sig then Ok tt else Err INVALID_INPUT.

(* verify_sig_ecdsa_secp256r1: host.rs:3064-3076, crypto/mod.rs:99-117 *)
Definition verify_sig_ecdsa_secp256r1 (public_key msg_digest signature : list Z) : res unit :=
  let? pk := secp256r1_decode public_key in
  let? sig := ecdsa_signature_from_bytes R1 signature in
  let? msg_hash := fixed_length 32 msg_digest in
  if r1_verify V pk msg_hash (fst sig) (snd sig) then Ok tt else Err INVALID_INPUT.

(* to_encoded_point(false) (external) *)
Definition encode_sec1 (k : Z * Z) : list Z :=
  4 :: rev (le_bytes 32 (fst k)) ++ rev (le_bytes 32 (snd k)).

(* recover_key_ecdsa_secp256k1: host.rs:3050-3062, crypto/mod.rs:237-261 *)
Definition recover_key_ecdsa_secp256k1 (msg_digest signature : list Z) (rid : Z) : res (list Z) :=
  let? sig := ecdsa_signature_from_bytes K1 signature in
  let? rid := recovery_id rid in
  let? hash := fixed_length 32 msg_digest in
  match k1_recover V hash (fst sig) (snd sig) rid with
  | Some k => Ok (encode_sec1 k)
  | None => Err INVALID_INPUT
  end.
End Verify.
