(* C40, C41, C56: what signatures of classic accounts establish, what they sign,
   and what a contract address stands for. *)
From Coq Require Import ZArith Lia List Bool Sorted.
From Verif Require Import Prelude ValModel HeapModel FrameModel AuthModel.
From Verif Require Import XdrModel XdrSpec XdrProofs MultisigModel MultisigSpec MultisigProofs.
Import ListNotations.
Open Scope Z_scope.

(* --------------------------------------------------------------------- C40 *)

(* The check of a classic account succeeds exactly when the signature value is
   a list of signatures that are enough. *)
Theorem C40_account_signatures :
  forall verify a payload v, account_ok a ->
  (check_account_authentication verify (Ok a) payload v = Ok tt <->
   exists l, v = sigs_value l /\ enough verify payload a l).
Proof. exact account_signatures. Qed.
Print Assumptions C40_account_signatures.

(* No key counts twice. *)
Theorem C40_each_key_once :
  forall verify a payload v, account_ok a ->
  check_account_authentication verify (Ok a) payload v = Ok tt ->
  exists l, v = sigs_value l /\ NoDup (map fst l).
Proof.
  intros verify a payload v Ha H. apply account_signatures in H as (l & E & En); auto.
  exists l. split; auto. eapply enough_once; eauto.
Qed.
Print Assumptions C40_each_key_once.

(* Without the account in the ledger there is nothing to succeed. *)
Theorem C40_missing_account :
  forall verify e payload v, check_account_authentication verify (Err e) payload v <> Ok tt.
Proof. exact missing_account. Qed.
Print Assumptions C40_missing_account.

Definition mx_key (n : Z) : list Z := repeat n 32.
Definition mx_sig (n : Z) : list Z := repeat n 64.
(* signatures are the key's byte, doubled in length *)
Definition mx_verify (k p s : list Z) : res unit :=
  if bytes_eqb s (k ++ k) then Ok tt else Err (ESys TCrypto CInvalidInput).
Definition mx_account : account := {|
  acc_id := mx_key 5; acc_thresholds := [1; 0; 10; 0];
  acc_signers := [(SkOther 1 (mx_key 3), 50); (SkEd25519 (mx_key 3), 9); (SkEd25519 (mx_key 7), 300);
                  (SkEd25519 (mx_key 8), 0)] |}.
(* two signatures of weights 9 and 1 reach the threshold of 10 *)
Definition mx_two : list (list Z * list Z) := [(mx_key 3, mx_sig 3); (mx_key 5, mx_sig 5)].
Example C40_ok : account_ok mx_account.
Proof.
  unfold account_ok. cbn. repeat split; repeat constructor; cbn; lia.
Qed.
Example C40_accepts :
  check_account_authentication mx_verify (Ok mx_account) [1; 2] (sigs_value mx_two) = Ok tt /\
  check_account_authentication mx_verify (Ok mx_account) [1; 2]
    (sigs_value [(mx_key 7, mx_sig 7)]) = Ok tt.
Proof. split; vm_compute; reflexivity. Qed.
Example C40_enough : enough mx_verify [1; 2] mx_account mx_two.
Proof.
  destruct (proj1 (C40_account_signatures mx_verify mx_account [1; 2] (sigs_value mx_two) C40_ok)
              (proj1 C40_accepts)) as (l & E & H).
  assert (l = mx_two) as ->; [|exact H].
  destruct l as [|[a b] [|[c d] [|? ?]]]; try discriminate E.
  unfold sigs_value in E. cbn [map sig_value fst snd] in E.
  generalize dependent (mx_key 3). generalize dependent (mx_key 5).
  intros; unfold mx_two in *. cbn in E. injection E as <- <- <- <-. reflexivity.
Qed.
(* one signature alone, one of them twice, in the wrong order, one not valid, one
   of no weight: refused *)
Example C40_refuses :
  Forall (fun l => check_account_authentication mx_verify (Ok mx_account) [1; 2] (sigs_value l)
                   <> Ok tt)
    [ []; [(mx_key 3, mx_sig 3)]; [(mx_key 3, mx_sig 3); (mx_key 3, mx_sig 3)];
      [(mx_key 5, mx_sig 5); (mx_key 3, mx_sig 3)];
      [(mx_key 3, mx_sig 3); (mx_key 5, mx_sig 6)];
      [(mx_key 3, mx_sig 3); (mx_key 5, mx_sig 5); (mx_key 8, mx_sig 8)] ].
Proof. repeat constructor; vm_compute; discriminate. Qed.

(* --------------------------------------------------------------------- C41 *)

(* Equal payloads come from the same network, nonce, expiration and tree of
   invocations, and the same address where the payload names it; or else two
   different byte strings with the same hash are at hand. *)
Theorem C41_payload_determines :
  forall sha net net' e e' h,
  sized 32 net -> sized 32 net' -> entry_xdr e -> entry_xdr e' ->
  signature_payload sha net (from_entry e) = Ok h ->
  signature_payload sha net' (from_entry e') = Ok h ->
  (net = net' /\ ae_nonce e = ae_nonce e' /\ ae_exp e = ae_exp e' /\
   same_inv (ae_inv e) (ae_inv e') /\
   (binds_address (ae_cred e) <-> binds_address (ae_cred e')) /\
   (binds_address (ae_cred e) -> ae_addr e = ae_addr e')) \/
  (exists b b', payload_preimage net (from_entry e) = Ok b /\
     payload_preimage net' (from_entry e') = Ok b' /\ b <> b' /\ sha b = sha b').
Proof.
  intros sha net net' e e' h N N' X X' P P'. unfold signature_payload in *.
  destruct (payload_preimage net (from_entry e)) as [b|] eqn:B; [|discriminate].
  destruct (payload_preimage net' (from_entry e')) as [b'|] eqn:B'; [|discriminate].
  cbn [rmap] in *. injection P as P. injection P' as P'.
  destruct (list_eq_dec Z.eq_dec b b') as [<-|D].
  - left. eapply preimage_determines; eauto.
  - right. exists b, b'. repeat split; auto. congruence.
Qed.
Print Assumptions C41_payload_determines.

(* The bytes hashed determine all of it. *)
Theorem C41_preimage_determines :
  forall net net' e e' b,
  sized 32 net -> sized 32 net' -> entry_xdr e -> entry_xdr e' ->
  payload_preimage net (from_entry e) = Ok b ->
  payload_preimage net' (from_entry e') = Ok b ->
  net = net' /\ ae_nonce e = ae_nonce e' /\ ae_exp e = ae_exp e' /\
  same_inv (ae_inv e) (ae_inv e') /\
  (binds_address (ae_cred e) <-> binds_address (ae_cred e')) /\
  (binds_address (ae_cred e) -> ae_addr e = ae_addr e').
Proof. exact preimage_determines. Qed.
Print Assumptions C41_preimage_determines.

(* And nothing else: a signature for one entry is a signature for any other that
   agrees on them. *)
Theorem C41_payload_depends_on_nothing_else :
  forall sha net e e',
  ae_cred e <> CrSource -> ae_cred e' <> CrSource ->
  ae_nonce e = ae_nonce e' -> ae_exp e = ae_exp e' -> same_inv (ae_inv e) (ae_inv e') ->
  (binds_address (ae_cred e) <-> binds_address (ae_cred e')) ->
  (binds_address (ae_cred e) -> ae_addr e = ae_addr e') ->
  signature_payload sha net (from_entry e) = signature_payload sha net (from_entry e').
Proof. intros. unfold signature_payload. erewrite preimage_depends; eauto. Qed.
Print Assumptions C41_payload_depends_on_nothing_else.

(* Entries that agree are tracked as the same tree of authorized calls. *)
Theorem C41_same_tree_is_tracked :
  forall i j t u, same_inv i j -> tracks i t -> tracks j u -> t = u.
Proof. exact same_tracked. Qed.
Print Assumptions C41_same_tree_is_tracked.

Definition px_net : list Z := repeat 7 32.
Definition px_c (n : Z) : list Z := repeat n 32.
Definition px_call (n : Z) (l : list xinv) : xinv :=
  XInv (XContractFn (AContract (px_c n)) [116; 111] [SU32 n; SVec (Some [SBytes [1; 2; 3]; SVoid])]) l.
Definition px_entry (c : cred) (nonce : Z) (i : xinv) : aentry := {|
  ae_cred := c; ae_addr := AAccount (px_c 9); ae_nonce := nonce; ae_exp := 1000; ae_inv := i |}.
Definition px_inv : xinv :=
  px_call 1 [px_call 2 []; XInv (XCreate (PreAddress (AAccount (px_c 9)) (px_c 4)) (ExWasm (px_c 5))) []].
Example C41_entry_ok : sized 32 px_net /\ entry_xdr (px_entry CrAddressV2 (-5) px_inv).
Proof.
  split; [reflexivity|].
  unfold entry_xdr, sized, is_i64, is_u32; cbn; unfold sized, fits, is_u32; cbn; repeat split; lia.
Qed.
Example C41_payload_exists :
  match payload_preimage px_net (from_entry (px_entry CrAddressV2 (-5) px_inv)) with
  | Ok b => length b = 396%nat
  | Err _ => False
  end.
Proof. vm_compute. reflexivity. Qed.
(* changing any part changes the bytes *)
Example C41_differs :
  Forall (fun e => payload_preimage px_net (from_entry e)
                   <> payload_preimage px_net (from_entry (px_entry CrAddressV2 (-5) px_inv)))
    [ px_entry CrAddress (-5) px_inv; px_entry CrAddressV2 5 px_inv;
      px_entry CrAddressV2 (-5) (px_call 1 [px_call 2 []]);
      px_entry CrAddressV2 (-5) (px_call 1 []) ].
Proof. repeat constructor; vm_compute; discriminate. Qed.
(* the one pair of trees that are not told apart *)
Example C41_creation_forms :
  same_inv (XInv (XCreate (PreAsset [0; 0; 0; 0]) ExStellarAsset) [])
           (XInv (XCreateV2 (PreAsset [0; 0; 0; 0]) ExStellarAsset []) []).
Proof. repeat constructor. Qed.

(* --------------------------------------------------------------------- C56 *)

(* Two contracts have the same address only if they come from the same network
   and the same deployer and salt, or the same asset; or else two different byte
   strings with the same hash are at hand. *)
Theorem C56_contract_addresses :
  forall sha net net' p p',
  sized 32 net -> sized 32 net' -> pre_xdr p -> pre_xdr p' ->
  contract_id sha net p = contract_id sha net' p' ->
  (net = net' /\ p = p') \/
  (id_preimage net p <> id_preimage net' p' /\ sha (id_preimage net p) = sha (id_preimage net' p')).
Proof.
  intros sha net net' p p' N N' X X' E. unfold contract_id in E.
  destruct (list_eq_dec Z.eq_dec (id_preimage net p) (id_preimage net' p')) as [D|D].
  - left. eapply id_preimage_determines; eauto.
  - right. auto.
Qed.
Print Assumptions C56_contract_addresses.

(* The bytes hashed into an address are never bytes signed in an authorization. *)
Theorem C56_addresses_are_not_payloads :
  forall net p net' e b, payload_preimage net' (from_entry e) = Ok b -> id_preimage net p <> b.
Proof. exact id_preimage_not_payload. Qed.
Print Assumptions C56_addresses_are_not_payloads.

Example C56_preimages :
  pre_xdr (PreAddress (AContract (px_c 3)) (px_c 1)) /\ pre_xdr (PreAsset [0; 0; 0; 0]) /\
  pre_xdr (PreAsset ([0; 0; 0; 1] ++ [85; 83; 68; 0] ++ [0; 0; 0; 0] ++ px_c 8)) /\
  id_preimage px_net (PreAddress (AContract (px_c 3)) (px_c 1))
    <> id_preimage px_net (PreAddress (AAccount (px_c 3)) (px_c 1)).
Proof.
  repeat split; try (vm_compute; discriminate).
  - left. reflexivity.
  - right. left. eexists. split; reflexivity.
Qed.
