(* The bytes signed to authenticate an authorization entry, and the bytes hashed
   into a contract address: auth.rs:765-870, 2345-2410, 2631-2662,
   host/data_helper.rs:457-466, host/metered_xdr.rs:33-55.

   The XDR encoding itself is in the stellar-xdr crate, outside the repository;
   what is written here is the standard encoding (RFC 4506) of the XDR types
   concerned: big-endian integers, opaque data padded with zeros to a multiple of
   four, unions and options as a four-byte discriminant followed by the arm. *)
From Coq Require Import List ZArith Bool.
From Verif Require Import Prelude ValModel HeapModel FrameModel AuthModel.
Import ListNotations.
Open Scope Z_scope.

(* ------------------------------------------------------------------- XDR *)

Fixpoint be (n : nat) (x : Z) : list Z :=
  match n with
  | O => []
  | S n' => (x / 256 ^ Z.of_nat n') mod 256 :: be n' x
  end.
Definition x32 (x : Z) : list Z := be 4 x.
Definition x64 (x : Z) : list Z := be 8 x.
(* variable-length opaque data, strings *)
Definition pad (n : nat) : list Z := repeat 0 ((4 - n mod 4) mod 4)%nat.
Definition xvar (b : list Z) : list Z := x32 (Z.of_nat (length b)) ++ b ++ pad (length b).
Definition xlist {A} (f : A -> list Z) (l : list A) : list Z :=
  x32 (Z.of_nat (length l)) ++ flat_map f l.
Definition xopt {A} (f : A -> list Z) (o : option A) : list Z :=
  match o with None => x32 0 | Some a => x32 1 ++ f a end.

(* ScAddress.  Account: PublicKey with its own discriminant; muxed: id, key;
   claimable balance (3): ClaimableBalanceId, discriminant included in the
   payload; liquidity pool (4): PoolId. *)
Definition xaddr (a : addr) : list Z :=
  x32 (addr_disc a) ++
  match a with
  | AAccount k => x32 0 ++ k
  | AContract i => i
  | AMuxed i k => x64 i ++ k
  | AOther _ p => p
  end.

(* ContractExecutable *)
Definition xexe (e : executable) : list Z :=
  x32 (exe_disc e) ++
  match e with
  | ExWasm h => h
  | ExStellarAsset => []
  | ExExternalRef o t => xaddr o ++ xvar t
  end.

(* ScError *)
Definition xerr (e : err) : list Z := x32 (fst (err_key e)) ++ x32 (snd (err_key e)).

(* ScVal *)
Definition scv_disc (s : scval) : Z :=
  match s with
  | SBool _ => 0 | SVoid => 1 | SError _ => 2 | SU32 _ => 3 | SI32 _ => 4
  | SU64 _ => 5 | SI64 _ => 6 | STimepoint _ => 7 | SDuration _ => 8
  | SU128 _ _ => 9 | SI128 _ _ => 10 | SU256 _ _ _ _ => 11 | SI256 _ _ _ _ => 12
  | SBytes _ => 13 | SString _ => 14 | SSymbol _ => 15 | SVec _ => 16 | SMap _ => 17
  | SAddress _ => 18 | SContractInstance _ _ => 19 | SLedgerKeyContractInstance => 20
  | SLedgerKeyNonce _ => 21 | SExecutableTag _ => 22
  end.
Fixpoint xscval (s : scval) : list Z :=
  x32 (scv_disc s) ++
  match s with
  | SBool b => x32 (if b then 1 else 0)
  | SVoid | SLedgerKeyContractInstance => []
  | SError e => xerr e
  | SU32 x | SI32 x => x32 x
  | SU64 x | SI64 x | STimepoint x | SDuration x | SLedgerKeyNonce x => x64 x
  | SU128 a b | SI128 a b => x64 a ++ x64 b
  | SU256 a b c d | SI256 a b c d => x64 a ++ x64 b ++ x64 c ++ x64 d
  | SBytes b | SString b | SSymbol b | SExecutableTag b => xvar b
  | SVec l => xopt (xlist xscval) l
  | SMap m => xopt (xlist (fun p => xscval (fst p) ++ xscval (snd p))) m
  | SAddress a => xaddr a
  | SContractInstance e m =>
      xexe e ++ xopt (xlist (fun p => xscval (fst p) ++ xscval (snd p))) m
  end.

(* ContractIdPreimage; an asset is given by its XDR bytes *)
Definition xpre (p : preimage) : list Z :=
  match p with
  | PreAddress a salt => x32 0 ++ xaddr a ++ salt
  | PreAsset asset => x32 1 ++ asset
  end.

(* SorobanAuthorizedFunction, SorobanAuthorizedInvocation *)
Inductive xfn :=
| XContractFn (a : addr) (name : list Z) (args : list scval)
| XCreate (pre : preimage) (ex : executable)
| XCreateV2 (pre : preimage) (ex : executable) (args : list scval).
Inductive xinv := XInv (f : xfn) (subs : list xinv).

Definition enc_fn (f : xfn) : list Z :=
  match f with
  | XContractFn a n l => x32 0 ++ xaddr a ++ xvar n ++ xlist xscval l
  | XCreate p e => x32 1 ++ xpre p ++ xexe e
  | XCreateV2 p e l => x32 2 ++ xpre p ++ xexe e ++ xlist xscval l
  end.
Fixpoint enc_inv (i : xinv) : list Z :=
  let 'XInv f l := i in enc_fn f ++ xlist enc_inv l.

(* ------------------------------------------- the code in the repository *)

(* AuthorizedFunction, auth.rs:637-645; names and arguments as the XDR values
   they denote (converting them to host values and back is the identity: C07). *)
Inductive hfn :=
| HContractFn (a : addr) (name : list Z) (args : list scval)
| HCreate (pre : preimage) (ex : executable) (args : list scval).
(* AuthorizedInvocation, auth.rs:662-676; the flag is is_exhausted *)
Inductive hinv := HInv (f : hfn) (used : bool) (subs : list hinv).

(* auth.rs:769-789 *)
Definition fn_from_xdr (f : xfn) : hfn :=
  match f with
  | XContractFn a n l => HContractFn a n l
  | XCreate p e => HCreate p e []
  | XCreateV2 p e l => HCreate p e l
  end.
(* auth.rs:792-808 *)
Definition fn_to_xdr (f : hfn) : xfn :=
  match f with
  | HContractFn a n l => XContractFn a n l
  | HCreate p e l => XCreateV2 p e l
  end.
(* auth.rs:813-829 *)
Fixpoint inv_from_xdr (i : xinv) : hinv :=
  let 'XInv f l := i in HInv (fn_from_xdr f) false (map inv_from_xdr l).
(* auth.rs:852-867; the argument is exhausted_sub_invocations_only *)
Fixpoint inv_to_xdr (only : bool) (i : hinv) : xinv :=
  let 'HInv f _ l := i in
  XInv (fn_to_xdr f)
       (flat_map (fun s => let 'HInv _ u _ := s in
                           if u || negb only then [inv_to_xdr only s] else []) l).

(* auth.rs:553-569; the delegates of AddressWithDelegates are not part of the
   payload and left out *)
Inductive cred := CrSource | CrAddress | CrAddressV2 | CrWithDelegates.
Record aentry := {
  ae_cred : cred;
  ae_addr : addr;       (* of the transaction source for CrSource *)
  ae_nonce : Z;
  ae_exp : Z;           (* signature_expiration_ledger *)
  ae_inv : xinv;
}.
(* auth.rs:2350-2408; the tracker: address, optional nonce, invocation *)
Record ptracker := {
  pt_cred : cred;
  pt_addr : addr;
  pt_nonce : option (Z * Z);
  pt_inv : hinv;
}.
Definition from_entry (e : aentry) : ptracker := {|
  pt_cred := ae_cred e;
  pt_addr := ae_addr e;
  pt_nonce := match ae_cred e with
              | CrSource => None
              | _ => Some (ae_nonce e, ae_exp e)
              end;
  pt_inv := inv_from_xdr (ae_inv e) |}.

(* auth.rs:592-594 *)
Definition with_address (c : cred) : bool :=
  match c with CrAddressV2 | CrWithDelegates => true | _ => false end.

(* auth.rs:2631-2662, with the hash taken off: ENVELOPE_TYPE_SOROBAN_AUTHORIZATION
   is 9, ENVELOPE_TYPE_SOROBAN_AUTHORIZATION_WITH_ADDRESS is 10.  root_invocation_to_xdr
   (auth.rs:2566-2573) is to_xdr with `false`. *)
Definition payload_preimage (net : list Z) (t : ptracker) : res (list Z) :=
  match pt_nonce t with
  | None => Err (ESys TAuth CInternalError)
  | Some (nonce, exp) =>
      let inv := inv_to_xdr false (pt_inv t) in
      Ok (if with_address (pt_cred t)
          then x32 10 ++ net ++ x64 nonce ++ x32 exp ++ xaddr (pt_addr t) ++ enc_inv inv
          else x32 9 ++ net ++ x64 nonce ++ x32 exp ++ enc_inv inv)
  end.
Definition signature_payload (sha : list Z -> list Z) (net : list Z) (t : ptracker) : res (list Z) :=
  rmap sha (payload_preimage net t).

(* data_helper.rs:457-466: ENVELOPE_TYPE_CONTRACT_ID is 8 *)
Definition id_preimage (net : list Z) (p : preimage) : list Z := x32 8 ++ net ++ xpre p.
(* lifecycle.rs:244-246, 295-314 *)
Definition contract_id (sha : list Z -> list Z) (net : list Z) (p : preimage) : list Z :=
  sha (id_preimage net p).
