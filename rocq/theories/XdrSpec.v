(* What an XDR value may be, and when two authorization entries ask for the same
   thing. *)
From Coq Require Import ZArith List Bool.
From Verif Require Import Prelude ValModel HeapModel FrameModel AuthModel XdrModel.
Import ListNotations.
Open Scope Z_scope.

(* Values of the XDR types: fixed-size fields have their size, integers are in
   range, lengths fit 32 bits. *)
Definition sized (n : nat) (b : list Z) : Prop := length b = n.
Definition is_u32 (x : Z) : Prop := 0 <= x < 2 ^ 32.
Definition is_i32 (x : Z) : Prop := - 2 ^ 31 <= x < 2 ^ 31.
Definition is_u64 (x : Z) : Prop := 0 <= x < 2 ^ 64.
Definition is_i64 (x : Z) : Prop := - 2 ^ 63 <= x < 2 ^ 63.
Definition fits {A} (l : list A) : Prop := Z.of_nat (length l) < 2 ^ 32.
Definition addr_xdr (a : addr) : Prop :=
  match a with
  | AAccount k | AContract k => sized 32 k
  | AMuxed i k => is_u64 i /\ sized 32 k
  | AOther d p => (d = 3 /\ sized 36 p) \/ (d = 4 /\ sized 32 p)
  end.
Definition exe_xdr (e : executable) : Prop :=
  match e with
  | ExWasm h => sized 32 h
  | ExStellarAsset => True
  | ExExternalRef o t => addr_xdr o /\ fits t
  end.
Definition err_xdr (e : err) : Prop :=
  match e with EContract c => is_u32 c | ESys _ _ => True end.
Definition everyP {A} (P : A -> Prop) := fix go (l : list A) : Prop :=
  match l with [] => True | x :: r => P x /\ go r end.
Definition maybeP {A} (P : A -> Prop) (o : option A) : Prop :=
  match o with Some x => P x | None => True end.
Fixpoint scval_xdr (s : scval) : Prop :=
  match s with
  | SBool _ | SVoid | SLedgerKeyContractInstance => True
  | SError e => err_xdr e
  | SU32 x => is_u32 x
  | SI32 x => is_i32 x
  | SU64 x | STimepoint x | SDuration x => is_u64 x
  | SI64 x | SLedgerKeyNonce x => is_i64 x
  | SU128 a b => is_u64 a /\ is_u64 b
  | SI128 a b => is_i64 a /\ is_u64 b
  | SU256 a b c d => is_u64 a /\ is_u64 b /\ is_u64 c /\ is_u64 d
  | SI256 a b c d => is_i64 a /\ is_u64 b /\ is_u64 c /\ is_u64 d
  | SBytes b | SString b | SSymbol b | SExecutableTag b => fits b
  | SVec l => maybeP (fun l => fits l /\ everyP scval_xdr l) l
  | SMap m => maybeP (fun m => fits m /\ everyP (fun p => scval_xdr (fst p) /\ scval_xdr (snd p)) m) m
  | SAddress a => addr_xdr a
  | SContractInstance e m =>
      exe_xdr e /\
      maybeP (fun m => fits m /\ everyP (fun p => scval_xdr (fst p) /\ scval_xdr (snd p)) m) m
  end.
(* Asset: native; four- or twelve-letter code and issuer *)
Definition asset_xdr (b : list Z) : Prop :=
  b = [0; 0; 0; 0] \/
  (exists r, b = [0; 0; 0; 1] ++ r /\ sized 40 r) \/
  (exists r, b = [0; 0; 0; 2] ++ r /\ sized 48 r).
Definition pre_xdr (p : preimage) : Prop :=
  match p with
  | PreAddress a salt => addr_xdr a /\ sized 32 salt
  | PreAsset asset => asset_xdr asset
  end.
Definition fn_xdr (f : xfn) : Prop :=
  match f with
  | XContractFn a n l => addr_xdr a /\ fits n /\ fits l /\ everyP scval_xdr l
  | XCreate p e => pre_xdr p /\ exe_xdr e
  | XCreateV2 p e l => pre_xdr p /\ exe_xdr e /\ fits l /\ everyP scval_xdr l
  end.
Fixpoint inv_xdr (i : xinv) : Prop :=
  let 'XInv f l := i in fn_xdr f /\ fits l /\ everyP inv_xdr l.
Definition entry_xdr (e : aentry) : Prop :=
  addr_xdr (ae_addr e) /\ is_i64 (ae_nonce e) /\ is_u32 (ae_exp e) /\ inv_xdr (ae_inv e).

(* Two authorized functions are the same; the two ways to write the creation of
   a contract without constructor arguments are the same function. *)
Inductive same_fn : xfn -> xfn -> Prop :=
| sf_eq f : same_fn f f
| sf_v12 p e : same_fn (XCreate p e) (XCreateV2 p e [])
| sf_v21 p e : same_fn (XCreateV2 p e []) (XCreate p e).
(* Two trees of invocations are the same node by node. *)
Inductive same_inv : xinv -> xinv -> Prop :=
| si f g l m : same_fn f g -> same_invs l m -> same_inv (XInv f l) (XInv g m)
with same_invs : list xinv -> list xinv -> Prop :=
| sis_nil : same_invs [] []
| sis_cons i j l m : same_inv i j -> same_invs l m -> same_invs (i :: l) (j :: m).

(* The payload of these credentials names the address. *)
Definition binds_address (c : cred) : Prop := c = CrAddressV2 \/ c = CrWithDelegates.

(* The tree of authorized calls the authorization manager tracks (AuthModel); a
   call of an address that is not a contract is never matched. *)
Inductive tracks : xinv -> ftree -> Prop :=
| tr_call id n args l m : tracks_all l m ->
    tracks (XInv (XContractFn (AContract id) n args) l) (FT (FnContract id n args) m)
| tr_create p e l m : tracks_all l m ->
    tracks (XInv (XCreate p e) l) (FT (FnCreate p e []) m)
| tr_create2 p e args l m : tracks_all l m ->
    tracks (XInv (XCreateV2 p e args) l) (FT (FnCreate p e args) m)
with tracks_all : list xinv -> list ftree -> Prop :=
| tra_nil : tracks_all [] []
| tra_cons i t l m : tracks i t -> tracks_all l m -> tracks_all (i :: l) (t :: m).
