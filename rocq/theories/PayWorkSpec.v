(* How much there is to do, independently of how it is done: the least work that
   comparing, copying and building can take. *)
From Coq Require Import ZArith Lia List Bool.
From Verif Require Import Prelude ValModel HeapModel StorageModel PaySpec.
Import ListNotations.
Open Scope Z_scope.

(* bytes of information in a value, without tags *)
Definition exe_content (e : executable) : Z :=
  match e with ExWasm _ => 32 | ExStellarAsset => 0 | ExExternalRef _ t => 48 + len t end.
Fixpoint content (v : scval) : Z :=
  let pairs := fix go (m : list (scval * scval)) : Z :=
    match m with [] => 0 | (a, b) :: m => content a + content b + go m end in
  match v with
  | SVec (Some l) => (fix go (l : list scval) : Z := match l with [] => 0 | x :: l => content x + go l end) l
  | SMap (Some m) => pairs m
  | SBytes b | SString b | SSymbol b | SExecutableTag b => len b
  | SContractInstance e s => exe_content e + match s with Some m => pairs m | None => 0 end
  | SBool _ => 1
  | SError _ => 8
  | SU32 _ | SI32 _ => 4
  | SU64 _ | SI64 _ | STimepoint _ | SDuration _ | SLedgerKeyNonce _ => 8
  | SU128 _ _ | SI128 _ _ => 16
  | SU256 _ _ _ _ | SI256 _ _ _ _ => 32
  | SAddress _ => 48
  | _ => 0
  end.
(* bytes of the elements of its containers, at every level *)
Fixpoint slots (v : scval) : Z :=
  let pairs := fix go (m : list (scval * scval)) : Z :=
    match m with [] => 0 | (a, b) :: m => 192 + slots a + slots b + go m end in
  match v with
  | SVec (Some l) => (fix go (l : list scval) : Z := match l with [] => 0 | x :: l => 96 + slots x + go l end) l
  | SMap (Some m) => pairs m
  | SContractInstance _ (Some m) => pairs m
  | _ => 0
  end.
Definition key_content (k : lkey) : Z :=
  match k with
  | LKAccount _ => 32 | LKTrustline _ _ => 77 | LKData _ v _ => 48 + content v + 4 | LKCode _ => 32 | LKOther _ => 0
  end.
Definition key_slots (k : lkey) : Z := match k with LKData _ v _ => slots v | _ => 0 end.

(* the same of a host object, not following the words in it *)
Definition obj_content (o : hobj) : Z :=
  match o with
  | HONum NU64 _ | HONum NI64 _ | HONum NTimepoint _ | HONum NDuration _ => 8
  | HONum NU128 _ | HONum NI128 _ => 16
  | HONum NU256 _ | HONum NI256 _ => 32
  | HOBytes b | HOString b | HOSymbol b | HOExeTag b => len b
  | HOAddress _ | HOMuxed _ => 48
  | HOVec _ | HOMap _ => 0
  end.
Definition obj_slots (o : hobj) : Z :=
  match o with HOVec l => 8 * len l | HOMap m => 16 * len m | _ => 0 end.

(* the work of [m], if it answers Eq, is at least this *)
Definition looked_at (bytes memory : Z) (m : op comparison) : Prop :=
  snd m = Ok Eq -> bytes <= work Bytes (fst m) /\ memory <= work Memory (fst m).
(* [m] allocated and wrote a container of elements of rs bytes for its answer *)
Definition built {A} (rs : Z) (m : op (list A)) : Prop :=
  forall l, snd m = Ok l -> rs * len l <= work Heap (fst m) /\ rs * len l <= work Memory (fst m).
