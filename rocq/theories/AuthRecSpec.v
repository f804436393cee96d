(* What it means that recorded authorizations go through: which entries are made of
   them, and which recordings this is about. *)
From Coq Require Import ZArith List Bool.
From Verif Require Import Prelude ValModel ContainerModel HeapModel AMap StorageModel StorageSpec FrameModel
  AuthModel AuthSpec AuthRecModel.
Import ListNotations.
Open Scope Z_scope.

(* Every account agrees: the signatures verify and the account contracts accept without
   doing anything else. *)
Fixpoint accepts (p : aprog) : Prop :=
  match p with
  | ARet _ => True
  | ACall _ _ _ b k => accepts b /\ forall r, accepts (k r)
  | ACreate _ _ _ b k => accepts b /\ accepts k
  | ARequire _ _ sig check k => (forall i, sig i = Ok tt /\ check i = ARet (Ok tt)) /\ accepts k
  | AAuthorize _ k => accepts k
  | AStore _ k => forall r, accepts (k r)
  end.

(* The entry of a transaction made of what was recorded: the nonce and the tree are
   those recorded; the signer chooses when the signature expires. *)
Definition signed (li : linfo) (source : option addr) (p : payload) (e : entry_) : Prop :=
  en_tree e = pl_tree p
  /\ match pl_addr p, pl_nonce p with
     | None, None => source = Some (en_addr e) /\ en_cred e = None
     | Some a, Some n => en_addr e = a /\ exists exp mx, en_cred e = Some (n, exp) /\ get_max_live_until li = Ok mx /\ li_seq li <= exp <= mx
     | _, _ => False
     end.

(* No authorization was asked for but those the calling contracts gave. *)
Inductive idle : list rtree -> Prop :=
| idle_nil : idle []
| idle_by a f l : idle l -> idle (RAsk a f ByContract :: l)
| idle_pre ts l : idle l -> idle (RPre ts :: l)
| idle_call id fn r x l : idle x -> idle l -> idle (RCall id fn r x :: l)
| idle_create x l : idle x -> idle l -> idle (RCreate x :: l).

(* The account is a contract, whose __check_auth is called. *)
Definition runs_check (source : option addr) (a : addr) : bool :=
  match a with AContract _ => negb (is_addr source a) | _ => false end.

(* The recordings that can be replayed, from a call that has been authorized by the
   addresses [asked] so far and, if [pend], has authorized its next call:
   - a call is authorized by an address at most once;
   - the first use of the entry of an account contract (which calls it) does not come
     between authorize_as_curr_contract and the call that is for;
   - calls that failed asked for no authorization. *)
Inductive replayable (source : option addr) : list addr -> bool -> list rtree -> Prop :=
| rp_nil asked pend : replayable source asked pend []
| rp_by asked pend a f l : replayable source asked pend l -> replayable source asked pend (RAsk a f ByContract :: l)
| rp_rec asked pend a f new l :
    ~ In a asked -> (new && pend && runs_check source a = false) ->
    replayable source (a :: asked) pend l -> replayable source asked pend (RAsk a f (Recorded new) :: l)
| rp_pre asked pend ts l : replayable source asked true l -> replayable source asked pend (RPre ts :: l)
| rp_call asked pend id fn r x l :
    replayable source [] false x -> (is_ok r = false -> idle x) -> replayable source asked false l ->
    replayable source asked pend (RCall id fn r x :: l)
| rp_create asked pend x l :
    replayable source [] false x -> replayable source asked false l ->
    replayable source asked pend (RCreate x :: l).

(* every node of a tree has been used *)
Fixpoint all_used (n : node) : bool := let 'Node _ u l := n in u && forallb all_used l.

(* The ledgers are the same, but for how long nonces are kept. *)
Definition is_nonce_key (k : lkey) : Prop := exists a n, k = nonce_key a n.
Definition same_at (k : lkey) (x y : option lentry) : Prop :=
  y = x \/ (is_nonce_key k /\ exists l l', x = Some (EData SVoid, Some l) /\ y = Some (EData SVoid, Some l')).
Definition same_ledger (m m' : store) : Prop := forall k, same_at k (m k) (m' k).

(* New entries are only made at depth 1: by the call the transaction makes itself. *)
Fixpoint rooted (depth : nat) (x : rtree) : bool :=
  match x with
  | RAsk _ _ (Recorded true) => Nat.eqb depth 1
  | RAsk _ _ _ | RPre _ => true
  | RCall _ _ _ l | RCreate l => forallb (rooted (S depth)) l
  end.
