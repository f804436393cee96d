(* What authorizations mean: a ledger of what has been used, over the tree of
   calls, written without trackers, match stacks or snapshots. *)
From Coq Require Import ZArith List Bool.
From Verif Require Import Prelude ValModel ContainerModel HeapModel AMap StorageModel StorageSpec FrameModel AuthModel.
Import ListNotations.
Open Scope Z_scope.

Definition path := list nat.
(* the subtree of a signed tree at a path of child indices *)
Fixpoint tree_at (t : ftree) (p : path) : option ftree :=
  match p with
  | [] => Some t
  | i :: p' => let 'FT _ l := t in match nth_error l i with Some s => tree_at s p' | None => None end
  end.
Definition tree_fn (t : ftree) : afn := let 'FT f _ := t in f.

(* A tree of authorizations: the i-th entry of the transaction, or the n-th
   pre-authorization made during it. *)
Inductive tid := TE (i : nat) | TP (n : nat).
Definition tid_eq_dec (a b : tid) : {a = b} + {a <> b}.
Proof. decide equality; apply Nat.eq_dec. Defined.

(* A call in progress, and the nodes it has been authorized by. *)
Record sframe := { sf_fn : aframe; sf_by : list (tid * path) }.
Fixpoint lookup (l : list (tid * path)) (t : tid) : option path :=
  match l with [] => None | (x, p) :: l' => if tid_eq_dec x t then Some p else lookup l' t end.
Definition by_node (fr : sframe) (t : tid) : option path := lookup (sf_by fr) t.
(* the innermost of these calls that tree t authorized *)
Fixpoint nearest (l : list sframe) (t : tid) : option path :=
  match l with [] => None | fr :: l' => match by_node fr t with Some p => Some p | None => nearest l' t end end.

(* A pre-authorization: made by a contract for the next call it makes. *)
Record pre_ := { p_id : nat; p_by : addr; p_tree : ftree; p_depth : nat }.

Record sstate := {
  s_frames : list sframe;                 (* innermost first *)
  s_used : list (tid * path);             (* nodes used up *)
  s_ver : list nat;                       (* entries authenticated *)
  s_busy : list nat;                      (* entries being authenticated *)
  s_pre : list pre_;                      (* pre-authorizations in scope *)
  s_next : nat;                           (* pre-authorizations made so far *)
  s_nonce : addr -> Z -> option lentry    (* nonces on the ledger *)
}.

Definition s_push (s : sstate) (f : aframe) : sstate :=
  {| s_frames := {| sf_fn := f; sf_by := [] |} :: s_frames s; s_used := s_used s; s_ver := s_ver s; s_busy := s_busy s;
     s_pre := s_pre s; s_next := s_next s; s_nonce := s_nonce s |}.
(* pre-authorizations last until the call they were made for is over *)
Definition in_scope (depth : nat) (q : pre_) : bool := Nat.ltb (p_depth q) depth.
Definition s_pop (s : sstate) : sstate :=
  let fs := tl (s_frames s) in
  {| s_frames := fs; s_used := s_used s; s_ver := s_ver s; s_busy := s_busy s;
     s_pre := filter (in_scope (length fs)) (s_pre s); s_next := s_next s; s_nonce := s_nonce s |}.
(* a failed call started in s: everything is as it was *)
Definition s_fail (s s1 : sstate) : sstate :=
  {| s_frames := s_frames s; s_used := s_used s; s_ver := s_ver s; s_busy := s_busy s;
     s_pre := filter (in_scope (length (s_frames s))) (s_pre s); s_next := s_next s1; s_nonce := s_nonce s |}.
Definition s_use (s : sstate) (t : tid) (p : path) : sstate :=
  {| s_frames := match s_frames s with
                 | [] => []
                 | fr :: l => {| sf_fn := sf_fn fr; sf_by := (t, p) :: sf_by fr |} :: l
                 end;
     s_used := (t, p) :: s_used s; s_ver := s_ver s; s_busy := s_busy s;
     s_pre := s_pre s; s_next := s_next s; s_nonce := s_nonce s |}.
Definition s_set_busy (s : sstate) (l : list nat) : sstate :=
  {| s_frames := s_frames s; s_used := s_used s; s_ver := s_ver s; s_busy := l;
     s_pre := s_pre s; s_next := s_next s; s_nonce := s_nonce s |}.
Fixpoint number (n : nat) (a : addr) (d : nat) (ts : list ftree) : list pre_ :=
  match ts with [] => [] | t :: ts' => {| p_id := n; p_by := a; p_tree := t; p_depth := d |} :: number (S n) a d ts' end.
Definition s_authorize (s : sstate) (a : addr) (ts : list ftree) : sstate :=
  {| s_frames := s_frames s; s_used := s_used s; s_ver := s_ver s; s_busy := s_busy s;
     s_pre := s_pre s ++ number (s_next s) a (length (s_frames s)) ts; s_next := s_next s + length ts; s_nonce := s_nonce s |}.

(* Function f, called in the innermost frame, may be authorized by the node of
   tree t at path p: it is that very function (contract, name and arguments, or
   creation), the node has not been used, the frame has not been authorized by
   this tree already, and the node is a child of the node that authorized the
   nearest enclosing call, or the root if there is none. *)
Definition may_use (s : sstate) (t : tid) (tree : ftree) (p : path) (f : afn) : Prop :=
  (exists sub, tree_at tree p = Some (FT f sub))
  /\ ~ In (t, p) (s_used s)
  /\ match s_frames s with
     | [] => False
     | fr :: rest =>
         by_node fr t = None
         /\ match nearest rest t with None => p = [] | Some q => exists n, p = q ++ [n] end
     end.

Definition current_contract (s : sstate) : option addr :=
  match s_frames s with {| sf_fn := FrContract id _ |} :: _ => Some (AContract id) | _ => None end.
Definition direct_invoker (s : sstate) : option addr :=
  match s_frames s with _ :: {| sf_fn := FrContract id _ |} :: _ => Some (AContract id) | _ => None end.
Definition current_fn (s : sstate) (f : afn) : Prop :=
  match s_frames s with fr :: _ => exists args, f = to_fn (sf_fn fr) args | [] => False end.

Section Spec.
  Variable li : linfo.
  Variable entries : list entry_.

  (* entry i may authorize f for address a by node p; a new root only if the
     entries of the same address in use already cover this call *)
  Definition entry_may (s : sstate) (a : addr) (f : afn) (i : nat) (p : path) : Prop :=
    exists e, nth_error entries i = Some e /\ en_addr e = a /\ ~ In i (s_busy s)
      /\ may_use s (TE i) (en_tree e) p f
      /\ (p = [] -> forall j e', nth_error entries j = Some e' -> en_addr e' = a -> ~ In j (s_busy s) ->
            nearest (s_frames s) (TE j) <> None ->
            match s_frames s with fr :: _ => by_node fr (TE j) <> None | [] => False end).

  (* the j-th pre-authorization in scope may authorize f for the contract a that
     made it; a contract cannot use its own *)
  Definition pre_may (s : sstate) (a : addr) (f : afn) (j : nat) (p : path) : Prop :=
    exists q, nth_error (s_pre s) j = Some q /\ p_by q = a /\ current_contract s <> Some a
      /\ may_use s (TP (p_id q)) (p_tree q) p f.
  (* Among several, the direct invoker comes first, then pre-authorizations, then
     entries; the one made or listed first, and its first suitable node. *)
  Definition before (i : nat) (p : path) (i' : nat) (p' : path) : Prop :=
    (i < i')%nat \/ (i = i' /\ (last p 0 <= last p' 0)%nat).
  Definition pre_first (s : sstate) (a : addr) (f : afn) (j : nat) (p : path) : Prop :=
    direct_invoker s <> Some a /\ forall j' p', pre_may s a f j' p' -> before j p j' p'.
  Definition entry_first (s : sstate) (a : addr) (f : afn) (i : nat) (p : path) : Prop :=
    direct_invoker s <> Some a /\ (forall j q, ~ pre_may s a f j q)
    /\ forall i' p', entry_may s a f i' p' -> before i p i' p'.
  (* nothing authorizes f for a *)
  Definition unauthorized (s : sstate) (a : addr) (f : afn) : Prop :=
    direct_invoker s <> Some a /\ (forall j p, ~ pre_may s a f j p) /\ (forall i p, ~ entry_may s a f i p).

  (* what authenticating an entry consumes: its nonce, which must be unused, at
     a ledger up to its expiration, which must be within the maximum TTL *)
  Definition consumed (cred : option (Z * Z)) (a : addr) (n n' : addr -> Z -> option lentry) : Prop :=
    match cred with
    | None => forall x k, n' x k = n x k
    | Some (nonce, exp) =>
        li_seq li <= exp <= max_live li
        /\ n a nonce = None
        /\ n' a nonce = Some (EData SVoid, Some (Z.max exp (min_live li Temporary)))
        /\ forall x k, (x, k) <> (a, nonce) -> n' x k = n x k
    end.

  (* why it can fail: outside its validity, used before, or outside the footprint *)
  Definition unconsumable (cred : option (Z * Z)) (a : addr) (n : addr -> Z -> option lentry) (e : err) : Prop :=
    match cred with
    | None => False
    | Some (nonce, exp) =>
        (e = ESys TAuth CInvalidInput /\ ~ li_seq li <= exp <= max_live li)
        \/ (li_seq li <= exp <= max_live li
            /\ ((e = ESys TAuth CExistingValue /\ n a nonce <> None) \/ e = ESys TStorage CExceededLimit))
    end.

  (* The record of an execution is explained, from s to s'. *)
  Inductive explained : sstate -> list atree -> sstate -> Prop :=
  | x_nil s : explained s [] s
  | x_invoker s a f l s' :
      current_fn s f -> direct_invoker s = Some a ->
      explained s l s' -> explained s (TReq a f MInvoker :: l) s'
  | x_pre s a f j q p l s' :
      current_fn s f -> nth_error (s_pre s) j = Some q -> p_by q = a -> current_contract s <> Some a ->
      may_use s (TP (p_id q)) (p_tree q) p f -> pre_first s a f j p ->
      explained (s_use s (TP (p_id q)) p) l s' -> explained s (TReq a f (MPre j p) :: l) s'
  | x_entry s a f i p l s' :
      current_fn s f -> entry_may s a f i p -> In i (s_ver s) -> entry_first s a f i p ->
      explained (s_use s (TE i) p) l s' -> explained s (TReq a f (MEntry i p) :: l) s'
  | x_first s a f i p e l1 s1 s2 l s' :
      current_fn s f -> entry_may s a f i p -> ~ In i (s_ver s) -> nth_error entries i = Some e ->
      explained (s_set_busy (s_use s (TE i) p) (i :: s_busy s)) l1 s1 ->
      s_frames s2 = s_frames s1 -> s_used s2 = s_used s1 -> s_ver s2 = i :: s_ver s1 -> s_busy s2 = s_busy s ->
      s_pre s2 = s_pre s1 -> s_next s2 = s_next s1 ->
      consumed (en_cred e) a (s_nonce s1) (s_nonce s2) -> entry_first s a f i p ->
      explained s2 l s' -> explained s (TFirst a f i p AuthOk l1 :: l) s'
  (* what the failure was is in the record of the program, below *)
  | x_first_failed s a f i p err l1 s1 :
      current_fn s f -> entry_may s a f i p -> ~ In i (s_ver s) ->
      explained (s_set_busy (s_use s (TE i) p) (i :: s_busy s)) l1 s1 -> entry_first s a f i p ->
      explained s [TFirst a f i p (AuthFailed err) l1] (s_set_busy s1 (s_busy s))
  | x_first_nonce s a f i p err e l1 s1 :
      current_fn s f -> entry_may s a f i p -> ~ In i (s_ver s) ->
      explained (s_set_busy (s_use s (TE i) p) (i :: s_busy s)) l1 s1 -> entry_first s a f i p ->
      nth_error entries i = Some e -> unconsumable (en_cred e) a (s_nonce s1) err ->
      explained s [TFirst a f i p (NonceFailed err) l1] (s_set_busy s1 (s_busy s))
  | x_no s a f :
      current_fn s f -> unauthorized s a f -> explained s [TNo a f] s
  | x_pre_made s a ts l s' :
      current_contract s = Some a ->
      explained (s_authorize s a ts) l s' -> explained s (TPre a ts :: l) s'
  | x_call s id fn l1 s1 l s' :
      explained (s_push s (FrContract id fn)) l1 s1 ->
      explained (s_pop s1) l s' -> explained s (TCall id fn (Ok tt) l1 :: l) s'
  | x_call_failed s id fn e l1 s1 l s' :
      explained (s_push s (FrContract id fn)) l1 s1 ->
      explained (s_fail s s1) l s' -> explained s (TCall id fn (Err e) l1 :: l) s'
  | x_create s pre ex args l1 s1 l s' :
      explained (s_push s (FrCreate pre ex args)) l1 s1 ->
      explained (s_pop s1) l s' -> explained s (TCreate pre ex args l1 :: l) s'.
End Spec.

(* The nonces a ledger holds. *)
Definition nonce_key (a : addr) (n : Z) : lkey := LKData a (SLedgerKeyNonce n) Temporary.
Definition start (n : addr -> Z -> option lentry) : sstate :=
  {| s_frames := []; s_used := []; s_ver := []; s_busy := []; s_pre := []; s_next := 0; s_nonce := n |}.

(* ---------------------------------------------------------------- the record of a program *)

(* The error of a failed authentication is not passed on, unless it ends the
   transaction anyway. *)
Definition hidden (e : err) : err := if recoverable e then ESys TAuth CInvalidAction else e.

(* t is a record of a run of p, in a frame fr, that ended with r: every call,
   creation, pre-authorization and require_auth is in it, in order. *)
Section Record.
  Variable entries : list entry_.
  Inductive record : option aframe -> aprog -> res unit -> list atree -> Prop :=
  | rec_ret fr r : record fr (ARet r) r []
  | rec_call fr id fn try body k l r t :
      record (Some (FrContract id fn)) body (Ok tt) l -> record fr (k (Ok tt)) r t ->
      record fr (ACall id fn try body k) r (TCall id fn (Ok tt) l :: t)
  | rec_call_failed fr id fn try body k e l :
      record (Some (FrContract id fn)) body (Err e) l -> try && recoverable e = false ->
      record fr (ACall id fn try body k) (Err e) [TCall id fn (Err e) l]
  | rec_try_failed fr id fn body k e l r t :
      record (Some (FrContract id fn)) body (Err e) l -> recoverable e = true -> record fr (k (Err e)) r t ->
      record fr (ACall id fn true body k) r (TCall id fn (Err e) l :: t)
  | rec_create fr pre ex args body k l r t :
      record (Some (FrCreate pre ex args)) body (Ok tt) l -> record fr k r t ->
      record fr (ACreate pre ex args body k) r (TCreate pre ex args l :: t)
  | rec_create_failed fr pre ex args body k e l :
      record (Some (FrCreate pre ex args)) body (Err e) l ->
      record fr (ACreate pre ex args body k) (Err e) [TCreate pre ex args l]
  | rec_require fr a args sig check k m r t :
      record (Some fr) k r t ->
      record (Some fr) (ARequire a args sig check k) r (TReq a (to_fn fr args) m :: t)
  (* an entry is authenticated when it is first used: not at all for the source
     account, by its signatures for an account, by __check_auth for a contract *)
  | rec_first_source fr a args sig check k i e p r t :
      nth_error entries i = Some e -> en_addr e = a -> en_cred e = None ->
      record (Some fr) k r t ->
      record (Some fr) (ARequire a args sig check k) r (TFirst a (to_fn fr args) i p AuthOk [] :: t)
  | rec_first_account fr key args sig check k i e p r t :
      nth_error entries i = Some e -> en_addr e = AAccount key -> en_cred e <> None ->
      sig i = Ok tt ->
      record (Some fr) k r t ->
      record (Some fr) (ARequire (AAccount key) args sig check k) r (TFirst (AAccount key) (to_fn fr args) i p AuthOk [] :: t)
  | rec_first_contract fr id args sig check k i e p l r t :
      nth_error entries i = Some e -> en_addr e = AContract id -> en_cred e <> None ->
      record (Some (FrContract id s_check_auth)) (check i) (Ok tt) l ->
      record (Some fr) k r t ->
      record (Some fr) (ARequire (AContract id) args sig check k) r
        (TFirst (AContract id) (to_fn fr args) i p AuthOk [TCall id s_check_auth (Ok tt) l] :: t)
  (* it is refused outside of contracts; if nothing matches; if the signatures or
     __check_auth are not good; and if the nonce cannot be consumed after that *)
  | rec_refused_top a args sig check k e : record None (ARequire a args sig check k) (Err e) []
  | rec_refused fr a args sig check k :
      record (Some fr) (ARequire a args sig check k) (Err (ESys TAuth CInvalidAction)) [TNo a (to_fn fr args)]
  | rec_bad_account fr key args sig check k i e p err :
      nth_error entries i = Some e -> en_addr e = AAccount key -> en_cred e <> None ->
      sig i = Err err ->
      record (Some fr) (ARequire (AAccount key) args sig check k) (Err (hidden err))
        [TFirst (AAccount key) (to_fn fr args) i p (AuthFailed err) []]
  | rec_bad_contract fr id args sig check k i e p err l :
      nth_error entries i = Some e -> en_addr e = AContract id -> en_cred e <> None ->
      record (Some (FrContract id s_check_auth)) (check i) (Err err) l ->
      record (Some fr) (ARequire (AContract id) args sig check k) (Err (hidden err))
        [TFirst (AContract id) (to_fn fr args) i p (AuthFailed err) [TCall id s_check_auth (Err err) l]]
  | rec_bad_address fr a args sig check k i e p :
      nth_error entries i = Some e -> en_addr e = a -> en_cred e <> None ->
      match a with AAccount _ | AContract _ => False | _ => True end ->
      record (Some fr) (ARequire a args sig check k) (Err (hidden (ESys TObject CInternalError)))
        [TFirst a (to_fn fr args) i p (AuthFailed (ESys TObject CInternalError)) []]
  | rec_nonce_account fr key args sig check k i e p err :
      nth_error entries i = Some e -> en_addr e = AAccount key -> en_cred e <> None ->
      sig i = Ok tt ->
      record (Some fr) (ARequire (AAccount key) args sig check k) (Err err)
        [TFirst (AAccount key) (to_fn fr args) i p (NonceFailed err) []]
  | rec_nonce_contract fr id args sig check k i e p err l :
      nth_error entries i = Some e -> en_addr e = AContract id -> en_cred e <> None ->
      record (Some (FrContract id s_check_auth)) (check i) (Ok tt) l ->
      record (Some fr) (ARequire (AContract id) args sig check k) (Err err)
        [TFirst (AContract id) (to_fn fr args) i p (NonceFailed err) [TCall id s_check_auth (Ok tt) l]]
  | rec_authorize id fn ts k r t :
      record (Some (FrContract id fn)) k r t ->
      record (Some (FrContract id fn)) (AAuthorize ts k) r (TPre (AContract id) ts :: t)
  | rec_authorize_refused fr ts k e : record fr (AAuthorize ts k) (Err e) []
  | rec_store fr o k v r t : record fr (k (Ok v)) r t -> record fr (AStore o k) r t
  | rec_store_failed fr o k e : record fr (AStore o k) (Err e) [].
End Record.

(* ---------------------------------------------------------------- reading the record *)

(* The entry nodes used in an execution, not counting calls that failed; and
   the entries authenticated. *)
Fixpoint uses (t : atree) : list (nat * path) :=
  match t with
  | TReq _ _ (MEntry i p) => [(i, p)]
  | TReq _ _ _ => []
  | TFirst _ _ i p _ l => (i, p) :: flat_map uses l
  | TPre _ _ | TNo _ _ => []
  | TCall _ _ (Ok _) l => flat_map uses l
  | TCall _ _ (Err _) _ => []
  | TCreate _ _ _ l => flat_map uses l
  end.
Fixpoint authenticated (t : atree) : list nat :=
  match t with
  | TReq _ _ _ | TPre _ _ | TNo _ _ => []
  | TFirst _ _ i _ AuthOk l => flat_map authenticated l ++ [i]
  | TFirst _ _ _ _ _ l => flat_map authenticated l
  | TCall _ _ (Ok _) l => flat_map authenticated l
  | TCall _ _ (Err _) _ => []
  | TCreate _ _ _ l => flat_map authenticated l
  end.
(* every node of the record, failed calls included *)
Fixpoint everything (t : atree) : list atree :=
  t :: match t with
       | TReq _ _ _ | TPre _ _ | TNo _ _ => []
       | TFirst _ _ _ _ _ l | TCall _ _ _ l | TCreate _ _ _ l => flat_map everything l
       end.

(* The nonces consumed by the authentications that were kept: address, nonce
   and expiration. *)
Definition nonce_of (entries : list entry_) (i : nat) : list (addr * Z * Z) :=
  match nth_error entries i with
  | Some e => match en_cred e with Some (n, x) => [(en_addr e, n, x)] | None => [] end
  | None => []
  end.
Definition burned (entries : list entry_) (l : list atree) : list (addr * Z * Z) :=
  flat_map (nonce_of entries) (flat_map authenticated l).

(* The record of what a successful run keeps: no require_auth failed. *)
Fixpoint kept_ok (t : atree) : bool :=
  match t with
  | TReq _ _ _ | TPre _ _ => true
  | TFirst _ _ _ _ AuthOk l => forallb kept_ok l
  | TFirst _ _ _ _ _ _ | TNo _ _ => false
  | TCall _ _ (Ok _) l => forallb kept_ok l
  | TCall _ _ (Err _) _ => true
  | TCreate _ _ _ l => forallb kept_ok l
  end.
(* the item uses entry i *)
Definition touches (i : nat) (t : atree) : Prop :=
  match t with TReq _ _ (MEntry j _) => j = i | TFirst _ _ j _ _ _ => j = i | _ => False end.

(* ---------------------------------------------------------------- histories *)

(* A transaction, with the ledger it runs on. *)
Record tx := { tx_c : sconf; tx_store : storage; tx_entries : list entry_; tx_prog : aprog }.
Definition tx_run (t : tx) : astate * res unit * list atree :=
  transaction (tx_c t) (new_enforcing (tx_store t) (tx_entries t)) (tx_prog t).
Definition tx_result (t : tx) : res unit := snd (fst (tx_run t)).
Definition tx_begin (t : tx) : store := contents (tx_c t) (tx_store t).
Definition tx_end (t : tx) : store := contents (tx_c t) (as_store (fst (fst (tx_run t)))).
Definition tx_seq (t : tx) : Z := li_seq (sc_li (tx_c t)).
(* the nonces it consumed *)
Definition tx_burned (t : tx) : list (addr * Z * Z) :=
  match tx_result t with Ok _ => burned (tx_entries t) (snd (tx_run t)) | Err _ => [] end.
(* a later transaction sees the nonces that have not expired; anything else on
   the ledger may have changed *)
Definition follows (t u : tx) : Prop :=
  tx_seq t <= tx_seq u
  /\ forall a n v x, tx_end t (nonce_key a n) = Some (v, Some x) -> tx_seq u <= x ->
       exists v' x', tx_begin u (nonce_key a n) = Some (v', Some x') /\ x <= x'.
Fixpoint history (l : list tx) : Prop :=
  match l with
  | [] => True
  | t :: l' => match l' with [] => True | u :: _ => follows t u end /\ history l'
  end.

(* States contracts run in: the initial one, and from there entering a frame,
   running any program, or starting to authenticate an entry. *)
Inductive reachable (c : sconf) (entries : list entry_) : astate -> Prop :=
| reach_start sto : run_ok c sto -> alive (sc_li c) (contents c sto) -> reachable c entries (new_enforcing sto entries)
| reach_enter st f : reachable c entries st -> reachable c entries (push_frame f st)
| reach_run st p st' r t : reachable c entries st -> exec c st p = (st', r, t) -> reachable c entries st'
| reach_auth st i : reachable c entries st -> reachable c entries (set_busy_at st i true).
(* a pre-authorization made in the running frame, for its next call *)
Definition pending (v : invk) : bool := match tk_ms (iv_trk v) with [] => true | _ => false end.
Definition without_pending (st : astate) : astate := with_inv st (filter (fun v => negb (pending v)) (as_inv st)).

(* ---------------------------------------------------------------- answers *)

(* What a require_auth is answered: authorized by whom, or refused. *)
Inductive answer := ByInvoker | ByPre (j : nat) (p : path) | ByEntry (i : nat) (p : path) | Refused.
Definition answer_of (x : atree) : option (addr * afn * answer) :=
  match x with
  | TReq a f MInvoker => Some (a, f, ByInvoker)
  | TReq a f (MPre j p) => Some (a, f, ByPre j p)
  | TReq a f (MEntry i p) | TFirst a f i p _ _ => Some (a, f, ByEntry i p)
  | TNo a f => Some (a, f, Refused)
  | _ => None
  end.
Definition right_answer (entries : list entry_) (s : sstate) (a : addr) (f : afn) (w : answer) : Prop :=
  match w with
  | ByInvoker => direct_invoker s = Some a
  | ByPre j p => pre_may s a f j p /\ pre_first s a f j p
  | ByEntry i p => entry_may entries s a f i p /\ entry_first entries s a f i p
  | Refused => unauthorized entries s a f
  end.
(* the answers in a record, in order *)
Definition answers (t : list atree) : list (addr * afn * answer) :=
  flat_map (fun x => match answer_of x with Some y => [y] | None => [] end) (flat_map everything t).

(* A program making the calls of a tree: each asks for the authorization of a,
   then makes the calls below it, in order. *)
Fixpoint act (a : addr) (sig : nat -> res unit) (check : nat -> aprog) (t : ftree) (k : aprog) : aprog :=
  let 'FT f subs := t in
  let body args := ARequire a args sig check (fold_right (act a sig check) (ARet (Ok tt)) subs) in
  match f with
  | FnContract id fn args => ACall id fn false (body args) (fun r => match r with Ok _ => k | Err e => ARet (Err e) end)
  | FnCreate pre ex args => ACreate pre ex args (body []) k
  end.
(* the nodes of a tree, each with its path *)
Fixpoint nodes (t : ftree) (p : path) : list (path * afn) :=
  let 'FT f subs := t in
  (p, f) :: (fix go n l := match l with [] => [] | x :: l' => nodes x (p ++ [n]) ++ go (S n) l' end) O subs.
