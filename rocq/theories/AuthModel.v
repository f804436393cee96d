(* The authorization manager in enforcing mode (auth.rs), together with the parts
   of calls it depends on: frames and their rollback (host/frame.rs:233-289,
   466-641), the manual frame of contract creation (host/lifecycle.rs:183-220)
   and the storage that holds nonces.

   A contract execution is a program [aprog]: the call tree it makes, with the
   calls to require_auth, authorize_as_curr_contract and storage in it.  The
   bodies of calls are part of the program, and so are the bodies of the
   `__check_auth` functions a require_auth may run (one for each entry), so a
   program is any behaviour of the contracts involved; what a contract observes
   of authorizations is only which of its try_calls failed.

   Simplifications.  Budget, events and values are omitted.  Addresses, function
   names and arguments are the XDR values they denote, so host comparison being
   Equal (C04) is equality here.  The signature checks of classic accounts
   (MultisigModel) answer from the program.  Delegated signers
   (auth.rs:1015-1110, 2093-2319) are in DelegModel: here a `__check_auth` that
   delegates is a body that calls other `__check_auth`s.  RefCell borrows are the
   flag [ac_busy]: an entry is borrowed while it is being authenticated.  The limits
   on call depth and on reentry (FrameModel) are left out, so there are more
   executions here than in the host. *)
From Coq Require Import ZArith Lia List Bool.
From Verif Require Import Prelude ValModel ContainerModel HeapModel AMap StorageModel FrameModel.
Import ListNotations.
Open Scope Z_scope.

(* ---------------------------------------------------------------- functions *)

(* auth.rs:662-676; V1 creations are V2 creations without arguments (776-788) *)
Inductive afn :=
| FnContract (id fn : list Z) (args : list scval)
| FnCreate (pre : preimage) (ex : executable) (args : list scval).
(* auth.rs:647-660 *)
Inductive aframe :=
| FrContract (id fn : list Z)
| FrCreate (pre : preimage) (ex : executable) (args : list scval).
(* auth.rs:745-764 *)
Definition to_fn (f : aframe) (args : list scval) : afn :=
  match f with
  | FrContract id fn => FnContract id fn args
  | FrCreate pre ex cargs => FnCreate pre ex cargs
  end.
Definition preimage_eq_dec (a b : preimage) : {a = b} + {a <> b}.
Proof. decide equality; auto using zlist_eq_dec, addr_eq_dec. Defined.
(* auth.rs:697-743 *)
Definition afn_eq_dec (a b : afn) : {a = b} + {a <> b}.
Proof. decide equality; auto using zlist_eq_dec, preimage_eq_dec, exe_eq_dec, list_eq_dec, scval_eq_dec. Defined.

(* A tree of authorized invocations as signed, and with the flags of the host
   (auth.rs:678-689). *)
Inductive ftree := FT (f : afn) (subs : list ftree).
Inductive node := Node (f : afn) (used : bool) (subs : list node).
Definition n_fn (n : node) : afn := let 'Node f _ _ := n in f.
Definition n_used (n : node) : bool := let 'Node _ u _ := n in u.
Definition n_subs (n : node) : list node := let 'Node _ _ l := n in l.
(* auth.rs:816-835, 838-847 *)
Fixpoint fresh (t : ftree) : node := let 'FT f l := t in Node f false (map fresh l).

(* auth.rs:691-695, 903-915 *)
Inductive snap := Snap (used : bool) (subs : list snap).
Fixpoint snapshot_node (n : node) : snap := let 'Node _ u l := n in Snap u (map snapshot_node l).
(* auth.rs:918-931; None: (Auth, InternalError) *)
Fixpoint rollback_node (n : node) (s : snap) {struct n} : option node :=
  let 'Node f _ l := n in
  let 'Snap u sl := s in
  match (fix zip (l : list node) (sl : list snap) : option (list node) :=
           match l, sl with
           | [], [] => Some []
           | x :: l', y :: sl' =>
               match rollback_node x y, zip l' sl' with
               | Some x', Some r => Some (x' :: r)
               | _, _ => None
               end
           | _, _ => None
           end) l sl with
  | Some l' => Some (Node f u l')
  | None => None
  end.

(* sets the flag of the node at a path *)
Fixpoint mark (n : node) (p : list nat) : node :=
  let 'Node f u l := n in
  match p with
  | [] => Node f true l
  | i :: p' => Node f u ((fix at_ (l : list node) (i : nat) : list node :=
                            match l, i with
                            | [], _ => []
                            | x :: l', O => mark x p' :: l'
                            | x :: l', S i' => x :: at_ l' i'
                            end) l i)
  end.

(* ---------------------------------------------------------------- trackers *)

(* auth.rs:374-384 *)
Inductive mstate := Unmatched | RootMatch | SubMatch (index : nat).
Definition is_matched (m : mstate) : bool := match m with Unmatched => false | _ => true end.

(* auth.rs:428-455; the match stack is kept innermost first *)
Record tracker := {
  tk_root : node;
  tk_ms : list mstate;
  tk_rxf : option nat;       (* root_exhausted_frame *)
  tk_done : bool             (* is_fully_processed *)
}.
Definition e_auth_internal : err := ESys TAuth CInternalError.
Definition e_auth_input : err := ESys TAuth CInvalidInput.

(* auth.rs:1868-1890 *)
Definition new_tracker (t : ftree) : tracker :=
  {| tk_root := fresh t; tk_ms := []; tk_rxf := None; tk_done := false |}.
(* auth.rs:1928-1932 *)
Definition trk_push (t : tracker) : tracker :=
  {| tk_root := tk_root t; tk_ms := Unmatched :: tk_ms t; tk_rxf := tk_rxf t; tk_done := tk_done t |}.
(* auth.rs:1935-1942 *)
Definition trk_pop (t : tracker) : tracker :=
  let ms := tl (tk_ms t) in
  {| tk_root := tk_root t; tk_ms := ms; tk_rxf := tk_rxf t;
     tk_done := match tk_rxf t with Some i => if Nat.leb (length ms) i then true else tk_done t | None => tk_done t end |}.
(* auth.rs:1950-1952 *)
Definition is_active (t : tracker) : bool := n_used (tk_root t) && negb (tk_done t).
(* auth.rs:1955-1960 *)
Definition frame_matched (t : tracker) : bool := match tk_ms t with m :: _ => is_matched m | [] => false end.

(* auth.rs:872-900, 1907-1925, on the stack outermost first: the path of the last
   matched node, and the node *)
Fixpoint descend (n : node) (l : list mstate) : res (node * list nat) :=
  match l with
  | [] => Ok (n, [])
  | Unmatched :: l' => descend n l'
  | RootMatch :: _ => Err e_auth_internal
  | SubMatch i :: l' =>
      match nth_error (n_subs n) i with
      | None => Err e_auth_internal
      | Some s => match descend s l' with Ok (x, p) => Ok (x, i :: p) | Err e => Err e end
      end
  end.
Fixpoint last_authorized (root : node) (l : list mstate) : res (option (node * list nat)) :=
  match l with
  | [] => Ok None
  | Unmatched :: l' => last_authorized root l'
  | SubMatch _ :: _ => Err e_auth_internal
  | RootMatch :: l' => match descend root l' with Ok x => Ok (Some x) | Err e => Err e end
  end.
Fixpoint find_sub (l : list node) (f : afn) (i : nat) : option nat :=
  match l with
  | [] => None
  | x :: l' => if negb (n_used x) && (if afn_eq_dec (n_fn x) f then true else false) then Some i else find_sub l' f (S i)
  end.

(* auth.rs:1972-2023; the path of the node that was matched is for the
   specification *)
Definition maybe_extend (t : tracker) (f : afn) (allow_root : bool) : res (option (tracker * list nat)) :=
  match tk_ms t with
  | [] => Err e_auth_internal
  | m :: rest =>
      if is_matched m then Ok None
      else
        match last_authorized (tk_root t) (rev (tk_ms t)) with
        | Err e => Err e
        | Ok (Some (n, p)) =>
            match find_sub (n_subs n) f 0 with
            | None => Ok None
            | Some i => Ok (Some ({| tk_root := mark (tk_root t) (p ++ [i]); tk_ms := SubMatch i :: rest;
                                     tk_rxf := tk_rxf t; tk_done := tk_done t |}, p ++ [i]))
            end
        | Ok None =>
            if negb (n_used (tk_root t)) && allow_root && (if afn_eq_dec (n_fn (tk_root t)) f then true else false)
            then Ok (Some ({| tk_root := mark (tk_root t) []; tk_ms := RootMatch :: rest;
                              tk_rxf := Some (length rest); tk_done := tk_done t |}, []))
            else Ok None
        end
  end.

(* auth.rs:2074-2089 *)
Definition trk_rollback (t : tracker) (s : snap) : option tracker :=
  match rollback_node (tk_root t) s with
  | None => None
  | Some r =>
      Some (if n_used r then {| tk_root := r; tk_ms := tk_ms t; tk_rxf := tk_rxf t; tk_done := tk_done t |}
            else {| tk_root := r; tk_ms := tk_ms t; tk_rxf := None; tk_done := false |})
  end.

(* ---------------------------------------------------------------- the manager *)

(* auth.rs:617-638; [ac_cred]: nonce and expiration ledger, None for the
   transaction source account *)
Record acct := {
  ac_addr : addr;
  ac_cred : option (Z * Z);
  ac_trk : tracker;
  ac_verified : bool;
  ac_busy : bool
}.
Definition set_trk (a : acct) (t : tracker) : acct :=
  {| ac_addr := ac_addr a; ac_cred := ac_cred a; ac_trk := t; ac_verified := ac_verified a; ac_busy := ac_busy a |}.
Definition set_busy (a : acct) (b : bool) : acct :=
  {| ac_addr := ac_addr a; ac_cred := ac_cred a; ac_trk := ac_trk a; ac_verified := ac_verified a; ac_busy := b |}.
Definition set_verified (a : acct) (b : bool) : acct :=
  {| ac_addr := ac_addr a; ac_cred := ac_cred a; ac_trk := ac_trk a; ac_verified := b; ac_busy := ac_busy a |}.
(* auth.rs:646-650 *)
Record invk := { iv_by : addr; iv_trk : tracker }.

(* auth.rs:201-224 and the storage *)
Record astate := {
  as_store : storage;
  as_stack : list aframe;      (* innermost first *)
  as_acc : list acct;
  as_inv : list invk
}.
Definition with_acc (st : astate) (l : list acct) : astate :=
  {| as_store := as_store st; as_stack := as_stack st; as_acc := l; as_inv := as_inv st |}.
Definition with_inv (st : astate) (l : list invk) : astate :=
  {| as_store := as_store st; as_stack := as_stack st; as_acc := as_acc st; as_inv := l |}.
Definition with_store (st : astate) (s : storage) : astate :=
  {| as_store := s; as_stack := as_stack st; as_acc := as_acc st; as_inv := as_inv st |}.

(* An authorization entry. *)
Record entry_ := { en_addr : addr; en_cred : option (Z * Z); en_tree : ftree }.
(* auth.rs:945-965, 2348-2410 *)
Definition new_acct (e : entry_) : acct :=
  {| ac_addr := en_addr e; ac_cred := en_cred e; ac_trk := new_tracker (en_tree e); ac_verified := false; ac_busy := false |}.
Definition new_enforcing (s : storage) (l : list entry_) : astate :=
  {| as_store := s; as_stack := []; as_acc := map new_acct l; as_inv := [] |}.

Definition set_nth_acc (l : list acct) (i : nat) (a : acct) : list acct :=
  (fix at_ (l : list acct) (i : nat) :=
     match l, i with
     | [], _ => []
     | _ :: l', O => a :: l'
     | x :: l', S i' => x :: at_ l' i'
     end) l i.
Definition set_nth_inv (l : list invk) (i : nat) (a : invk) : list invk :=
  (fix at_ (l : list invk) (i : nat) :=
     match l, i with
     | [], _ => []
     | _ :: l', O => a :: l'
     | x :: l', S i' => x :: at_ l' i'
     end) l i.

(* auth.rs:1598-1661 *)
Definition push_acct (a : acct) : acct := if ac_busy a then a else set_trk a (trk_push (ac_trk a)).
Definition pop_acct (a : acct) : acct := if ac_busy a then a else set_trk a (trk_pop (ac_trk a)).
Definition push_inv (v : invk) : invk := {| iv_by := iv_by v; iv_trk := trk_push (iv_trk v) |}.
Definition pop_inv (v : invk) : invk := {| iv_by := iv_by v; iv_trk := trk_pop (iv_trk v) |}.
Definition push_frame (f : aframe) (st : astate) : astate :=
  {| as_store := as_store st; as_stack := f :: as_stack st;
     as_acc := map push_acct (as_acc st); as_inv := map push_inv (as_inv st) |}.

(* auth.rs:1699-1722: trailing trackers with an empty match stack *)
Fixpoint drop_scoped (l : list invk) : list invk :=
  match l with
  | [] => []
  | v :: l' =>
      match drop_scoped l' with
      | [] => match tk_ms (iv_trk v) with [] => [] | _ => [v] end
      | r => v :: r
      end
  end.
(* auth.rs:1681-1724 *)
Definition pop_frame (st : astate) : astate :=
  match as_stack st with
  | [] => st
  | _ :: rest =>
      {| as_store := as_store st; as_stack := rest;
         as_acc := map pop_acct (as_acc st); as_inv := drop_scoped (map pop_inv (as_inv st)) |}
  end.

(* auth.rs:2836-2896 *)
Definition acct_snap : Type := snap * bool.
Definition snapshot_acct (a : acct) : option acct_snap :=
  if ac_busy a then None else Some (snapshot_node (tk_root (ac_trk a)), ac_verified a).
Definition rollback_acct (a : acct) (s : option acct_snap) : option acct :=
  match s with
  | None => Some a
  | Some (n, v) =>
      if ac_busy a then None
      else match trk_rollback (ac_trk a) n with
           | Some t => Some (set_verified (set_trk a t) v)
           | None => None
           end
  end.
Fixpoint rollback_accts (l : list acct) (s : list (option acct_snap)) : option (list acct) :=
  match l, s with
  | [], [] => Some []
  | a :: l', x :: s' =>
      match rollback_acct a x, rollback_accts l' s' with
      | Some a', Some r => Some (a' :: r)
      | _, _ => None
      end
  | _, _ => None
  end.
Fixpoint rollback_invs (l : list invk) (s : list snap) : option (list invk) :=
  match l, s with
  | _, [] => Some []          (* truncated *)
  | [], _ :: _ => None
  | v :: l', x :: s' =>
      match trk_rollback (iv_trk v) x, rollback_invs l' s' with
      | Some t, Some r => Some ({| iv_by := iv_by v; iv_trk := t |} :: r)
      | _, _ => None
      end
  end.
(* auth.rs:1460-1511 *)
Record asnap := { sn_acc : list (option acct_snap); sn_inv : list snap }.
Definition take_snapshot (st : astate) : asnap :=
  {| sn_acc := map snapshot_acct (as_acc st);
     sn_inv := map (fun v => snapshot_node (tk_root (iv_trk v))) (as_inv st) |}.
(* auth.rs:1515-1595 *)
Definition rollback (st : astate) (s : asnap) : option astate :=
  match rollback_accts (as_acc st) (sn_acc s), rollback_invs (as_inv st) (sn_inv s) with
  | Some a, Some i => Some {| as_store := as_store st; as_stack := as_stack st; as_acc := a; as_inv := i |}
  | _, _ => None
  end.

(* ---------------------------------------------------------------- programs *)

(* Storage a contract can change. *)
Inductive aop :=
| SHop (h : hop)                                     (* contract data and TTLs *)
| SClassic (op : sop)                                (* accounts and trustlines *)
| SInst (ex : option executable) (st : option imap)  (* instance storage, upgrades *)
| SUpload (hash code : list Z)
| SCreated (id : list Z) (ex : executable).          (* create_contract *)

Inductive aprog :=
| ARet (r : res unit)                                 (* the frame ends *)
| ACall (id fn : list Z) (try : bool) (body : aprog) (k : res unit -> aprog)
| ACreate (pre : preimage) (ex : executable) (args : list scval) (body : aprog) (k : aprog)
| ARequire (a : addr) (args : list scval) (sig : nat -> res unit) (check : nat -> aprog) (k : aprog)
| AAuthorize (ts : list ftree) (k : aprog)            (* authorize_as_curr_contract *)
| AStore (o : aop) (k : res sout -> aprog).

(* How a require_auth was satisfied: the direct invoker, or a node of the n-th
   pre-authorization in scope or of the n-th entry. *)
Inductive means := MInvoker | MPre (j : nat) (path : list nat) | MEntry (i : nat) (path : list nat).
(* How authenticating an entry ended. *)
Inductive aout := AuthOk | AuthFailed (e : err) | NonceFailed (e : err).
(* What happened, for the specification. *)
Inductive atree :=
| TReq (a : addr) (f : afn) (m : means)               (* satisfied; an entry was authenticated before *)
| TFirst (a : addr) (f : afn) (i : nat) (path : list nat) (o : aout) (l : list atree)
                                                      (* the same for a new entry i, authenticated in l *)
| TNo (a : addr) (f : afn)                            (* refused *)
| TPre (by_ : addr) (ts : list ftree)
| TCall (id fn : list Z) (r : res unit) (l : list atree)
| TCreate (pre : preimage) (ex : executable) (args : list scval) (l : list atree).

Section Exec.
  Variable c : sconf.
  Let li := sc_li c.

  Definition run_store (st : astate) (p : prog) : astate * res sout :=
    let '(s, r, _) := srun c (as_store st) p in (with_store st s, r).

  (* auth.rs:1164-1224 *)
  Definition cur_contract (st : astate) : option addr :=
    match as_stack st with FrContract id _ :: _ => Some (AContract id) | _ => None end.
  Definition is_addr (o : option addr) (a : addr) : bool :=
    match o with Some x => if addr_eq_dec x a then true else false | None => false end.
  Fixpoint try_invokers (cur : option addr) (l : list invk) (a : addr) (f : afn) (j : nat) : res (option (nat * invk * list nat)) :=
    match l with
    | [] => Ok None
    | v :: l' =>
        if is_addr cur (iv_by v) then try_invokers cur l' a f (S j)
        else if addr_eq_dec (iv_by v) a then
          match maybe_extend (iv_trk v) f true with
          | Err e => Err e
          | Ok (Some (t, p)) => Ok (Some (j, {| iv_by := iv_by v; iv_trk := t |}, p))
          | Ok None => try_invokers cur l' a f (S j)
          end
        else try_invokers cur l' a f (S j)
    end.
  Definition check_invoker (st : astate) (a : addr) (f : afn) : res (option (astate * means)) :=
    match as_stack st with
    | _ :: g :: _ =>
        if match g with FrContract id _ => if addr_eq_dec (AContract id) a then true else false | FrCreate _ _ _ => false end
        then Ok (Some (st, MInvoker))
        else
          match try_invokers (cur_contract st) (as_inv st) a f 0 with
          | Err e => Err e
          | Ok None => Ok None
          | Ok (Some (j, v, p)) => Ok (Some (with_inv st (set_nth_inv (as_inv st) j v), MPre j p))
          end
    | _ => Ok None
    end.

  (* auth.rs:1227-1295 *)
  Definition has_active (l : list acct) (a : addr) : bool :=
    existsb (fun x => negb (ac_busy x) && (if addr_eq_dec (ac_addr x) a then true else false)
                      && is_active (ac_trk x) && negb (frame_matched (ac_trk x))) l.
  Fixpoint try_accounts (l : list acct) (a : addr) (f : afn) (allow : bool) (i : nat) : res (option (nat * acct * list nat)) :=
    match l with
    | [] => Ok None
    | x :: l' =>
        if ac_busy x then try_accounts l' a f allow (S i)
        else if addr_eq_dec (ac_addr x) a then
          match maybe_extend (ac_trk x) f allow with
          | Err e => Err e
          | Ok (Some (t, p)) => Ok (Some (i, set_trk x t, p))
          | Ok None => try_accounts l' a f allow (S i)
          end
        else try_accounts l' a f allow (S i)
    end.

  (* auth.rs:2586-2626 *)
  Definition consume (st : astate) (a : addr) (cred : option (Z * Z)) : astate * res unit :=
    match cred with
    | None => (st, Ok tt)
    | Some (nonce, live) =>
        if li_seq li >? live then (st, Err e_auth_input)
        else match get_max_live_until li with
             | Err e => (st, Err e)
             | Ok mx =>
                 if live >? mx then (st, Err e_auth_input)
                 else let '(st1, r) := run_store st (consume_nonce li a nonce live) in (st1, rmap (fun _ => tt) r)
             end
    end.

  (* frame.rs:233-289, 466-641 *)
  Definition with_aframe (id fn : list Z) (body : astate -> astate * res unit * list atree) (st : astate)
    : astate * res unit * list atree :=
    let st1 := push_frame (FrContract id fn) st in
    let sn := take_snapshot st1 in
    let '(st2, r, t) := body st1 in
    match r with
    | Ok _ => (pop_frame st2, r, [TCall id fn r t])
    | Err e =>
        let st3 := with_store st2 (set_map (as_store st2) (st_map (as_store st))) in
        match rollback st3 sn with
        | Some st4 => (pop_frame st4, r, [TCall id fn r t])
        | None => (st3, Err e_auth_internal, [TCall id fn r t])
        end
    end.

  (* the RefCell of entry i is borrowed or returned *)
  Definition set_busy_at (st : astate) (i : nat) (b : bool) : astate :=
    match nth_error (as_acc st) i with
    | Some y => with_acc st (set_nth_acc (as_acc st) i (set_busy y b))
    | None => st
    end.
  (* auth.rs:2474-2520 after the match, 2665-2720: authenticate entry i *)
  Definition authenticate (st : astate) (i : nat) (x : acct) (sig : res unit)
    (check : astate -> astate * res unit * list atree) : astate * aout * list atree :=
    let '(st1, r, t) :=
      match ac_cred x with
      | None => (st, Ok tt, [])
      | Some _ =>
          let stb := set_busy_at st i true in
          let '(st1, r, t) :=
            match ac_addr x with
            | AAccount _ => (stb, sig, [])
            | AContract id => with_aframe id s_check_auth check stb
            | _ => (stb, Err (ESys TObject CInternalError), [])
            end in
          (set_busy_at st1 i false, r, t)
      end in
    match r with
    | Err e => (st1, AuthFailed e, t)
    | Ok _ =>
        let '(st2, r2) := consume st1 (ac_addr x) (ac_cred x) in
        match r2 with
        | Err e => (st2, NonceFailed e, t)
        | Ok _ =>
            match nth_error (as_acc st2) i with
            | Some y => (with_acc st2 (set_nth_acc (as_acc st2) i (set_verified y true)), AuthOk, t)
            | None => (st2, AuthFailed e_auth_internal, t)
            end
        end
    end.
  (* auth.rs:2497-2517: why authentication failed is not exposed *)
  Definition auth_result (o : aout) : res unit :=
    match o with
    | AuthOk => Ok tt
    | AuthFailed e => Err (if recoverable e then e_auth_action else e)
    | NonceFailed e => Err e
    end.

  (* auth.rs:1118-1139, 1437-1456 *)
  Definition require (st : astate) (a : addr) (args : list scval) (sig : nat -> res unit)
    (check : nat -> astate -> astate * res unit * list atree) : astate * res unit * list atree :=
    match as_stack st with
    | [] => (st, Err e_auth_internal, [])
    | fr :: _ =>
        let f := to_fn fr args in
        match check_invoker st a f with
        | Err e => (st, Err e, [TNo a f])
        | Ok (Some (st1, m)) => (st1, Ok tt, [TReq a f m])
        | Ok None =>
            match try_accounts (as_acc st) a f (negb (has_active (as_acc st) a)) 0 with
            | Err e => (st, Err e, [TNo a f])
            | Ok None => (st, Err e_auth_action, [TNo a f])
            | Ok (Some (i, x, p)) =>
                let st1 := with_acc st (set_nth_acc (as_acc st) i x) in
                if ac_verified x then (st1, Ok tt, [TReq a f (MEntry i p)])
                else
                  let '(st2, o, t) := authenticate st1 i x (sig i) (check i) in
                  (st2, auth_result o, [TFirst a f i p o t])
            end
        end
    end.

  (* what a storage host function runs for the contract on top *)
  Definition aop_prog (st : astate) (o : aop) : option prog :=
    match o with
    | SClassic op => if classic_op op then Some (PDo op PRet) else None
    | SUpload hash code => Some (upload_code li hash code)
    | SCreated id ex => Some (create_with_id li id ex)
    | SHop h =>
        match as_stack st with
        | FrContract id _ :: _ => if hop_key_ok h then Some (hop_prog li (AContract id) h) else None
        | _ => None
        end
    | SInst ex s =>
        match as_stack st with
        | FrContract id _ :: _ => Some (store_instance li id ex s)
        | _ => None
        end
    end.

  Fixpoint exec (st : astate) (p : aprog) {struct p} : astate * res unit * list atree :=
    match p with
    | ARet r => (st, r, [])
    | ACall id fn try body k =>
        let '(st1, r, t) := with_aframe id fn (fun s => exec s body) st in
        match r with
        | Ok _ => let '(st2, r2, t2) := exec st1 (k (Ok tt)) in (st2, r2, t ++ t2)
        | Err e =>
            if try && recoverable e
            then let '(st2, r2, t2) := exec st1 (k (Err e)) in (st2, r2, t ++ t2)
            else (st1, Err e, t)
        end
    | ACreate pre ex args body k =>
        (* lifecycle.rs:183-206 *)
        let '(st1, r, t) := exec (push_frame (FrCreate pre ex args) st) body in
        let st2 := pop_frame st1 in
        let t1 := [TCreate pre ex args t] in
        match r with
        | Err e => (st2, Err e, t1)
        | Ok _ => let '(st3, r3, t3) := exec st2 k in (st3, r3, t1 ++ t3)
        end
    | ARequire a args sig check k =>
        let '(st1, r, t) := require st a args sig (fun i s => exec s (check i)) in
        match r with
        | Err e => (st1, Err e, t)
        | Ok _ => let '(st2, r2, t2) := exec st1 k in (st2, r2, t ++ t2)
        end
    | AAuthorize ts k =>
        (* auth.rs:1142-1161, 2909-2926 *)
        match cur_contract st with
        | None => (st, Err e_ctx_internal, [])
        | Some a =>
            let st1 := with_inv st (as_inv st ++ map (fun t => {| iv_by := a; iv_trk := new_tracker t |}) ts) in
            let '(st2, r2, t2) := exec st1 k in (st2, r2, TPre a ts :: t2)
        end
    | AStore o k =>
        match aop_prog st o with
        | None => (st, Err e_ctx_internal, [])
        | Some q =>
            let '(st1, r) := run_store st q in
            match r with
            | Err e => (st1, Err e, [])
            | Ok _ => let '(st2, r2, t2) := exec st1 (k r) in (st2, r2, t2)
            end
        end
    end.

  (* A transaction: the host function frame around the program (frame.rs:1198-1256;
     host function frames only take a snapshot, auth.rs:1645). *)
  Definition transaction (st : astate) (p : aprog) : astate * res unit * list atree :=
    let sn := take_snapshot st in
    let '(st1, r, t) := exec st p in
    match r with
    | Ok _ => (pop_frame st1, r, t)
    | Err e =>
        let st2 := with_store st1 (set_map (as_store st1) (st_map (as_store st))) in
        match rollback st2 sn with
        | Some st3 => (pop_frame st3, r, t)
        | None => (st2, Err e_auth_internal, t)
        end
    end.
End Exec.
