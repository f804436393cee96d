(* The authorization manager in recording mode (auth.rs), which finds out the
   authorizations a transaction needs: AuthModel's programs, frames and storage, with
   trackers that are made and extended by require_auth.

   Simplifications, besides those of AuthModel.  An address is named by the handle of
   its object; which handle the n-th require_auth gets its address by is a parameter
   [name].  The nonces come from a ChaCha20 generator that rollbacks do not touch: they
   are a parameter [nonces].  Emulated authentication (auth.rs:2725-2833) is reduced to
   its check of the kind of address: the entries it reads only add to the footprint. *)
From Coq Require Import ZArith Lia List Bool.
From Verif Require Import Prelude ValModel ContainerModel HeapModel AMap StorageModel FrameModel AuthModel.
Import ListNotations.
Open Scope Z_scope.

(* auth.rs:201-224, 320-332; [rc_by]: tracker_by_address_handle; the counters are of
   require_auths reaching the recording and of nonces drawn *)
Record rstate := {
  rc_st : astate;
  rc_by : list (Z * nat);
  rc_asks : nat;
  rc_drawn : nat
}.
Definition on_st (r : rstate) (st : astate) : rstate :=
  {| rc_st := st; rc_by := rc_by r; rc_asks := rc_asks r; rc_drawn := rc_drawn r |}.
Definition on_by (r : rstate) (by_ : list (Z * nat)) : rstate :=
  {| rc_st := rc_st r; rc_by := by_; rc_asks := rc_asks r; rc_drawn := rc_drawn r |}.

(* What happened, for the specification: how a require_auth was met. *)
Inductive rway := ByContract | Recorded (new : bool) | Refused.
Inductive rtree :=
| RAsk (a : addr) (f : afn) (w : rway)
| RPre (ts : list ftree)
| RCall (id fn : list Z) (r : res unit) (l : list rtree)
| RCreate (l : list rtree).

(* adds a last child to the node at a path *)
Fixpoint graft (n : node) (p : list nat) (x : node) : node :=
  let 'Node f u l := n in
  match p with
  | [] => Node f u (l ++ [x])
  | i :: p' => Node f u ((fix at_ (l : list node) (i : nat) : list node :=
                            match l, i with
                            | [], _ => []
                            | y :: l', O => graft y p' x :: l'
                            | y :: l', S i' => y :: at_ l' i'
                            end) l i)
  end.
(* auth.rs:2069-2071 *)
Definition in_stack (t : tracker) : bool := existsb is_matched (tk_ms t).
(* auth.rs:2031-2066, 838-849 *)
Definition record_in (t : tracker) (f : afn) : res tracker :=
  if frame_matched t then Err e_auth_exists
  else
    match last_authorized (tk_root t) (rev (tk_ms t)) with
    | Err e => Err e
    | Ok None => Err e_auth_internal
    | Ok (Some (n, p)) =>
        Ok {| tk_root := graft (tk_root t) p (Node f true []);
              tk_ms := SubMatch (length (n_subs n)) :: tl (tk_ms t);
              tk_rxf := tk_rxf t; tk_done := tk_done t |}
    end.
(* auth.rs:1888-1901; [len]: the length of the call stack *)
Definition new_rec_tracker (f : afn) (len : nat) : tracker :=
  {| tk_root := Node f true []; tk_ms := RootMatch :: repeat Unmatched (len - 1);
     tk_rxf := Some (len - 1)%nat; tk_done := false |}.

Section Rec.
  Variable c : sconf.
  Let li := sc_li c.
  Variable source : option addr.            (* the transaction source account *)
  Variable name : nat -> addr -> Z.
  Variable nonces : nat -> Z.
  Variable root_only : bool.                (* disable_non_root_auth *)

  (* auth.rs:1376-1397: the first active tracker of the address not used in this frame *)
  Fixpoint find_active (l : list acct) (a : addr) (i : nat) : option (nat * acct) :=
    match l with
    | [] => None
    | x :: l' =>
        if (if addr_eq_dec (ac_addr x) a then true else false) && in_stack (ac_trk x) && negb (frame_matched (ac_trk x))
        then Some (i, x) else find_active l' a (S i)
    end.
  Definition record_at (r : rstate) (i : nat) (x : acct) (f : afn) : rstate * res rway :=
    match record_in (ac_trk x) f with
    | Err e => (r, Err e)
    | Ok t => (on_st r (with_acc (rc_st r) (set_nth_acc (as_acc (rc_st r)) i (set_trk x t))), Ok (Recorded false))
    end.
  (* auth.rs:2412-2463, 1423-1434 *)
  Definition new_recording (r : rstate) (a : addr) (h : Z) (f : afn) : rstate * res rway :=
    let st := rc_st r in
    let len := length (as_stack st) in
    let add (r : rstate) (cred : option (Z * Z)) : rstate :=
      let st := rc_st r in
      {| rc_st := with_acc st (as_acc st ++ [{| ac_addr := a; ac_cred := cred; ac_trk := new_rec_tracker f len;
                                               ac_verified := true; ac_busy := false |}]);
         rc_by := aset Z.eq_dec (rc_by r) h (length (as_acc st)); rc_asks := rc_asks r; rc_drawn := rc_drawn r |} in
    if is_addr source a then (add r None, Ok (Recorded true))
    else
      let n := nonces (rc_drawn r) in
      let r1 := {| rc_st := st; rc_by := rc_by r; rc_asks := rc_asks r; rc_drawn := S (rc_drawn r) |} in
      match get_max_live_until li with
      | Err e => (r1, Err e)
      | Ok mx =>
          let '(st1, o) := run_store c st (consume_nonce li a n mx) in
          match o with
          | Err e => (on_st r1 st1, Err e)
          | Ok _ => (add (on_st r1 st1) (Some (n, 0)), Ok (Recorded true))
          end
      end.
  (* auth.rs:1374-1434: not by the handle *)
  Definition record_other (r : rstate) (a : addr) (h : Z) (f : afn) : rstate * res rway :=
    match find_active (as_acc (rc_st r)) a 0 with
    | Some (i, x) => record_at r i x f
    | None =>
        if root_only && negb (Nat.eqb (length (as_stack (rc_st r))) 1) then (r, Err e_auth_action)
        else new_recording r a h f
    end.
  (* auth.rs:1317-1435 *)
  Definition require_recording (r : rstate) (a : addr) (f : afn) : rstate * res rway :=
    let h := name (rc_asks r) a in
    let r := {| rc_st := rc_st r; rc_by := rc_by r; rc_asks := S (rc_asks r); rc_drawn := rc_drawn r |} in
    match aget Z.eq_dec (rc_by r) h with
    | None => record_other r a h f
    | Some i =>
        match nth_error (as_acc (rc_st r)) i with
        | None => (r, Err e_auth_internal)
        | Some x =>
            if in_stack (ac_trk x) then record_at r i x f
            else record_other (on_by r (adel Z.eq_dec (rc_by r) h)) a h f
        end
    end.
  (* auth.rs:1118-1139, 1437-1456 *)
  Definition rrequire (r : rstate) (a : addr) (args : list scval) : rstate * res unit * list rtree :=
    match as_stack (rc_st r) with
    | [] => (r, Err e_auth_internal, [])
    | fr :: _ =>
        let f := to_fn fr args in
        match check_invoker (rc_st r) a f with
        | Err e => (r, Err e, [RAsk a f Refused])
        | Ok (Some (st1, _)) => (on_st r st1, Ok tt, [RAsk a f ByContract])
        | Ok None =>
            let '(r1, o) := require_recording r a f in
            match o with
            | Err e => (r1, Err e, [RAsk a f Refused])
            | Ok w => (r1, Ok tt, [RAsk a f w])
            end
        end
    end.

  (* auth.rs:1460-1595 for recording: the trackers are kept and restored as a whole *)
  Definition rrollback (r : rstate) (st : storage) (acc : list acct) (by_ : list (Z * nat)) (inv : list snap) : option rstate :=
    match rollback_invs (as_inv (rc_st r)) inv with
    | None => None
    | Some v =>
        Some {| rc_st := {| as_store := set_map (as_store (rc_st r)) (st_map st); as_stack := as_stack (rc_st r);
                            as_acc := acc; as_inv := v |};
                rc_by := by_; rc_asks := rc_asks r; rc_drawn := rc_drawn r |}
    end.
  Definition rpush (f : aframe) (r : rstate) : rstate := on_st r (push_frame f (rc_st r)).
  Definition rpop (r : rstate) : rstate := on_st r (pop_frame (rc_st r)).
  (* frame.rs:233-289, 466-641 *)
  Definition with_rframe (id fn : list Z) (body : rstate -> rstate * res unit * list rtree) (r : rstate)
    : rstate * res unit * list rtree :=
    let r1 := rpush (FrContract id fn) r in
    let '(r2, o, t) := body r1 in
    match o with
    | Ok _ => (rpop r2, o, [RCall id fn o t])
    | Err e =>
        match rrollback r2 (as_store (rc_st r)) (as_acc (rc_st r1)) (rc_by r1) (sn_inv (take_snapshot (rc_st r1))) with
        | Some r3 => (rpop r3, o, [RCall id fn o t])
        | None => (r2, Err e_auth_internal, [RCall id fn o t])
        end
    end.

  Fixpoint rexec (r : rstate) (p : aprog) {struct p} : rstate * res unit * list rtree :=
    match p with
    | ARet o => (r, o, [])
    | ACall id fn try body k =>
        let '(r1, o, t) := with_rframe id fn (fun s => rexec s body) r in
        match o with
        | Ok _ => let '(r2, o2, t2) := rexec r1 (k (Ok tt)) in (r2, o2, t ++ t2)
        | Err e =>
            if try && recoverable e
            then let '(r2, o2, t2) := rexec r1 (k (Err e)) in (r2, o2, t ++ t2)
            else (r1, Err e, t)
        end
    | ACreate pre ex args body k =>
        let '(r1, o, t) := rexec (rpush (FrCreate pre ex args) r) body in
        let r2 := rpop r1 in
        match o with
        | Err e => (r2, Err e, [RCreate t])
        | Ok _ => let '(r3, o3, t3) := rexec r2 k in (r3, o3, RCreate t :: t3)
        end
    | ARequire a args _ _ k =>
        let '(r1, o, t) := rrequire r a args in
        match o with
        | Err e => (r1, Err e, t)
        | Ok _ => let '(r2, o2, t2) := rexec r1 k in (r2, o2, t ++ t2)
        end
    | AAuthorize ts k =>
        match cur_contract (rc_st r) with
        | None => (r, Err e_ctx_internal, [])
        | Some a =>
            let st := rc_st r in
            let r1 := on_st r (with_inv st (as_inv st ++ map (fun t => {| iv_by := a; iv_trk := new_tracker t |}) ts)) in
            let '(r2, o2, t2) := rexec r1 k in (r2, o2, RPre ts :: t2)
        end
    | AStore o k =>
        match aop_prog c (rc_st r) o with
        | None => (r, Err e_ctx_internal, [])
        | Some q =>
            let '(st1, x) := run_store c (rc_st r) q in
            match x with
            | Err e => (on_st r st1, Err e, [])
            | Ok _ => rexec (on_st r st1) (k x)
            end
        end
    end.

  (* auth.rs:1755-1769, 2725-2733, 2824-2831 *)
  Definition emulated (x : acct) : bool :=
    match ac_cred x with
    | None => true
    | Some _ => match ac_addr x with AAccount _ | AContract _ => true | _ => false end
    end.
  (* auth.rs:986-1000; the host function frame (frame.rs:1198-1256), whose failure
     discards the recording *)
  Definition new_recorder (s : storage) : rstate :=
    {| rc_st := {| as_store := s; as_stack := []; as_acc := []; as_inv := [] |}; rc_by := []; rc_asks := 0; rc_drawn := 0 |}.
  Definition rtransaction (s : storage) (p : aprog) : rstate * res unit * list rtree :=
    let '(r, o, t) := rexec (new_recorder s) p in
    match o with
    | Err e => (r, Err e, t)
    | Ok _ =>
        if forallb emulated (as_acc (rc_st r)) then (rpop r, Ok tt, t)
        else (r, Err (ESys TObject CInternalError), t)
    end.
End Rec.

(* auth.rs:2540-2556, 852-869: what is returned for signing; the address is left out for
   the source account, whose entry has no nonce *)
Fixpoint plain (n : node) : ftree := let 'Node f _ l := n in FT f (map plain l).
Record payload := { pl_addr : option addr; pl_nonce : option Z; pl_tree : ftree }.
Definition recorded_payload (x : acct) : payload :=
  {| pl_addr := match ac_cred x with Some _ => Some (ac_addr x) | None => None end;
     pl_nonce := option_map fst (ac_cred x);
     pl_tree := plain (tk_root (ac_trk x)) |}.
Definition recorded_payloads (r : rstate) : list payload := map recorded_payload (as_acc (rc_st r)).
