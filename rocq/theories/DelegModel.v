(* Delegated account authentication (auth.rs:455-610, 1000-1110, 2092-2341, 2666-2717,
   2836-2897; host.rs:3554-3573; host/frame.rs:1353-1390).

   The program of a transaction is the part of its call tree that matters here: calls of
   ordinary functions, require_auths that use one of the transaction's entries, and, in
   `__check_auth`s, calls of delegate_account_auth and of
   get_delegated_signers_for_current_auth_check.  The bodies of the `__check_auth`s that
   run are part of the program, so contracts may behave in any way.

   Simplifications.  Which entry a require_auth uses is the program's choice (AuthModel
   has the matching); so is the outcome of the nonce check that follows authentication.
   The check of classic signatures (MultisigModel) is a parameter.  RefCell borrows are
   the flag [tk_busy]: an entry is borrowed while it is being authenticated.  Reserved
   function names cannot be called directly (C26), so ordinary calls are not of
   `__check_auth`.  The depth limit on nested delegates and budgets are left out, and so are
   test contracts. *)
From Coq Require Import ZArith List Bool.
From Verif Require Import Prelude HeapModel FrameModel.
Import ListNotations.
Open Scope Z_scope.

Definition e_deleg_input : err := ESys TAuth CInvalidInput.
Definition e_deleg_internal : err := ESys TAuth CInternalError.
Definition e_deleg_action : err := ESys TAuth CInvalidAction.
Definition e_deleg_frame : err := ESys TContext CInvalidAction.
Definition e_deleg_object : err := ESys TObject CInternalError.

(* XDR SorobanDelegateSignature *)
Inductive dtree := DT (a : addr) (sig : scval) (subs : list dtree).
(* auth.rs:469-483; the root is the list of its delegates *)
Inductive dnode := DN (a : addr) (sig : scval) (used : bool) (subs : list dnode).

(* auth.rs:2099-2128: neighbours in order *)
Fixpoint ordered (l : list addr) : res unit :=
  match l with
  | a :: (b :: _) as l' => match addr_cmp a b with Lt => ordered l' | _ => Err e_deleg_input end
  | _ => Ok tt
  end.
Definition d_addr (t : dtree) : addr := let 'DT a _ _ := t in a.
(* auth.rs:2093-2149 *)
Fixpoint node_of (t : dtree) : res dnode :=
  let 'DT a sig subs := t in
  let? _ := ordered (map d_addr subs) in
  let? l := (fix all (l : list dtree) : res (list dnode) :=
               match l with [] => Ok [] | x :: l' => let? n := node_of x in let? r := all l' in Ok (n :: r) end) subs in
  Ok (DN a sig false l).
Fixpoint nodes_of (l : list dtree) : res (list dnode) :=
  match l with [] => Ok [] | x :: l' => let? n := node_of x in let? r := nodes_of l' in Ok (n :: r) end.
Definition root_of (l : list dtree) : res (list dnode) := let? _ := ordered (map d_addr l) in nodes_of l.

(* auth.rs:457-461, 2151-2174 *)
Inductive dsnap := DS (used : bool) (subs : list dsnap).
Fixpoint snap_node (n : dnode) : dsnap := let 'DN _ _ u l := n in DS u (map snap_node l).
(* auth.rs:2176-2200; None: (Auth, InternalError) *)
Fixpoint roll_node (n : dnode) (s : dsnap) {struct n} : option dnode :=
  let 'DN a sig _ l := n in
  let 'DS u sl := s in
  match (fix zip (l : list dnode) (sl : list dsnap) : option (list dnode) :=
           match l, sl with
           | [], [] => Some []
           | x :: l', y :: sl' => match roll_node x y, zip l' sl' with Some x', Some r => Some (x' :: r) | _, _ => None end
           | _, _ => None
           end) l sl with
  | Some l' => Some (DN a sig u l')
  | None => None
  end.
Fixpoint roll_nodes (l : list dnode) (sl : list dsnap) : option (list dnode) :=
  match l, sl with
  | [], [] => Some []
  | x :: l', y :: sl' => match roll_node x y, roll_nodes l' sl' with Some x', Some r => Some (x' :: r) | _, _ => None end
  | _, _ => None
  end.

(* ------------------------------------------------------------------ entries *)

(* the credentials of an entry (auth.rs:556-563); for those with delegates, the trees *)
Inductive dcred := DSource | DAddress | DDelegates (l : list dtree).
Record dentry := { de_addr : addr; de_cred : dcred; de_sig : scval; de_payload : list Z; de_ctx : scval }.

(* auth.rs:511-517, 615-640 *)
Record track := {
  tk_addr : addr; tk_source : bool; tk_sig : scval; tk_payload : list Z; tk_ctx : scval;
  tk_root : option (list dnode); tk_match : list nat; tk_verified : bool; tk_busy : bool
}.
Definition on_tree (t : track) (root : option (list dnode)) (m : list nat) : track :=
  {| tk_addr := tk_addr t; tk_source := tk_source t; tk_sig := tk_sig t; tk_payload := tk_payload t; tk_ctx := tk_ctx t;
     tk_root := root; tk_match := m; tk_verified := tk_verified t; tk_busy := tk_busy t |}.
Definition on_flags (t : track) (verified busy : bool) : track :=
  {| tk_addr := tk_addr t; tk_source := tk_source t; tk_sig := tk_sig t; tk_payload := tk_payload t; tk_ctx := tk_ctx t;
     tk_root := tk_root t; tk_match := tk_match t; tk_verified := verified; tk_busy := busy |}.
(* auth.rs:2345-2410 *)
Definition track_of (e : dentry) : res track :=
  let? root := match de_cred e with
               | DDelegates l => let? r := root_of l in Ok (Some r)
               | _ => Ok None
               end in
  Ok {| tk_addr := de_addr e; tk_source := match de_cred e with DSource => true | _ => false end;
        tk_sig := de_sig e; tk_payload := de_payload e; tk_ctx := de_ctx e;
        tk_root := root; tk_match := []; tk_verified := false; tk_busy := false |}.
Fixpoint tracks_of (l : list dentry) : res (list track) :=
  match l with [] => Ok [] | e :: l' => let? t := track_of e in let? r := tracks_of l' in Ok (t :: r) end.

(* auth.rs:1460-1479, 2836-2867: entries being authenticated are skipped *)
Record tsnap := { sn_root : option (list dsnap); sn_match : list nat; sn_verified : bool }.
Definition snap_track (t : track) : option tsnap :=
  if tk_busy t then None
  else Some {| sn_root := option_map (map snap_node) (tk_root t); sn_match := tk_match t; sn_verified := tk_verified t |}.
(* auth.rs:2870-2897 *)
Definition roll_track (t : track) (s : option tsnap) : option track :=
  match s with
  | None => Some t
  | Some s =>
      if tk_busy t then None                                 (* 1543-1552 *)
      else
        let t := on_flags t (sn_verified s) (tk_busy t) in
        match tk_root t, sn_root s with
        | Some l, Some sl => match roll_nodes l sl with Some l' => Some (on_tree t (Some l') (sn_match s)) | None => None end
        | _, _ => Some t
        end
  end.
(* auth.rs:1515-1558 *)
Fixpoint roll_tracks (l : list track) (sl : list (option tsnap)) : option (list track) :=
  match l, sl with
  | [], [] => Some []
  | x :: l', y :: sl' => match roll_track x y, roll_tracks l' sl' with Some x', Some r => Some (x' :: r) | _, _ => None end
  | _, _ => None
  end.

Fixpoint set_at {A} (l : list A) (n : nat) (x : A) : list A :=
  match l, n with
  | [], _ => []
  | _ :: l', O => x :: l'
  | y :: l', S n' => y :: set_at l' n' x
  end.

(* auth.rs:2251-2279: the delegate with the address, marked as used *)
Fixpoint use_child (l : list dnode) (a : addr) (i : nat) : res (list dnode * nat * scval) :=
  match l with
  | [] => Err e_deleg_input
  | DN x sig u subs :: l' =>
      match addr_cmp x a with
      | Eq => if u then Err e_deleg_input else Ok (DN x sig true subs :: l', i, sig)
      | _ => let? r := use_child l' a (S i) in let '(l2, n, g) := r in Ok (DN x sig u subs :: l2, n, g)
      end
  end.
(* auth.rs:2244-2319: below the node the match stack leads to *)
Fixpoint use_at (l : list dnode) (path : list nat) (a : addr) : res (list dnode * nat * scval) :=
  match path with
  | [] => use_child l a 0
  | n :: path' =>
      match nth_error l n with
      | None => Err e_deleg_internal
      | Some (DN x sig u subs) =>
          let? r := use_at subs path' a in
          let '(subs', i, g) := r in Ok (set_at l n (DN x sig u subs'), i, g)
      end
  end.
(* auth.rs:2323-2341 *)
Fixpoint signers_at (l : list dnode) (path : list nat) : res (list addr) :=
  match path with
  | [] => Ok (map (fun n => let 'DN a _ _ _ := n in a) l)
  | n :: path' => match nth_error l n with None => Err e_deleg_internal | Some (DN _ _ _ subs) => signers_at subs path' end
  end.

(* ----------------------------------------------------------------- programs *)

Inductive dprog :=
| DEnd
| DFail (e : err)
(* delegate_account_auth; if the address is a contract, what its `__check_auth` does *)
| DDelegate (a : addr) (body : dprog) (k : dprog)
| DSigners (k : list addr -> dprog)
(* an ordinary call, caught or not; what follows success and caught failure *)
| DCall (id : list Z) (try : bool) (body k kf : dprog)
(* a require_auth that uses entry [i] *)
| DRequire (i : nat) (body : dprog) (nonce : res unit) (k : dprog).

(* instrumentation: the checks made, in order; whether they are part of the outcome *)
Inductive dev :=
| EvEntry (i : nat) (a : addr) (payload : list Z) (sig ctx : scval)
| EvDelegate (i : nat) (path : list nat) (by_ a : addr) (payload : list Z) (sig ctx : scval).
Definition dtrace := list (bool * dev).
Definition dropped (t : dtrace) : dtrace := map (fun x => (false, snd x)) t.

(* auth.rs:518-533: the entry (an Rc of its tracker), the payload and the context *)
Record aframe := { af_entry : nat; af_payload : list Z; af_ctx : scval }.
Record dst := {
  d_frames : list (addr * bool);    (* innermost first: contract, and whether `__check_auth` runs *)
  d_auth : list aframe;             (* innermost first *)
  d_trk : list track
}.
Definition with_frames (s : dst) f := {| d_frames := f; d_auth := d_auth s; d_trk := d_trk s |}.
Definition with_auth (s : dst) f := {| d_frames := d_frames s; d_auth := f; d_trk := d_trk s |}.
Definition with_trk (s : dst) f := {| d_frames := d_frames s; d_auth := d_auth s; d_trk := f |}.
Definition on_track (s : dst) (i : nat) (t : track) : dst := with_trk s (set_at (d_trk s) i t).

Section Exec.
  (* check_account_authentication *)
  Variable acct : addr -> list Z -> scval -> res unit.

  (* host/frame.rs:466-641, auth.rs:1631-1700, for what is kept here *)
  Definition in_frame (f : addr * bool) (run : dst -> dst * res unit * dtrace) (s : dst) : dst * res unit * dtrace :=
    let snaps := map snap_track (d_trk s) in
    let '(s1, r, t) := run (with_frames s (f :: d_frames s)) in
    match r with
    | Ok _ => (with_frames s1 (tl (d_frames s1)), Ok tt, t)
    | Err e =>
        match roll_tracks (d_trk s1) snaps with
        | Some l => (with_frames (with_trk s1 l) (tl (d_frames s1)), Err e, t)
        | None => (with_frames s1 (tl (d_frames s1)), Err e_deleg_internal, t)
        end
    end.
  (* auth.rs:2666-2717 after the payload, 1050-1072 *)
  Definition check_addr (a : addr) (payload : list Z) (sig : scval) (run : dst -> dst * res unit * dtrace) (s : dst) : dst * res unit * dtrace :=
    match a with
    | AAccount _ => (s, acct a payload sig, [])
    | AContract _ => in_frame (a, true) run s
    | _ => (s, Err e_deleg_object, [])
    end.
  (* auth.rs:2495-2512 *)
  Definition decorate (r : res unit) : res unit :=
    match r with Ok _ => Ok tt | Err e => if recoverable e then Err e_deleg_action else Err e end.

  Fixpoint exec (p : dprog) (s : dst) {struct p} : dst * res unit * dtrace :=
    match p with
    | DEnd => (s, Ok tt, [])
    | DFail e => (s, Err e, [])
    | DDelegate a body k =>
        match d_frames s with
        | (me, true) :: _ =>
            match d_auth s with
            | [] => (s, Err e_deleg_internal, [])
            | fr :: _ =>
                match nth_error (d_trk s) (af_entry fr) with
                | None => (s, Err e_deleg_internal, [])
                | Some tr =>
                    match tk_root tr with
                    | None => (s, Err e_deleg_input, [])
                    | Some root =>
                        match use_at root (tk_match tr) a with
                        | Err e => (s, Err e, [])
                        | Ok (root', n, sig) =>
                            let path := tk_match tr ++ [n] in
                            let s1 := on_track s (af_entry fr) (on_tree tr (Some root') path) in
                            let ev := EvDelegate (af_entry fr) path me a (af_payload fr) sig (af_ctx fr) in
                            let '(s2, r, t) := check_addr a (af_payload fr) sig (exec body) s1 in
                            match r with
                            | Err e => (s2, Err e, (true, ev) :: t)
                            | Ok _ =>
                                match d_auth s2 with
                                | [] => (s2, Err e_deleg_internal, (true, ev) :: t)
                                | fr2 :: _ =>
                                    match nth_error (d_trk s2) (af_entry fr2) with
                                    | None => (s2, Err e_deleg_internal, (true, ev) :: t)
                                    | Some tr2 =>
                                        let s3 := on_track s2 (af_entry fr2) (on_tree tr2 (tk_root tr2) (removelast (tk_match tr2))) in
                                        let '(s4, r4, t4) := exec k s3 in
                                        (s4, r4, (true, ev) :: t ++ t4)
                                    end
                                end
                            end
                        end
                    end
                end
            end
        | _ => (s, Err e_deleg_frame, [])
        end
    | DSigners k =>
        match d_frames s with
        | (_, true) :: _ =>
            match d_auth s with
            | [] => (s, Err e_deleg_internal, [])
            | fr :: _ =>
                match nth_error (d_trk s) (af_entry fr) with
                | None => (s, Err e_deleg_internal, [])
                | Some tr =>
                    match match tk_root tr with None => Ok [] | Some root => signers_at root (tk_match tr) end with
                    | Err e => (s, Err e, [])
                    | Ok l => exec (k l) s
                    end
                end
            end
        | _ => (s, Err e_deleg_frame, [])
        end
    | DCall id try body k kf =>
        let '(s1, r, t) := in_frame (AContract id, false) (exec body) s in
        match r with
        | Ok _ => let '(s2, r2, t2) := exec k s1 in (s2, r2, t ++ t2)
        | Err e =>
            if try && recoverable e then let '(s2, r2, t2) := exec kf s1 in (s2, r2, dropped t ++ t2)
            else (s1, Err e, t)
        end
    | DRequire i body nonce k =>
        match nth_error (d_trk s) i with
        | None => (s, Err e_deleg_action, [])
        | Some tr =>
            if tk_busy tr then (s, Err e_deleg_action, [])
            else if tk_verified tr then exec k s
            else
              let '(s3, r3, t3) :=
                if tk_source tr then (on_track s i (on_flags tr false true), Ok tt, [])
                else
                  let s1 := on_track s i (on_flags tr false true) in
                  let fr := {| af_entry := i; af_payload := tk_payload tr; af_ctx := tk_ctx tr |} in
                  let s2 := with_auth s1 (fr :: d_auth s1) in
                  let '(s3, r, t) := check_addr (tk_addr tr) (tk_payload tr) (tk_sig tr) (exec body) s2 in
                  (with_auth s3 (tl (d_auth s3)), r, (true, EvEntry i (tk_addr tr) (tk_payload tr) (tk_sig tr) (tk_ctx tr)) :: t) in
              let r4 := match decorate r3 with Ok _ => nonce | Err e => Err e end in
              match nth_error (d_trk s3) i with
              | None => (s3, Err e_deleg_internal, t3)
              | Some tr3 =>
                  match r4 with
                  | Err e => (on_track s3 i (on_flags tr3 false false), Err e, t3)
                  | Ok _ => let '(s5, r5, t5) := exec k (on_track s3 i (on_flags tr3 true false)) in (s5, r5, t3 ++ t5)
                  end
              end
        end
    end.

  (* a transaction that calls contract [id] *)
  Definition transaction (entries : list dentry) (id : list Z) (p : dprog) : res unit * dtrace :=
    match tracks_of entries with
    | Err e => (Err e, [])
    | Ok l =>
        let '(_, r, t) := in_frame (AContract id, false) (exec p) {| d_frames := []; d_auth := []; d_trk := l |} in
        match r with Ok _ => (Ok tt, t) | Err e => (Err e, dropped t) end
    end.
End Exec.
