(* What delegated authentication means, without trackers, stacks and rollbacks: who is
   being authenticated is passed down, and what is used up is a list of signers. *)
From Coq Require Import ZArith List Bool.
From Verif Require Import Prelude HeapModel HeapSpec FrameModel DelegModel.
Import ListNotations.
Open Scope Z_scope.

(* A signer: the entry, and where it stands in the entry's tree ([] is the entry itself). *)
Notation signer := (nat * list nat)%type.
Definition signer_eq_dec (a b : signer) : {a = b} + {a <> b}.
Proof. decide equality; [apply (list_eq_dec PeanoNat.Nat.eq_dec)|apply PeanoNat.Nat.eq_dec]. Defined.
Definition addr_dec (a b : addr) : {a = b} + {a <> b}.
Proof. decide equality; try apply (list_eq_dec Z.eq_dec); apply Z.eq_dec. Defined.
Definition d_subs (t : dtree) : list dtree := let 'DT _ _ l := t in l.
Definition d_sig (t : dtree) : scval := let 'DT _ s _ := t in s.

(* The delegates listed directly below a position. *)
Fixpoint below (l : list dtree) (path : list nat) : option (list dtree) :=
  match path with
  | [] => Some l
  | n :: path' => match nth_error l n with Some t => below (d_subs t) path' | None => None end
  end.
(* The delegate at a position. *)
Definition delegate_at (l : list dtree) (path : list nat) (n : nat) : option dtree :=
  match below l path with Some c => nth_error c n | None => None end.

Definition delegates (e : dentry) : list dtree := match de_cred e with DDelegates l => l | _ => [] end.
Definition has_delegates (e : dentry) : bool := match de_cred e with DDelegates _ => true | _ => false end.
(* The address of a signer. *)
Definition signer_addr (e : dentry) (path : list nat) (a : addr) : Prop :=
  match path with
  | [] => a = de_addr e
  | _ => exists t, delegate_at (delegates e) (removelast path) (last path 0%nat) = Some t /\ a = d_addr t
  end.

Fixpoint find_addr (l : list dtree) (a : addr) (i : nat) : option (nat * dtree) :=
  match l with
  | [] => None
  | t :: l' => if addr_dec (d_addr t) a then Some (i, t) else find_addr l' a (S i)
  end.

Record view := { v_used : list signer; v_verified : list nat }.

Section Spec.
  Variable acct : addr -> list Z -> scval -> res unit.
  Variable entries : list dentry.

  (* The check of one address; [run]: its `__check_auth` *)
  Definition spec_check (a : addr) (payload : list Z) (sig : scval) (v : view) (run : res unit * view * dtrace) : res unit * view * dtrace :=
    match a with
    | AAccount _ => (acct a payload sig, v, [])
    | AContract _ => run
    | _ => (Err (ESys TObject CInternalError), v, [])
    end.
  Definition spec_decorate (r : res unit) : res unit :=
    match r with Ok _ => Ok tt | Err e => if recoverable e then Err (ESys TAuth CInvalidAction) else Err e end.

  (* [me]: whose contract runs; [cur]: the signer whose `__check_auth` is running, if one
     is; [busy]: the entries being authenticated. *)
  Fixpoint spec (p : dprog) (me : addr) (cur : option signer) (busy : list nat) (v : view) {struct p} : res unit * view * dtrace :=
    match p with
    | DEnd => (Ok tt, v, [])
    | DFail e => (Err e, v, [])
    | DDelegate a body k =>
        match cur with
        | None => (Err (ESys TContext CInvalidAction), v, [])
        | Some (i, path) =>
            match nth_error entries i with
            | None => (Err (ESys TAuth CInternalError), v, [])
            | Some e =>
                if negb (has_delegates e) then (Err (ESys TAuth CInvalidInput), v, [])
                else
                  match below (delegates e) path with
                  | None => (Err (ESys TAuth CInternalError), v, [])
                  | Some cs =>
                      match find_addr cs a 0 with
                      | None => (Err (ESys TAuth CInvalidInput), v, [])                 (* not listed here *)
                      | Some (n, t) =>
                          let who : signer := (i, path ++ [n]) in
                          if in_dec signer_eq_dec who (v_used v) then (Err (ESys TAuth CInvalidInput), v, [])   (* used before *)
                          else
                            let v1 := {| v_used := who :: v_used v; v_verified := v_verified v |} in
                            let ev := (true, EvDelegate i (path ++ [n]) me a (de_payload e) (d_sig t) (de_ctx e)) in
                            let '(r, v2, tr) := spec_check a (de_payload e) (d_sig t) v1 (spec body a (Some who) busy v1) in
                            match r with
                            | Err x => (Err x, v2, ev :: tr)
                            | Ok _ => let '(r3, v3, tr3) := spec k me cur busy v2 in (r3, v3, ev :: tr ++ tr3)
                            end
                      end
                  end
            end
        end
    | DSigners k =>
        match cur with
        | None => (Err (ESys TContext CInvalidAction), v, [])
        | Some (i, path) =>
            match nth_error entries i with
            | None => (Err (ESys TAuth CInternalError), v, [])
            | Some e =>
                if negb (has_delegates e) then spec (k []) me cur busy v
                else
                  match below (delegates e) path with
                  | None => (Err (ESys TAuth CInternalError), v, [])
                  | Some cs => spec (k (map d_addr cs)) me cur busy v
                  end
            end
        end
    | DCall id try body k kf =>
        let '(r, v1, t) := spec body (AContract id) None busy v in
        match r with
        | Ok _ => let '(r2, v2, t2) := spec k me cur busy v1 in (r2, v2, t ++ t2)
        | Err e =>
            if try && recoverable e then
              let '(r2, v2, t2) := spec kf me cur busy v in (r2, v2, dropped t ++ t2)      (* as before the call *)
            else (Err e, v1, t)
        end
    | DRequire i body nonce k =>
        match nth_error entries i with
        | None => (Err (ESys TAuth CInvalidAction), v, [])
        | Some e =>
            if in_dec PeanoNat.Nat.eq_dec i busy then (Err (ESys TAuth CInvalidAction), v, [])
            else if in_dec PeanoNat.Nat.eq_dec i (v_verified v) then spec k me cur busy v
            else
              let '(r3, v3, t3) :=
                match de_cred e with
                | DSource => (Ok tt, v, [])
                | _ =>
                    let '(r, v2, t) := spec_check (de_addr e) (de_payload e) (de_sig e) v (spec body (de_addr e) (Some (i, [])) (i :: busy) v) in
                    (r, v2, (true, EvEntry i (de_addr e) (de_payload e) (de_sig e) (de_ctx e)) :: t)
                end in
              match spec_decorate r3 with
              | Err x => (Err x, v3, t3)
              | Ok _ =>
                  match nonce with
                  | Err x => (Err x, v3, t3)
                  | Ok _ =>
                      let '(r5, v5, t5) := spec k me cur busy {| v_used := v_used v3; v_verified := i :: v_verified v3 |} in
                      (r5, v5, t3 ++ t5)
                  end
              end
        end
    end.

  Definition spec_transaction (id : list Z) (p : dprog) : res unit * dtrace :=
    let '(r, _, t) := spec p (AContract id) None [] {| v_used := []; v_verified := [] |} in
    match r with Ok _ => (Ok tt, t) | Err e => (Err e, dropped t) end.
End Spec.

(* Entries are well formed if the delegates of every signer are in order, without
   duplicates. *)
Definition lt_addr (a b : addr) : Prop := addr_cmp a b = Lt.
Fixpoint in_order (l : list addr) : Prop :=
  match l with
  | a :: (b :: _) as l' => lt_addr a b /\ in_order l'
  | _ => True
  end.
Definition ordered_everywhere (l : list dtree) : Prop :=
  forall path cs, below l path = Some cs -> in_order (map d_addr cs).
Fixpoint typed_tree (t : dtree) : Prop :=
  let 'DT a _ l := t in addr_typed a /\ (fix all (l : list dtree) : Prop := match l with [] => True | x :: l' => typed_tree x /\ all l' end) l.
Fixpoint typed_prog (p : dprog) : Prop :=
  match p with
  | DEnd | DFail _ => True
  | DDelegate a b k => addr_typed a /\ typed_prog b /\ typed_prog k
  | DSigners k => forall l, Forall addr_typed l -> typed_prog (k l)
  | DCall _ _ b k kf => typed_prog b /\ typed_prog k /\ typed_prog kf
  | DRequire _ b _ k => typed_prog b /\ typed_prog k
  end.
Definition typed_entry (e : dentry) : Prop := Forall typed_tree (delegates e).

(* the part of the trace that is kept *)
Definition kept (t : dtrace) : list dev := map snd (filter fst t).

Definition well_formed (entries : list dentry) : Prop := Forall (fun e => ordered_everywhere (delegates e)) entries.

(* An event is as the entries say: the entry's own address and signature, or those of a
   delegate listed in it, with the payload and context of the entry.  Delegates are checked
   for the signer one step up. *)
Definition event_listed (entries : list dentry) (d : dev) : Prop :=
  match d with
  | EvEntry i a payload sig ctx => exists e, nth_error entries i = Some e /\ de_cred e <> DSource /\ a = de_addr e /\ payload = de_payload e /\ sig = de_sig e /\ ctx = de_ctx e
  | EvDelegate i path by_ a payload sig ctx =>
      exists e parent n t, nth_error entries i = Some e /\ path = parent ++ [n] /\ delegate_at (delegates e) parent n = Some t
        /\ a = d_addr t /\ sig = d_sig t /\ payload = de_payload e /\ ctx = de_ctx e /\ signer_addr e parent by_
  end.
Definition who (d : dev) : signer := match d with EvEntry i _ _ _ _ => (i, []) | EvDelegate i path _ _ _ _ _ => (i, path) end.
Definition addr_of (d : dev) : addr := match d with EvEntry _ a _ _ _ => a | EvDelegate _ _ _ a _ _ _ => a end.
Definition payload_of (d : dev) : list Z := match d with EvEntry _ _ p _ _ => p | EvDelegate _ _ _ _ p _ _ => p end.
Definition sig_of (d : dev) : scval := match d with EvEntry _ _ _ g _ => g | EvDelegate _ _ _ _ _ g _ => g end.
(* A classic account's signatures are valid; only accounts and contracts sign. *)
Definition passed (acct : addr -> list Z -> scval -> res unit) (d : dev) : Prop :=
  match addr_of d with AAccount _ => acct (addr_of d) (payload_of d) (sig_of d) = Ok tt | AContract _ => True | _ => False end.
(* The signer one step up. *)
Definition parent_of (d : dev) : option signer := match d with EvEntry _ _ _ _ _ => None | EvDelegate i path _ _ _ _ _ => Some (i, removelast path) end.
