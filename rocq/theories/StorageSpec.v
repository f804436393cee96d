(* What storage is supposed to do: a store maps each ledger key to its entry and
   live-until ledger.  No footprints, caches or snapshots here. *)
From Coq Require Import ZArith Lia List Bool.
From Verif Require Import Prelude ValModel ContainerModel HeapModel AMap StorageModel.
Import ListNotations.
Open Scope Z_scope.

Definition store := lkey -> option lentry.
Definition upd (m : store) (k : lkey) (v : option lentry) : store :=
  fun k' => if lkey_eq_dec k' k then v else m k'.

(* The last ledger a new entry lives at, and the network maximum. *)
Definition min_live (li : linfo) (d : durability) : Z :=
  li_seq li + Z.max 1 (match d with Temporary => li_min_temp li | Persistent => li_min_persistent li end) - 1.
Definition max_live (li : linfo) : Z := li_seq li + Z.max 1 (li_max_ttl li) - 1.

(* A network configuration whose ledgers do not overflow 32 bits. *)
Definition li_ok (li : linfo) : Prop :=
  0 <= li_seq li /\ 0 <= li_min_temp li /\ 0 <= li_min_persistent li /\ 0 <= li_max_ttl li
  /\ min_live li Temporary <= u32_max /\ min_live li Persistent <= u32_max /\ max_live li <= u32_max.

Definition live (li : linfo) (k : lkey) (v : option lentry) : Prop :=
  match v with
  | Some (_, l) => key_durability k <> None -> exists x, l = Some x /\ li_seq li <= x
  | None => True
  end.

(* What a ledger entry looks like now: an expired temporary entry is gone, an
   expired (archived) persistent entry is restored with the minimum lifetime. *)
Definition now (li : linfo) (k : lkey) (v : option lentry) : option lentry :=
  match v with
  | Some (e, Some l) =>
      if l <? li_seq li then
        match key_durability k with
        | Some Temporary => None
        | Some Persistent => Some (e, Some (min_live li Persistent))
        | None => v
        end
      else v
  | _ => v
  end.

(* A persistent entry whose lifetime has passed. *)
Definition archived (li : linfo) (src : lkey -> option lentry) (k : lkey) : Prop :=
  key_durability k = Some Persistent /\ exists e l, src k = Some (e, Some l) /\ l < li_seq li.

(* TTL extension: the new live-until ledger. *)
Definition e_overflow : err := ESys TContext CInternalError.
Definition extended (li : linfo) (k : lkey) (old threshold extend_to : Z) : res Z :=
  match key_durability k with
  | None => Err (ESys TStorage CInternalError)
  | Some d =>
      if old <? li_seq li then Err (ESys TStorage CInternalError)
      else if (match d with Temporary => max_live li <? li_seq li + extend_to | Persistent => false end)
      then Err (ESys TStorage CInvalidAction)
      else if u32_max <? li_seq li + extend_to then Err e_overflow
      else Ok (if old - li_seq li <=? threshold
               then Z.max old (Z.min (li_seq li + extend_to) (max_live li)) else old)
  end.

Definition extended_v2 (li : linfo) (k : lkey) (old extend_to mn mx : Z) : res Z :=
  match key_durability k with
  | None => Err (ESys TStorage CInternalError)
  | Some d =>
      if old <? li_seq li then Err (ESys TStorage CInternalError)
      else if (match d with Temporary => max_live li <? li_seq li + extend_to | Persistent => false end)
      then Err (ESys TStorage CInvalidAction)
      else
        let amount := Z.min (Z.min (Z.max 0 (li_seq li + extend_to - old)) mx) (Z.max 0 (max_live li - old)) in
        if amount <? mn then Ok old
        else if u32_max <? old + amount then Err e_overflow
        else Ok (Z.max old (old + amount))
  end.

Definition with_live (m : store) (k : lkey) (f : Z -> res Z) : store * res sout :=
  match m k with
  | None => (m, Err (ESys TStorage CMissingValue))
  | Some (_, None) => (m, Err (ESys TStorage CInternalError))
  | Some (e, Some old) =>
      match f old with
      | Err x => (m, Err x)
      | Ok n => (upd m k (Some (e, Some n)), Ok OUnit)
      end
  end.

(* The meaning of each storage call. *)
Definition op_key (op : sop) : lkey :=
  match op with
  | SGet k | SHas k | SPut k _ _ | SDel k | SExtend k _ _ | SExtendV2 k _ _ _ => k
  end.
Definition op_access (op : sop) : access :=
  match op with SPut _ _ _ | SDel _ => ReadWrite | _ => ReadOnly end.

Definition bad_args (op : sop) : option err :=
  match op with
  | SExtend k t x => if x <? t then Some (ESys TStorage CInvalidInput) else if key_supported k then None else Some (ESys TStorage CInternalError)
  | SExtendV2 k _ mn mx => if mx <? mn then Some (ESys TStorage CInvalidInput) else if key_supported k then None else Some (ESys TStorage CInternalError)
  | SPut k e _ => if key_supported k && entry_supported e then None else Some (ESys TStorage CInternalError)
  | _ => if key_supported (op_key op) then None else Some (ESys TStorage CInternalError)
  end.

Definition meaning (li : linfo) (m : store) (op : sop) : store * res sout :=
  match bad_args op with
  | Some e => (m, Err e)
  | None =>
      match op with
      | SGet k => (m, Ok (OEntry (m k)))
      | SHas k => (m, Ok (OBool (match m k with Some _ => true | None => false end)))
      | SPut k e l => (upd m k (Some (e, l)), Ok OUnit)
      | SDel k => (upd m k None, Ok OUnit)
      | SExtend k t x => with_live m k (fun old => extended li k old t x)
      | SExtendV2 k x mn mx => with_live m k (fun old => extended_v2 li k old x mn mx)
      end
  end.

(* A program on a store; a failing frame is undone. *)
Fixpoint meaning_run (li : linfo) (m : store) (p : prog) : store * res sout * list (sop * res sout) :=
  match p with
  | PRet r => (m, r, [])
  | PDo op k =>
      let '(m1, r) := meaning li m op in
      let '(m2, r2, t) := meaning_run li m1 (k r) in
      (m2, r2, (op, r) :: t)
  | PFrame body k =>
      let '(m1, r, t1) := meaning_run li m body in
      let m2 := match r with Ok _ => m1 | Err _ => m end in
      let '(m3, r3, t3) := meaning_run li m2 (k r) in
      (m3, r3, t1 ++ t3)
  end.

(* The contents a storage shows for a key. *)
Definition contents (c : sconf) (s : storage) : store := fun k =>
  match mget (st_map s) k with
  | Some o => o
  | None => match sc_mode c with Enforcing => None | Recording src => now (sc_li c) k (src k) end
  end.

Definition declared (f : list (lkey * access)) (k : lkey) (a : access) : Prop :=
  match a with
  | ReadOnly => fget f k <> None
  | ReadWrite => fget f k = Some ReadWrite
  end.
Definition declaredb (f : list (lkey * access)) (k : lkey) (a : access) : bool :=
  match fget f k, a with
  | None, _ => false
  | Some ReadOnly, ReadWrite => false
  | _, _ => true
  end.

(* A write as the host makes them: Soroban entries carry a live-until ledger that
   has not passed. *)
Definition write_ok (li : linfo) (op : sop) : Prop :=
  match op with SPut k e l => live li k (Some (e, l)) | _ => True end.

Definition all_live (c : sconf) (s : storage) : Prop :=
  forall k o, mget (st_map s) k = Some o -> live (sc_li c) k o.

(* An enforcing storage as set up for a transaction: every declared key loaded
   (and, in a build with the recording feature, no expired entries). *)
Definition enforcing_ok (c : sconf) (s : storage) : Prop :=
  sc_mode c = Enforcing
  /\ (forall k, fget (st_foot s) k <> None -> mget (st_map s) k <> None)
  /\ (sc_recording_build c = true -> all_live c s).

(* A recording storage in mid-run. *)
Definition src_ok (src : lkey -> option lentry) : Prop :=
  forall k e l, src k = Some (e, l) -> key_durability k <> None -> l <> None.
Definition recording_ok (c : sconf) (s : storage) : Prop :=
  exists src, sc_mode c = Recording src /\ src_ok src /\ sc_recording_build c = true
  /\ all_live c s.

(* A running storage. *)
Definition run_ok (c : sconf) (s : storage) : Prop := enforcing_ok c s \/ recording_ok c s.

Definition empty_storage : storage := {| st_foot := []; st_map := [] |}.
(* The storage a validator starts from, for a declared footprint and a ledger. *)
Definition loaded (li : linfo) (src : lkey -> option lentry) (f : list (lkey * access)) : storage :=
  {| st_foot := f; st_map := map (fun p => (fst p, now li (fst p) (src (fst p)))) f |}.

(* In a recording-capable build, the run only made writes as the host makes them. *)
Definition writes_ok (c : sconf) (t : list (sop * res sout)) : Prop :=
  sc_recording_build c = true -> Forall (fun p => write_ok (sc_li c) (fst p)) t.

(* What a run may do to the entry of a key that is not declared read-write *)
Definition only_longer (v v' : option lentry) : Prop :=
  match v, v' with
  | None, None => True
  | Some (e, l), Some (e', l') =>
      e' = e /\ match l, l' with
                | Some x, Some y => x <= y
                | None, None => True
                | _, _ => False
                end
  | _, _ => False
  end.

(* A call that succeeded was declared; a well-formed call that was not declared
   failed with the footprint error. *)
Definition enforced (f : list (lkey * access)) (p : sop * res sout) : Prop :=
  (is_ok (snd p) = true -> declared f (op_key (fst p)) (op_access (fst p)))
  /\ (bad_args (fst p) = None -> ~ declared f (op_key (fst p)) (op_access (fst p)) -> snd p = Err (ESys TStorage CExceededLimit)).

(* Undeclared keys are untouched, read-only ones at most live longer. *)
Definition keeps (f : list (lkey * access)) (m m' : store) : Prop :=
  forall k, (fget f k = None -> m' k = m k) /\ (fget f k = Some ReadOnly -> only_longer (m k) (m' k)).

(* Every entry of the store is live now. *)
Definition alive (li : linfo) (m : store) : Prop := forall k, live li k (m k).

(* The entry under k after a history without rollbacks: the last one put,
   nothing if it was deleted last, the initial one if it was never written. *)
Definition written (k : lkey) (v : option entry) (p : sop * res sout) : option entry :=
  match p with
  | (SPut k' e _, Ok _) => if lkey_eq_dec k' k then Some e else v
  | (SDel k', Ok _) => if lkey_eq_dec k' k then None else v
  | _ => v
  end.
Definition last_written (k : lkey) (v : option entry) (t : list (sop * res sout)) : option entry :=
  fold_left (written k) t v.

Fixpoint flat (p : prog) : Prop :=
  match p with
  | PRet _ => True
  | PDo _ k => forall r, flat (k r)
  | PFrame _ _ => False
  end.
