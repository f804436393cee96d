(* What the ledger is to be told after an invocation: written from what was given
   for each key of the footprint and what the key held at the end. *)
From Coq Require Import ZArith List Bool.
From Verif Require Import Prelude ValModel HeapModel AMap StorageModel StorageSpec FeesModel FrameModel E2EModel.
Import ListNotations.
Open Scope Z_scope.

(* One item per key of the footprint, read-only keys first; entries that can
   expire come with their live-until ledger, which has not passed. *)
Definition item_ok (li : linfo) (k : lkey) (it : item) : Prop :=
  match it with
  | (None, m) => m = None
  | (Some _, m) =>
      match key_durability k with
      | None => m = None
      | Some _ => exists t, m = Some t /\ li_seq li <= tm_live t
      end
  end.
Definition input_ok (li : linfo) (f : lfoot) (idx : list nat) (its : list item) : Prop :=
  Forall2 (item_ok li) (f_ro f ++ f_rw f) its
  /\ Forall (fun k => key_supported k = true) (f_ro f ++ f_rw f)
  /\ Forall (fun i => (i < length (f_rw f))%nat) idx.

(* The entry given for a key. *)
Definition item_entry (it : item) : option lentry :=
  match it with (Some e, m) => Some (e, option_map tm_live m) | (None, _) => None end.
Fixpoint given (l : list (lkey * item)) (k : lkey) : option lentry :=
  match l with
  | [] => None
  | (k', it) :: r => if lkey_eq_dec k k' then item_entry it else given r k
  end.

(* The positions of the footprint. *)
Definition positions (f : lfoot) (its : list item) : list (access * lkey * item) :=
  combine (map (pair ReadOnly) (f_ro f) ++ map (pair ReadWrite) (f_rw f)) its.

(* The keys restored from the archive by this transaction. *)
Definition restored_key (f : lfoot) (idx : list nat) (k : lkey) : bool :=
  existsb (fun i => match nth_error (f_rw f) i with
                    | Some k' => if lkey_eq_dec k k' then true else false
                    | None => false
                    end) idx.

(* Size of an entry for rent: its encoding, and the memory of its Wasm module, as
   32-bit numbers (sat_u32: capped at the largest). *)
Definition rent_size (cd : codec) (k : lkey) (e : entry) : Z :=
  sat_u32 (sat_u32 (entry_len cd k e) + match e with ECode w => sat_u32 (code_cost cd w) | _ => 0 end).

Section Report.
  Variable li : linfo.
  Variable cd : codec.

  (* For a key of the footprint: how it was declared, what was given, whether it is
     restored, and what it holds in the end. *)
  Record outcome := {
    oc_access : access;
    oc_key : lkey;
    oc_item : item;
    oc_restored : bool;
    oc_after : option lentry
  }.

  (* An entry restored and kept counts as new. *)
  Definition as_new (o : outcome) : bool :=
    oc_restored o && match oc_after o with Some _ => true | None => false end.
  Definition old_size (o : outcome) : Z :=
    if as_new o then 0 else match snd (oc_item o) with Some t => tm_size t | None => 0 end.
  Definition old_live (o : outcome) : Z :=
    if as_new o then 0 else match snd (oc_item o) with Some t => tm_live t | None => 0 end.
  (* Lifetimes are never cut short. *)
  Definition new_live (o : outcome) : Z :=
    match oc_after o with
    | Some (_, Some x) =>
        Z.max (Z.max x (match snd (oc_item o) with Some t => tm_live t | None => 0 end))
              (if oc_restored o then min_live li Persistent else 0)
    | _ => 0
    end.

  Definition report (o : outcome) : change :=
    {| ch_ro := match oc_access o with ReadOnly => true | ReadWrite => false end;
       ch_key := oc_key o;
       ch_old_size := old_size o;
       ch_value := match oc_access o with ReadOnly => None | ReadWrite => option_map fst (oc_after o) end;
       ch_new_size := match oc_access o, oc_after o with
                      | ReadWrite, Some (e, _) => rent_size cd (oc_key o) e
                      | _, _ => 0
                      end;
       ch_ttl := match key_durability (oc_key o) with
                 | None => None
                 | Some d => Some {| tc_dur := d;
                                     tc_code := match oc_key o with LKCode _ => true | _ => false end;
                                     tc_old := old_live o; tc_new := new_live o |}
                 end |}.

  (* Rent is due for an entry that is there in the end and lives longer or is larger
     than what counts as its old state. *)
  Definition end_size (o : outcome) : Z :=
    match oc_access o, oc_after o with
    | ReadWrite, Some (e, _) => rent_size cd (oc_key o) e
    | _, _ => old_size o
    end.
  Definition rent_due (o : outcome) : list rent_change :=
    match key_durability (oc_key o), oc_after o with
    | Some d, Some _ =>
        if (old_live o <? new_live o) || (old_size o <? end_size o) then
          [{| e_persistent := match d with Persistent => true | Temporary => false end;
              e_code := match oc_key o with LKCode _ => true | _ => false end;
              e_old_size := old_size o; e_new_size := end_size o;
              e_old_live := old_live o; e_new_live := new_live o |}]
        else []
    | _, _ => []
    end.

  Definition outcomes (f : lfoot) (idx : list nat) (its : list item) (after : store) : list outcome :=
    map (fun p => {| oc_access := fst (fst p); oc_key := snd (fst p); oc_item := snd p;
                     oc_restored := match fst (fst p) with ReadWrite => restored_key f idx (snd (fst p)) | ReadOnly => false end;
                     oc_after := after (snd (fst p)) |}) (positions f its).
End Report.

(* What a ledger makes of a change: a read-only one can only set the lifetime, a
   read-write one replaces or removes the entry. *)
Definition apply_change (L : store) (c : change) : store :=
  match ch_value c with
  | Some e => upd L (ch_key c) (Some (e, option_map tc_new (ch_ttl c)))
  | None =>
      if ch_ro c then
        match L (ch_key c) with
        | Some (e, _) => upd L (ch_key c) (Some (e, option_map tc_new (ch_ttl c)))
        | None => L
        end
      else upd L (ch_key c) None
  end.
Definition apply_changes (L : store) (l : list change) : store := fold_left apply_change l L.

(* The storage a transaction starts from: every key of the footprint declared as it
   is listed and holding what was given for it, and nothing else. *)
Definition access_of (f : lfoot) (k : lkey) : option access :=
  if in_dec lkey_eq_dec k (f_ro f) then Some ReadOnly
  else if in_dec lkey_eq_dec k (f_rw f) then Some ReadWrite else None.
Definition starts (c : sconf) (f : lfoot) (its : list item) (s : storage) : Prop :=
  run_ok c s /\ alive (sc_li c) (contents c s)
  /\ (forall k, contents c s k = given (combine (f_ro f ++ f_rw f) its) k)
  /\ (forall k, fget (st_foot s) k = access_of f k).

(* What the entry of a key comes to, once the lifetime is settled. *)
Definition settled (li : linfo) (o : outcome) : option lentry :=
  match oc_after o with
  | None => None
  | Some (e, _) => Some (e, match key_durability (oc_key o) with Some _ => Some (new_live li o) | None => None end)
  end.

(* ---------------------------------------------------------------- simulation *)

(* A ledger: contract entries have a live-until ledger, others have none. *)
Definition ledger_ok (src : lkey -> option lentry) : Prop :=
  forall k e l, src k = Some (e, l) -> key_supported k = true ->
  match e with
  | EData _ | ECode _ => key_durability k <> None /\ l <> None
  | EAccount _ | ETrustline _ => key_durability k = None /\ l = None
  | EOther _ => False
  end.

(* What the network provides for a key: the entry as it is now (archived entries
   restored, expired temporary ones gone), with its size if it can expire. *)
Definition provided (li : linfo) (cd : codec) (src : lkey -> option lentry) (k : lkey) : item :=
  match now li k (src k) with
  | Some (e, l) => (Some e, option_map (fun x => {| tm_live := x; tm_size := rent_size cd k e |}) l)
  | None => (None, None)
  end.

(* A change that only names the key. *)
Definition bare (c : change) : Prop :=
  ch_value c = None /\ ch_ttl c = None /\ ch_old_size c = 0 /\ ch_new_size c = 0.
(* Same entry, same new lifetime and size, same rent. *)
Definition foretells (c d : change) : Prop :=
  ch_ro c = ch_ro d /\ ch_key c = ch_key d /\ ch_value c = ch_value d /\ ch_new_size c = ch_new_size d
  /\ option_map tc_new (ch_ttl c) = option_map tc_new (ch_ttl d)
  /\ extract_rent_changes [c] = extract_rent_changes [d].

(* No call failed: neither the whole nor any call inside it. *)
Fixpoint calm (t : tree) : bool :=
  match t with
  | TFrame _ (Ok _) l => forallb calm l
  | TFrame _ (Err _) _ => false
  | _ => true
  end.

(* The bytes a key costs to read from disk: accounts and trustlines, and the archived
   entries.  The other contract entries are in memory. *)
Definition disk_bytes (li : linfo) (cd : codec) (src : lkey -> option lentry) (k : lkey) : Z :=
  match src k with
  | Some (e, None) => sat_u32 (entry_len cd k e)
  | Some (e, Some l) =>
      if match key_durability k with Some Persistent => l <? li_seq li | _ => false end then sat_u32 (entry_len cd k e) else 0
  | None => 0
  end.
Definition total (l : list Z) : Z := fold_right Z.add 0 l.
