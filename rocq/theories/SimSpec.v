(* Vocabulary for what a simulation promises. *)
From Coq Require Import ZArith List Bool.
From Coq Require Import Floats.SpecFloat.
From Verif Require Import Prelude ValModel HeapModel AMap StorageModel StorageSpec FeesModel FrameModel E2EModel E2ESpec SimModel.
Import ListNotations.
Open Scope Z_scope.

(* v times the factor m * 2^e, rounded down and up. *)
Definition times_down (v m e : Z) : Z := v * m * 2 ^ Z.max e 0 / 2 ^ Z.max (- e) 0.
Definition times_up (v m e : Z) : Z := - ((- (v * m * 2 ^ Z.max e 0)) / 2 ^ Z.max (- e) 0).

(* An entry of the ledger that is alive but not until [seq + to]. *)
Definition needs_extension (seq to : Z) (src : lkey -> option lentry) (k : lkey) : bool :=
  match src k with
  | Some (_, Some l) => (seq <=? l) && (l <? seq + to)
  | _ => false
  end.
(* A key whose entry can be extended: of a type that expires, and not expired. *)
Definition extendable (seq : Z) (src : lkey -> option lentry) (k : lkey) : Prop :=
  key_durability k <> None /\ forall e l, src k = Some (e, l) -> exists x, l = Some x /\ seq <= x.

(* A persistent entry whose lifetime has passed, as a test. *)
Definition is_archived (li : linfo) (src : lkey -> option lentry) (k : lkey) : bool :=
  match key_durability k, src k with
  | Some Persistent, Some (_, Some l) => l <? li_seq li
  | _, _ => false
  end.
(* A key that names a persistent entry of the ledger, alive or archived. *)
Definition restorable (src : lkey -> option lentry) (k : lkey) : Prop :=
  key_durability k = Some Persistent /\ exists e x, src k = Some (e, Some x).

(* What each key comes to when the transaction is run: an extended entry lives until
   [seq + to], a restored one is what the network makes of it. *)
Definition after_extension (li : linfo) (cd : codec) (to : Z) (src : lkey -> option lentry) (k : lkey) : outcome :=
  {| oc_access := ReadOnly; oc_key := k; oc_item := provided li cd src k; oc_restored := false;
     oc_after := option_map (fun p => (fst p, Some (li_seq li + to))) (src k) |}.
Definition after_restore (li : linfo) (cd : codec) (src : lkey -> option lentry) (k : lkey) : outcome :=
  {| oc_access := ReadWrite; oc_key := k; oc_item := provided li cd src k; oc_restored := true;
     oc_after := now li k (src k) |}.

(* Accounts and trustlines are read from disk, and so is what is restored. *)
Definition from_disk (f : lfoot) (restored : list nat) : Z :=
  Z.of_nat (length (filter (fun k => match key_durability k with None => true | Some _ => false end) (f_ro f ++ f_rw f)))
  + Z.of_nat (length restored).
(* The resources of a transaction, as measured, with an envelope of this size. *)
Definition measured (f : lfoot) (restored : list nat) (insns rd wr ev size : Z) : tx_resources :=
  {| r_instructions := insns; r_disk_read_entries := from_disk f restored;
     r_write_entries := Z.of_nat (length (f_rw f)); r_disk_read_bytes := rd; r_write_bytes := wr;
     r_events_size := ev; r_tx_size := size |}.
(* What a transaction owes, in whole, up to the largest fee there is. *)
Definition owed (n : network) (li : linfo) (r : tx_resources) (rent : list rent_change) : Z :=
  Z.min i64_max (fst (compute_transaction_resource_fee r (n_fees n)) + snd (compute_transaction_resource_fee r (n_fees n))
                 + compute_rent_fee rent (n_rent n) (li_seq li)).

(* The entry under a key if it has not expired. *)
Definition unexpired (li : linfo) (src : lkey -> option lentry) (k : lkey) : option entry :=
  match src k with
  | Some (e, l) => if match l with Some x => x <? li_seq li | None => false end then None else Some e
  | None => None
  end.

(* Additive factors are 32-bit numbers; multiplicative ones are any f64. *)
Definition ok_adjustment (j : adjustment) : Prop :=
  in_u32 (a_add (j_insns j)) /\ in_u32 (a_add (j_read j)) /\ in_u32 (a_add (j_write j)) /\ in_u32 (a_add (j_size j))
  /\ in_u32 (a_add (j_refund j)).

(* What an account's extensions say; absent ones stand for nothing owed, nothing
   sponsored and no recorded sequence times. *)
Definition liabilities (a : account) : Z * Z :=
  match ac_ext a with X1 b s _ => (b, s) | X1None => (0, 0) end.
Definition second (a : account) : ext2 := match ac_ext a with X1 _ _ x => x | X1None => X2None end.
Definition sponsorship (a : account) : Z * Z := match second a with X2 p q _ _ => (p, q) | X2None => (0, 0) end.
Definition sponsor_of (a : account) (i : nat) : option (list Z) :=
  match second a with X2 _ _ l _ => nth i l None | X2None => None end.
Definition third (a : account) : ext3 := match second a with X2 _ _ _ x => x | X2None => X3None end.
Definition sequence_times (a : account) : Z * Z := match third a with X3 l t => (l, t) | X3None => (0, 0) end.

(* Bytes of the XDR encoding of the extensions. *)
Definition len3 (e : ext3) : Z := match e with X3None => 4 | X3 _ _ => 4 + 4 + 4 + 8 end.
Definition len2 (e : ext2) : Z :=
  match e with
  | X2None => 4
  | X2 _ _ l x => 4 + 4 + 4 + 4 + total (map (fun s : option (list Z) => match s with None => 4 | Some _ => 4 + 36 end) l) + len3 x
  end.
Definition len1 (e : ext1) : Z := match e with X1None => 4 | X1 _ _ x => 4 + 8 + 8 + len2 x end.
