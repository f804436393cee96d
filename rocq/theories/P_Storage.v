(* Properties C17 (footprint), C18 (read your writes), C19 (recorded footprints),
   C20-C21 (TTL extension), C22 (expired entries), C23 (contract data TTL). *)
From Coq Require Import ZArith Lia List Bool.
From Verif Require Import Prelude ValModel ContainerModel HeapModel AMap StorageModel StorageSpec
  StorageProofs StorageProofs2 StorageLogic StorageProofs3.
Import ListNotations.
Open Scope Z_scope.

(* A ledger at sequence 100 with one archived persistent entry, one expired
   temporary entry and one live entry of a contract. *)
Definition ex_li : linfo := {| li_seq := 100; li_min_temp := 16; li_min_persistent := 4096; li_max_ttl := 10000 |}.
Definition ex_c : addr := AContract [7].
Definition kA := LKData ex_c (SU32 1) Persistent.
Definition kB := LKData ex_c (SU32 2) Temporary.
Definition kC := LKData ex_c (SU32 3) Persistent.
Definition ex_src : lkey -> option lentry := fun k =>
  if lkey_eq_dec k kA then Some (EData (SU32 11), Some 50)
  else if lkey_eq_dec k kB then Some (EData (SU32 22), Some 60)
  else if lkey_eq_dec k kC then Some (EData (SU32 33), Some 200)
  else None.
Definition ex_rec : sconf := {| sc_li := ex_li; sc_mode := Recording ex_src; sc_recording_build := true |}.
Definition ex_enf : sconf := {| sc_li := ex_li; sc_mode := Enforcing; sc_recording_build := false |}.

(* reads the archived entry, and in a call that fails writes a third key; then
   overwrites the live entry if the expired temporary is absent *)
Definition ex_prog : hprog :=
  HDo ex_c (HGet (SU32 1) Persistent) (fun _ =>
  HFrame (HDo ex_c (HPut (SU32 9) (SU32 99) Temporary) (fun _ => HRet (Err (EContract 3)))) (fun _ =>
  HDo ex_c (HHas (SU32 2) Temporary) (fun r =>
    match r with
    | Ok (OBool false) => HDo ex_c (HPut (SU32 3) (SU32 44) Persistent) (fun r => HRet r)
    | _ => HRet (Err (EContract 4))
    end))).

Example ex_li_ok : li_ok ex_li. Proof. unfold li_ok, min_live, max_live, u32_max. cbn. lia. Qed.
Example ex_src_ok : src_ok ex_src.
Proof.
  intros k e l H _. unfold ex_src in H.
  destruct (lkey_eq_dec k kA); [injection H as <- <-; discriminate|].
  destruct (lkey_eq_dec k kB); [injection H as <- <-; discriminate|].
  destruct (lkey_eq_dec k kC); [injection H as <- <-; discriminate|discriminate].
Qed.
Example ex_recording_ok : recording_ok ex_rec empty_storage.
Proof. exists ex_src. repeat split; auto using ex_src_ok. intros k o H. discriminate. Qed.

Definition ex_foot : list (lkey * access) := st_foot (fst (fst (srun ex_rec empty_storage (compile ex_li ex_prog)))).
Definition ex_start : storage := loaded ex_li ex_src ex_foot.
Example ex_enforcing_ok : enforcing_ok ex_enf ex_start.
Proof.
  split; [reflexivity|]. split; [|intros X; discriminate X]. intros k F. unfold ex_start. rewrite loaded_get.
  change (st_foot ex_start) with ex_foot in F. destruct (fget ex_foot k); congruence.
Qed.
Example ex_alive : alive ex_li (contents ex_enf ex_start).
Proof.
  intros k. unfold contents. unfold ex_start. rewrite loaded_get.
  destruct (fget ex_foot k); [|exact I]. apply now_live; [apply ex_li_ok|]. intros e l. apply ex_src_ok.
Qed.

(* ---------------------------------------------------------------- C17 *)

(* Enforcing mode, any program (any sequence of storage calls depending on
   earlier answers, with call frames that roll back): the footprint never
   changes; every call that succeeded was declared for the access it needs;
   every undeclared call fails with (Storage, ExceededLimit); undeclared keys
   keep their entries and read-only keys keep theirs but for longer lifetimes. *)
Theorem C17_footprint_enforced :
  forall c p s s' r t, li_ok (sc_li c) -> enforcing_ok c s ->
  srun c s p = (s', r, t) -> writes_ok c t ->
  st_foot s' = st_foot s
  /\ Forall (enforced (st_foot s)) t
  /\ keeps (st_foot s) (contents c s) (contents c s').
Proof. intros c p s s' r t LI EN. exact (run_enforced c p LI (proj1 EN) s s' r t EN). Qed.
Print Assumptions C17_footprint_enforced.

(* One undeclared call changes nothing at all. *)
Theorem C17_refused_without_effect :
  forall c s op, li_ok (sc_li c) -> enforcing_ok c s -> (sc_recording_build c = true -> write_ok (sc_li c) op) ->
  bad_args op = None -> ~ declared (st_foot s) (op_key op) (op_access op) ->
  sstep c s op = (s, Err (ESys TStorage CExceededLimit)).
Proof.
  intros c s op LI EN W B N. destruct (sstep c s op) as [s' r] eqn:E.
  destruct (step_correct c s op s' r LI (or_introl EN) W E) as [(_ & _ & D & _ & _ & F)|(_ & _ & _ & -> & ->)].
  - destruct N. rewrite <- (F (proj1 EN)). exact (D B).
  - reflexivity.
Qed.
Print Assumptions C17_refused_without_effect.

(* For the ledger functions contracts call no side condition is left. *)
Theorem C17_contracts :
  forall c p s s' r t, li_ok (sc_li c) -> enforcing_ok c s -> alive (sc_li c) (contents c s) ->
  srun c s (compile (sc_li c) p) = (s', r, t) ->
  st_foot s' = st_foot s
  /\ Forall (enforced (st_foot s)) t
  /\ keeps (st_foot s) (contents c s) (contents c s').
Proof. exact contract_enforced. Qed.
Print Assumptions C17_contracts.

Example C17_example :
  enforcing_ok ex_enf ex_start
  /\ (let '(_, r, t) := srun ex_enf ex_start (compile ex_li ex_prog) in r = Ok OUnit /\ length t = 7%nat)
  /\ ~ declared ex_foot kB ReadWrite /\ declared ex_foot kA ReadWrite
  /\ snd (sstep ex_enf ex_start (SDel kB)) = Err (ESys TStorage CExceededLimit).
Proof.
  split; [exact ex_enforcing_ok|]. split; [vm_compute; auto|]. split; [vm_compute; discriminate|].
  split; vm_compute; reflexivity.
Qed.

(* ---------------------------------------------------------------- C18 *)

(* Every history of calls, enforcing or recording: a read answers the entry put
   last under that key, nothing if it was deleted last, and otherwise the entry
   that was there at the start. *)
Theorem C18_reads_return_last_write :
  forall c p, li_ok (sc_li c) -> flat p -> forall s s' r t, run_ok c s ->
  srun c s p = (s', r, t) -> writes_ok c t ->
  (forall k, option_map fst (contents c s' k) = last_written k (option_map fst (contents c s k)) t)
  /\ (forall t1 k v t2, t = t1 ++ (SGet k, Ok (OEntry v)) :: t2 ->
      option_map fst v = last_written k (option_map fst (contents c s k)) t1)
  /\ (forall t1 k b t2, t = t1 ++ (SHas k, Ok (OBool b)) :: t2 ->
      b = match last_written k (option_map fst (contents c s k)) t1 with Some _ => true | None => false end).
Proof. exact last_write. Qed.
Print Assumptions C18_reads_return_last_write.

(* With call frames that roll back: the run is a run on a plain store (every
   answer, live-until ledgers included, and the final contents). *)
Theorem C18_storage_is_a_store :
  forall c p, li_ok (sc_li c) -> forall s s' r t, run_ok c s -> srun c s p = (s', r, t) -> writes_ok c t ->
  (sc_mode c = Enforcing ->
   Forall (fun q => bad_args (fst q) = None -> declared (st_foot s) (op_key (fst q)) (op_access (fst q))) t) ->
  exists m', meaning_run (sc_li c) (contents c s) p = (m', r, t) /\ forall k, contents c s' k = m' k.
Proof. exact run_is_meaning. Qed.
Print Assumptions C18_storage_is_a_store.

(* One call touches one key. *)
Theorem C18_keys_independent :
  forall c s op s' r k, li_ok (sc_li c) -> run_ok c s -> (sc_recording_build c = true -> write_ok (sc_li c) op) ->
  sstep c s op = (s', r) -> k <> op_key op -> contents c s' k = contents c s k.
Proof.
  intros c s op s' r k LI R W E N. destruct (step_correct c s op s' r LI R W E) as [(_ & CS & _)|(_ & _ & _ & _ & ->)]; auto.
  rewrite CS. now apply meaning_other.
Qed.
Print Assumptions C18_keys_independent.

Definition ex_flat : prog :=
  PDo (SPut kC (EData (SU32 1)) (Some 300)) (fun _ => PDo (SExtend kC 500 600) (fun _ => PDo (SDel kA) (fun _ =>
  PDo (SGet kC) (fun _ => PDo (SHas kA) (fun r => PRet r))))).
Example C18_example :
  flat ex_flat /\ run_ok ex_rec empty_storage /\
  (let '(_, _, t) := srun ex_rec empty_storage ex_flat in
   nth 3 t (SDel kA, Err (ESys TStorage CExceededLimit)) = (SGet kC, Ok (OEntry (Some (EData (SU32 1), Some 700))))
   /\ nth 4 t (SDel kA, Err (ESys TStorage CExceededLimit)) = (SHas kA, Ok (OBool false))
   /\ writes_ok ex_rec t).
Proof.
  split; [cbn; auto|]. split; [right; exact ex_recording_ok|]. vm_compute. split; [reflexivity|].
  split; [reflexivity|]. intros _. repeat constructor. intros _. eexists. split; [reflexivity|discriminate].
Qed.

(* ---------------------------------------------------------------- C19 *)

(* Record a program against a ledger; then run it on a validator with the
   recorded footprint and the entries of that ledger: same result, same answer
   at every call, same final contents of every footprint key, and nothing else
   was changed. *)
Theorem C19_recorded_footprint_replays :
  forall cr ce src p, li_ok (sc_li cr) -> src_ok src ->
  sc_mode cr = Recording src -> sc_recording_build cr = true ->
  sc_mode ce = Enforcing -> sc_li ce = sc_li cr ->
  forall s' r t, srun cr empty_storage p = (s', r, t) -> writes_ok cr t ->
  exists e', srun ce (loaded (sc_li cr) src (st_foot s')) p = (e', r, t)
  /\ st_foot e' = st_foot s'
  /\ (forall k, fget (st_foot s') k <> None -> contents ce e' k = contents cr s' k)
  /\ (forall k, fget (st_foot s') k = None -> contents cr s' k = now (sc_li cr) k (src k)).
Proof. exact record_replay. Qed.
Print Assumptions C19_recorded_footprint_replays.

Theorem C19_contracts_replay :
  forall cr ce src p, li_ok (sc_li cr) -> src_ok src ->
  sc_mode cr = Recording src -> sc_recording_build cr = true ->
  sc_mode ce = Enforcing -> sc_li ce = sc_li cr ->
  forall s' r t, srun cr empty_storage (compile (sc_li cr) p) = (s', r, t) ->
  exists e', srun ce (loaded (sc_li cr) src (st_foot s')) (compile (sc_li cr) p) = (e', r, t)
  /\ st_foot e' = st_foot s'
  /\ (forall k, fget (st_foot s') k <> None -> contents ce e' k = contents cr s' k)
  /\ (forall k, fget (st_foot s') k = None -> contents cr s' k = now (sc_li cr) k (src k)).
Proof. exact contract_replay. Qed.
Print Assumptions C19_contracts_replay.

(* the key written only in the rolled back call is part of the footprint *)
Example C19_example :
  let '(s', r, t) := srun ex_rec empty_storage (compile ex_li ex_prog) in
  r = Ok OUnit /\ length t = 7%nat /\ length (st_foot s') = 4%nat
  /\ declared (st_foot s') (LKData ex_c (SU32 9) Temporary) ReadWrite
  /\ contents ex_rec s' kC = Some (EData (SU32 44), Some 200)
  /\ contents ex_rec s' kA = Some (EData (SU32 11), Some 4195)
  /\ contents ex_rec s' (LKData ex_c (SU32 9) Temporary) = None.
Proof. vm_compute. repeat split; reflexivity. Qed.

(* ---------------------------------------------------------------- C20 *)

Theorem C20_extend_ttl :
  forall c s k thr ext s' r, li_ok (sc_li c) -> run_ok c s -> sstep c s (SExtend k thr ext) = (s', r) ->
  let li := sc_li c in
  (forall k', k' <> k -> contents c s' k' = contents c s k')
  /\ match r with
     | Err _ => contents c s' k = contents c s k
     | Ok _ =>
         thr <= ext
         /\ exists e old d, contents c s k = Some (e, Some old) /\ key_durability k = Some d /\ li_seq li <= old
            /\ (d = Temporary -> li_seq li + ext <= max_live li)
            /\ contents c s' k = Some (e, Some (if old - li_seq li <=? thr
                                                then Z.max old (Z.min (li_seq li + ext) (max_live li)) else old))
     end.
Proof. exact extend_facts. Qed.
Print Assumptions C20_extend_ttl.

(* never shorter, never past the network maximum *)
Theorem C20_bounds :
  forall c s k thr ext s' e old e' l', li_ok (sc_li c) -> run_ok c s -> sstep c s (SExtend k thr ext) = (s', Ok OUnit) ->
  contents c s k = Some (e, Some old) -> contents c s' k = Some (e', Some l') ->
  e' = e /\ old <= l' /\ (l' <= max_live (sc_li c) \/ l' = old).
Proof.
  intros c s k thr ext s' e old e' l' LI R E C C'. destruct (extend_facts c s k thr ext s' _ LI R E) as (_ & _ & e0 & o & d & C0 & _ & _ & _ & C1).
  rewrite C in C0. injection C0 as <- <-. rewrite C' in C1. injection C1 as -> ->.
  destruct (_ <=? thr); split; auto; lia.
Qed.
Print Assumptions C20_bounds.

(* and it succeeds whenever the entry is live and the arguments are in range *)
Theorem C20_succeeds :
  forall c s k thr ext e old d, li_ok (sc_li c) -> run_ok c s ->
  (sc_mode c = Enforcing -> declared (st_foot s) k ReadOnly) ->
  let li := sc_li c in
  thr <= ext -> contents c s k = Some (e, Some old) -> key_durability k = Some d -> li_seq li <= old ->
  (d = Temporary -> li_seq li + ext <= max_live li) -> li_seq li + ext <= u32_max ->
  snd (sstep c s (SExtend k thr ext)) = Ok OUnit.
Proof. exact extend_ok. Qed.
Print Assumptions C20_succeeds.

Example C20_example :
  let s' := fst (sstep ex_rec empty_storage (SExtend kC 100 600)) in
  contents ex_rec empty_storage kC = Some (EData (SU32 33), Some 200)
  /\ contents ex_rec s' kC = Some (EData (SU32 33), Some 700)
  /\ contents ex_rec (fst (sstep ex_rec empty_storage (SExtend kC 99 600))) kC = Some (EData (SU32 33), Some 200)
  /\ contents ex_rec (fst (sstep ex_rec empty_storage (SExtend kC 100 60000))) kC = Some (EData (SU32 33), Some 10099)
  /\ snd (sstep ex_rec empty_storage (SExtend kC 601 600)) = Err (ESys TStorage CInvalidInput).
Proof. vm_compute. repeat split; reflexivity. Qed.

(* ---------------------------------------------------------------- C21 *)

(* extend_ttl_v2 lengthens by the largest amount allowed by max_extension, the
   network maximum and the target, or by nothing if that is below min_extension. *)
Theorem C21_extend_ttl_v2 :
  forall c s k ext mn mx s' r, li_ok (sc_li c) -> run_ok c s -> 0 <= mn ->
  sstep c s (SExtendV2 k ext mn mx) = (s', r) ->
  let li := sc_li c in
  (forall k', k' <> k -> contents c s' k' = contents c s k')
  /\ match r with
     | Err _ => contents c s' k = contents c s k
     | Ok _ =>
         mn <= mx
         /\ exists e old d by_, contents c s k = Some (e, Some old) /\ key_durability k = Some d /\ li_seq li <= old
            /\ (d = Temporary -> li_seq li + ext <= max_live li)
            /\ contents c s' k = Some (e, Some (old + by_))
            /\ 0 <= by_ <= mx
            /\ (by_ = 0 \/ mn <= by_ /\ old + by_ <= max_live li /\ old + by_ <= li_seq li + ext)
            /\ (forall b, mn <= b <= mx -> old + b <= max_live li -> old + b <= li_seq li + ext -> b <= by_)
     end.
Proof. exact extend_v2_facts. Qed.
Print Assumptions C21_extend_ttl_v2.

Theorem C21_succeeds :
  forall c s k ext mn mx e old d, li_ok (sc_li c) -> run_ok c s ->
  (sc_mode c = Enforcing -> declared (st_foot s) k ReadOnly) ->
  let li := sc_li c in
  mn <= mx -> contents c s k = Some (e, Some old) -> key_durability k = Some d -> li_seq li <= old <= u32_max ->
  (d = Temporary -> li_seq li + ext <= max_live li) ->
  snd (sstep c s (SExtendV2 k ext mn mx)) = Ok OUnit.
Proof. exact extend_v2_ok. Qed.
Print Assumptions C21_succeeds.

Example C21_example :
  contents ex_rec (fst (sstep ex_rec empty_storage (SExtendV2 kC 600 10 300))) kC = Some (EData (SU32 33), Some 500)
  /\ contents ex_rec (fst (sstep ex_rec empty_storage (SExtendV2 kC 600 501 900))) kC = Some (EData (SU32 33), Some 200)
  /\ contents ex_rec (fst (sstep ex_rec empty_storage (SExtendV2 kC 600 500 900))) kC = Some (EData (SU32 33), Some 700)
  /\ contents ex_rec (fst (sstep ex_rec empty_storage (SExtendV2 kC 60000 0 90000))) kC = Some (EData (SU32 33), Some 10099).
Proof. vm_compute. repeat split; reflexivity. Qed.

(* ---------------------------------------------------------------- C22 *)

(* Whatever contracts do, in either mode, every Soroban entry they read is live
   at the current ledger. *)
Theorem C22_reads_are_live :
  forall c p s s' r t, li_ok (sc_li c) -> run_ok c s -> alive (sc_li c) (contents c s) ->
  srun c s (compile (sc_li c) p) = (s', r, t) ->
  forall k e l, In (SGet k, Ok (OEntry (Some (e, l)))) t -> live (sc_li c) k (Some (e, l)).
Proof. exact contract_reads. Qed.
Print Assumptions C22_reads_are_live.

(* A recording starts, and stays, with live contents. *)
Theorem C22_recording_is_live :
  forall c s, li_ok (sc_li c) -> recording_ok c s -> alive (sc_li c) (contents c s).
Proof. exact recording_alive. Qed.
Print Assumptions C22_recording_is_live.

Theorem C22_expired_temporary_is_missing :
  forall c s k src e l, li_ok (sc_li c) -> recording_ok c s -> sc_mode c = Recording src ->
  key_durability k = Some Temporary -> mget (st_map s) k = None -> src k = Some (e, Some l) -> l < li_seq (sc_li c) ->
  snd (sstep c s (SGet k)) = Ok (OEntry None) /\ snd (sstep c s (SHas k)) = Ok (OBool false).
Proof. exact expired_temp_missing. Qed.
Print Assumptions C22_expired_temporary_is_missing.

Theorem C22_archived_is_restored :
  forall c s k s' r src e l, li_ok (sc_li c) -> recording_ok c s -> sc_mode c = Recording src ->
  key_durability k = Some Persistent -> mget (st_map s) k = None -> src k = Some (e, Some l) -> l < li_seq (sc_li c) ->
  sstep c s (SGet k) = (s', r) ->
  r = Ok (OEntry (Some (e, Some (min_live (sc_li c) Persistent)))) /\ declared (st_foot s') k ReadWrite.
Proof. exact restored_is_read_write. Qed.
Print Assumptions C22_archived_is_restored.

Example C22_example :
  recording_ok ex_rec empty_storage
  /\ snd (sstep ex_rec empty_storage (SGet kB)) = Ok (OEntry None)
  /\ snd (sstep ex_rec empty_storage (SGet kA)) = Ok (OEntry (Some (EData (SU32 11), Some 4195)))
  /\ snd (sstep ex_rec empty_storage (SGet kC)) = Ok (OEntry (Some (EData (SU32 33), Some 200))).
Proof. split; [exact ex_recording_ok|]. vm_compute. repeat split; reflexivity. Qed.

(* ---------------------------------------------------------------- C23 *)

(* put_contract_data: on success the entry has the new value, keeping the
   live-until of an existing entry, or the minimum of its durability if new; no
   other key (of either durability, of any contract) changes.  On failure
   nothing changes. *)
Theorem C23_put_contract_data :
  forall c s a k v d s' r t, li_ok (sc_li c) -> run_ok c s -> alive (sc_li c) (contents c s) ->
  srun c s (put_contract_data (sc_li c) a k v d) = (s', r, t) ->
  match r with
  | Ok _ => forall k', contents c s' k' =
      if lkey_eq_dec k' (LKData a k d)
      then Some (EData v, match contents c s (LKData a k d) with
                          | Some (_, l) => l
                          | None => Some (min_live (sc_li c) d)
                          end)
      else contents c s k'
  | Err _ => forall k', contents c s' k' = contents c s k'
  end.
Proof. exact put_contract_data_correct. Qed.
Print Assumptions C23_put_contract_data.

(* It fails only on the footprint, an entry that is not contract data, or a bad
   executable reference. *)
Theorem C23_put_succeeds :
  forall c s a k v d, li_ok (sc_li c) -> run_ok c s -> alive (sc_li c) (contents c s) ->
  (sc_mode c = Enforcing -> declared (st_foot s) (LKData a k d) ReadWrite) ->
  (forall tag, k <> SExecutableTag tag) ->
  (forall e l, contents c s (LKData a k d) = Some (e, l) -> exists w, e = EData w) ->
  snd (fst (srun c s (put_contract_data (sc_li c) a k v d))) = Ok OUnit.
Proof. exact put_contract_data_succeeds. Qed.
Print Assumptions C23_put_succeeds.

(* get, has, del *)
Theorem C23_get_has_del :
  forall c s a k d s' r t, li_ok (sc_li c) -> run_ok c s ->
  (srun c s (get_contract_data a k d) = (s', r, t) ->
     (forall k', contents c s' k' = contents c s k')
     /\ (forall o, r = Ok o -> exists v l, o = OEntry (Some (EData v, l)) /\ contents c s (LKData a k d) = Some (EData v, l)))
  /\ (srun c s (has_contract_data a k d) = (s', r, t) ->
     (forall k', contents c s' k' = contents c s k')
     /\ (forall o, r = Ok o -> exists b, o = OBool b /\ (b = true <-> contents c s (LKData a k d) <> None)))
  /\ (srun c s (del_contract_data a k d) = (s', r, t) ->
     (forall k', k' <> LKData a k d -> contents c s' k' = contents c s k')
     /\ (contents c s' (LKData a k d) = if is_ok r then None else contents c s (LKData a k d))).
Proof. exact get_has_del_correct. Qed.
Print Assumptions C23_get_has_del.

Theorem C23_durabilities_independent :
  forall a k, LKData a k Persistent <> LKData a k Temporary.
Proof. intros a k. discriminate. Qed.
Print Assumptions C23_durabilities_independent.

Example C23_example :
  let run p := fst (fst (srun ex_rec empty_storage p)) in
  contents ex_rec (run (put_contract_data ex_li ex_c (SU32 3) (SU32 44) Persistent)) kC = Some (EData (SU32 44), Some 200)
  /\ contents ex_rec (run (put_contract_data ex_li ex_c (SU32 3) (SU32 44) Temporary)) kC = Some (EData (SU32 33), Some 200)
  /\ contents ex_rec (run (put_contract_data ex_li ex_c (SU32 3) (SU32 44) Temporary)) (LKData ex_c (SU32 3) Temporary)
     = Some (EData (SU32 44), Some 115).
Proof. vm_compute. repeat split; reflexivity. Qed.
