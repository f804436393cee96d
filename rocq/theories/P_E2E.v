(* Properties C47 (the ledger changes of a transaction), C48 (its rent), C49 (a
   failed transaction), C61 (simulation predicts the transaction). *)
From Coq Require Import ZArith Lia List Bool Permutation.
From Verif Require Import Prelude ValModel ContainerModel HeapModel AMap StorageModel StorageSpec
  StorageProofs StorageProofs2 FeesModel FrameModel FrameSpec FrameProofs FrameProofs2 FrameProofs5
  E2EModel E2ESpec E2EProofs E2EProofs2 ReplayProofs E2EProofs3 E2EProofs4.
Import ListNotations.
Open Scope Z_scope.

(* ---------------------------------------------------------------- an example *)

(* Contract a = [10], at ledger 100.
   a.run: extends entry 1 (read-only, lives until 500) to 2100, reads and rewrites
     entry 2 (restored from the archive), deletes entry 3 (temporary), creates entry
     4 (temporary), publishes an event and returns.
   a.bad: writes entry 4, publishes, and fails with its error 3.
   a.try: tries b.boom, which rewrites entry 2 of b and fails. *)
Definition ex_a : list Z := [10].
Definition ex_b : list Z := [11].
Definition ex_ha : list Z := repeat 1 32.
Definition ex_hb : list Z := repeat 2 32.
Definition ex_run : list Z := [114; 117; 110].
Definition ex_bad : list Z := [98; 97; 100].
Definition ex_try : list Z := [116; 114; 121].
Definition ex_boom : list Z := [98; 111; 111; 109].
Definition ex_wasm (h fn : list Z) (args : list scval) : option gprog :=
  if zlist_eq_dec h ex_ha then
    if zlist_eq_dec fn ex_run then
      Some (GOp (OStore (HExtend (SU32 1) Persistent 1000 2000)) (fun _ =>
            GOp (OStore (HGet (SU32 2) Persistent)) (fun _ =>
            GOp (OStore (HPut (SU32 2) (SU32 7) Persistent)) (fun _ =>
            GOp (OStore (HDel (SU32 3) Temporary)) (fun _ =>
            GOp (OStore (HPut (SU32 4) (SU32 9) Temporary)) (fun _ =>
            GOp (OEvent false (SU32 100)) (fun _ => GRet (SU32 1))))))))
    else if zlist_eq_dec fn ex_bad then
      Some (GOp (OStore (HPut (SU32 4) (SU32 9) Temporary)) (fun _ =>
            GOp (OEvent false (SU32 100)) (fun _ => GFail (EContract 3))))
    else if zlist_eq_dec fn ex_try then Some (GTry ex_b ex_boom [] (fun v => GRet (SVec (Some [v]))))
    else None
  else if zlist_eq_dec h ex_hb then
    if zlist_eq_dec fn ex_boom then
      Some (GOp (OStore (HPut (SU32 2) (SU32 7) Persistent)) (fun _ => GFail (EContract 7)))
    else None
  else None.
Definition ex_env : env Z := {|
  sub_prng := fun b => (1000 * b, b + 1);
  reseed := fun s => fold_left Z.add s 0;
  draw := fun o p => (p + 1, Ok (SU64 p));
  wasm := ex_wasm;
  wasm_proto := fun _ => 23;
  sac := fun _ _ => GRet SVoid;
  cid := fun _ => [12];
  check_upload := fun w => Ok (repeat 3 32, w)
|}.
Definition ex_li : linfo := {| li_seq := 100; li_min_temp := 16; li_min_persistent := 4096; li_max_ttl := 10000 |}.
Definition ex_cd : codec := {| entry_len := fun _ e => match e with EData (SU32 n) => 70 + n | _ => 200 end;
                               code_cost := fun _ => 1000 |}.
Definition ex_key (id : list Z) (n : Z) (d : durability) : lkey := LKData (AContract id) (SU32 n) d.
Definition ex_inst (h : list Z) : entry := EData (SContractInstance (ExWasm h) None).
Definition ex_foot : lfoot :=
  {| f_ro := [instance_key (AContract ex_a); LKCode ex_ha; ex_key ex_a 1 Persistent];
     f_rw := [ex_key ex_a 2 Persistent; ex_key ex_a 3 Temporary; ex_key ex_a 4 Temporary] |}.
Definition ex_its : list item :=
  [(Some (ex_inst ex_ha), Some {| tm_live := 500; tm_size := 200 |});
   (Some (ECode [1]), Some {| tm_live := 500; tm_size := 1200 |});
   (Some (EData (SU32 5)), Some {| tm_live := 500; tm_size := 75 |});
   (Some (EData (SU32 6)), Some {| tm_live := 4195; tm_size := 76 |});
   (Some (EData (SU32 6)), Some {| tm_live := 110; tm_size := 76 |});
   (None, None)].

Example ex_li_ok : li_ok ex_li.
Proof. unfold li_ok, min_live, max_live, u32_max. cbn. lia. Qed.
Example ex_nodup : NoDup (f_ro ex_foot ++ f_rw ex_foot).
Proof. repeat constructor; cbn; intuition discriminate. Qed.
Example ex_input : input_ok ex_li ex_foot [0%nat] ex_its.
Proof.
  split; [|split].
  - repeat constructor; cbn; eauto; eexists; (split; [reflexivity|cbn; lia]).
  - repeat constructor.
  - repeat constructor.
Qed.

(* ---------------------------------------------------------------- C47 *)

(* A transaction is processed exactly when its inputs fit together. *)
Theorem C47_which_inputs {P} (E : env P) cd li build base f idx its fn : li_ok li -> NoDup (f_ro f ++ f_rw f) ->
  (exists out, invoke_host_function E cd li build base f idx its fn = Ok out) <-> input_ok li f idx its.
Proof.
  intros LI ND. split.
  - intros [out H]. now apply (accepted_inputs _ _ _ _ _ _ _ _ _ _ LI H).
  - intros H. destruct (invoke_outcome E cd li build base f idx its fn LI ND H) as (s & h' & r & t & _ & _ & _ & _ & _ & O).
    rewrite O. eauto.
Qed.

(* One change for every key of the footprint, in order; those of read-only keys have
   no value. *)
Theorem C47_one_change_per_key {P} (E : env P) cd li build base f idx its fn out : li_ok li -> NoDup (f_ro f ++ f_rw f) ->
  invoke_host_function E cd li build base f idx its fn = Ok out -> is_ok (o_result out) = true ->
  map (fun c => (ch_ro c, ch_key c)) (o_changes out) = map (pair true) (f_ro f) ++ map (pair false) (f_rw f)
  /\ Forall (fun c => ch_ro c = true -> ch_value c = None) (o_changes out).
Proof.
  intros LI ND H. pose proof (accepted_inputs _ _ _ _ _ _ _ _ _ _ LI H) as I.
  destruct (invoke_outcome E cd li build base f idx its fn LI ND I) as (s & h' & r & t & _ & _ & _ & _ & _ & O).
  rewrite H in O. injection O as ->. cbn. destruct r as [v|e]; [|discriminate]. intros _. split.
  - unfold outcomes. rewrite !map_map. cbn. unfold positions.
    pose proof (Forall2_len _ _ _ (proj1 I)) as LE.
    transitivity (map (fun p => (match fst p with ReadOnly => true | ReadWrite => false end, snd p)) (foot_accesses f)).
    + rewrite <- (combine_fst_map (B := item) (fun p => (match fst p with ReadOnly => true | ReadWrite => false end, snd p)) (foot_accesses f) its); [reflexivity|].
      rewrite <- LE, <- (foot_accesses_keys f), map_length. reflexivity.
    + unfold foot_accesses. rewrite map_app, !map_map. reflexivity.
  - apply Forall_forall. intros c J. apply in_map_iff in J. destruct J as (o & <- & J). cbn. destruct (oc_access o); [auto|discriminate].
Qed.

(* Applied to any ledger that holds the entries the transaction was given read-only,
   the changes leave every key of the footprint as it was at the end of the
   execution, living at least as long as before (and, if restored, at least the
   minimum), and every other key untouched. *)
Theorem C47_ledger_gets_the_final_state {P} (E : env P) cd li build base f idx its fn out : li_ok li -> NoDup (f_ro f ++ f_rw f) ->
  invoke_host_function E cd li build base f idx its fn = Ok out -> is_ok (o_result out) = true ->
  let c := {| sc_li := li; sc_mode := Enforcing; sc_recording_build := build |} in
  exists s h' t, starts c f its s /\ invoke E c (fresh_host s base) fn = (h', o_result out, t)
  /\ forall L : store, (forall k, In k (f_ro f) -> option_map fst (L k) = option_map fst (given (combine (f_ro f ++ f_rw f) its) k)) ->
     (forall a k it, In (a, k, it) (positions f its) ->
        apply_changes L (o_changes out) k
        = match contents c (h_store h') k with
          | None => None
          | Some (e, l) =>
              Some (e, match key_durability k, l with
                       | Some _, Some x =>
                           Some (Z.max (Z.max x (match snd it with Some t => tm_live t | None => 0 end))
                                       (match a with ReadWrite => if restored_key f idx k then min_live li Persistent else 0 | ReadOnly => 0 end))
                       | _, _ => None
                       end)
          end)
     /\ (forall k, ~ In k (f_ro f ++ f_rw f) -> apply_changes L (o_changes out) k = L k).
Proof.
  intros LI ND H RO c. pose proof (accepted_inputs _ _ _ _ _ _ _ _ _ _ LI H) as I.
  destruct (invoke_outcome E cd li build base f idx its fn LI ND I) as (s & h' & r & t & ST & IV & AL & KP & _ & O).
  fold c in ST, IV, AL, KP, O. rewrite H in O. injection O as ->. cbn [o_result o_changes] in *. destruct r as [v|e]; [|discriminate].
  exists s, h', t. split; [exact ST|]. split; [exact IV|]. intros L LR.
  pose proof (Forall2_len _ _ _ (proj1 I)) as LE. destruct ST as (_ & _ & CT & FG).
  destruct (apply_reports li cd (outcomes f idx its (contents c (h_store h')))) with (L := L) as [A B].
  - rewrite outcomes_keys; auto.
  - intros o J RO'. destruct (outcome_in _ _ _ _ _ J) as (O1 & O2 & O3 & O4). rewrite O1. rewrite RO' in O2.
    pose proof (access_of_ro _ _ O2) as AC. destruct (KP (oc_key o)) as [_ K]. rewrite FG in K. specialize (K AC). rewrite CT in K.
    rewrite LR.
    + unfold only_longer in K. destruct (given _ (oc_key o)) as [[e l]|], (contents c (h_store h') (oc_key o)) as [[e' l']|]; try contradiction; auto.
      destruct K as [-> _]. reflexivity.
    + unfold foot_accesses in O2. apply in_app_or in O2. destruct O2 as [O2|O2]; apply in_map_iff in O2; destruct O2 as (x & [=] & O2). now subst.
  - split.
    + intros a k it J.
      set (o := {| oc_access := a; oc_key := k; oc_item := it;
                   oc_restored := match a with ReadWrite => restored_key f idx k | ReadOnly => false end;
                   oc_after := contents c (h_store h') k |}).
      assert (JO : In o (outcomes f idx its (contents c (h_store h')))).
      { unfold outcomes. apply in_map_iff. exists (a, k, it). split; auto. }
      transitivity (settled li o); [exact (A o JO)|]. unfold settled, new_live, o. cbn [oc_after oc_key oc_item oc_restored oc_access].
      destruct (contents c (h_store h') k) as [[e l]|] eqn:CK; auto. f_equal. f_equal.
      destruct (key_durability k) as [d|] eqn:KD; auto. specialize (AL k). rewrite CK in AL. cbn in AL. rewrite KD in AL.
      destruct (AL ltac:(discriminate)) as (x & -> & LX). destruct a; reflexivity.
    + intros k N. apply B. rewrite outcomes_keys; auto.
Qed.

(* Nothing that survives lives shorter than before, and a restored entry that
   survives lives at least the minimum for a new one. *)
Theorem C47_lifetimes_never_shrink {P} (E : env P) cd li build base f idx its fn out ch it x t : li_ok li -> NoDup (f_ro f ++ f_rw f) ->
  invoke_host_function E cd li build base f idx its fn = Ok out ->
  In ch (o_changes out) -> In (ch_key ch, it) (combine (f_ro f ++ f_rw f) its) -> snd it = Some x -> ch_ttl ch = Some t ->
  (ch_ro ch = false /\ ch_value ch = None)
  \/ tm_live x <= tc_new t /\ li_seq li <= tc_new t
     /\ (ch_ro ch = false -> restored_key f idx (ch_key ch) = true -> min_live li Persistent <= tc_new t).
Proof.
  intros LI ND H IC IT SX CT. pose proof (accepted_inputs _ _ _ _ _ _ _ _ _ _ LI H) as I.
  destruct (invoke_outcome E cd li build base f idx its fn LI ND I) as (s & h' & r & tt & ST & IV & AL & KP & _ & O).
  rewrite H in O. injection O as ->. cbn [o_changes] in *. destruct r as [v|e]; [|destruct IC].
  apply in_map_iff in IC. destruct IC as (o & <- & J). destruct (outcome_in _ _ _ _ _ J) as (O1 & O2 & O3 & O4).
  pose proof (Forall2_len _ _ _ (proj1 I)) as LE.
  assert (oc_item o = it) as <-.
  { change (ch_key (report li cd o)) with (oc_key o) in IT. clear - O3 IT ND LE. revert LE ND O3 IT. generalize (f_ro f ++ f_rw f) as ks. intros ks. revert its.
    induction ks as [|k ks IH]; intros [|i its] LE ND A B; cbn in *; try tauto. inversion ND; subst. injection LE as LE.
    destruct A as [A|A], B as [B|B]; try congruence; try (now eapply IH; eauto).
    - injection A as -> ->. apply in_combine_l in B. contradiction.
    - injection B as -> ->. apply in_combine_l in A. contradiction. }
  cbn [report ch_ro ch_value ch_key ch_ttl] in *. destruct (key_durability (oc_key o)) as [d|] eqn:KD; [|discriminate].
  injection CT as <-. cbn [tc_new]. destruct ST as (_ & _ & CT & FG).
  destruct (oc_after o) as [[e l]|] eqn:AF.
  - right. unfold new_live. rewrite AF, SX, O4. specialize (AL (oc_key o)). rewrite <- O1 in AL.
    cbn in AL. rewrite KD in AL. destruct (AL ltac:(discriminate)) as (y & -> & LY). split; [lia|]. split; [lia|]. destruct (oc_access o); [discriminate|].
    intros _ ->. lia.
  - destruct (oc_access o) eqn:AC; [|left; auto]. exfalso.
    pose proof (access_of_ro _ _ O2) as AO. destruct (KP (oc_key o)) as [_ K]. rewrite FG in K. specialize (K AO). rewrite <- O1 in K.
    rewrite CT, (given_in _ _ _ LE ND _ O3) in K.
    destruct I as (I & _). clear - K I O3 SX. destruct (oc_item o) as [[e|] m]; cbn in K, SX.
    + destruct K.
    + subst m. assert (G : forall its' (ks : list lkey) k, Forall2 (item_ok li) ks its' -> In (k, (None, Some x)) (combine ks its') -> False).
      { intros its' ks k F. induction F as [|k0 i0 ks its' F0 F IH]; cbn; [tauto|]. intros [[= -> ->]|Q]; auto. cbn in F0. discriminate. }
      exact (G _ _ _ I O3).
Qed.

Example C47_example :
  exists out, invoke_host_function ex_env ex_cd ex_li false 7 ex_foot [0%nat] ex_its (HFInvoke ex_a ex_run []) = Ok out
  /\ o_result out = Ok (SU32 1) /\ length (o_changes out) = 6%nat
  /\ (let L := fun k => given (combine (f_ro ex_foot ++ f_rw ex_foot) ex_its) k in
      apply_changes L (o_changes out) (ex_key ex_a 1 Persistent) = Some (EData (SU32 5), Some 2100)
      /\ apply_changes L (o_changes out) (ex_key ex_a 2 Persistent) = Some (EData (SU32 7), Some 4195)
      /\ apply_changes L (o_changes out) (ex_key ex_a 3 Temporary) = None
      /\ apply_changes L (o_changes out) (ex_key ex_a 4 Temporary) = Some (EData (SU32 9), Some 115)
      /\ apply_changes L (o_changes out) (LKCode ex_ha) = Some (ECode [1], Some 500)).
Proof. eexists. split; [vm_compute; reflexivity|]. vm_compute. auto 10. Qed.

(* Too few entries, an expired entry, or a restored index out of range. *)
Example C47_which_inputs_example :
  input_ok ex_li ex_foot [0%nat] ex_its
  /\ invoke_host_function ex_env ex_cd ex_li false 7 ex_foot [0%nat] (removelast ex_its) (HFInvoke ex_a ex_run []) = Err (ESys TStorage CInternalError)
  /\ is_ok (invoke_host_function ex_env ex_cd ex_li false 7 ex_foot [3%nat] ex_its (HFInvoke ex_a ex_run [])) = false
  /\ is_ok (invoke_host_function ex_env ex_cd {| li_seq := 111; li_min_temp := 16; li_min_persistent := 4096; li_max_ttl := 10000 |}
       false 7 ex_foot [0%nat] ex_its (HFInvoke ex_a ex_run [])) = false.
Proof. split; [exact ex_input|]. vm_compute. auto. Qed.

(* ---------------------------------------------------------------- C48 *)

(* Rent is due exactly for the entries that are there in the end and live longer or
   are larger than before, an entry that is new or restored counting from zero. *)
Theorem C48_rent_of_a_transaction {P} (E : env P) cd li build base f idx its fn out : li_ok li -> NoDup (f_ro f ++ f_rw f) ->
  invoke_host_function E cd li build base f idx its fn = Ok out -> is_ok (o_result out) = true ->
  let c := {| sc_li := li; sc_mode := Enforcing; sc_recording_build := build |} in
  exists s h' t, starts c f its s /\ invoke E c (fresh_host s base) fn = (h', o_result out, t)
  /\ extract_rent_changes (o_changes out) = flat_map (rent_due li cd) (outcomes f idx its (contents c (h_store h'))).
Proof.
  intros LI ND H RO c. pose proof (accepted_inputs _ _ _ _ _ _ _ _ _ _ LI H) as I.
  destruct (invoke_outcome E cd li build base f idx its fn LI ND I) as (s & h' & r & t & ST & IV & AL & KP & _ & O).
  fold c in ST, IV, AL, KP, O. rewrite H in O. injection O as ->. cbn [o_result o_changes] in *. destruct r as [v|e]; [|discriminate].
  exists s, h', t. split; [exact ST|]. split; [exact IV|].
  assert (G : forall os, (forall o, In o os -> item_ok li (oc_key o) (oc_item o) /\ live li (oc_key o) (oc_after o)) ->
            extract_rent_changes (map (report li cd) os) = flat_map (rent_due li cd) os).
  { induction os as [|o os IH]; intros Q; [reflexivity|]. unfold extract_rent_changes in *. cbn [map flat_map].
    rewrite rent_of_report; try apply Q; [|apply LI|now left|now left]. f_equal. apply IH. intros o' J. apply Q. now right. }
  apply G. intros o J. destruct (outcome_in _ _ _ _ _ J) as (O1 & O2 & O3 & O4). split; [|rewrite O1; apply AL].
  destruct I as (I & _). clear - I O3. induction I; cbn in O3; [destruct O3|]. destruct O3 as [[= <- <-]|O3]; auto.
Qed.

(* An extension only, a write only, a new entry, a restored one, a deletion. *)
Example C48_example :
  exists out, invoke_host_function ex_env ex_cd ex_li false 7 ex_foot [0%nat] ex_its (HFInvoke ex_a ex_run []) = Ok out
  /\ extract_rent_changes (o_changes out) =
     [{| e_persistent := true; e_code := false; e_old_size := 75; e_new_size := 75; e_old_live := 500; e_new_live := 2100 |};
      {| e_persistent := true; e_code := false; e_old_size := 0; e_new_size := 77; e_old_live := 0; e_new_live := 4195 |};
      {| e_persistent := false; e_code := false; e_old_size := 0; e_new_size := 79; e_old_live := 0; e_new_live := 115 |}].
Proof. eexists. split; [vm_compute; reflexivity|]. vm_compute. reflexivity. Qed.

(* ---------------------------------------------------------------- C49 *)

(* A failed transaction reports no change and publishes nothing; its storage is left
   as it was. *)
Theorem C49_failed_transaction {P} (E : env P) cd li build base f idx its fn out e : li_ok li -> NoDup (f_ro f ++ f_rw f) ->
  invoke_host_function E cd li build base f idx its fn = Ok out -> o_result out = Err e ->
  let c := {| sc_li := li; sc_mode := Enforcing; sc_recording_build := build |} in
  o_changes out = [] /\ o_events out = []
  /\ exists s h' t, starts c f its s /\ invoke E c (fresh_host s base) fn = (h', Err e, t)
     /\ forall k, contents c (h_store h') k = contents c s k.
Proof.
  intros LI ND H RE c. pose proof (accepted_inputs _ _ _ _ _ _ _ _ _ _ LI H) as I.
  destruct (invoke_outcome E cd li build base f idx its fn LI ND I) as (s & h' & r & t & ST & IV & AL & KP & UN & O).
  fold c in ST, IV, AL, KP, O, UN. rewrite H in O. injection O as ->. cbn [o_result o_changes o_events] in *. subst r.
  repeat split. exists s, h', t. split; [exact ST|]. split; [exact IV|]. now apply UN.
Qed.

(* A successful one publishes the non-diagnostic events of the calls that were kept,
   in order. *)
Theorem C49_published_events {P} (E : env P) cd li build base f idx its fn out : li_ok li -> NoDup (f_ro f ++ f_rw f) ->
  invoke_host_function E cd li build base f idx its fn = Ok out -> is_ok (o_result out) = true ->
  let c := {| sc_li := li; sc_mode := Enforcing; sc_recording_build := build |} in
  exists s h' t, starts c f its s /\ invoke E c (fresh_host s base) fn = (h', o_result out, t)
  /\ o_events out = filter not_diagnostic (flat_map kept t).
Proof.
  intros LI ND H RO c. pose proof (accepted_inputs _ _ _ _ _ _ _ _ _ _ LI H) as I.
  destruct (invoke_outcome E cd li build base f idx its fn LI ND I) as (s & h' & r & t & ST & IV & AL & KP & UN & O).
  fold c in ST, IV, AL, KP, O, UN. rewrite H in O. injection O as ->. cbn [o_result o_changes o_events] in *.
  destruct r as [v|e]; [|discriminate]. exists s, h', t. auto.
Qed.

Example C49_example :
  invoke_host_function ex_env ex_cd ex_li false 7 ex_foot [0%nat] ex_its (HFInvoke ex_a ex_bad [])
  = Ok {| o_result := Err (EContract 3); o_changes := []; o_events := [] |}
  /\ exists out, invoke_host_function ex_env ex_cd ex_li false 7 ex_foot [0%nat] ex_its (HFInvoke ex_a ex_run []) = Ok out
     /\ length (o_events out) = 1%nat.
Proof. split; [vm_compute; reflexivity|]. eexists. split; [vm_compute; reflexivity|]. reflexivity. Qed.

(* ---------------------------------------------------------------- C61 *)

Definition ex_src : lkey -> option lentry := fun k =>
  if lkey_eq_dec k (instance_key (AContract ex_a)) then Some (ex_inst ex_ha, Some 500)
  else if lkey_eq_dec k (instance_key (AContract ex_b)) then Some (ex_inst ex_hb, Some 500)
  else if lkey_eq_dec k (LKCode ex_ha) then Some (ECode [1], Some 500)
  else if lkey_eq_dec k (LKCode ex_hb) then Some (ECode [2], Some 500)
  else if lkey_eq_dec k (ex_key ex_a 1 Persistent) then Some (EData (SU32 5), Some 500)
  else if lkey_eq_dec k (ex_key ex_a 2 Persistent) then Some (EData (SU32 6), Some 99)
  else if lkey_eq_dec k (ex_key ex_b 2 Persistent) then Some (EData (SU32 6), Some 99)
  else if lkey_eq_dec k (ex_key ex_a 3 Temporary) then Some (EData (SU32 6), Some 110)
  else None.
Example ex_ledger : ledger_ok ex_src.
Proof.
  intros k e l. unfold ex_src.
  repeat (destruct (lkey_eq_dec k _) as [->|]; [intros [= <- <-] _; cbn; split; discriminate|]). discriminate.
Qed.

(* A simulation always gives a result, and the transaction it proposes, given the
   ledger's entries, is accepted and gives that result and those events.  It restores
   exactly the archived entries it declares, and announces the bytes to read from disk.
   Each of its changes is the one the
   simulation announced (same value, lifetime, size and rent), except for keys the
   simulation only announced by name; such a key keeps its value. *)
Theorem C61_simulation_predicts {P} (E : env P) cd li base src fn : li_ok li -> ledger_ok src ->
  exists rec, invoke_in_recording_mode E cd li base src fn = Ok rec
  /\ NoDup (f_ro (rc_foot rec) ++ f_rw (rc_foot rec))
  /\ input_ok li (rc_foot rec) (rc_restored rec) (map (provided li cd src) (f_ro (rc_foot rec) ++ f_rw (rc_foot rec)))
  /\ (forall k, In k (f_rw (rc_foot rec)) -> (restored_key (rc_foot rec) (rc_restored rec) k = true <-> archived li src k))
  /\ rc_write rec = write_bytes cd (rc_changes rec)
  /\ rc_disk_read rec = sat_u32 (total (map (disk_bytes li cd src) (f_ro (rc_foot rec) ++ f_rw (rc_foot rec))))
  /\ forall build, exists out,
       invoke_host_function E cd li build base (rc_foot rec) (rc_restored rec)
         (map (provided li cd src) (f_ro (rc_foot rec) ++ f_rw (rc_foot rec))) fn = Ok out
       /\ o_result out = rc_result rec /\ o_events out = rc_events rec
       /\ exists l, Permutation (rc_changes rec) l
          /\ Forall2 (fun c d => foretells c d
                                 \/ bare c /\ ch_ro c = ch_ro d /\ ch_key c = ch_key d
                                    /\ ch_value d = (if ch_ro d then None else fst (provided li cd src (ch_key d))))
                     l (o_changes out).
Proof.
  intros LI LOK. destruct (recording_predicts_full E cd li base src fn LI LOK) as (h & r & t & rec & _ & R1 & R2 & R3 & R4 & R5 & R5d & R6).
  exists rec. repeat (split; [assumption|]). intros build. destruct (R6 build) as (out & O1 & O2 & O3 & l & L1 & L2 & _).
  exists out. repeat (split; [assumption|]). exists l. auto.
Qed.

(* If no call failed in the simulation, not even inside a try_call, the transaction
   makes exactly the changes announced: same keys in the same order, same values,
   lifetimes and sizes, the bytes written and the rent as announced. *)
Theorem C61_exact_if_no_call_failed {P} (E : env P) cd li base src fn h r t : li_ok li -> ledger_ok src ->
  invoke E {| sc_li := li; sc_mode := Recording src; sc_recording_build := true |} (fresh_host empty_storage base) fn = (h, r, t) ->
  forallb calm t = true ->
  exists rec, invoke_in_recording_mode E cd li base src fn = Ok rec
  /\ forall build, exists out,
       invoke_host_function E cd li build base (rc_foot rec) (rc_restored rec)
         (map (provided li cd src) (f_ro (rc_foot rec) ++ f_rw (rc_foot rec))) fn = Ok out
       /\ o_result out = r /\ rc_result rec = r /\ o_events out = rc_events rec
       /\ Forall2 foretells (rc_changes rec) (o_changes out)
       /\ rc_write rec = write_bytes cd (o_changes out)
       /\ extract_rent_changes (rc_changes rec) = extract_rent_changes (o_changes out).
Proof.
  intros LI LOK IV CM. destruct (recording_predicts_full E cd li base src fn LI LOK) as (h2 & r2 & t2 & rec & IV2 & R1 & R2 & R3 & R4 & R5 & R5d & R6).
  rewrite IV in IV2. injection IV2 as <- <- <-.
  assert (FU : full (h_store h)).
  { refine (full_invoke E {| sc_li := li; sc_mode := Recording src; sc_recording_build := true |} src eq_refl fn (fresh_host empty_storage base) h r t _ IV CM).
    intros k H. cbn in H. congruence. }
  exists rec. split; [exact R1|]. intros build. destruct (R6 build) as (out & O1 & O2 & O3 & l & L1 & L2 & L3). specialize (L3 FU).
  exists out. split; [exact O1|].
  assert (RR : rc_result rec = r).
  { destruct (recording_outcome E cd li base src fn LI LOK) as (h3 & r3 & t3 & rec3 & IV3 & _ & Q1 & Q2 & _).
    rewrite R1 in Q1. injection Q1 as <-. rewrite IV in IV3. now injection IV3 as <- <- <-. }
  split; [congruence|]. split; [exact RR|]. split; [exact O3|]. split; [exact L3|].
  split; [rewrite R5; now apply foretold_bytes|now apply foretold_rent].
Qed.

Example C61_example :
  exists rec, invoke_in_recording_mode ex_env ex_cd ex_li 7 ex_src (HFInvoke ex_a ex_run []) = Ok rec
  /\ rc_result rec = Ok (SU32 1) /\ length (rc_restored rec) = 1%nat /\ length (rc_changes rec) = 6%nat
  /\ rc_write rec = 77 + 79 /\ rc_disk_read rec = 76.
Proof. eexists. split; [vm_compute; reflexivity|]. vm_compute. auto 10. Qed.
Example C61_calm_example :
  let c := {| sc_li := ex_li; sc_mode := Recording ex_src; sc_recording_build := true |} in
  (let '(_, _, t) := invoke ex_env c (fresh_host empty_storage 7) (HFInvoke ex_a ex_run []) in forallb calm t = true)
  /\ (let '(_, _, t) := invoke ex_env c (fresh_host empty_storage 7) (HFInvoke ex_a ex_try []) in forallb calm t = false).
Proof. vm_compute. auto. Qed.

(* The resources of a simulation can fall short: a.try tries b.boom, which touches an
   archived entry of b and fails.  The simulation lists the entry for restoration but
   announces neither its bytes nor its rent; the transaction writes it back and owes
   rent for it. *)
Theorem C61_simulation_is_exact_refuted :
  li_ok ex_li /\ ledger_ok ex_src
  /\ exists rec out, invoke_in_recording_mode ex_env ex_cd ex_li 7 ex_src (HFInvoke ex_a ex_try []) = Ok rec
     /\ invoke_host_function ex_env ex_cd ex_li false 7 (rc_foot rec) (rc_restored rec)
          (map (provided ex_li ex_cd ex_src) (f_ro (rc_foot rec) ++ f_rw (rc_foot rec))) (HFInvoke ex_a ex_try []) = Ok out
     /\ o_result out = Ok (SVec (Some [SError (EContract 7)])) /\ rc_result rec = o_result out
     /\ rc_write rec = 0 /\ write_bytes ex_cd (o_changes out) = 76
     /\ extract_rent_changes (rc_changes rec) = []
     /\ extract_rent_changes (o_changes out)
        = [{| e_persistent := true; e_code := false; e_old_size := 0; e_new_size := 76; e_old_live := 0; e_new_live := 4195 |}].
Proof.
  split; [exact ex_li_ok|]. split; [exact ex_ledger|].
  eexists. eexists. split; [vm_compute; reflexivity|]. split; [vm_compute; reflexivity|]. vm_compute. auto 10.
Qed.

Print Assumptions C47_which_inputs.
Print Assumptions C47_one_change_per_key.
Print Assumptions C47_ledger_gets_the_final_state.
Print Assumptions C47_lifetimes_never_shrink.
Print Assumptions C48_rent_of_a_transaction.
Print Assumptions C49_failed_transaction.
Print Assumptions C49_published_events.
Print Assumptions C61_simulation_predicts.
Print Assumptions C61_exact_if_no_call_failed.
Print Assumptions C61_simulation_is_exact_refuted.
