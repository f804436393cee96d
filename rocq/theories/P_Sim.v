(* Properties C55 (what a simulation promises) and C62 (accounts as simulations read
   them). *)
From Coq Require Import ZArith Lia List Bool.
From Coq Require Import Floats.SpecFloat.
From Verif Require Import Prelude ValModel HeapModel AMap StorageModel StorageSpec FeesModel FeesSpec FrameModel FrameSpec
  E2EModel E2ESpec StorageProofs2 SimModel SimSpec SimFloatProofs SimProofs SimProofs2 P_Fees P_E2E.
Import ListNotations.
Open Scope Z_scope.

(* ---------------------------------------------------------------- adjustment *)

(* Whatever the factors (even NaN), an adjusted value is at least the measured one plus
   the additive factor, and 0 stays 0. *)
Theorem C55_adjustment_never_lowers f v : 0 <= a_add f ->
  (in_u32 v -> v <= adjust_u32 f v <= u32_max /\ (v <> 0 -> Z.min u32_max (v + a_add f) <= adjust_u32 f v))
  /\ (in_i64 v -> v <= adjust_i64 f v <= i64_max /\ (v <> 0 -> Z.min i64_max (v + a_add f) <= adjust_i64 f v))
  /\ adjust_u32 f 0 = 0 /\ adjust_i64 f 0 = 0.
Proof.
  intros A. split; [|split; [|split; [apply adjust_u32_0|apply adjust_i64_0]]].
  - intros V. pose proof (adjust_u32_ge f v V A). unfold in_u32 in V. destruct (Z.eqb_spec v 0); lia.
  - intros V. pose proof (adjust_i64_ge f v V A). unfold in_i64 in V. destruct (Z.eqb_spec v 0); lia.
Qed.

(* With a finite positive factor m * 2^e it is max(value * factor, value + addend), rounded
   to one of the two integers around it and capped; for 64 bits, below 2^53. *)
Theorem C55_adjustment_value m e a v : in_u32 a ->
  let f := {| a_mul := S754_finite false m e; a_add := a |} in
  (0 < v <= u32_max ->
     Z.min u32_max (Z.max (v + a) (times_down v (Z.pos m) e)) <= adjust_u32 f v
     <= Z.min u32_max (Z.max (v + a) (times_up v (Z.pos m) e)))
  /\ (0 < v < 2 ^ 53 -> times_down v (Z.pos m) e < 2 ^ 53 ->
     Z.max (v + a) (times_down v (Z.pos m) e) <= adjust_i64 f v <= Z.max (v + a) (times_up v (Z.pos m) e)).
Proof.
  intros A. cbv zeta. split.
  - intros V. exact (adjust_u32_exact m e a v V (proj1 A)).
  - intros V L. exact (adjust_i64_exact m e a v V A L).
Qed.

(* No adjustment means no adjustment. *)
Theorem C55_no_adjustment v :
  (in_u32 v -> adjust_u32 no_adjustment v = v) /\ (0 <= v < 2 ^ 53 -> adjust_i64 no_adjustment v = v).
Proof. split; [apply unadjusted_u32|apply unadjusted_i64]. Qed.

(* Fees of 2^53 and more are rounded by the conversion to f64. *)
Theorem C55_no_adjustment_above_2_53_refuted :
  exists v, in_i64 v /\ adjust_i64 no_adjustment v <> v.
Proof. exists (2 ^ 53 + 3). vm_compute. intuition congruence. Qed.

Example C55_adjustment_example :
  adjust_u32 (j_insns default_adjustment) 2000000 = 2080000
  /\ adjust_u32 (j_insns default_adjustment) 1000 = 51000
  /\ adjust_u32 (j_insns default_adjustment) 4290000000 = u32_max
  /\ adjust_i64 (j_refund default_adjustment) 1001 = 1151
  /\ adjust_u32 {| a_mul := S754_nan; a_add := 5 |} 10 = 15.
Proof. vm_compute. auto. Qed.

(* ---------------------------------------------------------------- examples *)

Definition sim_cd : codec := {| entry_len := fun _ e => match e with EData (SU32 n) => 70 + Z.max 0 n | _ => 200 end;
                                code_cost := fun _ => 1000 |}.
Definition sim_net : network := {| n_fees := ex_fees; n_rent := ex_rent |}.
Definition sim_env : sim_op -> lfoot -> list nat -> option Z :=
  fun _ f r => Some (300 + 40 * Z.of_nat (length (f_ro f ++ f_rw f)) + 4 * Z.of_nat (length r)).
Example sim_len k e : 0 <= entry_len sim_cd k e.
Proof. cbv [entry_len sim_cd]. destruct e as [v| | | |]; try lia. destruct v; lia. Qed.

(* ---------------------------------------------------------------- extension *)

(* The transaction lists, in the order given, exactly the live entries among the keys
   whose lifetime ends before seq + to; nothing is read from disk or written.  The fee
   covers anything such a transaction can come to, with the rent for living until then. *)
Theorem C55_extend cd envelope fill src n j li ks to t :
  (forall k e, 0 <= entry_len cd k e) -> 0 <= li_seq li -> 0 <= to -> ledger_ok src ->
  simulate_extend_ttl_op cd envelope fill src n j li ks to = SOk t ->
  let f := {| f_ro := filter (needs_extension (li_seq li) to src) ks; f_rw := [] |} in
  exists size, envelope (OpExtend to) f [] = Some size
  /\ t_res t = {| s_foot := f; s_insns := 0; s_read := 0; s_write := 0 |} /\ t_restored t = []
  /\ (ok_fees (n_fees n) -> ok_adjustment j -> in_u32 size ->
      forall u, ok_resources u -> resources_le u (measured f [] 0 0 0 0 size) ->
      owed n li u (flat_map (fun k => rent_due li cd (after_extension li cd to src k)) (f_ro f)) <= t_fee t).
Proof. intros LEN SQ T LOK H. exact (extend_sim cd envelope fill LEN src n j li ks to t SQ T LOK H). Qed.

(* It succeeds exactly when every key is of a type that expires and its entry, if there
   is one, is alive (and the sizes can be encoded). *)
Theorem C55_extend_when cd envelope fill src n j li ks to :
  (forall k e, 0 <= entry_len cd k e) -> 0 <= li_seq li -> 0 <= to -> ledger_ok src ->
  (exists t, simulate_extend_ttl_op cd envelope fill src n j li ks to = SOk t)
  <-> li_seq li + to <= u32_max /\ Forall (extendable (li_seq li) src) ks
      /\ (forall k e l, In k ks -> needs_extension (li_seq li) to src k = true -> src k = Some (e, l) -> entry_len cd k e <= u32_max)
      /\ envelope (OpExtend to) {| f_ro := filter (needs_extension (li_seq li) to src) ks; f_rw := [] |} [] <> None.
Proof. intros LEN SQ T LOK. exact (extend_sim_ok cd envelope fill LEN src n j li ks to SQ T LOK). Qed.

Example C55_extend_example :
  exists t, simulate_extend_ttl_op sim_cd sim_env (fun p => p) ex_src sim_net default_adjustment ex_li
              [LKCode ex_ha; ex_key ex_a 3 Temporary; ex_key ex_a 9 Persistent; ex_key ex_a 1 Persistent] 400 = SOk t
  /\ f_ro (s_foot (t_res t)) = [ex_key ex_a 3 Temporary] /\ t_fee t = 31192.
Proof. eexists. split; [vm_compute; reflexivity|]. vm_compute. auto. Qed.

(* The documentation promises an error only for a mis-configured ledger. *)
Theorem C55_extend_overflows_refuted :
  exists ks to, to <= u32_max /\ Forall (extendable (li_seq ex_li) ex_src) ks
  /\ simulate_extend_ttl_op sim_cd sim_env (fun p => p) ex_src sim_net no_adjustments ex_li ks to = SErr SPanic.
Proof. exists [], u32_max. split; [lia|]. split; [constructor|]. reflexivity. Qed.

(* ---------------------------------------------------------------- restoration *)

(* Exactly the archived entries among the keys, their bytes read and written. *)
Theorem C55_restore cd envelope fill src n j li ks t :
  (forall k e, 0 <= entry_len cd k e) -> li_ok li -> 0 < li_seq li -> ledger_ok src ->
  simulate_restore_op cd envelope fill src n j li ks = SOk t ->
  let f := {| f_ro := []; f_rw := filter (is_archived li src) ks |} in
  let bytes := sat_u32 (total (map (disk_bytes li cd src) (f_rw f))) in
  exists size, envelope OpRestore f [] = Some size
  /\ t_res t = adjust_resources j {| s_foot := f; s_insns := 0; s_read := bytes; s_write := bytes |}
  /\ t_restored t = []
  /\ (ok_fees (n_fees n) -> ok_adjustment j -> in_u32 size -> Z.of_nat (length (f_rw f)) <= u32_max ->
      forall u, ok_resources u -> resources_le u (measured f [] 0 bytes bytes 0 size) ->
      owed n li u (flat_map (fun k => rent_due li cd (after_restore li cd src k)) (f_rw f)) <= t_fee t).
Proof. intros LEN LI SQ LOK H. exact (restore_sim cd envelope fill LEN src n j li ks t LI SQ LOK H). Qed.

Theorem C55_restore_when cd envelope fill src n j li ks :
  (forall k e, 0 <= entry_len cd k e) -> li_ok li -> 0 < li_seq li -> ledger_ok src ->
  (exists t, simulate_restore_op cd envelope fill src n j li ks = SOk t)
  <-> Forall (restorable src) ks
      /\ (forall k e l, In k ks -> archived li src k -> src k = Some (e, l) -> entry_len cd k e <= u32_max)
      /\ envelope OpRestore {| f_ro := []; f_rw := filter (is_archived li src) ks |} [] <> None.
Proof. intros LEN LI SQ LOK. exact (restore_sim_ok cd envelope fill LEN src n j li ks LI SQ LOK). Qed.

Example C55_restore_example :
  exists t, simulate_restore_op sim_cd sim_env (fun p => p) ex_src sim_net default_adjustment ex_li
              [ex_key ex_a 1 Persistent; ex_key ex_a 2 Persistent; LKCode ex_hb; ex_key ex_b 2 Persistent] = SOk t
  /\ f_rw (s_foot (t_res t)) = [ex_key ex_a 2 Persistent; ex_key ex_b 2 Persistent]
  /\ s_read (t_res t) = 152 /\ s_write (t_res t) = 152 /\ t_fee t = 68193.
Proof. eexists. split; [vm_compute; reflexivity|]. vm_compute. auto. Qed.

(* Restoring on the fly: every read gives the entry as it would be after a restoration,
   and the transaction simulated for the restoration covers exactly the archived
   entries that were read, each once. *)
Theorem C55_restoring_snapshot cd envelope fill src n j li ks b vs o :
  (forall k e, 0 <= entry_len cd k e) -> li_ok li -> 0 < li_seq li -> ledger_ok src ->
  Forall (fun k => key_supported k = true) ks ->
  auto_gets src li (min_live li Persistent) [] ks = (b, vs) ->
  vs = map (fun k => Ok (now li k (src k))) ks
  /\ NoDup b /\ (forall k, In k b <-> In k ks /\ archived li src k)
  /\ (simulate_restore_keys_op cd envelope fill src n j li b = SOk o ->
      match o with
      | None => b = []
      | Some t => f_rw (s_foot (t_res t)) = b /\ f_ro (s_foot (t_res t)) = [] /\ b <> []
      end).
Proof.
  intros LEN LI SQ LOK F G. destruct (auto_gets_spec cd LEN src li ks LI LOK F [] b vs G) as (V & I & N).
  split; [exact V|]. split; [apply N; constructor|].
  assert (IB : forall k, In k b <-> In k ks /\ archived li src k).
  { intros k. rewrite I. cbn. tauto. }
  split; [exact IB|]. intros H. apply (restore_keys_sim cd envelope fill LEN src n j li b LI SQ LOK); auto.
  apply Forall_forall. intros k K. apply IB in K. destruct K as [K A]. rewrite Forall_forall in F. auto.
Qed.

Example C55_restoring_snapshot_example :
  let ks := [ex_key ex_a 2 Persistent; ex_key ex_a 1 Persistent; ex_key ex_a 2 Persistent; ex_key ex_a 9 Temporary] in
  Forall (fun k => key_supported k = true) ks
  /\ auto_gets ex_src ex_li (min_live ex_li Persistent) [] ks
     = ([ex_key ex_a 2 Persistent],
        [Ok (Some (EData (SU32 6), Some 4195)); Ok (Some (EData (SU32 5), Some 500)); Ok (Some (EData (SU32 6), Some 4195)); Ok None]).
Proof. split; [repeat constructor|]. vm_compute. reflexivity. Qed.

(* ---------------------------------------------------------------- invocation *)

(* A successful simulation gives the data of a transaction which succeeds, with the same
   result and events, on the ledger as the network prepares it; its resources and fee
   are enough if no call failed on the way (see C61 for what can go wrong otherwise),
   and then the reported modifications are those of the transaction.  A failed
   simulation gives no transaction. *)
Theorem C55_invoke {P} (E : env P) cd envelope fill src n j li base fn insns ev s :
  li_ok li -> ledger_ok src -> in_u32 insns -> in_u32 ev ->
  simulate_invoke cd envelope fill E src n j li base fn insns ev = SOk s ->
  let L := filled fill src in
  exists h t, invoke E {| sc_li := li; sc_mode := Recording L; sc_recording_build := true |} (fresh_host empty_storage base) fn
              = (h, si_result s, t)
  /\ match si_data s with
     | None => si_events s = [] /\ si_modified s = [] /\ exists e, si_result s = Err e
     | Some d =>
         let f := s_foot (t_res d) in
         (exists v, si_result s = Ok v)
         /\ NoDup (f_ro f ++ f_rw f)
         /\ input_ok li f (t_restored d) (map (provided li cd L) (f_ro f ++ f_rw f))
         /\ (forall k, In k (f_rw f) -> (restored_key f (t_restored d) k = true <-> archived li L k))
         /\ (ok_adjustment j -> insns <= s_insns (t_res d)
             /\ Z.min u32_max (total (map (disk_bytes li cd L) (f_ro f ++ f_rw f))) <= s_read (t_res d))
         /\ forall build, exists out,
              invoke_host_function E cd li build base f (t_restored d) (map (provided li cd L) (f_ro f ++ f_rw f)) fn = Ok out
              /\ o_result out = si_result s /\ o_events out = si_events s
              /\ (forallb calm t = true ->
                  si_modified s = map (fun c => (unexpired li L (ch_key c), ch_value c)) (filter (fun c => negb (ch_ro c)) (o_changes out))
                  /\ (ok_adjustment j -> write_bytes cd (o_changes out) <= s_write (t_res d))
                  /\ exists size, envelope (OpInvoke fn) f (t_restored d) = Some size
                     /\ (ok_fees (n_fees n) -> ok_adjustment j ->
                         let m := measured f (t_restored d) insns (Z.min u32_max (total (map (disk_bytes li cd L) (f_ro f ++ f_rw f))))
                                    (write_bytes cd (o_changes out)) ev size in
                         ok_resources m -> forall u, ok_resources u -> resources_le u m ->
                         owed n li u (extract_rent_changes (o_changes out)) <= t_fee d))
     end.
Proof. intros LI LOK I V H. exact (invoke_sim E cd envelope fill src n j li base fn insns ev s LI LOK I V H). Qed.

(* The simulation itself answers whenever the envelope can be encoded. *)
Theorem C55_invoke_answers {P} (E : env P) cd envelope fill src n j li base fn insns ev :
  (forall op f r, envelope op f r <> None) ->
  exists s, simulate_invoke cd envelope fill E src n j li base fn insns ev = SOk s.
Proof.
  intros EN. unfold simulate_invoke. destruct (invoke_in_recording_mode _ _ _ _ _ _) as [rec|e]; [|eauto].
  destruct (rc_result rec) as [v|e]; [|eauto]. unfold finish, adjusted_transaction_resources.
  destruct (envelope _ _ _) as [sz|] eqn:Z0; [|now apply EN in Z0]. cbn [sbind]. eauto.
Qed.

Example C55_invoke_example :
  exists s d, simulate_invoke sim_cd sim_env (fun p => p) ex_env ex_src sim_net default_adjustment ex_li 7
              (HFInvoke ex_a ex_run []) 100000 40 = SOk s
  /\ si_result s = Ok (SU32 1) /\ si_data s = Some d /\ length (si_modified s) = 3%nat /\ length (si_events s) = 1%nat
  /\ s_insns (t_res d) = 150000 /\ s_read (t_res d) = 76 /\ s_write (t_res d) = 156 /\ t_fee d = 98523.
Proof. eexists. eexists. split; [vm_compute; reflexivity|]. vm_compute. auto 10. Qed.
Example C55_ok_adjustments : ok_adjustment default_adjustment /\ ok_adjustment no_adjustments /\ ok_fees ex_fees.
Proof. vm_compute. intuition discriminate. Qed.

(* ---------------------------------------------------------------- accounts *)

Lemma no_sponsors n i : nth i (if Nat.leb n 20 then repeat None n else []) None = @None (list Z).
Proof.
  destruct (Nat.leb n 20); [|destruct i; reflexivity].
  destruct (nth_in_or_default i (repeat None n) (@None (list Z))) as [I|I]; [now apply repeat_spec in I|exact I].
Qed.
Lemma sponsors_len (l : list (option (list Z))) :
  0 <= total (map (fun s : option (list Z) => match s with None => 4 | Some _ => 4 + 36 end) l).
Proof. unfold total. induction l as [|[] l IH]; cbn [map fold_right]; lia. Qed.

(* Filling in the extensions says nothing new about the account, makes it no smaller, and
   is done after one time: all extensions are there, with a place for a sponsor of every
   signer. *)
Theorem C62_filled_account a :
  ac_rest (update_account a) = ac_rest a /\ ac_signers (update_account a) = ac_signers a
  /\ liabilities (update_account a) = liabilities a /\ sponsorship (update_account a) = sponsorship a
  /\ (forall i, sponsor_of (update_account a) i = sponsor_of a i)
  /\ sequence_times (update_account a) = sequence_times a
  /\ len1 (ac_ext a) <= len1 (ac_ext (update_account a))
  /\ update_account (update_account a) = update_account a
  /\ exists b s p q l x y, ac_ext (update_account a) = X1 b s (X2 p q l (X3 x y))
     /\ (second a = X2None -> (ac_signers a <= 20)%nat -> length l = ac_signers a).
Proof.
  destruct a as [rest sg [|b s [|p q l [|x y]]]]; unfold update_account; cbn [ac_rest ac_signers ac_ext fill_ext_v2 fill_ext_v3].
  - repeat (split; [reflexivity|]). split; [intros i; exact (no_sponsors sg i)|]. split; [reflexivity|].
    split; [cbn [len1 len2 len3]; pose proof (sponsors_len (if Nat.leb sg 20 then repeat None sg else [])); lia|].
    split; [reflexivity|]. do 7 eexists. split; [reflexivity|]. intros _ L.
    rewrite (proj2 (Nat.leb_le sg 20) L). apply repeat_length.
  - repeat (split; [reflexivity|]). split; [intros i; exact (no_sponsors sg i)|]. split; [reflexivity|].
    split; [cbn [len1 len2 len3]; pose proof (sponsors_len (if Nat.leb sg 20 then repeat None sg else [])); lia|].
    split; [reflexivity|]. do 7 eexists. split; [reflexivity|]. intros _ L.
    rewrite (proj2 (Nat.leb_le sg 20) L). apply repeat_length.
  - do 6 (split; [reflexivity|]). split; [cbn [len1 len2 len3]; lia|]. split; [reflexivity|].
    do 7 eexists. split; [reflexivity|]. discriminate.
  - do 6 (split; [reflexivity|]). split; [cbn [len1 len2 len3]; lia|]. split; [reflexivity|].
    do 7 eexists. split; [reflexivity|]. discriminate.
Qed.
Example C62_example :
  let a := {| ac_rest := [1; 2]; ac_signers := 2; ac_ext := X1 5 6 X2None |} in
  ac_ext (update_account a) = X1 5 6 (X2 0 0 [None; None] (X3 0 0)) /\ len1 (ac_ext a) = 24 /\ len1 (ac_ext (update_account a)) = 64.
Proof. vm_compute. auto. Qed.

Print Assumptions C55_adjustment_never_lowers.
Print Assumptions C55_adjustment_value.
Print Assumptions C55_no_adjustment.
Print Assumptions C55_no_adjustment_above_2_53_refuted.
Print Assumptions C55_extend.
Print Assumptions C55_extend_when.
Print Assumptions C55_extend_overflows_refuted.
Print Assumptions C55_restore.
Print Assumptions C55_restore_when.
Print Assumptions C55_restoring_snapshot.
Print Assumptions C55_invoke.
Print Assumptions C62_filled_account.
Print Assumptions C55_invoke_answers.
