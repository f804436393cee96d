(* Simulating an invocation, and the transaction made from it. *)
From Coq Require Import ZArith Lia List Bool Permutation.
From Verif Require Import Prelude ValModel HeapModel AMap StorageModel StorageSpec StorageProofs StorageProofs2 FeesModel FeesSpec FrameModel FrameSpec
  E2EModel E2ESpec E2EProofs E2EProofs2 ReplayProofs E2EProofs3 E2EProofs4 SimModel SimSpec SimProofs.
Import ListNotations.
Open Scope Z_scope.

Lemma filled_ledger fill src : ledger_ok src -> ledger_ok (filled fill src).
Proof.
  intros LOK k e l H KS. unfold filled in H. destruct (src k) as [[e' l']|] eqn:SK; [|discriminate].
  specialize (LOK k e' l' SK KS). destruct e'; injection H as <- <-; exact LOK.
Qed.

Lemma sat_u32_range x : 0 <= sat_u32 x <= u32_max.
Proof. unfold sat_u32, clamp, u32_max. lia. Qed.
Lemma write_bytes_range cd l : 0 <= write_bytes cd l <= u32_max.
Proof.
  unfold write_bytes. assert (X : forall n, 0 <= n <= u32_max -> 0 <= fold_left
    (fun n c => match ch_value c with Some e => if ch_ro c then n else sat_u32 (n + xdr_len cd (ch_key c) e) | None => n end) l n <= u32_max).
  { induction l as [|c l IH]; intros n N; cbn [fold_left]; auto. apply IH. destruct (ch_value c); auto.
    destruct (ch_ro c); auto. apply sat_u32_range. }
  apply X. unfold u32_max. lia.
Qed.

Lemma foretold_modified src li l l' : Forall2 foretells l l' ->
  modified_entries src li l = map (fun d => (unexpired li src (ch_key d), ch_value d)) (filter (fun d => negb (ch_ro d)) l').
Proof.
  unfold modified_entries. induction 1 as [|c d l l' (RO & KE & VA & _) F IH]; cbn [filter]; [reflexivity|].
  rewrite RO. destruct (negb (ch_ro d)); cbn [map]; [|exact IH]. rewrite IH, KE, VA. f_equal. f_equal.
  unfold unexpired. destruct (src (ch_key d)) as [[e [x|]]|]; reflexivity.
Qed.

Section InvokeSim.
  Context {P : Type}.
  Variable E : env P.
  Variable cd : codec.
  Variable envelope : sim_op -> lfoot -> list nat -> option Z.
  Variable fill : list Z -> list Z.

  Theorem invoke_sim src n j li base fn insns ev s : li_ok li -> ledger_ok src -> in_u32 insns -> in_u32 ev ->
    simulate_invoke cd envelope fill E src n j li base fn insns ev = SOk s ->
    let L := filled fill src in
    exists h t, invoke E {| sc_li := li; sc_mode := Recording L; sc_recording_build := true |} (fresh_host empty_storage base) fn = (h, si_result s, t)
    /\ match si_data s with
       | None => si_events s = [] /\ si_modified s = [] /\ exists e, si_result s = Err e
       | Some d =>
           let f := s_foot (t_res d) in
           (exists v, si_result s = Ok v)
           /\ NoDup (f_ro f ++ f_rw f)
           /\ input_ok li f (t_restored d) (map (provided li cd L) (f_ro f ++ f_rw f))
           /\ (forall k, In k (f_rw f) -> (restored_key f (t_restored d) k = true <-> archived li L k))
           /\ (ok_adjustment j -> insns <= s_insns (t_res d)
               /\ Z.min u32_max (total (map (disk_bytes li cd L) (f_ro f ++ f_rw f))) <= s_read (t_res d))
           /\ forall build, exists out,
                invoke_host_function E cd li build base f (t_restored d) (map (provided li cd L) (f_ro f ++ f_rw f)) fn = Ok out
                /\ o_result out = si_result s /\ o_events out = si_events s
                /\ (forallb calm t = true ->
                    si_modified s = map (fun c => (unexpired li L (ch_key c), ch_value c)) (filter (fun c => negb (ch_ro c)) (o_changes out))
                    /\ (ok_adjustment j -> write_bytes cd (o_changes out) <= s_write (t_res d))
                    /\ exists size, envelope (OpInvoke fn) f (t_restored d) = Some size
                       /\ (ok_fees (n_fees n) -> ok_adjustment j ->
                           let m := measured f (t_restored d) insns (Z.min u32_max (total (map (disk_bytes li cd L) (f_ro f ++ f_rw f))))
                                      (write_bytes cd (o_changes out)) ev size in
                           ok_resources m -> forall u, ok_resources u -> resources_le u m ->
                           owed n li u (extract_rent_changes (o_changes out)) <= t_fee d))
       end.
  Proof.
    intros LI LOK0 IN EVS SI. cbv zeta. pose proof (filled_ledger fill src LOK0) as LOK. unfold simulate_invoke in SI.
    set (L := filled fill src) in *.
    destruct (recording_predicts_full E cd li base L fn LI LOK) as (h & r & t & rec & IV & R1 & R2 & R3 & R4 & R5 & R5d & R6).
    assert (RR : rc_result rec = r).
    { destruct (recording_outcome E cd li base L fn LI LOK) as (h3 & r3 & t3 & rec3 & IV3 & _ & Q1 & Q2 & _).
      rewrite R1 in Q1. injection Q1 as <-. rewrite IV in IV3. injection IV3 as <- <- <-. exact Q2. }
    rewrite R1 in SI. exists h, t. rewrite RR in SI. destruct r as [v|e].
    2:{ injection SI as <-. cbn [si_result si_data si_events si_modified]. split; [exact IV|]. eauto. }
    match type of SI with sbind ?x _ = _ => destruct x as [d|] eqn:FI end; [|discriminate].
    cbn [sbind] in SI. injection SI as <-. cbn [si_result si_data si_events si_modified]. split; [exact IV|].
    apply finish_spec in FI. cbn [s_foot s_insns s_read s_write] in FI. destruct FI as (size & EN & TR & T0 & FE).
    rewrite TR, T0 in *. cbn [adjust_resources s_foot s_insns s_read s_write].
    assert (TO : 0 <= total (map (disk_bytes li cd L) (f_ro (rc_foot rec) ++ f_rw (rc_foot rec)))).
    { pose proof (total_nonneg li cd L (f_ro (rc_foot rec) ++ f_rw (rc_foot rec))). lia. }
    assert (SA : rc_disk_read rec = Z.min u32_max (total (map (disk_bytes li cd L) (f_ro (rc_foot rec) ++ f_rw (rc_foot rec))))).
    { rewrite R5d. unfold sat_u32, clamp, u32_max in *. lia. }
    assert (GE : forall fa v, in_u32 v -> in_u32 (a_add fa) -> v <= adjust_u32 fa v).
    { intros fa x V A. pose proof (adjust_u32_ge fa x V (proj1 A)). unfold in_u32 in *. destruct (x =? 0); lia. }
    split; [eauto|]. split; [exact R2|]. split; [exact R3|]. split; [exact R4|].
    assert (RD : in_u32 (rc_disk_read rec)) by (rewrite R5d; apply sat_u32_range).
    split.
    { intros (J1 & J2 & J3 & _). rewrite <- SA. split; apply GE; auto. }
    intros build. destruct (R6 build) as (out & O1 & O2 & O3 & l & L1 & L2 & L3).
    exists out. split; [exact O1|]. split; [congruence|]. split; [exact O3|].
    intros CM.
    assert (FU : full (h_store h)).
    { refine (full_invoke E {| sc_li := li; sc_mode := Recording L; sc_recording_build := true |} L eq_refl fn (fresh_host empty_storage base) h (Ok v) t _ IV CM).
      intros k H. cbn in H. congruence. }
    specialize (L3 FU).
    assert (WB : rc_write rec = write_bytes cd (o_changes out)) by (rewrite R5; now apply foretold_bytes).
    split; [now apply foretold_modified|].
    split.
    { intros (J1 & J2 & J3 & _). rewrite <- WB. apply GE; auto. rewrite WB. apply write_bytes_range. }
    exists size. split; [exact EN|]. intros OF OJ OM u OU LE.
    rewrite <- (foretold_rent _ _ L3). rewrite <- SA, <- WB in *. apply FE; auto.
  Qed.
End InvokeSim.
