(* C84: extending a contract's lifetime covers exactly what the contract needs to run. *)
From Coq Require Import ZArith Lia List Bool.
From Verif Require Import Prelude ValModel ContainerModel HeapModel AMap StorageModel StorageSpec StorageProofs StorageProofs2 StorageProofs3 StorageLogic LifeModel LifeSpec LifeProofs.
Import ListNotations.
Open Scope Z_scope.
Ltac Zify.zify_post_hook ::= idtac.

(* Whatever the outcome, entries that the request is not about are untouched and no
   entry changes except to live longer.  On success every entry it is about was
   there and live, and lives on as the request says. *)
Theorem C84_extends_exactly :
  forall c s a q s' r t, li_ok (sc_li c) -> run_ok c s -> args_unsigned q ->
  srun c s (life_prog a q) = (s', r, t) ->
  let li := sc_li c in
  (forall k, ~ covered (contents c s) a (scope_of q) k -> contents c s' k = contents c s k)
  /\ (forall k, only_longer (contents c s k) (contents c s' k))
  /\ match r with
     | Err _ => True
     | Ok _ =>
         (exists id, a = AContract id)
         /\ forall k, covered (contents c s) a (scope_of q) k ->
            exists e old new, contents c s k = Some (e, Some old) /\ li_seq li <= old
              /\ granted li q old new /\ contents c s' k = Some (e, Some new)
     end.
Proof.
  intros c s a q s' r t LI R U E li.
  set (Q := fun m1 r => post li q (contents c s) (covered (contents c s) a (scope_of q)) m1 r
                        /\ (is_ok r = true -> exists id, a = AContract id)).
  assert (X : ext_post Q) by (intros m m' r0 S [A B]; split; auto; eapply post_ext; eauto).
  destruct (wp_sound c _ LI s Q s' r t R X (wp_life li q a (contents c s) LI U) E) as [((A & B & C) & D) _].
  split; [exact A|]. split; [exact B|]. destruct r as [o|e]; [|exact I]. split; [auto|]. intros k K.
  destruct (C k K) as (e & old & new & H1 & H2 & H3 & _ & H5). exists e, old, new. auto.
Qed.
Print Assumptions C84_extends_exactly.

(* It succeeds for every contract whose entries are there, with arguments in range;
   in an enforced run the entries must be declared, read-only being enough. *)
Theorem C84_succeeds :
  forall c s id q, li_ok (sc_li c) -> run_ok c s -> args_ok (sc_li c) q ->
  whole (sc_li c) (contents c s) (AContract id) ->
  (sc_mode c = Enforcing -> forall k, covered (contents c s) (AContract id) ScopeBoth k -> declared (st_foot s) k ReadOnly) ->
  snd (fst (srun c s (life_prog (AContract id) q))) = Ok OUnit.
Proof.
  intros c s id q LI R U W F. destruct (srun c s (life_prog (AContract id) q)) as [[s' r] t] eqn:E. cbn [fst snd].
  refine (twp_sound c _ (covered (contents c s) (AContract id) ScopeBoth) LI s (fun _ r => r = Ok OUnit) s' r t R _ F _ E).
  - intros m m' r0 _ H. exact H.
  - apply twp_life; auto.
Qed.
Print Assumptions C84_succeeds.

Lemma whole_local li m m2 a : (forall k, covered m a ScopeBoth k -> m2 k = m k) -> whole li m a ->
  whole li m2 a /\ (forall k, covered m2 a ScopeBoth k <-> covered m a ScopeBoth k) /\ forall r, found m2 a r -> found m a r.
Proof.
  intros E ((ex & R) & L & Rf & C).
  assert (Ru : forall x, runs m2 a x <-> runs m a x) by (intros x; unfold runs; rewrite (E (ikey a)) by (left; reflexivity); tauto).
  assert (Ck : forall k, code_key m2 a k <-> code_key m a k).
  { intros k. split; intros [h H|o t H|o t h l H X].
    - now apply ck_wasm, Ru.
    - now apply ck_ref, Ru.
    - apply Ru in H. rewrite (E _ (or_intror (ck_ref _ _ _ _ H))) in X. eapply ck_referred; eauto.
    - now apply ck_wasm, Ru.
    - now apply ck_ref, Ru.
    - rewrite <- (E _ (or_intror (ck_ref _ _ _ _ H))) in X. apply Ru in H. eapply ck_referred; eauto. }
  assert (Cv : forall k, covered m2 a ScopeBoth k <-> covered m a ScopeBoth k) by (intros k; cbn; rewrite Ck; tauto).
  split; [|split; [exact Cv|]].
  - split; [exists ex; now apply Ru|]. split; [|split].
    + intros k K. apply Cv in K. rewrite (E k K). auto.
    + intros o t H. apply Ru in H. destruct (Rf o t H) as (h & l & M & B). exists h, l.
      rewrite (E _ (or_intror (ck_ref _ _ _ _ H))). auto.
    + intros h K. apply Ck in K. rewrite (E _ (or_intror K)). auto.
  - intros r. unfold found. destruct r as [[| |[[[v|w|v|v|v] l]|]]|e]; try tauto; [now rewrite Ru|].
    intros (h & K & M). exists h. rewrite Ck in K. rewrite (E _ (or_intror K)) in M. auto.
Qed.

(* After a successful request for instance and code, the contract can be called at
   every ledger up to the promised one: none of its entries is archived there, and
   a call finds the executable as it was. *)
Theorem C84_callable_later :
  forall c s id q s' o t c2 s2, let a := AContract id in let li := sc_li c in
  li_ok li -> run_ok c s -> args_ok li q -> scope_of q = ScopeBoth -> whole li (contents c s) a ->
  srun c s (life_prog a q) = (s', Ok o, t) ->
  li_ok (sc_li c2) -> run_ok c2 s2 -> li_seq li <= li_seq (sc_li c2) <= promised li q ->
  (forall k, covered (contents c s) a ScopeBoth k -> contents c2 s2 k = now (sc_li c2) k (contents c s' k)) ->
  (sc_mode c2 = Enforcing -> forall k, covered (contents c s) a ScopeBoth k -> declared (st_foot s2) k ReadOnly) ->
  (forall k, covered (contents c s) a ScopeBoth k -> ~ archived (sc_li c2) (contents c s') k)
  /\ found (contents c s') a (snd (fst (srun c2 s2 (call_contract_reads a)))).
Proof.
  intros c s id q s' o t c2 s2 a li LI R U SB W E LI2 R2 Lq Now F.
  assert (Un : args_unsigned q) by (destruct q; cbn in U |- *; auto; lia).
  pose proof (C84_extends_exactly c s a q s' (Ok o) t LI R Un E) as (_ & OL & _ & X). rewrite SB in X.
  assert (OL' : forall k, only_longer (contents c s k) (contents c s' k)) by exact OL.
  assert (Cv : forall k, covered (contents c s') a ScopeBoth k <-> covered (contents c s) a ScopeBoth k).
  { intros k. cbn. rewrite (longer_code_key _ _ a k OL'). tauto. }
  assert (Lv : forall k, covered (contents c s) a ScopeBoth k -> exists e new,
             contents c s' k = Some (e, Some new) /\ li_seq (sc_li c2) <= new <= u32_max).
  { intros k K. destruct (X k K) as (e & old & new & M & Lo & G & M'). exists e, new. split; auto.
    pose proof (granted_promised li q old new U Lo G) as P. split; [lia|].
    destruct W as (_ & L & _). destruct (L k K) as (e1 & o1 & M1 & B1). rewrite M in M1. injection M1 as <- <-.
    pose proof LI as (_ & _ & _ & _ & _ & _ & LM). destruct q as [sc tt xx|sc xx mn mx]; cbn in G.
    - unfold li in *. subst new. destruct (_ <=? tt); lia.
    - unfold li in *. destruct G as ([->|(G1 & G2 & G3)] & _ & _); lia. }
  assert (W' : whole (sc_li c2) (contents c s') a).
  { apply (whole_longer li _ (contents c s)); auto. }
  assert (Now' : forall k, covered (contents c s') a ScopeBoth k -> contents c2 s2 k = contents c s' k).
  { intros k K. apply Cv in K. rewrite (Now k K). destruct (Lv k K) as (e & new & M & B). rewrite M. unfold now.
    destruct (Z.ltb_spec new (li_seq (sc_li c2))); [lia|reflexivity]. }
  split.
  - intros k K (_ & e & l & M & B). destruct (Lv k K) as (e1 & new & M1 & B1). rewrite M in M1. injection M1 as -> ->. lia.
  - destruct (whole_local (sc_li c2) (contents c s') (contents c2 s2) a Now' W') as (W2 & Cv2 & Fo). apply Fo.
    destruct (srun c2 s2 (call_contract_reads a)) as [[s3 r3] t3] eqn:E3. cbn [fst snd].
    refine (twp_sound c2 _ (covered (contents c2 s2) a ScopeBoth) LI2 s2 (fun _ r => found (contents c2 s2) a r) s3 r3 t3 R2 _ _ _ E3).
    + intros m m' r0 _ H. exact H.
    + intros M k K. apply F; auto. now apply Cv, Cv2.
    + apply twp_call; auto.
Qed.
Print Assumptions C84_callable_later.

(* ---------------------------------------------------------------- a case *)

(* A contract whose code is behind another contract's reference, with entries that
   expire at ledgers 150, 170 and 900; it is now ledger 100. *)
Definition lf_li : linfo := {| li_seq := 100; li_min_temp := 16; li_min_persistent := 4096; li_max_ttl := 10000 |}.
Definition lf_hash : list Z := repeat 5 32.
Definition lf_inst := LKData (AContract [7]) SLedgerKeyContractInstance Persistent.
Definition lf_ref := LKData (AContract [8]) (SExecutableTag [1]) Persistent.
Definition lf_store : list (lkey * option lentry) :=
  [(lf_inst, Some (EData (SContractInstance (ExExternalRef (AContract [8]) [1]) None), Some 150));
   (lf_ref, Some (EData (SBytes lf_hash), Some 170));
   (LKCode lf_hash, Some (ECode [0; 97; 115; 109], Some 900));
   (LKCode [6], Some (ECode [1], Some 120))].
Definition lf_c : sconf := {| sc_li := lf_li; sc_mode := Enforcing; sc_recording_build := false |}.
Definition lf_s : storage := {| st_foot := map (fun p => (fst p, ReadOnly)) lf_store; st_map := lf_store |}.

Lemma lf_runs ex : runs (contents lf_c lf_s) (AContract [7]) ex -> ex = ExExternalRef (AContract [8]) [1].
Proof. intros (st & l & H). vm_compute in H. congruence. Qed.
Lemma lf_is : runs (contents lf_c lf_s) (AContract [7]) (ExExternalRef (AContract [8]) [1]).
Proof. exists None, (Some 150). reflexivity. Qed.
Lemma lf_covered k : covered (contents lf_c lf_s) (AContract [7]) ScopeBoth k <-> k = lf_inst \/ k = lf_ref \/ k = LKCode lf_hash.
Proof.
  split.
  - intros [->|[h R|o t R|o t h l R X]]; [auto| | |]; apply lf_runs in R; try discriminate R; injection R as -> ->; [auto|].
    vm_compute in X. injection X as <- _. auto.
  - intros [->|[->| ->]]; [left; auto|right; apply ck_ref, lf_is|right]. eapply ck_referred; [apply lf_is|]. reflexivity.
Qed.

Example C84_hyp :
  li_ok (sc_li lf_c) /\ run_ok lf_c lf_s /\ whole (sc_li lf_c) (contents lf_c lf_s) (AContract [7])
  /\ (forall k, covered (contents lf_c lf_s) (AContract [7]) ScopeBoth k -> declared (st_foot lf_s) k ReadOnly)
  /\ args_ok (sc_li lf_c) (LifeV1 ScopeBoth 500 1000) /\ args_ok (sc_li lf_c) (LifeV2 ScopeBoth 1000 10 700)
  /\ promised (sc_li lf_c) (LifeV1 ScopeBoth 500 1000) = 600 /\ promised (sc_li lf_c) (LifeV2 ScopeBoth 1000 10 700) = 800
  /\ (let after q := let s' := fst (fst (srun lf_c lf_s (life_prog (AContract [7]) q))) in
        map (fun k => match contents lf_c s' k with Some (_, Some l) => l | _ => 0 end) [lf_inst; lf_ref; LKCode lf_hash; LKCode [6]] in
      after (LifeV1 ScopeBoth 500 1000) = [1100; 1100; 900; 120]
      /\ after (LifeV1 ScopeInstance 500 1000) = [1100; 170; 900; 120]
      /\ after (LifeV1 ScopeCode 500 1000) = [150; 1100; 900; 120]
      /\ after (LifeV2 ScopeBoth 1000 10 700) = [850; 870; 1100; 120]
      /\ after (LifeV2 ScopeCode 1000 201 700) = [150; 870; 900; 120]).
Proof.
  split; [vm_compute; intuition discriminate|]. split; [|split; [|split]].
  - left. split; [reflexivity|]. split; [|discriminate]. intros k H N. apply H. clear H. cbn [lf_s st_foot st_map] in *.
    unfold fget, mget, lf_store in *. cbn [map fst aget] in *. repeat destruct (lkey_eq_dec _ _); auto; discriminate.
  - split; [eexists; apply lf_is|]. split; [|split].
    + intros k K. apply lf_covered in K as [->|[->| ->]].
      * exists (EData (SContractInstance (ExExternalRef (AContract [8]) [1]) None)), 150. split; [reflexivity|split; discriminate].
      * exists (EData (SBytes lf_hash)), 170. split; [reflexivity|split; discriminate].
      * exists (ECode [0; 97; 115; 109]), 900. split; [reflexivity|split; discriminate].
    + intros o t R. apply lf_runs in R. injection R as -> ->. exists lf_hash, (Some 170). split; reflexivity.
    + intros h K. assert (K' : covered (contents lf_c lf_s) (AContract [7]) ScopeBoth (LKCode h)) by (right; exact K).
      apply lf_covered in K' as [H|[H|H]]; try discriminate H. injection H as ->. exists [0; 97; 115; 109], (Some 900). reflexivity.
  - intros k K. apply lf_covered in K as [->|[->| ->]]; vm_compute; discriminate.
  - vm_compute. repeat split; discriminate.
Qed.

(* A reader of the name alone could expect one call to leave a whole `extend_to`:
   not so, an entry with more than `threshold` ledgers left is not touched. *)
Theorem C84_always_extend_to_refuted :
  ~ (forall c s id thr ext s' o t, li_ok (sc_li c) -> run_ok c s -> li_seq (sc_li c) + ext <= max_live (sc_li c) ->
     srun c s (life_prog (AContract id) (LifeV1 ScopeBoth thr ext)) = (s', Ok o, t) ->
     forall k e l, covered (contents c s) (AContract id) ScopeBoth k -> contents c s' k = Some (e, Some l) ->
     li_seq (sc_li c) + ext <= l).
Proof.
  intros H. destruct C84_hyp as (LI & R & _).
  destruct (srun lf_c lf_s (life_prog (AContract [7]) (LifeV1 ScopeBoth 500 1000))) as [[s' r] t] eqn:E.
  assert (Er : r = Ok OUnit /\ contents lf_c s' (LKCode lf_hash) = Some (ECode [0; 97; 115; 109], Some 900)).
  { vm_compute in E. injection E as <- <- _. split; reflexivity. }
  destruct Er as [-> C].
  specialize (H lf_c lf_s [7] 500 1000 s' OUnit t LI R ltac:(vm_compute; discriminate) E (LKCode lf_hash) _ 900
    (proj2 (lf_covered (LKCode lf_hash)) (or_intror (or_intror eq_refl))) C).
  cbv in H. apply H. reflexivity.
Qed.
Print Assumptions C84_always_extend_to_refuted.
