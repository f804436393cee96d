(* C82: recording leaves in the footprint what authentication will read. *)
From Coq Require Import ZArith Lia List Bool.
From Verif Require Import Prelude ValModel ContainerModel HeapModel AMap StorageModel StorageSpec
  StorageProofs StorageProofs2 FrameModel EmuModel EmuSpec.
Import ListNotations.
Open Scope Z_scope.

(* ---------------------------------------------------------------- proofs *)

Lemma run_pbind c p : forall s k, srun c s (pbind p k) =
  let '(s1, r, t) := srun c s p in let '(s2, r2, t2) := srun c s1 (k r) in (s2, r2, t ++ t2).
Proof.
  induction p as [r0|op f IH|b IHb f IH]; intros s k; cbn.
  - destruct (srun c s (k r0)) as [[s2 r2] t2]. reflexivity.
  - destruct (sstep c s op) as [s1 r1]. rewrite IH. destruct (srun c s1 (f r1)) as [[s2 r2] t2].
    destruct (srun c s2 (k r2)) as [[s3 r3] t3]. reflexivity.
  - destruct (srun c s b) as [[s1 r1] t1]. rewrite IH.
    destruct (srun c (match r1 with Ok _ => s1 | Err _ => set_map s1 (st_map s) end) (f r1)) as [[s2 r2] t2].
    destruct (srun c s2 (k r2)) as [[s3 r3] t3]. now rewrite app_assoc.
Qed.

(* programs that only read supported keys *)
Inductive reader : prog -> Prop :=
| rd_ret r : reader (PRet r)
| rd_get k f : key_supported k = true -> (forall v, reader (f (Ok (OEntry v)))) -> reader (PDo (SGet k) f).

Lemma reader_bind p k : reader p -> (forall r, reader (k r)) -> reader (pbind p k).
Proof. intros R K. induction R; cbn; auto. constructor; auto. Qed.

(* what a reader does on a ledger *)
Fixpoint keys_of (m : store) (p : prog) : list lkey :=
  match p with
  | PDo (SGet k) f => k :: keys_of m (f (Ok (OEntry (m k))))
  | _ => []
  end.
Fixpoint ans_of (m : store) (p : prog) : res sout :=
  match p with
  | PRet r => r
  | PDo (SGet k) f => ans_of m (f (Ok (OEntry (m k))))
  | _ => Err e_st_internal
  end.
Definition trace_of (m : store) (ks : list lkey) : list (sop * res sout) :=
  map (fun k => (SGet k, Ok (OEntry (m k)))) ks.

Lemma keys_of_ext p m m' : (forall k, m k = m' k) -> keys_of m p = keys_of m' p /\ ans_of m p = ans_of m' p.
Proof.
  intros E. induction p as [r|op f IH|]; cbn; auto. destruct op; auto. rewrite <- (E k).
  destruct (IH (Ok (OEntry (m k)))) as [-> ->]. auto.
Qed.

Lemma keys_of_bind p m k : reader p -> keys_of m (pbind p k) = keys_of m p ++ keys_of m (k (ans_of m p))
  /\ ans_of m (pbind p k) = ans_of m (k (ans_of m p)).
Proof.
  intros R. induction R as [r|q f S R IH]; cbn; auto. destruct (IH (m q)) as [-> ->]. auto.
Qed.

Lemma covers_one f f' k : covers f f' -> declared f k ReadOnly -> declared f' k ReadOnly.
Proof. intros C D. now apply C. Qed.

(* a reader, when recorded *)
Lemma reader_rec c p : li_ok (sc_li c) -> reader p -> forall s, recording_ok c s ->
  exists s', srun c s p = (s', ans_of (contents c s) p, trace_of (contents c s) (keys_of (contents c s) p))
  /\ recording_ok c s' /\ covers (st_foot s) (st_foot s')
  /\ (forall k, contents c s' k = contents c s k)
  /\ (forall k, In k (keys_of (contents c s) p) -> declared (st_foot s') k ReadOnly).
Proof.
  intros LI R. induction R as [r|q f S R IH]; intros s RO; cbn [srun keys_of ans_of].
  - exists s. cbn. split; auto. split; auto. split; [apply covers_refl|]. split; [auto|intros k []].
  - destruct (try_get_rec c s q LI RO S) as (s1 & G & RO1 & CV & D & CS & _). cbn [sstep]. rewrite G. cbn [rmap].
    destruct (IH (contents c s q) s1 RO1) as (s2 & E & RO2 & CV2 & CS2 & D2).
    destruct (keys_of_ext (f (Ok (OEntry (contents c s q)))) _ _ CS) as [K A]. rewrite E.
    rewrite K, A in *. exists s2. split; [|split; [exact RO2|split; [eapply covers_trans; eauto|split]]].
    + cbn. f_equal. f_equal. apply map_ext. intros k. now rewrite CS.
    + intros k. now rewrite CS2.
    + intros k [<-|I]; [apply CV2, D|now apply D2].
Qed.

(* a reader, when enforced *)
Lemma reader_enf c p : li_ok (sc_li c) -> reader p -> forall s, enforcing_ok c s ->
  (forall k, In k (keys_of (contents c s) p) -> declared (st_foot s) k ReadOnly) ->
  srun c s p = (s, ans_of (contents c s) p, trace_of (contents c s) (keys_of (contents c s) p)).
Proof.
  intros LI R. induction R as [r|q f S R IH]; intros s EN D; cbn [srun keys_of ans_of]; auto.
  cbn [sstep]. rewrite (try_get_enf c s q EN S).
  assert (X : declaredb (st_foot s) q ReadOnly = true). { apply declaredb_spec, D. now left. }
  rewrite X. cbn [rmap]. rewrite (IH (contents c s q) s EN); auto. intros k I. apply D. now right.
Qed.

Lemma rd_psucc k f : key_supported k = true -> (forall v, reader (f (OEntry v))) -> reader (psucc (SGet k) f).
Proof. intros S F. constructor; auto. Qed.
Lemma rd_pget k f : key_supported k = true -> (forall e, reader (f e)) -> reader (pget k f).
Proof. intros S F. apply rd_psucc; auto. intros [e|]; [auto|constructor]. Qed.

Ltac rds := repeat first
  [ apply rd_ret | apply rd_psucc; [reflexivity|intros] | apply rd_pget; [reflexivity|intros]
  | match goal with |- reader (match ?x with _ => _ end) => destruct x end ].
Lemma rd_load_contract id : reader (load_contract id).
Proof. unfold load_contract, pinstance, resolve_external_ref. rds. Qed.
Lemma rd_account k n : reader (account_loads k n).
Proof. unfold account_loads, pfail. rds. Qed.
Lemma rd_loads t n : reader (auth_loads t n).
Proof.
  unfold auth_loads, pfail, pdone. destruct (tk_source t); [constructor|]. destruct (tk_prepared t); [|constructor].
  destruct (tk_addr t); [apply rd_account|apply rd_load_contract|constructor|constructor].
Qed.
Lemma rd_contract id : reader (emulate_contract id).
Proof. unfold emulate_contract, pdone. rds. Qed.
Lemma rd_emulate t : reader (emulate t).
Proof.
  unfold emulate, pdone, pfail. destruct (tk_source t); [constructor|]. destruct (tk_addr t); [| |constructor|constructor].
  - apply reader_bind; [apply rd_loads|intros; constructor].
  - apply rd_contract.
Qed.
Lemma rd_all l : reader (emulate_all l).
Proof. induction l; cbn; [constructor|]. apply reader_bind; [apply rd_emulate|]. intros [?|?]; [auto|constructor]. Qed.

(* the keys *)
Lemma keys_loads m t n k : In k (keys_of m (auth_loads t n)) ->
  tk_source t = false /\ (exists u, tk_prepared t = Ok u) /\ needs m (tk_addr t) k.
Proof.
  unfold auth_loads. destruct (tk_source t); [intros []|]. destruct (tk_prepared t) as [u|]; [|intros []].
  intros I. split; auto. split; [eauto|]. destruct (tk_addr t) as [a|id|x a|d a]; cbn [needs]; [| |destruct I|destruct I].
  - unfold account_loads in I. destruct n as [n|]; [|destruct I]. destruct (max_signatures <? n); [destruct I|].
    destruct (n =? 0); [destruct I|]. cbn in I. destruct (m (LKAccount a)) as [[e l]|]; [destruct e|]; cbn in I;
      destruct I as [<-|[]]; auto.
  - unfold load_contract, pinstance, resolve_external_ref in I. unfold executable_in, referenced_in. cbn in I.
    destruct I as [<-|I]; [auto|]. right.
    destruct (m (instance_key (AContract id))) as [[[v| | | |] l]|]; try (now destruct I).
    destruct v; try (now destruct I). destruct e as [h| |o tg].
    + left. exists h. split; auto. cbn in I. destruct I as [<-|I]; auto.
      destruct (m (LKCode h)) as [[e l']|]; [destruct e|]; now destruct I.
    + now destruct I.
    + right. exists o, tg. split; auto. cbn in I. destruct I as [<-|I]; [auto|].
      destruct (m (exe_ref_key o tg)) as [[[v| | | |] l']|]; try (now destruct I).
      destruct v; try (now destruct I). destruct (Nat.eqb (length b) 32); [|now destruct I].
      right. exists b. split; auto. cbn in I. destruct I as [<-|I]; auto.
      destruct (m (LKCode b)) as [[e l2]|]; [destruct e|]; now destruct I.
Qed.

Lemma keys_emulate m t k : tk_source t = false -> (exists u, tk_prepared t = Ok u) -> needs m (tk_addr t) k ->
  In k (keys_of m (emulate t)).
Proof.
  intros S (u & P) N. unfold emulate. rewrite S. destruct (tk_addr t) as [a|id|x a|d a] eqn:A; cbn [needs] in N; [| |destruct N|destruct N].
  - subst k. unfold auth_loads. rewrite S, P, A. cbn. now left.
  - unfold executable_in, referenced_in in N. unfold emulate_contract. cbn.
    destruct N as [->|N]; [now left|]. right.
    destruct (m (instance_key (AContract id))) as [[[v| | | |] l]|];
      try (destruct N as [(? & ? & _)|(? & ? & ? & _)]; discriminate).
    destruct v; try (destruct N as [(? & ? & _)|(? & ? & ? & _)]; discriminate).
    destruct N as [(h & E & ->)|(o & tg & E & N)]; injection E as ->.
    + cbn. now left.
    + cbn. destruct N as [->|(h & E & ->)]; [now left|]. right.
      destruct (m (exe_ref_key o tg)) as [[[v| | | |] l']|]; try discriminate.
      destruct v; try discriminate. destruct (Nat.eqb (length b) 32); [|discriminate]. injection E as ->. now left.
Qed.

Lemma ok_emulate m t r : ans_of m (emulate t) = r ->
  r = match tk_source t, tk_addr t with
      | false, AMuxed _ _ | false, AOther _ _ => Err e_unexpected_address
      | _, _ => Ok OUnit
      end.
Proof.
  intros <-. unfold emulate. destruct (tk_source t) eqn:S; [now destruct (tk_addr t)|].
  destruct (tk_addr t) as [a|id|x a|d a]; auto.
  - now destruct (keys_of_bind _ m (fun _ => pdone) (rd_loads t (Ok 1))) as [_ ->].
  - unfold emulate_contract. cbn. destruct (m (instance_key (AContract id))) as [[[v| | | |] l]|]; auto.
    destruct v; auto. destruct e as [h| |o tg]; auto. cbn.
    destruct (m (exe_ref_key o tg)) as [[[v| | | |] l']|]; auto. destruct v; auto. destruct (Nat.eqb (length b) 32); auto.
Qed.

Lemma all_keys m l : ans_of m (emulate_all l) = Ok OUnit -> forall t k, In t l -> In k (keys_of m (emulate t)) ->
  In k (keys_of m (emulate_all l)).
Proof.
  induction l as [|t0 l IH]; cbn [emulate_all]; [intros _ t k []|]. intros A t k I K.
  set (next := fun r : res sout => match r with Ok _ => emulate_all l | Err e => pfail e end) in *.
  destruct (keys_of_bind _ m next (rd_emulate t0)) as [B C].
  rewrite C in A. rewrite B. apply in_or_app. destruct I as [->|I]; [now left|]. right.
  destruct (ans_of m (emulate t0)); [|discriminate]. cbn in *. eauto.
Qed.

Lemma needs_same m m' a k : same_account m m' a -> needs m a k -> needs m' a k.
Proof.
  destruct a as [a|id|x a|d a]; cbn; auto. intros [E R] [N|[(h & X & N)|(o & t & X & N)]]; auto.
  - right; left. exists h. rewrite <- E. auto.
  - right; right. exists o, t. rewrite <- E, <- (R o t X). auto.
Qed.

(* ---------------------------------------------------------------- C82 *)

(* The emulation reads: it changes no entry, it forgets nothing recorded, and
   each of its reads is recorded.  It fails only on an address that is neither
   an account nor a contract. *)
Theorem C82_emulation_only_reads :
  forall c s l s' r t, li_ok (sc_li c) -> recording_ok c s -> srun c s (emulate_all l) = (s', r, t) ->
  (forall k, contents c s' k = contents c s k)
  /\ reads_from (contents c s) t
  /\ (forall k a, declared (st_foot s) k a -> declared (st_foot s') k a)
  /\ (forall k, In k (keys_read t) -> declared (st_foot s') k ReadOnly)
  /\ (r = Ok OUnit <->
      Forall (fun x => tk_source x = true \/ (exists a, tk_addr x = AAccount a) \/ exists id, tk_addr x = AContract id) l).
Proof.
  intros c s l s' r t LI RO E.
  destruct (reader_rec c _ LI (rd_all l) s RO) as (s2 & E2 & RO2 & CV & CS & D). rewrite E in E2. injection E2 as <- -> ->.
  split; [exact CS|]. split; [|split; [exact CV|split]].
  - unfold reads_from, trace_of. apply Forall_forall. intros q I. apply in_map_iff in I as (k & <- & _). now exists k.
  - intros k I. apply D. unfold keys_read, trace_of in I. rewrite map_map in I. cbn in I. now rewrite map_id in I.
  - clear. set (m := contents c s). induction l as [|x l IH]; cbn [emulate_all]; [split; auto|].
    set (next := fun r : res sout => match r with Ok _ => emulate_all l | Err e => pfail e end) in *.
    destruct (keys_of_bind _ m next (rd_emulate x)) as [_ C]. rewrite C.
    rewrite (ok_emulate m x _ eq_refl). unfold next.
    assert (T : forall P, (P : Prop) -> (ans_of m (emulate_all l) = Ok OUnit <-> Forall (fun x => tk_source x = true \/ (exists a, tk_addr x = AAccount a) \/ exists id, tk_addr x = AContract id) l /\ P)).
    { intros P p. rewrite IH. tauto. }
    rewrite Forall_cons_iff. destruct (tk_source x) eqn:S.
    + destruct (tk_addr x); rewrite (T True I); intuition.
    + destruct (tk_addr x) as [a|id|y a|d a]; try (rewrite (T True I); intuition eauto);
        cbn; split; try discriminate; intros [[X|[[? X]|[? X]]] _]; discriminate.
Qed.
Print Assumptions C82_emulation_only_reads.

(* After the emulation, any storage that enforces the recorded footprint (or a
   larger one) serves every authentication of an account that is run there by
   the code it was run by at the end of the recorded run: every read made
   before the account's own code is answered from the ledger, no entry
   changes, and the rest starts with what the ledger says. *)
Theorem C82_authentication_finds_its_entries :
  forall cr s l s' t, li_ok (sc_li cr) -> recording_ok cr s -> srun cr s (emulate_all l) = (s', Ok OUnit, t) ->
  forall ce e, li_ok (sc_li ce) -> enforcing_ok ce e -> (forall k a, declared (st_foot s') k a -> declared (st_foot e) k a) ->
  forall tr sigs rest, In tr l -> same_account (contents ce e) (contents cr s) (tk_addr tr) ->
  exists loads answer, reads_from (contents ce e) loads
    /\ meaning_run (sc_li ce) (contents ce e) (auth_loads tr sigs) = (contents ce e, answer, loads)
    /\ srun ce e (authenticate tr sigs rest) = (let '(e', r, u) := srun ce e (rest answer) in (e', r, loads ++ u)).
Proof.
  intros cr s l s' t LI RO E ce e LIe EN CV tr sigs rest I SA.
  destruct (reader_rec cr _ LI (rd_all l) s RO) as (s2 & E2 & RO2 & _ & _ & D). rewrite E in E2. injection E2 as <- A ->.
  assert (D' : forall k, In k (keys_of (contents ce e) (auth_loads tr sigs)) -> declared (st_foot e) k ReadOnly).
  { intros k K. apply CV, D. apply keys_loads in K as (S & P & N). symmetry in A.
    eapply all_keys; eauto. apply keys_emulate; auto. eapply needs_same; eauto. }
  pose proof (reader_enf ce _ LIe (rd_loads tr sigs) e EN D') as R.
  eexists _, _. split; [|split].
  3:{ unfold authenticate. rewrite run_pbind, R. reflexivity. }
  - unfold reads_from, trace_of. apply Forall_forall. intros q J. apply in_map_iff in J as (k & <- & _). now exists k.
  - clear - ce. generalize (rd_loads tr sigs). intros Q. set (m := contents ce e).
    induction Q as [r|q f S Q IH]; cbn; auto. unfold meaning. cbn [bad_args op_key]. rewrite S. cbn. rewrite IH. reflexivity.
Qed.
Print Assumptions C82_authentication_finds_its_entries.

(* The whole of it: a run is recorded, in two parts, and authentication is
   emulated after it.  The enforcing run, from the ledger restricted to the
   recorded footprint, answers the first part alike; an account that asks for
   authentication at that point finds its entries as the recorded run had them
   there, provided that the second part does not change the code it is run by;
   and the second part, from there, is answered alike too. *)
Theorem C82_recorded_run_authenticates :
  forall cr ce src p1 p2 l, li_ok (sc_li cr) -> src_ok src ->
  sc_mode cr = Recording src -> sc_recording_build cr = true -> sc_mode ce = Enforcing -> sc_li ce = sc_li cr ->
  forall s1 r1 t1 s2 r2 t2 s3 t3,
  srun cr empty_storage p1 = (s1, r1, t1) -> srun cr s1 (p2 r1) = (s2, r2, t2) -> writes_ok cr (t1 ++ t2) ->
  srun cr s2 (emulate_all l) = (s3, Ok OUnit, t3) ->
  exists e1 e2, srun ce (loaded (sc_li cr) src (st_foot s3)) p1 = (e1, r1, t1)
  /\ srun ce e1 (p2 r1) = (e2, r2, t2)
  /\ forall tr sigs rest, In tr l -> same_account (contents ce e1) (contents cr s2) (tk_addr tr) ->
     exists loads answer, reads_from (contents ce e1) loads /\ reads_from (contents cr s1) loads
       /\ srun ce e1 (authenticate tr sigs rest) = (let '(e', r, u) := srun ce e1 (rest answer) in (e', r, loads ++ u)).
Proof.
  intros cr ce src p1 p2 l LI SO MR RB ME SL s1 r1 t1 s2 r2 t2 s3 t3 E1 E2 W E3.
  apply writes_ok_app in W as [W1 W2].
  assert (R0 : recording_ok cr empty_storage).
  { exists src. split; [exact MR|]. split; [exact SO|]. split; [exact RB|]. intros k o H. discriminate. }
  assert (REC : forall s, run_ok cr s -> recording_ok cr s).
  { intros s [(M & _)|X]; auto. congruence. }
  destruct (srun_ok cr p1 LI _ _ _ _ (or_intror R0) E1 W1) as (R1 & CV1 & _). apply REC in R1.
  destruct (srun_ok cr _ LI _ _ _ _ (or_intror R1) E2 W2) as (R2 & CV2 & _). apply REC in R2.
  destruct (reader_rec cr _ LI (rd_all l) s2 R2) as (s2' & E3' & R3 & CV3 & _ & D3). rewrite E3 in E3'. injection E3' as <- A ->.
  assert (LIe : li_ok (sc_li ce)) by now rewrite SL.
  assert (EN : enforcing_ok ce (loaded (sc_li cr) src (st_foot s3))).
  { split; [exact ME|]. split.
    - intros k F. rewrite loaded_get. cbn in F. destruct (fget (st_foot s3) k); congruence.
    - intros _ k o G. rewrite loaded_get in G. destruct (fget (st_foot s3) k); [|discriminate]. injection G as <-.
      rewrite SL. apply now_live; auto. intros e l0. apply SO. }
  destruct (replay_run cr ce p1 LI SL RB empty_storage s1 r1 t1 _ R0 EN E1 W1) as (e1 & X1 & F1 & EN1 & AG1).
  { cbn [loaded st_foot]. eapply covers_trans; eauto. }
  { intros k F. unfold contents. rewrite loaded_get. cbn in F. rewrite MR. cbn.
    destruct (fget (st_foot s3) k); congruence. }
  cbn [loaded st_foot] in F1, AG1.
  destruct (replay_run cr ce (p2 r1) LI SL RB s1 s2 r2 t2 e1 R1 EN1 E2 W2) as (e2 & X2 & _).
  { now rewrite F1. } { now rewrite F1. }
  exists e1, e2. split; [exact X1|]. split; [exact X2|]. intros tr sigs rest I SA.
  assert (D' : forall k, In k (keys_of (contents ce e1) (auth_loads tr sigs)) -> declared (st_foot e1) k ReadOnly).
  { intros k K. rewrite F1. apply D3. apply keys_loads in K as (S & P & N). symmetry in A.
    eapply all_keys; eauto. apply keys_emulate; auto. eapply needs_same; eauto. }
  pose proof (reader_enf ce _ LIe (rd_loads tr sigs) e1 EN1 D') as R.
  exists (trace_of (contents ce e1) (keys_of (contents ce e1) (auth_loads tr sigs))). eexists. split; [|split].
  3:{ unfold authenticate. rewrite run_pbind, R. reflexivity. }
  - unfold reads_from, trace_of. apply Forall_forall. intros q J. apply in_map_iff in J as (k & <- & _). now exists k.
  - unfold reads_from, trace_of. apply Forall_forall. intros q J. apply in_map_iff in J as (k & <- & J). exists k.
    rewrite AG1; auto. apply D' in J. cbn in J. now rewrite F1 in J.
Qed.
Print Assumptions C82_recorded_run_authenticates.

(* The frame around it: the footprint of a recorded run is the one the
   emulation leaves, also of a run that failed and was undone. *)
Theorem C82_recorded_run :
  forall c s p l s1 r t s2 t2, li_ok (sc_li c) -> srun c s p = (s1, r, t) -> recording_ok c s1 ->
  srun c s1 (emulate_all l) = (s2, Ok OUnit, t2) ->
  exists s', recorded_run c s p l = (s', r) /\ st_foot s' = st_foot s2
  /\ forall k, contents c s' k = match r with Ok _ => contents c s1 k | Err _ => contents c s k end.
Proof.
  intros c s p l s1 r t s2 t2 LI E R E2. unfold recorded_run. rewrite E, E2.
  destruct (reader_rec c _ LI (rd_all l) s1 R) as (s3 & E3 & _ & _ & CS & _). rewrite E2 in E3. injection E3 as <- _ _.
  destruct r; eexists; split; try reflexivity; split; try reflexivity; intros k; auto.
Qed.
Print Assumptions C82_recorded_run.

(* ---------------------------------------------------------------- a case *)

(* A contract account [7] whose code is what the contract [1] says under a tag,
   and a classic account. *)
Definition x_old := repeat 3 32.
Definition x_new := repeat 4 32.
Definition x_ref := exe_ref_key (AContract [1]) [116].
Definition x_inst := instance_key (AContract [7]).
Definition x_src : lkey -> option lentry := fun k =>
  if lkey_eq_dec k x_inst then Some (EData (SContractInstance (ExExternalRef (AContract [1]) [116]) None), Some 500)
  else if lkey_eq_dec k x_ref then Some (EData (SBytes x_old), Some 500)
  else if lkey_eq_dec k (LKCode x_old) then Some (ECode [0; 97], Some 50)
  else if lkey_eq_dec k (LKCode x_new) then Some (ECode [0; 98], Some 500)
  else if lkey_eq_dec k (LKAccount [9]) then Some (EAccount [1; 2], None)
  else None.
Definition x_li : linfo := {| li_seq := 100; li_min_temp := 16; li_min_persistent := 4096; li_max_ttl := 10000 |}.
Definition x_rec : sconf := {| sc_li := x_li; sc_mode := Recording x_src; sc_recording_build := true |}.
Definition x_enf : sconf := {| sc_li := x_li; sc_mode := Enforcing; sc_recording_build := false |}.
Definition x_trs : list tracker :=
  [ {| tk_source := false; tk_addr := AContract [7]; tk_prepared := Ok tt |};
    {| tk_source := true; tk_addr := AAccount [8]; tk_prepared := Ok tt |};
    {| tk_source := false; tk_addr := AAccount [9]; tk_prepared := Ok tt |} ].
Definition x_tr := {| tk_source := false; tk_addr := AContract [7]; tk_prepared := Ok tt |}.

Lemma x_li_ok : li_ok x_li. Proof. unfold li_ok, min_live, max_live, u32_max. cbn. lia. Qed.
Lemma x_src_ok : src_ok x_src.
Proof.
  intros k e l H D. unfold x_src in H.
  destruct (lkey_eq_dec k x_inst); [injection H as <- <-; discriminate|].
  destruct (lkey_eq_dec k x_ref); [injection H as <- <-; discriminate|].
  destruct (lkey_eq_dec k (LKCode x_old)); [injection H as <- <-; discriminate|].
  destruct (lkey_eq_dec k (LKCode x_new)); [injection H as <- <-; discriminate|].
  destruct (lkey_eq_dec k (LKAccount [9])) as [->|]; [cbn in D; congruence|discriminate].
Qed.

(* The run extends the lifetime of the account's instance and writes an entry of
   its own; the emulation records five entries, the archived code read-write,
   and each account is then read by authentication in full. *)
Definition x_p1 : prog := psucc (SExtend x_inst 1000 2000) (fun _ => pdone).
Definition x_p2 (r : res sout) : prog := pput (LKData (AContract [1]) (SU32 5) Persistent) (EData (SU32 6)) (Some 4195).
Example C82_hyp :
  exists s1 r1 t1 s2 r2 t2 s3 t3 e1,
  srun x_rec empty_storage x_p1 = (s1, r1, t1) /\ srun x_rec s1 (x_p2 r1) = (s2, r2, t2) /\ writes_ok x_rec (t1 ++ t2)
  /\ srun x_rec s2 (emulate_all x_trs) = (s3, Ok OUnit, t3)
  /\ length (st_foot s2) = 2%nat /\ length (st_foot s3) = 5%nat
  /\ declared (st_foot s3) (LKCode x_old) ReadWrite /\ ~ declared (st_foot s3) (LKAccount [9]) ReadWrite
  /\ srun x_enf (loaded x_li x_src (st_foot s3)) x_p1 = (e1, r1, t1)
  /\ same_account (contents x_enf e1) (contents x_rec s2) (AContract [7])
  /\ snd (fst (srun x_enf e1 (auth_loads x_tr (Ok 1))))
     = Ok (OEntry (Some (EData (SContractInstance (ExWasm x_old) None), None)))
  /\ length (snd (srun x_enf e1 (auth_loads x_tr (Ok 1)))) = 3%nat.
Proof.
  do 9 eexists. split; [lazy; reflexivity|]. split; [lazy; reflexivity|]. split.
  { intros _. repeat constructor. intros _. eexists. split; [reflexivity|lazy; discriminate]. }
  split; [lazy; reflexivity|]. split; [reflexivity|]. split; [reflexivity|]. split; [lazy; reflexivity|].
  split; [lazy; discriminate|]. split; [lazy; reflexivity|]. split.
  { split; [lazy; reflexivity|]. intros o t H. lazy in H. injection H as <- <-. lazy. reflexivity. }
  split; lazy; reflexivity.
Qed.

(* Without the proviso the claim is false.  The owner of the reference moves it
   to another code after the account has been authenticated (by
   `put_contract_data` under its tag): the emulation, at the end of the run,
   records the new code only, and the recorded footprint does not let the
   enforcing run load the code that the account was run by. *)
Theorem C82_moved_reference_refuted :
  exists s1 t1 s2 t2 s3 t3,
  srun x_rec empty_storage pdone = (s1, Ok OUnit, t1)
  /\ srun x_rec s1 (compile x_li (HDo (AContract [1]) (HPut (SExecutableTag [116]) (SBytes x_new) Persistent) (fun r => HRet r))) = (s2, Ok OUnit, t2)
  /\ writes_ok x_rec (t1 ++ t2)
  /\ srun x_rec s2 (emulate_all x_trs) = (s3, Ok OUnit, t3)
  /\ In x_tr x_trs
  /\ snd (fst (meaning_run x_li (contents x_rec s1) (auth_loads x_tr (Ok 1))))
     = Ok (OEntry (Some (EData (SContractInstance (ExWasm x_old) None), None)))
  /\ snd (fst (srun x_enf (loaded x_li x_src (st_foot s3)) (auth_loads x_tr (Ok 1))))
     = Err (ESys TStorage CExceededLimit).
Proof.
  do 6 eexists. split; [reflexivity|]. split; [lazy; reflexivity|]. split.
  { intros _. repeat constructor. intros _. eexists. split; [reflexivity|lazy; discriminate]. }
  split; [lazy; reflexivity|]. split; [left; reflexivity|]. split; lazy; reflexivity.
Qed.
Print Assumptions C82_moved_reference_refuted.
