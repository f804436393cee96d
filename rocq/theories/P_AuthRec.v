(* Property C63: a recorded set of authorization entries, once signed, authorizes
   the same transaction. *)
From Coq Require Import ZArith Lia List Bool.
From Verif Require Import Prelude ValModel ContainerModel HeapModel AMap StorageModel StorageSpec
  StorageProofs StorageProofs2 StorageLogic StorageProofs3 FrameModel FrameSpec FrameProofs FrameStore FrameProofs2
  AuthModel AuthSpec AuthRecModel AuthRecSpec AuthRecProofs5 AuthRecProofs6 AuthRecProofs7.
Import ListNotations.
Open Scope Z_scope.

(* Handles of address objects: every request names its address by a handle, from
   which the address can be told, and an address can have many. *)
Definition handle_zz (z : Z) : Z := if z <? 0 then - 2 * z - 1 else 2 * z.
Fixpoint handle_of (l : list Z) : Z := match l with [] => 0 | x :: l' => 2 ^ (handle_zz x) * (2 * handle_of l' + 1) end.
Lemma handle_zz_pos z : 0 <= handle_zz z. Proof. unfold handle_zz. destruct (Z.ltb_spec z 0); lia. Qed.
Lemma handle_zz_inj x y : handle_zz x = handle_zz y -> x = y.
Proof. unfold handle_zz. destruct (Z.ltb_spec x 0), (Z.ltb_spec y 0); lia. Qed.
Lemma handle_of_pos l : 0 <= handle_of l.
Proof. induction l as [|x l IH]; cbn [handle_of]; [lia|]. pose proof (handle_zz_pos x). assert (0 < 2 ^ handle_zz x) by (apply Z.pow_pos_nonneg; lia). apply Z.mul_nonneg_nonneg; lia. Qed.
Lemma pow_odd_le n m a b : 0 <= n <= m -> 2 ^ n * (2 * a + 1) = 2 ^ m * (2 * b + 1) -> n = m /\ a = b.
Proof.
  intros [H1 H2] E. replace m with (n + (m - n)) in E by lia. rewrite Z.pow_add_r in E by lia. rewrite <- Z.mul_assoc in E.
  apply Z.mul_reg_l in E; [|apply Z.pow_nonzero; lia]. destruct (Z.eq_dec (m - n) 0) as [D|D]; [rewrite D, Z.pow_0_r in E; lia|].
  replace (m - n) with (1 + (m - n - 1)) in E by lia. rewrite Z.pow_add_r, Z.pow_1_r in E by lia. lia.
Qed.
Lemma handle_of_inj l : forall l', handle_of l = handle_of l' -> l = l'.
Proof.
  induction l as [|x l IH]; intros [|y l'] E; auto; cbn [handle_of] in E.
  - pose proof (handle_zz_pos y). pose proof (handle_of_pos l'). assert (0 < 2 ^ handle_zz y) by (apply Z.pow_pos_nonneg; lia).
    assert (0 < 2 ^ handle_zz y * (2 * handle_of l' + 1)) by (apply Z.mul_pos_pos; lia). lia.
  - pose proof (handle_zz_pos x). pose proof (handle_of_pos l). assert (0 < 2 ^ handle_zz x) by (apply Z.pow_pos_nonneg; lia).
    assert (0 < 2 ^ handle_zz x * (2 * handle_of l + 1)) by (apply Z.mul_pos_pos; lia). lia.
  - pose proof (handle_zz_pos x) as X. pose proof (handle_zz_pos y) as Y. destruct (Z_le_gt_dec (handle_zz x) (handle_zz y)) as [L|L].
    + destruct (pow_odd_le _ _ _ _ (conj X L) E) as [E1 E2]. f_equal; [now apply handle_zz_inj|now apply IH].
    + assert (L' : 0 <= handle_zz y <= handle_zz x) by lia. destruct (pow_odd_le _ _ _ _ L' (eq_sym E)) as [E1 E2].
      f_equal; [now apply handle_zz_inj|now apply IH].
Qed.
Definition addr_code (a : addr) : list Z :=
  match a with AAccount k => 0 :: k | AContract k => 1 :: k | AMuxed i k => 2 :: i :: k | AOther d k => 3 :: d :: k end.
Lemma addr_code_inj a b : addr_code a = addr_code b -> a = b.
Proof. destruct a, b; cbn; congruence. Qed.
(* each address has two handles; request n uses the one [pick] says *)
Definition two_names (pick : nat -> bool) (n : nat) (a : addr) : Z := 2 * handle_of (addr_code a) + (if pick n then 1 else 0).
Lemma two_names_ok pick : forall n m a b, two_names pick n a = two_names pick m b -> a = b.
Proof.
  intros n m a b E. unfold two_names in E. apply addr_code_inj, handle_of_inj. destruct (pick n), (pick m); lia.
Qed.
Definition one_name : nat -> addr -> Z := two_names (fun _ => false).

(* ---------------------------------------------------------------- an example *)

(* The source account is 1; account 2 and the wallet contract 20 sign entries.
   10.run(5) asks the source, the wallet and account 2, calls 11.pay, which asks
   the source and the wallet and writes, tries 12.no, which fails, then authorizes
   12.x for itself and calls 11.mid, which calls 12.x, which asks contract 10. *)
Definition rx_run : list Z := [114; 117; 110].
Definition rx_pay : list Z := [112; 97; 121].
Definition rx_mid : list Z := [109; 105; 100].
Definition rx_x : list Z := [120].
Definition rx_source : addr := AAccount [1].
Definition rx_other : addr := AAccount [2].
Definition rx_wallet : addr := AContract [20].
Definition rx_ask (a : addr) (args : list scval) (k : aprog) : aprog := ARequire a args (fun _ => Ok tt) (fun _ => ARet (Ok tt)) k.
Definition rx_done : aprog := ARet (Ok tt).
Definition rx_call (id fn : list Z) (body : aprog) (k : aprog) : aprog :=
  ACall id fn false body (fun r => match r with Ok _ => k | Err e => ARet (Err e) end).
Definition rx_x_call (k : aprog) : aprog :=
  AAuthorize [FT (FnContract [12] rx_x []) []]
    (rx_call [11] rx_mid (rx_call [12] rx_x (rx_ask (AContract [10]) [] rx_done) rx_done) k).
Definition rx_prog : aprog :=
  rx_call [10] rx_run
    (rx_ask rx_source [SU32 5] (rx_ask rx_wallet [SU32 6] (rx_ask rx_other [SU32 4]
      (rx_call [11] rx_pay
         (rx_ask rx_source [SU32 7] (rx_ask rx_wallet [SU32 8] (AStore (SHop (HPut (SU32 1) (SU32 2) Persistent)) (fun _ => rx_done))))
      (ACall [12] rx_mid true (AStore (SHop (HPut (SU32 3) (SU32 2) Persistent)) (fun _ => ARet (Err (EContract 3)))) (fun _ =>
       rx_x_call rx_done)))))) rx_done.
Definition rx_li : linfo := {| li_seq := 100; li_min_temp := 16; li_min_persistent := 4096; li_max_ttl := 10000 |}.
Definition rx_src : lkey -> option lentry := fun _ => None.
Definition rx_cr : sconf := {| sc_li := rx_li; sc_mode := Recording rx_src; sc_recording_build := true |}.
Definition rx_ce : sconf := {| sc_li := rx_li; sc_mode := Enforcing; sc_recording_build := false |}.
Definition rx_nonces (n : nat) : Z := 1000 + Z.of_nat n.
Definition rx_rec (name : nat -> addr -> Z) (p : aprog) : rstate * res unit * list rtree :=
  rtransaction rx_cr (Some rx_source) name rx_nonces false empty_storage p.

Example rx_li_ok : li_ok rx_li.
Proof. unfold li_ok, min_live, max_live, u32_max. cbn. lia. Qed.
Example rx_src_ok : src_ok rx_src.
Proof. intros k e l X. discriminate X. Qed.
Example rx_accepts : accepts rx_prog.
Proof. cbn. repeat (split || intros [|] || intros || auto). Qed.

(* ---------------------------------------------------------------- C63 *)

(* Record a transaction against a ledger with authorization recording; have each
   recorded entry signed, with any expiration the network allows; run the same
   transaction on a validator with these entries, the recorded footprint and the
   same ledger.  If the recording is replayable (AuthRecSpec: what is recorded is
   within the order a validator uses entries in), the transaction succeeds, every
   node of every signed entry is used, and the ledger is changed to the recorded
   one, but for the time the nonces are kept for.  [name] is any way to give handles
   to addresses. *)
Theorem C63_recorded_entries_authorize : forall cr ce src source name nonces root_only p r t ents,
  li_ok (sc_li cr) -> src_ok src -> sc_mode cr = Recording src -> sc_recording_build cr = true ->
  sc_mode ce = Enforcing -> sc_li ce = sc_li cr -> (forall n m a b, name n a = name m b -> a = b) -> accepts p ->
  rtransaction cr source name nonces root_only empty_storage p = (r, Ok tt, t) -> replayable source [] false t ->
  Forall2 (signed (sc_li cr) source) (recorded_payloads r) ents ->
  let f := st_foot (as_store (rc_st r)) in
  exists st' t', transaction ce (new_enforcing (loaded (sc_li cr) src f) ents) p = (st', Ok tt, t')
    /\ Forall (fun x => all_used (tk_root (ac_trk x)) = true) (as_acc st')
    /\ (forall k, fget f k <> None -> same_at k (contents cr (as_store (rc_st r)) k) (contents ce (as_store st') k)).
Proof. exact replay_on_validator. Qed.
Print Assumptions C63_recorded_entries_authorize.

(* The same from any storage, and for all keys: when the signed entries are run where
   they were recorded. *)
Theorem C63_recorded_entries_authorize_here : forall c source name nonces root_only s p r t ents,
  li_ok (sc_li c) -> (forall n m a b, name n a = name m b -> a = b) ->
  run_ok c s -> alive (sc_li c) (contents c s) -> accepts p ->
  rtransaction c source name nonces root_only s p = (r, Ok tt, t) -> replayable source [] false t ->
  Forall2 (signed (sc_li c) source) (recorded_payloads r) ents ->
  exists st' t', transaction c (new_enforcing s ents) p = (st', Ok tt, t')
    /\ Forall (fun x => all_used (tk_root (ac_trk x)) = true) (as_acc st')
    /\ same_ledger (contents c (as_store (rc_st r))) (contents c (as_store st'))
    /\ st_foot (as_store st') = st_foot (as_store (rc_st r)).
Proof. intros c source name nonces root_only s p r t ents LI NM. exact (replay_auth c LI source name nonces root_only NM s p r t ents). Qed.
Print Assumptions C63_recorded_entries_authorize_here.

Definition rx_ents : list entry_ :=
  [ {| en_addr := rx_source; en_cred := None;
       en_tree := FT (FnContract [10] rx_run [SU32 5]) [FT (FnContract [11] rx_pay [SU32 7]) []] |};
    {| en_addr := rx_wallet; en_cred := Some (1000, 120);
       en_tree := FT (FnContract [10] rx_run [SU32 6]) [FT (FnContract [11] rx_pay [SU32 8]) []] |};
    {| en_addr := rx_other; en_cred := Some (1001, 150); en_tree := FT (FnContract [10] rx_run [SU32 4]) [] |} ].
Example C63_example : exists r t, rx_rec one_name rx_prog = (r, Ok tt, t) /\ replayable (Some rx_source) [] false t
  /\ Forall2 (signed rx_li (Some rx_source)) (recorded_payloads r) rx_ents
  /\ fget (st_foot (as_store (rc_st r))) (LKData (AContract [11]) (SU32 1) Persistent) = Some ReadWrite.
Proof.
  eexists. eexists. split; [vm_compute; reflexivity|]. split; [|split; [|vm_compute; reflexivity]].
  - repeat (constructor; cbn; try reflexivity; try (intros X; discriminate X); try (intros X; repeat destruct X as [X|X]; discriminate X || exact X)).
  - repeat constructor; cbn; try (do 2 eexists; repeat split; reflexivity || lia); vm_compute; reflexivity.
Qed.

(* With non-root authorization disabled, every recorded entry starts at the call the
   transaction makes itself (or nothing is recorded: the run fails). *)
Theorem C63_root_only : forall c source name nonces s p r o t,
  rtransaction c source name nonces true s p = (r, o, t) -> forallb (rooted 0) t = true.
Proof. exact root_only_rooted. Qed.
Print Assumptions C63_root_only.
(* the example records its three entries that way; with the wallet left out of the first
   call it does not *)
Example C63_root_only_example :
  snd (fst (rtransaction rx_cr (Some rx_source) one_name rx_nonces true empty_storage rx_prog)) = Ok tt
  /\ snd (fst (rtransaction rx_cr (Some rx_source) one_name rx_nonces true empty_storage
                 (rx_call [10] rx_run (rx_call [11] rx_pay (rx_ask rx_wallet [] rx_done) rx_done) rx_done))) = Err (ESys TAuth CInvalidAction)
  /\ snd (fst (rtransaction rx_cr (Some rx_source) one_name rx_nonces false empty_storage
                 (rx_call [10] rx_run (rx_call [11] rx_pay (rx_ask rx_wallet [] rx_done) rx_done) rx_done))) = Ok tt.
Proof. vm_compute. auto. Qed.

(* ---- recordings that do not replay *)

(* recorded successfully, signed as recorded, and refused by the validator *)
Definition refused_replay (name : nat -> addr -> Z) (p : aprog) (ents : list entry_) : Prop :=
  accepts p /\
  exists r t, rx_rec name p = (r, Ok tt, t) /\ Forall2 (signed rx_li (Some rx_source)) (recorded_payloads r) ents
    /\ snd (fst (transaction rx_ce (new_enforcing (loaded rx_li rx_src (st_foot (as_store (rc_st r)))) ents) p)) = Err (ESys TAuth CInvalidAction).

(* 1: a call asks account 2 twice, with two handles for it: two entries are recorded;
   what the calls below ask for is recorded under the handle they use, but looked for
   in the first entry that lists it. *)
Definition rx_two : aprog :=
  rx_call [10] rx_run
    (rx_ask rx_other [SU32 1] (rx_ask rx_other [SU32 2]
      (rx_call [11] rx_pay (rx_ask rx_other [] (rx_call [12] rx_x (rx_ask rx_other [] rx_done) rx_done))
      (rx_call [11] rx_pay (rx_ask rx_other [] rx_done) rx_done)))) rx_done.
Definition rx_pick (n : nat) : bool := match n with 1 | 2 | 3 => true | _ => false end%nat.
(* 2: a call that was tried asks account 2, and fails: nothing is recorded for it; on the
   validator it fails because of the authorization, with another error. *)
Definition rx_tried : aprog :=
  rx_call [10] rx_run
    (ACall [11] rx_pay true (rx_ask rx_other [] (ARet (Err (EContract 3))))
       (fun r => match r with Err (EContract 3) => rx_done | Err e => ARet (Err e) | Ok _ => rx_done end)) rx_done.
(* 3: a contract authorizes a call for itself, and asks the wallet before it makes the
   call: on the validator the wallet's __check_auth is called in between. *)
Definition rx_between : aprog :=
  rx_call [10] rx_run
    (AAuthorize [FT (FnContract [12] rx_x []) []]
       (rx_ask rx_wallet [SU32 6]
          (rx_call [11] rx_mid (rx_call [12] rx_x (rx_ask (AContract [10]) [] rx_done) rx_done) rx_done))) rx_done.

Definition rx_two_ents : list entry_ :=
  [ {| en_addr := rx_other; en_cred := Some (1000, 120);
       en_tree := FT (FnContract [10] rx_run [SU32 1]) [FT (FnContract [11] rx_pay []) []] |};
    {| en_addr := rx_other; en_cred := Some (1001, 120);
       en_tree := FT (FnContract [10] rx_run [SU32 2]) [FT (FnContract [11] rx_pay []) [FT (FnContract [12] rx_x []) []]] |} ].
Definition rx_between_ents : list entry_ :=
  [ {| en_addr := rx_wallet; en_cred := Some (1000, 120); en_tree := FT (FnContract [10] rx_run [SU32 6]) [] |} ].

Ltac refused :=
  split; [cbn; repeat (split || intros [|] || intros || auto || (match goal with |- accepts (match ?e with _ => _ end) => destruct e end))|];
  eexists; eexists; split; [vm_compute; reflexivity|]; split;
  [repeat constructor; cbn; try (do 2 eexists; repeat split; reflexivity || lia); vm_compute; reflexivity|vm_compute; reflexivity].

Theorem C63_two_handles_refuted : refused_replay (two_names rx_pick) rx_two rx_two_ents.
Proof. refused. Qed.
Theorem C63_failed_call_refuted : refused_replay one_name rx_tried [].
Proof. refused. Qed.
Theorem C63_check_auth_between_refuted : refused_replay one_name rx_between rx_between_ents.
Proof. refused. Qed.
(* so replayable cannot be left out of the theorem *)
Theorem C63_every_recording_replays_refuted :
  ~ (forall cr ce src source name nonces root_only p r t ents,
       li_ok (sc_li cr) -> src_ok src -> sc_mode cr = Recording src -> sc_recording_build cr = true ->
       sc_mode ce = Enforcing -> sc_li ce = sc_li cr -> (forall n m a b, name n a = name m b -> a = b) -> accepts p ->
       rtransaction cr source name nonces root_only empty_storage p = (r, Ok tt, t) ->
       Forall2 (signed (sc_li cr) source) (recorded_payloads r) ents ->
       exists st' t', transaction ce (new_enforcing (loaded (sc_li cr) src (st_foot (as_store (rc_st r)))) ents) p = (st', Ok tt, t')).
Proof.
  intros X. destruct C63_check_auth_between_refuted as (A & r & t & R & S0 & E).
  destruct (X rx_cr rx_ce rx_src (Some rx_source) one_name rx_nonces false rx_between r t _
              rx_li_ok rx_src_ok eq_refl eq_refl eq_refl eq_refl (two_names_ok _) A R S0) as (st' & t' & T).
  cbn [sc_li rx_cr] in T. rewrite T in E. discriminate E.
Qed.
Print Assumptions C63_every_recording_replays_refuted.
