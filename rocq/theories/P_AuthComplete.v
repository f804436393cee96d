(* Property C75: require_auth gives exactly the answer it should. *)
From Coq Require Import ZArith Lia List Bool.
From Verif Require Import Prelude ValModel ContainerModel HeapModel AMap StorageModel StorageSpec
  StorageProofs StorageProofs2 StorageLogic StorageProofs3 FrameModel FrameSpec FrameProofs FrameStore FrameProofs2
  AuthModel AuthSpec AuthProofs AuthProofs2 AuthProofs3 AuthProofs4 AuthProofs5 AuthProofs6 AuthProofs8 AuthProofs9 P_Auth.
Import ListNotations.
Open Scope Z_scope.

(* At most one answer is right: the direct invoker before pre-authorizations,
   these before entries, the first of each before the others, its first unused
   matching node; and a refusal only if there is none of these. *)
Theorem C75_one_right_answer : forall entries s a f w w',
  right_answer entries s a f w -> right_answer entries s a f w' -> w = w'.
Proof. exact answer_unique. Qed.
Print Assumptions C75_one_right_answer.

(* In any transaction, with any entries, on any ledger, every require_auth, in
   failed calls and in authentications too, gets the right answer for what was
   used, in use and in scope at that point. *)
Theorem C75_every_request_is_answered_rightly : forall c entries sto p st' r t,
  li_ok (sc_li c) -> run_ok c sto -> alive (sc_li c) (contents c sto) ->
  transaction c (new_enforcing sto entries) p = (st', r, t) ->
  record entries None p r t
  /\ (exists s', explained (sc_li c) entries (start (fun a n => contents c sto (nonce_key a n))) t s')
  /\ forall x a f w, In x (flat_map everything t) -> answer_of x = Some (a, f, w) ->
       exists s l s', explained (sc_li c) entries s (x :: l) s' /\ current_fn s f
         /\ right_answer entries s a f w /\ forall w', right_answer entries s a f w' -> w' = w.
Proof.
  intros c entries sto p st' r t LI RO AL E.
  destruct (tx_spec entries c LI sto RO AL p st' r t E) as (RC & _).
  destruct (tx_explained entries c LI sto RO AL p st' r t E) as (s' & X & _).
  split; [exact RC|]. split; [exists s'; exact X|]. intros x a f w IN AN.
  destruct (exp_inside _ _ _ _ _ X x IN) as (s0 & l & s1 & X0). destruct (answer_right _ _ _ _ _ _ _ _ _ X0 AN) as [CF RA].
  exists s0, l, s1. split; [exact X0|]. split; [exact CF|]. split; [exact RA|].
  intros w' RA'. exact (answer_unique _ _ _ _ _ _ RA' RA).
Qed.
Print Assumptions C75_every_request_is_answered_rightly.

(* A refusal for want of an authorization ends the call with this error. *)
Theorem C75_refusals : forall c entries sto p st' r t a f,
  li_ok (sc_li c) -> run_ok c sto -> alive (sc_li c) (contents c sto) ->
  transaction c (new_enforcing sto entries) p = (st', r, t) ->
  In (TNo a f) (flat_map everything t) ->
  exists s, current_fn s f /\ direct_invoker s <> Some a
    /\ (forall j q, ~ pre_may s a f j q) /\ (forall i q, ~ entry_may entries s a f i q).
Proof.
  intros c entries sto p st' r t a f LI RO AL E IN.
  destruct (C75_every_request_is_answered_rightly c entries sto p st' r t LI RO AL E) as (_ & _ & H).
  destruct (H _ a f Refused IN eq_refl) as (s & l & s' & _ & CF & RA & _). exists s. split; [exact CF|]. exact RA.
Qed.
Print Assumptions C75_refusals.

(* An entry that matched and whose signatures were good is refused only if it
   has a nonce and has expired or expires too late, its nonce is on the ledger,
   or its nonce is outside the transaction's footprint. *)
Theorem C75_nonce_failures : forall c entries sto p st' r t a f i q e l,
  li_ok (sc_li c) -> run_ok c sto -> alive (sc_li c) (contents c sto) ->
  transaction c (new_enforcing sto entries) p = (st', r, t) ->
  In (TFirst a f i q (NonceFailed e) l) (flat_map everything t) ->
  exists en n x, nth_error entries i = Some en /\ en_addr en = a /\ en_cred en = Some (n, x)
    /\ ((e = ESys TAuth CInvalidInput /\ ~ li_seq (sc_li c) <= x <= max_live (sc_li c))
        \/ (e = ESys TAuth CExistingValue /\ exists s l' s', explained (sc_li c) entries s l' s' /\ s_nonce s' a n <> None)
        \/ (e = ESys TStorage CExceededLimit /\ sc_mode c = Enforcing /\ ~ declared (st_foot sto) (nonce_key a n) ReadWrite)).
Proof.
  intros c entries sto p st' r t a f i q e l LI RO AL E IN.
  destruct (tx_explained entries c LI sto RO AL p st' r t E) as (s' & X & _).
  destruct (tx_spec entries c LI sto RO AL p st' r t E) as (_ & st1 & EX & _).
  pose proof (exec_footed entries c LI p _ _ _ _ (st_foot sto) (start_ainv entries c sto RO AL) (start_named entries sto) (fun _ => eq_refl) EX) as FT.
  rewrite Forall_forall in FT. specialize (FT _ IN). cbn in FT.
  destruct (exp_inside _ _ _ _ _ X _ IN) as (s0 & l0 & s1 & X0). inversion X0; subst.
  match goal with H : nth_error entries i = Some ?z, G : unconsumable _ (en_cred ?z) _ _ _, K : entry_may _ _ _ _ _ _ |- _ =>
    rename z into en; rename H into NE; rename G into UC; rename K into EM end.
  destruct EM as (en' & NE' & EA & _). rewrite NE in NE'. injection NE' as <-.
  unfold unconsumable in UC. destruct (en_cred en) as [[n x]|] eqn:CR; [|contradiction].
  exists en, n, x. repeat (split; [solve [auto]|]). destruct UC as [U|[_ [[-> U]|U]]]; [left; exact U| |].
  - right; left. split; [reflexivity|]. eexists _, _, _. split; [eassumption|exact U].
  - right; right. split; [exact U|]. destruct (FT U) as (M & en' & n' & v & NE' & CR' & ND). split; [exact M|].
    rewrite NE in NE'. injection NE' as <-. rewrite CR in CR'. injection CR' as <- <-. exact ND.
Qed.
Print Assumptions C75_nonce_failures.

(* A signed tree authorizes the calls it describes, whatever they are and however
   deep: a transaction making them, each call asking for the signer, succeeds,
   and each call is authorized by its own node. *)
Theorem C75_signed_tree_authorizes_its_calls : forall c entries sto i e key sig check n x st' r t,
  li_ok (sc_li c) -> run_ok c sto -> alive (sc_li c) (contents c sto) ->
  nth_error entries i = Some e -> en_addr e = AAccount key ->
  (forall j e', nth_error entries j = Some e' -> en_addr e' = AAccount key -> j = i) ->
  sig i = Ok tt ->
  en_cred e = None
  \/ (en_cred e = Some (n, x) /\ li_seq (sc_li c) <= x <= max_live (sc_li c)
      /\ contents c sto (nonce_key (AAccount key) n) = None
      /\ (sc_mode c = Enforcing -> declared (st_foot sto) (nonce_key (AAccount key) n) ReadWrite)) ->
  transaction c (new_enforcing sto entries) (act (AAccount key) sig check (en_tree e) (ARet (Ok tt))) = (st', r, t) ->
  r = Ok tt
  /\ answers t = map (fun x => (AAccount key, snd x, ByEntry i (fst x))) (nodes (en_tree e) []).
Proof.
  intros c entries sto i e key sig check n x st' r t LI RO AL NE EA ONLY SG CR E.
  destruct (tx_explained entries c LI sto RO AL _ st' r t E) as (s' & X & _).
  destruct (tx_spec entries c LI sto RO AL _ st' r t E) as (RC & _).
  destruct (tree_acts (sc_li c) entries i e key NE EA ONLY sig check _ r t s' n x RC X SG) as [H|(f & q & IN)]; [|exact H|exfalso].
  - destruct CR as [CR|(CR & R1 & R2 & _)]; [left; exact CR|right; auto].
  - destruct (C75_nonce_failures c entries sto _ st' r t _ f i q (ESys TStorage CExceededLimit) [] LI RO AL E IN) as (en & n' & x' & NE' & _ & CR' & H).
    rewrite NE in NE'. injection NE' as <-. destruct CR as [CR|(CR & _ & _ & D)]; [congruence|].
    rewrite CR in CR'. injection CR' as <- <-. destruct H as [[H _]|[[H _]|(_ & M & ND)]]; try discriminate H. exact (ND (D M)).
Qed.
Print Assumptions C75_signed_tree_authorizes_its_calls.

(* ------------------------------------------------------------ examples *)

(* the example of C35, with its answers; the same contract asking once more is
   refused *)
Example C75_example_answers : answers ax_tree =
  [ (ax_user, FnContract [10] ax_run [SU32 5], ByEntry 0 []);
    (ax_user, FnContract [11] ax_pay [SU32 7], ByEntry 0 [0%nat]);
    (ax_wallet, FnContract [11] ax_pay [SU32 8], ByEntry 1 []);
    (ax_user, FnContract [11] ax_pay [SU32 7], ByEntry 0 [0%nat]);
    (ax_wallet, FnContract [11] ax_pay [SU32 8], ByEntry 1 []);
    (AContract [10], FnContract [12] ax_x [], ByPre 0 []) ].
Proof. vm_compute. reflexivity. Qed.
Example C75_example_refused : exists st' t, transaction ax_c ax_st
  (ACall [10] ax_run false (ARequire ax_user [SU32 6] ax_sig ax_none (ARet (Ok tt))) (fun r => ARet r))
  = (st', Err (ESys TAuth CInvalidAction), t)
  /\ answers t = [(ax_user, FnContract [10] ax_run [SU32 6], Refused)].
Proof. eexists _, _. vm_compute. split; reflexivity. Qed.
(* a tree with a creation and two equal calls, and its hypotheses *)
Definition ay_tree : ftree :=
  FT (FnContract [10] ax_run [])
    [ FT (FnContract [11] ax_pay [SU32 7]) [FT (FnContract [12] ax_x []) []];
      FT (FnCreate (PreAddress ax_user [4]) ExStellarAsset []) [];
      FT (FnContract [11] ax_pay [SU32 7]) [] ].
Definition ay_entries : list entry_ :=
  [ {| en_addr := ax_wallet; en_cred := Some (3, 120); en_tree := ay_tree |};
    {| en_addr := ax_user; en_cred := Some (9, 150); en_tree := ay_tree |} ].
Example C75_example_hypotheses :
  (forall j e', nth_error ay_entries j = Some e' -> en_addr e' = ax_user -> j = 1%nat)
  /\ li_seq (sc_li ax_c) <= 150 <= max_live (sc_li ax_c)
  /\ contents ax_c ax_sto (nonce_key ax_user 9) = None
  /\ declared (st_foot ax_sto) (nonce_key ax_user 9) ReadWrite.
Proof.
  split; [|vm_compute; repeat split; discriminate].
  intros [|[|j]] e' N A; [injection N as <-; discriminate A|reflexivity|destruct j; discriminate N].
Qed.
Example C75_example_tree : exists st' t,
  transaction ax_c (new_enforcing ax_sto ay_entries) (act ax_user ax_sig ax_none ay_tree (ARet (Ok tt))) = (st', Ok tt, t)
  /\ map snd (answers t) = [ByEntry 1 []; ByEntry 1 [0]; ByEntry 1 [0; 0]; ByEntry 1 [1]; ByEntry 1 [2]]%nat.
Proof. eexists _, _. vm_compute. split; reflexivity. Qed.
