(* C66: signatures on behalf of an account by the delegates it lists. *)
From Coq Require Import ZArith Lia List Bool.
From Verif Require Import Prelude HeapModel HeapSpec FrameModel DelegModel DelegSpec DelegProofs DelegProofs2 DelegProofs3.
Import ListNotations.
Open Scope Z_scope.

(* Whatever contracts do, trackers, match stacks, frames and rollbacks amount to DelegSpec:
   the signer being authenticated may use each delegate listed directly below it once, what
   a failed call used is given back, and the getter lists exactly those delegates. *)
Theorem C66_meaning acct entries id p :
  Forall typed_entry entries -> typed_prog p -> well_formed entries ->
  transaction acct entries id p = spec_transaction acct entries id p.
Proof. apply transaction_spec. Qed.
Print Assumptions C66_meaning.

(* Entries with delegates out of order or listed twice, at any depth, are refused before
   anything runs or is checked. *)
Theorem C66_unordered_delegates_are_refused acct entries id p :
  ~ well_formed entries -> transaction acct entries id p = (Err (ESys TAuth CInvalidInput), []).
Proof. apply transaction_rejects. Qed.
Print Assumptions C66_unordered_delegates_are_refused.

Lemma wf_dec entries : well_formed entries \/ ~ well_formed entries.
Proof. destruct (tracks_of_spec entries) as [[W _]|[W _]]; auto. Qed.

(* Every check ever made, kept or not, is of a listed address with the signature listed for
   it, for the payload and context of the entry, and is asked for by the signer one step
   up. *)
Theorem C66_only_listed_delegates acct entries id p :
  Forall typed_entry entries -> typed_prog p ->
  forall b d, In (b, d) (snd (transaction acct entries id p)) -> event_listed entries d.
Proof.
  intros TY TP b d I. destruct (wf_dec entries) as [W|W]; [|rewrite transaction_rejects in I; auto; contradiction].
  rewrite transaction_spec in I; auto. unfold spec_transaction in I.
  pose proof (spec_listed acct entries p (AContract id) None [] {| v_used := []; v_verified := [] |} Logic.I) as F.
  destruct (spec acct entries p (AContract id) None [] _) as [[r v] t]. cbn [snd] in F. rewrite Forall_forall in F. apply F.
  destruct r; cbn [snd] in I; [|rewrite <- (dropped_snd t)]; change d with (snd (b, d)); apply in_map; auto.
Qed.
Print Assumptions C66_only_listed_delegates.

Lemma kept_good acct entries id p : Forall typed_entry entries -> typed_prog p ->
  exists v v', good acct [] v v' None (snd (transaction acct entries id p)).
Proof.
  intros TY TP. destruct (wf_dec entries) as [W|W].
  - rewrite transaction_spec; auto. unfold spec_transaction. pose proof (spec_good acct entries p (AContract id) None [] {| v_used := []; v_verified := [] |}) as G.
    destruct (spec acct entries p (AContract id) None [] _) as [[r v] t]. cbn [fst snd] in G. destruct r as [[]|e]; cbn [snd]; [eauto|].
    exists v, v. constructor; rewrite ?kept_dropped; try apply incl_refl; try constructor. intros [|y t1] d u; discriminate.
  - rewrite transaction_rejects; auto. cbn [snd]. exists {| v_used := []; v_verified := [] |}. eexists. apply good_nil.
Qed.

(* In what takes effect, no entry and no delegate is used twice, by whatever route. *)
Theorem C66_each_signature_once acct entries id p :
  Forall typed_entry entries -> typed_prog p -> NoDup (map who (kept (snd (transaction acct entries id p)))).
Proof. intros TY TP. destruct (kept_good acct entries id p TY TP) as (v & v' & G). apply G. Qed.
Print Assumptions C66_each_signature_once.

(* In what takes effect, the signatures of all classic accounts asked for are valid. *)
Theorem C66_kept_checks_passed acct entries id p :
  Forall typed_entry entries -> typed_prog p -> Forall (passed acct) (kept (snd (transaction acct entries id p))).
Proof. intros TY TP. destruct (kept_good acct entries id p TY TP) as (v & v' & G). apply G. Qed.
Print Assumptions C66_kept_checks_passed.

(* A delegate only counts after the signer that lists it was itself checked: authority
   flows down from the entry. *)
Theorem C66_authority_flows_down acct entries id p :
  Forall typed_entry entries -> typed_prog p ->
  forall t1 d t2 w, kept (snd (transaction acct entries id p)) = t1 ++ d :: t2 -> parent_of d = Some w -> In w (map who t1).
Proof.
  intros TY TP t1 d t2 w E P. destruct (kept_good acct entries id p TY TP) as (v & v' & G). pose proof (g_parent _ _ _ _ _ _ G t1 d t2 E) as X. rewrite P in X. destruct X as [X|X]; [discriminate|auto].
Qed.
Print Assumptions C66_authority_flows_down.

(* A failed transaction keeps nothing. *)
Theorem C66_failure_keeps_nothing acct entries id p e :
  fst (transaction acct entries id p) = Err e -> kept (snd (transaction acct entries id p)) = [].
Proof.
  unfold transaction. destruct (tracks_of entries) as [l|x]; cbn [fst snd]; [|reflexivity].
  destruct (in_frame _ _ _) as [[s r] t]. destruct r; cbn [fst snd]; [discriminate|]. intros _. apply kept_dropped.
Qed.
Print Assumptions C66_failure_keeps_nothing.

(* ---- a two-level tree *)
Definition k1 := AAccount [1]. Definition k2 := AAccount [2]. Definition k3 := AAccount [3].
Definition wallet := AContract [7]. Definition guard := AContract [9].
(* the signature of account [n] is the number [n] *)
Definition ex_acct (a : addr) (pl : list Z) (s : scval) : res unit :=
  match a, s with AAccount [n], SU32 m => if n =? m then Ok tt else Err (ESys TAuth CInvalidInput) | _, _ => Err (ESys TAuth CInvalidInput) end.
Definition ex_entry := {| de_addr := wallet;
  de_cred := DDelegates [DT k1 (SU32 1) []; DT k2 (SU32 9) []; DT guard SVoid [DT k1 (SU32 1) []; DT k3 (SU32 3) []]];
  de_sig := SVoid; de_payload := [5; 5]; de_ctx := SBool true |}.
Definition ex_src := {| de_addr := AAccount [4]; de_cred := DSource; de_sig := SVoid; de_payload := [6]; de_ctx := SVoid |}.
Definition guard_check := DDelegate k3 DEnd (DDelegate k1 DEnd DEnd).
Definition wallet_check := DDelegate guard guard_check (DSigners (fun l => match l with a :: _ => DDelegate a DEnd DEnd | [] => DFail (EContract 1) end)).
(* an inner call authenticates the wallet, then fails and is caught; the wallet is
   authenticated again after it *)
Definition ex_prog := DCall [8] true (DRequire 0 wallet_check (Ok tt) (DFail (EContract 3))) DEnd
  (DRequire 1 DEnd (Ok tt) (DRequire 0 wallet_check (Ok tt) (DRequire 0 DEnd (Ok tt) DEnd))).
Example ex_hyps : Forall typed_entry [ex_entry; ex_src] /\ typed_prog ex_prog /\ well_formed [ex_entry; ex_src].
Proof.
  split; [|split].
  - repeat constructor.
  - cbn. repeat split; auto; intros l F; destruct F; cbn; auto.
  - destruct (tracks_of_spec [ex_entry; ex_src]) as [[W _]|[_ E]]; auto. vm_compute in E. discriminate.
Qed.
Example ex_run : fst (transaction ex_acct [ex_entry; ex_src] [8] ex_prog) = Ok tt
  /\ map who (kept (snd (transaction ex_acct [ex_entry; ex_src] [8] ex_prog))) = [(0%nat, []); (0%nat, [2%nat]); (0%nat, [2%nat; 1%nat]); (0%nat, [2%nat; 0%nat]); (0%nat, [0%nat])]
  /\ length (snd (transaction ex_acct [ex_entry; ex_src] [8] ex_prog)) = 10%nat.
Proof. vm_compute. auto. Qed.
(* a delegate twice; a delegate of another level; a wrong signature; an ordinary call *)
Example ex_refused :
  fst (transaction ex_acct [ex_entry] [8] (DRequire 0 (DDelegate k1 DEnd (DDelegate k1 DEnd DEnd)) (Ok tt) DEnd)) = Err (ESys TAuth CInvalidAction)
  /\ fst (transaction ex_acct [ex_entry] [8] (DRequire 0 (DDelegate k3 DEnd DEnd) (Ok tt) DEnd)) = Err (ESys TAuth CInvalidAction)
  /\ fst (transaction ex_acct [ex_entry] [8] (DRequire 0 (DDelegate k2 DEnd DEnd) (Ok tt) DEnd)) = Err (ESys TAuth CInvalidAction)
  /\ fst (transaction ex_acct [ex_entry] [8] (DRequire 0 (DCall [1] false (DDelegate k1 DEnd DEnd) DEnd DEnd) (Ok tt) DEnd)) = Err (ESys TAuth CInvalidAction)
  /\ fst (transaction ex_acct [ex_entry] [8] (DRequire 0 (DDelegate guard (DRequire 0 DEnd (Ok tt) DEnd) DEnd) (Ok tt) DEnd)) = Err (ESys TAuth CInvalidAction).
Proof. vm_compute. auto. Qed.
Example ex_unordered : ~ well_formed [{| de_addr := wallet; de_cred := DDelegates [DT guard SVoid [DT k3 (SU32 3) []; DT k1 (SU32 1) []]]; de_sig := SVoid; de_payload := [5]; de_ctx := SVoid |}].
Proof. intros W. match type of W with well_formed ?l => destruct (tracks_of_spec l) as [[_ E]|[N _]] end; [vm_compute in E; discriminate|auto]. Qed.
