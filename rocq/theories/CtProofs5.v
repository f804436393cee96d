(* Proofs about CtModel: which trees contracts can authorize; keys; executables. *)
From Coq Require Import ZArith Lia String List Bool Sorting.Sorted Sorting.Permutation.
From Verif Require Import Prelude ValModel ValSpec HeapModel HeapSpec TreeProofs HostFnProofs WideProofs ConvProofs FrameModel XdrModel MultisigModel DelegProofs CtModel CtSpec CtProofs CtProofs2 CtProofs3 CtProofs4.
Import ListNotations.
Open Scope Z_scope.
Ltac Zify.zify_post_hook ::= idtac.

Lemma fold_max_le l : forall n, (fold_right Nat.max O l <= n <-> Forall (fun x => x <= n) l)%nat.
Proof.
  induction l as [|x l IH]; intros n; cbn [fold_right].
  - split; intros; [constructor|lia].
  - rewrite Nat.max_lub_iff, IH. split; [intros (A & B); now constructor|intros H; inversion H; auto].
Qed.

Lemma grants_tree by_ n : forall v t, grants by_ n v t -> own_tree by_ t /\ (levels t <= n)%nat.
Proof.
  induction n as [|n IH]; intros v t H;
    inversion H as [n0 c f args vs subs rest P Sb|n0 salt ex w rest V S Ls|n0 salt ex w args rest V S Ls]; subst.
  - assert (A : Forall (fun s => own_tree by_ s /\ (levels s <= n)%nat) subs).
    { clear H. induction Sb as [|v t vs subs G Sb IHs]; constructor; auto. eapply IH; eauto. }
    split.
    + cbn. split; auto. split; auto. apply allP_forall. intros s I. rewrite Forall_forall in A. now apply A.
    + cbn [levels]. apply le_n_S, fold_max_le. rewrite Forall_map. eapply Forall_impl; [|exact A]. cbn. tauto.
  - split; [|cbn; lia]. cbn. repeat split; auto. exact (executable_value_not_asset _ _ _ V).
  - split; [|cbn; lia]. cbn. repeat split; auto. exact (executable_value_not_asset _ _ _ V).
Qed.

Lemma own_tree_granted by_ n : forall t, own_tree by_ t -> (levels t <= n)%nat -> exists v, grants by_ n v t.
Proof.
  induction n as [|n IH]; intros [f u subs] O L; [cbn in L; lia|].
  destruct f as [c nm args|pre ex args]; cbn in O; destruct O as (-> & O).
  - destruct O as (P & O). cbn [levels] in L. apply le_S_n, fold_max_le in L. rewrite Forall_map in L.
    assert (E : exists vs, Forall2 (grants by_ n) vs subs).
    { rewrite allP_forall in O. induction subs as [|s subs IHs]; [exists []; constructor|].
      inversion L; subst. destruct IHs as (vs & F); auto; [intros; apply O; now right|].
      destruct (IH s) as (v & G); auto; [apply O; now left|]. exists (v :: vs). now constructor. }
    destruct E as (vs & F). eexists. eapply gr_call with (rest := []); eauto.
  - destruct pre as [b salt|]; [|tauto]. destruct O as (-> & N & S & Ls & ->).
    assert (V : exists w, executable_value false ex w).
    { destruct ex as [h| |o t]; [|congruence|]; eexists; [apply (ev_wasm false h [])|apply (ev_ref false o t [])]; auto. }
    destruct V as (w & V). eexists. eapply gr_ctor with (rest := []); eauto.
Qed.

Lemma grants_iff by_ n v t : invoker_entry n by_ v = Ok t <-> grants by_ n v t.
Proof. apply invoker_entry_iff. Qed.
Lemma grantable by_ n t : (exists v, invoker_entry n by_ v = Ok t) <-> own_tree by_ t /\ (levels t <= n)%nat.
Proof.
  split.
  - intros (v & H). apply grants_iff in H. eapply grants_tree; eauto.
  - intros (O & L). destruct (own_tree_granted by_ n t O L) as (v & G). exists v. now apply grants_iff.
Qed.

(* signatures of accounts are values of the type of account_contract.rs:62-67 *)
Lemma decode_sig_iff v pk sg : decode_sig v = Ok (pk, sg) <->
  from_val t_signature v = Ok (DStruct [(lit "public_key", DBytes pk); (lit "signature", DBytes sg)]).
Proof.
  unfold t_signature.
  rewrite (read_struct _ [(lit "public_key", YBytesN 32); (lit "signature", YBytesN 64)]) by (vm_compute; reflexivity). split.
  - unfold decode_sig. destruct v; try discriminate. destruct m as [m|]; [|discriminate].
    destruct (unpack_dense [s_public_key; s_signature] m) as [vs|] eqn:U; cbn [rbind]; [|discriminate].
    apply unpack_dense_spec in U. destruct U as (-> & L).
    take vs L a. take vs L b. destruct vs; [|discriminate L].
    destruct (bytes_n 32 a) as [x|] eqn:A; cbn [rbind]; [|discriminate].
    destruct (bytes_n 64 b) as [y|] eqn:B; cbn [rbind]; [|discriminate]. intros H. injection H as <- <-.
    exists [a; b], [(lit "public_key", DBytes x); (lit "signature", DBytes y)], [(lit "public_key", DBytes x); (lit "signature", DBytes y)].
    split; [reflexivity|]. split; [reflexivity|]. split; [|split; reflexivity].
    cbn [read_fields map fst snd from_val]. rewrite A. cbn [rmap rbind]. rewrite B. reflexivity.
  - intros (vs & xs & l & -> & L & R & B1 & Hd).
    take vs L a. take vs L b. destruct vs; [|discriminate L].
    cbn [read_fields map fst snd from_val] in R.
    destruct (bytes_n 32 a) as [x|] eqn:A; cbn [rmap rbind] in R; [|discriminate].
    destruct (bytes_n 64 b) as [y|] eqn:B; cbn [rmap rbind] in R; [|discriminate]. injection R as <-.
    vm_compute in B1. injection B1 as <-. injection Hd as <- <-.
    unfold decode_sig. 
    rewrite (proj2 (unpack_dense_spec [s_public_key; s_signature] _ [a; b])) by (split; reflexivity). cbn [rbind].
    rewrite A. cbn [rbind]. rewrite B. reflexivity.
Qed.
