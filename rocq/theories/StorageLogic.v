(* A program logic for storage programs: what holds after every run, whichever
   calls the footprint refuses. *)
From Coq Require Import ZArith Lia List Bool.
From Verif Require Import Prelude ValModel ContainerModel HeapModel AMap StorageModel StorageSpec StorageProofs StorageProofs2.
Import ListNotations.
Open Scope Z_scope.

(* Every run of p from m ends in Q; any call may also be refused without effect. *)
Fixpoint wp (li : linfo) (p : prog) (m : store) (Q : store -> res sout -> Prop) : Prop :=
  match p with
  | PRet r => Q m r
  | PDo op k =>
      write_ok li op
      /\ wp li (k (snd (meaning li m op))) (fst (meaning li m op)) Q
      /\ wp li (k (Err e_foot)) m Q
  | PFrame body k =>
      wp li body m (fun m1 r => wp li (k r) (match r with Ok _ => m1 | Err _ => m end) Q)
  end.

Definition same (m m' : store) : Prop := forall k, m k = m' k.
Lemma same_refl m : same m m. Proof. intros k; auto. Qed.
Definition ext_post (Q : store -> res sout -> Prop) : Prop := forall m m' r, same m m' -> Q m r -> Q m' r.

Lemma wp_mono li p : forall m (Q Q' : store -> res sout -> Prop), (forall m r, Q m r -> Q' m r) -> wp li p m Q -> wp li p m Q'.
Proof.
  induction p as [r|op k IH|body IHb k IH]; intros m Q Q' G H; cbn in *.
  - auto.
  - destruct H as (A & B & C). split; auto. split; eauto.
  - eapply IHb; [|exact H]. intros m1 r H1. cbn in H1. eapply IH; eauto.
Qed.

Lemma wp_ext li p : forall m m' Q, ext_post Q -> same m m' -> wp li p m Q -> wp li p m' Q.
Proof.
  induction p as [r|op k IH|body IHb k IH]; intros m m' Q X S H.
  - cbn in *. eapply X; eauto.
  - cbn in *. destruct H as (A & B & C). destruct (meaning_ext li m m' op S) as [E1 E2]. split; [auto|].
    rewrite <- E1. split; [|eapply IH; eauto]. eapply IH; eauto.
  - cbn in *.
    apply (IHb m m'); auto.
    + intros m1 m2 r S1 H1. eapply IH; [exact X| |exact H1]. destruct r; [exact S1|apply same_refl].
    + eapply wp_mono; [|exact H]. intros m1 r H1. cbn in H1. eapply IH; [exact X| |exact H1].
      destruct r; [apply same_refl|exact S].
Qed.

Lemma wp_bind li p k : forall m Q, wp li p m (fun m1 r => wp li (k r) m1 Q) -> wp li (pbind p k) m Q.
Proof.
  induction p as [r|op f IH|body IHb f IH]; intros m Q H; cbn in *; auto.
  - destruct H as (A & B & C). split; [exact A|]. split; apply IH; assumption.
  - eapply wp_mono; [|exact H]. intros m1 r H1. cbn in H1. now apply IH.
Qed.

(* Runs of the storage model obey the logic. *)
Theorem wp_sound c p : li_ok (sc_li c) -> forall s Q s' r t, run_ok c s -> ext_post Q ->
  wp (sc_li c) p (contents c s) Q -> srun c s p = (s', r, t) ->
  Q (contents c s') r /\ Forall (fun q => write_ok (sc_li c) (fst q)) t.
Proof.
  intros LI. induction p as [r0|op k IH|body IHb k IH]; intros s Q s' r t R X H E.
  - cbn in E, H. injection E as <- <- <-. auto.
  - cbn in E, H. destruct H as (W & H1 & H2). destruct (sstep c s op) as [s1 r1] eqn:ST.
    destruct (srun c s1 (k r1)) as [[s2 r2] t2] eqn:RN. injection E as <- <- <-.
    pose proof (step_correct c s op s1 r1 LI R (fun _ => W) ST) as SO. destruct (step_run_ok c s op s1 r1 R SO) as (R1 & _ & _).
    assert (H3 : wp (sc_li c) (k r1) (contents c s1) Q).
    { destruct SO as [(-> & CS & _)|(_ & _ & _ & -> & ->)]; auto. eapply wp_ext; [exact X| |exact H1].
      intros q. symmetry. apply CS. }
    destruct (IH r1 s1 Q s2 r2 t2 R1 X H3 RN) as [A B]. split; auto.
  - cbn in E, H. destruct (srun c s body) as [[s1 r1] t1] eqn:BD.
    set (s2 := match r1 with Ok _ => s1 | Err _ => set_map s1 (st_map s) end) in E.
    destruct (srun c s2 (k r1)) as [[s3 r3] t3] eqn:RN. injection E as <- <- <-.
    assert (XB : ext_post (fun m1 r => wp (sc_li c) (k r) (match r with Ok _ => m1 | Err _ => contents c s end) Q)).
    { intros m1 m2 q S H1. eapply wp_ext; [exact X| |exact H1]. destruct q; [exact S|apply same_refl]. }
    destruct (IHb s _ s1 r1 t1 R XB H BD) as [H1 W1]. cbn in H1.
    destruct (srun_ok c body LI s s1 r1 t1 R BD (fun _ => W1)) as (R1 & Cv & F).
    assert (R2 : run_ok c s2) by (unfold s2; destruct r1; auto; now apply rollback_ok).
    assert (H2 : wp (sc_li c) (k r1) (contents c s2) Q) by (unfold s2; destruct r1; exact H1).
    destruct (IH r1 s2 Q s3 r3 t3 R2 X H2 RN) as [A B]. split; auto. apply Forall_app; auto.
Qed.

(* ---------------------------------------------------------------- rules *)

Lemma wp_psucc li op k m (Q : store -> res sout -> Prop) : write_ok li op -> Q m (Err e_foot) ->
  (forall o, snd (meaning li m op) = Ok o -> wp li (k o) (fst (meaning li m op)) Q) ->
  (forall e, snd (meaning li m op) = Err e -> Q (fst (meaning li m op)) (Err e)) ->
  wp li (psucc op k) m Q.
Proof.
  intros W F A B. cbn. split; [exact W|]. split; [|exact F].
  destruct (snd (meaning li m op)) as [o|e] eqn:E; cbn; auto.
Qed.

Lemma wp_pget li k cont m (Q : store -> res sout -> Prop) : key_supported k = true -> Q m (Err e_foot) ->
  (m k = None -> Q m (Err e_st_missing)) -> (forall e, m k = Some e -> wp li (cont e) m Q) ->
  wp li (pget k cont) m Q.
Proof.
  intros K F N S. unfold pget. apply wp_psucc; auto; [exact I| |];
    unfold meaning, bad_args; cbn [op_key]; rewrite K; cbn [fst snd]; [|discriminate].
  intros o [= <-]. destruct (m k) as [e|] eqn:M; cbn; auto.
Qed.

Lemma wp_phas li k cont m (Q : store -> res sout -> Prop) : key_supported k = true -> Q m (Err e_foot) ->
  (m k = None -> wp li (cont false) m Q) -> (m k <> None -> wp li (cont true) m Q) ->
  wp li (phas k cont) m Q.
Proof.
  intros K F N S. unfold phas. apply wp_psucc; auto; [exact I| |];
    unfold meaning, bad_args; cbn [op_key]; rewrite K; cbn [fst snd]; [|discriminate].
  intros o [= <-]. destruct (m k) as [e|] eqn:M; cbn; [apply S; congruence|auto].
Qed.

Lemma wp_pput li k e l m (Q : store -> res sout -> Prop) : key_supported k = true -> entry_supported e = true -> live li k (Some (e, l)) ->
  Q m (Err e_foot) -> Q (upd m k (Some (e, l))) (Ok OUnit) -> wp li (pput k e l) m Q.
Proof.
  intros K ES L F S. unfold pput. apply wp_psucc; auto;
    unfold meaning, bad_args; rewrite K, ES; cbn [fst snd andb]; [|discriminate].
  intros o _. exact S.
Qed.

Lemma wp_sput li k e l cont m (Q : store -> res sout -> Prop) : key_supported k = true -> entry_supported e = true -> live li k (Some (e, l)) ->
  Q m (Err e_foot) -> wp li (cont OUnit) (upd m k (Some (e, l))) Q -> wp li (psucc (SPut k e l) cont) m Q.
Proof.
  intros K ES L F S. apply wp_psucc; auto;
    unfold meaning, bad_args; rewrite K, ES; cbn [fst snd andb]; [|discriminate].
  intros o [= <-]. exact S.
Qed.

Lemma wp_sdel li k cont m (Q : store -> res sout -> Prop) : key_supported k = true ->
  Q m (Err e_foot) -> wp li (cont OUnit) (upd m k None) Q -> wp li (psucc (SDel k) cont) m Q.
Proof.
  intros K F S. apply wp_psucc; auto; [exact I| |];
    unfold meaning, bad_args; cbn [op_key]; rewrite K; cbn [fst snd andb]; [|discriminate].
  intros o [= <-]. exact S.
Qed.

(* ---------------------------------------------------------------- contract data writes *)

Definition put_live (li : linfo) (old : option lentry) (d : durability) : option Z :=
  match old with Some (_, l) => l | None => Some (min_live li d) end.

Definition put_post (li : linfo) (m : store) (key : lkey) (d : durability) (v : scval) (m' : store) (r : res sout) : Prop :=
  match r with
  | Ok _ => forall k', m' k' = (if lkey_eq_dec k' key then Some (EData v, put_live li (m key) d) else m k')
  | Err _ => same m' m
  end.
Lemma put_post_ext li m key d v : ext_post (put_post li m key d v).
Proof.
  intros a b r S H. unfold put_post in *. destruct r; intros k'; rewrite <- (S k'); apply H.
Qed.

Lemma wp_put_ledger li m c k d v : li_ok li -> live li (LKData c k d) (m (LKData c k d)) ->
  wp li (put_data_into_ledger li (LKData c k d) d v) m (put_post li m (LKData c k d) d v).
Proof.
  intros LI A. unfold put_data_into_ledger. apply wp_phas; auto; try (cbn; apply same_refl).
  - intros N. unfold get_min_live_until. rewrite (min_live_ok li d LI). apply wp_pput; auto; try (cbn; apply same_refl).
    + cbn. intros _. eexists. split; [reflexivity|]. now apply min_live_ge.
    + cbn. rewrite N. intros k'. unfold upd. destruct (lkey_eq_dec k' _); auto.
  - intros N. apply wp_pget; auto; try (cbn; intros; apply same_refl).
    intros [e l] M. destruct e; try (cbn; apply same_refl). apply wp_pput; auto; try (cbn; apply same_refl).
    + rewrite M in A. exact A.
    + cbn. rewrite M. intros k'. unfold upd. destruct (lkey_eq_dec k' _); auto.
Qed.

Lemma wp_validate li m d k v cont (Q : store -> res sout -> Prop) : (forall e, Q m (Err e)) -> wp li cont m Q -> wp li (validate_put d k v cont) m Q.
Proof.
  intros F H. unfold validate_put. destruct k; auto. destruct d; [apply F|]. destruct v; try apply F.
  destruct (Nat.eqb _ 32); [|apply F]. apply wp_phas; auto. intros _. apply F.
Qed.

Lemma put_contract_data_correct c s a k v d s' r t : li_ok (sc_li c) -> run_ok c s -> alive (sc_li c) (contents c s) ->
  srun c s (put_contract_data (sc_li c) a k v d) = (s', r, t) ->
  put_post (sc_li c) (contents c s) (LKData a k d) d v (contents c s') r.
Proof.
  intros LI R A E.
  refine (proj1 (wp_sound c _ LI s (put_post (sc_li c) (contents c s) (LKData a k d) d v) s' r t R (put_post_ext _ _ _ _ _) _ E)).
  apply wp_validate; [intros; apply same_refl|]. apply wp_put_ledger; auto.
Qed.

(* ---------------------------------------------------------------- contracts *)

Definition alive_post (li : linfo) : store -> res sout -> Prop := fun m _ => alive li m.
Lemma alive_ext li : ext_post (alive_post li).
Proof. intros m m' r S A k. rewrite <- S. apply A. Qed.
Lemma alive_upd li m k v : alive li m -> live li k v -> alive li (upd m k v).
Proof. intros A L q. unfold upd. destruct (lkey_eq_dec q k) as [->|]; auto. Qed.

Lemma wp_alive_op li op k m : write_ok li op -> alive li m ->
  (forall m' r, alive li m' -> wp li (k r) m' (alive_post li)) -> wp li (PDo op k) m (alive_post li).
Proof.
  intros W A H. cbn. split; [exact W|]. split; apply H; auto. now apply meaning_alive.
Qed.

Lemma wp_alive_psucc li op k m : write_ok li op -> alive li m ->
  (forall m' o, alive li m' -> wp li (k o) m' (alive_post li)) -> wp li (psucc op k) m (alive_post li).
Proof.
  intros W A H. apply wp_alive_op; auto. intros m' [o|e] A'; cbn; auto.
Qed.

Lemma wp_extend_code li ext key m : (forall k, write_ok li (ext k)) -> alive li m ->
  wp li (extend_code_ttl ext key) m (alive_post li).
Proof.
  intros W A. unfold extend_code_ttl, pinstance, pget. apply wp_alive_psucc; [exact I|exact A|].
  intros m1 o A1. destruct o as [| |[[e l]|]]; try exact A1. destruct e; try exact A1. destruct v; try exact A1.
  destruct e; try exact A1.
  - apply wp_alive_psucc; auto.
  - apply wp_alive_psucc; auto. intros m2 _ A2. unfold resolve_external_ref, pget. apply wp_alive_psucc; [exact I|exact A2|].
    intros m3 o A3. destruct o as [| |[[e3 l3]|]]; try exact A3. destruct e3; try exact A3. destruct v; try exact A3.
    destruct (Nat.eqb _ 32); [|exact A3]. apply wp_alive_psucc; auto.
Qed.

Lemma hop_alive li c h m : li_ok li -> alive li m -> wp li (hop_prog li c h) m (alive_post li).
Proof.
  intros LI A. destruct h; cbn [hop_prog].
  - apply (wp_mono li _ m (put_post li m (LKData c k d) d v));
      [|apply wp_validate; [intros; apply same_refl|apply wp_put_ledger; auto]].
    intros m' r H. unfold put_post in H. unfold alive_post. destruct r.
    + intros q. rewrite H. destruct (lkey_eq_dec q (LKData c k d)) as [->|]; auto.
      pose proof (A (LKData c k d)) as L. destruct (m (LKData c k d)) as [[e l]|]; cbn; auto.
      intros _. eexists. split; [reflexivity|]. now apply min_live_ge.
    + intros q. rewrite H. auto.
  - apply wp_alive_psucc; [exact I|exact A|]. intros; assumption.
  - unfold get_contract_data, pget. apply wp_alive_psucc; [exact I|exact A|].
    intros m1 o A1. destruct o as [| |[[e l]|]]; try exact A1. destruct e; exact A1.
  - destruct k; cbn [del_contract_data]; try (apply wp_alive_psucc; [exact I|exact A|]; intros; assumption). exact A.
  - apply wp_alive_psucc; [exact I|exact A|]. intros; assumption.
  - apply wp_alive_psucc; [exact I|exact A|]. intros; assumption.
  - unfold extend_instance_and_code_ttl. apply wp_alive_psucc; [exact I|exact A|]. intros m1 _ A1.
    apply wp_extend_code; auto. intros; exact I.
  - unfold extend_instance_and_code_ttl_v2. destruct sc.
    + apply wp_bind. eapply wp_mono; [|apply wp_extend_code; [intros; exact I|exact A]]. intros m1 [o|e] A1; [|exact A1].
      apply wp_alive_psucc; [exact I|exact A1|]. intros; assumption.
    + apply wp_alive_psucc; [exact I|exact A|]. intros; assumption.
    + apply wp_extend_code; auto. intros; exact I.
Qed.

Lemma compile_alive li p : li_ok li -> forall m, alive li m -> wp li (compile li p) m (alive_post li).
Proof.
  intros LI. induction p as [r|c h k IH|b IHb k IH]; intros m A; cbn [compile].
  - exact A.
  - apply wp_bind. eapply wp_mono; [|apply hop_alive; auto]. intros m1 r A1. now apply IH.
  - cbn [wp]. eapply wp_mono; [|apply IHb; exact A]. intros m1 r A1. apply IH. destruct r; [exact A1|exact A].
Qed.

(* The host writes only live entries. *)
Theorem contract_writes c p s s' r t : li_ok (sc_li c) -> run_ok c s -> alive (sc_li c) (contents c s) ->
  srun c s (compile (sc_li c) p) = (s', r, t) ->
  alive (sc_li c) (contents c s') /\ Forall (fun q => write_ok (sc_li c) (fst q)) t.
Proof.
  intros LI R A E. exact (wp_sound c _ LI s (alive_post (sc_li c)) s' r t R (alive_ext _) (compile_alive _ p LI _ A) E).
Qed.
