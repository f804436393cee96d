(* Whole calls on the ledger: from the simulation to what is found afterwards. *)
From Coq Require Import ZArith Lia String List Bool.
From Verif Require Import Prelude ValModel HeapModel AMap MultisigModel StorageModel CtModel
  SacModel SacSpec SacProofs SacProofs2 SacLedgerModel SacLedgerSpec SacLedgerProofs SacLedgerProofs2 SacLedgerProofs3.
Import ListNotations.
Open Scope Z_scope.
Ltac Zify.zify_post_hook ::= idtac.

Lemma answering_call env self auth_store s L c :
  ld_call (answering self env s) self auth_store L c = ld_call env self auth_store L c.
Proof. destruct c; reflexivity. Qed.
Lemma with_auth_call env self auth_store L c f s :
  ld_call (with_auth (answering self env s) f) self auth_store L c = ld_call (with_auth env f) self auth_store L c.
Proof. destruct c; reflexivity. Qed.

Section L.
Variable env : senv.
Variable self : addr.
Variable auth_store : addr -> storage -> storage.
Hypothesis Q : quiet self auth_store.
Let seq := li_seq (sv_li env).
Hypothesis seq0 : 0 <= seq.
Definition greatest : Z := seq + Z.max 0 (li_max_ttl (sv_li env) - 1).

Lemma max_is s : running env self s -> get_max_live_until (sv_li env) = Ok greatest.
Proof.
  intros [_ _ _ M]. fold seq greatest in M. unfold get_max_live_until, max_live_until.
  unfold checked_add_u32, sat_sub_u32. fold seq greatest. destruct (Z.leb_spec greatest u32_max); [reflexivity|lia].
Qed.
Lemma running_auth a s : running env self s -> running env self (auth_store a s).
Proof.
  intros [A B C D]. constructor; auto; unfold ikey in *.
  - now rewrite (read_auth self auth_store Q).
  - now rewrite (found_auth self auth_store Q).
Qed.

Definition instance_after (l : Z) : Z :=
  if seq + 6 * 17280 <? l then l else Z.max l (Z.min (seq + 7 * 17280) greatest).
Lemma extend_instance_after s l l' : running env self s -> seq <= l ->
  extend_live env Persistent l instance_threshold instance_extend = Ok l' -> l' = instance_after l.
Proof.
  intros RN LV. unfold extend_live, instance_after. fold seq.
  replace instance_extend with 120960 by reflexivity. replace instance_threshold with 103680 by reflexivity.
  cbn [Z.ltb Z.compare Pos.compare Pos.compare_cont]. rewrite (max_is _ RN). cbn [rbind andb].
  unfold checked_add_u32. destruct (seq + 120960 <=? u32_max); [|discriminate]. intros [= <-].
  unfold sat_sub_u32. change (6 * 17280) with 103680. change (7 * 17280) with 120960.
  destruct (Z.leb_spec (Z.max 0 (l - seq)) 103680); cbn [andb].
  - destruct (Z.ltb_spec l (Z.min (seq + 120960) greatest)); destruct (Z.ltb_spec (seq + 103680) l); lia.
  - destruct (Z.ltb_spec (seq + 103680) l); lia.
Qed.

Lemma running_signed r c s : running env self s -> running env self (signed auth_store r c s).
Proof. unfold signed. destruct (needs r c); auto using running_auth. Qed.
Lemma found_signed r c s : found (signed auth_store r c s) (ikey self) = found s (ikey self).
Proof. unfold signed. destruct (needs r c); [apply Q|reflexivity]. Qed.
Lemma foot_signed r c s : st_foot (signed auth_store r c s) = st_foot s.
Proof. unfold signed. destruct (needs r c); [apply Q|reflexivity]. Qed.

Lemma prologue_ran r c s s1 : running env self s -> prologue env self auth_store r c s s1 ->
  (c = CAdmin /\ s1 = s)
  \/ (c <> CAdmin /\ only [ikey self] (if trusts c then s else signed auth_store r c s) s1
      /\ exists data l, found s (ikey self) = Some (Some (EData (SContractInstance ExStellarAsset data), Some l))
         /\ found s1 (ikey self) = Some (Some (EData (SContractInstance ExStellarAsset data), Some (instance_after l)))).
Proof.
  intros RN P.
  assert (D : c = CAdmin \/ c <> CAdmin) by (destruct c; (left; reflexivity) || (right; discriminate)).
  destruct D as [->|NA]; [left; auto|]. right. split; [exact NA|].
  remember (if trusts c then s else signed auth_store r c s) as s0 eqn:S0.
  assert (P' : exists o, host env s0 (extend_instance_and_code_ttl self instance_threshold instance_extend) = Ok (s1, o))
    by (subst s0; destruct c; try exact P; congruence).
  destruct P' as (o & H).
  assert (RN0 : running env self s0) by (subst s0; destruct (trusts c); [exact RN|now apply running_signed]).
  assert (F0 : found s0 (ikey self) = found s (ikey self))
    by (subst s0; destruct (trusts c); [reflexivity|apply found_signed]).
  pose proof RN0 as [M (data & l & F & LV) _ _]. rewrite (host_extend_instance env self _ _ _ _ _ M F LV) in H.
  destruct (extend_live env Persistent l _ _) as [l'|] eqn:X; [|discriminate].
  pose proof (extend_live_ge _ _ _ _ _ _ X) as GE.
  apply (extend_instance_after s0) in X; auto. subst l'. injection H as <- <-. split.
  - destruct (_ <? _); [apply only_put|apply only_refl].
  - exists data, l. rewrite <- F0. split; [exact F|]. destruct (Z.ltb_spec l (instance_after l)).
    + rewrite found_put. destruct (lkey_eq_dec _ _); [reflexivity|congruence].
    + replace (instance_after l) with l by lia. exact F.
Qed.

Lemma invoke_call L c L' r : ld_invoke env self auth_store L c = (L', Ok r) ->
  ld_call env self auth_store L c = Ok (L', r).
Proof. unfold ld_invoke. destruct (ld_call _ _ _ _ _) as [[]|]; congruence. Qed.

Lemma nothing_else L c L' r : running env self (ld_store L) ->
  ld_invoke env self auth_store L c = (L', Ok r) ->
  st_foot (ld_store L') = st_foot (ld_store L)
  /\ match c with
     | CTrust _ => exists s1, (forall k, k <> ikey self -> found s1 k = found (ld_store L) k)
                             /\ ld_store L' = signed auth_store (ld_rest L) c s1
     | _ => forall k, ~ touches self c k ->
            found (ld_store L') k = found (signed auth_store (ld_rest L) c (ld_store L)) k
     end.
Proof.
  intros RN H. apply invoke_call, call_only in H. cbn [fst] in H. destruct H as (s1 & P & H).
  destruct (trusts c) eqn:T.
  - destruct c; try discriminate T.
    destruct (prologue_ran _ _ _ _ RN P) as [[[=] _]|(NA & [O1 O2] & _)]. cbn [trusts] in O1, O2. split.
    + rewrite H, foot_signed. exact O1.
    + exists s1. split; [|exact H]. intros k N. apply O2. intros [<-|[]]. now apply N.
  - assert (A : st_foot s1 = st_foot (ld_store L)
      /\ forall k, ~ touches self c k -> found s1 k = found (signed auth_store (ld_rest L) c (ld_store L)) k).
    { destruct (prologue_ran _ _ _ _ RN P) as [[-> ->]|(NA & [O1 O2] & _)]; [auto|]. rewrite T in O1, O2. split.
      - rewrite O1. apply foot_signed.
      - intros k N. apply O2. intros [<-|[]]. apply N. right. right. auto. }
    destruct A as [A1 A2]. destruct H as [B1 B2]. split; [congruence|].
    assert (G : forall k, ~ touches self c k ->
      found (ld_store L') k = found (signed auth_store (ld_rest L) c (ld_store L)) k).
    { intros k N. rewrite B2; auto. intro I. apply N. now apply body_touches. }
    destruct c; auto. discriminate T.
Qed.

Lemma instance_kept L c L' r : running env self (ld_store L) ->
  ld_invoke env self auth_store L c = (L', Ok r) ->
  exists data l, found (ld_store L) (ikey self) = Some (Some (EData (SContractInstance ExStellarAsset data), Some l))
    /\ found (ld_store L') (ikey self)
       = Some (Some (EData (SContractInstance ExStellarAsset data),
                     Some (match c with CAdmin => l | _ => instance_after l end))).
Proof.
  intros RN H. apply invoke_call, call_only in H. cbn [fst] in H. destruct H as (s1 & P & H).
  assert (E : found (ld_store L') (ikey self) = found s1 (ikey self)).
  { destruct (trusts c).
    - rewrite H. apply found_signed.
    - apply H. apply body_ikey. }
  rewrite E. destruct (prologue_ran _ _ _ _ RN P) as [[-> ->]|(NA & O & data & l & F & F1)].
  - destruct RN as [_ (data & l & F & _) _ _]. eauto.
  - exists data, l. split; [exact F|]. rewrite F1. destruct c; congruence || reflexivity.
Qed.

Lemma call_exact L st c : shows env self (ld_store L) st -> running env self (ld_store L) ->
  same_rest (ld_rest L) st -> typed_call c ->
  let '(L', r) := ld_invoke env self auth_store L c in
  let '(st', r') := invoke env st c in
  r = r' /\ shows env self (ld_store L') st' /\ running env self (ld_store L') /\ same_rest (ld_rest L') st'.
Proof.
  intros SH RN RS TC.
  pose proof (call_sim env self seq0 auth_store Q L st c (Build_R _ _ _ _ SH RN RS) TC) as K.
  unfold ld_invoke, invoke. destruct (ld_call _ _ _ _ _) as [[L' r]|e], (run_call _ _ _) as [[st' r']|e']; cbn in K; try contradiction.
  - destruct K as [[A B C] D]. cbn in *. subst. auto.
  - subst. auto.
Qed.

Lemma amount_shows s st id : shows env self s st -> ledger_amount self s (AContract id) = holds st (AContract id).
Proof.
  intro SH. pose proof (sh_bal _ _ _ _ SH (AContract id)) as H. unfold ledger_amount, holds.
  destruct (aget_bal st (AContract id)) as [b|].
  - destruct H as [-> _]. cbn. apply back64.
  - destruct (found s _) as [[e|]|]; [now elim (H e)|reflexivity|reflexivity].
Qed.
Lemma shows_order s st : shows env self s st -> in_order seq self s.
Proof.
  intro SH. constructor.
  - intros a e F. pose proof (sh_bal _ _ _ _ SH a) as H. destruct (aget_bal st a) as [b|].
    + destruct H as (E & I & L). exists b. split; [congruence|auto].
    + now elim (H e).
  - intros f p e F. pose proof (sh_allow _ _ _ _ SH f p) as H. destruct (aget_allow st f p) as [b|].
    + destruct H as (E & I & L). exists b. split; [congruence|auto].
    + now elim (H e).
Qed.
End L.

Section Direct.
Variable env : senv.
Variable self : addr.
Variable auth_store : addr -> storage -> storage.
Hypothesis Q : quiet self auth_store.
Let seq := li_seq (sv_li env).
Hypothesis seq0 : 0 <= seq.

Lemma direct L c L' r : in_order seq self (ld_store L) -> running env self (ld_store L) -> typed_call c ->
  ld_invoke env self auth_store L c = (L', Ok r) ->
  exists st st', let env' := answering self env (ld_store L) in
    invoke env' st c = (st', Ok r) /\ shows env' self (ld_store L) st /\ shows env' self (ld_store L') st'.
Proof.
  intros IO RN TC H. destruct (every_ledger self env _ (ld_rest L) IO) as (st & SH & RS).
  assert (RN' : running (answering self env (ld_store L)) self (ld_store L)) by (destruct RN; constructor; auto).
  pose proof (call_exact (answering self env (ld_store L)) self auth_store Q seq0 L st c SH RN' RS TC) as K.
  assert (H' : ld_invoke (answering self env (ld_store L)) self auth_store L c = (L', Ok r))
    by (unfold ld_invoke in *; now rewrite answering_call).
  rewrite H' in K. destruct (invoke _ st c) as [st' r'] eqn:I. destruct K as (<- & S' & _). exists st, st'. auto.
Qed.
Lemma direct_moves L c L' r : in_order seq self (ld_store L) -> running env self (ld_store L) -> typed_call c ->
  ld_invoke env self auth_store L c = (L', Ok r) ->
  in_order seq self (ld_store L')
  /\ forall id, ledger_amount self (ld_store L') (AContract id)
                = ledger_amount self (ld_store L) (AContract id) + sum_for (AContract id) (moves c).
Proof.
  intros IO RN TC H. destruct (direct _ _ _ _ IO RN TC H) as (st & st' & I & S1 & S2). split.
  - exact (shows_order _ _ _ _ S2).
  - intro id. rewrite (amount_shows _ _ _ _ _ S1), (amount_shows _ _ _ _ _ S2).
    apply invoke_ok, run_call_ok in I. destruct (cs_moved _ _ _ _ I) as [_ B]. apply B.
    unfold the_issuer. destruct (s_asset st); [tauto|discriminate].
Qed.
Lemma direct_lasts L c L' r : in_order seq self (ld_store L) -> running env self (ld_store L) -> typed_call c ->
  ld_invoke env self auth_store L c = (L', Ok r) ->
  forall id e, In (AContract id) (holders c) -> found (ld_store L') (bkey self (AContract id)) = Some (Some e) ->
  exists l, snd e = Some l /\ Z.min (seq + 29 * 17280) (seq + Z.max 0 (li_max_ttl (sv_li env) - 1)) <= l.
Proof.
  intros IO RN TC H id e I F. destruct (direct _ _ _ _ IO RN TC H) as (st & st' & IV & S1 & S2).
  pose proof (sh_bal _ _ _ _ S2 (AContract id)) as B. destruct (aget_bal st' (AContract id)) as [b|] eqn:G; [|now elim (B e)].
  destruct B as (B & _ & _). rewrite F in B. injection B as ->. exists (b_live b). split; [reflexivity|].
  apply invoke_ok in IV. pose proof (call_lasts _ _ _ _ _ IV (AContract id) Logic.I I b G) as K.
  unfold lasting in K. cbn [sv_li answering] in K. rewrite (max_is env self _ RN) in K. exact K.
Qed.
End Direct.
