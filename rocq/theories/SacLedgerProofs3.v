(* What calls leave alone, and how long entries live after them. *)
From Coq Require Import ZArith Lia String List Bool.
From Verif Require Import Prelude ValModel HeapModel AMap MultisigModel StorageModel CtModel
  SacModel SacSpec SacLedgerModel SacLedgerSpec SacLedgerProofs SacLedgerProofs2.
Import ListNotations.
Open Scope Z_scope.
Ltac Zify.zify_post_hook ::= idtac.

Lemma rb {A B} (x : res A) (f : A -> res B) y : rbind x f = Ok y -> exists a, x = Ok a /\ f a = Ok y.
Proof. destruct x; cbn; [eauto|discriminate]. Qed.
Tactic Notation "bnd" hyp(H) ident(a) ident(E) := apply rb in H; destruct H as (a & E & H).

Section L.
Variable env : senv.
Variable self : addr.

Definition only (ks : list lkey) (s s' : storage) : Prop :=
  st_foot s' = st_foot s /\ forall k, ~ In k ks -> found s' k = found s k.
Lemma only_refl ks s : only ks s s.
Proof. split; auto. Qed.
Lemma only_trans ks ks' s s' s'' : only ks s s' -> only ks' s' s'' -> only (ks ++ ks') s s''.
Proof.
  intros [A B] [C D]. split; [congruence|]. intros k N. rewrite in_app_iff in N. rewrite D, B; tauto.
Qed.
Lemma only_put k e s : only [k] s (put_at s k e).
Proof.
  split; [reflexivity|]. intros k' N. rewrite found_put. destruct (lkey_eq_dec k' k) as [->|]; [|reflexivity].
  elim N. now left.
Qed.
Lemma only_incl ks ks' s s' : only ks s s' -> incl ks ks' -> only ks' s s'.
Proof. intros [A B] I. split; auto. Qed.

Lemma put_only s k v d p : ordinary k ->
  host env s (put_contract_data (sv_li env) self k v d) = Ok p -> only [LKData self k d] s (fst p).
Proof.
  intros O H. rewrite host_put in H by exact O. destruct (may_read s _); [|discriminate]. cbv zeta in H.
  destruct (found s _) as [[[[] l]|]|]; try discriminate.
  - destruct (may_write s _); [|discriminate]. injection H as <-. apply only_put.
  - destruct (get_min_live_until _ _); [|discriminate]. destruct (may_write s _); [|discriminate].
    injection H as <-. apply only_put.
Qed.
Lemma extend_only s k d t x p :
  host env s (extend_contract_data_ttl self k d t x) = Ok p -> only [LKData self k d] s (fst p).
Proof.
  unfold host, extend_contract_data_ttl, psucc. cbn [srun sstep]. unfold extend_ttl.
  destruct (x <? t); [discriminate|]. unfold prepare_extend_ttl. cbn [key_supported negb].
  unfold maybe_expired_cfg. cbn [conf sc_recording_build]. fold (conf env). rewrite try_get_run.
  destruct (match match may_read s (LKData self k d) with Ok _ => _ | Err e => Err e end with Err e => Err e | Ok o => _ end) as [ti|];
    [|discriminate].
  destruct (checked_add_u32 _ _); [|discriminate]. unfold apply_ttl_extension.
  destruct (_ <=? _); [destruct (_ <? _)|]; cbn; intros [= <-]; [apply only_put|apply only_refl|apply only_refl].
Qed.

Lemma try_get_same s k d p : try_get_data env self s k d = Ok p -> fst p = s.
Proof.
  rewrite try_get_data_run. destruct (may_read s _); [|discriminate].
  destruct (found s _) as [[[[] l]|]|]; try discriminate; intros [= <-]; reflexivity.
Qed.
Lemma get_bal_same L a p : ld_get_bal env self L a = Ok p -> fst p = L.
Proof.
  unfold ld_get_bal. intro H. bnd H k E. bnd H q E1. injection H as <-. cbn. rewrite (try_get_same _ _ _ _ E1).
  apply with_same.
Qed.
Lemma get_allow_same L f s p : ld_get_allow env self L f s = Ok p -> fst p = L.
Proof.
  unfold ld_get_allow. intro H. bnd H k E. bnd H q E1. injection H as <-. cbn. rewrite (try_get_same _ _ _ _ E1).
  apply with_same.
Qed.

Definition bks (a : addr) : list lkey := match a with AContract _ => [bkey self a] | _ => [] end.
Definition lonly ks (L L' : lst) := only ks (ld_store L) (ld_store L').

Lemma extend_bal_only L a L' : ld_extend_bal env self L a = Ok L' -> lonly [bkey self a] L L'.
Proof.
  unfold ld_extend_bal. rewrite balance_key_eq. cbn [rbind]. intro H. bnd H p E. injection H as <-.
  apply extend_only in E. exact E.
Qed.
Lemma write_balance_only L a x au cl L' :
  ld_write_balance env self L a x au cl = Ok L' -> lonly [bkey self a] L L'.
Proof.
  unfold ld_write_balance. rewrite balance_key_eq. cbn [rbind]. intro H. bnd H v E. bnd H p E1.
  apply put_only in E1; [|exact Logic.I]. apply extend_bal_only in H. unfold lonly in *. cbn [ld_store with_store] in H.
  eapply only_incl; [eapply only_trans; [exact E1|exact H]|]. intros k [<-|[<-|[]]]; left; reflexivity.
Qed.
Lemma authorized_same L a p : ld_is_authorized env self L a = Ok p -> fst p = L.
Proof.
  unfold ld_is_authorized. destruct a; try discriminate; intro H.
  - bnd H b E. injection H as <-. reflexivity.
  - bnd H q E. apply get_bal_same in E. destruct (snd q).
    + bnd H b E1. destruct b as [[x au] cl]. injection H as <-. exact E.
    + bnd H b E1. injection H as <-. exact E.
Qed.
Lemma read_balance_only L a p : ld_read_balance env self L a = Ok p -> lonly (bks a) L (fst p).
Proof.
  unfold ld_read_balance. destruct a; try discriminate; intro H.
  - bnd H b E. injection H as <-. apply only_refl.
  - bnd H q E. apply get_bal_same in E. rewrite E in H. destruct (snd q).
    + bnd H L1 E1. apply extend_bal_only in E1. bnd H b E2. destruct b as [[x au] cl]. injection H as <-. exact E1.
    + injection H as <-. apply only_refl.
Qed.
Lemma classic_only L f L' ks : classic L f = Ok L' -> lonly ks L L'.
Proof. unfold classic. intro H. bnd H r E. injection H as <-. apply only_refl. Qed.
Lemma receive_only L a x L' : ld_receive env self L a x = Ok L' -> lonly (bks a) L L'.
Proof.
  unfold ld_receive. intro H. bnd H p E. destruct p as [L0 ok]. apply authorized_same in E. cbn in E. subst L0.
  destruct (negb ok); [discriminate|]. destruct a; try discriminate.
  - bnd H y E. eapply classic_only; eauto.
  - bnd H q E. apply get_bal_same in E. rewrite E in H. bnd H b E1. destruct b as [[y au] cl]. bnd H n E2.
    eapply write_balance_only; eauto.
Qed.
Lemma spend_no_check_only L a x L' : ld_spend_no_check env self L a x = Ok L' -> lonly (bks a) L L'.
Proof.
  unfold ld_spend_no_check. destruct a; try discriminate; intro H.
  - bnd H y E. eapply classic_only; eauto.
  - bnd H q E. apply get_bal_same in E. rewrite E in H. destruct (snd q).
    + bnd H b E1. destruct b as [[y au] cl]. destruct (y <? x); [discriminate|]. bnd H n E2.
      eapply write_balance_only; eauto.
    + destruct (x >? 0); [discriminate|]. injection H as <-. apply only_refl.
Qed.
Lemma spend_only L a x L' : ld_spend env self L a x = Ok L' -> lonly (bks a) L L'.
Proof.
  unfold ld_spend. intro H. bnd H p E. apply authorized_same in E. rewrite E in H.
  destruct (negb (snd p)); [discriminate|]. now apply spend_no_check_only in H.
Qed.
Lemma write_authorization_only L a b L' : ld_write_authorization env self L a b = Ok L' -> lonly (bks a) L L'.
Proof.
  unfold ld_write_authorization. intro H. bnd H rv E. destruct (negb rv); [discriminate|]. destruct a; try discriminate.
  - eapply classic_only; eauto.
  - bnd H q E1. apply get_bal_same in E1. rewrite E1 in H. destruct (snd q).
    + bnd H v E2. destruct v as [[y au] cl]. eapply write_balance_only; eauto.
    + bnd H c E2. eapply write_balance_only; eauto.
Qed.
Lemma clawbackable_same L a L' : ld_check_clawbackable env self L a = Ok L' -> L' = L.
Proof.
  unfold ld_check_clawbackable. destruct a; try discriminate; intro H.
  - bnd H u E. now injection H as <-.
  - bnd H q E. apply get_bal_same in E. destruct (snd q); [|discriminate]. bnd H b E1. destruct b as [[y au] cl].
    destruct cl; [|discriminate]. injection H as <-. exact E.
Qed.
Lemma read_allowance_same L f s p : ld_read_allowance env self L f s = Ok p -> fst p = L.
Proof.
  unfold ld_read_allowance. intro H. bnd H q E. apply get_allow_same in E. destruct (snd q).
  - bnd H b E1. destruct b as [y u]. injection H as <-. exact E.
  - injection H as <-. exact E.
Qed.
Lemma put_allowance_only L f s x u o L' :
  ld_put_allowance env self L f s x u o = Ok L' -> lonly [akey self f s] L L'.
Proof.
  unfold ld_put_allowance. rewrite allowance_key_eq. cbn [rbind]. intro H. bnd H v E. bnd H p E1.
  apply put_only in E1; [|exact Logic.I]. fold (akey self f s) in E1. destruct (_ && _)%bool.
  - bnd H q E2. apply extend_only in E2. fold (akey self f s) in E2. injection H as <-. unfold lonly. cbn.
    eapply only_incl; [eapply only_trans; [exact E1|exact E2]|]. intros k [<-|[<-|[]]]; left; reflexivity.
  - injection H as <-. exact E1.
Qed.
Lemma write_allowance_only L f s x u L' : ld_write_allowance env self L f s x u = Ok L' -> lonly [akey self f s] L L'.
Proof.
  unfold ld_write_allowance. intro H. bnd H mx E. destruct (_ >? _); [discriminate|]. destruct (_ && _)%bool; [discriminate|].
  bnd H p E1. apply get_allow_same in E1. rewrite E1 in H. destruct (snd p).
  - bnd H b E2. destruct b. eapply put_allowance_only; eauto.
  - destruct (x >? 0); [eapply put_allowance_only; eauto|]. injection H as <-. apply only_refl.
Qed.
Lemma spend_allowance_only L f s x L' : ld_spend_allowance env self L f s x = Ok L' -> lonly [akey self f s] L L'.
Proof.
  unfold ld_spend_allowance. intro H. bnd H p E. destruct p as [L0 y]. apply read_allowance_same in E. cbn in E. subst L0.
  destruct (y <? x); [discriminate|]. destruct (x >? 0); [|injection H as <-; apply only_refl].
  bnd H n E. unfold ld_write_allowance_amount in H. rewrite allowance_key_eq in H. cbn [rbind] in H. bnd H q E1.
  rewrite host_get in E1. destruct (may_read _ _); [|discriminate].
  destruct (found (ld_store L) _) as [[[[] l]|]|]; try discriminate. injection E1 as <-. cbn [fst snd] in H.
  bnd H b E1. destruct b as [y' u]. rewrite with_same in H. eapply write_allowance_only; eauto.
Qed.

(* -------------------------------------------------------------- whole calls *)

(* the entries the body of a call may write *)
Definition body_keys (c : scall) : list lkey :=
  flat_map bks (holders c) ++ map (fun p => akey self (fst p) (snd p)) (allowed c).

Variable auth_store : addr -> storage -> storage.

(* what happens to the storage before the body of a call: authorization, if asked
   for, then the extension of the instance *)
Definition prologue (r : sst) (c : scall) (s s1 : storage) : Prop :=
  match c with
  | CAdmin => s1 = s
  | _ => exists o, host env (if match c with CTrust _ => true | _ => false end then s else signed auth_store r c s)
                        (extend_instance_and_code_ttl self instance_threshold instance_extend) = Ok (s1, o)
  end.
Lemma auth_only L a L' : ld_auth env auth_store L a = Ok L' ->
  ld_store L' = auth_store a (ld_store L) /\ ld_rest L' = ld_rest L.
Proof. unfold ld_auth. intro H. bnd H u E. injection H as <-. auto. Qed.
Lemma extend_instance_host L L' : ld_extend_instance env self L = Ok L' ->
  exists o, host env (ld_store L) (extend_instance_and_code_ttl self instance_threshold instance_extend) = Ok (ld_store L', o).
Proof. unfold ld_extend_instance. intro H. bnd H p E. injection H as <-. destruct p. cbn. eauto. Qed.
Lemma done_store x ev p : ld_done x ev = Ok p -> exists L, x = Ok L /\ ld_store (fst p) = ld_store L.
Proof. unfold ld_done. intro H. bnd H L E. injection H as <-. eauto. Qed.

Definition trusts (c : scall) : bool := match c with CTrust _ => true | _ => false end.

Lemma only_weak ks ks' (L L' : lst) : lonly ks L L' -> incl ks ks' -> only ks' (ld_store L) (ld_store L').
Proof. apply only_incl. Qed.

Lemma admin_is r ad : read_admin r = Ok ad -> s_admin r = Some ad.
Proof. unfold read_admin. destruct (s_admin r); congruence. Qed.

Lemma call_only L c p : ld_call env self auth_store L c = Ok p ->
  exists s1, prologue (ld_rest L) c (ld_store L) s1
  /\ (if trusts c then ld_store (fst p) = signed auth_store (ld_rest L) c s1
      else only (body_keys c) s1 (ld_store (fst p))).
Proof.
  intro H. destruct c; unfold prologue, signed; cbn [ld_call trusts needs] in *.
  - bnd H L1 E. bnd H q E1. injection H as <-. apply extend_instance_host in E. apply read_allowance_same in E1.
    exists (ld_store L1). split; [eauto|]. cbn. rewrite E1. apply only_refl.
  - bnd H u E. bnd H L1 E1. bnd H L2 E2. apply auth_only in E1. destruct E1 as [E1 _]. apply extend_instance_host in E2.
    apply done_store in H. destruct H as (L3 & H & ->). apply write_allowance_only in H.
    exists (ld_store L2). rewrite E1 in E2. split; [try rewrite AD; eauto|]. exact H.
  - bnd H L1 E. bnd H q E1. injection H as <-. apply extend_instance_host in E. apply read_balance_only in E1.
    exists (ld_store L1). split; [eauto|]. cbn. eapply only_weak; [exact E1|]. unfold body_keys. cbn. rewrite !app_nil_r. apply incl_refl.
  - bnd H L1 E. bnd H q E1. injection H as <-. apply extend_instance_host in E. apply authorized_same in E1.
    exists (ld_store L1). split; [eauto|]. cbn. rewrite E1. apply only_refl.
  - bnd H u E. bnd H L1 E1. bnd H L2 E2. apply auth_only in E1. destruct E1 as [E1 _]. apply extend_instance_host in E2.
    apply done_store in H. destruct H as (L3 & H & ->). bnd H L4 E3. apply spend_only in E3. apply receive_only in H.
    exists (ld_store L2). rewrite E1 in E2. split; [try rewrite AD; eauto|]. unfold body_keys. cbn. rewrite !app_nil_r.
    eapply only_trans; [exact E3|exact H].
  - bnd H u E. bnd H L1 E1. bnd H L2 E2. apply auth_only in E1. destruct E1 as [E1 _]. apply extend_instance_host in E2.
    apply done_store in H. destruct H as (L3 & H & ->). bnd H L4 E3. bnd H L5 E4.
    apply spend_allowance_only in E3. apply spend_only in E4. apply receive_only in H.
    exists (ld_store L2). rewrite E1 in E2. split; [try rewrite AD; eauto|]. unfold body_keys. cbn. rewrite !app_nil_r.
    eapply only_incl; [eapply only_trans; [exact E3|eapply only_trans; [exact E4|exact H]]|].
    intros k. rewrite !in_app_iff. tauto.
  - bnd H u E. bnd H u1 E0. bnd H u2 E00. bnd H L1 E1. bnd H L2 E2. apply auth_only in E1. destruct E1 as [E1 _]. apply extend_instance_host in E2.
    apply done_store in H. destruct H as (L3 & H & ->). apply spend_only in H.
    exists (ld_store L2). rewrite E1 in E2. split; [try rewrite AD; eauto|]. eapply only_weak; [exact H|]. unfold body_keys. cbn. rewrite !app_nil_r. apply incl_refl.
  - bnd H u E. bnd H u1 E0. bnd H u2 E00. bnd H L1 E1. bnd H L2 E2. apply auth_only in E1. destruct E1 as [E1 _]. apply extend_instance_host in E2.
    apply done_store in H. destruct H as (L3 & H & ->). bnd H L4 E3. apply spend_allowance_only in E3. apply spend_only in H.
    exists (ld_store L2). rewrite E1 in E2. split; [try rewrite AD; eauto|]. unfold body_keys. cbn. rewrite !app_nil_r.
    eapply only_incl; [eapply only_trans; [exact E3|exact H]|]. intros k. rewrite !in_app_iff. tauto.
  - bnd H u E. bnd H L0 E0. apply clawbackable_same in E0. subst L0. bnd H u2 E00. bnd H ad E01. pose proof (admin_is _ _ E01) as AD. bnd H L1 E1. bnd H L2 E2.
    apply auth_only in E1. destruct E1 as [E1 _]. apply extend_instance_host in E2.
    apply done_store in H. destruct H as (L3 & H & ->). apply spend_no_check_only in H.
    exists (ld_store L2). rewrite E1 in E2. split; [try rewrite AD; eauto|]. eapply only_weak; [exact H|]. unfold body_keys. cbn. rewrite !app_nil_r. apply incl_refl.
  - bnd H ad E01. pose proof (admin_is _ _ E01) as AD. bnd H L1 E1. bnd H L2 E2.
    apply auth_only in E1. destruct E1 as [E1 _]. apply extend_instance_host in E2.
    apply done_store in H. destruct H as (L3 & H & ->). apply write_authorization_only in H.
    exists (ld_store L2). rewrite E1 in E2. split; [try rewrite AD; eauto|]. eapply only_weak; [exact H|]. unfold body_keys. cbn. rewrite !app_nil_r. apply incl_refl.
  - bnd H u E. bnd H u1 E0. bnd H ad E01. pose proof (admin_is _ _ E01) as AD. bnd H L1 E1. bnd H L2 E2.
    apply auth_only in E1. destruct E1 as [E1 _]. apply extend_instance_host in E2.
    apply done_store in H. destruct H as (L3 & H & ->). apply receive_only in H.
    exists (ld_store L2). rewrite E1 in E2. split; [try rewrite AD; eauto|]. eapply only_weak; [exact H|]. unfold body_keys. cbn. rewrite !app_nil_r. apply incl_refl.
  - bnd H ad E01. pose proof (admin_is _ _ E01) as AD. bnd H L1 E1. bnd H L2 E2. apply auth_only in E1. destruct E1 as [E1 _]. apply extend_instance_host in E2.
    injection H as <-. exists (ld_store L2). rewrite E1 in E2. split; [try rewrite AD; eauto|]. apply only_refl.
  - bnd H ad E01. pose proof (admin_is _ _ E01) as AD. injection H as <-. exists (ld_store L). split; [reflexivity|]. apply only_refl.
  - bnd H L1 E. bnd H L2 E1. injection H as <-. pose proof E as E0. apply extend_instance_host in E.
    unfold ld_trust in E1. bnd E1 r E2. injection E1 as <-. cbn.
    unfold ld_extend_instance in E0. bnd E0 pp E3. injection E0 as <-. cbn in *. eexists. split; [exact E|].
    destruct a; auto. unfold aget_tl. destruct (aget key_dec _ _); reflexivity.
Qed.

Lemma body_ikey c : ~ In (ikey self) (body_keys c).
Proof.
  unfold body_keys. rewrite in_app_iff, in_flat_map, in_map_iff. intros [(a & _ & I)|(p & I & _)].
  - destruct a; cbn [bks] in I; try (destruct I; fail). destruct I as [I|[]]. discriminate I.
  - discriminate I.
Qed.
Lemma body_touches c k : In k (body_keys c) -> touches self c k.
Proof.
  unfold body_keys. rewrite in_app_iff, in_flat_map, in_map_iff. intros [(a & I & J)|([f s] & I & J)].
  - destruct a; cbn [bks] in J; try (destruct J; fail). destruct J as [J|[]]. left. eauto.
  - right. left. cbn in I. eauto.
Qed.
End L.

(* ------------------------------------------------------- how long they live *)

Section Live.
Variable env : senv.
Let seq := li_seq (sv_li env).
Definition lasting (l : Z) : Prop :=
  match get_max_live_until (sv_li env) with
  | Ok mx => Z.min (seq + 29 * 17280) mx <= l
  | Err _ => False
  end.
Lemma extend_lasting l l' : extend_live env Persistent l balance_threshold balance_extend = Ok l' -> lasting l'.
Proof.
  unfold extend_live, lasting. fold seq.
  replace balance_extend with 518400 by reflexivity. replace balance_threshold with 501120 by reflexivity.
  cbn [Z.ltb Z.compare Pos.compare Pos.compare_cont].
  destruct (get_max_live_until (sv_li env)) as [mx|]; cbn [rbind]; [|discriminate]. cbn [andb].
  unfold checked_add_u32. destruct (seq + 518400 <=? u32_max); [|discriminate]. intros [= <-].
  unfold sat_sub_u32. destruct (Z.leb_spec (Z.max 0 (l - seq)) 501120); cbn [andb].
  - destruct (Z.ltb_spec l (Z.min (seq + 518400) mx)); lia.
  - lia.
Qed.
Definition lasts (st : sst) (a : addr) : Prop := forall b, aget_bal st a = Some b -> lasting (b_live b).
Lemma lasts_set st a b x : lasting (b_live b) -> lasts st x \/ x = a ->
  lasts (set_bals st (aset addr_dec (s_bal st) a b)) x.
Proof.
  intros LA [H| ->] b'; unfold aget_bal, set_bals; cbn [s_bal]; rewrite aget_aset.
  - destruct (addr_dec x a); [intros [= <-]; exact LA|apply H].
  - destruct (addr_dec a a); [intros [= <-]; exact LA|congruence].
Qed.
Lemma write_lasts st a x au cl st' : write_contract_balance env st a x au cl = Ok st' ->
  forall y, lasts st y \/ y = a -> lasts st' y.
Proof.
  unfold write_contract_balance. intro H. bnd H o E. bnd H l E1. bnd H u E2. bnd H l' E3. injection H as <-.
  intros y Y. apply lasts_set; auto. cbn. eapply extend_lasting; eauto.
Qed.
Lemma classic_bal st k x st' : transfer_classic env st k x = Ok st' -> s_bal st' = s_bal st.
Proof.
  intro H. pose proof (rest_transfer env st st k x) as K. rewrite H in K. cbn in K. apply K. repeat split.
Qed.
Definition contract (a : addr) : Prop := match a with AContract _ => True | _ => False end.
Lemma receive_lasts st a x st' : receive_balance env st a x = Ok st' ->
  forall y, contract y -> lasts st y \/ y = a -> lasts st' y.
Proof.
  unfold receive_balance. intro H. bnd H ok E. destruct (negb ok); [discriminate|]. destruct a; try discriminate.
  - bnd H z E1. apply classic_bal in H. intros y C [L| ->]; [|destruct C]. unfold lasts, aget_bal. now rewrite H.
  - bnd H o E1. bnd H abc E2. destruct abc as [[z au] cl]. bnd H n E3. intros y _. eapply write_lasts; eauto.
Qed.
Lemma spend_no_check_lasts st a x st' : spend_no_check env st a x = Ok st' ->
  forall y, contract y -> lasts st y \/ y = a -> lasts st' y.
Proof.
  unfold spend_no_check. intro H. destruct a; try discriminate.
  - bnd H z E1. apply classic_bal in H. intros y C [L| ->]; [|destruct C]. unfold lasts, aget_bal. now rewrite H.
  - bnd H o E1. destruct o as [b|].
    + destruct (_ <? _); [discriminate|]. bnd H n E3. intros y _. eapply write_lasts; eauto.
    + destruct (x >? 0); [discriminate|]. injection H as <-. intros y C [L| ->]; auto.
      unfold get_bal in E1. bnd E1 u E2. intros b B. unfold aget_bal in B. rewrite B in E1.
      destruct (_ <? _); discriminate.
Qed.
Lemma spend_lasts st a x st' : spend_balance env st a x = Ok st' ->
  forall y, contract y -> lasts st y \/ y = a -> lasts st' y.
Proof.
  unfold spend_balance. intro H. bnd H ok E. destruct (negb ok); [discriminate|]. eapply spend_no_check_lasts; eauto.
Qed.
Lemma allowance_bals st f s x st' : spend_allowance env st f s x = Ok st' -> s_bal st' = s_bal st.
Proof.
  unfold spend_allowance. intro H. bnd H a E. destruct (_ <? _); [discriminate|].
  destruct (x >? 0); [|now injection H as <-]. bnd H n E1. unfold write_allowance_amount in H. bnd H o E2.
  destruct o as [v|]; [|discriminate]. unfold write_allowance in H. bnd H mx E3.
  destruct (_ >? _); [discriminate|]. destruct (_ && _)%bool; [discriminate|]. bnd H o E4. cbv zeta in H.
  destruct o as [v'|].
  - bnd H u E5. bnd H l E6. injection H as <-. reflexivity.
  - destruct (n >? 0); [|now injection H as <-]. bnd H l E5. bnd H u E6. bnd H l' E7. injection H as <-. reflexivity.
Qed.

Lemma call_lasts st c st' r : run_call env st c = Ok (st', r) ->
  forall y, contract y -> In y (holders c) -> lasts st' y.
Proof.
  intros H y C I. destruct c; cbn [run_call holders] in *; try (destruct I; fail).
  - destruct I as [<-|[]]. bnd H p E. injection H as <- <-. destruct a; try destruct C. cbn [read_balance] in E.
    bnd E o E1. destruct o as [b|].
    + bnd E l E2. injection E as <-. cbn. apply lasts_set; [|right; reflexivity]. cbn. eapply extend_lasting; eauto.
    + injection E as <-. cbn. unfold get_bal in E1. bnd E1 u E2. intros b B. unfold aget_bal in B. rewrite B in E1.
      destruct (_ <? _); discriminate.
  - bnd H u E. cbv zeta in H. bnd H u1 E1. unfold done in H. bnd H st1 E2. injection H as <- <-. bnd E2 st2 E3.
    change (lasts st1 y). replace (mux_addr to) with (plain to) in E2 by (destruct to; reflexivity).
    destruct I as [<-|[<-|[]]].
    + eapply receive_lasts; eauto. left. eapply spend_lasts; eauto.
    + eapply receive_lasts; eauto.
  - bnd H u E. bnd H u1 E1. unfold done in H. bnd H st1 E2. injection H as <- <-. bnd E2 st2 E3. bnd E2 st3 E4.
    change (lasts st1 y). destruct I as [<-|[<-|[]]].
    + eapply receive_lasts; eauto. left. eapply spend_lasts; eauto.
    + eapply receive_lasts; eauto.
  - bnd H u E. bnd H u1 E1. bnd H u2 E2. bnd H u3 E3. unfold done in H. bnd H st1 E4. injection H as <- <-.
    change (lasts st1 y). destruct I as [<-|[]]. eapply spend_lasts; eauto.
  - bnd H u E. bnd H u1 E1. bnd H u2 E2. bnd H u3 E3. unfold done in H. bnd H st1 E4. injection H as <- <-. bnd E4 st2 E5.
    change (lasts st1 y). destruct I as [<-|[]]. eapply spend_lasts; eauto.
  - bnd H u E. bnd H u1 E1. bnd H u2 E2. bnd H u3 E3. bnd H u4 E4. unfold done in H. bnd H st1 E5. injection H as <- <-.
    change (lasts st1 y). destruct I as [<-|[]]. eapply spend_no_check_lasts; eauto.
  - bnd H ad E. bnd H u E1. unfold done in H. bnd H st1 E2. injection H as <- <-.
    change (lasts st1 y). destruct I as [<-|[]]. destruct a; try destruct C. unfold write_authorization in E2.
    bnd E2 rv E3. destruct (negb rv); [discriminate|]. bnd E2 o E4. destruct o as [v|].
    + eapply write_lasts; eauto.
    + bnd E2 c E5. eapply write_lasts; eauto.
  - bnd H u E. bnd H u1 E1. bnd H u2 E2. bnd H u3 E3. unfold done in H. bnd H st1 E4. injection H as <- <-.
    change (lasts st1 y). destruct I as [<-|[]]. eapply receive_lasts; eauto.
Qed.
End Live.

(* --------------------------------------------------- an account of any ledger *)

Lemma collect {A V} (dec : forall a b : A, {a = b} + {a <> b}) (kf : A -> lkey) (inv : lkey -> option A)
    (g : lentry -> option V) :
  (forall k a, inv k = Some a <-> k = kf a) ->
  forall M : list (lkey * option lentry), exists m : list (A * V), forall a,
    aget dec m a = match aget lkey_eq_dec M (kf a) with Some (Some e) => g e | _ => None end.
Proof.
  intros HI. induction M as [|[k o] M [m IH]].
  - exists []. reflexivity.
  - destruct (inv k) as [a0|] eqn:E.
    + apply HI in E. subst k.
      destruct (match o with Some e => g e | None => None end) as [v|] eqn:G.
      * exists ((a0, v) :: m). intro a. cbn [aget]. destruct (dec a a0) as [->|N].
        -- destruct (lkey_eq_dec _ _); [|congruence]. destruct o; congruence.
        -- destruct (lkey_eq_dec _ _) as [K|_]; [|apply IH]. elim N.
           assert (X : inv (kf a) = Some a) by now apply HI. assert (Y : inv (kf a0) = Some a0) by now apply HI. congruence.
      * exists (adel dec m a0). intro a. rewrite aget_adel. cbn [aget]. destruct (dec a a0) as [->|N].
        -- destruct (lkey_eq_dec _ _); [|congruence]. destruct o; congruence.
        -- destruct (lkey_eq_dec _ _) as [K|_]; [|apply IH]. elim N.
           assert (X : inv (kf a) = Some a) by now apply HI. assert (Y : inv (kf a0) = Some a0) by now apply HI. congruence.
    + exists m. intro a. cbn [aget]. destruct (lkey_eq_dec (kf a) k) as [K|_]; [|apply IH].
      symmetry in K. apply HI in K. congruence.
Qed.

Section Any.
Variable self : addr.
Definition inv_b (k : lkey) : option addr :=
  match k with
  | LKData c (SVec (Some [SSymbol n; SAddress a])) Persistent =>
      if addr_dec c self then if zlist_eq_dec n (lit "Balance") then Some a else None else None
  | _ => None
  end.
Lemma inv_b_ok k a : inv_b k = Some a <-> k = bkey self a.
Proof.
  split.
  - unfold inv_b.
    repeat match goal with
    | |- match ?x with _ => _ end = Some _ -> _ => destruct x; try discriminate
    end.
    subst. intros [= <-]. reflexivity.
  - intros ->. cbn. destruct (addr_dec self self); [|congruence]. reflexivity.
Qed.
Definition inv_a (k : lkey) : option (addr * addr) :=
  match k with
  | LKData c (SVec (Some [SSymbol n; SMap (Some [(SSymbol n1, SAddress f); (SSymbol n2, SAddress s)])])) Temporary =>
      if addr_dec c self then
        if zlist_eq_dec n (lit "Allowance") then
          if zlist_eq_dec n1 (lit "from") then
            if zlist_eq_dec n2 (lit "spender") then Some (f, s) else None else None else None else None
  | _ => None
  end.
Lemma inv_a_ok k p : inv_a k = Some p <-> k = akey self (fst p) (snd p).
Proof.
  split.
  - unfold inv_a.
    repeat match goal with
    | |- match ?x with _ => _ end = Some _ -> _ => destruct x; try discriminate
    end.
    subst. intros [= <-]. reflexivity.
  - intros ->. destruct p. cbn. destruct (addr_dec self self); [|congruence]. reflexivity.
Qed.
Definition read_b (e : lentry) : option bval :=
  match e with
  | (EData (SMap (Some [(_, SI128 hi lo); (_, SBool au); (_, SBool cl)])), Some l) =>
      Some {| b_amount := hi * 2 ^ 64 + lo; b_auth := au; b_claw := cl; b_live := l |}
  | _ => None
  end.
Lemma back64 x : x / 2 ^ 64 * 2 ^ 64 + x mod 2 ^ 64 = x.
Proof. pose proof (Z.div_mod x (2 ^ 64) ltac:(discriminate)). lia. Qed.
Lemma read_b_ok b : read_b (bentry b) = Some b.
Proof. unfold read_b, bentry, i128_val. rewrite back64. destruct b; reflexivity. Qed.
Definition read_a (e : lentry) : option aval :=
  match e with
  | (EData (SMap (Some [(_, SI128 hi lo); (_, SU32 u)])), Some l) =>
      Some {| l_amount := hi * 2 ^ 64 + lo; l_until := u; l_live := l |}
  | _ => None
  end.
Lemma read_a_ok b : read_a (aentry b) = Some b.
Proof. unfold read_a, aentry, i128_val. rewrite back64. destruct b; reflexivity. Qed.

Definition answering (env : senv) (s : storage) : senv :=
  {| sv_li := sv_li env; sv_reserve := sv_reserve env; sv_auth := sv_auth env;
     sv_read := fun k => match k with
                         | KBal a => may_read s (bkey self a)
                         | KAllow f p => may_read s (akey self f p)
                         | _ => sv_read env k
                         end;
     sv_write := fun k => match k with
                          | KBal a => may_write s (bkey self a)
                          | KAllow f p => may_write s (akey self f p)
                          | _ => sv_write env k
                          end |}.
Lemma every_ledger env s r : in_order (li_seq (sv_li env)) self s ->
  exists st, shows (answering env s) self s st /\ same_rest r st.
Proof.
  intros [IB IA].
  destruct (collect addr_dec (bkey self) inv_b read_b inv_b_ok (st_map s)) as [mb HB].
  destruct (collect pair_dec (fun p => akey self (fst p) (snd p)) inv_a read_a inv_a_ok (st_map s)) as [ma HA].
  exists (set_allows (set_bals r mb) ma). split; [|repeat split].
  constructor; try reflexivity.
  - intro a. unfold aget_bal. cbn. rewrite HB. fold (found s (bkey self a)).
    destruct (found s (bkey self a)) as [[e|]|] eqn:F; [|discriminate|discriminate].
    destruct (IB _ _ F) as (b & -> & I & L). rewrite read_b_ok. auto.
  - intros f p. unfold aget_allow. cbn. rewrite HA. cbn [fst snd]. fold (found s (akey self f p)).
    destruct (found s (akey self f p)) as [[e|]|] eqn:F; [|discriminate|discriminate].
    destruct (IA _ _ _ F) as (b & -> & I & L). rewrite read_a_ok. auto.
Qed.
End Any.
