(* The asset contract on storage does what SacModel says: function by function. *)
From Coq Require Import ZArith Lia String List Bool.
From Verif Require Import Prelude ValModel HeapModel AMap MultisigModel StorageModel CtModel
  SacModel SacSpec SacLedgerModel SacLedgerSpec SacLedgerProofs.
Import ListNotations.
Open Scope Z_scope.
Ltac Zify.zify_post_hook ::= idtac.

(* both succeed with related results, or fail with the same error *)
Definition sim {A B} (P : A -> B -> Prop) (x : res A) (y : res B) : Prop :=
  match x, y with
  | Ok a, Ok b => P a b
  | Err e, Err e' => e = e'
  | _, _ => False
  end.
Lemma sim_bind {A B A' B'} (P : A -> B -> Prop) (Q : A' -> B' -> Prop) x y f g :
  sim P x y -> (forall a b, P a b -> sim Q (f a) (g b)) -> sim Q (rbind x f) (rbind y g).
Proof. destruct x, y; cbn; intros H K; auto; contradiction. Qed.
Lemma sim_eq {A B} (Q : A -> B -> Prop) {C} (x : res C) f g :
  (forall a, x = Ok a -> sim Q (f a) (g a)) -> sim Q (rbind x f) (rbind x g).
Proof. destruct x; cbn; intros K; auto. Qed.
Lemma sim_weak {A B} (P Q : A -> B -> Prop) x y : (forall a b, P a b -> Q a b) -> sim P x y -> sim Q x y.
Proof. destruct x, y; cbn; auto. Qed.

(* -------------------------------------------- accounts, trustlines, instance *)

Section Rest.
Variable env : senv.
Ltac rest := intros (A & B & C & D & E);
  repeat match goal with r : sst |- _ => destruct r end; cbn in A, B, C, D, E; subst.

Lemma rest_flag r st f : same_rest r st -> issuer_flag env r f = issuer_flag env st f.
Proof. rest. reflexivity. Qed.
Lemma rest_authorized r st k : same_rest r st -> account_authorized env r k = account_authorized env st k.
Proof. rest. reflexivity. Qed.
Lemma rest_balance r st k : same_rest r st -> classic_balance env r k = classic_balance env st k.
Proof. rest. reflexivity. Qed.
Lemma rest_clawbackable r st k : same_rest r st ->
  check_clawbackable env r (AAccount k) = check_clawbackable env st (AAccount k).
Proof. rest. reflexivity. Qed.
Lemma rest_non_native r st : same_rest r st -> check_non_native r = check_non_native st.
Proof. rest. reflexivity. Qed.
Lemma rest_not_issuer r st a : same_rest r st -> check_not_issuer r a = check_not_issuer st a.
Proof. rest. reflexivity. Qed.
Lemma rest_admin r st : same_rest r st -> read_admin r = read_admin st.
Proof. rest. reflexivity. Qed.
Lemma rest_event r st f t m x : same_rest r st -> transfer_event r f t m x = transfer_event st f t m x.
Proof. rest. reflexivity. Qed.

(* accounts and trustlines change alike, the contract's data do not *)
Definition keeps (st r' st' : sst) : Prop :=
  same_rest r' st' /\ s_bal st' = s_bal st /\ s_allow st' = s_allow st.
Ltac alike := unfold keeps, same_rest; cbn; repeat split; congruence.
Ltac cases := repeat (match goal with
  | |- sim _ (rbind ?x _) (rbind ?x _) => destruct x; cbn [rbind]
  | |- sim _ (if ?b then _ else _) _ => destruct b
  | |- sim _ (match ?o with Some _ => _ | None => _ end) _ => destruct o
  | |- sim _ (let (_, _) := ?p in _) _ => destruct p
  | |- sim _ (Err ?e) (Err ?e) => reflexivity
  | |- sim _ (Ok _) (Ok _) => unfold sim; alike
  end).

Lemma rest_transfer r st k x : same_rest r st ->
  sim (keeps st) (transfer_classic env r k x) (transfer_classic env st k x).
Proof.
  intros (A & B & C & D & E). unfold transfer_classic. rewrite A. destruct (s_asset st) as [|c i] eqn:AS.
  - unfold transfer_account. rewrite C. cases.
  - destruct (key_dec i k); [cases|]. unfold transfer_trustline, read_trustline. rewrite D.
    destruct (sv_read env (KTl k)); cbn [rbind]; [|reflexivity].
    destruct (aget key_dec (s_tl st) k); cbn [rbind]; cases.
Qed.
Lemma rest_set_authorization r st k b : same_rest r st ->
  sim (keeps st) (set_authorization env r k b) (set_authorization env st k b).
Proof.
  intros (A & B & C & D & E). unfold set_authorization. rewrite A. destruct (s_asset st) as [|c i] eqn:AS; [reflexivity|].
  destruct (key_dec i k); [reflexivity|]. unfold read_trustline. rewrite D.
  destruct (sv_read env (KTl k)); cbn [rbind]; [|reflexivity].
  destruct (aget key_dec (s_tl st) k); cbn [rbind]; cases.
Qed.
Lemma rest_trust r st a : same_rest r st ->
  sim (keeps st) (create_trustline env r a) (create_trustline env st a).
Proof.
  intros (A & B & C & D & E). unfold create_trustline. destruct a as [k|id|i k|dd p]; try reflexivity; [|unfold sim; alike].
  rewrite A. destruct (s_asset st) as [|c i] eqn:AS; [reflexivity|]. destruct (key_dec k i); [reflexivity|].
  rewrite D. destruct (sv_read env (KTl k)); cbn [rbind]; [|reflexivity].
  destruct (aget key_dec (s_tl st) k); [unfold sim; alike|].
  unfold load_account. rewrite C.
  destruct (sv_auth env (AAccount k)); cbn [rbind]; [|reflexivity].
  destruct (sv_read env (KAcc i)); cbn [rbind]; [|reflexivity].
  destruct (aget key_dec (s_acc st) i); cbn [rbind]; [|reflexivity]. cases.
Qed.
End Rest.

(* ----------------------------------------------------------------- the data *)

Section L.
Variable env : senv.
Variable self : addr.
Let li := sv_li env.
Let seq := li_seq li.

Record R (L : lst) (st : sst) : Prop := {
  R_shows : shows env self (ld_store L) st;
  R_run : running env self (ld_store L);
  R_rest : same_rest (ld_rest L) st;
}.

Lemma with_same L : with_store L (ld_store L) = L.
Proof. destruct L; reflexivity. Qed.

Lemma bkey_inj a b : bkey self a = bkey self b -> a = b.
Proof. intro H. injection H as H. exact H. Qed.
Lemma akey_inj f s f' s' : akey self f s = akey self f' s' -> f = f' /\ s = s'.
Proof. intro H. injection H as H1 H2. auto. Qed.
Lemma bkey_akey a f s : bkey self a <> akey self f s.
Proof. discriminate. Qed.
Lemma bkey_ikey a : bkey self a <> ikey self.
Proof. discriminate. Qed.
Lemma akey_ikey f s : akey self f s <> ikey self.
Proof. discriminate. Qed.

(* a key that can be read *)
Lemma readable s k : may_read s k = Ok tt -> exists o, found s k = Some o.
Proof. unfold may_read. destruct (footprint s k); [|discriminate]. destruct (found s k); [eauto|discriminate]. Qed.

(* changes to other keys of storage *)
Lemma running_put s k e : running env self s -> may_read s k = Ok tt -> k <> ikey self ->
  running env self (put_at s k e).
Proof.
  intros H M N. destruct H as [A B C D]. constructor; auto.
  - now rewrite may_read_put.
  - rewrite found_put. destruct (lkey_eq_dec (ikey self) k); [congruence|exact B].
Qed.
Lemma shows_put_bal s st a b : shows env self s st -> may_read s (bkey self a) = Ok tt ->
  i128_range (b_amount b) -> seq <= b_live b ->
  shows env self (put_at s (bkey self a) (bentry b)) (set_bals st (aset addr_dec (s_bal st) a b)).
Proof.
  intros [A B C D E F] M I LV. constructor; intros; rewrite ?may_read_put, ?may_write_put by assumption; auto.
  - unfold aget_bal, set_bals. cbn [s_bal]. rewrite aget_aset, found_put.
    destruct (addr_dec a0 a) as [->|N].
    + destruct (lkey_eq_dec _ _); [auto|congruence].
    + destruct (lkey_eq_dec _ _) as [Q|_]; [apply bkey_inj in Q; congruence|]. apply A.
  - change (aget_allow (set_bals st _) f sp) with (aget_allow st f sp). rewrite found_put.
    destruct (lkey_eq_dec _ _) as [Q|_]; [symmetry in Q; elim (bkey_akey _ _ _ Q)|]. apply B.
Qed.
Lemma shows_put_allow s st f p v : shows env self s st -> may_read s (akey self f p) = Ok tt ->
  i128_range (l_amount v) -> seq <= l_live v ->
  shows env self (put_at s (akey self f p) (aentry v)) (set_allows st (aset pair_dec (s_allow st) (f, p) v)).
Proof.
  intros [A B C D E F] M I LV. constructor; intros; rewrite ?may_read_put, ?may_write_put by assumption; auto.
  - change (aget_bal (set_allows st _) a) with (aget_bal st a). rewrite found_put.
    destruct (lkey_eq_dec _ _) as [Q|_]; [elim (bkey_akey _ _ _ Q)|]. apply A.
  - unfold aget_allow, set_allows. cbn [s_allow]. rewrite aget_aset, found_put.
    destruct (pair_dec (f0, sp) (f, p)) as [[= -> ->]|N].
    + destruct (lkey_eq_dec _ _); [auto|congruence].
    + destruct (lkey_eq_dec _ _) as [Q|_]; [apply akey_inj in Q; destruct Q; congruence|]. apply B.
Qed.
Lemma shows_put_inst s st e : shows env self s st -> may_read s (ikey self) = Ok tt ->
  shows env self (put_at s (ikey self) e) st.
Proof.
  intros [A B C D E F] M. constructor; intros; rewrite ?may_read_put, ?may_write_put by assumption; auto.
  - rewrite found_put. destruct (lkey_eq_dec _ _) as [Q|_]; [elim (bkey_ikey _ Q)|]. apply A.
  - rewrite found_put. destruct (lkey_eq_dec _ _) as [Q|_]; [elim (akey_ikey _ _ Q)|]. apply B.
Qed.
(* setting the same balance again *)
Lemma shows_same s st st' :
  (forall a, aget_bal st' a = aget_bal st a) -> (forall f p, aget_allow st' f p = aget_allow st f p) ->
  shows env self s st -> shows env self s st'.
Proof.
  intros P Q [A B C D E F]. constructor; auto.
  - intro a. rewrite P. apply A.
  - intros f p. rewrite Q. apply B.
Qed.

(* reading *)
Lemma get_bal_run L st a : R L st -> ld_get_bal env self L a =
  match get_bal env st a with
  | Ok (Some b) => Ok (L, Some (bvalue b))
  | Ok None => Ok (L, None)
  | Err e => Err e
  end.
Proof.
  intros [SH RN RS]. unfold ld_get_bal. rewrite balance_key_eq. cbn [rbind]. rewrite try_get_data_run.
  fold (bkey self a). unfold get_bal. rewrite (sh_bal_read _ _ _ _ SH).
  destruct (may_read (ld_store L) (bkey self a)) as [[]|e] eqn:M; cbn [rbind]; [|reflexivity].
  destruct (readable _ _ M) as [o G]. pose proof (sh_bal _ _ _ _ SH a) as HB.
  fold (aget_bal st a). destruct (aget_bal st a) as [b|].
  - destruct HB as (F & _ & LV). rewrite F. unfold bentry. cbn [rbind fst snd].
    destruct (Z.ltb_spec (b_live b) (li_seq (sv_li env))); [lia|]. rewrite with_same. reflexivity.
  - rewrite G in HB |- *. destruct o as [e|]; [elim (HB e); reflexivity|]. cbn [rbind fst snd].
    now rewrite with_same.
Qed.
Lemma get_bal_range L st a b : R L st -> get_bal env st a = Ok (Some b) -> i128_range (b_amount b).
Proof.
  intros [SH RN RS] H. unfold get_bal in H. destruct (sv_read env (KBal a)); cbn [rbind] in H; [|discriminate].
  pose proof (sh_bal _ _ _ _ SH a) as HB. fold (aget_bal st a) in H. destruct (aget_bal st a) as [b0|]; [|discriminate].
  destruct (b_live b0 <? _); [discriminate|]. injection H as <-. apply HB.
Qed.
Lemma get_allow_run L st f p : R L st -> ld_get_allow env self L f p =
  match get_allow env st f p with
  | Ok (Some v) => Ok (L, Some (avalue (l_amount v) (l_until v)))
  | Ok None => Ok (L, None)
  | Err e => Err e
  end.
Proof.
  intros [SH RN RS]. unfold ld_get_allow. rewrite allowance_key_eq. cbn [rbind]. rewrite try_get_data_run.
  fold (akey self f p). unfold get_allow. rewrite (sh_allow_read _ _ _ _ SH).
  destruct (may_read (ld_store L) (akey self f p)) as [[]|e] eqn:M; cbn [rbind]; [|reflexivity].
  destruct (readable _ _ M) as [o G]. pose proof (sh_allow _ _ _ _ SH f p) as HB.
  fold (aget_allow st f p). destruct (aget_allow st f p) as [v|].
  - destruct HB as (F & _ & LV). rewrite F. unfold aentry. cbn [rbind fst snd].
    destruct (Z.ltb_spec (l_live v) (li_seq (sv_li env))); [lia|]. rewrite with_same. reflexivity.
  - rewrite G in HB |- *. destruct o as [e|]; [elim (HB e); reflexivity|]. cbn [rbind fst snd].
    now rewrite with_same.
Qed.
Lemma get_allow_range L st f p v : R L st -> get_allow env st f p = Ok (Some v) -> i128_range (l_amount v).
Proof.
  intros [SH RN RS] H. unfold get_allow in H. destruct (sv_read env (KAllow f p)); cbn [rbind] in H; [|discriminate].
  pose proof (sh_allow _ _ _ _ SH f p) as HB. fold (aget_allow st f p) in H. destruct (aget_allow st f p) as [b0|]; [|discriminate].
  destruct (l_live b0 <? _); [discriminate|]. injection H as <-. apply HB.
Qed.

(* writing a balance *)
Lemma min_live_ge d n : 0 <= seq -> get_min_live_until li d = Ok n -> seq <= n.
Proof.
  intros H. unfold get_min_live_until, min_live_until, checked_add_u32, sat_sub_u32.
  destruct (_ <=? u32_max); [|discriminate]. intros [= <-]. fold seq. lia.
Qed.
Lemma put_put s k e e' : put_at (put_at s k e) k e' = put_at s k e'.
Proof.
  unfold put_at, set_map, mset. cbn [st_map st_foot]. f_equal.
  induction (st_map s) as [|[k0 v0] m IH]; cbn.
  - destruct (lkey_eq_dec k k); congruence.
  - destruct (lkey_eq_dec k k0); cbn; destruct (lkey_eq_dec k _); congruence.
Qed.
Hypothesis seq0 : 0 <= seq.

(* the extension of a balance just written or read *)
Lemma extend_bal_run L a v l :
  may_read (ld_store L) (bkey self a) = Ok tt ->
  found (ld_store L) (bkey self a) = Some (Some (v, Some l)) -> seq <= l ->
  ld_extend_bal env self L a =
  match extend_live env Persistent l balance_threshold balance_extend with
  | Ok l' => Ok (with_store L (if l <? l' then put_at (ld_store L) (bkey self a) (v, Some l') else ld_store L))
  | Err e => Err e
  end.
Proof.
  intros M F LV. unfold ld_extend_bal. rewrite balance_key_eq. cbn [rbind].
  unfold bkey in *. rewrite (host_extend env self _ _ _ _ _ _ _ M F LV).
  destruct (extend_live env Persistent l _ _); reflexivity.
Qed.

Lemma write_balance_sim L st a x au cl : R L st -> i128_range x ->
  sim R (ld_write_balance env self L a x au cl) (write_contract_balance env st a x au cl).
Proof.
  intros RL I. destruct RL as [SH RN RS]. unfold ld_write_balance, write_contract_balance.
  rewrite balance_key_eq. cbn [rbind]. rewrite (balance_to _ _ _ I). cbn [rbind].
  rewrite host_put by exact Logic.I. fold (bkey self a). unfold get_bal.
  rewrite (sh_bal_read _ _ _ _ SH), (sh_bal_write _ _ _ _ SH).
  destruct (may_read (ld_store L) (bkey self a)) as [[]|e] eqn:M; cbn [rbind]; [|reflexivity].
  destruct (readable _ _ M) as [o G]. pose proof (sh_bal _ _ _ _ SH a) as HB.
  fold (aget_bal st a).
  assert (K : forall l, seq <= l ->
    sim R
      (rbind (match may_write (ld_store L) (bkey self a) with
              | Ok _ => Ok (put_at (ld_store L) (bkey self a)
                              (EData (bvalue {| b_amount := x; b_auth := au; b_claw := cl; b_live := 0 |}), Some l), OUnit)
              | Err e => Err e end)
             (fun p => ld_extend_bal env self (with_store L (fst p)) a))
      (rbind (may_write (ld_store L) (bkey self a)) (fun _ =>
       rbind (extend_live env Persistent l balance_threshold balance_extend) (fun live =>
         Ok (set_bals st (aset addr_dec (s_bal st) a
           {| b_amount := x; b_auth := au; b_claw := cl; b_live := live |})))))).
  { intros l LV. destruct (may_write (ld_store L) (bkey self a)); cbn [rbind fst]; [|reflexivity].
    erewrite extend_bal_run.
    2:{ cbn [ld_store with_store]. rewrite may_read_put by exact M. exact M. }
    2:{ cbn [ld_store with_store]. rewrite found_put. destruct (lkey_eq_dec _ _); [reflexivity|congruence]. }
    2: exact LV.
    destruct (extend_live env Persistent l balance_threshold balance_extend) as [l'|e] eqn:X; cbn [rbind]; [|reflexivity].
    pose proof (extend_live_ge _ _ _ _ _ _ X) as GE. unfold sim. cbn [ld_store with_store].
    assert (Y : (if l <? l'
        then put_at (put_at (ld_store L) (bkey self a) (EData (bvalue {| b_amount := x; b_auth := au; b_claw := cl; b_live := 0 |}), Some l))
               (bkey self a) (EData (bvalue {| b_amount := x; b_auth := au; b_claw := cl; b_live := 0 |}), Some l')
        else put_at (ld_store L) (bkey self a) (EData (bvalue {| b_amount := x; b_auth := au; b_claw := cl; b_live := 0 |}), Some l))
        = put_at (ld_store L) (bkey self a) (bentry {| b_amount := x; b_auth := au; b_claw := cl; b_live := l' |})).
    { destruct (Z.ltb_spec l l'); [now rewrite put_put|]. replace l with l' by lia. reflexivity. }
    rewrite Y. constructor; cbn [ld_store ld_rest with_store].
    - apply shows_put_bal; auto. cbn. lia.
    - apply running_put; auto. apply bkey_ikey.
    - exact RS. }
  destruct (aget_bal st a) as [b|].
  - destruct HB as (F & _ & LV). rewrite F. unfold bentry.
    destruct (Z.ltb_spec (b_live b) (li_seq (sv_li env))); [lia|]. cbn [rbind]. apply K. exact LV.
  - rewrite G in HB |- *. destruct o as [e|]; [elim (HB e); reflexivity|]. cbn [rbind].
    destruct (get_min_live_until (sv_li env) Persistent) as [n|e] eqn:N; cbn [rbind]; [|reflexivity].
    apply K. exact (min_live_ge _ _ seq0 N).
Qed.

(* ---------------------------------------------------------------- balance.rs *)

Lemma read_balance_sim L st a : R L st ->
  sim (fun p q => R (fst p) (fst q) /\ snd p = snd q) (ld_read_balance env self L a) (read_balance env st a).
Proof.
  intro RL. unfold ld_read_balance, read_balance. destruct a as [k|id|i k|dd p]; try reflexivity.
  - rewrite (rest_balance env _ st) by apply RL. destruct (classic_balance env st k); cbn; auto.
  - rewrite (get_bal_run _ _ _ RL).
    destruct (get_bal env st (AContract id)) as [[b|]|e] eqn:GB; cbn [rbind fst snd]; [|cbn; auto|reflexivity].
    destruct RL as [SH RN RS]. unfold get_bal in GB. rewrite (sh_bal_read _ _ _ _ SH) in GB.
    destruct (may_read (ld_store L) (bkey self (AContract id))) as [[]|] eqn:M; cbn [rbind] in GB; [|discriminate].
    pose proof (sh_bal _ _ _ _ SH (AContract id)) as HB. fold (aget_bal st (AContract id)) in GB.
    destruct (aget_bal st (AContract id)) as [b0|] eqn:AB; [|discriminate].
    destruct (b_live b0 <? li_seq (sv_li env)); [discriminate|]. injection GB as ->.
    destruct HB as (F & I & LV). rewrite (extend_bal_run _ _ _ _ M F LV).
    destruct (extend_live env Persistent (b_live b) balance_threshold balance_extend) as [l'|e] eqn:X; cbn [rbind]; [|reflexivity].
    fold (bvalue b). rewrite (balance_from _ I). cbn [rbind]. unfold sim. cbn [fst snd]. split; [|reflexivity].
    pose proof (extend_live_ge _ _ _ _ _ _ X) as GE.
    destruct (Z.ltb_spec (b_live b) l').
    + constructor; cbn [ld_store ld_rest with_store].
      * apply (shows_put_bal _ _ _ {| b_amount := b_amount b; b_auth := b_auth b; b_claw := b_claw b; b_live := l' |}); auto.
        cbn. unfold seq, li. lia.
      * apply running_put; auto. apply bkey_ikey.
      * exact RS.
    + rewrite with_same. replace l' with (b_live b) by lia. constructor; auto.
      apply (shows_same _ st); auto. intro a. unfold aget_bal, set_bals. cbn [s_bal]. rewrite aget_aset.
      destruct (addr_dec a (AContract id)) as [->|]; [|reflexivity]. fold (aget_bal st (AContract id)).
      rewrite AB. destruct b; reflexivity.
Qed.

Lemma is_authorized_sim L st a : R L st ->
  sim (fun p b => fst p = L /\ snd p = b) (ld_is_authorized env self L a) (is_authorized env st a).
Proof.
  intro RL. unfold ld_is_authorized, is_authorized. destruct a as [k|id|i k|dd p]; try reflexivity.
  - rewrite (rest_authorized env _ st) by apply RL. destruct (account_authorized env st k); cbn; auto.
  - rewrite (get_bal_run _ _ _ RL).
    destruct (get_bal env st (AContract id)) as [[b|]|e] eqn:GB; cbn [rbind fst snd]; [| |reflexivity].
    + rewrite (balance_from _ (get_bal_range _ _ _ _ RL GB)). cbn. auto.
    + rewrite (rest_flag env _ st) by apply RL. destruct (issuer_flag env st acc_required); cbn; auto.
Qed.

Lemma chk128_range x e y : chk128 x e = Ok y -> y = x /\ i128_range x.
Proof.
  unfold chk128, in_i128, i128_min, i128_max, i128_range.
  destruct (Z.leb_spec (- 2 ^ 127) x); [|discriminate].
  destruct (Z.leb_spec x (2 ^ 127 - 1)); [|discriminate]. intros [= <-]. split; [reflexivity|lia].
Qed.

Lemma classic_sim L st (f : sst -> res sst) :
  R L st -> (forall r, same_rest r st -> sim (keeps st) (f r) (f st)) -> sim R (classic L f) (f st).
Proof.
  intros [SH RN RS] H. unfold classic. specialize (H _ RS). destruct (f (ld_rest L)) as [r'|e], (f st) as [st'|e']; cbn in *; auto; try contradiction.
  destruct H as (S & B & A). constructor; cbn; auto.
  apply (shows_same _ st); auto; intros; unfold aget_bal, aget_allow; now rewrite ?B, ?A.
Qed.

Lemma receive_sim L st a x : R L st -> sim R (ld_receive env self L a x) (receive_balance env st a x).
Proof.
  intro RL. unfold ld_receive, receive_balance. eapply sim_bind; [apply (is_authorized_sim _ _ _ RL)|].
  intros [L0 ok] b [E1 E2]. cbn in E1, E2. subst L0 b. destruct ok; cbn [negb]; [|reflexivity].
  destruct a as [k|id|i k|dd p]; try reflexivity.
  - apply sim_eq. intros y _. apply (classic_sim L st (fun st => transfer_classic env st k y)); auto. intros. now apply rest_transfer.
  - rewrite (get_bal_run _ _ _ RL).
    destruct (get_bal env st (AContract id)) as [[b|]|e] eqn:GB; cbn [rbind fst snd]; [| |reflexivity].
    + rewrite (balance_from _ (get_bal_range _ _ _ _ RL GB)). cbn [rbind].
      apply sim_eq. intros n N. apply chk128_range in N. destruct N as [-> N]. now apply write_balance_sim.
    + rewrite (rest_flag env _ st) by apply RL. destruct (issuer_flag env st acc_clawback); cbn [rbind]; [|reflexivity].
      apply sim_eq. intros n N. apply chk128_range in N. destruct N as [-> N]. now apply write_balance_sim.
Qed.
Lemma spend_no_check_sim L st a x : R L st -> sim R (ld_spend_no_check env self L a x) (spend_no_check env st a x).
Proof.
  intro RL. unfold ld_spend_no_check, spend_no_check. destruct a as [k|id|i k|dd p]; try reflexivity.
  - apply sim_eq. intros y _. apply (classic_sim L st (fun st => transfer_classic env st k (- y))); auto. intros. now apply rest_transfer.
  - rewrite (get_bal_run _ _ _ RL).
    destruct (get_bal env st (AContract id)) as [[b|]|e] eqn:GB; cbn [rbind fst snd]; [| |reflexivity].
    + rewrite (balance_from _ (get_bal_range _ _ _ _ RL GB)). cbn [rbind].
      destruct (b_amount b <? x); [reflexivity|].
      apply sim_eq. intros n N. apply chk128_range in N. destruct N as [-> N]. now apply write_balance_sim.
    + destruct (x >? 0); [reflexivity|exact RL].
Qed.
Lemma spend_sim L st a x : R L st -> sim R (ld_spend env self L a x) (spend_balance env st a x).
Proof.
  intro RL. unfold ld_spend, spend_balance. eapply sim_bind; [apply (is_authorized_sim _ _ _ RL)|].
  intros [L0 ok] b [E1 E2]. cbn in E1, E2. subst L0 b. cbn [fst snd]. destruct ok; cbn [negb]; [|reflexivity].
  now apply spend_no_check_sim.
Qed.
Lemma write_authorization_sim L st a b : R L st ->
  sim R (ld_write_authorization env self L a b) (write_authorization env st a b).
Proof.
  intro RL. unfold ld_write_authorization, write_authorization.
  rewrite !(rest_flag env _ st) by apply RL. apply sim_eq. intros rev _. destruct rev; cbn [negb]; [|reflexivity].
  destruct a as [k|id|i k|dd p]; try reflexivity.
  - apply (classic_sim L st (fun st => set_authorization env st k b)); auto. intros. now apply rest_set_authorization.
  - rewrite (get_bal_run _ _ _ RL).
    destruct (get_bal env st (AContract id)) as [[v|]|e] eqn:GB; cbn [rbind fst snd]; [| |reflexivity].
    + pose proof (get_bal_range _ _ _ _ RL GB) as I. rewrite (balance_from _ I). cbn [rbind]. now apply write_balance_sim.
    + rewrite (rest_flag env _ st) by apply RL. destruct (issuer_flag env st acc_clawback); cbn [rbind]; [|reflexivity].
      apply write_balance_sim; auto. unfold i128_range. lia.
Qed.
Lemma clawbackable_sim L st a : R L st ->
  sim (fun L' _ => L' = L) (ld_check_clawbackable env self L a) (check_clawbackable env st a).
Proof.
  intro RL. unfold ld_check_clawbackable. destruct a as [k|id|i k|dd p]; try reflexivity.
  - rewrite (rest_clawbackable env _ st) by apply RL. destruct (check_clawbackable env st (AAccount k)); reflexivity.
  - unfold check_clawbackable. rewrite (get_bal_run _ _ _ RL).
    destruct (get_bal env st (AContract id)) as [[b|]|e] eqn:GB; cbn [rbind fst snd]; try reflexivity.
    rewrite (balance_from _ (get_bal_range _ _ _ _ RL GB)). cbn [rbind]. destruct (b_claw b); reflexivity.
Qed.

(* -------------------------------------------------------------- allowance.rs *)

Lemma read_allowance_sim L st f p : R L st ->
  sim (fun q x => fst q = L /\ snd q = x) (ld_read_allowance env self L f p) (read_allowance env st f p).
Proof.
  intro RL. unfold ld_read_allowance, read_allowance. rewrite (get_allow_run _ _ _ _ RL).
  destruct (get_allow env st f p) as [[v|]|e] eqn:G; cbn [rbind fst snd]; [| |reflexivity].
  - rewrite (allowance_from _ _ (get_allow_range _ _ _ _ _ RL G)). cbn. auto.
  - cbn. auto.
Qed.

Lemma put_allowance_sim L st f p x until l old :
  R L st -> i128_range x -> may_read (ld_store L) (akey self f p) = Ok tt ->
  match found (ld_store L) (akey self f p) with
  | Some (Some (EData _, Some l')) => l' = l /\ seq <= l
  | Some None => get_min_live_until li Temporary = Ok l
  | _ => False
  end ->
  sim R (ld_put_allowance env self L f p x until old)
    (rbind (sv_write env (KAllow f p)) (fun _ =>
     rbind (if (x >? 0) && (old <? until)
            then extend_live env Temporary l (sat_sub_u32 until seq) (sat_sub_u32 until seq) else Ok l) (fun live =>
     Ok (set_allows st (aset pair_dec (s_allow st) (f, p) {| l_amount := x; l_until := until; l_live := live |}))))).
Proof.
  intros [SH RN RS] I M HF. unfold ld_put_allowance. rewrite allowance_key_eq. cbn [rbind].
  rewrite (allowance_to _ _ I). cbn [rbind]. rewrite (sh_allow_write _ _ _ _ SH).
  assert (E : match found (ld_store L) (akey self f p) with
              | Some (Some (EData _, l0)) => l0 = Some l /\ seq <= l
              | Some None => get_min_live_until li Temporary = Ok l /\ seq <= l
              | _ => False end).
  { destruct (found (ld_store L) (akey self f p)) as [[[[] [l0|]]|]|]; try contradiction.
    - destruct HF as [-> ?]. auto.
    - split; [exact HF|]. exact (min_live_ge _ _ seq0 HF). }
  clear HF.
  assert (LV : seq <= l) by (destruct (found (ld_store L) (akey self f p)) as [[[[] l0]|]|]; tauto).
  match goal with |- context [host env ?a ?b] => assert (HP : host env a b =
    match may_write (ld_store L) (akey self f p) with
    | Ok _ => Ok (put_at (ld_store L) (akey self f p) (EData (avalue x until), Some l), OUnit)
    | Err e => Err e end) end.
  { rewrite host_put by exact Logic.I. fold (akey self f p). rewrite M. cbv zeta.
    destruct (found (ld_store L) (akey self f p)) as [[[[] l0]|]|]; try contradiction.
    - destruct E as [-> _]. reflexivity.
    - destruct E as [E _]. unfold li in E. rewrite E. reflexivity. }
  rewrite HP. clear HP.
  destruct (may_write (ld_store L) (akey self f p)); cbn [rbind fst]; [|reflexivity].
  assert (D : forall l', seq <= l' ->
    R (with_store L (put_at (ld_store L) (akey self f p) (EData (avalue x until), Some l')))
      (set_allows st (aset pair_dec (s_allow st) (f, p) {| l_amount := x; l_until := until; l_live := l' |}))).
  { intros l' GE. constructor; cbn [ld_store ld_rest with_store].
    - apply (shows_put_allow _ _ _ _ {| l_amount := x; l_until := until; l_live := l' |}); auto.
    - apply running_put; auto. apply akey_ikey.
    - exact RS. }
  fold li seq. destruct ((x >? 0) && (old <? until))%bool; cbn [rbind]; [|unfold sim; now apply D].
  unfold akey at 1. erewrite host_extend; fold (akey self f p).
  2:{ rewrite may_read_put by exact M. exact M. }
  2:{ rewrite found_put. destruct (lkey_eq_dec _ _); [reflexivity|congruence]. }
  2: exact LV.
  destruct (extend_live env Temporary l _ _) as [l'|e] eqn:X; cbn [rbind]; [|reflexivity].
  pose proof (extend_live_ge _ _ _ _ _ _ X) as GE. unfold sim. cbn [fst].
  destruct (Z.ltb_spec l l').
  - rewrite put_put. apply D. lia.
  - replace l' with l by lia. now apply D.
Qed.

Lemma write_allowance_sim L st f p x until : R L st -> i128_range x ->
  sim R (ld_write_allowance env self L f p x until) (write_allowance env st f p x until).
Proof.
  intros RL I. unfold ld_write_allowance, write_allowance. apply sim_eq. intros mx _.
  destruct (until >? mx); [reflexivity|]. destruct ((x >? 0) && (until <? li_seq (sv_li env)))%bool; [reflexivity|].
  rewrite (get_allow_run _ _ _ _ RL).
  destruct (get_allow env st f p) as [o|e] eqn:G; cbn [rbind]; [|reflexivity].
  pose proof RL as [SH RN RS]. unfold get_allow in G. rewrite (sh_allow_read _ _ _ _ SH) in G.
  destruct (may_read (ld_store L) (akey self f p)) as [[]|] eqn:M; cbn [rbind] in G; [|discriminate].
  destruct (readable _ _ M) as [o' F']. pose proof (sh_allow _ _ _ _ SH f p) as HA.
  fold (aget_allow st f p) in G. destruct (aget_allow st f p) as [v|].
  - destruct HA as (F & IA & LV). destruct (Z.ltb_spec (l_live v) (li_seq (sv_li env))); [lia|]. injection G as <-.
    cbn [rbind fst snd]. rewrite (allowance_from _ _ IA). cbn [rbind].
    apply put_allowance_sim; auto. rewrite F. cbn. auto.
  - injection G as <-. cbn [rbind fst snd]. destruct (x >? 0) eqn:P; [|exact RL].
    rewrite F' in HA. destruct o' as [e|]; [elim (HA e); reflexivity|].
    destruct (get_min_live_until (sv_li env) Temporary) as [n|e] eqn:N; cbn [rbind].
    + change true with (true && true)%bool. pose proof (put_allowance_sim L st f p x until n 0 RL I M) as K.
      rewrite F', P in K. cbn [andb] in K |- *. apply K. exact N.
    + unfold ld_put_allowance. rewrite allowance_key_eq. cbn [rbind]. rewrite (allowance_to _ _ I). cbn [rbind].
      rewrite host_put by exact Logic.I. fold (akey self f p). rewrite M, F', N. reflexivity.
Qed.
Lemma write_allowance_amount_sim L st f p x : R L st -> i128_range x ->
  sim R (ld_write_allowance_amount env self L f p x) (write_allowance_amount env st f p x).
Proof.
  intros RL I. unfold ld_write_allowance_amount, write_allowance_amount.
  rewrite allowance_key_eq. cbn [rbind]. rewrite host_get. fold (akey self f p).
  pose proof RL as [SH RN RS]. unfold get_allow. rewrite (sh_allow_read _ _ _ _ SH).
  destruct (may_read (ld_store L) (akey self f p)) as [[]|] eqn:M; cbn [rbind]; [|reflexivity].
  destruct (readable _ _ M) as [o' F']. pose proof (sh_allow _ _ _ _ SH f p) as HA.
  fold (aget_allow st f p). destruct (aget_allow st f p) as [v|].
  - destruct HA as (F & IA & LV). destruct (Z.ltb_spec (l_live v) (li_seq (sv_li env))); [lia|].
    rewrite F. unfold aentry. cbn [rbind fst snd]. fold (avalue (l_amount v) (l_until v)).
    rewrite (allowance_from _ _ IA). cbn [rbind]. rewrite with_same. now apply write_allowance_sim.
  - rewrite F' in HA |- *. destruct o' as [e|]; [elim (HA e); reflexivity|]. reflexivity.
Qed.
Lemma spend_allowance_sim L st f p x : R L st ->
  sim R (ld_spend_allowance env self L f p x) (spend_allowance env st f p x).
Proof.
  intro RL. unfold ld_spend_allowance, spend_allowance. eapply sim_bind; [apply (read_allowance_sim _ _ _ _ RL)|].
  intros [L0 a] b [E1 E2]. cbn in E1, E2. subst L0 b. destruct (a <? x); [reflexivity|].
  destruct (x >? 0); [|exact RL]. apply sim_eq. intros n N. apply chk128_range in N. destruct N as [-> N].
  now apply write_allowance_amount_sim.
Qed.

(* --------------------------------------------------------------- contract.rs *)

Lemma day_facts : instance_threshold = 103680 /\ instance_extend = 120960.
Proof. split; reflexivity. Qed.
(* the instance extension goes through *)
Lemma extend_instance_live s : running env self s -> forall l,
  exists l', extend_live env Persistent l instance_threshold instance_extend = Ok l'.
Proof.
  intros [A B C D] l. unfold extend_live. destruct day_facts as [-> ->]. cbn [Z.ltb Z.compare Pos.compare Pos.compare_cont].
  unfold get_max_live_until, max_live_until, checked_add_u32, sat_sub_u32.
  destruct (Z.leb_spec (li_seq (sv_li env) + Z.max 0 (li_max_ttl (sv_li env) - 1)) u32_max); [|lia]. cbn [rbind andb].
  destruct (Z.leb_spec (li_seq (sv_li env) + 120960) u32_max); [eauto|lia].
Qed.
Lemma extend_instance_sim L st : R L st -> exists L', ld_extend_instance env self L = Ok L' /\ R L' st.
Proof.
  intros [SH RN RS]. pose proof RN as [M (data & l & F & LV) D1 D2]. unfold ld_extend_instance.
  rewrite (host_extend_instance env self _ _ _ _ _ M F LV).
  destruct (extend_instance_live _ RN l) as [l' X]. rewrite X. cbn [rbind fst].
  pose proof (extend_live_ge _ _ _ _ _ _ X) as GE.
  eexists. split; [reflexivity|]. destruct (l <? l'); [|rewrite with_same; constructor; auto].
  constructor; cbn [ld_store ld_rest with_store]; auto.
  - now apply shows_put_inst.
  - constructor; auto.
    + now rewrite may_read_put.
    + rewrite found_put. destruct (lkey_eq_dec _ _); [|congruence]. exists data, l'. split; [reflexivity|lia].
Qed.

Variable auth_store : addr -> storage -> storage.
Hypothesis Q : quiet self auth_store.

Lemma found_auth a s k d : found (auth_store a s) (LKData self k d) = found s (LKData self k d).
Proof. apply Q. Qed.
Lemma foot_auth a s k : footprint (auth_store a s) k = footprint s k.
Proof. unfold footprint. now rewrite (proj1 (Q a s)). Qed.
Lemma read_auth a s k d : may_read (auth_store a s) (LKData self k d) = may_read s (LKData self k d).
Proof. unfold may_read. now rewrite foot_auth, found_auth. Qed.
Lemma write_auth a s k : may_write (auth_store a s) k = may_write s k.
Proof. unfold may_write. now rewrite foot_auth. Qed.
Lemma R_auth L st a : R L st -> R (with_store L (auth_store a (ld_store L))) st.
Proof.
  intros [[A B C D E F] [RA RB RC RD] RS]. constructor; cbn [ld_store ld_rest with_store]; auto.
  - constructor; intros; unfold bkey, akey in *; rewrite ?read_auth, ?write_auth, ?found_auth; auto.
    + specialize (A a0). destruct (aget_bal st a0); [exact A|]. intro e. apply A.
    + specialize (B f sp). destruct (aget_allow st f sp); [exact B|]. intro e. apply B.
  - constructor; auto; unfold ikey in *; rewrite ?read_auth, ?found_auth; auto.
Qed.
Lemma auth_sim L st a : R L st ->
  sim (fun L' _ => R L' st) (ld_auth env auth_store L a) (sv_auth env a).
Proof. intro RL. unfold ld_auth. destruct (sv_auth env a); cbn; [|reflexivity]. now apply R_auth. Qed.

Lemma R_emit L st ev e : R L st -> ev (ld_rest L) = e -> R (ld_emit L ev) (emit st e).
Proof.
  intros [SH RN (A & B & C & D & E)] <-. constructor; cbn; auto.
  - apply (shows_same _ st); auto.
  - unfold same_rest. cbn. repeat split; auto. now rewrite E.
Qed.
Definition RR (p : lst * sret) (q : sst * sret) : Prop := R (fst p) (fst q) /\ snd p = snd q.
Lemma done_sim x y ev f :
  sim R x y -> (forall L st, R L st -> f st = emit st (ev (ld_rest L))) -> sim RR (ld_done x ev) (done y f).
Proof.
  intros H K. unfold ld_done, done. eapply sim_bind; [exact H|]. intros L st RL. cbn [sim].
  split; [|reflexivity]. cbn [fst]. rewrite (K _ _ RL). now apply R_emit.
Qed.

Lemma trust_sim L st a : R L st -> sim R (ld_trust env auth_store L a) (create_trustline env st a).
Proof.
  intro RL. unfold ld_trust. pose proof (rest_trust env _ _ a (R_rest _ _ RL)) as H.
  destruct (create_trustline env (ld_rest L) a) as [r'|], (create_trustline env st a) as [st'|]; cbn in *; auto.
  destruct H as (S & B & A).
  assert (RC : forall s, R (with_store L s) st -> R {| ld_store := s; ld_rest := r' |} st').
  { intros s [X Y Z]. constructor; cbn in *; auto.
    apply (shows_same _ st); auto; intros; unfold aget_bal, aget_allow; now rewrite ?B, ?A. }
  apply RC. destruct a; rewrite ?with_same; auto.
  destruct (aget key_dec (s_tl (ld_rest L)) _); [rewrite with_same; auto|now apply R_auth].
Qed.

Theorem call_sim L st c : R L st -> typed_call c ->
  sim RR (ld_call env self auth_store L c) (run_call env st c).
Proof.
  intros RL TC. unfold ld_call, run_call.
  destruct c.
  - destruct (extend_instance_sim _ _ RL) as (L1 & -> & R1). cbn [rbind].
    eapply sim_bind; [apply (read_allowance_sim _ _ _ _ R1)|]. intros [L2 y] z [E1 E2]. cbn in E1, E2 |- *. subst. split; auto.
  - apply sim_eq. intros _ _. eapply sim_bind; [apply (auth_sim _ _ _ RL)|]. intros L1 u R1; cbn beta in R1.
    destruct (extend_instance_sim _ _ R1) as (L2 & -> & R2). cbn [rbind].
    apply done_sim; [|reflexivity]. apply write_allowance_sim; auto.
  - destruct (extend_instance_sim _ _ RL) as (L1 & -> & R1). cbn [rbind].
    eapply sim_bind; [apply (read_balance_sim _ _ _ R1)|]. intros p q [E1 E2]. cbn. split; [exact E1|cbn; congruence].
  - destruct (extend_instance_sim _ _ RL) as (L1 & -> & R1). cbn [rbind].
    eapply sim_bind; [apply (is_authorized_sim _ _ _ R1)|]. intros [L2 y] z [E1 E2]. cbn in E1, E2 |- *. subst. split; auto.
  - apply sim_eq. intros _ _. eapply sim_bind; [apply (auth_sim _ _ _ RL)|]. intros L1 u R1; cbn beta in R1.
    destruct (extend_instance_sim _ _ R1) as (L2 & -> & R2). cbn [rbind].
    apply done_sim.
    + eapply sim_bind; [apply (spend_sim _ _ _ _ R2)|]. intros L3 st3 R3. now apply receive_sim.
    + intros L3 st3 R3. rewrite (rest_event (ld_rest L3) st3) by apply R3. reflexivity.
  - apply sim_eq. intros _ _. eapply sim_bind; [apply (auth_sim _ _ _ RL)|]. intros L1 u R1; cbn beta in R1.
    destruct (extend_instance_sim _ _ R1) as (L2 & -> & R2). cbn [rbind].
    apply done_sim.
    + eapply sim_bind; [apply (spend_allowance_sim _ _ _ _ _ R2)|]. intros L3 st3 R3.
      eapply sim_bind; [apply (spend_sim _ _ _ _ R3)|]. intros L4 st4 R4. now apply receive_sim.
    + intros L3 st3 R3. rewrite (rest_event (ld_rest L3) st3) by apply R3. reflexivity.
  - apply sim_eq. intros _ _. rewrite (rest_non_native _ st), (rest_not_issuer _ st) by apply RL.
    apply sim_eq. intros _ _. apply sim_eq. intros _ _.
    eapply sim_bind; [apply (auth_sim _ _ _ RL)|]. intros L1 u R1; cbn beta in R1.
    destruct (extend_instance_sim _ _ R1) as (L2 & -> & R2). cbn [rbind].
    apply done_sim; [|reflexivity]. now apply spend_sim.
  - apply sim_eq. intros _ _. rewrite (rest_non_native _ st), (rest_not_issuer _ st) by apply RL.
    apply sim_eq. intros _ _. apply sim_eq. intros _ _.
    eapply sim_bind; [apply (auth_sim _ _ _ RL)|]. intros L1 u R1; cbn beta in R1.
    destruct (extend_instance_sim _ _ R1) as (L2 & -> & R2). cbn [rbind].
    apply done_sim; [|reflexivity].
    eapply sim_bind; [apply (spend_allowance_sim _ _ _ _ _ R2)|]. intros L3 st3 R3. now apply spend_sim.
  - apply sim_eq. intros _ _. eapply sim_bind; [apply (clawbackable_sim _ _ _ RL)|]. intros L1 u; cbn beta; intros ->.
    rewrite (rest_not_issuer _ st), (rest_admin _ st) by apply RL.
    apply sim_eq. intros _ _. apply sim_eq. intros ad _.
    eapply sim_bind; [apply (auth_sim _ _ _ RL)|]. intros L1 u1 R1; cbn beta in R1.
    destruct (extend_instance_sim _ _ R1) as (L2 & -> & R2). cbn [rbind].
    apply done_sim; [|reflexivity]. now apply spend_no_check_sim.
  - rewrite (rest_admin _ st) by apply RL. apply sim_eq. intros ad _.
    eapply sim_bind; [apply (auth_sim _ _ _ RL)|]. intros L1 u R1; cbn beta in R1.
    destruct (extend_instance_sim _ _ R1) as (L2 & -> & R2). cbn [rbind].
    apply done_sim; [|reflexivity]. now apply write_authorization_sim.
  - apply sim_eq. intros _ _. rewrite (rest_not_issuer _ st), (rest_admin _ st) by apply RL.
    apply sim_eq. intros _ _. apply sim_eq. intros ad _.
    eapply sim_bind; [apply (auth_sim _ _ _ RL)|]. intros L1 u R1; cbn beta in R1.
    destruct (extend_instance_sim _ _ R1) as (L2 & -> & R2). cbn [rbind].
    apply done_sim; [|reflexivity]. now apply receive_sim.
  - rewrite (rest_admin _ st) by apply RL. apply sim_eq. intros ad _.
    eapply sim_bind; [apply (auth_sim _ _ _ RL)|]. intros L1 u R1; cbn beta in R1.
    destruct (extend_instance_sim _ _ R1) as (L2 & -> & [SH RN (A & B & C & D & E)]). cbn [rbind].
    split; [|reflexivity]. cbn [fst]. constructor; cbn; auto.
    + apply (shows_same _ st); auto.
    + unfold same_rest. cbn. repeat split; auto. now rewrite E.
  - rewrite (rest_admin _ st) by apply RL. apply sim_eq. intros ad _. split; auto.
  - destruct (extend_instance_sim _ _ RL) as (L1 & -> & R1). cbn [rbind]. unfold done.
    eapply sim_bind; [apply (trust_sim _ _ _ R1)|]. intros L2 st2 R2. split; auto.
Qed.
End L.
