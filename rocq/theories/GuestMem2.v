(* Linear memory: vectors and maps; what every call preserves. *)
From Coq Require Import ZArith Lia List Bool.
From Verif Require Import Prelude ValModel ValSpec ValProofs SymbolProofs GuestProofs ContainerModel ContainerSpec ContainerProofs HeapModel HeapSpec TreeProofs HeapProofs ConvProofs HeapProofs2
  SeqProofs MapFnProofs SeqSpecProofs HostFnModel HostFnSpec HostFnProofs HostFnProofs2 GuestModel GuestSpec GuestHandles GuestCalls GuestMemProofs.
Import ListNotations.
Open Scope Z_scope.
Ltac Zify.zify_post_hook ::= Z.div_mod_to_equations.

(* ------------------------------------------------------------ values read from memory *)

Definition sound (h : heap) (a : Z) : Prop := word a /\ (is_object a = true -> live h a).
Lemma sound_live h a : sound h a -> is_good a = true -> live h a.
Proof. intros [W O] G. destruct (is_object a) eqn:E; auto. split; auto. split; auto. congruence. Qed.
Lemma holds_words_word m pos ws : holds_words m pos ws -> Forall word ws.
Proof.
  intros H. apply Forall_forall. intros w I. apply In_nth_error in I as [n N]. destruct (H n w N) as (_ & _ & R & _). exact R.
Qed.
Lemma names_sound g ws la : guest_ok g -> Forall word ws -> Forall2 (names (g_table g)) ws la -> Forall (sound (g_heap g)) la.
Proof.
  intros O F N. induction N as [|w a ws la H N IH]; [constructor|]. inversion F as [|? ? Hw Hws]; subst. constructor; auto.
  exact (names_live g w a O Hw H).
Qed.
Lemma sound_list h l : heap_ok h -> Forall (sound h) l ->
  (exists ts, denotes_list h l ts) \/ Exists (fun a => is_good a = false) l.
Proof.
  intros O. induction 1 as [|a l Sa _ IH]; [left; exists []; constructor|].
  destruct (is_good a) eqn:G; [|now right; left]. destruct IH as [[ts D]|E]; [|now right; right].
  destruct (live_denotes h a O (sound_live _ _ Sa G)) as [t Dt]. left. exists (t :: ts). now constructor.
Qed.
Lemma bad_check h l : Exists (fun a => is_good a = false) l -> exists e, check_all h l = Err e.
Proof.
  induction 1 as [a l G|a l _ [e IH]]; cbn [check_all].
  - unfold check_val_integrity. rewrite G. cbn [negb rbind]. eauto.
  - destruct (check_val_integrity h a); cbn [rbind]; eauto.
Qed.
Lemma meant_list g ws la ts : Forall2 (names (g_table g)) ws la -> denotes_list (g_heap g) la ts -> Forall2 (meant g) ws ts.
Proof.
  intros N. revert ts. induction N as [|w a ws la H N IH]; intros ts D; inversion D; subst; constructor; auto. exists a. auto.
Qed.
Lemma meant_names g ws ts : Forall2 (meant g) ws ts -> exists la, Forall2 (names (g_table g)) ws la /\ denotes_list (g_heap g) la ts.
Proof.
  induction 1 as [|w t ws ts (a & N & D) _ (la & A & B)]; [exists []; split; constructor|]. exists (a :: la). split; constructor; auto.
Qed.
Lemma names_list_fun t ws la la' : Forall2 (names t) ws la -> Forall2 (names t) ws la' -> la = la'.
Proof.
  intros N. revert la'. induction N as [|w a ws la H N IH]; intros l' N'; inversion N'; subst; auto.
  f_equal; auto. eapply names_fun; eauto.
Qed.
Lemma bad_not_denotes h l ts : denotes_list h l ts -> Exists (fun a => is_good a = false) l -> False.
Proof.
  intros D E. destruct (bad_check h l E) as [e C]. rewrite (check_all_den h l ts D) in C. discriminate.
Qed.

Lemma read_vals_reads g pos n g1 r : guest_ok g -> 0 <= pos -> 0 <= n -> read_vals g pos n = (g1, r) ->
  same_state g g1 /\
  match r with
  | Ok la => Z.of_nat (length la) = n /\ Forall (sound (g_heap g)) la /\
      ((exists ts, reads g pos n ts /\ denotes_list (g_heap g) la ts)
       \/ ((forall ts, ~ reads g pos n ts) /\ Exists (fun a => is_good a = false) la))
  | Err _ => forall ts, ~ reads g pos n ts
  end.
Proof.
  intros O P N X. split; [eapply read_vals_same; eauto|]. pose proof O as (O1 & O2 & O3).
  destruct (read_vals_ok g pos n g1 r P N O3 X) as [(R1 & R2 & ws & L & H & Q)|(R & e & ->)].
  2:{ intros ts (C1 & ws & C2 & C3 & _). tauto. }
  assert (UN : forall ts, reads g pos n ts -> Forall2 (meant g) ws ts).
  { intros ts (_ & ws' & L' & _ & H' & M). now rewrite (holds_words_fun (g_mem g) pos ws ws') by (auto; lia). }
  destruct r as [la|e].
  - assert (LL : length ws = length la) by (clear -Q; induction Q; cbn; auto). split; [lia|].
    pose proof (names_sound g ws la O (holds_words_word _ _ _ H) Q) as SD. split; auto.
    destruct (sound_list _ _ O1 SD) as [[ts D]|E].
    + left. exists ts. split; auto. split; auto. exists ws. split; auto. split; auto. split; auto. eapply meant_list; eauto.
    + right. split; auto. intros ts C. apply UN in C. destruct (meant_names _ _ _ C) as (la' & A & B).
      rewrite (names_list_fun _ _ _ _ A Q) in B. eapply bad_not_denotes; eauto.
  - destruct Q as [_ Q]. intros ts C. apply UN in C. clear -Q C. induction C as [|w t ws ts (a & A & _) _ IH]; inversion Q; subst; auto.
    eapply H0; eauto.
Qed.

Lemma reads_fun g pos len ts ts' : reads g pos len ts -> reads g pos len ts' -> ts = ts'.
Proof.
  intros (_ & ws' & B1 & _ & B2 & B3) (_ & ws & A1 & _ & A2 & A3). symmetry.
  assert (W : ws = ws') by (eapply holds_words_fun; eauto; lia). subst ws'.
  destruct (meant_names _ _ _ A3) as (l1 & C1 & C2). destruct (meant_names _ _ _ B3) as (l2 & C3 & C4).
  rewrite (names_list_fun _ _ _ _ C1 C3) in C2. clear -C2 C4. revert ts' C2.
  induction C4 as [|a t l ts D DL IH]; intros ts' H; inversion H; subst; auto. f_equal; auto. eapply denotes_fun; eauto.
Qed.

(* ------------------------------------------------------------ vectors *)

Lemma vec_new_ok d g pos len g' r : guest_ok g -> u32 pos -> u32 len -> mem_call d g (MVecNew pos len) = (g', r) ->
  fits (g_heap g') -> Z.of_nat (length (g_table g)) < 2 ^ 31 ->
  g_mem g' = g_mem g /\
  ((exists ts w, reads g pos len ts /\ r = Ok w /\ stands g' w (TVec ts))
   \/ ((forall ts, ~ reads g pos len ts) /\ (exists e, r = Err e) /\ same_state g g')).
Proof.
  intros O [P _] [N NM]. cbn [mem_call]. unfold vec_new. destruct (read_vals g pos len) as [g1 rv] eqn:R.
  destruct (read_vals_reads _ _ _ _ _ O P N R) as [SM Q]. destruct rv as [la|e]; cbn [rbind].
  2:{ intros X. unfold fail in X. pe X. intros _ _. split; [apply SM|]. right. split; auto. split; eauto. }
  destruct Q as (L & SD & Q). pose proof SM as (S1 & S2 & S3). rewrite S1.
  destruct Q as [(ts & RD & D)|[NR E]].
  - rewrite (check_all_den _ _ _ D). cbn [rbind]. unfold mvec_from, fits_u32. destruct (Z.leb_spec (Z.of_nat (length la)) u32_max); [|lia].
    assert (OD : obj_denotes (g_heap g1) (HOVec la) (TVec ts)).
    { constructor; [unfold short; lia|]. now rewrite S1. }
    intros X F LT. destruct (new_object_grown _ _ _ _ (fun _ _ => ex_intro _ _ OD) X) as [GR GM]. split; [now rewrite GM|].
    left. destruct (new_object_means _ _ _ _ _ OD X F ltac:(now rewrite S2)) as (w & -> & W). exists ts, w. auto.
  - destruct (bad_check (g_heap g) la E) as [e C]. rewrite C. cbn [rbind]. intros X. unfold fail in X. pe X. intros _ _.
    split; auto. right. split; auto. split; eauto.
Qed.

Lemma stands_list g ws l ts : Forall2 (fun w a => word w /\ is_good w = true /\ names (g_table g) w a) ws l ->
  denotes_list (g_heap g) l ts -> Forall2 (stands g) ws ts.
Proof.
  intros N. revert ts. induction N as [|w a ws l (A & B & C) N IH]; intros ts D; inversion D; subst; constructor; auto.
  eapply word_stands; eauto.
Qed.
Lemma live_list h l ts : denotes_list h l ts -> Forall (live h) l.
Proof. induction 1; constructor; auto. eapply denotes_live; eauto. Qed.

Lemma write_vals_means g pos l ts g' r : denotes_list (g_heap g) l ts -> 0 <= pos ->
  Z.of_nat (length (g_table g) + length ts) <= 2 ^ 31 -> write_vals g pos l = (g', r) ->
  (r = Ok tt /\ wrote g g' pos ts)
  \/ (~ (pos + 8 * Z.of_nat (length ts) <= u32_max /\ pos + 8 * Z.of_nat (length ts) <= Z.of_nat (length (g_mem g)))
      /\ (exists e, r = Err e) /\ g' = g).
Proof.
  intros D P T X. pose proof (denotes_list_length _ _ _ D) as L. pose proof (live_list _ _ _ D) as LV.
  destruct (write_vals_grown g pos l g' r LV P X) as [_ EH].
  pose proof (write_vals_ok g pos l g' r LV P ltac:(lia) X) as Q. cbv zeta in Q. rewrite L in Q.
  destruct Q as [(A & B & -> & U & ws & W1 & W2)|Q]; [|auto].
  left. split; auto. unfold wrote. cbv zeta. split; auto. split; auto. split; auto. split; auto. exists ws. split; auto.
  eapply stands_list; eauto. now rewrite EH.
Qed.

Lemma vec_unpack_ok d g i ts pos len g' r : stands g i (TVec ts) -> u32 pos -> u32 len ->
  Z.of_nat (length (g_table g) + length ts) <= 2 ^ 31 -> mem_call d g (MVecUnpack i pos len) = (g', r) ->
  (Z.of_nat (length ts) = len /\ r = Ok val_void /\ wrote g g' pos ts)
  \/ (~ (Z.of_nat (length ts) = len /\ pos + 8 * len <= u32_max /\ pos + 8 * len <= Z.of_nat (length (g_mem g)))
      /\ (exists e, r = Err e) /\ same_state g g').
Proof.
  intros ST [P _] [N _] T. cbn [mem_call]. unfold with_arg. destruct (dispatch_arg g _ i) as [g1 r1] eqn:D.
  destruct (dispatch_stands _ _ _ _ _ _ ST D) as (SM & a & Na & Dn & HT).
  destruct (vec_visit _ a ts Dn) as (TG & l & V & DL & Sh). cbn [has_type] in HT. rewrite TG in HT. subst r1.
  pose proof SM as (S1 & S2 & S3). unfold vec_unpack. rewrite S1, V. pose proof (denotes_list_length _ _ _ DL) as L.
  destruct (Z.eqb_spec (Z.of_nat (length l)) len) as [E|E].
  2:{ intros X. unfold fail in X. pe X. right. split; [lia|]. split; eauto. }
  destruct (write_vals g1 pos l) as [g2 rw] eqn:W.
  assert (DL1 : denotes_list (g_heap g1) l ts) by now rewrite S1.
  destruct (write_vals_means g1 pos l ts g2 rw DL1 P ltac:(now rewrite S2) W) as [(-> & Q)|(Q & (e & ->) & ->)]; intros X; pe X.
  - left. split; [lia|]. split; auto. unfold wrote in *. now rewrite S1, S3 in Q.
  - right. rewrite S3 in Q. split; [|split; [cbn; eauto|auto]]. intros (_ & Q1 & Q2). apply Q. split; lia.
Qed.

(* ------------------------------------------------------------ maps *)

Lemma map_entries_grown d sp keys : forall h prev vals h' r, map_entries d h sp prev keys vals = (h', r) ->
  extends h h' /\ (fits h' -> heap_ok h -> heap_ok h')
  /\ (length keys = length vals -> Exists (fun a => is_good a = false) vals -> exists e, r = Err e).
Proof.
  induction keys as [|kb keys IH]; intros h prev vals h' r E.
  - cbn in E. apply pair_equal_spec in E as [<- <-]. split; [apply extends_refl|]. split; auto. intros L EX. inversion EX; subst; discriminate.
  - destruct vals as [|v vals].
    { cbn in E. apply pair_equal_spec in E as [<- <-]. split; [apply extends_refl|]. split; auto. discriminate. }
    cbn [map_entries] in E. destruct (symbol_of_bytes h kb) as [h3 rk] eqn:SB.
    destruct (symbol_of_bytes_den h kb h3 rk SB) as [X Y].
    assert (Y' : fits h3 -> heap_ok h -> heap_ok h3) by (intros F; apply (Y F)).
    destruct rk as [k3|]; [|apply pair_equal_spec in E as [<- <-]; eauto].
    match type of E with match ?c with _ => _ end = _ => destruct c as [[]|] end; [|apply pair_equal_spec in E as [<- <-]; eauto].
    destruct (check_val_integrity h3 v) eqn:CV; [|apply pair_equal_spec in E as [<- <-]; eauto].
    destruct (map_entries d h3 sp (Some k3) keys vals) as [h4 r4] eqn:M4. apply pair_equal_spec in E as [<- <-].
    apply IH in M4 as (A & B & C). split; [eapply extends_trans; eauto|]. split.
    + intros F O. apply B; auto. apply Y'; auto. eapply extends_fits; eauto.
    + intros L EX. cbn in L. assert (GV : is_good v = true).
      { unfold check_val_integrity in CV. destruct (is_good v); [auto|discriminate]. }
      inversion EX as [? ? G|? ? G]; subst; [congruence|]. destruct (C ltac:(lia) G) as [e ->]. cbn. eauto.
Qed.
Lemma map_from_slices_grown d h sp keys vals h' r : map_from_slices d h sp keys vals = (h', r) ->
  extends h h' /\ (fits h' -> heap_ok h -> heap_ok h')
  /\ (Exists (fun a => is_good a = false) vals -> exists e, r = Err e).
Proof.
  unfold map_from_slices. destruct (Nat.eqb_spec (length keys) (length vals)) as [L|L].
  - destruct (map_entries d h sp None keys vals) as [h1 r1] eqn:ME. apply map_entries_grown in ME as (A & B & C).
    intros X. pe X. split; auto. split; auto. intros EX. destruct (C L EX) as [e ->]. cbn. eauto.
  - intros X. pe X. split; [apply extends_refl|]. split; eauto.
Qed.

Lemma new_object_heap g o g' r : new_object g o = (g', r) -> g_heap g' = fst (add_host_object (g_heap g) o).
Proof.
  unfold new_object. destruct (add_host_object (g_heap g) o) as [h ra]. cbn [fst]. intros Z.
  destruct ra as [a|]; [|apply pair_equal_spec in Z as [<- _]; reflexivity].
  unfold dispatch_result, give in Z. destruct (check_val_integrity _ a); [|apply pair_equal_spec in Z as [<- _]; reflexivity].
  destruct (absolute_to_relative _ a) as [tt [w|]]; apply pair_equal_spec in Z as [<- _]; reflexivity.
Qed.
Lemma map_new_ok d sp g keys vals len g' r : guest_ok g -> (1 <= d)%nat -> u32 keys -> u32 vals -> u32 len ->
  mem_call d g (MMapNew sp keys vals len) = (g', r) -> fits (g_heap g') -> Z.of_nat (length (g_table g)) < 2 ^ 31 ->
  g_mem g' = g_mem g /\
  ((exists ks ts m w, Z.of_nat (length ks) = len /\ holds_slices (g_mem g) keys ks /\ reads g vals len ts
      /\ astep (OMapFromSlices sp ks ts) = Some [TMap m] /\ r = Ok w /\ stands g' w (TMap m))
   \/ (~ (exists ks ts m, Z.of_nat (length ks) = len /\ holds_slices (g_mem g) keys ks /\ reads g vals len ts
          /\ astep (OMapFromSlices sp ks ts) = Some [TMap m])
       /\ (exists e, r = Err e) /\ g_table g' = g_table g /\ extends (g_heap g) (g_heap g'))).
Proof.
  intros O D1 [K _] [P _] [N NM]. pose proof O as (O1 & O2 & O3). cbn [mem_call]. unfold map_new.
  destruct (scan_slices (g_mem g) keys 0 (Z.to_nat len)) as [ks|e] eqn:SC.
  2:{ intros X. unfold fail in X. pe X. intros _ _. split; auto. right. split; [|split; [eauto|split; [auto|apply extends_refl]]].
      intros (ks & ts & m & A & B & _). assert (C : scan_slices (g_mem g) keys 0 (Z.to_nat len) = Ok ks) by (apply scan_iff; auto). congruence. }
  assert (KU : forall ks', Z.of_nat (length ks') = len -> holds_slices (g_mem g) keys ks' -> ks' = ks).
  { intros ks' A B. assert (C : scan_slices (g_mem g) keys 0 (Z.to_nat len) = Ok ks') by (apply scan_iff; auto). congruence. }
  apply scan_iff in SC; auto. destruct SC as [LK HK].
  destruct (read_vals g vals len) as [g1 rv] eqn:R.
  destruct (read_vals_reads _ _ _ _ _ O P N R) as [SM Q]. pose proof SM as (S1 & S2 & S3).
  destruct rv as [la|e].
  2:{ intros X. unfold fail in X. pe X. intros _ _. split; auto. right. split; [|split; [eauto|split; [auto|rewrite S1; apply extends_refl]]].
      intros (ks' & ts & m & _ & _ & C & _). exact (Q ts C). }
  destruct Q as (L & SD & Q). destruct (map_from_slices d (g_heap g1) sp ks la) as [h rm] eqn:MF.
  destruct (map_from_slices_grown _ _ _ _ _ _ _ MF) as (XH & XO & XB). rewrite S1 in *.
  destruct Q as [(ts & RD & DL)|[NR E]].
  2:{ destruct (XB E) as [e ->]. intros X. unfold fail in X. pe X. intros _ _. split; auto. right. split; [|split; [eauto|split; auto]].
      intros (ks' & ts & m & _ & _ & C & _). exact (NR ts C). }
  destruct (from_slices_den d (g_heap g) sp ks la ts h rm DL MF) as [_ FS].
  assert (RU : forall ts', reads g vals len ts' -> ts' = ts) by (intros ts' R'; symmetry; eapply reads_fun; eauto).
  destruct rm as [m|e].
  - intros X F LT. assert (FH : fits h).
    { apply new_object_heap in X. cbn [set_heap g_heap] in X. destruct (add_host_object h (HOMap m)) as [h2 ra] eqn:A.
      cbn [fst] in X. eapply extends_fits; [|exact F]. rewrite X. eapply add_prefix; eauto. }
    destruct (FS FH) as [_ (m' & AS & DP & Sh & MS)].
    assert (OD : obj_denotes (g_heap (set_heap g1 h)) (HOMap m) (TMap m')) by (cbn; constructor; auto).
    destruct (new_object_grown _ _ _ _ (fun _ _ => ex_intro _ _ OD) X) as [GR GM]. split; [rewrite GM; exact S3|].
    left. destruct (new_object_means _ _ _ _ _ OD X F) as (w & -> & W); [cbn; now rewrite S2|].
    exists ks, ts, m', w. tauto.
  - intros X. unfold fail in X. pe X. cbn [set_heap g_heap g_mem g_table]. intros F _. split; auto. right.
    split; [|split; [eauto|split; auto]].
    destruct (FS F) as [_ [AS|(_ & D0 & _)]]; [|lia].
    intros (ks' & ts' & m' & A & B & C & E). rewrite (KU _ A B), (RU _ C) in E. congruence.
Qed.

Lemma map_unpack_ok d sp g i m keys vals len g' r : guest_ok g -> stands g i (TMap m) -> u32 keys -> u32 vals -> u32 len ->
  Z.of_nat (length (g_table g)) + len <= 2 ^ 31 -> mem_call d g (MMapUnpack sp i keys vals len) = (g', r) ->
  (exists ks ts, Z.of_nat (length ks) = len /\ holds_slices (g_mem g) keys ks
      /\ astep (OMapUnpack sp (TMap m) ks) = Some ts /\ Z.of_nat (length ts) = len /\ r = Ok val_void /\ wrote g g' vals ts)
   \/ (~ (vals + 8 * len <= u32_max /\ vals + 8 * len <= Z.of_nat (length (g_mem g))
          /\ exists ks ts, Z.of_nat (length ks) = len /\ holds_slices (g_mem g) keys ks /\ astep (OMapUnpack sp (TMap m) ks) = Some ts)
       /\ (exists e, r = Err e) /\ same_state g g').
Proof.
  intros O ST [K _] [P _] [N NM] T. pose proof O as (O1 & O2 & O3).
  cbn [mem_call]. unfold with_arg. destruct (dispatch_arg g _ i) as [g1 r1] eqn:D.
  destruct (dispatch_stands _ _ _ _ _ _ ST D) as (SM & a & Na & Dn & HT).
  destruct (map_visit _ a m Dn) as (TG & l & V & DP & Sh & MS). cbn [has_type] in HT. rewrite TG in HT. subst r1.
  pose proof SM as (S1 & S2 & S3). unfold map_unpack_lm. rewrite S1, S3, V. cbn [rbind].
  pose proof (denotes_pairs_length _ _ _ DP) as LP.
  assert (SAME : forall ks, sp = false -> astep (OMapUnpack sp (TMap m) ks) <> None -> length ks = length m).
  { intros ks -> A. cbn [astep on_map] in A. destruct (same_keys m ks) eqn:SK; [|now elim A]. apply same_keys_spec in SK.
    apply (f_equal (@length _)) in SK. rewrite !map_length in SK. lia. }
  destruct (negb sp && negb (Z.of_nat (length l) =? len)) eqn:CK.
  { intros X. unfold fail in X. pe X. right. split; [|split; eauto]. intros (_ & _ & ks & ts & A & B & C).
    apply andb_true_iff in CK as [C1 C2]. apply negb_true_iff in C1. apply negb_true_iff, Z.eqb_neq in C2.
    assert (L := SAME ks C1 ltac:(congruence)). lia. }
  destruct (scan_slices (g_mem g) keys 0 (Z.to_nat len)) as [ks|e] eqn:SC; cbn [rbind].
  2:{ intros X. unfold fail in X. pe X. right. split; [|split; eauto]. intros (_ & _ & ks & ts & A & B & _).
      assert (C : scan_slices (g_mem g) keys 0 (Z.to_nat len) = Ok ks) by (apply scan_iff; auto). congruence. }
  assert (KU : forall ks', Z.of_nat (length ks') = len -> holds_slices (g_mem g) keys ks' -> ks' = ks).
  { intros ks' A B. assert (C : scan_slices (g_mem g) keys 0 (Z.to_nat len) = Ok ks') by (apply scan_iff; auto). congruence. }
  apply scan_iff in SC; auto. destruct SC as [LK HK].
  pose proof (unpack_den (g_heap g) sp l m ks DP MS) as U.
  destruct (map_unpack (g_heap g) sp l ks) as [vs|e].
  2:{ intros X. unfold fail in X. pe X. right. split; [|split; eauto]. intros (_ & _ & ks' & ts & A & B & C).
      rewrite (KU _ A B) in C. congruence. }
  destruct U as (ts & AS & DL). assert (LT : Z.of_nat (length ts) = len).
  { assert (LL : length ts = length ks); [|lia]. destruct sp; cbn [astep on_map] in AS.
    - destruct (ascending ks && _); [|discriminate]. cbn in AS. apply some_inj in AS. rewrite <- AS. apply map_length.
    - pose proof (SAME ks eq_refl ltac:(cbn [astep on_map]; congruence)) as SL.
      destruct (same_keys m ks); [|discriminate]. cbn in AS. apply some_inj in AS. rewrite <- AS, map_length. lia. }
  destruct (write_vals g1 vals vs) as [g2 rw] eqn:W.
  assert (DL1 : denotes_list (g_heap g1) vs ts) by now rewrite S1.
  destruct (write_vals_means g1 vals vs ts g2 rw DL1 P ltac:(rewrite S2; lia) W) as [(-> & Q)|(Q & (e & ->) & ->)]; intros X; pe X.
  - left. exists ks, ts. split; auto. split; auto. split; auto. split; auto. split; auto. unfold wrote in *. now rewrite S1, S3 in Q.
  - right. rewrite S3, LT in Q. split; [|split; [cbn; eauto|auto]]. tauto.
Qed.
