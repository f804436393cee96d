(* The sequence operations, characterised position by position. *)
From Coq Require Import ZArith Lia List Bool Sorted.
From Verif Require Import Prelude ValModel ValSpec SymbolProofs ContainerModel ContainerSpec ContainerProofs HeapModel HeapSpec TreeProofs
  HeapProofs HostFnModel HostFnSpec SeqProofs MapFnProofs HostFnProofs HostFnProofs2.
Import ListNotations.
Open Scope Z_scope.

Lemma nth_firstn_lt {A} (l : list A) i j : (j < i)%nat -> nth_error (firstn i l) j = nth_error l j.
Proof.
  intros L. destruct (Nat.lt_ge_cases j (length l)) as [B|B].
  - rewrite <- (firstn_skipn i l) at 2. rewrite nth_error_app1; auto. rewrite firstn_length. lia.
  - rewrite (proj2 (nth_error_None l j) B). apply nth_error_None. rewrite firstn_length. lia.
Qed.
Lemma nth_skipn {A} (l : list A) i j : nth_error (skipn i l) j = nth_error l (i + j).
Proof.
  destruct (Nat.le_gt_cases i (length l)) as [B|B].
  - rewrite <- (firstn_skipn i l) at 2. rewrite nth_error_app2; rewrite firstn_length; [|lia]. f_equal. lia.
  - rewrite skipn_all2 by lia. symmetry. destruct j; cbn; apply nth_error_None; lia.
Qed.

Section S.
  Context {A : Type}.
  Implicit Types l m : list A.

  Lemma seq_put_spec l i x :
    match seq_put l i x with
    | Some l' => (i < length l)%nat /\ length l' = length l /\ nth_error l' i = Some x
                 /\ (forall j, j <> i -> nth_error l' j = nth_error l j)
    | None => (length l <= i)%nat
    end.
  Proof.
    unfold seq_put, some_if. destruct (Nat.ltb_spec i (length l)) as [L|L]; auto.
    split; auto. split; [rewrite app_length; cbn [length]; rewrite firstn_length, skipn_length; lia|]. split.
    - rewrite nth_error_app2; rewrite firstn_length; [|lia]. replace (i - Nat.min i (length l))%nat with O by lia. reflexivity.
    - intros j N. destruct (Nat.lt_ge_cases j i) as [J|J].
      + rewrite nth_error_app1 by (rewrite firstn_length; lia). now apply nth_firstn_lt.
      + rewrite nth_error_app2; rewrite firstn_length; [|lia].
        replace (j - Nat.min i (length l))%nat with (S (j - i - 1)) by lia. cbn [nth_error]. rewrite nth_skipn. f_equal. lia.
  Qed.

  Lemma seq_del_spec l i :
    match seq_del l i with
    | Some l' => (i < length l)%nat /\ length l = S (length l')
                 /\ (forall j, (j < i)%nat -> nth_error l' j = nth_error l j)
                 /\ (forall j, (i <= j)%nat -> nth_error l' j = nth_error l (S j))
    | None => (length l <= i)%nat
    end.
  Proof.
    unfold seq_del, some_if. destruct (Nat.ltb_spec i (length l)) as [L|L]; auto.
    split; auto. split; [rewrite app_length, firstn_length, skipn_length; lia|]. split; intros j J.
    - rewrite nth_error_app1 by (rewrite firstn_length; lia). now apply nth_firstn_lt.
    - rewrite nth_error_app2; rewrite firstn_length; [|lia]. rewrite nth_skipn. f_equal. lia.
  Qed.

  Lemma seq_insert_spec l i x :
    match seq_insert l i x with
    | Some l' => (i <= length l)%nat /\ length l' = S (length l) /\ nth_error l' i = Some x
                 /\ (forall j, (j < i)%nat -> nth_error l' j = nth_error l j)
                 /\ (forall j, (i <= j)%nat -> nth_error l' (S j) = nth_error l j)
    | None => (length l < i)%nat \/ u32_max <= Z.of_nat (length l)
    end.
  Proof.
    unfold seq_insert, some_if, len_ok. rewrite app_length. cbn [length]. rewrite firstn_length, skipn_length.
    match goal with |- context [if ?b then _ else _] => destruct b eqn:E end.
    - apply andb_true_iff in E as [L S']. apply Nat.leb_le in L.
      split; auto. split; [rewrite app_length; cbn [length]; rewrite firstn_length, skipn_length; lia|]. split; [|split].
      + rewrite nth_error_app2; rewrite firstn_length; [|lia]. replace (i - Nat.min i (length l))%nat with O by lia. reflexivity.
      + intros j J. rewrite nth_error_app1 by (rewrite firstn_length; lia). now apply nth_firstn_lt.
      + intros j J. rewrite nth_error_app2; rewrite firstn_length; [|lia].
        replace (S j - Nat.min i (length l))%nat with (S (j - i)) by lia. cbn [nth_error]. rewrite nth_skipn. f_equal. lia.
    - apply andb_false_iff in E as [L|S']; [apply Nat.leb_gt in L; auto|]. apply Z.leb_gt in S'. lia.
  Qed.

  Lemma seq_append_spec l m :
    match seq_append l m with
    | Some l' => Z.of_nat (length l + length m) <= u32_max
                 /\ length l' = (length l + length m)%nat
                 /\ (forall j, (j < length l)%nat -> nth_error l' j = nth_error l j)
                 /\ (forall j, nth_error l' (length l + j) = nth_error m j)
    | None => u32_max < Z.of_nat (length l + length m)
    end.
  Proof.
    unfold seq_append, some_if, len_ok. rewrite app_length. destruct (Z.leb_spec (Z.of_nat (length l + length m)) u32_max) as [L|L]; auto.
    split; auto. split; [apply app_length|]. split; intros j.
    - intros J. now rewrite nth_error_app1.
    - rewrite nth_error_app2 by lia. f_equal. lia.
  Qed.

  Lemma seq_slice_spec l s e :
    match seq_slice l s e with
    | Some l' => (s <= e <= length l)%nat /\ length l' = (e - s)%nat
                 /\ (forall j, (j < e - s)%nat -> nth_error l' j = nth_error l (s + j))
    | None => (e < s)%nat \/ (length l < e)%nat
    end.
  Proof.
    unfold seq_slice, some_if. destruct (Nat.leb_spec s e) as [L|L]; cbn [andb]; auto.
    destruct (Nat.leb_spec e (length l)) as [L2|L2]; auto.
    split; [lia|]. split; [rewrite firstn_length, skipn_length; lia|]. intros j J.
    rewrite nth_firstn_lt by lia. apply nth_skipn.
  Qed.

  Lemma seq_tail_spec l :
    match seq_tail l with
    | Some l' => length l = S (length l') /\ (forall j, nth_error l' j = nth_error l (S j))
    | None => l = []
    end.
  Proof. destruct l; cbn; auto. Qed.
  Lemma seq_init_spec l :
    match seq_init l with
    | Some l' => length l = S (length l') /\ (forall j, (j < length l')%nat -> nth_error l' j = nth_error l j)
    | None => l = []
    end.
  Proof.
    unfold seq_init. destruct l as [|x l]; auto. rewrite removelast_firstn. split.
    - rewrite firstn_length. cbn. lia.
    - intros j. rewrite firstn_length. intros J. apply nth_firstn_lt. lia.
  Qed.
  Lemma seq_head_spec l : seq_head l = nth_error l 0.
  Proof. destruct l; reflexivity. Qed.
  Lemma seq_last_spec l : seq_last l = nth_error l (length l - 1).
  Proof. unfold seq_last. symmetry. apply nth_last_rev. Qed.
End S.

Lemma first_pos_gen x l : forall b,
  match first_pos x l b with
  | Some i => (b <= i)%nat /\ nth_error l (i - b) = Some x /\ (forall j, (j < i - b)%nat -> nth_error l j <> Some x)
  | None => forall j, nth_error l j <> Some x
  end.
Proof.
  induction l as [|y l IH]; intros b; cbn [first_pos].
  - intros [|j]; discriminate.
  - destruct (tcmp x y) eqn:E.
    + apply tcmp_eq in E. subst y. split; auto. rewrite Nat.sub_diag. split; auto. intros j J. lia.
    + specialize (IH (S b)). destruct (first_pos x l (S b)) as [i|].
      * destruct IH as (A & B & C). split; [lia|]. replace (i - b)%nat with (S (i - S b)) by lia. split; auto.
        intros [|j] J; cbn; [intros X; injection X as ->; rewrite tcmp_refl in E; discriminate|]. apply C. lia.
      * intros [|j]; cbn; auto. intros X; injection X as ->; rewrite tcmp_refl in E; discriminate.
    + specialize (IH (S b)). destruct (first_pos x l (S b)) as [i|].
      * destruct IH as (A & B & C). split; [lia|]. replace (i - b)%nat with (S (i - S b)) by lia. split; auto.
        intros [|j] J; cbn; [intros X; injection X as ->; rewrite tcmp_refl in E; discriminate|]. apply C. lia.
      * intros [|j]; cbn; auto. intros X; injection X as ->; rewrite tcmp_refl in E; discriminate.
Qed.
Lemma first_pos_spec x l :
  match first_pos x l 0 with
  | Some i => nth_error l i = Some x /\ (forall j, (j < i)%nat -> nth_error l j <> Some x)
  | None => forall j, nth_error l j <> Some x
  end.
Proof. pose proof (first_pos_gen x l 0) as G. destruct (first_pos x l 0) as [i|]; auto. rewrite Nat.sub_0_r in G. tauto. Qed.

Lemma last_pos_gen x l : forall b,
  match last_pos x l b with
  | Some i => (b <= i)%nat /\ nth_error l (i - b) = Some x /\ (forall j, (i - b < j)%nat -> nth_error l j <> Some x)
  | None => forall j, nth_error l j <> Some x
  end.
Proof.
  induction l as [|y l IH]; intros b; cbn [last_pos].
  - intros [|j]; discriminate.
  - specialize (IH (S b)). destruct (last_pos x l (S b)) as [i|].
    + destruct IH as (A & B & C). split; [lia|]. replace (i - b)%nat with (S (i - S b)) by lia. split; auto.
      intros [|j] J; [lia|]. apply C. lia.
    + destruct (tcmp x y) eqn:E.
      * apply tcmp_eq in E. subst y. split; auto. rewrite Nat.sub_diag. split; auto. intros [|j] J; [lia|]. apply IH.
      * intros [|j]; cbn; auto. intros X; injection X as ->; rewrite tcmp_refl in E; discriminate.
      * intros [|j]; cbn; auto. intros X; injection X as ->; rewrite tcmp_refl in E; discriminate.
Qed.
Lemma last_pos_spec x l :
  match last_pos x l 0 with
  | Some i => nth_error l i = Some x /\ (forall j, (i < j)%nat -> nth_error l j <> Some x)
  | None => forall j, nth_error l j <> Some x
  end.
Proof. pose proof (last_pos_gen x l 0) as G. destruct (last_pos x l 0) as [i|]; auto. rewrite Nat.sub_0_r in G. tauto. Qed.

Lemma same_keys_spec m keys : same_keys m keys = true <-> map fst m = map TSymbol keys.
Proof.
  revert keys. induction m as [|[k v] m IH]; intros [|key keys]; cbn [same_keys map fst]; split; try congruence; auto.
  - destruct k; discriminate.
  - destruct k; try discriminate. destruct (lex b key) eqn:E; try discriminate. intros H. apply IH in H.
    apply lex_eq in E. congruence.
  - intros H. injection H as -> H. destruct (lex key key) eqn:E; [now apply IH| |];
      rewrite (proj2 (lex_eq key key) eq_refl) in E; discriminate.
Qed.

(* ------------------------------------------------- slices, unpacking as iff *)

Lemma step_iff d h c h' r : args_denote h c -> hstep d h (on_words c) = (h', r) -> fits h' ->
  Forall (fun p => (tdepth (snd p) <= d)%nat) (hop_args c) ->
  match astep (on_trees c) with
  | Some ts => exists ws, r = Ok ws /\ denotes_list h' ws ts
  | None => exists e, r = Err e
  end.
Proof.
  intros A E F Dp. destruct (hstep_ok d h c h' r A E) as [_ Y]. destruct (Y F) as [_ P].
  destruct r as [ws|e]; cbn [spost] in P.
  - destruct P as (ts & -> & P). eauto.
  - destruct P as [->|[-> P]]; eauto. unfold too_deep in P. apply Exists_exists in P as (p & I & L).
    rewrite Forall_forall in Dp. specialize (Dp p I). lia.
Qed.

Definition entries (sparse : bool) (keys : list (list Z)) (ts : list tval) : tmap :=
  filter (fun p => negb (sparse && is_void (snd p))) (combine (map TSymbol keys) ts).

Lemma slices_iff d h sparse keys vals ts h' r : denotes_list h vals ts -> Forall (fun t => (tdepth t <= d)%nat) ts ->
  hstep d h (OMapFromSlices sparse keys vals) = (h', r) -> fits h' -> short keys ->
  (length keys = length vals /\ Forall valid_symbol keys /\ StronglySorted (fun a b => lex a b = Lt) keys
     /\ exists w, r = Ok [w] /\ denotes h' w (TMap (entries sparse keys ts)))
  \/ (~ (length keys = length vals /\ Forall valid_symbol keys /\ StronglySorted (fun a b => lex a b = Lt) keys)
     /\ exists e, r = Err e).
Proof.
  intros D Dp E F Sk. pose proof (denotes_list_length _ _ _ D) as LD.
  set (c := OMapFromSlices sparse keys (combine vals ts) : call).
  assert (C1 : map fst (combine vals ts) = vals).
  { clear -LD. revert ts LD. induction vals as [|v vals IH]; intros [|t ts] L; try discriminate; cbn; auto. f_equal. auto. }
  assert (C2 : map snd (combine vals ts) = ts).
  { clear -LD. revert ts LD. induction vals as [|v vals IH]; intros [|t ts] L; try discriminate; cbn; auto. f_equal. auto. }
  assert (W : OMapFromSlices sparse keys vals = on_words c) by (unfold on_words, c; cbn [hop_map]; now rewrite C1).
  assert (T : on_trees c = OMapFromSlices sparse keys ts) by (unfold on_trees, c; cbn [hop_map]; now rewrite C2).
  assert (AD : args_denote h c).
  { unfold args_denote, c. cbn [hop_args]. clear -D. induction D; cbn; constructor; auto. }
  assert (DP : Forall (fun p : Z * tval => (tdepth (snd p) <= d)%nat) (hop_args c)).
  { unfold c. cbn [hop_args]. rewrite <- Forall_map with (f := snd) (P := fun t => (tdepth t <= d)%nat). now rewrite C2. }
  rewrite W in E. pose proof (step_iff d h c h' r AD E F DP) as S. rewrite T in S. cbn [astep] in S.
  change (filter _ (combine (map TSymbol keys) ts)) with (entries sparse keys ts) in S.
  assert (LK : len_ok (entries sparse keys ts) = true).
  { unfold len_ok, short in *. apply Z.leb_le.
    assert (length (entries sparse keys ts) <= length keys)%nat; [|lia].
    unfold entries. assert (FL : forall (l : tmap) g, (length (filter g l) <= length l)%nat).
    { intros l g. induction l as [|q l IH]; cbn; auto. destruct (g q); cbn; lia. }
    eapply Nat.le_trans; [apply FL|]. rewrite combine_length, map_length. lia. }
  rewrite LK, andb_true_r in S. rewrite <- LD in S.
  assert (VS : forallb symbolb keys = true <-> Forall valid_symbol keys).
  { rewrite forallb_forall, Forall_forall. split; intros H x I; apply symbolb_spec, H, I. }
  destruct (Nat.eqb_spec (length keys) (length vals)) as [L|L]; cbn [andb] in S.
  2:{ right. split; [tauto|]. exact S. }
  destruct (forallb symbolb keys) eqn:V; cbn [andb] in S.
  2:{ right. split; [|exact S]. rewrite <- VS. intuition discriminate. }
  destruct (ascending keys) eqn:As; cbn [some_if] in S.
  - left. split; auto. split; [now apply VS|]. split; [now apply ascending_SS|].
    destruct S as (ws & -> & DL). inversion DL as [|w t ws' ts' Dw Dn]; subst. inversion Dn; subst. eauto.
  - right. split; [|exact S]. rewrite <- ascending_SS. intuition congruence.
Qed.

Lemma unpack_iff d h sparse m keys entries h' r : denotes h m (TMap entries) ->
  hstep d h (OMapUnpack sparse m keys) = (h', r) ->
  h' = h /\
  if sparse then
    (StronglySorted (fun a b => lex a b = Lt) keys /\ Forall (fun p => exists b, fst p = TSymbol b) entries
       /\ exists ws, r = Ok ws /\ length ws = length keys
          /\ forall i k, nth_error keys i = Some k -> exists w, nth_error ws i = Some w
               /\ (forall v, In (TSymbol k, v) entries -> denotes h w v)
               /\ ((forall v, ~ In (TSymbol k, v) entries) -> denotes h w TVoid))
    \/ (~ (StronglySorted (fun a b => lex a b = Lt) keys /\ Forall (fun p => exists b, fst p = TSymbol b) entries)
       /\ exists e, r = Err e)
  else
    (map fst entries = map TSymbol keys /\ exists ws, r = Ok ws /\ denotes_list h ws (map snd entries))
    \/ (map fst entries <> map TSymbol keys /\ exists e, r = Err e).
Proof.
  intros D E. pose proof (arg_map_den h m _ D) as A. cbn [hstep hpure] in E.
  destruct (arg_map h m) as [l|e]; cbn [rbind] in E; [|specialize (A (fun _ => Some [])); discriminate].
  destruct A as (ts & Et & DP & Sh & So). injection Et as <-.
  pose proof (unpack_den h sparse l entries keys DP So) as U.
  assert (H : h' = h /\ (r = map_unpack h sparse l keys)).
  { destruct (map_unpack h sparse l keys); cbn [rmap] in E; injection E as <- <-; auto. }
  destruct H as [-> ->]. split; auto. clear E. cbn [astep on_map] in U. destruct sparse.
  - rewrite <- ascending_SS.
    assert (FS : forallb (fun p => is_sym (fst p)) entries = true <-> Forall (fun p => exists b, fst p = TSymbol b) entries).
    { rewrite forallb_forall, Forall_forall. split; intros H x I; specialize (H x I).
      - destruct (fst x); try discriminate. eauto.
      - destruct H as (b & ->). reflexivity. }
    rewrite <- FS. destruct (map_unpack h true l keys) as [ws|e].
    + left. destruct U as (us & U & DL). unfold some_if in U.
      destruct (ascending keys && forallb (fun p => is_sym (fst p)) entries) eqn:C; [|discriminate].
      apply andb_true_iff in C as [C1 C2]. apply some_inj in U. subst us. split; auto. split; auto.
      exists ws. split; auto. pose proof (denotes_list_length _ _ _ DL) as LL. rewrite map_length in LL. split; auto.
      intros i k Hk. apply denotes_list_Forall2 in DL. pose proof (F2_nth _ _ _ i DL) as O.
      rewrite nth_error_map, Hk in O. cbn in O. destruct (nth_error ws i) as [w|]; [|contradiction].
      exists w. split; auto. split.
      * intros v I. apply (map_get_In entries (TSymbol k) v So) in I. now rewrite I in O.
      * intros NI. destruct (map_get entries (TSymbol k)) as [v|] eqn:G; auto.
        apply (map_get_In _ _ _ So) in G. destruct (NI v G).
    + right. split; [|eauto]. intros [F1 F]. rewrite F1, F in U. discriminate.
  - rewrite <- same_keys_spec. destruct (map_unpack h false l keys) as [ws|e].
    + left. destruct U as (us & U & DL). unfold some_if in U. destruct (same_keys entries keys); [|discriminate].
      apply some_inj in U. subst us. eauto.
    + right. split; [|eauto]. destruct (same_keys entries keys); discriminate.
Qed.
