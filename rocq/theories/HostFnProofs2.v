(* Every container call, and every history of calls, agrees with its meaning on
   trees. *)
From Coq Require Import ZArith Lia List Bool Sorted.
From Verif Require Import Prelude ValModel ValSpec ValProofs SymbolProofs ContainerModel ContainerSpec ContainerProofs HeapModel
  HeapSpec TreeProofs HeapProofs ConvProofs HeapProofs2 HostFnModel HostFnSpec SeqProofs MapFnProofs HostFnProofs.
Import ListNotations.
Open Scope Z_scope.

Section Index.
  Variables (h : heap) (d : nat) (x : Z) (tx : tval).
  Hypothesis Hx : denotes h x tx.
  Notation f := (fun y => cmp_val d h x y).

  Lemma first_den l ts b : denotes_list h l ts ->
    match first_index_from f l b with
    | Ok o => o = first_pos tx ts b
    | Err e => e = e_depth /\ (d < tdepth tx)%nat
    end.
  Proof.
    intros D. revert b. induction D as [|w t ws ts D DL IH]; intros b; cbn [first_index_from first_pos]; auto.
    pose proof (cmp_val_ok h d x w tx t Hx D) as C. destruct (cmp_val d h x w) as [c|e]; cbn [cmp_res] in C; cbn [rbind].
    - subst c. destruct (tcmp tx t); auto; apply IH.
    - tauto.
  Qed.

  Lemma last_pos_snoc ts t b : last_pos tx (ts ++ [t]) b
    = match tcmp tx t with Eq => Some (b + length ts)%nat | _ => last_pos tx ts b end.
  Proof.
    revert b. induction ts as [|u ts IH]; intros b; cbn.
    - rewrite Nat.add_0_r. destruct (tcmp tx t); reflexivity.
    - rewrite IH. destruct (tcmp tx t); auto. f_equal. lia.
  Qed.

  Lemma last_den l ts : denotes_list h l ts ->
    match mvec_last_index_of f l with
    | Ok o => o = last_pos tx ts 0
    | Err e => e = e_depth /\ (d < tdepth tx)%nat
    end.
  Proof.
    unfold mvec_last_index_of. intros D. apply denotes_list_Forall2 in D. revert ts D.
    induction l as [|w l IH] using rev_ind; intros ts D.
    - inversion D; subst. reflexivity.
    - apply Forall2_app_inv_l in D as (ts1 & ts2 & D1 & D2 & ->). inversion D2 as [|? t ? ? Dw D3]; subst.
      inversion D3; subst. rewrite rev_app_distr, app_length. cbn [rev app length last_index_from].
      rewrite last_pos_snoc. pose proof (cmp_val_ok h d x w tx t Hx Dw) as C.
      replace (length l + 1 - 1)%nat with (length l) by lia.
      destruct (cmp_val d h x w) as [c|e]; cbn [cmp_res] in C; cbn [rbind].
      + subst c. destruct (tcmp tx t); try (apply IH; exact D1). cbn. f_equal. exact (Forall2_length _ _ _ D1).
      + tauto.
  Qed.
End Index.

Lemma first_pos_bound x ts b i : first_pos x ts b = Some i -> (b <= i < b + length ts)%nat.
Proof.
  revert b. induction ts as [|t ts IH]; intros b; cbn [first_pos length]; [discriminate|].
  destruct (tcmp x t); [intros E; apply some_inj in E; lia| |]; intros E; apply IH in E; lia.
Qed.
Lemma last_pos_bound x ts b i : last_pos x ts b = Some i -> (b <= i < b + length ts)%nat.
Proof.
  revert b. induction ts as [|t ts IH]; intros b; cbn [last_pos length]; [discriminate|].
  destruct (last_pos x ts (S b)) eqn:L.
  - intros E. apply some_inj in E. subst n. apply IH in L. lia.
  - destruct (tcmp x t); [intros E; apply some_inj in E; lia| |]; discriminate.
Qed.

(* What a call promises. *)
Definition hpost (d : nat) (h : heap) (c : call) (r : res hres) : Prop :=
  match r with
  | Ok (RObj o) => exists t, astep (on_trees c) = Some [t] /\ obj_denotes h o t
  | Ok (RVals ws) => exists ts, astep (on_trees c) = Some ts /\ denotes_list h ws ts
  | Err e => astep (on_trees c) = None \/ (e = e_depth /\ too_deep d c)
  end.

Section Post.
  Variables (d : nat) (h : heap) (c : call).

  Lemma post_none e : astep (on_trees c) = None -> hpost d h c (Err e).
  Proof. cbn. auto. Qed.
  Lemma post_vec r so st : opt_of r = so -> orel (Forall2 (denotes h)) so st ->
    (forall l, so = Some l -> short l) -> astep (on_trees c) = one (option_map TVec st) ->
    hpost d h c (robj HOVec r).
  Proof.
    intros <- O S A. destruct r as [l|e]; cbn in *; rewrite A; destruct st as [ts|]; try contradiction; cbn; auto.
    eexists. split; [reflexivity|]. constructor; auto. now apply denotes_list_Forall2.
  Qed.
  Lemma post_val r so st : opt_of r = so -> orel (denotes h) so st ->
    astep (on_trees c) = one st -> hpost d h c (rval r).
  Proof.
    intros <- O A. destruct r as [w|e]; cbn in *; rewrite A; destruct st as [t|]; try contradiction; cbn; auto.
    eexists. split; [reflexivity|]. constructor; auto. constructor.
  Qed.
  Lemma post_one w t : denotes h w t -> astep (on_trees c) = Some [t] -> hpost d h c (rval (Ok w)).
  Proof. intros D A. cbn. exists [t]. split; auto. constructor; auto. constructor. Qed.
  Lemma post_bytes r so : opt_of r = so -> (forall l, so = Some l -> bytes_ok l) ->
    astep (on_trees c) = one (option_map TBytes so) -> hpost d h c (robj HOBytes r).
  Proof.
    intros <- S A. destruct r as [l|e]; cbn in *; rewrite A; cbn; auto.
    eexists. split; [reflexivity|]. constructor; auto.
  Qed.
  Lemma post_byte r so : opt_of r = so -> (forall x, so = Some x -> 0 <= x < 256) ->
    astep (on_trees c) = one (option_map TU32 so) -> hpost d h c (rval (rmap val_of_u32 r)).
  Proof.
    intros <- S A. destruct r as [x|e]; cbn [rmap]; cbn [opt_of] in *.
    - apply post_one with (TU32 x); auto. apply u32_den. specialize (S x eq_refl). unfold_widths. lia.
    - cbn. left. exact A.
  Qed.
End Post.

Definition byte (x : Z) : Prop := 0 <= x < 256.
Lemma bytes_put l i x l' : bytes_ok l -> byte x -> seq_put l i x = Some l' -> bytes_ok l'.
Proof.
  intros [S F] B E. split; [eapply put_short; eauto|]. unfold seq_put, some_if in E. destruct (Nat.ltb _ _); [|discriminate].
  apply some_inj in E. subst l'. apply Forall_app. split; [now apply Forall_firstn'|]. constructor; auto. now apply Forall_skipn'.
Qed.
Lemma bytes_del l i l' : bytes_ok l -> seq_del l i = Some l' -> bytes_ok l'.
Proof.
  intros [S F] E. split; [eapply del_short; eauto|]. unfold seq_del, some_if in E. destruct (Nat.ltb _ _); [|discriminate].
  apply some_inj in E. subst l'. apply Forall_app. split; [now apply Forall_firstn'|]. now apply Forall_skipn'.
Qed.
Lemma bytes_insert l i x l' : bytes_ok l -> byte x -> seq_insert l i x = Some l' -> bytes_ok l'.
Proof.
  intros [S F] B E. split; [eapply insert_short; eauto|]. unfold seq_insert, some_if in E. destruct (_ && _); [|discriminate].
  apply some_inj in E. subst l'. apply Forall_app. split; [now apply Forall_firstn'|]. constructor; auto. now apply Forall_skipn'.
Qed.
Lemma bytes_append l m l' : bytes_ok l -> Forall byte m -> seq_append l m = Some l' -> bytes_ok l'.
Proof.
  intros [S F] B E. split; [eapply append_short; eauto|]. unfold seq_append, some_if in E. destruct (len_ok _); [|discriminate].
  apply some_inj in E. subst l'. apply Forall_app. auto.
Qed.
Lemma bytes_slice l s e l' : bytes_ok l -> seq_slice l s e = Some l' -> bytes_ok l'.
Proof.
  intros [S F] E. split; [eapply slice_short; eauto|]. unfold seq_slice, some_if in E. destruct (_ && _); [|discriminate].
  apply some_inj in E. subst l'. now apply Forall_firstn', Forall_skipn'.
Qed.
Lemma bytes_init l l' : bytes_ok l -> seq_init l = Some l' -> bytes_ok l'.
Proof.
  intros [S F] E. split; [eapply init_short; eauto|]. unfold seq_init in E. destruct l; [discriminate|].
  apply some_inj in E. subst l'. rewrite removelast_firstn. now apply Forall_firstn'.
Qed.
Lemma bytes_get l i x : bytes_ok l -> seq_get l i = Some x -> byte x.
Proof. intros [_ F] E. apply nth_error_In in E. rewrite Forall_forall in F. exact (F _ E). Qed.
Lemma bytes_head l x : bytes_ok l -> seq_head l = Some x -> byte x.
Proof. intros [_ F] E. destruct l; [discriminate|]. apply some_inj in E. subst. exact (Forall_inv F). Qed.
Lemma bytes_last l x : bytes_ok l -> seq_last l = Some x -> byte x.
Proof.
  intros [_ F] E. unfold seq_last in E. destruct (rev l) as [|y r] eqn:R; [discriminate|]. apply some_inj in E. subst y.
  rewrite Forall_forall in F. apply F, in_rev. rewrite R. now left.
Qed.
Lemma u8_arg_eq u : u8_arg u = if byteb u then Ok (Z.of_nat u) else Err e_arith.
Proof. reflexivity. Qed.
Lemma byteb_ok u : byteb u = true -> byte (Z.of_nat u).
Proof. unfold byteb, byte. lia. Qed.

Lemma Forall_map_words h (l : list (Z * tval)) : Forall (fun p => denotes h (fst p) (snd p)) l ->
  denotes_list h (map fst l) (map snd l).
Proof. induction 1; cbn; constructor; auto. Qed.
Lemma deep_hd d (p : Z * tval) l : (d < tdepth (snd p))%nat -> Exists (fun p => (d < tdepth (snd p))%nat) (p :: l).
Proof. intros. now apply Exists_cons_hd. Qed.
Lemma deep_2 d (p q : Z * tval) l : (d < tdepth (snd q))%nat -> Exists (fun p => (d < tdepth (snd p))%nat) (p :: q :: l).
Proof. intros. now apply Exists_cons_tl, Exists_cons_hd. Qed.

Ltac split_args A :=
  unfold args_denote in A; cbn [hop_args] in A;
  repeat match type of A with
  | Forall _ (_ :: _) => let D := fresh "D" in pose proof (Forall_inv A) as D; apply Forall_inv_tail in A; cbn [fst snd] in D
  end.
Ltac the_map D := let m := fresh "m" in let E := fresh in let ts := fresh "ts" in
  match type of D with denotes ?h ?w ?t =>
    pose proof (arg_map_den h w t D) as E; destruct (arg_map h w) as [m|]; cbn [rbind];
    [destruct E as (ts & E & DM & Sh & So)|apply post_none; apply E] end.
Ltac the_vec D := let m := fresh "l" in let E := fresh in let ts := fresh "ts" in
  match type of D with denotes ?h ?w ?t =>
    pose proof (arg_vec_den h w t D) as E; destruct (arg_vec h w) as [m|]; cbn [rbind];
    [destruct E as (ts & E & DM & Sh)|apply post_none; apply E] end.
Ltac the_bytes D := let m := fresh "l" in let E := fresh in
  match type of D with denotes ?h ?w ?t =>
    pose proof (arg_bytes_den h w t D) as E; destruct (arg_bytes h w) as [m|]; cbn [rbind];
    [destruct E as (E & Bo)|apply post_none; apply E] end.

Theorem hpure_ok d h c : args_denote h c ->
  match c with OMapFromSlices _ _ _ => True | _ => hpost d h c (hpure d h (on_words c)) end.
Proof.
  intros A. destruct c; try exact I; split_args A; unfold on_words; cbn [hop_map hpure].
  - (* map_new *) cbn. eexists. split; [reflexivity|]. constructor; try constructor. unfold short. cbn. unfold_widths. lia.
  - the_map D. destruct m as [wm tm]; cbn [fst snd] in *; subst tm.
    pose proof (insert_den h d m0 ts (fst k) (fst v) (snd k) (snd v) DM So Sh D0 D1) as X.
    destruct (omap_insert _ m0 (fst k) (fst v)) as [m'|e]; cbn.
    + destruct X as [X1 X2]. exists (TMap (map_put ts (snd k) (snd v))). split.
      * replace (len_ok _) with true; auto. symmetry. apply len_ok_short. unfold short in *.
        now rewrite <- (denotes_pairs_length _ _ _ X1).
      * constructor; auto. now apply put_sorted.
    + destruct X as [->|[-> [X|X]]]; auto; right; split; auto; unfold too_deep; cbn [hop_args].
      * now apply deep_2. 
      * now apply deep_hd.
  - the_map D. destruct m as [wm tm]; cbn [fst snd] in *; subst tm.
    pose proof (get_den h d m0 ts (fst k) (snd k) DM So D0) as X.
    destruct (omap_get _ m0 (fst k)) as [[w|]|e]; cbn.
    + destruct X as (tv & X & Y). rewrite X. exists [tv]. split; auto. constructor; auto. constructor.
    + rewrite X. auto.
    + destruct X as [-> X]. right. split; auto. now apply deep_2.
  - the_map D. destruct m as [wm tm]; cbn [fst snd] in *; subst tm.
    pose proof (remove_den h d m0 ts (fst k) (snd k) DM So Sh D0) as X.
    destruct (omap_remove _ m0 (fst k)) as [[[m' w]|]|e]; cbn.
    + destruct X as ((v & X) & Y & Z). rewrite X. eexists. split; [reflexivity|]. constructor; auto. now apply del_sorted.
    + rewrite X. auto.
    + destruct X as [-> [X|X]]; right; split; auto; [now apply deep_2|now apply deep_hd].
  - the_map D. destruct m as [wm tm]; cbn [fst snd] in *; subst tm.
    destruct (len_den h m0 ts Sh (denotes_pairs_length _ _ _ DM)) as (w & -> & Dw). now apply (post_one d h _ w _ Dw).
  - the_map D. destruct m as [wm tm]; cbn [fst snd] in *; subst tm.
    pose proof (contains_den h d m0 ts (fst k) (snd k) DM So D0) as X.
    destruct (omap_contains _ m0 (fst k)) as [b|e]; cbn [rmap].
    + apply (post_one d h _ _ (TBool b)); [apply bool_den|]. cbn. now subst b.
    + destruct X as [-> X]. right. split; auto. now apply deep_2.
  - the_map D. destruct m as [wm tm]; cbn [fst snd] in *; subst tm.
    unfold omap_at. rewrite Nat2Z.id. pose proof (F2_nth _ _ _ i (proj1 (pairs_F2 _ _ _) DM)) as X.
    destruct (nth_error m0 i) as [p|] eqn:E1, (nth_error ts i) as [q|] eqn:E2; try contradiction; cbn.
    + rewrite E2. exists [fst q]. split; auto. constructor; [apply X|constructor].
    + rewrite E2. auto.
  - the_map D. destruct m as [wm tm]; cbn [fst snd] in *; subst tm.
    unfold omap_at. rewrite Nat2Z.id. pose proof (F2_nth _ _ _ i (proj1 (pairs_F2 _ _ _) DM)) as X.
    destruct (nth_error m0 i) as [p|] eqn:E1, (nth_error ts i) as [q|] eqn:E2; try contradiction; cbn.
    + rewrite E2. exists [snd q]. split; auto. constructor; [apply X|constructor].
    + rewrite E2. auto.
  - the_map D. destruct m as [wm tm]; cbn [fst snd] in *; subst tm.
    assert (Sk : short (map fst m0)) by (unfold short in *; now rewrite map_length).
    rewrite mvec_from_short by auto. cbn. eexists. split; [reflexivity|]. constructor; auto. now apply denotes_pairs_keys.
  - the_map D. destruct m as [wm tm]; cbn [fst snd] in *; subst tm.
    assert (Sk : short (map snd m0)) by (unfold short in *; now rewrite map_length).
    rewrite mvec_from_short by auto. cbn. eexists. split; [reflexivity|]. constructor; auto. now apply denotes_pairs_vals.
  - the_map D. destruct m as [wm tm]; cbn [fst snd] in *; subst tm.
    pose proof (unpack_den h sparse m0 ts keys DM So) as X. destruct (map_unpack h sparse m0 keys) as [ws|e]; cbn [rmap hpost]; auto.
  - cbn. eexists. split; [reflexivity|]. constructor; [|constructor]. unfold short. cbn. unfold_widths. lia.
  - pose proof (Forall_map_words h vals A) as X. unfold mvec_from, fits_u32.
    destruct (Z.leb_spec (Z.of_nat (length (map fst vals))) u32_max) as [L|L]; cbn [rbind].
    + rewrite (check_all_den _ _ _ X). cbn. exists (TVec (map snd vals)). split.
      * replace (len_ok _) with true; auto. symmetry. apply len_ok_short. unfold short. now rewrite map_length in *.
      * constructor; auto.
    + cbn. left. replace (len_ok _) with false; auto. unfold len_ok. rewrite map_length in *. lia.
  - the_vec D. destruct v as [wm tm]; cbn [fst snd] in *; subst tm.
    pose proof (denotes_list_length _ _ _ DM) as L. destruct (Nat.eqb_spec (length l) len) as [E|E]; cbn.
    + exists ts. split; auto. rewrite <- L, E, Nat.eqb_refl. reflexivity.
    + left. destruct (Nat.eqb_spec (length ts) len); auto. lia.
  - the_vec D. destruct v as [wm tm]; cbn [fst snd] in *; subst tm. apply denotes_list_Forall2 in DM.
    eapply post_vec; [apply put_seq; auto|now apply put_rel with (m := ts); eauto| |reflexivity]. intros l'; now apply put_short.
  - the_vec D. destruct v as [wm tm]; cbn [fst snd] in *; subst tm. apply denotes_list_Forall2 in DM.
    eapply post_val; [apply get_seq; auto|apply get_rel with (m := ts); eauto|reflexivity].
  - the_vec D. destruct v as [wm tm]; cbn [fst snd] in *; subst tm. apply denotes_list_Forall2 in DM.
    eapply post_vec; [apply del_seq; auto|apply del_rel with (m := ts); eauto| |reflexivity]. intros l'; now apply del_short.
  - the_vec D. destruct v as [wm tm]; cbn [fst snd] in *; subst tm.
    destruct (len_den h l ts Sh (denotes_list_length _ _ _ DM)) as (w & -> & Dw). now apply (post_one d h _ w _ Dw).
  - the_vec D. destruct v as [wm tm]; cbn [fst snd] in *; subst tm. apply denotes_list_Forall2 in DM.
    eapply post_vec; [apply push_front_seq; auto|apply insert_rel with (m := ts); eauto| |reflexivity]. intros l'; apply insert_short.
  - the_vec D. destruct v as [wm tm]; cbn [fst snd] in *; subst tm. apply denotes_list_Forall2 in DM.
    eapply post_vec; [apply pop_front_seq; auto|apply tail_rel with (m := ts); eauto| |reflexivity]. intros l'; now apply tail_short.
  - the_vec D. destruct v as [wm tm]; cbn [fst snd] in *; subst tm. apply denotes_list_Forall2 in DM.
    eapply post_vec; [apply push_back_seq; auto|apply append_rel with (m := ts) (m' := [snd x]); eauto| |reflexivity].
    intros l'; apply append_short.
  - the_vec D. destruct v as [wm tm]; cbn [fst snd] in *; subst tm. apply denotes_list_Forall2 in DM.
    eapply post_vec; [apply pop_back_seq; auto|apply init_rel with (m := ts); eauto| |reflexivity]. intros l'; now apply init_short.
  - the_vec D. destruct v as [wm tm]; cbn [fst snd] in *; subst tm. apply denotes_list_Forall2 in DM.
    eapply post_val; [apply front_seq; auto|apply head_rel with (m := ts); eauto|reflexivity].
  - the_vec D. destruct v as [wm tm]; cbn [fst snd] in *; subst tm. apply denotes_list_Forall2 in DM.
    eapply post_val; [apply back_seq; auto|apply last_rel with (m := ts); eauto|reflexivity].
  - the_vec D. destruct v as [wm tm]; cbn [fst snd] in *; subst tm. apply denotes_list_Forall2 in DM.
    eapply post_vec; [apply insert_seq; auto|apply insert_rel with (m := ts); eauto| |reflexivity]. intros l'; apply insert_short.
  - (* vec_append *)
    pose proof (arg_vec_den h (fst v) (snd v) D) as X. destruct (arg_vec h (fst v)) as [l|]; cbn [rbind].
    2:{ apply post_none. apply X. }
    destruct X as (ts & X & DM & Sh). destruct v as [wm tm]; cbn [fst snd] in *; subst tm.
    pose proof (arg_vec_den h (fst w) (snd w) D0) as X. destruct (arg_vec h (fst w)) as [l2|]; cbn [rbind].
    2:{ apply post_none. apply (X (fun m => _)). }
    destruct X as (ts2 & X & DM2 & Sh2). destruct w as [wm2 tm]; cbn [fst snd] in *; subst tm.
    apply denotes_list_Forall2 in DM, DM2.
    eapply post_vec; [apply append_seq; auto|apply append_rel with (m := ts) (m' := ts2); eauto| |reflexivity].
    intros l'; apply append_short.
  - the_vec D. destruct v as [wm tm]; cbn [fst snd] in *; subst tm. apply denotes_list_Forall2 in DM.
    eapply post_vec; [apply slice_seq; auto|apply slice_rel with (m := ts); eauto| |reflexivity]. intros l'; now apply slice_short.
  - the_vec D. destruct v as [wm tm]; cbn [fst snd] in *; subst tm.
    pose proof (first_den h d (fst x) (snd x) D0 l ts 0 DM) as X. unfold mvec_first_index_of.
    destruct (first_index_from _ l 0) as [o|e]; cbn [rbind].
    + subst o. destruct (pos_den h (first_pos (snd x) ts 0) (Z.of_nat (length l))) as (w & -> & Dw).
      * intros i E. apply first_pos_bound in E. rewrite (denotes_list_length _ _ _ DM). lia.
      * exact Sh.
      * now apply (post_one d h _ w _ Dw).
    + right. destruct X as [-> X]. split; auto. now apply deep_2.
  - the_vec D. destruct v as [wm tm]; cbn [fst snd] in *; subst tm.
    pose proof (last_den h d (fst x) (snd x) D0 l ts DM) as X.
    destruct (mvec_last_index_of _ l) as [o|e]; cbn [rbind].
    + subst o. destruct (pos_den h (last_pos (snd x) ts 0) (Z.of_nat (length l))) as (w & -> & Dw).
      * intros i E. apply last_pos_bound in E. rewrite (denotes_list_length _ _ _ DM). lia.
      * exact Sh.
      * now apply (post_one d h _ w _ Dw).
    + right. destruct X as [-> X]. split; auto. now apply deep_2.
  - cbn. eexists. split; [reflexivity|]. constructor. split; [|constructor]. unfold short. cbn. unfold_widths. lia.
  - rewrite u8_arg_eq. destruct (byteb u) eqn:Bu; cbn [rbind].
    2:{ apply post_none. cbn. unfold on_bytes. destruct (snd b); auto. now rewrite Bu. }
    the_bytes D. destruct b as [wm tm]; cbn [fst snd] in *; subst tm.
    eapply post_bytes; [apply bput_seq| |cbn; now rewrite Bu]. intros l'; apply bytes_put; auto. now apply byteb_ok.
  - the_bytes D. destruct b as [wm tm]; cbn [fst snd] in *; subst tm.
    eapply post_byte; [apply bget_seq| |reflexivity]. intros y; now apply bytes_get.
  - the_bytes D. destruct b as [wm tm]; cbn [fst snd] in *; subst tm.
    eapply post_bytes; [apply bdel_seq| |reflexivity]. intros l'; now apply bytes_del.
  - the_bytes D. destruct b as [wm tm]; cbn [fst snd] in *; subst tm.
    destruct (len_den h l l (proj1 Bo) eq_refl) as (w & -> & Dw). now apply (post_one d h _ w _ Dw).
  - rewrite u8_arg_eq. destruct (byteb u) eqn:Bu; cbn [rbind].
    2:{ apply post_none. cbn. unfold on_bytes. destruct (snd b); auto. now rewrite Bu. }
    the_bytes D. destruct b as [wm tm]; cbn [fst snd] in *; subst tm.
    eapply post_bytes; [apply bpush_seq; apply Bo| |cbn; now rewrite Bu]. intros l'; apply bytes_append; auto.
    constructor; [now apply byteb_ok|constructor].
  - the_bytes D. destruct b as [wm tm]; cbn [fst snd] in *; subst tm.
    eapply post_bytes; [apply bpop_seq| |reflexivity]. intros l'; now apply bytes_init.
  - the_bytes D. destruct b as [wm tm]; cbn [fst snd] in *; subst tm.
    eapply post_byte; [apply bfront_seq| |reflexivity]. intros y; now apply bytes_head.
  - the_bytes D. destruct b as [wm tm]; cbn [fst snd] in *; subst tm.
    eapply post_byte; [apply bback_seq| |reflexivity]. intros y; now apply bytes_last.
  - rewrite u8_arg_eq. destruct (byteb u) eqn:Bu; cbn [rbind].
    2:{ apply post_none. cbn. unfold on_bytes. destruct (snd b); auto. now rewrite Bu. }
    the_bytes D. destruct b as [wm tm]; cbn [fst snd] in *; subst tm.
    eapply post_bytes; [apply binsert_seq; apply Bo| |cbn; now rewrite Bu]. intros l'; apply bytes_insert; auto. now apply byteb_ok.
  - pose proof (arg_bytes_den h (fst b) (snd b) D) as X. destruct (arg_bytes h (fst b)) as [l|]; cbn [rbind].
    2:{ apply post_none. apply X. }
    destruct X as (X & Bo). destruct b as [wm tm]; cbn [fst snd] in *; subst tm.
    pose proof (arg_bytes_den h (fst c) (snd c) D0) as X. destruct (arg_bytes h (fst c)) as [l2|]; cbn [rbind].
    2:{ apply post_none. apply (X (fun m => _)). }
    destruct X as (X & Bo2). destruct c as [wm2 tm]; cbn [fst snd] in *; subst tm.
    eapply post_bytes; [apply bappend_seq; [apply Bo|apply Bo2]| |reflexivity]. intros l'; apply bytes_append; auto. apply Bo2.
  - the_bytes D. destruct b as [wm tm]; cbn [fst snd] in *; subst tm.
    eapply post_bytes; [apply bslice_seq| |reflexivity]. intros l'; now apply bytes_slice.
  - pose proof (arg_string_den h (fst s) (snd s) D) as X. destruct (arg_string h (fst s)) as [l|]; cbn [rbind].
    2:{ apply post_none. apply (X (fun l => Some [len_val l])). }
    destruct X as (X & Bo). destruct s as [wm tm]; cbn [fst snd] in *; subst tm.
    destruct (len_den h l l (proj1 Bo) eq_refl) as (w & -> & Dw). now apply (post_one d h _ w _ Dw).
  - pose proof (arg_string_den h (fst s) (snd s) D) as X. destruct (arg_string h (fst s)) as [l|]; cbn.
    + destruct X as (X & Bo). rewrite X. eexists. split; [reflexivity|]. constructor; auto.
    + left. apply (X (fun l => Some [TBytes l])).
  - pose proof (arg_bytes_den h (fst b) (snd b) D) as X. destruct (arg_bytes h (fst b)) as [l|]; cbn.
    + destruct X as (X & Bo). rewrite X. eexists. split; [reflexivity|]. constructor; auto.
    + left. apply X.
  - pose proof (arg_string_den h (fst s) (snd s) D) as X. destruct (arg_string h (fst s)) as [l|]; cbn.
    + destruct X as (X & Bo). rewrite X. eexists. split; [reflexivity|]. constructor; auto.
    + left. apply (X (fun l => Some [TExe l])).
Qed.

Lemma add_result_ok h o h' r : add_result h o = (h', r) -> forall t, obj_denotes h o t ->
  extends h h' /\ (fits h' -> (heap_ok h -> heap_ok h') /\ exists w, r = Ok [w] /\ denotes h' w t).
Proof.
  unfold add_result. intros E t T. destruct (add_host_object h o) as [h1 r1] eqn:A. injection E as <- <-.
  destruct (add_step h o t h1 r1 A (fun _ => T)) as [X Y]. split; auto. intros F. destruct (Y F) as [Y1 Y2]. split; auto.
  destruct r1 as [w|e]; cbn; eauto.
  destruct (add_fits _ _ _ _ A F).
Qed.

Definition spost (d : nat) (h : heap) (c : call) (h' : heap) (r : res (list Z)) : Prop :=
  match r with
  | Ok ws => exists ts, astep (on_trees c) = Some ts /\ denotes_list h' ws ts
  | Err e => astep (on_trees c) = None \/ (e = e_depth /\ too_deep d c)
  end.

Theorem hstep_ok d h c h' r : args_denote h c -> hstep d h (on_words c) = (h', r) ->
  extends h h' /\ (fits h' -> (heap_ok h -> heap_ok h') /\ spost d h c h' r).
Proof.
  intros A E. pose proof (hpure_ok d h c A) as P.
  assert (G : match hpure d h (on_words c) with
              | Err e => (h, Err e) | Ok (RObj o) => add_result h o | Ok (RVals l) => (h, Ok l) end = (h', r) ->
              hpost d h c (hpure d h (on_words c)) ->
              extends h h' /\ (fits h' -> (heap_ok h -> heap_ok h') /\ spost d h c h' r)).
  { clear. intros E P. destruct (hpure d h (on_words c)) as [[o|ws]|e]; cbn [hpost] in P.
    - destruct P as (t & At & T). destruct (add_result_ok h o h' r E t T) as [X Y]. split; auto. intros F.
      destruct (Y F) as [Y1 (w & -> & Dw)]. split; auto. exists [t]. split; auto. constructor; auto. constructor.
    - injection E as <- <-. split; [apply extends_refl|]. intros _. split; auto.
    - injection E as <- <-. split; [apply extends_refl|]. intros _. split; auto. }
  destruct c; try (apply G; [exact E|exact P]). clear G P.
  unfold on_words in E. cbn [hop_map hstep] in E. unfold args_denote in A. cbn [hop_args] in A.
  pose proof (Forall_map_words h vals A) as DL.
  destruct (map_from_slices d h sparse keys (map fst vals)) as [h1 r1] eqn:M.
  destruct (from_slices_den d h sparse keys _ _ h1 r1 DL M) as [X Y].
  destruct r1 as [l|e].
  - assert (X2 : extends h1 h').
    { unfold add_result in E. destruct (add_host_object h1 (HOMap l)) as [h2 r2] eqn:AD. injection E as <- <-.
      exact (add_prefix _ _ _ _ AD). }
    split; [eapply extends_trans; eauto|]. intros F. pose proof (extends_fits _ _ X2 F) as F1.
    destruct (Y F1) as [O (ts & At & D1 & Sh & So)].
    destruct (add_result_ok h1 (HOMap l) h' r E (TMap ts) (do_map h1 l ts Sh So D1)) as [_ Y2].
    destruct (Y2 F) as [O2 (w & -> & Dw)]. split; auto. exists [TMap ts]. split; auto. constructor; auto. constructor.
  - injection E as <- <-. split; auto. intros F. destruct (Y F) as [O R]. split; auto. unfold spost, on_trees. cbn [hop_map].
    destruct R as [R|(-> & -> & N)]; auto. right. split; auto. unfold too_deep. cbn [hop_args].
    destruct vals as [|p vals]; [now destruct N|]. apply deep_hd. apply tdepth_pos.
Qed.

(* ------------------------------------------------- histories *)

Lemma hop_map_map {A B C} (f : A -> B) (g : B -> C) (op : hop A) : hop_map g (hop_map f op) = hop_map (fun x => g (f x)) op.
Proof. destruct op; cbn [hop_map]; rewrite ?map_map; reflexivity. Qed.
Lemma hop_args_map {A B} (f : A -> B) (op : hop A) : hop_args (hop_map f op) = map f (hop_args op).
Proof. destruct op; reflexivity. Qed.

Lemma nth_denotes h ws ts i : denotes_list h ws ts -> denotes h (nth i ws val_void) (nth i ts TVoid).
Proof.
  intros D. revert i. induction D as [|w t ws ts D DL IH]; intros [|i]; cbn; auto using void_den.
Qed.

Lemma add_result_grows h o h' r : add_result h o = (h', r) -> (length h <= length h')%nat.
Proof.
  unfold add_result. destruct (add_host_object h o) as [h2 r2] eqn:A. intros E.
  injection E as <- <-. apply add_prefix in A as [x ->]. rewrite app_length. lia.
Qed.
Lemma map_entries_grows d sp keys : forall h prev vals h' r,
  map_entries d h sp prev keys vals = (h', r) -> (length h <= length h')%nat.
Proof.
  induction keys as [|kb keys IH]; intros h prev vals h' r E.
  - cbn in E. injection E as <- <-. lia.
  - destruct vals as [|v vals]; [cbn in E; injection E as <- <-; lia|].
    cbn [map_entries] in E. destruct (symbol_of_bytes h kb) as [h3 rk] eqn:SB.
    destruct (symbol_of_bytes_den h kb h3 rk SB) as [X _]. apply extends_length in X.
    destruct rk as [k3|]; [|injection E as <- <-; exact X].
    match type of E with match ?c with _ => _ end = _ => destruct c as [[]|] end; [|injection E as <- <-; exact X].
    destruct (check_val_integrity h3 v); [|injection E as <- <-; exact X].
    destruct (map_entries d h3 sp (Some k3) keys vals) as [h4 r4] eqn:M4. injection E as <- <-.
    apply IH in M4. lia.
Qed.
Lemma hstep_grows d h op h' r : hstep d h op = (h', r) -> (length h <= length h')%nat.
Proof.
  unfold hstep. intros S. destruct op; try (
    match type of S with match ?r with _ => _ end = _ => destruct r as [[o|l0]|] end;
    [apply add_result_grows in S; exact S|injection S as <- <-; lia|injection S as <- <-; lia]).
  destruct (map_from_slices d h sparse keys vals) as [h5 r5] eqn:M. assert (length h <= length h5)%nat.
  { unfold map_from_slices in M. destruct (Nat.eqb _ _); [|injection M as <- <-; lia].
    destruct (map_entries d h sparse None keys vals) as [h6 r6] eqn:M6. injection M as <- <-.
    now apply map_entries_grows in M6. }
  destruct r5; [apply add_result_grows in S; lia|injection S as <- <-; lia].
Qed.
Lemma hrun_grows d ops : forall h ws h' ws' rs, hrun d h ws ops = (h', ws', rs) -> (length h <= length h')%nat.
Proof.
  induction ops as [|op ops IH]; intros h ws h' ws' rs E; cbn [hrun] in E.
  - injection E as <- <- <-. lia.
  - destruct (hstep d h _) as [h1 r] eqn:S. destruct (hrun d h1 _ ops) as [[h2 ws2] rs2] eqn:R.
    injection E as <- <- <-. apply IH in R. apply hstep_grows in S. lia.
Qed.

Theorem hrun_ok d ops : forall h ws ts h' ws' rs, heap_ok h -> denotes_list h ws ts ->
  hrun d h ws ops = (h', ws', rs) -> fits h' ->
  extends h h' /\ heap_ok h' /\ exists ts', denotes_list h' ws' ts' /\ atrace d ts ops (map is_ok rs) ts'.
Proof.
  induction ops as [|op ops IH]; intros h ws ts h' ws' rs O D E F.
  - cbn [hrun] in E. injection E as <- <- <-. split; [apply extends_refl|]. split; auto. exists ts. split; auto. constructor.
  - cbn [hrun] in E. destruct (hstep d h _) as [h1 r] eqn:S.
    set (c := hop_map (fun i => (nth i ws val_void, nth i ts TVoid)) op : call).
    assert (W : hop_map (fun i => nth i ws val_void) op = on_words c) by (unfold c, on_words; now rewrite hop_map_map).
    assert (T : hop_map (fun i => nth i ts TVoid) op = on_trees c) by (unfold c, on_trees; now rewrite hop_map_map).
    assert (AD : args_denote h c).
    { unfold args_denote, c. rewrite hop_args_map. apply Forall_forall. intros p I. apply in_map_iff in I as (i & <- & _).
      cbn. now apply nth_denotes. }
    rewrite W in S. destruct (hstep_ok d h c h1 r AD S) as [X Y].
    destruct (hrun d h1 _ ops) as [[h2 ws2] rs2] eqn:R. injection E as <- <- <-.
    assert (F1 : fits h1) by (apply hrun_grows in R; unfold fits in *; lia).
    destruct (Y F1) as [O1 P]. specialize (O1 O). cbn [map]. destruct r as [l|e]; cbn [is_ok].
    + destruct P as (us & At & P).
      assert (D1 : denotes_list h1 (ws ++ l) (ts ++ us)).
      { apply denotes_list_Forall2, Forall2_app; apply denotes_list_Forall2; auto. eapply extends_list; eauto. }
      destruct (IH h1 _ _ _ _ _ O1 D1 R F) as (X2 & O2 & ts' & D2 & TR).
      split; [eapply extends_trans; eauto|]. split; auto. exists ts'. split; auto.
      eapply at_ok; [|exact TR]. now rewrite T.
    + destruct (IH h1 _ _ _ _ _ O1 (extends_list _ _ _ _ X D) R F) as (X2 & O2 & ts' & D2 & TR).
      split; [eapply extends_trans; eauto|]. split; auto. exists ts'. split; auto.
      eapply at_err; [|exact TR]. rewrite T. destruct P as [P|[_ P]]; auto. right.
      unfold too_deep, c in P. rewrite hop_args_map in P. apply Exists_exists in P as (p & Ip & Lp).
      apply in_map_iff in Ip as (i & <- & Ii). apply Exists_exists. exists (nth i ts TVoid). split; auto.
      now apply (in_map (fun i => nth i ts TVoid)).
Qed.

(* ------------------------------------------------- binary search *)

Definition ascending_vec (ts : list tval) : Prop := StronglySorted (fun a b => tcmp a b <> Gt) ts.

Lemma ascending_monotone ts x : ascending_vec ts -> monotone (fun t => tcmp t x) ts.
Proof.
  intros S i j a b L Hi Hj. destruct (Nat.eq_dec i j) as [->|N]; [replace b with a by congruence; lia|].
  assert (C : tcmp a b <> Gt).
  { assert (I : (i < j)%nat) by lia. clear L N. revert i j I Hi Hj. induction S as [|t ts S IH F]; intros i j I Hi Hj.
    - destruct i; discriminate.
    - destruct j as [|j]; [lia|]. cbn in Hj. destruct i as [|i].
      + injection Hi as <-. apply nth_error_In in Hj. rewrite Forall_forall in F. auto.
      + cbn in Hi. eapply IH; [|eauto|eauto]. lia. }
  destruct (tcmp a b) eqn:E; [apply tcmp_eq in E; subst; lia| |congruence].
  destruct (tcmp a x) eqn:Ea; cbn; [|lia|].
  - apply tcmp_eq in Ea. subst x. apply tcmp_gt in E. rewrite E. cbn. lia.
  - apply tcmp_gt in Ea. pose proof (tcmp_trans _ _ _ Ea E) as T. apply tcmp_gt in T. rewrite T. cbn. lia.
Qed.

Theorem bsearch_den d h v x ts tx : denotes h v (TVec ts) -> denotes h x tx -> ascending_vec ts ->
  match vec_binary_search d h v x with
  | Ok n => (exists i, n = 2 ^ 32 + Z.of_nat i /\ Z.of_nat i < 2 ^ 32 /\ nth_error ts i = Some tx)
            \/ (exists i, n = Z.of_nat i /\ n < 2 ^ 32 /\ (i <= length ts)%nat
                 /\ Forall (fun t => tcmp t tx = Lt) (firstn i ts) /\ Forall (fun t => tcmp tx t = Lt) (skipn i ts))
  | Err e => e = e_depth /\ (d < tdepth tx)%nat
  end.
Proof.
  intros D X S. unfold vec_binary_search. pose proof (arg_vec_den h v _ D) as A.
  destruct (arg_vec h v) as [l|e]; cbn [rbind].
  2:{ specialize (A (fun l => Some l)). discriminate. }
  destruct A as (ts' & E & DL & Sh). injection E as <-. pose proof DL as D2. apply denotes_list_Forall2 in D2.
  pose proof (Forall2_length _ _ _ D2) as LEN.
  destruct (bsearch (fun y => cmp_val d h y x) l) as [r|e] eqn:B; cbn [rbind].
  - destruct (kd_exists h l ts DL) as (kd & F & M).
    assert (SO : search_ok (fun y => tcmp (kd y) tx) l r).
    { eapply bsearch_sound; [| |exact B].
      - intros i y c N C. cbv beta in C. apply nth_error_In in N. rewrite Forall_forall in F.
        pose proof (cmp_val_ok h d y x _ _ (F y N) X) as R. rewrite C in R. exact R.
      - intros i j a b L Hi Hj. assert (Ha : nth_error ts i = Some (kd a)) by (rewrite <- M, nth_error_map, Hi; reflexivity).
        assert (Hb : nth_error ts j = Some (kd b)) by (rewrite <- M, nth_error_map, Hj; reflexivity).
        exact (ascending_monotone ts tx S i j _ _ L Ha Hb). }
    assert (N : forall i y, nth_error l i = Some y -> nth_error ts i = Some (kd y)).
    { intros i y Hy. rewrite <- M, nth_error_map, Hy. reflexivity. }
    assert (NI : forall i t, nth_error ts i = Some t -> exists y, nth_error l i = Some y /\ t = kd y).
    { intros i t Ht. rewrite <- M, nth_error_map in Ht. destruct (nth_error l i) as [y|]; [|discriminate].
      exists y. cbn in Ht. split; congruence. }
    destruct r as [i|i]; cbn [bsearch_result_u64] in *; cbn [search_ok] in SO.
    + destruct SO as (y & Hy & C). apply tcmp_eq in C. assert (I : (i < length l)%nat) by (apply nth_error_Some; congruence).
      unfold fits_u32, short in *. destruct (Z.leb_spec (Z.of_nat i) u32_max) as [L|L]; [|lia].
      left. exists i. split; [|split; [unfold u32_max in *; lia|rewrite (N i y Hy); congruence]].
      rewrite Z.lor_comm, lor_shift_low; unfold u32_max in *; lia.
    + destruct SO as (Hi & LO & HI). unfold fits_u32, short in *. destruct (Z.leb_spec (Z.of_nat i) u32_max) as [L|L]; [|lia].
      right. exists i. split; auto. split; [unfold u32_max in *; lia|]. split; [lia|].
      split; apply Forall_forall; intros q I; apply In_nth_error in I as (j & Hj).
      * assert (J : (j < i)%nat).
        { assert (j < length (firstn i ts))%nat by (apply nth_error_Some; congruence). rewrite firstn_length in *. lia. }
        assert (Hj' : nth_error ts j = Some q).
        { rewrite <- (firstn_skipn i ts). rewrite nth_error_app1; auto. rewrite firstn_length. lia. }
        destruct (NI j q Hj') as (p & Hp & ->). exact (LO j p J Hp).
      * assert (Hj' : nth_error ts (i + j) = Some q).
        { rewrite <- (firstn_skipn i ts), nth_error_app2; rewrite firstn_length; [|lia].
          replace (i + j - Nat.min i (length ts))%nat with j by lia. exact Hj. }
        destruct (NI _ q Hj') as (p & Hp & ->). apply tcmp_gt. exact (HI (i + j)%nat p ltac:(lia) Hp).
  - pose proof (bsearch_total (fun y => cmp_val d h y x) l) as T. rewrite B in T. destruct T as (i & y & Hy & C).
    pose proof (F2_nth _ _ _ i D2) as O. rewrite Hy in O. destruct (nth_error ts i) as [t|]; [|contradiction].
    pose proof (cmp_val_ok h d y x _ _ O X) as R. rewrite C in R. cbn in R. tauto.
Qed.

(* ------------------------------------------------- maps read as finite maps *)

Lemma map_get_In m k v : map_sorted m -> (map_get m k = Some v <-> In (k, v) m).
Proof.
  intros S. split.
  - intros H. destruct (lookup_Some tcmp (fun t : tval => t) tcmp_total m k v H) as (k' & I & ->). exact I.
  - intros I. exact (lookup_in tcmp (fun t : tval => t) tcmp_total m k v k S I eq_refl).
Qed.

Lemma same_contents_same_export h v w m m' : denotes h v (TMap m) -> denotes h w (TMap m') ->
  (forall k, map_get m k = map_get m' k) ->
  (forall d, (tdepth (TMap m) <= d)%nat -> cmp_val d h v w = Ok Eq)
  /\ (forall d d' st st' s s', from_host_val d st h v = Ok s -> from_host_val d' st' h w = Ok s' -> s = s').
Proof.
  intros D D' E.
  assert (M : m = m').
  { pose proof (denotes_valid _ _ _ D) as V. pose proof (denotes_valid _ _ _ D') as V'. cbn [valid_tree] in V, V'.
    apply map_canonical; tauto. }
  subst m'. split.
  - intros d L. rewrite (cmp_val_total h d v w _ _ D D' L). now rewrite tcmp_refl.
  - intros d d' st st' s s' R R'. pose proof (from_host_ok d st h v _ D) as P. pose proof (from_host_ok d' st' h w _ D') as P'.
    rewrite R in P. rewrite R' in P'. cbn in P, P'. destruct P as [-> _], P' as [-> _]. reflexivity.
Qed.
