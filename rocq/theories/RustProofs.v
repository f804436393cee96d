From Coq Require Import ZArith Lia List Bool.
From Verif Require Import Prelude ValModel ValSpec ValProofs WideProofs SymbolProofs ContainerModel HeapModel HeapSpec HeapProofs ConvProofs HostFnModel HostFnProofs GuestModel IntModel RustModel RustSpec.
Import ListNotations.
Open Scope Z_scope.
Ltac Zify.zify_post_hook ::= idtac.

Fixpoint rty_ind' (P : rty -> Prop) (HU : P YUnit) (HB : P YBool) (H32 : P YU32) (HI : P YI32)
  (HN : forall k, P (YNum k)) (HO : forall t, P t -> P (YOption t)) (HR : forall t, P t -> P (YResult t))
  (HT : forall ts, Forall P ts -> P (YTuple ts)) (HY : P YBytes) (HYN : forall n, P (YBytesN n)) (HS : P YSymbol) (t : rty) : P t :=
  let R := rty_ind' P HU HB H32 HI HN HO HR HT HY HYN HS in
  match t with
  | YUnit => HU | YBool => HB | YU32 => H32 | YI32 => HI | YNum k => HN k
  | YOption t' => HO t' (R t') | YResult t' => HR t' (R t')
  | YTuple ts => HT ts ((fix go l : Forall P l := match l with [] => Forall_nil P | x :: r => Forall_cons x (R x) (go r) end) ts)
  | YBytes => HY | YBytesN n => HYN n | YSymbol => HS
  end.

(* ------------------------------------------------------------ reading words *)

Lemma obj_get_tag i o : Z.of_nat i < 2 ^ 31 -> get_tag (obj_word i o) = hobj_tag o.
Proof. intros L. unfold obj_word. rewrite get_tag_word_of_atom; [reflexivity|now apply obj_atom_ok]. Qed.

Lemma word_cases h w x : denotes h w x ->
  (small_denotes w x /\ get_tag w = stag x)
  \/ (exists o, visit_obj_untyped h w = Ok o /\ get_tag w = hobj_tag o /\ obj_denotes h o x).
Proof.
  intros D. apply denotes_cases in D as [D|(i & o & -> & N & L & D)].
  - left. split; [exact D|]. now apply small_facts in D.
  - right. exists o. rewrite obj_get_tag by exact L. split; [now apply visit_obj|]. auto.
Qed.

Lemma small_tag_word h w x T : denotes h w x -> real_tag T = true -> (forall o, hobj_tag o <> T) ->
  (has_tag w T = true <-> stag x = T /\ small_denotes w x).
Proof.
  intros D R N. rewrite has_tag_get_tag by exact R. apply word_cases in D as [[D E]|(o & V & E & D)].
  - rewrite E. tauto.
  - rewrite E. split; [intros C; now apply N in C|]. intros [S M].
    apply small_facts in M as (G & _). rewrite <- E, G. exact S.
Qed.

Ltac no_obj := let o := fresh in intros o; destruct o as [[]| | | | | | | |]; discriminate.

Definition atomic (x : tval) : bool :=
  match x with TVoid | TBool _ | TErr _ | TU32 _ | TI32 _ => true | _ => false end.

Lemma atomic_small h w x : denotes h w x -> atomic x = true -> small_denotes w x.
Proof. intros D A. apply denotes_cases in D as [D|(i & o & -> & N & L & D)]; [exact D|]. destruct D; discriminate. Qed.

Lemma atom_tag h w x T : denotes h w x -> real_tag T = true -> (forall o, hobj_tag o <> T) ->
  atomic x = true -> stag x = T -> has_tag w T = true.
Proof. intros D R N A S. apply (small_tag_word h w x T D R N). split; [exact S|]. eapply atomic_small; eauto. Qed.

Lemma void_tag h w x : denotes h w x -> (has_tag w TgVoid = true <-> x = TVoid).
Proof.
  intros D. split.
  - intros T. apply (small_tag_word h w x TgVoid D eq_refl) in T as [S _]; [|no_obj].
    destruct x as [[]| | | | |[]| | | | | | | ]; try discriminate; reflexivity.
  - intros ->. eapply atom_tag; eauto; no_obj.
Qed.

Lemma error_tag h w x : denotes h w x -> (has_tag w TgError = true <-> exists e, x = TErr e).
Proof.
  intros D. split.
  - intros T. apply (small_tag_word h w x TgError D eq_refl) in T as [S _]; [|no_obj].
    destruct x as [[]| | | | |[]| | | | | | | ]; try discriminate; eauto.
  - intros [e ->]. eapply atom_tag; eauto; no_obj.
Qed.

Lemma error_read h w e : denotes h w (TErr e) -> error_of_val w = Some e.
Proof.
  intros D. apply denotes_cases in D as [D|(i & o & -> & N & L & D)]; [|inversion D].
  inversion D as [a t OK E|]; subst. destruct a; cbn in E; try discriminate. injection E as <-.
  rewrite <- val_of_error_word by exact OK. now apply error_roundtrip_lemma.
Qed.

Lemma vec_tag h w x : denotes h w x -> has_tag w TgVecObject = true -> exists l xs,
  x = TVec xs /\ visit_vec h w = Ok l /\ denotes_list h l xs.
Proof.
  intros D T. apply has_tag_get_tag in T; [|reflexivity]. apply word_cases in D as [[D E]|(o & V & E & D)].
  - rewrite E in T. destruct x as [[]| | | | |[]| | | | | | | ]; discriminate.
  - rewrite E in T. unfold visit_vec. rewrite V. cbn [rbind].
    destruct D; try discriminate; [destruct k; discriminate|]. eauto 6.
Qed.

Lemma vec_read h w xs : denotes h w (TVec xs) -> has_tag w TgVecObject = true.
Proof.
  intros D. apply has_tag_get_tag; [reflexivity|]. apply word_cases in D as [[D E]|(o & V & E & D)].
  - inversion D as [a t OK A|]; subst. destruct a; discriminate.
  - rewrite E. inversion D; reflexivity.
Qed.

Lemma bool_read h w x b : denotes h w x -> (bool_of_val w = Some b <-> x = TBool b).
Proof.
  intros D. unfold bool_of_val. split.
  - destruct (has_tag w TgTrue) eqn:T.
    + intros E. injection E as <-. apply (small_tag_word h w x TgTrue D eq_refl) in T as [S _]; [|no_obj].
      destruct x as [[]| | | | |[]| | | | | | | ]; try discriminate; reflexivity.
    + destruct (has_tag w TgFalse) eqn:F; [|discriminate]. intros E. injection E as <-.
      apply (small_tag_word h w x TgFalse D eq_refl) in F as [S _]; [|no_obj].
      destruct x as [[]| | | | |[]| | | | | | | ]; try discriminate; reflexivity.
  - intros ->. destruct b.
    + rewrite (atom_tag h w _ TgTrue D); [reflexivity|reflexivity|no_obj|reflexivity|reflexivity].
    + rewrite (atom_tag h w _ TgFalse D); [|reflexivity|no_obj|reflexivity|reflexivity].
      destruct (has_tag w TgTrue) eqn:T; [|reflexivity].
      apply (small_tag_word h w _ TgTrue D eq_refl) in T as [S _]; [discriminate|no_obj].
Qed.

Lemma u32_read h w x u : denotes h w x -> (u32_of_val w = Some u <-> x = TU32 u).
Proof.
  intros D. unfold u32_of_val. split.
  - destruct (has_tag w TgU32Val) eqn:T; [|discriminate]. intros E.
    apply (small_tag_word h w x TgU32Val D eq_refl) in T as [S M]; [|no_obj].
    apply small_facts in M as (_ & _ & SF & _).
    destruct x as [[]| | | | |[]| | | | | | | ]; try discriminate. cbn in SF. congruence.
  - intros ->. rewrite (atom_tag h w _ TgU32Val D); [|reflexivity|no_obj|reflexivity|reflexivity].
    apply atomic_small in D; [|reflexivity]. apply small_facts in D as (_ & _ & SF & _). cbn in SF. congruence.
Qed.

Lemma i32_read h w x u : denotes h w x -> (i32_of_val w = Some u <-> x = TI32 u).
Proof.
  intros D. unfold i32_of_val. split.
  - destruct (has_tag w TgI32Val) eqn:T; [|discriminate]. intros E.
    apply (small_tag_word h w x TgI32Val D eq_refl) in T as [S M]; [|no_obj].
    apply small_facts in M as (_ & _ & SF & _).
    destruct x as [[]| | | | |[]| | | | | | | ]; try discriminate. cbn in SF. congruence.
  - intros ->. rewrite (atom_tag h w _ TgI32Val D); [|reflexivity|no_obj|reflexivity|reflexivity].
    apply atomic_small in D; [|reflexivity]. apply small_facts in D as (_ & _ & SF & _). cbn in SF. congruence.
Qed.

(* ------------------------------------------------------------ numbers *)

Lemma real_object_num k : real_tag (object_tag_of_num k) = true.
Proof. now destruct k. Qed.

Lemma obj_not_small o k : hobj_tag o <> small_tag k.
Proof. destruct o as [[]| | | | | | | |]; destruct k; discriminate. Qed.

Lemma stag_not_object x k : stag x <> object_tag_of_num k.
Proof. destruct x as [[]| | | | |[]| | | | | | | ]; destruct k; discriminate. Qed.

Lemma pieces k x : num_range k x ->
  match k with
  | NU128 => u128_from_pieces (u128_hi x) (u128_lo x) = x
  | NI128 => i128_from_pieces (i128_hi x) (i128_lo x) = x
  | NU256 => let '(a, b, c, d) := u256_into_pieces x in u256_from_pieces a b c d = x
  | NI256 => let '(a, b, c, d) := i256_into_pieces x in i256_from_pieces a b c d = x
  | _ => True
  end.
Proof.
  intros R. destruct k; try exact I.
  - now apply u128_join_split. - now apply i128_join_split.
  - now apply u256_join_split. - now apply i256_join_split.
Qed.

Lemma num_to_val_eq k h x : num_range k x -> num_to_val k h x =
  match num_to_small k x with Some v => (h, Ok v) | None => add_host_object h (HONum k x) end.
Proof.
  intros R. unfold num_to_val. destruct (num_to_small k x); [reflexivity|].
  pose proof (pieces k x R) as P. destruct k; try reflexivity;
    unfold obj_from_u128_pieces, obj_from_i128_pieces, obj_from_u256_pieces, obj_from_i256_pieces, obj_from_num.
  - now rewrite P. - now rewrite P.
  - destruct (u256_into_pieces x) as [[[a b] c] d]. now rewrite P.
  - destruct (i256_into_pieces x) as [[[a b] c] d]. now rewrite P.
Qed.

Lemma num_read h w x k n : denotes h w x -> (num_from_val k h w = Ok n <-> x = TNum k n).
Proof.
  intros D. pose proof (denotes_valid h w x D) as VT. unfold num_from_val.
  destruct (small_to_num k w) as [m|] eqn:S.
  - assert (T : has_tag w (small_tag k) = true) by (unfold small_to_num in S; destruct (has_tag w (small_tag k)); [reflexivity|discriminate]).
    apply (small_tag_word h w x _ D) in T as [ST M]; [|apply small_tag_real|intros o; apply obj_not_small].
    apply small_facts in M as (_ & _ & SF & _).
    assert (exists y, x = TNum k y) as [y ->].
    { destruct x as [[]| | | | |k' y| | | | | | | ]; try (destruct k; discriminate).
      cbn in ST. exists y. destruct k, k'; try discriminate; reflexivity. }
    cbn in SF. destruct SF as [SF _]. split; intros E; [injection E as <-|injection E as <-]; congruence.
  - destruct (has_tag w (object_tag_of_num k)) eqn:T.
    + pose proof T as T'. apply has_tag_get_tag in T; [|apply real_object_num].
      apply word_cases in D as [[D E]|(o & V & E & D)]; [rewrite E in T; now apply stag_not_object in T|].
      rewrite E in T. assert (exists y, o = HONum k y /\ x = TNum k y) as (y & -> & ->).
      { destruct D as [k' y RR| | | | | | | | |]; try (destruct k; discriminate).
        exists y. destruct k, k'; try discriminate; auto. }
      cbn in VT. pose proof (pieces k y VT) as P.
      assert (O : obj_to_num k h w = Ok y).
      { unfold obj_to_num, typed. rewrite T'. unfold visit_num. rewrite V. cbn. now destruct k. }
      assert (R : match k with
        | NU64 | NI64 | NTimepoint | NDuration => obj_to_num k h w
        | NU128 => let? p := obj_to_u128_pieces h w in Ok (u128_from_pieces (fst p) (snd p))
        | NI128 => let? p := obj_to_i128_pieces h w in Ok (i128_from_pieces (fst p) (snd p))
        | NU256 => let? p := obj_to_u256_pieces h w in
                   let '(a, b, c, d) := p in Ok (u256_from_pieces a b c d)
        | NI256 => let? p := obj_to_i256_pieces h w in
                   let '(a, b, c, d) := p in Ok (i256_from_pieces a b c d)
        end = Ok y).
      { destruct k; try exact O;
          unfold obj_to_u128_pieces, obj_to_i128_pieces, obj_to_u256_pieces, obj_to_i256_pieces; rewrite O; cbn [rbind fst snd].
        - now rewrite P. - now rewrite P.
        - destruct (u256_into_pieces y) as [[[a b] c] d]. now rewrite P.
        - destruct (i256_into_pieces y) as [[[a b] c] d]. now rewrite P. }
      rewrite R. split; intros Q; injection Q as <-; reflexivity.
    + split; [discriminate|]. intros ->. exfalso.
      apply word_cases in D as [[D E]|(o & V & E & D)].
      * apply small_facts in D as (_ & _ & SF & _). cbn in SF. destruct SF. congruence.
      * assert (C : has_tag w (object_tag_of_num k) = true); [|congruence].
        apply has_tag_get_tag; [apply real_object_num|]. rewrite E. inversion D; reflexivity.
Qed.

Lemma num_write k h x : num_range k x -> Z.of_nat (length h) < 2 ^ 31 -> exists h' w,
  num_to_val k h x = (h', Ok w) /\ extends h h' /\ (length h' <= S (length h))%nat /\ denotes h' w (TNum k x).
Proof.
  intros R L. rewrite num_to_val_eq by exact R.
  destruct (num_to_small_spec k x R) as [[S ->]|[S ->]].
  - exists h, (word_of_atom (ANum k x)). split; [reflexivity|]. split; [exists []; now rewrite app_nil_r|].
    split; [lia|]. now apply dn_atom.
  - rewrite add_object by exact L. eexists _, _. split; [reflexivity|]. split; [eexists; reflexivity|].
    split; [rewrite app_length; cbn; lia|]. apply new_denotes; [exact L|now constructor].
Qed.

(* -------------------------------------------------------- bytes, symbols *)

Lemma bytes_read h w x b : denotes h w x -> (bytes_from_val h w = Ok b <-> x = TBytes b).
Proof.
  intros D. pose proof (arg_bytes_den h w x D) as A. unfold arg_bytes, typed in A. unfold bytes_from_val.
  destruct (has_tag w TgBytesObject).
  - destruct (visit_bytes h w) as [m|e].
    + destruct A as [-> _]. split; congruence.
    + split; [discriminate|]. intros ->. specialize (A (fun _ => Some [])). discriminate A.
  - split; [discriminate|]. intros ->. specialize (A (fun _ => Some [])). discriminate A.
Qed.

Lemma symbol_read h w x b : denotes h w x -> (symbol_from_val h w = Ok b <-> x = TSymbol b).
Proof.
  intros D. pose proof (denotes_valid h w x D) as V. pose proof (symbol_text_den h w x D) as A.
  unfold symbol_text in A. unfold symbol_from_val.
  destruct (has_tag w TgSymbolSmall); [subst x; split; congruence|].
  destruct (has_tag w TgSymbolObject).
  - destruct (visit_symbol h w) as [m|e]; cbn [rbind].
    + subst x. cbn in V. destruct V as [L F].
      replace (Nat.leb (length m) SCSYMBOL_LIMIT) with true by (symmetry; apply Nat.leb_le; exact L).
      rewrite cut_at_zero_chars by exact F. split; congruence.
    + split; [discriminate|]. intros ->. discriminate A.
  - split; [discriminate|]. intros ->. discriminate A.
Qed.

Lemma bytes_write h b : bytes_ok b -> Z.of_nat (length h) < 2 ^ 31 -> exists h' w,
  bytes_to_val h b = (h', Ok w) /\ extends h h' /\ (length h' <= length h + 1)%nat /\ denotes h' w (TBytes b).
Proof.
  intros B L. pose proof B as [S _]. unfold bytes_to_val, fits_u32.
  replace (Z.of_nat (length b) <=? u32_max) with true by (symmetry; apply Z.leb_le; exact S).
  rewrite add_object by exact L. eexists _, _. split; [reflexivity|]. split; [eexists; reflexivity|].
  split; [rewrite app_length; cbn; lia|]. apply new_denotes; [exact L|now constructor].
Qed.

Lemma symbol_write h b : valid_symbol b -> Z.of_nat (length h) < 2 ^ 31 -> exists h' w,
  symbol_of_bytes h b = (h', Ok w) /\ extends h h' /\ (length h' <= length h + 1)%nat /\ denotes h' w (TSymbol b).
Proof.
  intros V L. destruct (symbol_of_bytes h b) as [h' r] eqn:E.
  destruct (symbol_of_bytes_den h b h' r E) as [X Y].
  assert (LN : (length h' <= length h + 1)%nat).
  { unfold symbol_of_bytes in E. destruct (symbol_small_from_bytes b); [injection E as <- _; lia|].
    destruct (symbol_bytes_ok b); [|injection E as <- _; lia].
    rewrite add_object in E by exact L. injection E as <- _. rewrite app_length. cbn. lia. }
  destruct Y as [_ Y]; [unfold fits; lia|].
  destruct r as [w|e].
  - destruct Y as [_ D]. eauto 6.
  - apply symbolb_spec in V. congruence.
Qed.

(* ------------------------------------------------------------ from_val *)

Fixpoint from_vals (h : heap) (ts : list rty) (l : list Z) : res (list rdata) :=
  match ts, l with
  | t' :: ts', w :: l' =>
      let? d := from_val t' h w in
      let? ds := from_vals h ts' l' in Ok (d :: ds)
  | _, _ => Ok []
  end.

Lemma from_val_tuple ts h v : from_val (YTuple ts) h v =
  if has_tag v TgVecObject then
    let? l := vec_unpack_to_slice h v (length ts) in rmap XTuple (from_vals h ts l)
  else Err e_conversion.
Proof.
  cbn [from_val]. destruct (has_tag v TgVecObject); [|reflexivity].
  destruct (vec_unpack_to_slice h v (length ts)) as [l|]; [|reflexivity]. cbn [rbind]. f_equal.
  clear. revert l. induction ts as [|t ts IH]; intros l; [reflexivity|].
  destruct l as [|w l]; [reflexivity|]. cbn [from_vals]. now rewrite <- IH.
Qed.

Lemma converted_ok {A} (o : option A) x : converted o = Ok x <-> o = Some x.
Proof. destruct o; cbn; split; congruence. Qed.

Lemma rmap_iff {A B} (f : A -> B) (r : res A) b : rmap f r = Ok b <-> exists a, r = Ok a /\ b = f a.
Proof.
  split.
  - intros H. apply rmap_ok in H as (a & H & <-). eauto.
  - intros (a & -> & ->). reflexivity.
Qed.

Definition reads_ok t := forall h w x d, denotes h w x -> (from_val t h w = Ok d <-> reads t x d).

Lemma from_vals_ok ts : Forall reads_ok ts -> forall h l xs ds, denotes_list h l xs -> length l = length ts ->
  (from_vals h ts l = Ok ds <-> reads_all ts xs ds).
Proof.
  induction 1 as [|t ts R F IH]; intros h l xs ds D L.
  - destruct l; [|discriminate]. inversion D; subst. cbn. split.
    + intros E. injection E as <-. constructor.
    + intros E. inversion E; reflexivity.
  - destruct l as [|w l]; [discriminate|]. inversion D as [|? x ? xs' Dw Dl]; subst. cbn in L. injection L as L.
    cbn [from_vals]. split.
    + destruct (from_val t h w) as [d|] eqn:E1; [|discriminate]. cbn [rbind].
      destruct (from_vals h ts l) as [ds'|] eqn:E2; [|discriminate]. cbn. intros E. injection E as <-.
      constructor; [now apply (R h w)|now apply (IH h l)].
    + intros E. inversion E as [|? ? ? ? d ds' Rd Ra]; subst.
      apply (R h w x d Dw) in Rd. apply (IH h l xs' ds' Dl L) in Ra. now rewrite Rd, Ra.
Qed.

Lemma from_val_ok t : reads_ok t.
Proof.
  induction t as [| | | |k|t IH|t IH|ts F| |n|] using rty_ind'; intros h w x d D; cbn [from_val].
  - pose proof (void_tag h w x D) as V. destruct (has_tag w TgVoid) eqn:T.
    + assert (x = TVoid) as -> by tauto. split; intros E; [injection E as <-; constructor|inversion E; reflexivity].
    + split; [discriminate|]. intros E. inversion E; subst. destruct V as [_ V]. now discriminate V.
  - rewrite rmap_iff. split.
    + intros (b & E & ->). rewrite converted_ok in E. apply (bool_read h w x b D) in E as ->. constructor.
    + intros E. inversion E; subst. exists b. rewrite converted_ok. split; [|reflexivity]. now apply (bool_read h w _ b D).
  - rewrite rmap_iff. split.
    + intros (b & E & ->). rewrite converted_ok in E. apply (u32_read h w x b D) in E as ->. constructor.
    + intros E. inversion E as [| |b| | | | | | | | | |]; subst. exists b. rewrite converted_ok. split; [|reflexivity]. now apply (u32_read h w _ b D).
  - rewrite rmap_iff. split.
    + intros (b & E & ->). rewrite converted_ok in E. apply (i32_read h w x b D) in E as ->. constructor.
    + intros E. inversion E as [| | |b| | | | | | | | |]; subst. exists b. rewrite converted_ok. split; [|reflexivity]. now apply (i32_read h w _ b D).
  - rewrite rmap_iff. split.
    + intros (b & E & ->). apply (num_read h w x k b D) in E as ->. constructor.
    + intros E. inversion E as [| | | |? b| | | | | | | |]; subst. exists b. split; [|reflexivity]. now apply (num_read h w _ k b D).
  - pose proof (void_tag h w x D) as V. destruct (has_tag w TgVoid) eqn:T.
    + assert (x = TVoid) as -> by tauto. split; intros E.
      * injection E as <-. constructor.
      * inversion E; subst; [reflexivity|congruence].
    + assert (NV : x <> TVoid) by (intros C; apply V in C; discriminate).
      rewrite rmap_iff. split.
      * intros (b & E & ->). constructor; [exact NV|]. now apply (IH h w).
      * intros E. inversion E as [| | | | |? |? ? b NV' Rb| | | | | |]; subst; [congruence|]. exists b.
        split; [|reflexivity]. now apply (IH h w x).
  - pose proof (error_tag h w x D) as V. destruct (has_tag w TgError) eqn:T.
    + assert (exists e, x = TErr e) as [e ->] by (apply V; reflexivity). rewrite (error_read h w e D). cbn. split; intros E.
      * injection E as <-. constructor.
      * inversion E as [| | | | | | |? e'|? ? ? NE| | | |]; subst; [reflexivity|]. now destruct (NE e).
    + assert (NV : forall e, x <> TErr e) by (intros e C; destruct V as [_ V]; discriminate V; eauto).
      rewrite rmap_iff. split.
      * intros (b & E & ->). constructor; [exact NV|]. now apply (IH h w).
      * intros E. inversion E as [| | | | | | |? e'|? ? b NV' Rb| | | |]; subst; [now destruct (NV e')|]. exists b.
        split; [|reflexivity]. now apply (IH h w x).
  - change (from_val (YTuple ts) h w = Ok d <-> reads (YTuple ts) x d). rewrite from_val_tuple.
    destruct (has_tag w TgVecObject) eqn:T.
    + destruct (vec_tag h w x D T) as (l & xs & -> & VV & DL). unfold vec_unpack_to_slice. rewrite VV. cbn [rbind].
      pose proof (denotes_list_length h l xs DL) as LL.
      destruct (Nat.eqb (length l) (length ts)) eqn:L; cbn [rbind].
      * apply Nat.eqb_eq in L. rewrite rmap_iff. split.
        -- intros (b & E & ->). constructor. now apply (from_vals_ok ts F h l).
        -- intros E. inversion E as [| | | | | | | | |? ? b Ra| | |]; subst. exists b. split; [|reflexivity].
           now apply (from_vals_ok ts F h l xs).
      * split; [discriminate|]. intros E. inversion E as [| | | | | | | | |? ? b Ra| | |]; subst. exfalso.
        apply Nat.eqb_neq in L. apply L. rewrite LL. clear - Ra. induction Ra; cbn; auto.
    + split; [discriminate|]. intros E. inversion E; subst. rewrite (vec_read h w xs D) in T. discriminate.
  - rewrite rmap_iff. split.
    + intros (b & E & ->). apply (bytes_read h w x b D) in E as ->. constructor.
    + intros E. inversion E as [| | | | | | | | | |b| |]; subst. exists b. split; [|reflexivity]. now apply (bytes_read h w _ b D).
  - rewrite rmap_iff. unfold bytesn_from_val. split.
    + intros (b & E & ->). destruct (bytes_from_val h w) as [c|] eqn:B; [|discriminate]. cbn [rbind] in E.
      destruct (Nat.eqb_spec (length c) n); [|discriminate]. injection E as ->. subst n.
      apply (bytes_read h w x b D) in B as ->. constructor.
    + intros E. inversion E as [| | | | | | | | | | |b|]; subst. exists b. split; [|reflexivity].
      rewrite (proj2 (bytes_read h w _ b D) eq_refl). cbn [rbind]. now rewrite Nat.eqb_refl.
  - rewrite rmap_iff. split.
    + intros (b & E & ->). apply (symbol_read h w x b D) in E as ->. constructor.
    + intros E. inversion E as [| | | | | | | | | | | |b]; subst. exists b. split; [|reflexivity]. now apply (symbol_read h w _ b D).
Qed.

(* ------------------------------------------------------------ to_val *)

Fixpoint to_vals (h : heap) (l : list rdata) : heap * res (list Z) :=
  match l with
  | [] => (h, Ok [])
  | x :: l' =>
      match to_val h x with
      | (h1, Err e) => (h1, Err e)
      | (h1, Ok v) =>
          match to_vals h1 l' with
          | (h2, Err e) => (h2, Err e)
          | (h2, Ok vs) => (h2, Ok (v :: vs))
          end
      end
  end.

Lemma to_val_tuple h l : to_val h (XTuple l) =
  let '(h1, r) := to_vals h l in
  match r with Err e => (h1, Err e) | Ok vs => vec_new_from_slice h1 vs end.
Proof.
  cbn [to_val].
  match goal with |- (let '(_, _) := ?f h l in _) = _ => assert (E : forall l h, f h l = to_vals h l) end.
  { clear. induction l as [|x l IH]; intros h; [reflexivity|]. cbn [to_vals].
    destruct (to_val h x) as [h1 [v|e]]; [|reflexivity]. rewrite IH. reflexivity. }
  rewrite E. reflexivity.
Qed.

Lemma extends_refl h : extends h h.
Proof. exists []. now rewrite app_nil_r. Qed.
Lemma extends_trans a b c : extends a b -> extends b c -> extends a c.
Proof. intros [x ->] [y ->]. exists (x ++ y). now rewrite app_assoc. Qed.

Scheme of_type_mut := Induction for of_type Sort Prop
with of_types_mut := Induction for of_types Sort Prop.

Lemma small_write h a t : atom_ok a -> tree_of_atom a = Some t -> forall w, w = word_of_atom a ->
  exists h' w', (h, Ok w) = (h', Ok w') /\ extends h h' /\ (length h' <= length h + 1)%nat /\ denotes h' w' t.
Proof. intros OK T w ->. exists h, (word_of_atom a). split; [reflexivity|]. split; [apply extends_refl|]. split; [lia|now apply dn_atom]. Qed.

Lemma tsize_pos t : (1 <= tsize t)%nat.
Proof. destruct t; cbn; lia. Qed.

Lemma to_val_ok t d : of_type t d -> forall h, room h d ->
  exists h' w, to_val h d = (h', Ok w) /\ extends h h'
    /\ (length h' <= length h + tsize (tree_of_data d))%nat /\ denotes h' w (tree_of_data d).
Proof.
  revert t d.
  apply (of_type_mut
    (fun t d _ => forall h, room h d ->
       exists h' w, to_val h d = (h', Ok w) /\ extends h h'
         /\ (length h' <= length h + tsize (tree_of_data d))%nat /\ denotes h' w (tree_of_data d))
    (fun ts l _ => forall h, Z.of_nat (length h) + Z.of_nat (lsum (map tsize (map tree_of_data l))) <= 2 ^ 31 ->
       exists h' ws, to_vals h l = (h', Ok ws) /\ extends h h'
         /\ (length h' <= length h + lsum (map tsize (map tree_of_data l)))%nat
         /\ denotes_list h' ws (map tree_of_data l) /\ length l = length ts));
    cbn [to_val tree_of_data]; intros.
  - apply (small_write h AVoid); [exact I|reflexivity|reflexivity].
  - apply (small_write h (ABool b)); [exact I|reflexivity|now destruct b].
  - apply (small_write h (AU32 x)); [assumption|reflexivity|]. now destruct (u32_roundtrip x).
  - apply (small_write h (AI32 x)); [assumption|reflexivity|]. now destruct (i32_roundtrip x).
  - unfold room in H. cbn in H. destruct (num_write k h x) as (h' & w & E & X & L & D); [assumption|lia|].
    exists h', w. split; [exact E|]. split; [exact X|]. split; [cbn; lia|exact D].
  - apply (small_write h AVoid); [exact I|reflexivity|reflexivity].
  - now apply H.
  - now apply H.
  - apply (small_write h (AErr e)); [exact v|reflexivity|]. now apply val_of_error_word.
  - rename H into IH, H0 into R. unfold room in R. cbn [tree_of_data tsize] in R.
    destruct (IH h) as (h1 & ws & E & X & L & D & LN); [lia|].
    change (exists h' w, to_val h (XTuple l) = (h', Ok w) /\ extends h h'
         /\ (length h' <= length h + tsize (TVec (map tree_of_data l)))%nat /\ denotes h' w (TVec (map tree_of_data l))).
    rewrite to_val_tuple, E. unfold vec_new_from_slice. rewrite (check_all_den _ _ _ D).
    assert (L1 : Z.of_nat (length h1) < 2 ^ 31) by lia.
    rewrite add_object by exact L1. eexists _, _. split; [reflexivity|].
    split; [apply (extends_trans _ h1); [exact X|eexists; reflexivity]|].
    split; [rewrite app_length; cbn [tsize length]; lia|].
    apply new_denotes; [exact L1|]. constructor; [|exact D].
    unfold short. pose proof (denotes_list_length _ _ _ D) as DL. rewrite map_length in DL.
    unfold u32_max. lia.
  - rename H into R. unfold room in R. cbn in R. apply bytes_write; [assumption|lia].
  - rename H into R. unfold room in R. cbn in R. apply bytes_write; [assumption|lia].
  - rename H into R. unfold room in R. cbn in R. apply symbol_write; [assumption|lia].
  - exists h, []. split; [reflexivity|]. split; [apply extends_refl|]. split; [cbn; lia|]. split; [constructor|reflexivity].
  - rename H into IH1, H0 into IH2, H1 into R. cbn [map lsum fold_right] in R.
    change (fold_right Nat.add 0%nat) with lsum in R.
    destruct (IH1 h) as (h1 & w & E1 & X1 & L1 & D1); [unfold room; lia|].
    destruct (IH2 h1) as (h2 & ws & E2 & X2 & L2 & D2 & LN); [lia|].
    exists h2, (w :: ws). cbn [to_vals]. rewrite E1, E2. split; [reflexivity|].
    split; [exact (extends_trans _ _ _ X1 X2)|].
    split; [cbn [map lsum fold_right]; change (fold_right Nat.add 0%nat) with lsum; lia|].
    split; [|cbn; congruence]. constructor; [|exact D2]. destruct X2 as [y ->]. now apply denotes_ext.
Qed.

(* ------------------------------------------------------------ there and back *)

Lemma reads_back t d : of_type t d -> reads t (tree_of_data d) (collapse d).
Proof.
  revert t d. apply (of_type_mut (fun t d _ => reads t (tree_of_data d) (collapse d))
    (fun ts l _ => reads_all ts (map tree_of_data l) (map collapse l))); cbn [tree_of_data collapse map]; intros;
    try (constructor; assumption).
  - destruct (tree_of_data d) eqn:E; [..|]; try (constructor; [discriminate|exact H]). constructor.
  - destruct (tree_of_data d) eqn:E; [..|]; try (constructor; [discriminate|exact H]). constructor.
Qed.

Lemma never_void t d : of_type t d -> may_be_void t = false -> tree_of_data d <> TVoid.
Proof. induction 1; cbn; try discriminate; auto. Qed.

Lemma never_error t d e : of_type t d -> may_be_error t = false -> tree_of_data d <> TErr e.
Proof. induction 1; cbn; try discriminate; auto. Qed.

Lemma collapse_id t d : of_type t d -> unambiguous t = true -> collapse d = d.
Proof.
  revert t d. apply (of_type_mut (fun t d _ => unambiguous t = true -> collapse d = d)
    (fun ts l _ => forallb unambiguous ts = true -> map collapse l = l)); cbn [unambiguous collapse map forallb]; intros;
    try reflexivity.
  - apply andb_prop in H0 as [U V]. apply negb_true_iff in V. rewrite (H U).
    pose proof (never_void _ _ o V). destruct (tree_of_data d); congruence.
  - apply andb_prop in H0 as [U V]. apply negb_true_iff in V. rewrite (H U).
    pose proof (fun e => never_error _ _ e o V) as NE. destruct (tree_of_data d); try congruence. now destruct (NE e).
  - now rewrite H.
  - apply andb_prop in H1 as [U V]. now rewrite H, H0.
Qed.

Scheme reads_mut := Induction for reads Sort Prop
with reads_all_mut := Induction for reads_all Sort Prop.

Lemma reads_fun t x a b : reads t x a -> reads t x b -> a = b.
Proof.
  intros H. revert t x a H b.
  apply (reads_mut (fun t x a _ => forall b, reads t x b -> a = b)
           (fun ts xs a _ => forall b, reads_all ts xs b -> a = b)).
  - intros b H. inversion H; reflexivity.
  - intros b c H. inversion H; reflexivity.
  - intros b c H. inversion H; reflexivity.
  - intros b c H. inversion H; reflexivity.
  - intros k b c H. inversion H; reflexivity.
  - intros t b H. inversion H; subst; congruence.
  - intros t x d N R IH b H. inversion H; subst; [congruence|]. f_equal. auto.
  - intros t e b H. inversion H as [| | | | | | | |? ? ? NE| | | |]; subst; [reflexivity|]. now destruct (NE e).
  - intros t x d N R IH b H. inversion H as [| | | | | | |? e'| | | | |]; subst; [now destruct (N e')|]. f_equal. auto.
  - intros ts xs l R IH b H. inversion H; subst. f_equal. auto.
  - intros b c H. inversion H; reflexivity.
  - intros b c H. inversion H; reflexivity.
  - intros b c H. inversion H; reflexivity.
  - intros b H. inversion H; reflexivity.
  - intros t ts x xs d l R IH1 RA IH2 b H. inversion H; subst. f_equal; auto.
Qed.
