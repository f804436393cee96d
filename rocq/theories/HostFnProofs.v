(* The container host functions agree with their meaning on trees. *)
From Coq Require Import ZArith Lia List Bool Sorted.
From Verif Require Import Prelude ValModel ValSpec ValProofs SymbolProofs ContainerModel ContainerSpec ContainerProofs HeapModel
  HeapSpec TreeProofs HeapProofs ConvProofs HeapProofs2 HostFnModel HostFnSpec SeqProofs MapFnProofs.
Import ListNotations.
Open Scope Z_scope.

(* ------------------------------------------------- arguments *)

Lemma tag_eq_dec (a b : tag) : {a = b} + {a <> b}.
Proof. decide equality. Defined.
Lemma tag_false w t : real_tag t = true -> get_tag w <> t -> has_tag w t = false.
Proof. intros R N. destruct (has_tag w t) eqn:E; auto. apply has_tag_get_tag in E; tauto. Qed.
Lemma tag_true w t : real_tag t = true -> get_tag w = t -> has_tag w t = true.
Proof. intros R N. now apply has_tag_get_tag. Qed.

Lemma obj_tag_shape h o t : obj_denotes h o t ->
  (hobj_tag o = TgMapObject <-> exists m, o = HOMap m) /\ (hobj_tag o = TgVecObject <-> exists m, o = HOVec m)
  /\ (hobj_tag o = TgBytesObject <-> exists m, o = HOBytes m) /\ (hobj_tag o = TgStringObject <-> exists m, o = HOString m)
  /\ (hobj_tag o = TgSymbolObject <-> exists m, o = HOSymbol m) /\ hobj_tag o <> TgSymbolSmall /\ hobj_tag o <> TgVoid.
Proof.
  intros D. destruct o as [[]| | | | | | | |]; cbn; repeat split; try discriminate; eauto;
    intros (? & ?); discriminate.
Qed.

Lemma small_tags w t : small_denotes w t ->
  get_tag w <> TgMapObject /\ get_tag w <> TgVecObject /\ get_tag w <> TgBytesObject /\ get_tag w <> TgStringObject
  /\ get_tag w <> TgSymbolObject
  /\ (get_tag w = TgSymbolSmall <-> exists b, t = TSymbol b) /\ (get_tag w = TgVoid <-> t = TVoid)
  /\ match t with TMap _ | TVec _ | TBytes _ | TString _ | TExe _ | TAddr _ => False | _ => True end.
Proof.
  intros D. destruct (small_facts w t D) as (-> & _ & F & _ & _).
  destruct t as [[]| | | | |[] ?| | | | | | |]; cbn [sfield] in F; try contradiction; clear;
    cbn [stag small_tag]; repeat split; try discriminate; eauto;
    intros (? & ?); discriminate.
Qed.

Lemma arg_map_den h w t : denotes h w t ->
  match arg_map h w with
  | Ok m => exists ts, t = TMap ts /\ denotes_pairs h m ts /\ short m /\ map_sorted ts
  | Err e => forall f, on_map t f = None
  end.
Proof.
  intros D. unfold arg_map, typed. destruct (denotes_cases h w t D) as [S|(i & o & -> & N & L & O)].
  - destruct (small_tags w t S) as (A & _ & _ & _ & _ & _ & _ & T). rewrite tag_false by auto.
    destruct t; contradiction || reflexivity.
  - destruct (obj_tag_shape h o t O) as (A & _). destruct (tag_eq_dec (hobj_tag o) TgMapObject) as [E|E].
    + rewrite tag_true by (auto; now rewrite obj_get_tag). unfold visit_map. rewrite (visit_obj h i o N L). cbn [rbind].
      apply A in E as (m & ->). inversion O; subst. eauto 6.
    + rewrite tag_false by (auto; now rewrite obj_get_tag).
      intros f. inversion O; subst; try reflexivity. now destruct E.
Qed.

Lemma arg_vec_den h w t : denotes h w t ->
  match arg_vec h w with
  | Ok m => exists ts, t = TVec ts /\ denotes_list h m ts /\ short m
  | Err e => forall f, on_vec t f = None
  end.
Proof.
  intros D. unfold arg_vec, typed. destruct (denotes_cases h w t D) as [S|(i & o & -> & N & L & O)].
  - destruct (small_tags w t S) as (A0 & A1 & A2 & A3 & _ & _ & _ & T). rewrite tag_false by auto.
    destruct t; contradiction || reflexivity.
  - destruct (obj_tag_shape h o t O) as (A0 & A1 & A2 & A3 & _). destruct (tag_eq_dec (hobj_tag o) TgVecObject) as [E|E].
    + rewrite tag_true by (auto; now rewrite obj_get_tag). unfold visit_vec. rewrite (visit_obj h i o N L). cbn [rbind].
      apply A1 in E as (m & ->). inversion O; subst. eauto 6.
    + rewrite tag_false by (auto; now rewrite obj_get_tag).
      inversion O; subst; try reflexivity. now destruct E.
Qed.

Lemma arg_bytes_den h w t : denotes h w t ->
  match arg_bytes h w with
  | Ok m => t = TBytes m /\ bytes_ok m
  | Err e => forall f, on_bytes t f = None
  end.
Proof.
  intros D. unfold arg_bytes, typed. destruct (denotes_cases h w t D) as [S|(i & o & -> & N & L & O)].
  - destruct (small_tags w t S) as (A0 & A1 & A2 & A3 & _ & _ & _ & T). rewrite tag_false by auto.
    destruct t; contradiction || reflexivity.
  - destruct (obj_tag_shape h o t O) as (A0 & A1 & A2 & A3 & _). destruct (tag_eq_dec (hobj_tag o) TgBytesObject) as [E|E].
    + rewrite tag_true by (auto; now rewrite obj_get_tag). unfold visit_bytes. rewrite (visit_obj h i o N L). cbn [rbind].
      apply A2 in E as (m & ->). inversion O; subst. eauto 6.
    + rewrite tag_false by (auto; now rewrite obj_get_tag).
      inversion O; subst; try reflexivity. now destruct E.
Qed.

Lemma arg_string_den h w t : denotes h w t ->
  match arg_string h w with
  | Ok m => t = TString m /\ bytes_ok m
  | Err e => forall (f : list Z -> option (list tval)), match t with TString l => f l | _ => None end = None
  end.
Proof.
  intros D. unfold arg_string, typed. destruct (denotes_cases h w t D) as [S|(i & o & -> & N & L & O)].
  - destruct (small_tags w t S) as (A0 & A1 & A2 & A3 & _ & _ & _ & T). rewrite tag_false by auto.
    destruct t; contradiction || reflexivity.
  - destruct (obj_tag_shape h o t O) as (A0 & A1 & A2 & A3 & _). destruct (tag_eq_dec (hobj_tag o) TgStringObject) as [E|E].
    + rewrite tag_true by (auto; now rewrite obj_get_tag). unfold visit_string. rewrite (visit_obj h i o N L). cbn [rbind].
      apply A3 in E as (m & ->). inversion O; subst. eauto 6.
    + rewrite tag_false by (auto; now rewrite obj_get_tag).
      inversion O; subst; try reflexivity. now destruct E.
Qed.

Lemma symbol_text_den h w t : denotes h w t ->
  match symbol_text h w with Ok s => t = TSymbol s | Err _ => is_sym t = false end.
Proof.
  intros D. unfold symbol_text. destruct (denotes_cases h w t D) as [S|(i & o & -> & N & L & O)].
  - destruct (small_facts w t S) as (_ & _ & F & W & G). destruct (small_tags w t S) as (_ & _ & _ & _ & A & B & _ & T).
    destruct (tag_eq_dec (get_tag w) TgSymbolSmall) as [E|E].
    + rewrite tag_true by auto. destruct (proj1 B E) as (b & ->). rewrite symbol_str_chars by auto. cbn [sfield] in F. now rewrite F.
    + rewrite tag_false by auto. rewrite tag_false by auto. destruct t; try reflexivity. exfalso. apply E, B. eauto.
  - destruct (obj_tag_shape h o t O) as (_ & _ & _ & _ & A & B & _).
    rewrite (tag_false (obj_word i o) TgSymbolSmall) by (auto; now rewrite obj_get_tag).
    destruct (tag_eq_dec (hobj_tag o) TgSymbolObject) as [E|E].
    + rewrite tag_true by (auto; now rewrite obj_get_tag). unfold visit_symbol. rewrite (visit_obj h i o N L). cbn [rbind].
      apply A in E as (m & ->). inversion O; subst. reflexivity.
    + rewrite tag_false by (auto; now rewrite obj_get_tag). inversion O; subst; try reflexivity. now destruct E.
Qed.

Lemma integrity h w t : denotes h w t -> check_val_integrity h w = Ok tt.
Proof.
  intros D. unfold check_val_integrity. destruct (denotes_cases h w t D) as [S|(i & o & -> & N & L & O)].
  - destruct (small_facts w t S) as (_ & F & _ & W & ->). now rewrite F.
  - destruct (denotes_live h _ _ D) as (_ & -> & _). rewrite obj_is_object by auto. cbn [negb].
    rewrite (visit_obj h i o N L). cbn [rbind]. rewrite obj_get_tag by auto. now rewrite Z.eqb_refl.
Qed.
Lemma check_all_den h l ts : denotes_list h l ts -> check_all h l = Ok tt.
Proof. induction 1 as [|w t ws ts D DL IH]; cbn [check_all]; auto. rewrite (integrity h w t D). exact IH. Qed.

Lemma void_den h : denotes h val_void TVoid.
Proof. exact (dn_atom h AVoid TVoid I eq_refl). Qed.
Lemma bool_den h b : denotes h (val_of_bool b) (TBool b).
Proof. replace (val_of_bool b) with (word_of_atom (ABool b)) by (destruct b; reflexivity). exact (dn_atom h (ABool b) (TBool b) I eq_refl). Qed.
Lemma u32_den h x : 0 <= x <= u32_max -> denotes h (val_of_u32 x) (TU32 x).
Proof.
  intros R. assert (A : atom_ok (AU32 x)) by (cbn; unfold_widths; lia).
  rewrite (proj1 (u32_roundtrip x A)). exact (dn_atom h (AU32 x) (TU32 x) A eq_refl).
Qed.
Lemma len_den {A C} h (l : list A) (ts : list C) : short l -> length l = length ts ->
  exists w, u32val_of_len (length l) = Ok w /\ denotes h w (len_val ts).
Proof.
  intros S E. unfold u32val_of_len, fits_u32, len_val. unfold short in S. rewrite <- E.
  destruct (Z.leb_spec (Z.of_nat (length l)) u32_max); [|lia]. eexists. split; [reflexivity|]. apply u32_den. lia.
Qed.
Lemma pos_den h o n : (forall i, o = Some i -> Z.of_nat i <= n) -> n <= u32_max ->
  exists w, index_val o = Ok w /\ denotes h w (pos_val o).
Proof.
  intros L N. destruct o as [i|]; cbn.
  - unfold u32val_of_len, fits_u32. specialize (L i eq_refl). destruct (Z.leb_spec (Z.of_nat i) u32_max); [|lia].
    eexists. split; [reflexivity|]. apply u32_den. lia.
  - exists val_void. split; auto. apply void_den.
Qed.

(* ------------------------------------------------- unpacking *)

Definition getdef (ts : tmap) (k : list Z) : tval :=
  match map_get ts (TSymbol k) with Some v => v | None => TVoid end.
Definition with_prev (prev : option (list Z)) (keys : list (list Z)) : list (list Z) :=
  match prev with Some p => p :: keys | None => keys end.

Lemma tcmp_sym_sym a b : tcmp (TSymbol a) (TSymbol b) = lex a b.
Proof. reflexivity. Qed.
Lemma lex_trans a b c : lex a b = Lt -> lex b c = Lt -> lex a c = Lt.
Proof. rewrite <- !tcmp_sym_sym. apply tcmp_trans. Qed.
Lemma lex_gt a b : lex a b = Gt <-> lex b a = Lt.
Proof. rewrite <- !tcmp_sym_sym. apply tcmp_gt. Qed.
Lemma lex_eq a b : lex a b = Eq <-> a = b.
Proof. rewrite <- tcmp_sym_sym, tcmp_eq. split; congruence. Qed.

Lemma ascending_SS l : ascending l = true <-> StronglySorted (fun a b => lex a b = Lt) l.
Proof.
  induction l as [|a [|b l] IH].
  - split; auto. constructor.
  - split; auto. constructor; constructor.
  - change (ascending (a :: b :: l)) with (match lex a b with Lt => ascending (b :: l) | _ => false end). split.
    + destruct (lex a b) eqn:E; try discriminate. intros H. apply IH in H. constructor; auto.
      constructor; auto. inversion H as [|? ? S F]; subst. eapply Forall_impl; [|exact F].
      intros c Hc. eapply lex_trans; eauto.
    + intros H. inversion H as [|? ? S F]; subst. rewrite (Forall_inv F). now apply IH.
Qed.
Lemma ascending_cons a l : ascending (a :: l) = true <-> Forall (fun b => lex a b = Lt) l /\ ascending l = true.
Proof.
  rewrite !ascending_SS. split.
  - inversion 1; auto.
  - intros [F S]. constructor; auto.
Qed.

Lemma unpack_one_den h m ts key : denotes_pairs h m ts -> map_sorted ts ->
  match unpack_one h true m key with
  | Ok (w, m') => exists ts', denotes_pairs h m' ts' /\ map_sorted ts'
        /\ forallb (fun p => is_sym (fst p)) ts = forallb (fun p => is_sym (fst p)) ts'
        /\ denotes h w (getdef ts key)
        /\ forall k, lex key k = Lt -> getdef ts k = getdef ts' k
  | Err _ => forallb (fun p => is_sym (fst p)) ts = false
  end.
Proof.
  induction 1 as [|k v tk tv m ts K V D IH]; intros S; cbn [unpack_one].
  - exists []. repeat split; auto; try constructor. apply void_den.
  - pose proof (symbol_text_den h k tk K) as T. destruct (symbol_text h k) as [s|e]; cbn [rbind].
    2:{ cbn. now rewrite T. }
    subst tk. rewrite bytes_cmp_lex. pose proof (sorted_split [] _ _ S) as [_ G]. cbn [fst] in G.
    pose proof (proj2 (sorted_app [(TSymbol s, tv)] ts S)) as S'.
    destruct (lex s key) eqn:E.
    + apply lex_eq in E. subst s. exists ts. split; auto. split; auto. split; [reflexivity|]. split.
      * unfold getdef. cbn [map_get assoc]. unfold map_get, assoc. now rewrite tcmp_refl.
      * intros k' L. unfold getdef, map_get. cbn [assoc]. now rewrite tcmp_sym_sym, L.
    + specialize (IH S'). destruct (unpack_one h true m key) as [[w m']|e].
      * destruct IH as (ts' & I1 & I2 & I3 & I4 & I5). exists ts'. split; auto. split; auto. split.
        { cbn. exact I3. }
        split.
        { unfold getdef, map_get in *. cbn [assoc]. now rewrite tcmp_sym_sym, E. }
        intros k' L. rewrite <- I5 by auto. unfold getdef, map_get. cbn [assoc].
        now rewrite tcmp_sym_sym, (lex_trans _ _ _ E L).
      * cbn. exact IH.
    + exists ((TSymbol s, tv) :: ts). split; [constructor; auto|]. split; auto. split; auto. split; auto.
      unfold getdef, map_get. cbn [assoc]. rewrite tcmp_sym_sym, E.
      change (assoc tcmp (fun t => t) ts (TSymbol key)) with (map_get ts (TSymbol key)).
      rewrite assoc_above; [apply void_den|]. apply lex_gt in E. eapply Forall_impl; [|exact G].
      intros p P. cbv beta in P. eapply tcmp_trans; [|exact P]. exact E.
Qed.

Lemma check_symbol_keys_den h m ts : denotes_pairs h m ts ->
  match check_symbol_keys h m with
  | Ok _ => forallb (fun p => is_sym (fst p)) ts = true
  | Err _ => forallb (fun p => is_sym (fst p)) ts = false
  end.
Proof.
  induction 1 as [|k v tk tv m ts K V D IH]; cbn [check_symbol_keys]; auto.
  assert (E : has_tag k TgSymbolSmall || has_tag k TgSymbolObject = is_sym tk).
  { destruct (denotes_cases h k tk K) as [S|(i & o & -> & N & L & O)].
    - destruct (small_tags k tk S) as (_ & _ & _ & _ & A & B & _ & T). rewrite (tag_false k TgSymbolObject) by auto.
      destruct (tag_eq_dec (get_tag k) TgSymbolSmall) as [E|E].
      + rewrite tag_true by auto. destruct (proj1 B E) as (b & ->). reflexivity.
      + rewrite tag_false by auto. destruct tk; try reflexivity. exfalso. apply E, B. eauto.
    - destruct (obj_tag_shape h o tk O) as (_ & _ & _ & _ & A & B & _).
      rewrite (tag_false (obj_word i o) TgSymbolSmall) by (auto; now rewrite obj_get_tag).
      destruct (tag_eq_dec (hobj_tag o) TgSymbolObject) as [E|E].
      + rewrite tag_true by (auto; now rewrite obj_get_tag). apply A in E as (b & ->). inversion O; subst. reflexivity.
      + rewrite tag_false by (auto; now rewrite obj_get_tag). inversion O; subst; try reflexivity. now destruct E. }
  rewrite E. cbn [forallb fst]. destruct (is_sym tk); auto.
Qed.

Lemma unpack_sparse h keys : forall prev m ts, denotes_pairs h m ts -> map_sorted ts ->
  match unpack_loop h true prev m keys with
  | Ok ws => forallb (fun p => is_sym (fst p)) ts = true
             /\ (ascending keys = true -> ascending (with_prev prev keys) = true)
             /\ ascending keys = true
             /\ denotes_list h ws (map (getdef ts) keys)
  | Err _ => ascending (with_prev prev keys) && forallb (fun p => is_sym (fst p)) ts = false
  end.
Proof.
  induction keys as [|key keys IH]; intros prev m ts D S; cbn [unpack_loop].
  - pose proof (check_symbol_keys_den h m ts D) as C. destruct (check_symbol_keys h m); cbn [rbind].
    + repeat split; auto; try constructor. destruct prev; auto.
    + rewrite C. apply andb_false_r.
  - destruct (match prev with Some p => _ | None => _ end) as [[]|e] eqn:P; cbn [rbind].
    2:{ destruct prev as [p|]; [|discriminate]. rewrite bytes_cmp_lex in P.
        change (with_prev (Some p) (key :: keys)) with (p :: key :: keys).
        change (ascending (p :: key :: keys)) with (match lex p key with Lt => ascending (key :: keys) | _ => false end).
        destruct (lex p key); try discriminate; reflexivity. }
    assert (PA : ascending (key :: keys) = true -> ascending (with_prev prev (key :: keys)) = true).
    { destruct prev as [p|]; auto. rewrite bytes_cmp_lex in P.
      change (with_prev (Some p) (key :: keys)) with (p :: key :: keys).
      change (ascending (p :: key :: keys)) with (match lex p key with Lt => ascending (key :: keys) | _ => false end).
      destruct (lex p key); try discriminate; auto. }
    assert (PB : ascending (with_prev prev (key :: keys)) = true -> ascending (key :: keys) = true).
    { destruct prev as [p|]; auto. intros H. now apply ascending_cons in H. }
    pose proof (unpack_one_den h m ts key D S) as U. destruct (unpack_one h true m key) as [[w m']|e]; cbn [rbind snd fst].
    2:{ rewrite U. apply andb_false_r. }
    destruct U as (ts' & D' & S' & F & W & G). specialize (IH (Some key) m' ts' D' S').
    destruct (unpack_loop h true (Some key) m' keys) as [ws|e]; cbn [rbind].
    + destruct IH as (I1 & I2 & I3 & I4). split; [congruence|]. specialize (I2 I3).
      split; [intros; auto|]. split; [exact I2|].
      cbn [map]. constructor; auto. apply ascending_cons in I2 as [A _].
      rewrite (map_ext_in (getdef ts) (getdef ts')); auto. intros k I. apply G. rewrite Forall_forall in A. auto.
    + rewrite F. cbn [with_prev] in IH. destruct (ascending (with_prev prev (key :: keys))) eqn:E; auto.
      specialize (PB eq_refl). rewrite PB in IH. exact IH.
Qed.

Lemma unpack_strict h keys : forall prev m ts, denotes_pairs h m ts -> map_sorted ts -> length m = length keys ->
  match prev with Some p => above (TSymbol p) ts | None => True end ->
  match unpack_loop h false prev m keys with
  | Ok ws => same_keys ts keys = true /\ denotes_list h ws (map snd ts)
  | Err _ => same_keys ts keys = false
  end.
Proof.
  induction keys as [|key keys IH]; intros prev m ts D S L P; destruct D as [|k v tk tv m ts K V D]; try discriminate;
    cbn [unpack_loop].
  - cbn. split; auto; constructor.
  - pose proof (sorted_split [] _ _ S) as [_ G]. cbn [fst] in G.
    pose proof (proj2 (sorted_app [(tk, tv)] ts S)) as S'.
    pose proof (symbol_text_den h k tk K) as T.
    destruct (match prev with Some p => _ | None => _ end) as [[]|e] eqn:PE; cbn [rbind].
    2:{ destruct prev as [p|]; [|discriminate]. rewrite bytes_cmp_lex in PE. pose proof (Forall_inv P) as Q. cbn [fst] in Q.
        destruct tk; try reflexivity. cbn [same_keys]. rewrite tcmp_sym_sym in Q.
        destruct (lex b key) eqn:E; auto. apply lex_eq in E. subst b. rewrite Q in PE. discriminate. }
    cbn [unpack_one]. destruct (symbol_text h k) as [s|e]; cbn [rbind].
    2:{ destruct tk; try reflexivity. discriminate. }
    subst tk. rewrite bytes_cmp_lex. cbn [same_keys]. destruct (lex s key) eqn:E; cbn [rbind]; auto.
    apply lex_eq in E. subst s. cbn [fst snd].
    specialize (IH (Some key) m ts D S' ltac:(cbn in L; lia) G).
    destruct (unpack_loop h false (Some key) m keys) as [ws|e]; cbn [rbind]; auto.
    destruct IH as [I1 I2]. split; auto. cbn [map snd]. constructor; auto.
Qed.
Lemma same_keys_length ts : forall keys, same_keys ts keys = true -> length ts = length keys.
Proof.
  induction ts as [|[k v] ts IH]; intros [|key keys]; cbn; try discriminate; auto.
  - destruct k; discriminate.
  - destruct k; try discriminate. destruct (lex b key); try discriminate. intros. f_equal. auto.
Qed.

Lemma unpack_den h sparse m ts keys : denotes_pairs h m ts -> map_sorted ts ->
  match map_unpack h sparse m keys with
  | Ok ws => exists us, astep (OMapUnpack sparse (TMap ts) keys) = Some us /\ denotes_list h ws us
  | Err _ => astep (OMapUnpack sparse (TMap ts) keys) = None
  end.
Proof.
  intros D S. pose proof (denotes_pairs_length _ _ _ D) as L. unfold map_unpack. cbn [astep on_map].
  destruct sparse; cbn [negb andb].
  - pose proof (unpack_sparse h keys None m ts D S) as U. cbn [with_prev] in U.
    destruct (unpack_loop h true None m keys) as [ws|e].
    + destruct U as (A & _ & C & E). rewrite A, C. eexists. split; [reflexivity|]. exact E.
    + rewrite U. reflexivity.
  - destruct (Nat.eqb_spec (length m) (length keys)) as [E|E]; cbn [negb].
    + pose proof (unpack_strict h keys None m ts D S E I) as U.
      destruct (unpack_loop h false None m keys) as [ws|e].
      * destruct U as [-> U]. eexists. split; [reflexivity|]. exact U.
      * rewrite U. reflexivity.
    + destruct (same_keys ts keys) eqn:F; auto. apply same_keys_length in F. lia.
Qed.

(* ------------------------------------------------- building from slices *)

Lemma symbolb_spec b : symbolb b = true <-> valid_symbol b.
Proof.
  unfold symbolb, valid_symbol. rewrite andb_true_iff, Nat.leb_le, forallb_forall, Forall_forall.
  assert (E : forall c, sym_charb c = true <-> sym_char c) by (intros c; unfold sym_charb, sym_char; lia).
  split; intros [A B]; split; auto; intros c I; apply E; auto.
Qed.

Lemma index_to_handle_err n e : index_to_handle n false = Err e -> u32_max < Z.of_nat n.
Proof.
  unfold index_to_handle, fits_u32. destruct (Z.leb_spec (Z.of_nat n) u32_max) as [L|L]; [|auto].
  cbv zeta. generalize (Z.lor (as_u32 (Z.shiftl (Z.of_nat n) 1)) 1). discriminate.
Qed.
Lemma add_fits h o h' e : add_host_object h o = (h', Err e) -> ~ fits h'.
Proof.
  unfold add_host_object. intros E. destruct (index_to_handle (length h) false) as [z|e'] eqn:I.
  - revert E. generalize (object_word z (hobj_tag o)). discriminate.
  - assert (h' = h) by congruence. subst h'. apply index_to_handle_err in I. unfold fits, u32_max in *. lia.
Qed.

Lemma symbol_of_bytes_den h b h' r : symbol_of_bytes h b = (h', r) ->
  extends h h' /\ (fits h' -> (heap_ok h -> heap_ok h')
    /\ match r with
       | Ok w => symbolb b = true /\ denotes h' w (TSymbol b)
       | Err _ => symbolb b = false
       end).
Proof.
  unfold symbol_of_bytes. intros E. destruct (symbol_small_from_bytes b) as [w|] eqn:W.
  - injection E as <- <-. split; [apply extends_refl|]. intros _. split; auto.
    split; [|exact (symbol_word_denotes h w b (sw_small h w b W))].
    apply symbolb_spec. destruct (symbol_small_from_bytes_spec b) as [(A & B' & _)|(A & B')]; [|congruence].
    split; auto. lia.
  - destruct (symbol_bytes_ok b) eqn:O.
    + pose proof (proj1 (symbol_bytes_ok_spec b) O) as V.
      destruct (add_step h (HOSymbol b) (TSymbol b) h' r E (fun _ => do_symbol h b V)) as [X Y]. split; auto.
      intros F. destruct (Y F) as [Y1 Y2]. split; auto. destruct r as [w|e].
      * split; auto. now apply symbolb_spec.
      * destruct (add_fits _ _ _ _ E F).
    + injection E as <- <-. split; [apply extends_refl|]. intros _. split; auto.
      destruct (symbolb b) eqn:Sb; auto. apply symbolb_spec, symbol_bytes_ok_spec in Sb. congruence.
Qed.

Definition kept (sparse : bool) (keys : list (list Z)) (vals : list tval) : tmap :=
  filter (fun p => negb (sparse && is_void (snd p))) (combine (map TSymbol keys) vals).

Lemma extends_pairs h h' l ts : extends h h' -> denotes_pairs h l ts -> denotes_pairs h' l ts.
Proof. intros [x ->]. apply denotes_pairs_ext. Qed.
Lemma extends_list h h' l ts : extends h h' -> denotes_list h l ts -> denotes_list h' l ts.
Proof. intros [x ->]. apply denotes_list_ext. Qed.

Lemma void_tag h w t : denotes h w t -> has_tag w TgVoid = is_void t.
Proof.
  intros D. destruct (denotes_cases h w t D) as [S|(i & o & -> & N & L & O)].
  - destruct (small_tags w t S) as (_ & _ & _ & _ & _ & _ & A & _).
    destruct (tag_eq_dec (get_tag w) TgVoid) as [E|E].
    + rewrite tag_true by auto. now rewrite (proj1 A E).
    + rewrite tag_false by auto. destruct t; try reflexivity. exfalso. tauto.
  - destruct (obj_tag_shape h o t O) as (_ & _ & _ & _ & _ & _ & A).
    rewrite tag_false by (auto; now rewrite obj_get_tag). inversion O; reflexivity.
Qed.

Lemma map_entries_den d sparse keys : forall h prev pt vals tvs h' r,
  denotes_list h vals tvs -> length keys = length vals ->
  match prev, pt with Some w, Some b => denotes h w (TSymbol b) | None, None => True | _, _ => False end ->
  map_entries d h sparse prev keys vals = (h', r) ->
  extends h h' /\ (fits h' -> (heap_ok h -> heap_ok h')
    /\ match r with
       | Ok l => forallb symbolb keys = true /\ (sparse = true -> ascending (with_prev pt keys) = true)
                 /\ denotes_pairs h' l (kept sparse keys tvs)
       | Err e => forallb symbolb keys = false \/ (sparse = true /\ ascending (with_prev pt keys) = false)
                  \/ (e = e_depth /\ d = 0%nat /\ keys <> [])
       end).
Proof.
  induction keys as [|kb keys IH]; intros h prev pt vals tvs h' r D L P E; destruct D as [|v tv vals tvs V D];
    try discriminate.
  { cbn in E. injection E as <- <-. split; [apply extends_refl|]. intros _. split; auto. split; auto. split; [|constructor].
    intros _. destruct pt; reflexivity. }
  cbn [map_entries] in E. destruct (symbol_of_bytes h kb) as [h1 rk] eqn:SB.
  destruct (symbol_of_bytes_den h kb h1 rk SB) as [X1 Y1].
  destruct rk as [k|e].
  2:{ injection E as <- <-. split; auto. intros F. destruct (Y1 F) as [O B']. split; auto. left. cbn. now rewrite B'. }
  match type of E with match ?c with _ => _ end = _ => set (chk := c) in E end.
  assert (CK : fits h1 -> match chk with
     | Ok _ => sparse = true -> match pt with Some b => lex b kb = Lt | None => True end
     | Err e => (sparse = true /\ exists b, pt = Some b /\ lex b kb <> Lt) \/ (e = e_depth /\ d = 0%nat) end).
  { intros F. destruct (Y1 F) as [_ [_ K1]]. subst chk. destruct prev as [p|], pt as [b|]; try contradiction; [|auto].
    destruct sparse; [|intros; discriminate].
    pose proof (extends_denotes _ _ _ _ X1 P) as P1. pose proof (cmp_val_ok h1 d p k _ _ P1 K1) as C.
    destruct (cmp_val d h1 p k) as [c|e]; cbn [cmp_res] in C; cbn [rbind].
    - rewrite tcmp_sym_sym in C. subst c. destruct (lex b kb) eqn:X; auto; left; split; auto; exists b; split; congruence.
    - right. destruct C as (-> & C & _). split; auto. cbn in C. lia. }
  destruct chk as [[]|e].
  2:{ injection E as <- <-. split; auto. intros F. destruct (Y1 F) as [O [B' K1]]. split; auto.
      destruct (CK F) as [[Sp (b & -> & N)]|[-> ->]].
      - right; left. split; auto. cbn [with_prev].
        change (ascending (b :: kb :: keys)) with (match lex b kb with Lt => ascending (kb :: keys) | _ => false end).
        destruct (lex b kb); auto. now destruct N.
      - right; right. repeat split; auto. discriminate. }
  pose proof (extends_denotes _ _ _ _ X1 V) as V1. rewrite (integrity h1 v tv V1) in E.
  destruct (map_entries d h1 sparse (Some k) keys vals) as [h2 r2] eqn:ME.
  injection E as <- <-.
  (* the key denotes only when the table fits; split on that *)
  assert (X2 : extends h1 h2 /\ (fits h2 -> fits h1)).
  { destruct (Z_le_dec (Z.of_nat (length h1)) (2 ^ 31)) as [F1|F1].
    - destruct (Y1 F1) as [_ [_ K1]].
      destruct (IH h1 (Some k) (Some kb) vals tvs h2 r2 (extends_list _ _ _ _ X1 D) ltac:(cbn in L; lia) K1 ME) as [A _].
      split; auto.
    - assert (A : extends h1 h2).
      { clear -ME. revert h1 k vals h2 r2 ME. induction keys as [|kb keys IH]; intros h1 k vals h2 r2 ME.
        - cbn in ME. injection ME as <- <-. apply extends_refl.
        - destruct vals as [|v vals]; [cbn in ME; injection ME as <- <-; apply extends_refl|].
          cbn [map_entries] in ME. destruct (symbol_of_bytes h1 kb) as [h3 rk] eqn:SB.
          destruct (symbol_of_bytes_den h1 kb h3 rk SB) as [X _].
          destruct rk as [k3|]; [|injection ME as <- <-; exact X].
          match type of ME with match ?c with _ => _ end = _ => destruct c as [[]|] end; [|injection ME as <- <-; exact X].
          destruct (check_val_integrity h3 v); [|injection ME as <- <-; exact X].
          destruct (map_entries d h3 sparse (Some k3) keys vals) as [h4 r4] eqn:M4. injection ME as <- <-.
          eapply extends_trans; [exact X|]. eapply IH; eauto. }
      split; auto. intros F2. exact (extends_fits _ _ A F2). }
  destruct X2 as [X2 F21]. split; [eapply extends_trans; eauto|]. intros F2. pose proof (F21 F2) as F1.
  destruct (Y1 F1) as [O1 [B1 K1]].
  destruct (IH h1 (Some k) (Some kb) vals tvs h2 r2 (extends_list _ _ _ _ X1 D) ltac:(cbn in L; lia) K1 ME) as [_ A].
  destruct (A F2) as [O2 R2]. split; [auto|]. specialize (CK F1).
  assert (WP : ascending (with_prev (Some kb) keys) = ascending (kb :: keys)) by reflexivity.
  destruct r2 as [l|e]; cbn [rmap].
  - destruct R2 as (B2 & A2 & D2). split; [cbn; now rewrite B1|]. split.
    + intros Sp. specialize (A2 Sp). specialize (CK Sp). rewrite WP in A2. destruct pt as [b|]; auto.
      cbn [with_prev]. change (ascending (b :: kb :: keys)) with (match lex b kb with Lt => ascending (kb :: keys) | _ => false end).
      now rewrite CK.
    + unfold kept. cbn [map combine filter snd]. rewrite (void_tag h1 v tv V1).
      destruct (sparse && is_void tv); cbn [negb]; [exact D2|].
      constructor; [exact (extends_denotes _ _ _ _ X2 K1)|exact (extends_denotes _ _ _ _ X2 V1)|exact D2].
  - destruct R2 as [R|[[Sp R]|(-> & -> & R)]].
    + left. cbn. rewrite R. apply andb_false_r.
    + right; left. split; auto. rewrite WP in R. destruct pt as [b|]; auto. cbn [with_prev].
      change (ascending (b :: kb :: keys)) with (match lex b kb with Lt => ascending (kb :: keys) | _ => false end).
      rewrite R. now destruct (lex b kb).
    + right; right. repeat split; auto. discriminate.
Qed.

Lemma SS_filter {A} (R : A -> A -> Prop) f l : StronglySorted R l -> StronglySorted R (filter f l).
Proof.
  induction 1 as [|a l S IH F]; cbn; [constructor|]. destruct (f a); auto. constructor; auto.
  apply Forall_forall. intros x I. apply filter_In in I as [I _]. rewrite Forall_forall in F. auto.
Qed.
Lemma combine_sorted keys (vals : list tval) : length keys = length vals ->
  (ascending keys = true <-> map_sorted (combine (map TSymbol keys) vals)).
Proof.
  intros L. rewrite ascending_SS. unfold map_sorted, keys_ascending.
  rewrite (SS_map (fun a b => tcmp a b = Lt) (fun p : tval * tval => fst p)).
  assert (E : map (fun p : tval * tval => fst p) (combine (map TSymbol keys) vals) = map TSymbol keys).
  { revert vals L. induction keys as [|k keys IH]; intros [|v vals] L; try discriminate; cbn; auto.
    f_equal. apply IH. now injection L. }
  rewrite E, <- SS_map. reflexivity.
Qed.
Lemma kept_keys sparse keys vals p : In p (kept sparse keys vals) -> exists b, fst p = TSymbol b.
Proof.
  unfold kept. intros I. apply filter_In in I as [I _]. destruct p as [a b]. apply in_combine_l in I.
  apply in_map_iff in I as (c & <- & _). cbn. eauto.
Qed.
Lemma kept_all keys vals : kept false keys vals = combine (map TSymbol keys) vals.
Proof. unfold kept. apply filter_all, Forall_forall. reflexivity. Qed.

Lemma from_slices_den d h sparse keys vals tvs h' r :
  denotes_list h vals tvs -> map_from_slices d h sparse keys vals = (h', r) ->
  extends h h' /\ (fits h' -> (heap_ok h -> heap_ok h')
    /\ match r with
       | Ok l => exists ts, astep (OMapFromSlices sparse keys tvs) = Some [TMap ts]
                 /\ denotes_pairs h' l ts /\ short l /\ map_sorted ts
       | Err e => astep (OMapFromSlices sparse keys tvs) = None \/ (e = e_depth /\ d = 0%nat /\ tvs <> [])
       end).
Proof.
  intros D E. pose proof (denotes_list_length _ _ _ D) as LD. unfold map_from_slices in E. cbn [astep].
  change (filter (fun p => negb (sparse && is_void (snd p))) (combine (map TSymbol keys) tvs)) with (kept sparse keys tvs).
  destruct (Nat.eqb_spec (length keys) (length vals)) as [L|L].
  2:{ injection E as <- <-. split; [apply extends_refl|]. intros _. split; auto. left.
      destruct (Nat.eqb_spec (length keys) (length tvs)); [lia|reflexivity]. }
  destruct (map_entries d h sparse None keys vals) as [h1 r1] eqn:ME.
  destruct (map_entries_den d sparse keys h None None vals tvs h1 r1 D L I ME) as [X Y].
  injection E as <- <-. split; auto. intros F. destruct (Y F) as [O R]. split; auto.
  destruct (Nat.eqb_spec (length keys) (length tvs)) as [L'|]; [|lia]. cbn [andb].
  assert (NE : keys <> [] -> tvs <> []) by (destruct keys, tvs; cbn in *; congruence).
  destruct r1 as [l|e]; cbn [rbind].
  2:{ cbn [with_prev] in R. destruct R as [->|[[_ ->]|(-> & -> & N)]]; auto. rewrite andb_false_r. auto. }
  destruct R as (B1 & A1 & D1). rewrite B1. cbn [andb with_prev] in *.
  destruct (ascending keys) eqn:A; cbn [andb].
  - assert (MS : map_sorted (kept sparse keys tvs)).
    { apply SS_filter. now apply combine_sorted. }
    pose proof (from_den h1 d l (kept sparse keys tvs) D1 MS) as FD.
    destruct (omap_from (cmp_val d h1) l) as [m|e].
    + destruct FD as [-> Sh]. exists (kept sparse keys tvs). repeat split; auto.
      replace (len_ok (kept sparse keys tvs)) with true; auto. symmetry. apply len_ok_short. unfold short in *.
      now rewrite <- (denotes_pairs_length _ _ _ D1).
    + destruct FD as [[-> Sh]|[-> Sh]].
      * left. destruct (len_ok (kept sparse keys tvs)) eqn:LK; auto. apply len_ok_short in LK. destruct Sh.
        unfold short in *. now rewrite (denotes_pairs_length _ _ _ D1).
      * right. apply Exists_exists in Sh as (p & Ip & Dp). destruct (kept_keys _ _ _ _ Ip) as (b & Eb). rewrite Eb in Dp.
        split; auto. split; [cbn in Dp; lia|]. apply NE. intros ->. cbn in Ip. exact Ip.
  - destruct (omap_from (cmp_val d h1) l) as [m|e] eqn:OF; [|auto].
    exfalso. destruct (omap_from_den _ _ _ _ _ D1 OF) as (-> & _ & MS). destruct sparse.
    + specialize (A1 eq_refl). congruence.
    + rewrite kept_all in MS. apply combine_sorted in MS; auto. congruence.
Qed.
