(* Denotation of words, and correctness of the host comparison. *)
From Coq Require Import ZArith Lia List Bool Sorted.
From Verif Require Import Prelude ValModel ValSpec ValProofs SymbolProofs GuestProofs
  ContainerModel ContainerSpec HeapModel HeapSpec TreeProofs.
Import ListNotations.
Open Scope Z_scope.
Ltac Zify.zify_post_hook ::= Z.div_mod_to_equations.

Scheme denotes_mi := Minimality for denotes Sort Prop
  with obj_denotes_mi := Minimality for obj_denotes Sort Prop
  with denotes_list_mi := Minimality for denotes_list Sort Prop
  with denotes_pairs_mi := Minimality for denotes_pairs Sort Prop.
Combined Scheme denotes_mutind from denotes_mi, obj_denotes_mi, denotes_list_mi, denotes_pairs_mi.

(* ------------------------------------------------------ object words *)

Lemma hobj_tag_object o : In (hobj_tag o) object_tags.
Proof. destruct o as [[] x| | | | | | | |]; simpl; tauto. Qed.

Lemma obj_atom_ok i o : Z.of_nat i < 2 ^ 31 -> atom_ok (AObj (hobj_tag o) (obj_handle i)).
Proof. intros. split; [apply hobj_tag_object|]. unfold obj_handle. lia. Qed.

Lemma obj_get_tag i o : Z.of_nat i < 2 ^ 31 -> get_tag (obj_word i o) = hobj_tag o.
Proof. intros. unfold obj_word. rewrite get_tag_word_of_atom; [reflexivity|now apply obj_atom_ok]. Qed.

Lemma obj_get_major i o : Z.of_nat i < 2 ^ 31 -> get_major (obj_word i o) = obj_handle i.
Proof.
  intros. pose proof (obj_atom_ok i o H) as OK. unfold obj_word.
  rewrite get_major_eq by (now apply word_of_atom_word).
  cbn [word_of_atom]. pose proof (tag_num_range (hobj_tag o)). lia.
Qed.

Lemma obj_is_object i o : Z.of_nat i < 2 ^ 31 -> is_object (obj_word i o) = true.
Proof. intros. apply u8_is_object_tag. rewrite obj_get_tag by auto. apply hobj_tag_object. Qed.

Lemma land_1 x : Z.land x 1 = x mod 2.
Proof. change 1 with (Z.ones 1) at 1. rewrite Z.land_ones by lia. reflexivity. Qed.

Lemma handle_index i : is_relative_handle (obj_handle i) = false /\ handle_to_index (obj_handle i) = i.
Proof.
  unfold is_relative_handle, handle_to_index, obj_handle. rewrite land_1, Z.shiftr_div_pow2 by lia.
  change (2 ^ 1) with 2. split.
  - apply Z.eqb_neq. lia.
  - replace ((2 * Z.of_nat i + 1) / 2) with (Z.of_nat i) by lia. apply Nat2Z.id.
Qed.

Lemma visit_obj h i o : nth_error h i = Some o -> Z.of_nat i < 2 ^ 31 ->
  visit_obj_untyped h (obj_word i o) = Ok o.
Proof.
  intros N L. unfold visit_obj_untyped. rewrite obj_get_major by auto.
  destruct (handle_index i) as [-> ->]. now rewrite N.
Qed.

Lemma obj_word_inj i j o p : Z.of_nat i < 2 ^ 31 -> Z.of_nat j < 2 ^ 31 ->
  obj_word i o = obj_word j p -> i = j /\ hobj_tag o = hobj_tag p.
Proof.
  intros A B E. unfold obj_word in E. apply word_of_atom_inj in E; try now apply obj_atom_ok.
  assert (E1 : hobj_tag o = hobj_tag p) by congruence.
  assert (E2 : obj_handle i = obj_handle j) by congruence.
  unfold obj_handle in E2. split; [lia|exact E1].
Qed.

(* ------------------------------------------------------ small words *)

Inductive small_denotes : Z -> tval -> Prop :=
| sd_atom a t : atom_ok a -> tree_of_atom a = Some t -> small_denotes (word_of_atom a) t
| sd_symbol w : word w -> is_good w = true -> get_tag w = TgSymbolSmall ->
    small_denotes w (TSymbol (symbol_small_chars w)).

Lemma denotes_cases h w t : denotes h w t ->
  small_denotes w t \/
  (exists i o, w = obj_word i o /\ nth_error h i = Some o /\ Z.of_nat i < 2 ^ 31 /\ obj_denotes h o t).
Proof. intros D. destruct D; [left; constructor; auto|left; constructor; auto|right; eauto 6]. Qed.

Lemma small_denotes_any h w t : small_denotes w t -> denotes h w t.
Proof. destruct 1; [eapply dn_atom|eapply dn_symbol]; eauto. Qed.

Definition stag (t : tval) : tag :=
  match t with
  | TBool false => TgFalse | TBool true => TgTrue | TVoid => TgVoid | TErr _ => TgError
  | TU32 _ => TgU32Val | TI32 _ => TgI32Val | TNum k _ => small_tag k
  | TSymbol _ => TgSymbolSmall
  | _ => TgBad
  end.

Definition sfield (w : Z) (t : tval) : Prop :=
  match t with
  | TErr _ => [get_minor w; get_major w] = tkey t
  | TU32 x => get_major w = x
  | TI32 x => as_i32 (get_major w) = x
  | TNum k x => small_to_num k w = Some x
                /\ (if signed_num k then get_signed_body w else get_body w) = x
  | TSymbol b => symbol_small_chars w = b
  | TBool _ | TVoid => True
  | _ => False
  end.

Lemma small_facts w t : small_denotes w t ->
  get_tag w = stag t /\ is_object w = false /\ sfield w t /\ word w /\ is_good w = true.
Proof.
  intros D. destruct D as [a t OK E|w W G T].
  - pose proof (get_tag_word_of_atom a OK) as TG. pose proof (word_of_atom_word a OK) as W.
    pose proof (good_word_of_atom a OK) as G.
    assert (NO : is_object (word_of_atom a) = false).
    { destruct (is_object (word_of_atom a)) eqn:O; auto. apply u8_is_object_tag in O.
      rewrite TG in O. destruct a as [[]| |u|i|[] x|e|t' h']; simpl in E, O; try discriminate;
        repeat (destruct O as [O|O]; [discriminate|]); destruct O. }
    destruct a as [b| |u|i|k x|e|t' h']; inversion E; subst; clear E; simpl in TG;
      (split; [first [exact TG | destruct b; exact TG]|]); (split; [exact NO|]);
      (split; [|split; assumption]); cbn [sfield]; auto.
    + rewrite get_major_eq by auto. cbn [word_of_atom atom_ok] in *. lia.
    + rewrite get_major_eq by auto. cbn [word_of_atom atom_ok] in *.
      replace (((i mod 2 ^ 32) * 2 ^ 32 + 5) / 2 ^ 32) with (i mod 2 ^ 32) by lia.
      unfold as_i32. destruct (_ <? _) eqn:L; lia.
    + pose proof (small_to_num_packed k x OK) as P. split; [exact P|].
      unfold small_to_num in P. cbn [word_of_atom].
      destruct (has_tag _ _); [|discriminate]. apply some_inj in P. rewrite <- P at 3.
      destruct k; reflexivity.
    + rewrite get_minor_eq, get_major_eq by auto. cbn [word_of_atom atom_ok] in *.
      destruct e as [c|ty c]; cbn [tkey].
      * f_equal; [|f_equal]; lia.
      * pose proof (ety_num_range ty). pose proof (ecode_num_range c).
        f_equal; [|f_equal]; lia.
  - rewrite T. split; [reflexivity|]. split; [|split; [reflexivity|split; assumption]].
    destruct (is_object w) eqn:O; auto. apply u8_is_object_tag in O. rewrite T in O. simpl in O.
    repeat (destruct O as [O|O]; [discriminate|]). destruct O.
Qed.

(* a small word denotes one tree *)
Lemma small_fun w t u : small_denotes w t -> small_denotes w u -> t = u.
Proof.
  intros A B. destruct (small_facts _ _ A) as (T1 & _ & F1 & _). destruct (small_facts _ _ B) as (T2 & _ & F2 & _).
  rewrite T1 in T2. clear T1 A B.
  destruct t as [[]| |e|x|x|k x|x|x|x|x|x|x|x]; cbn [sfield] in F1; try contradiction;
  destruct u as [[]| |e'|y|y|k' y|y|y|y|y|y|y|y]; cbn [sfield] in F2; try contradiction;
  cbn [stag] in T2; try discriminate T2; try (destruct k; discriminate T2); try (destruct k'; discriminate T2);
  try reflexivity; try congruence.
  - apply leaf_inj; auto. congruence.
  - apply small_tag_inj in T2. subst k'. destruct F1, F2. congruence.
Qed.

(* ------------------------------------------------------ denotation is a function *)

Lemma denotes_fun_all h :
  (forall w t, denotes h w t -> forall u, denotes h w u -> t = u) /\
  (forall o t, obj_denotes h o t -> forall u, obj_denotes h o u -> t = u) /\
  (forall l ts, denotes_list h l ts -> forall us, denotes_list h l us -> ts = us) /\
  (forall m ts, denotes_pairs h m ts -> forall us, denotes_pairs h m us -> ts = us).
Proof.
  apply denotes_mutind; try (intros; match goal with X : _ |- _ = ?u => match type of X with context [u] => inversion X; reflexivity end end).
  - intros a t OK E u D. apply denotes_cases in D as [D|(i & o & W & N & L & D)].
    + eapply small_fun; [|exact D]. constructor; auto.
    + pose proof (small_facts _ _ (sd_atom a t OK E)) as (_ & NO & _).
      rewrite W, obj_is_object in NO by auto. discriminate.
  - intros w W G T u D. apply denotes_cases in D as [D|(i & o & E & N & L & D)].
    + eapply small_fun; [|exact D]. constructor; auto.
    + pose proof (small_facts _ _ (sd_symbol w W G T)) as (_ & NO & _).
      rewrite E, obj_is_object in NO by auto. discriminate.
  - intros i o t N L _ IH u D. apply denotes_cases in D as [D|(j & p & E & N' & L' & D)].
    + apply small_facts in D as (_ & NO & _). rewrite obj_is_object in NO by auto. discriminate.
    + apply obj_word_inj in E as [-> _]; auto. rewrite N in N'. inversion N'; subst. auto.
  - intros l ts S _ IH u D. inversion D; subst. f_equal. auto.
  - intros m ts S MS _ IH u D. inversion D; subst. f_equal. auto.
  - intros w t ws ts _ IH1 _ IH2 us D. inversion D; subst. f_equal; auto.
  - intros k v tk tv m ts _ IH1 _ IH2 _ IH3 us D. inversion D; subst. f_equal; auto. f_equal; auto.
Qed.

Lemma denotes_fun h w t u : denotes h w t -> denotes h w u -> t = u.
Proof. intros A B. exact (proj1 (denotes_fun_all h) _ _ A _ B). Qed.
Lemma obj_denotes_fun h o t u : obj_denotes h o t -> obj_denotes h o u -> t = u.
Proof. intros A B. exact (proj1 (proj2 (denotes_fun_all h)) _ _ A _ B). Qed.
Lemma denotes_list_fun h l t u : denotes_list h l t -> denotes_list h l u -> t = u.
Proof. intros A B. exact (proj1 (proj2 (proj2 (denotes_fun_all h))) _ _ A _ B). Qed.
Lemma denotes_pairs_fun h l t u : denotes_pairs h l t -> denotes_pairs h l u -> t = u.
Proof. intros A B. exact (proj2 (proj2 (proj2 (denotes_fun_all h))) _ _ A _ B). Qed.

(* ------------------------------------------------------ heap extension *)

Lemma denotes_ext_all h x :
  (forall w t, denotes h w t -> denotes (h ++ x) w t) /\
  (forall o t, obj_denotes h o t -> obj_denotes (h ++ x) o t) /\
  (forall l ts, denotes_list h l ts -> denotes_list (h ++ x) l ts) /\
  (forall m ts, denotes_pairs h m ts -> denotes_pairs (h ++ x) m ts).
Proof.
  apply denotes_mutind; intros; try (constructor; auto; fail).
  apply dn_object; auto. rewrite nth_error_app1; auto.
  apply nth_error_Some. congruence.
Qed.

Lemma denotes_ext h x w t : denotes h w t -> denotes (h ++ x) w t.
Proof. apply (denotes_ext_all h x). Qed.
Lemma obj_denotes_ext h x w t : obj_denotes h w t -> obj_denotes (h ++ x) w t.
Proof. apply (denotes_ext_all h x). Qed.
Lemma denotes_list_ext h x w t : denotes_list h w t -> denotes_list (h ++ x) w t.
Proof. apply (denotes_ext_all h x). Qed.
Lemma denotes_pairs_ext h x w t : denotes_pairs h w t -> denotes_pairs (h ++ x) w t.
Proof. apply (denotes_ext_all h x). Qed.

(* ------------------------------------------------------ denoted trees are valid *)

Lemma denotes_list_Forall2 h l ts : denotes_list h l ts <-> Forall2 (denotes h) l ts.
Proof. split; induction 1; constructor; auto. Qed.
Lemma denotes_list_length h l ts : denotes_list h l ts -> length l = length ts.
Proof. induction 1; simpl; auto. Qed.
Lemma denotes_pairs_length h l ts : denotes_pairs h l ts -> length l = length ts.
Proof. induction 1; simpl; auto. Qed.

Lemma denotes_valid_all h :
  (forall w t, denotes h w t -> valid_tree t) /\
  (forall o t, obj_denotes h o t -> valid_tree t) /\
  (forall l ts, denotes_list h l ts -> allP valid_tree ts) /\
  (forall m ts, denotes_pairs h m ts -> allP (fun p => valid_tree (fst p) /\ valid_tree (snd p)) ts).
Proof.
  apply denotes_mutind; cbn [valid_tree]; try (intros; exact I); try (intros; assumption).
  - intros a t OK E. destruct a; inversion E; subst; cbn [valid_tree]; auto.
    now apply small_range_num_range.
  - intros w W G T. destruct (good_symbol_chars w W T G). split; [lia|auto].
  - intros l ts S D V. split; auto. unfold short in *. now rewrite <- (denotes_list_length _ _ _ D).
  - intros m ts S MS D V. split; [|split]; auto. unfold short in *. now rewrite <- (denotes_pairs_length _ _ _ D).
  - intros. cbn [allP]. auto.
  - intros. cbn [allP fst snd]. auto.
Qed.

Lemma denotes_valid h w t : denotes h w t -> valid_tree t.
Proof. apply (denotes_valid_all h). Qed.

(* ------------------------------------------------------ types *)

Lemma obj_tag_scty h o t : obj_denotes h o t ->
  exists s, get_scval_type (hobj_tag o) = Some s /\ sctype_num s = trank t.
Proof. destruct 1 as [k x R| | | | | | | | |]; try (eexists; split; reflexivity). destruct k; eexists; split; reflexivity. Qed.

Lemma scty_rank h w t : denotes h w t -> scty_num w = trank t.
Proof.
  intros D. unfold scty_num. apply denotes_cases in D as [D|(i & o & -> & N & L & D)].
  - apply small_facts in D as (-> & _ & F & _).
    destruct t as [[]| | | | |[] x| | | | | | |]; cbn [sfield] in F; try contradiction; reflexivity.
  - rewrite obj_get_tag by auto. destruct (obj_tag_scty _ _ _ D) as (s & -> & E). exact E.
Qed.

(* ------------------------------------------------------ small comparison *)

Definition sfield' (mi ma ia b sb : Z) (cs : list Z) (t : tval) : Prop :=
  match t with
  | TErr _ => [mi; ma] = tkey t
  | TU32 x => ma = x
  | TI32 x => ia = x
  | TNum k x => (if signed_num k then sb else b) = x
  | TSymbol s => cs = s
  | TBool _ | TVoid => True
  | _ => False
  end.

Lemma sfield_weak w t : sfield w t ->
  sfield' (get_minor w) (get_major w) (as_i32 (get_major w)) (get_body w) (get_signed_body w)
          (symbol_small_chars w) t.
Proof. destruct t; cbn [sfield sfield']; intuition. Qed.

Lemma cmp_one x y : (x ?= y) = lex [x] [y].
Proof. cbn. destruct (x ?= y); reflexivity. Qed.

Lemma cmp_small_ok a b t u : small_denotes a t -> small_denotes b u -> cmp_small a b = tcmp t u.
Proof.
  intros A B. apply small_facts in A as (T1 & _ & F1 & _), B as (T2 & _ & F2 & _).
  unfold cmp_small. rewrite T1, T2. clear T1 T2. apply sfield_weak in F1, F2. revert F1 F2.
  generalize (as_i32 (get_major a)) (as_i32 (get_major b)).
  generalize (get_minor a) (get_minor b) (get_major a) (get_major b) (get_body a) (get_body b)
    (get_signed_body a) (get_signed_body b) (symbol_small_chars a) (symbol_small_chars b).
  intros mi mi' ma ma' bo bo' sb sb' cs cs' ia ia' F1 F2.
  destruct t as [[]| |e|x|x|[] x|x|x|x|x|x|x|x]; cbn [sfield' signed_num] in F1; try contradiction;
  destruct u as [[]| |e'|y|y|[] y|y|y|y|y|y|y|y]; cbn [sfield' signed_num] in F2; try contradiction;
  try reflexivity;
  try (rewrite tcmp_leaf by reflexivity; cbn [stag small_tag tag_num tkey]; rewrite Z.compare_refl;
       subst; first [apply cmp_one | reflexivity]).
  rewrite tcmp_leaf by reflexivity. rewrite <- F1, <- F2. cbn.
  destruct (mi ?= mi'); try reflexivity. cbn.
  destruct (ma ?= ma'); reflexivity.
Qed.

Lemma try_small_ok h o t w u : obj_denotes h o t -> small_denotes w u ->
  match try_compare_to_small o w with
  | Some c => c = tcmp t u
  | None => trank t <> trank u /\ tcmp t u = (trank t ?= trank u)
  end.
Proof.
  intros D S. pose proof (small_facts _ _ S) as (T & _ & F & W & G).
  assert (NE : forall t u : tval, trank t <> trank u -> trank t <> trank u /\ tcmp t u = (trank t ?= trank u)).
  { intros a b H. split; auto. rewrite tcmp_unfold. destruct (trank a ?= trank b) eqn:C; auto.
    apply Z.compare_eq in C. contradiction. }
  destruct D; cbn [try_compare_to_small]; try (apply NE; destruct u as [[]| | | | |[] ?| | | | | | |]; cbn [sfield] in F; try contradiction; discriminate).
  - unfold small_to_num. destruct (has_tag w (small_tag k)) eqn:H1.
    + apply has_tag_get_tag in H1; [|apply small_tag_real]. rewrite T in H1.
      destruct u as [[]| |e|y|y|k' y|y|y|y|y|y|y|y]; cbn [sfield] in F; try contradiction;
        cbn [stag] in H1; try (destruct k; discriminate H1).
      apply small_tag_inj in H1. subst k'. destruct F as [_ F].
      rewrite tcmp_leaf by reflexivity. cbn [tkey lex].
      replace (match k with NU64 => _ | _ => _ end) with y by (rewrite <- F; destruct k; reflexivity).
      destruct (x ?= y); reflexivity.
    + apply NE. intros R. cbn [trank] in R.
      destruct u as [[]| |e|y|y|k' y|y|y|y|y|y|y|y]; cbn [sfield] in F; try contradiction;
        try (destruct k; discriminate R).
      assert (k = k') by (destruct k, k'; try discriminate R; reflexivity). subst k'.
      cbn [stag] in T. rewrite <- T in H1.
      destruct F as [F _]. unfold small_to_num in F. rewrite T in H1. rewrite H1 in F. discriminate.
  - destruct (has_tag w TgSymbolSmall) eqn:H1.
    + apply has_tag_get_tag in H1; [|reflexivity]. rewrite (symbol_str_chars w W H1 G).
      rewrite T in H1. destruct u as [[]| |e|y|y|[] y|y|y|y|y|y|y|y]; try discriminate H1.
      cbn [sfield] in F. rewrite F, tcmp_leaf by reflexivity. reflexivity.
    + apply NE. intros R. cbn [trank] in R.
      destruct u as [[]| |e|y|y|[] y|y|y|y|y|y|y|y]; cbn [sfield] in F; try contradiction; try discriminate R.
      assert (has_tag w TgSymbolSmall = true) by (apply has_tag_get_tag; [reflexivity|exact T]). congruence.
Qed.

(* ------------------------------------------------------ comparison *)

Definition cmp_res (d : nat) (r : res comparison) (t u : tval) : Prop :=
  match r with
  | Ok c => c = tcmp t u
  | Err e => e = e_depth /\ (d < tdepth t)%nat /\ (d < tdepth u)%nat
  end.

Section CmpLists.
  Variables (h : heap) (d : nat) (f : Z -> Z -> res comparison).
  Hypothesis Hf : forall a b t u, denotes h a t -> denotes h b u -> cmp_res d (f a b) t u.

  Lemma cmp_list_ok a ts : denotes_list h a ts -> forall b us, denotes_list h b us ->
    match cmp_list f a b with
    | Ok c => c = lexc tcmp ts us
    | Err e => e = e_depth /\ Exists (fun t => (d < tdepth t)%nat) ts /\ Exists (fun t => (d < tdepth t)%nat) us
    end.
  Proof.
    induction 1 as [|w t ws ts D DL IH]; intros b us B; destruct B as [|w' u ws' us D' DL']; cbn; auto.
    pose proof (Hf _ _ _ _ D D') as H. destruct (f w w') as [c|e]; cbn in H.
    - subst c. destruct (tcmp t u); auto.
      specialize (IH _ _ DL'). destruct (cmp_list f ws ws') as [c|e]; auto.
      destruct IH as (-> & E1 & E2). split; auto.
    - destruct H as (-> & H1 & H2). split; auto.
  Qed.

  Lemma cmp_pairs_ok a ts : denotes_pairs h a ts -> forall b us, denotes_pairs h b us ->
    match cmp_list (cmp_pair f) a b with
    | Ok c => c = lexc (pairc tcmp) ts us
    | Err e => e = e_depth
       /\ Exists (fun p => (d < Nat.max (tdepth (fst p)) (tdepth (snd p)))%nat) ts
       /\ Exists (fun p => (d < Nat.max (tdepth (fst p)) (tdepth (snd p)))%nat) us
    end.
  Proof.
    induction 1 as [|k v tk tv m ts D1 D2 DL IH]; intros b us B;
      destruct B as [|k' v' tk' tv' m' us D1' D2' DL']; cbn; auto.
    pose proof (Hf _ _ _ _ D1 D1') as H1. pose proof (Hf _ _ _ _ D2 D2') as H2.
    destruct (f k k') as [c|e]; cbn in H1.
    - subst c. destruct (tcmp tk tk'); auto.
      destruct (f v v') as [c|e]; cbn in H2.
      + subst c. destruct (tcmp tv tv'); auto.
        specialize (IH _ _ DL'). destruct (cmp_list (cmp_pair f) m m') as [c|e]; auto.
        destruct IH as (-> & E1 & E2). split; auto.
      + destruct H2 as (-> & ? & ?). split; [auto|split; constructor; cbn; lia].
    - destruct H1 as (-> & ? & ?). split; [auto|split; constructor; cbn; lia].
  Qed.
End CmpLists.

Lemma Exists_lmax {A} (g : A -> nat) d l : Exists (fun t => (d < g t)%nat) l -> (d < lmax (map g l))%nat.
Proof. induction 1; simpl; lia. Qed.

Lemma addr_cmp_key a b : supported_addr a -> supported_addr b ->
  addr_cmp a b = lex (addr_key a) (addr_key b).
Proof.
  destruct a, b; cbn; try contradiction; auto. unfold then_cmp.
  destruct (id ?= id0); reflexivity.
Qed.

Lemma cmp_hobj_ok h d f o p t u :
  (forall a b t u, denotes h a t -> denotes h b u -> cmp_res d (f a b) t u) ->
  obj_denotes h o t -> obj_denotes h p u -> cmp_res (S d) (cmp_hobj f o p) t u.
Proof.
  intros Hf A B.
  destruct A as [k x R|b Y|b Y|b V|l ts Sh DL|m ts Sh MS DL|k|k|i k|b Y];
  destruct B as [k' y R'|b' Y'|b' Y'|b' V'|l' ts' Sh' DL'|m' ts' Sh' MS' DL'|k'|k'|i' k'|b' Y'];
  try (cbn; try destruct k as [| | | | | | |]; try destruct k' as [| | | | | | |]; reflexivity).
  - cbn. destruct k, k'; cbn; try reflexivity; destruct (x ?= y); reflexivity.
  - cbn [cmp_hobj]. pose proof (cmp_list_ok h d f Hf _ _ DL _ _ DL') as H.
    destruct (cmp_list f l l') as [c|e]; cbn [cmp_res].
    + rewrite H. reflexivity.
    + destruct H as (-> & E1 & E2). split; auto. cbn [tdepth].
      apply Exists_lmax in E1, E2. lia.
  - cbn [cmp_hobj]. pose proof (cmp_pairs_ok h d f Hf _ _ DL _ _ DL') as H.
    destruct (cmp_list (cmp_pair f) m m') as [c|e]; cbn [cmp_res].
    + rewrite H. reflexivity.
    + destruct H as (-> & E1 & E2). split; auto. cbn [tdepth].
      apply (Exists_lmax (fun p => Nat.max (tdepth (fst p)) (tdepth (snd p)))) in E1, E2. lia.
  - cbn. unfold then_cmp. destruct (i ?= i'); reflexivity.
Qed.

Lemma tcmp_sym a b : tcmp b a = CompOpp (tcmp a b).
Proof. apply (to_sym _ tcmp_total). Qed.

Theorem cmp_val_ok h : forall d a b t u,
  denotes h a t -> denotes h b u -> cmp_res d (cmp_val d h a b) t u.
Proof.
  induction d as [|d IH]; intros a b t u A B.
  all: cbn [cmp_val]; destruct (Z.eqb_spec a b) as [E|NE];
    [subst b; rewrite (denotes_fun h a u t B A); cbn; symmetry; apply tcmp_refl|].
  all: pose proof (scty_rank _ _ _ A) as RA; pose proof (scty_rank _ _ _ B) as RB.
  all: apply denotes_cases in A as [A|(i & o & -> & N & L & A)];
       apply denotes_cases in B as [B|(j & p & -> & N' & L' & B)].
  all: repeat match goal with
         | H : small_denotes ?w ?t |- _ =>
             lazymatch goal with
             | _ : is_object w = false |- _ => fail
             | _ => pose proof (proj1 (proj2 (small_facts _ _ H)))
             end
         end.
  all: try (rewrite H, H0; cbn; now apply cmp_small_ok).
  all: unfold obj_cmp; rewrite ?obj_is_object by auto; rewrite ?H; cbn [orb];
       rewrite ?(visit_obj _ _ _ N L); try rewrite (visit_obj _ _ _ N' L'); cbn [rbind].
  all: try match goal with
       | |- context [try_compare_to_small ?o ?w] =>
           match goal with
           | D : obj_denotes ?hh o ?t, S : small_denotes w ?u |- _ =>
               pose proof (try_small_ok _ _ _ _ _ D S) as TS
           end
       end.
  all: try (destruct (try_compare_to_small _ _) as [c|]; cbn [option_map];
            [cbn; rewrite TS; try reflexivity; symmetry; apply tcmp_sym|]).
  all: try (destruct TS as [NR TE]; rewrite RA, RB; 
            destruct (Z.eqb_spec (trank t) (trank u)) as [E|_]; [congruence|]; cbn [cmp_res];
            first [ now rewrite TE
                  | rewrite tcmp_sym, TE, <- Z.compare_antisym; reflexivity ]).
  - cbn. pose proof (tdepth_pos t). pose proof (tdepth_pos u). split; [reflexivity|lia].
  - pose proof (cmp_hobj_ok h d _ o p t u IH A B) as H.
    destruct (cmp_hobj (cmp_val d h) o p) as [c|e]; cbn in *; auto.
Qed.
