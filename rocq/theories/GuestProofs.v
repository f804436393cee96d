From Coq Require Import ZArith Lia List Bool.
From Verif Require Import Prelude ValModel ValSpec ValProofs SymbolProofs.
Import ListNotations.
Open Scope Z_scope.
Ltac Zify.zify_post_hook ::= Z.div_mod_to_equations.

Lemma build_ok a : atom_ok a -> build a = Some (word_of_atom a).
Proof.
  destruct a as [b| |u|i|k x|e|t h]; cbn [build atom_ok]; intros H.
  - f_equal. apply bool_roundtrip.
  - reflexivity.
  - f_equal. now apply u32_roundtrip.
  - f_equal. now apply i32_roundtrip.
  - destruct (num_to_small_spec k x (small_range_num_range k x H)) as [[_ E]|[N _]]; [exact E|tauto].
  - f_equal. now apply val_of_error_word.
  - f_equal. rewrite fmm_eq by (pow2; lia). cbn [word_of_atom]. lia.
Qed.

Lemma reads_own a : atom_ok a -> reads_as (word_of_atom a) a.
Proof.
  intros H. destruct a as [b| |u|i|k x|e|t h]; cbn [reads_as].
  - apply bool_roundtrip.
  - reflexivity.
  - now apply u32_roundtrip.
  - now apply i32_roundtrip.
  - cbn [word_of_atom]. now apply small_to_num_packed.
  - split.
    + now apply (has_tag_atom (AErr e) TgError).
    + rewrite <- val_of_error_word by exact H. now apply error_roundtrip_lemma.
  - destruct H as [I R]. split; [exact I|]. split.
    + apply (has_tag_atom (AObj t h)); [now split| |reflexivity]. now apply object_tag_real.
    + rewrite get_major_eq by (apply word_of_atom_word; now split).
      cbn [word_of_atom]. pose proof (tag_num_range t). pow2. lia.
Qed.

Lemma reads_tag v a : reads_as v a -> get_tag v = tag_of_atom a.
Proof.
  destruct a as [b| |u|i|k x|e|t h]; cbn [reads_as tag_of_atom]; intros H.
  - apply decode_bool in H. now rewrite H.
  - now apply has_tag_get_tag.
  - unfold u32_of_val in H. destruct (has_tag v TgU32Val) eqn:E; [|discriminate].
    now apply has_tag_get_tag in E.
  - unfold i32_of_val in H. destruct (has_tag v TgI32Val) eqn:E; [|discriminate].
    now apply has_tag_get_tag in E.
  - unfold small_to_num in H. destruct (has_tag v (small_tag k)) eqn:E; [|discriminate].
    apply has_tag_get_tag in E; [exact E|apply small_tag_real].
  - destruct H as [H _]. now apply has_tag_get_tag in H.
  - destruct H as (I & H & _). apply has_tag_get_tag in H; [exact H|now apply object_tag_real].
Qed.

Lemma small_tag_inj k k' : small_tag k = small_tag k' -> k = k'.
Proof. destruct k, k'; simpl; congruence. Qed.

Definition kind_of_tag (t : tag) : Z :=
  match t with
  | TgTrue | TgFalse => 0 | TgVoid => 1 | TgU32Val => 2 | TgI32Val => 3
  | TgU64Small | TgI64Small | TgTimepointSmall | TgDurationSmall
  | TgU128Small | TgI128Small | TgU256Small | TgI256Small => 4
  | TgError => 5 | TgSymbolSmall => 7 | _ => 6
  end.
Definition kind (a : atom) : Z :=
  match a with ABool _ => 0 | AVoid => 1 | AU32 _ => 2 | AI32 _ => 3 | ANum _ _ => 4
             | AErr _ => 5 | AObj _ _ => 6 end.

Lemma kind_tag v a : reads_as v a -> kind_of_tag (tag_of_atom a) = kind a.
Proof.
  destruct a as [[]| |u|i|[] x|e|t h]; cbn; try reflexivity.
  intros (I & _). destruct t; cbn in I |- *; try reflexivity; intuition discriminate.
Qed.

Lemma reads_fun v a b : reads_as v a -> reads_as v b -> a = b.
Proof.
  intros HA HB. pose proof (reads_tag v a HA) as TA. pose proof (reads_tag v b HB) as TB.
  pose proof (kind_tag v a HA) as KA. pose proof (kind_tag v b HB) as KB.
  assert (K : kind a = kind b) by congruence. rewrite TA in TB. clear KA KB TA.
  destruct a as [x| |u|i|k x|e|t h], b as [x'| |u'|i'|k' x'|e'|t' h'];
    cbn in K; try discriminate K; cbn [reads_as tag_of_atom] in *; try congruence.
  - apply small_tag_inj in TB. subst k'. congruence.
  - destruct HA, HB. congruence.
  - destruct HA as (_ & _ & HA), HB as (_ & _ & HB). congruence.
Qed.

Lemma good_well_formed v : word v -> is_good v = true <-> well_formed v.
Proof.
  intros W. split.
  - intros G. destruct (get_tag v) eqn:T; try (left; apply good_atom; congruence).
    right. exists (get_body v). pose proof (packed_of_body v _ W T eq_refl) as P.
    destruct (u64_split v W) as (_ & _ & B).
    unfold is_good in G. rewrite T in G. apply symbol_body_ok_spec in G; [|lia].
    split; [lia|exact P].
  - intros [(a & OK & ->)|(body & R & ->)].
    + now apply good_word_of_atom.
    + assert (T : get_tag (body * 2 ^ 8 + 14) = TgSymbolSmall)
        by (apply get_tag_from_num; [reflexivity|cbn [tag_num]; pow2; lia]).
      unfold is_good. rewrite T. apply symbol_body_ok_spec; rewrite get_body_eq; pow2; lia.
Qed.

Lemma marshal_lemma i v :
  marshal_from_wasm i = Some v <-> v = i mod 2 ^ 64 /\ well_formed v.
Proof.
  unfold marshal_from_wasm, as_u64. set (w := i mod 2 ^ 64).
  assert (W : word w) by (unfold word, w; pow2; lia).
  pose proof (good_well_formed w W) as G.
  destruct (is_good w) eqn:E.
  - split; [intros [= <-]; split; [reflexivity|now apply G]|intros [-> _]; reflexivity].
  - split; [discriminate|intros [-> F]]. apply G in F. congruence.
Qed.

Lemma good_reads v :
  word v -> is_good v = true -> get_tag v <> TgSymbolSmall ->
  exists a, atom_ok a /\ reads_as v a /\ build a = Some v /\ (forall b, reads_as v b -> b = a).
Proof.
  intros W G S. destruct (good_atom v W G S) as (a & OK & E). exists a.
  assert (R : reads_as v a) by (rewrite E; now apply reads_own).
  split; [exact OK|]. split; [exact R|]. split; [rewrite E; now apply build_ok|].
  intros b Hb. now apply (reads_fun v).
Qed.

Lemma good_distinct v w a :
  word v -> word w -> is_good v = true -> is_good w = true ->
  reads_as v a -> reads_as w a -> v = w.
Proof.
  intros Wv Ww Gv Gw Rv Rw.
  assert (Tn : tag_of_atom a <> TgSymbolSmall).
  { destruct a as [[]| |?|?|[] ?|?|t h]; cbn; try congruence.
    destruct Rv as (I & _). intros ->. cbn in I. intuition discriminate. }
  pose proof (reads_tag v a Rv) as Tv. pose proof (reads_tag w a Rw) as Tw.
  destruct (good_reads v Wv Gv) as (a1 & _ & _ & B1 & U1); [congruence|].
  destruct (good_reads w Ww Gw) as (a2 & _ & _ & B2 & U2); [congruence|].
  rewrite <- (U1 a Rv) in B1. rewrite <- (U2 a Rw) in B2. congruence.
Qed.

Lemma num_small_full k x :
  num_range k x ->
  (small_range k x ->
     exists v, num_to_small k x = Some v /\ word v /\ is_good v = true
               /\ small_to_num k v = Some x
               /\ (forall k', k' <> k -> small_to_num k' v = None)
               /\ (forall y, num_range k y -> num_to_small k y = Some v -> y = x))
  /\ (~ small_range k x -> num_to_small k x = None).
Proof.
  intros R. destruct (num_to_small_spec k x R) as [[S E]|[N E]].
  - split; [|tauto]. intros _. exists (word_of_atom (ANum k x)).
    assert (OK : atom_ok (ANum k x)) by exact S.
    split; [exact E|]. split; [now apply word_of_atom_word|].
    split; [now apply good_word_of_atom|].
    split; [now apply (reads_own (ANum k x))|]. split.
    + intros k' D. destruct (small_to_num k' _) eqn:F; [|reflexivity].
      assert (reads_as (word_of_atom (ANum k x)) (ANum k' z)) as H by exact F.
      apply (reads_fun _ _ (ANum k x)) in H; [|now apply reads_own]. congruence.
    + intros y Ry Ey. apply small_num_roundtrip_lemma in Ey; [|exact Ry].
      pose proof (reads_own (ANum k x) OK) as O. cbn [reads_as] in O. congruence.
  - split; [tauto|intros _; exact E].
Qed.
