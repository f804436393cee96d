(* XDR comparison and conversion between XDR values and host values. *)
From Coq Require Import ZArith Lia List Bool Sorted.
From Verif Require Import Prelude ValModel ValSpec ValProofs WideProofs SymbolProofs GuestProofs
  ContainerModel ContainerSpec ContainerProofs HeapModel HeapSpec TreeProofs HeapProofs.
Import ListNotations.
Open Scope Z_scope.
Ltac Zify.zify_post_hook ::= Z.div_mod_to_equations.

(* ------------------------------------------------------ numbers *)

Lemma tree_four a b c e :
  ((a * 2 ^ 64 + b) * 2 ^ 64 + c) * 2 ^ 64 + e = ((a * B + b) * B + c) * B + e.
Proof. reflexivity. Qed.

Lemma u256_small_parts a b c e : u64_ok a -> u64_ok b -> u64_ok c -> u64_ok e ->
  is_small_u256_parts a b c e = is_small_u256 (((a * B + b) * B + c) * B + e).
Proof.
  unfold u64_ok. change (2 ^ 64) with B. intros. unfold is_small_u256_parts, is_small_u256.
  pose proof Bpos.
  assert (N : 0 <= ((a * B + b) * B + c) * B + e) by nia.
  apply eq_true_iff_eq. rewrite is_small_u128_spec by exact N.
  rewrite !andb_true_iff, !Z.eqb_eq, is_small_u64_spec by (change (2 ^ 64) with B; lia).
  split.
  - intros (((-> & ->) & ->) & S). lia.
  - intros S. assert (B > 2 ^ 56) by reflexivity.
    assert (((a * B + b) * B + c) = 0) by nia. assert (a * B + b = 0) by nia.
    assert (a = 0) by nia. assert (b = 0) by nia. assert (c = 0) by nia. subst. lia.
Qed.

Lemma digits4 a b c e : 0 <= b < B -> 0 <= c < B -> 0 <= e < B ->
  let x := ((a * B + b) * B + c) * B + e in
  x / 2 ^ 192 = a /\ (x / 2 ^ 128) mod B = b /\ (x / B) mod B = c /\ x mod B = e.
Proof.
  intros Hb Hc He x. pose proof (four_digits a b c e Hb Hc He) as F. cbv zeta in F. fold x in F.
  injection F as F1 F2 F3 F4. pose proof Bpos.
  change (2 ^ 192) with (B * B * B). change (2 ^ 128) with (B * B).
  rewrite <- Z.div_div by nia. auto.
Qed.

Lemma i128_small_cast x : as_u64 (as_i64 x) = as_u64 x.
Proof.
  unfold as_u64. destruct (as_i64_cases x) as [k ->]. rewrite Z.mod_add by (compute; congruence). reflexivity.
Qed.

Lemma num_scval s k x : sc_typed s -> tree_of s = Some (TNum k x) ->
  num_range k x /\ s = scval_of_num k x /\ s = xdr_of (TNum k x) /\ can_represent s = true
  /\ classify_object s = negb (is_small_num k x)
  /\ (is_small_num k x = true -> small_of_scval s = Ok (from_body_and_tag (as_u64 x) (small_tag k)))
  /\ forall d f h, to_host_obj d f h s = add_host_object h (HONum k x).
Proof.
  intros T E. assert (E' : match s with SVec (Some _) | SMap (Some _) => False | _ => True end).
  { destruct s; try exact I; [destruct l|destruct m]; try exact I; cbn in E;
      [destruct (opt_list _ _)|destruct (opt_list _ _)]; discriminate. }
  destruct s as [b| |e0|y|y|y|y|y|y|hi lo|hi lo|a b c e|a b c e|b|b|b|l|m|a|e0 st| |n|b];
    cbn [tree_of] in E; try discriminate E; try (destruct l; [contradiction|discriminate E]);
    try (destruct m; [contradiction|discriminate E]);
    injection E as <- <-; cbn [sc_typed] in T; clear E'; change (Z.pow_pos 2 64) with B in *.
  - (* u64 *) unfold u64_ok in T. cbn [num_range]. split; [exact T|].
    do 4 (split; [reflexivity|]). split; [|reflexivity].
    cbn [is_small_num small_of_scval]. intros ->. rewrite as_u64_small by exact T. reflexivity.
  - unfold i64_ok in T. cbn [num_range]. split; [exact T|].
    do 4 (split; [reflexivity|]). split; [|reflexivity].
    cbn [is_small_num small_of_scval]. intros ->. reflexivity.
  - unfold u64_ok in T. cbn [num_range]. split; [exact T|].
    do 4 (split; [reflexivity|]). split; [|reflexivity].
    cbn [is_small_num small_of_scval]. intros ->. rewrite as_u64_small by exact T. reflexivity.
  - unfold u64_ok in T. cbn [num_range]. split; [exact T|].
    do 4 (split; [reflexivity|]). split; [|reflexivity].
    cbn [is_small_num small_of_scval]. intros ->. rewrite as_u64_small by exact T. reflexivity.
  - (* u128 *) unfold u64_ok in T. destruct T as [Th Tl]. change (2 ^ 64) with B in *.
    destruct (u128_split_join hi lo Th Tl) as (R & Hh & Hl).
    assert (EQ : u128_from_pieces hi lo = hi * B + lo) by (unfold u128_from_pieces; now apply shiftl_lor).
    rewrite EQ in *. split; [exact R|]. cbn [scval_of_num]. rewrite Hh, Hl.
    split; [reflexivity|]. split.
    { cbn [xdr_of]. change (2 ^ 64) with B. rewrite div_small2, mod_small2 by (try apply Bpos; lia). reflexivity. }
    split; [reflexivity|]. cbn [classify_object small_of_scval is_small_num to_host_obj]. rewrite EQ.
    split; [reflexivity|]. split; [intros ->; reflexivity|reflexivity].
  - (* i128 *) unfold u64_ok, i64_ok in T. destruct T as [Th Tl]. change (2 ^ 64) with B in *.
    destruct (i128_split_join hi lo Th Tl) as (R & Hh & Hl).
    assert (EQ : i128_from_pieces hi lo = hi * B + lo) by (now apply i128_from_pieces_eq).
    rewrite EQ in *. split; [exact R|]. cbn [scval_of_num]. rewrite Hh, Hl.
    split; [reflexivity|]. split.
    { cbn [xdr_of]. change (2 ^ 64) with B. rewrite div_small2, mod_small2 by (try apply Bpos; lia). reflexivity. }
    split; [reflexivity|]. cbn [classify_object small_of_scval is_small_num to_host_obj]. rewrite EQ.
    split; [reflexivity|]. split; [intros ->; rewrite i128_small_cast; reflexivity|reflexivity].
  - (* u256 *) unfold u64_ok in T. destruct T as (Ta & Tb & Tc & Te).
    change (2 ^ 64) with B in *.
    destruct (u256_split_join a b c e Ta Tb Tc Te) as (R & P).
    pose proof (u256_from_pieces_eq a b c e Tb Tc Te) as EQ. rewrite EQ in *.
    destruct (digits4 a b c e Tb Tc Te) as (D1 & D2 & D3 & D4).
    split; [exact R|]. cbn [scval_of_num]. rewrite P. split; [reflexivity|]. split.
    { cbn [xdr_of]. change (2 ^ 64) with B. rewrite D1, D2, D3, D4. reflexivity. }
    split; [reflexivity|]. cbn [classify_object small_of_scval is_small_num to_host_obj].
    rewrite EQ, (u256_small_parts a b c e) by assumption.
    split; [reflexivity|]. split; [|reflexivity]. intros ->. rewrite as_u64_eq, D4. reflexivity.
  - (* i256 *) unfold u64_ok, i64_ok in T. destruct T as (Ta & Tb & Tc & Te).
    change (2 ^ 64) with B in *.
    destruct (i256_split_join a b c e Ta Tb Tc Te) as (R & P).
    pose proof (i256_from_pieces_eq a b c e Ta Tb Tc Te) as EQ. rewrite EQ in *.
    destruct (digits4 a b c e Tb Tc Te) as (D1 & D2 & D3 & D4).
    split; [exact R|]. cbn [scval_of_num]. rewrite P. split; [reflexivity|]. split.
    { cbn [xdr_of]. change (2 ^ 64) with B. rewrite D1, D2, D3, D4. reflexivity. }
    split; [reflexivity|]. cbn [classify_object small_of_scval is_small_num to_host_obj].
    unfold is_small_i256_parts. rewrite EQ.
    split; [reflexivity|]. split; [|reflexivity]. intros ->. rewrite as_u64_eq, D4. reflexivity.
Qed.

Lemma xdr_num_range k x : num_range k x ->
  sc_typed (xdr_of (TNum k x)) /\ tree_of (xdr_of (TNum k x)) = Some (TNum k x)
  /\ scval_of_num k x = xdr_of (TNum k x).
Proof.
  intros R. pose proof Bpos.
  destruct k; cbn [num_range] in R; cbn [xdr_of sc_typed tree_of scval_of_num]; auto.
  - destruct (u128_split x R) as (-> & -> & Rh). destruct (divmodB x). split; [split; auto|].
    split; [|reflexivity]. do 2 f_equal. change (2 ^ 64) with B. lia.
  - destruct (i128_split x R) as (-> & -> & Rh). destruct (divmodB x). split; [split; auto|].
    split; [|reflexivity]. do 2 f_equal. change (2 ^ 64) with B. lia.
  - destruct (u256_pieces_eq x R) as [-> Rh].
    replace (x / 2 ^ 192) with (x / (B * B) / B)
      by (change (2 ^ 192) with (B * B * B); rewrite Z.div_div by nia; reflexivity).
    split; [repeat split; try apply modB; apply Rh|]. split; [|reflexivity].
    do 2 f_equal. symmetry. apply four.
  - destruct (i256_pieces_eq x R) as [-> Rh].
    replace (x / 2 ^ 192) with (x / (B * B) / B)
      by (change (2 ^ 192) with (B * B * B); rewrite Z.div_div by nia; reflexivity).
    split; [repeat split; try apply modB; apply Rh|]. split; [|reflexivity].
    do 2 f_equal. symmetry. apply four.
Qed.

(* ------------------------------------------------------ XDR comparison *)

Lemma opt_list_F2 {A C} (f : A -> option C) l ts :
  opt_list f l = Some ts <-> Forall2 (fun x t => f x = Some t) l ts.
Proof.
  revert ts. induction l as [|x l IH]; intros ts; cbn.
  - split; [intros E; injection E as <-; constructor|intros F; inversion F; reflexivity].
  - split.
    + destruct (f x) as [y|] eqn:Ex; [|discriminate].
      change ((fix go (l : list A) : option (list C) := _) l) with (opt_list f l).
      destruct (opt_list f l) as [ys|] eqn:El; [|discriminate].
      intros E. injection E as <-. constructor; [exact Ex|apply IH; reflexivity].
    + intros F. inversion F as [|a b la lb Hx Hl]; subst. rewrite Hx.
      change ((fix go (l : list A) : option (list C) := _) l) with (opt_list f l).
      rewrite (proj2 (IH lb) Hl). reflexivity.
Qed.

Lemma opt_pair_some {A C} (f : A -> option C) p q :
  opt_pair f p = Some q <-> f (fst p) = Some (fst q) /\ f (snd p) = Some (snd q).
Proof.
  destruct p as [a b], q as [x y]; cbn. destruct (f a), (f b); split; intros H;
    try discriminate; try (destruct H; discriminate); try (injection H as -> ->; auto).
  destruct H as [H1 H2]. congruence.
Qed.

Section CmpSc.
  Variables (d : nat) (f : scval -> scval -> res comparison).
  Hypothesis Hf : forall a b t u, sc_typed a -> sc_typed b ->
    tree_of a = Some t -> tree_of b = Some u -> cmp_res d (f a b) t u.

  Lemma cmp_sclist_ok a ts : Forall2 (fun x t => tree_of x = Some t) a ts -> Forall sc_typed a ->
    forall b us, Forall2 (fun x t => tree_of x = Some t) b us -> Forall sc_typed b ->
    match cmp_list f a b with
    | Ok c => c = lexc tcmp ts us
    | Err e => e = e_depth /\ Exists (fun t => (d < tdepth t)%nat) ts /\ Exists (fun t => (d < tdepth t)%nat) us
    end.
  Proof.
    induction 1 as [|w t ws ts D DL IH]; intros TA b us B TB; destruct B as [|w' u ws' us D' DL']; cbn; auto.
    pose proof (Hf _ _ _ _ (Forall_inv TA) (Forall_inv TB) D D') as H. destruct (f w w') as [c|e]; cbn in H.
    - subst c. destruct (tcmp t u); auto.
      specialize (IH (Forall_inv_tail TA) _ _ DL' (Forall_inv_tail TB)). destruct (cmp_list f ws ws') as [c|e]; auto.
      destruct IH as (-> & E1 & E2). split; auto.
    - destruct H as (-> & H1 & H2). split; auto.
  Qed.

  Definition ptyped (p : scval * scval) := sc_typed (fst p) /\ sc_typed (snd p).
  Lemma cmp_scpairs_ok a ts : Forall2 (fun x t => opt_pair tree_of x = Some t) a ts -> Forall ptyped a ->
    forall b us, Forall2 (fun x t => opt_pair tree_of x = Some t) b us -> Forall ptyped b ->
    match cmp_list (cmp_pair f) a b with
    | Ok c => c = lexc (pairc tcmp) ts us
    | Err e => e = e_depth
       /\ Exists (fun p => (d < Nat.max (tdepth (fst p)) (tdepth (snd p)))%nat) ts
       /\ Exists (fun p => (d < Nat.max (tdepth (fst p)) (tdepth (snd p)))%nat) us
    end.
  Proof.
    induction 1 as [|[k v] [tk tv] m ts D DL IH]; intros TA b us B TB;
      destruct B as [|[k' v'] [tk' tv'] m' us D' DL']; cbn; auto.
    apply opt_pair_some in D as [D1 D2], D' as [D1' D2']. cbn [fst snd] in *.
    destruct (Forall_inv TA) as [T1 T2], (Forall_inv TB) as [T1' T2']. cbn [fst snd] in *.
    pose proof (Hf _ _ _ _ T1 T1' D1 D1') as H1. pose proof (Hf _ _ _ _ T2 T2' D2 D2') as H2.
    destruct (f k k') as [c|e]; cbn in H1.
    - subst c. destruct (tcmp tk tk'); auto.
      destruct (f v v') as [c|e]; cbn in H2.
      + subst c. destruct (tcmp tv tv'); auto.
        specialize (IH (Forall_inv_tail TA) _ _ DL' (Forall_inv_tail TB)). destruct (cmp_list (cmp_pair f) m m') as [c|e]; auto.
        destruct IH as (-> & E1 & E2). split; auto.
      + destruct H2 as (-> & ? & ?). split; [auto|split; constructor; cbn; lia].
    - destruct H1 as (-> & ? & ?). split; [auto|split; constructor; cbn; lia].
  Qed.
End CmpSc.

Lemma addr_cmp_key_typed a b : addr_typed a -> addr_typed b ->
  addr_cmp a b = lex (addr_key a) (addr_key b).
Proof.
  destruct a as [k|k|i k|n k], b as [k'|k'|i' k'|n' k']; cbn [addr_typed]; intros Ta Tb; try reflexivity;
    try (destruct Ta as [-> | ->]); try (destruct Tb as [-> | ->]); try reflexivity;
    cbn; unfold then_cmp; try (destruct (i ?= i')); reflexivity.
Qed.

Lemma four_cmp a b c e a' b' c' e' :
  0 <= b < B -> 0 <= c < B -> 0 <= e < B -> 0 <= b' < B -> 0 <= c' < B -> 0 <= e' < B ->
  ((((a * B + b) * B + c) * B + e) ?= (((a' * B + b') * B + c') * B + e'))
  = then_cmp (a ?= a') (then_cmp (b ?= b') (then_cmp (c ?= c') (e ?= e'))).
Proof.
  intros. pose proof Bpos as P. unfold then_cmp.
  rewrite (cmp_split _ _ ((a * B + b) * B + c) e ((a' * B + b') * B + c') e' B P) by auto.
  rewrite (cmp_split _ _ (a * B + b) c (a' * B + b') c' B P) by auto.
  rewrite (cmp_split _ _ a b a' b' B P) by auto.
  destruct (a ?= a'), (b ?= b'), (c ?= c'); reflexivity.
Qed.

Lemma err_cmp_key e f : err_cmp e f = tcmp (TErr e) (TErr f).
Proof.
  rewrite tcmp_unfold. cbn [trank]. rewrite Z.compare_refl.
  unfold err_cmp, then_cmp. destruct e, f; cbn [err_key fst snd tkey]; rewrite lex2; destruct (_ ?= _); reflexivity.
Qed.

Lemma tnum_cmp k x y : tcmp (TNum k x) (TNum k y) = (x ?= y).
Proof.
  rewrite tcmp_leaf by (destruct k; reflexivity). destruct k; cbn; destruct (x ?= y); reflexivity.
Qed.

Theorem cmp_scval_ok : forall d a b t u, sc_typed a -> sc_typed b ->
  tree_of a = Some t -> tree_of b = Some u -> cmp_res d (cmp_scval d a b) t u.
Proof.
  induction d as [|d IH]; intros a b t u Ta Tb A B'.
  { cbn. pose proof (tdepth_pos t). pose proof (tdepth_pos u). split; [reflexivity|lia]. }
  destruct a as [x| |x|x|x|x|x|x|x|x1 x2|x1 x2|x1 x2 x3 x4|x1 x2 x3 x4|x|x|x|[x|]|[x|]|x|x xs| |x|x];
  destruct b as [y| |y|y|y|y|y|y|y|y1 y2|y1 y2|y1 y2 y3 y4|y1 y2 y3 y4|y|y|y|[y|]|[y|]|y|y ys| |y|y];
  cbn [tree_of] in A, B'; try discriminate A; try discriminate B';
  try match type of A with option_map _ ?o = Some _ => destruct o as [A'|] eqn:EA; [|discriminate A]; cbn in A end;
  try match type of B' with option_map _ ?o = Some _ => destruct o as [B''|] eqn:EB; [|discriminate B']; cbn in B' end;
  apply some_inj in A; apply some_inj in B'; subst t u;
  cbn [cmp_scval]; try reflexivity;
  try (cbn [cmp_res]; first [rewrite tnum_cmp|rewrite tcmp_leaf by reflexivity]; cbn [trank tkey]; reflexivity).
  all: cbn [sc_typed] in Ta, Tb; unfold u64_ok, i64_ok in *; change (2 ^ 64) with B in *.
  - cbn. destruct x, y; reflexivity.
  - cbn [cmp_res]. apply err_cmp_key.
  - cbn [cmp_res]. rewrite tcmp_leaf by reflexivity. cbn. destruct (x ?= y); reflexivity.
  - cbn [cmp_res]. rewrite tcmp_leaf by reflexivity. cbn. destruct (x ?= y); reflexivity.
  - cbn [cmp_res]. rewrite tnum_cmp, (cmp_split (x1 * B + x2) (y1 * B + y2) x1 x2 y1 y2 B Bpos (proj2 Ta) (proj2 Tb) eq_refl eq_refl). unfold then_cmp. destruct (x1 ?= y1); reflexivity.
  - cbn [cmp_res]. rewrite tnum_cmp, (cmp_split (x1 * B + x2) (y1 * B + y2) x1 x2 y1 y2 B Bpos (proj2 Ta) (proj2 Tb) eq_refl eq_refl). unfold then_cmp. destruct (x1 ?= y1); reflexivity.
  - cbn [cmp_res]. rewrite tnum_cmp. symmetry. apply four_cmp; try apply Ta; apply Tb.
  - cbn [cmp_res]. rewrite tnum_cmp. symmetry. apply four_cmp; try apply Ta; apply Tb.
  - apply opt_list_F2 in EA, EB. cbn [optP] in Ta, Tb. rewrite allP_Forall in Ta, Tb.
    pose proof (cmp_sclist_ok d _ IH _ _ EA Ta _ _ EB Tb) as H.
    destruct (cmp_list (cmp_scval d) x y) as [c|e]; cbn [cmp_res].
    + rewrite H. reflexivity.
    + destruct H as (-> & E1 & E2). split; auto. cbn [tdepth].
      apply Exists_lmax in E1, E2. lia.
  - apply opt_list_F2 in EA, EB. cbn [optP] in Ta, Tb. rewrite allP_Forall in Ta, Tb.
    pose proof (cmp_scpairs_ok d _ IH _ _ EA Ta _ _ EB Tb) as H.
    destruct (cmp_list (cmp_pair (cmp_scval d)) x y) as [c|e]; cbn [cmp_res].
    + rewrite H. reflexivity.
    + destruct H as (-> & E1 & E2). split; auto. cbn [tdepth].
      apply (Exists_lmax (fun p => Nat.max (tdepth (fst p)) (tdepth (snd p)))) in E1, E2. lia.
  - cbn [cmp_res]. rewrite tcmp_unfold. cbn [trank]. rewrite Z.compare_refl. cbn [tkey].
    now apply addr_cmp_key_typed.
Qed.

(* ------------------------------------------------------ ordered maps of words *)

Lemma SS_map {A C} (R : C -> C -> Prop) (f : A -> C) l :
  StronglySorted (fun a b => R (f a) (f b)) l <-> StronglySorted R (map f l).
Proof.
  induction l as [|x l IH]; cbn; [split; constructor|].
  split; intros S; inversion S; subst; constructor; try (apply IH; assumption);
    rewrite Forall_map in *; assumption.
Qed.

Lemma kd_exists h ws ts : denotes_list h ws ts ->
  exists kd : Z -> tval, Forall (fun w => denotes h w (kd w)) ws /\ map kd ws = ts.
Proof.
  induction 1 as [|w t ws ts D DL (kd & F & M)].
  - exists (fun _ => TVoid). split; constructor.
  - exists (fun w' => if w' =? w then t else kd w'). split.
    + constructor; [now rewrite Z.eqb_refl|].
      eapply Forall_impl; [|exact F]. cbn. intros w' D'. destruct (Z.eqb_spec w' w); congruence.
    + cbn. rewrite Z.eqb_refl. f_equal. rewrite <- M. apply map_ext_in. intros w' I.
      destruct (Z.eqb_spec w' w); [|reflexivity]. subst w'.
      rewrite Forall_forall in F. exact (denotes_fun _ _ _ _ D (F _ I)).
Qed.

Lemma denotes_pairs_keys h m ts : denotes_pairs h m ts -> denotes_list h (map fst m) (map fst ts).
Proof. induction 1; cbn; constructor; auto. Qed.
Lemma denotes_pairs_vals h m ts : denotes_pairs h m ts -> denotes_list h (map snd m) (map snd ts).
Proof. induction 1; cbn; constructor; auto. Qed.

Lemma asc_sorted (kd : Z -> tval) (m : list (Z * Z)) (ts : list (tval * tval)) :
  map kd (map fst m) = map fst ts -> (keys_ascending tcmp kd m <-> map_sorted ts).
Proof.
  intros E. unfold map_sorted, keys_ascending.
  rewrite (SS_map (fun a b => tcmp a b = Lt) (fun p : Z * Z => kd (fst p))).
  rewrite (SS_map (fun a b => tcmp a b = Lt) (fun p : tval * tval => fst p)).
  rewrite map_map in E. rewrite E. reflexivity.
Qed.

Lemma map_kd h m ts : denotes_pairs h m ts ->
  exists kd : Z -> tval, Forall (fun p => denotes h (fst p) (kd (fst p))) m
    /\ map kd (map fst m) = map fst ts.
Proof.
  intros D. destruct (kd_exists _ _ _ (denotes_pairs_keys _ _ _ D)) as (kd & F & M).
  exists kd. split; [|exact M]. now rewrite Forall_map in F.
Qed.

Lemma cmp_val_tc h d (kd : Z -> tval) a b o :
  denotes h a (kd a) -> denotes h b (kd b) -> cmp_val d h a b = Ok o -> o = tcmp (kd a) (kd b).
Proof. intros A B' E. pose proof (cmp_val_ok h d _ _ _ _ A B') as C. now rewrite E in C. Qed.

Lemma cmp_val_total h d a b t u : denotes h a t -> denotes h b u -> (tdepth t <= d)%nat ->
  cmp_val d h a b = Ok (tcmp t u).
Proof.
  intros A B' D. pose proof (cmp_val_ok h d _ _ _ _ A B') as C. destruct (cmp_val d h a b); cbn in C.
  - now subst. - lia.
Qed.

Lemma cmp_val_total_r h d a b t u : denotes h a t -> denotes h b u -> (tdepth u <= d)%nat ->
  cmp_val d h a b = Ok (tcmp t u).
Proof.
  intros A B' D. pose proof (cmp_val_ok h d _ _ _ _ A B') as C. destruct (cmp_val d h a b); cbn in C.
  - now subst. - lia.
Qed.

Lemma omap_from_den h d m ts m' : denotes_pairs h m ts -> omap_from (cmp_val d h) m = Ok m' ->
  m' = m /\ short m /\ map_sorted ts.
Proof.
  intros D E. destruct (map_kd _ _ _ D) as (kd & F & M).
  destruct (omap_from_sound (cmp_val d h) tcmp kd (fun w => denotes h w (kd w)) tcmp_total
              (fun a b o => cmp_val_tc h d kd a b o) m m' F E) as (-> & A & S).
  split; [reflexivity|]. split; [|now apply (asc_sorted kd m ts M)].
  unfold fits_u32 in S. unfold short. lia.
Qed.

Lemma omap_from_complete h d m ts : denotes_pairs h m ts ->
  Forall (fun p => (tdepth (fst p) <= d)%nat) ts -> short m -> map_sorted ts ->
  omap_from (cmp_val d h) m = Ok m.
Proof.
  intros D DP S A. destruct (map_kd _ _ _ D) as (kd & F & M).
  refine (proj2 (omap_from_iff (cmp_val d h) tcmp kd
            (fun w => denotes h w (kd w) /\ (tdepth (kd w) <= d)%nat) tcmp_total _ m _ _) _).
  - intros a b o [Ha _] [Hb _]. now apply cmp_val_tc.
  - unfold keysP. assert (DK : Forall (fun w => (tdepth (kd w) <= d)%nat) (map fst m)).
    { rewrite <- (Forall_map kd (fun t => (tdepth t <= d)%nat)), M, Forall_map. exact DP. }
    rewrite Forall_map in DK. rewrite Forall_forall in *. intros p I. split; auto.
  - intros a b [Ha La] [Hb Lb]. eexists. eapply cmp_val_total; eauto.
  - split; [now apply (asc_sorted kd m ts M)|exact S].
Qed.

(* ------------------------------------------------------ adding objects *)

Lemma add_object h o : Z.of_nat (length h) < 2 ^ 31 ->
  add_host_object h o = (h ++ [o], Ok (obj_word (length h) o)).
Proof.
  intros L. unfold add_host_object, index_to_handle, fits_u32.
  replace (Z.of_nat (length h) <=? u32_max) with true by (unfold u32_max; lia).
  unfold obj_word, object_word. do 2 f_equal. cbn [word_of_atom].
  rewrite Z.shiftl_mul_pow2 by lia. unfold as_u32, obj_handle.
  rewrite Z.mod_small by (change (2 ^ 1) with 2; change (2 ^ 32) with (2 * 2 ^ 31); lia).
  replace (Z.of_nat (length h) * 2 ^ 1) with (2 * Z.of_nat (length h)) by lia.
  assert (E : Z.lor (2 * Z.of_nat (length h)) 1 = 2 * Z.of_nat (length h) + 1).
  { destruct (length h); reflexivity. }
  rewrite E, fmm_eq by (change (2 ^ 32) with (2 * 2 ^ 31); lia). lia.
Qed.

Lemma add_prefix h o h' r : add_host_object h o = (h', r) -> exists x, h' = h ++ x.
Proof.
  unfold add_host_object. destruct (index_to_handle _ _); intros E; injection E as <- <-; [eauto|].
  exists []. now rewrite app_nil_r.
Qed.

Lemma add_denotes h o h' v : add_host_object h o = (h', Ok v) -> Z.of_nat (length h') <= 2 ^ 31 ->
  h' = h ++ [o] /\ v = obj_word (length h) o /\ Z.of_nat (length h) < 2 ^ 31.
Proof.
  intros E L. assert (h' = h ++ [o]).
  { unfold add_host_object in E. destruct (index_to_handle _ _); [injection E as <- _; reflexivity|discriminate]. }
  subst h'. rewrite app_length in L. cbn in L. assert (Z.of_nat (length h) < 2 ^ 31) by lia.
  rewrite add_object in E by assumption. injection E as <-. auto.
Qed.

Lemma nth_last {A} (h : list A) o : nth_error (h ++ [o]) (length h) = Some o.
Proof. rewrite nth_error_app2, Nat.sub_diag by lia. reflexivity. Qed.

Lemma new_denotes h o t : Z.of_nat (length h) < 2 ^ 31 -> obj_denotes h o t ->
  denotes (h ++ [o]) (obj_word (length h) o) t.
Proof.
  intros L D. apply dn_object with (o := o); [apply nth_last|exact L|now apply obj_denotes_ext].
Qed.

(* ------------------------------------------------------ XDR to host *)

Lemma symbol_bytes_ok_spec b : symbol_bytes_ok b = true <-> valid_symbol b.
Proof.
  unfold symbol_bytes_ok, valid_symbol. rewrite andb_true_iff, negb_true_iff, Nat.ltb_ge, forallb_forall, Forall_forall.
  change SCSYMBOL_LIMIT with 32%nat. apply and_iff_compat_l. split; intros H x I; specialize (H x I).
  - destruct (encode_byte x) eqn:E; [|discriminate]. now apply encode_byte_spec in E.
  - destruct (encode_byte_some x H) as [c ->]. reflexivity.
Qed.

Definition is_num (s : scval) : bool :=
  match tree_of s with Some (TNum _ _) => true | _ => false end.

Lemma num_leaf s : sc_typed s -> is_num s = true -> exists k x, tree_of s = Some (TNum k x).
Proof. unfold is_num. destruct (tree_of s) as [[]|]; try discriminate. eauto. Qed.

Lemma small_conv s : sc_typed s -> can_represent s = true -> classify_object s = false ->
  (exists v t, small_of_scval s = Ok v /\ tree_of s = Some t /\ small_denotes v t)
  \/ (exists e, small_of_scval s = Err e /\ ~ representable s).
Proof.
  intros T C K. destruct (is_num s) eqn:N.
  - destruct (num_leaf s T N) as (k & x & E).
    destruct (num_scval s k x T E) as (R & _ & _ & _ & CO & SM & _).
    rewrite K in CO. symmetry in CO. apply negb_false_iff in CO. left. exists (word_of_atom (ANum k x)), (TNum k x).
    split; [|split; [exact E|]].
    + rewrite (SM CO). f_equal.
      destruct (num_to_small_spec k x R) as [[S H]|[S H]]; unfold num_to_small in H; rewrite CO in H; congruence.
    + constructor; [|reflexivity]. cbn [atom_ok]. now apply is_small_num_spec.
  - destruct s; try discriminate N; try discriminate C; try discriminate K.
    + left. exists (val_of_bool b), (TBool b). repeat split. rewrite (proj1 (bool_roundtrip b)).
      now constructor.
    + left. exists val_void, TVoid. repeat split. exact (sd_atom AVoid TVoid I eq_refl).
    + left. exists (val_of_error e), (TErr e). repeat split. rewrite val_of_error_word by exact T. now constructor.
    + left. exists (val_of_u32 x), (TU32 x). repeat split. rewrite (proj1 (u32_roundtrip x T)). now constructor.
    + left. exists (val_of_i32 x), (TI32 x). repeat split. rewrite (proj1 (i32_roundtrip x T)). now constructor.
    + cbn [small_of_scval tree_of]. cbn [classify_object] in K. apply Nat.ltb_ge in K.
      destruct (symbol_small_from_bytes b) as [v|] eqn:E.
      * left. exists v, (TSymbol b). repeat split. destruct (symbol_roundtrip_lemma b v E) as (<- & W & G & OK).
        now apply sd_symbol.
      * right. exists e_val_invalid. split; [reflexivity|]. intros (t & Et & V). cbn in Et. apply some_inj in Et. subst t.
        destruct V as [_ V]. apply symbol_refused_lemma in E. apply E. split; [exact K|exact V].
Qed.

Definition is_cont (s : scval) : bool :=
  match s with SVec (Some _) | SMap (Some _) => true | _ => false end.

Lemma obj_leaf s : sc_typed s -> can_represent s = true -> classify_object s = true -> is_cont s = false ->
  (exists o t, (forall d f h, to_host_obj d f h s = add_host_object h o) /\ tree_of s = Some t
               /\ (forall h, obj_denotes h o t) /\ tsize t = 1%nat /\ tdepth t = 1%nat)
  \/ (exists e, (forall d f h, to_host_obj d f h s = (h, Err e)) /\ ~ representable s).
Proof.
  intros T C K L. destruct (is_num s) eqn:N.
  - destruct (num_leaf s T N) as (k & x & E).
    destruct (num_scval s k x T E) as (R & _ & _ & _ & _ & _ & TH).
    left. exists (HONum k x), (TNum k x). split; [exact TH|]. split; [exact E|]. split; [|split; reflexivity].
    intros h. now constructor.
  - destruct s; try discriminate N; try discriminate C; try discriminate K.
    + left. exists (HOBytes b), (TBytes b). split; [reflexivity|]. split; [reflexivity|]. split; [|split; reflexivity]. intros h. exact (do_bytes h b T).
    + left. exists (HOString b), (TString b). split; [reflexivity|]. split; [reflexivity|]. split; [|split; reflexivity]. intros h. exact (do_string h b T).
    + destruct (symbol_bytes_ok b) eqn:E.
      * left. exists (HOSymbol b), (TSymbol b). cbn [to_host_obj]. rewrite E. repeat split.
        constructor. now apply symbol_bytes_ok_spec.
      * right. exists e_val_invalid. cbn [to_host_obj]. rewrite E. split; [reflexivity|].
        intros (t & Et & V). cbn in Et. apply some_inj in Et. subst t. apply symbol_bytes_ok_spec in V. congruence.
    + destruct l; discriminate.
    + destruct m; discriminate.
    + destruct a as [key|key|id key|n key].
      * left. exists (HOAddress (AAccount key)), (TAddr (AAccount key)). repeat split; constructor.
      * left. exists (HOAddress (AContract key)), (TAddr (AContract key)). repeat split; constructor.
      * left. exists (HOMuxed (AMuxed id key)), (TAddr (AMuxed id key)). repeat split; constructor.
      * right. eexists. split; [reflexivity|].
        intros (t & Et & V). cbn in Et. apply some_inj in Et. subst t. exact V.
    + left. exists (HOExeTag b), (TExe b). split; [reflexivity|]. split; [reflexivity|]. split; [|split; reflexivity]. intros h. exact (do_exe h b T).
Qed.

Lemma extends_refl h : extends h h.
Proof. exists []. now rewrite app_nil_r. Qed.
Lemma extends_trans a b c : extends a b -> extends b c -> extends a c.
Proof. intros [x ->] [y ->]. exists (x ++ y). now rewrite app_assoc. Qed.
Lemma extends_length a b : extends a b -> (length a <= length b)%nat.
Proof. intros [x ->]. rewrite app_length. lia. Qed.
Lemma extends_denotes a b w t : extends a b -> denotes a w t -> denotes b w t.
Proof. intros [x ->]. apply denotes_ext. Qed.

Lemma extends_fits a b : extends a b -> fits b -> fits a.
Proof. unfold fits. intros E. apply extends_length in E. lia. Qed.

Lemma heap_ok_snoc h o t : heap_ok h -> obj_denotes h o t -> heap_ok (h ++ [o]).
Proof.
  intros H D. apply Forall_app. split.
  - eapply Forall_impl; [|exact H]. intros a [u Du]. exists u. now apply obj_denotes_ext.
  - constructor; [|constructor]. exists t. now apply obj_denotes_ext.
Qed.

Definition conv_sound (d : nat) (f : heap -> scval -> heap * res Z) : Prop :=
  forall h s h' r, sc_typed s -> f h s = (h', r) ->
    extends h h' /\ (fits h' ->
      (heap_ok h -> heap_ok h')
      /\ forall v, r = Ok v -> exists t, tree_of s = Some t /\ denotes h' v t /\ (tdepth t <= d)%nat).

Lemma list_sound d f : conv_sound d f -> forall l h h' r,
  Forall sc_typed l -> to_host_list f h l = (h', r) ->
  extends h h' /\ (fits h' ->
    (heap_ok h -> heap_ok h')
    /\ forall vs, r = Ok vs -> exists ts, Forall2 (fun x t => tree_of x = Some t) l ts /\ denotes_list h' vs ts
        /\ Forall (fun t => (tdepth t <= d)%nat) ts).
Proof.
  intros Hf. induction l as [|s l IH]; intros h h' r T E.
  - cbn in E. injection E as <- <-. split; [apply extends_refl|]. intros _. split; [auto|].
    intros vs E. injection E as <-. exists []. split; [|split]; constructor.
  - cbn [to_host_list] in E. destruct (f h s) as [h1 r1] eqn:F1.
    destruct (Hf _ _ _ _ (Forall_inv T) F1) as [X1 S1]. destruct r1 as [v|e].
    + destruct (to_host_list f h1 l) as [h2 r2] eqn:F2.
      destruct (IH _ _ _ (Forall_inv_tail T) F2) as [X2 S2].
      assert (Z : h' = h2 /\ match r2 with Ok vs => r = Ok (v :: vs) | Err e => r = Err e end)
        by (destruct r2; injection E as <- <-; auto). destruct Z as [-> Z]. clear E.
      split; [exact (extends_trans _ _ _ X1 X2)|]. intros Ft.
      destruct (S2 Ft) as [K2 D2]. destruct (S1 (extends_fits _ _ X2 Ft)) as [K1 D1].
      split; [auto|]. intros vs E. destruct r2 as [vs2|]; [|congruence].
      assert (vs = v :: vs2) by congruence. subst vs.
      destruct (D1 v eq_refl) as (t & Et & Dt & Lt'). destruct (D2 vs2 eq_refl) as (ts & Ets & Dts & Lts).
      exists (t :: ts). split; [|split]; constructor; auto. exact (extends_denotes _ _ _ _ X2 Dt).
    + injection E as <- <-. split; [exact X1|]. intros Ft. split; [apply (S1 Ft)|]. intros vs; discriminate.
Qed.

Lemma pairs_sound d f : conv_sound d f -> forall l h h' r,
  Forall ptyped l -> to_host_pairs f h l = (h', r) ->
  extends h h' /\ (fits h' ->
    (heap_ok h -> heap_ok h')
    /\ forall vs, r = Ok vs ->
         exists ts, Forall2 (fun x t => opt_pair tree_of x = Some t) l ts /\ denotes_pairs h' vs ts
           /\ Forall (fun p => (Nat.max (tdepth (fst p)) (tdepth (snd p)) <= d)%nat) ts).
Proof.
  intros Hf. induction l as [|[a b] l IH]; intros h h' r T E.
  - cbn in E. injection E as <- <-. split; [apply extends_refl|]. intros _. split; [auto|].
    intros vs E. injection E as <-. exists []. split; [|split]; constructor.
  - cbn [to_host_pairs] in E. destruct (Forall_inv T) as [Ta Tb]. cbn [fst snd] in Ta, Tb.
    destruct (f h a) as [h1 r1] eqn:F1.
    destruct (Hf _ _ _ _ Ta F1) as [X1 S1]. destruct r1 as [k|e].
    2:{ injection E as <- <-. split; [exact X1|]. intros Ft. split; [apply (S1 Ft)|]. intros vs; discriminate. }
    destruct (f h1 b) as [h2 r2] eqn:F2.
    destruct (Hf _ _ _ _ Tb F2) as [X2 S2]. destruct r2 as [v|e].
    2:{ injection E as <- <-. split; [exact (extends_trans _ _ _ X1 X2)|]. intros Ft.
        split; [|intros vs; discriminate]. intros K. apply (S2 Ft), (S1 (extends_fits _ _ X2 Ft)), K. }
    destruct (to_host_pairs f h2 l) as [h3 r3] eqn:F3.
    destruct (IH _ _ _ (Forall_inv_tail T) F3) as [X3 S3].
    assert (Z : h' = h3 /\ match r3 with Ok vs => r = Ok ((k, v) :: vs) | Err e => r = Err e end)
      by (destruct r3; injection E as <- <-; auto). destruct Z as [-> Z]. clear E.
    pose proof (extends_trans _ _ _ X2 X3) as X23.
    split; [exact (extends_trans _ _ _ X1 X23)|]. intros Ft.
    destruct (S3 Ft) as [K3 D3]. destruct (S2 (extends_fits _ _ X3 Ft)) as [K2 D2].
    destruct (S1 (extends_fits _ _ X23 Ft)) as [K1 D1].
    split; [auto|]. intros vs E. destruct r3 as [vs3|]; [|congruence].
    assert (vs = (k, v) :: vs3) by congruence. subst vs.
    destruct (D1 k eq_refl) as (tk & Etk & Dtk & Ltk). destruct (D2 v eq_refl) as (tv & Etv & Dtv & Ltv).
    destruct (D3 vs3 eq_refl) as (ts & Ets & Dts & Lts).
    exists ((tk, tv) :: ts). split; [|split]; constructor; auto; try (cbn; lia).
    + apply opt_pair_some. auto.
    + exact (extends_denotes _ _ _ _ X23 Dtk).
    + exact (extends_denotes _ _ _ _ X3 Dtv).
Qed.

Lemma add_step h o t h' r : add_host_object h o = (h', r) -> (fits h' -> obj_denotes h o t) ->
  extends h h' /\ (fits h' -> (heap_ok h -> heap_ok h') /\ forall v, r = Ok v -> denotes h' v t).
Proof.
  intros E D. split; [exact (add_prefix _ _ _ _ E)|]. intros Ft. destruct r as [v|e].
  - destruct (add_denotes _ _ _ _ E Ft) as (-> & -> & L). split.
    + intros K. exact (heap_ok_snoc _ _ _ K (D Ft)).
    + intros v' E'. injection E' as <-. exact (new_denotes _ _ _ L (D Ft)).
  - unfold add_host_object in E. destruct (index_to_handle _ _); [discriminate|]. injection E as <- _.
    split; [auto|]. intros v; discriminate.
Qed.

Theorem to_host_sound : forall d, conv_sound d (to_host_val d).
Proof.
  induction d as [|d IH]; intros h s h' r T E.
  { cbn in E. injection E as <- <-. split; [apply extends_refl|]. intros _. split; [auto|]. intros v; discriminate. }
  cbn [to_host_val] in E. destruct (can_represent s) eqn:C; cbn [negb] in E.
  2:{ injection E as <- <-. split; [apply extends_refl|]. intros _. split; [auto|]. intros v; discriminate. }
  destruct (classify_object s) eqn:K.
  2:{ injection E as <- <-. split; [apply extends_refl|]. intros _. split; [auto|]. intros v Ev.
      destruct (small_conv s T C K) as [(v' & t & Ev' & Et & D)|(e & Ev' & _)]; [|congruence].
      exists t. split; [exact Et|]. assert (v = v') by congruence. subst v'. split; [now apply small_denotes_any|].
      destruct D as [a t OK EE|]; [destruct a; inversion EE|]; cbn; lia. }
  destruct (is_cont s) eqn:IC.
  2:{ destruct (obj_leaf s T C K IC) as [(o & t & TH & Et & D & _ & Dp)|(e & TH & _)]; rewrite TH in E.
      - destruct (add_step _ _ t _ _ E (fun _ => D h)) as [X S]. split; [exact X|]. intros Ft.
        destruct (S Ft) as [S1 S2]. split; [exact S1|]. intros v Ev. exists t. split; [auto|]. split; [auto|].
        lia.
      - injection E as <- <-. split; [apply extends_refl|]. intros _. split; [auto|]. intros v; discriminate. }
  destruct s as [x| |x|x|x|x|x|x|x|x1 x2|x1 x2|x1 x2 x3 x4|x1 x2 x3 x4|x|x|x|[l|]|[m|]|x|x xs| |x|x]; try discriminate IC.
  - cbn [to_host_obj] in E. cbn [sc_typed optP] in T. rewrite allP_Forall in T.
    destruct (to_host_list (to_host_val d) h l) as [h1 r1] eqn:F1.
    destruct (list_sound d _ IH _ _ _ _ T F1) as [X1 S1]. destruct r1 as [vs|e].
    2:{ injection E as <- <-. split; [exact X1|]. intros Ft. split; [apply (S1 Ft)|]. intros v; discriminate. }
    unfold mvec_from in E. destruct (fits_u32 (length vs)) eqn:FU.
    2:{ injection E as <- <-. split; [exact X1|]. intros Ft. split; [apply (S1 Ft)|]. intros v; discriminate. }
    assert (XA := add_prefix _ _ _ _ E). assert (X := extends_trans _ _ _ X1 XA). split; [exact X|]. intros Ft.
    destruct (S1 (extends_fits _ _ XA Ft)) as [K1 D1]. destruct (D1 vs eq_refl) as (ts & Ets & Dts & Lts).
    assert (D : obj_denotes h1 (HOVec vs) (TVec ts)).
    { constructor; [|exact Dts]. unfold fits_u32 in FU. unfold short. lia. }
    destruct (add_step _ _ _ _ _ E (fun _ => D)) as [_ S]. destruct (S Ft) as [K2 D2].
    split; [auto|]. intros v Ev. exists (TVec ts). split; [|split; [auto|]].
    + cbn [tree_of]. apply opt_list_F2 in Ets. rewrite Ets. reflexivity.
    + cbn [tdepth]. apply le_n_S, lmax_le. now rewrite Forall_map.
  - cbn [to_host_obj] in E. cbn [sc_typed optP] in T. rewrite allP_Forall in T.
    destruct (to_host_pairs (to_host_val d) h m) as [h1 r1] eqn:F1.
    destruct (pairs_sound d _ IH _ _ _ _ T F1) as [X1 S1]. destruct r1 as [ps|e].
    2:{ injection E as <- <-. split; [exact X1|]. intros Ft. split; [apply (S1 Ft)|]. intros v; discriminate. }
    destruct (omap_from (cmp_val d h1) ps) as [ps'|e] eqn:OM.
    2:{ injection E as <- <-. split; [exact X1|]. intros Ft. split; [apply (S1 Ft)|]. intros v; discriminate. }
    assert (XA := add_prefix _ _ _ _ E). assert (X := extends_trans _ _ _ X1 XA). split; [exact X|]. intros Ft.
    destruct (S1 (extends_fits _ _ XA Ft)) as [K1 D1]. destruct (D1 ps eq_refl) as (ts & Ets & Dts & Lts).
    destruct (omap_from_den _ _ _ _ _ Dts OM) as (-> & Sh & So).
    assert (D : obj_denotes h1 (HOMap ps) (TMap ts)) by (constructor; assumption).
    destruct (add_step _ _ _ _ _ E (fun _ => D)) as [_ S]. destruct (S Ft) as [K2 D2].
    split; [auto|]. intros v Ev. exists (TMap ts). split; [|split; [auto|]].
    + cbn [tree_of]. apply opt_list_F2 in Ets. rewrite Ets. reflexivity.
    + cbn [tdepth]. apply le_n_S, lmax_le. now rewrite Forall_map.
Qed.

Lemma Forall2_length {A C} (R : A -> C -> Prop) l l' : Forall2 R l l' -> length l = length l'.
Proof. induction 1; cbn; congruence. Qed.

(* every value that spells a valid tree converts, given depth and room *)
Definition conv_complete (d : nat) (f : heap -> scval -> heap * res Z) : Prop :=
  forall h s t, sc_typed s -> tree_of s = Some t -> valid_tree t -> (tdepth t <= d)%nat ->
    room h (tsize t) ->
    exists h' v, f h s = (h', Ok v) /\ (length h' <= length h + tsize t)%nat.

Lemma list_complete d f : conv_sound d f -> conv_complete d f -> forall l ts,
  Forall2 (fun x t => tree_of x = Some t) l ts -> forall h, Forall sc_typed l -> Forall valid_tree ts ->
  Forall (fun t => (tdepth t <= d)%nat) ts -> room h (lsum (map tsize ts)) ->
  exists h' vs, to_host_list f h l = (h', Ok vs) /\ (length h' <= length h + lsum (map tsize ts))%nat
    /\ length vs = length l.
Proof.
  intros Hs Hc. induction 1 as [|s t l ts E F IH]; intros h T V D R.
  - exists h, []. cbn. auto with arith.
  - cbn [map lsum fold_right] in R. change (fold_right Nat.add 0%nat (map tsize ts)) with (lsum (map tsize ts)) in R.
    destruct (Hc h s t (Forall_inv T) E (Forall_inv V) (Forall_inv D)) as (h1 & v & F1 & L1).
    { unfold room in *. lia. }
    destruct (IH h1 (Forall_inv_tail T) (Forall_inv_tail V) (Forall_inv_tail D)) as (h2 & vs & F2 & L2 & L3).
    { unfold room in *. lia. }
    exists h2, (v :: vs). cbn [to_host_list]. rewrite F1, F2. split; [reflexivity|].
    cbn [map lsum fold_right length]. change (fold_right Nat.add 0%nat (map tsize ts)) with (lsum (map tsize ts)). lia.
Qed.

Lemma pairs_complete d f : conv_sound d f -> conv_complete d f -> forall l ts,
  Forall2 (fun x t => opt_pair tree_of x = Some t) l ts -> forall h, Forall ptyped l ->
  Forall (fun p => valid_tree (fst p) /\ valid_tree (snd p)) ts ->
  Forall (fun p => (Nat.max (tdepth (fst p)) (tdepth (snd p)) <= d)%nat) ts ->
  room h (lsum (map (fun p => tsize (fst p) + tsize (snd p)) ts)%nat) ->
  exists h' vs, to_host_pairs f h l = (h', Ok vs)
    /\ (length h' <= length h + lsum (map (fun p => tsize (fst p) + tsize (snd p)) ts))%nat
    /\ length vs = length l.
Proof.
  intros Hs Hc. induction 1 as [|[a b] [ta tb] l ts E F IH]; intros h T V D R.
  - exists h, []. cbn. auto with arith.
  - cbn [map lsum fold_right fst snd] in *.
    set (N := lsum (map (fun p => tsize (fst p) + tsize (snd p)) ts)%nat) in *.
    change (fold_right Nat.add 0%nat (map (fun p => (tsize (fst p) + tsize (snd p))%nat) ts)) with N in *.
    apply opt_pair_some in E as [Ea Eb]. destruct (Forall_inv T) as [Ta Tb]. destruct (Forall_inv V) as [Va Vb].
    pose proof (Forall_inv D) as Dab. cbn [fst snd] in *.
    destruct (Hc h a ta Ta Ea Va) as (h1 & k & F1 & L1); [lia|unfold room in *; lia|].
    destruct (Hc h1 b tb Tb Eb Vb) as (h2 & v & F2 & L2); [lia|unfold room in *; lia|].
    destruct (IH h2 (Forall_inv_tail T) (Forall_inv_tail V) (Forall_inv_tail D)) as (h3 & vs & F3 & L3 & L4).
    { unfold room in *. lia. }
    exists h3, ((k, v) :: vs). cbn [to_host_pairs]. rewrite F1, F2, F3. split; [reflexivity|].
    cbn [length]. lia.
Qed.

Lemma tree_of_rep s t : tree_of s = Some t -> can_represent s = true.
Proof. destruct s; try reflexivity; try discriminate; [destruct l|destruct m]; try reflexivity; discriminate. Qed.

Lemma tsize_pos t : (1 <= tsize t)%nat.
Proof. destruct t; cbn; lia. Qed.

Theorem to_host_complete : forall d, conv_complete d (to_host_val d).
Proof.
  induction d as [|d IH]; intros h s t T E V D R.
  { pose proof (tdepth_pos t). lia. }
  pose proof (to_host_sound d) as SND. pose proof (tree_of_rep _ _ E) as C.
  cbn [to_host_val]. rewrite C. cbn [negb]. destruct (classify_object s) eqn:K.
  2:{ destruct (small_conv s T C K) as [(v & t' & Ev & _ & _)|(e & _ & N)].
      - exists h, v. rewrite Ev. split; [reflexivity|lia].
      - exfalso. apply N. exists t. auto. }
  destruct (is_cont s) eqn:IC.
  2:{ destruct (obj_leaf s T C K IC) as [(o & t' & TH & Et & _ & Sz & _)|(e & _ & N)].
      - rewrite TH. assert (t' = t) by congruence. subst t'. rewrite Sz in *.
        rewrite add_object by (unfold room in R; lia).
        eexists _, _. split; [reflexivity|]. rewrite app_length. cbn. lia.
      - exfalso. apply N. exists t. auto. }
  destruct s as [x| |x|x|x|x|x|x|x|x1 x2|x1 x2|x1 x2 x3 x4|x1 x2 x3 x4|x|x|x|[l|]|[m|]|x|x xs| |x|x]; try discriminate IC.
  - cbn [tree_of] in E. destruct (opt_list tree_of l) as [ts|] eqn:El; [|discriminate]. apply some_inj in E. subst t.
    apply opt_list_F2 in El. cbn [sc_typed optP] in T. rewrite allP_Forall in T.
    cbn [valid_tree] in V. destruct V as [Sh V]. rewrite allP_Forall in V.
    cbn [tdepth] in D. assert (D' : (lmax (map tdepth ts) <= d)%nat) by lia. apply lmax_le in D'. rewrite Forall_map in D'.
    cbn [tsize] in *.
    destruct (list_complete d _ SND IH _ _ El h T V D') as (h1 & vs & F1 & L1 & L2).
    { unfold room in *. lia. }
    cbn [to_host_obj]. rewrite F1. unfold mvec_from, fits_u32.
    rewrite L2, (Forall2_length _ _ _ El). replace (_ <=? _) with true by (unfold short in Sh; lia).
    rewrite add_object by (unfold room in R; lia).
    eexists _, _. split; [reflexivity|]. rewrite app_length. cbn. lia.
  - cbn [tree_of] in E. destruct (opt_list (opt_pair tree_of) m) as [ts|] eqn:El; [|discriminate]. apply some_inj in E. subst t.
    apply opt_list_F2 in El. cbn [sc_typed optP] in T. rewrite allP_Forall in T.
    cbn [valid_tree] in V. destruct V as (Sh & So & V). rewrite allP_Forall in V.
    cbn [tdepth] in D. assert (D' : (lmax (map (fun p => Nat.max (tdepth (fst p)) (tdepth (snd p))) ts) <= d)%nat) by lia.
    apply lmax_le in D'. rewrite Forall_map in D'.
    cbn [tsize] in *.
    destruct (pairs_complete d _ SND IH _ _ El h T V D') as (h1 & ps & F1 & L1 & L2).
    { unfold room in *. lia. }
    cbn [to_host_obj]. rewrite F1.
    destruct (pairs_sound d _ SND _ _ _ _ T F1) as [X1 S1].
    destruct S1 as [_ S1]; [unfold fits, room in *; lia|]. destruct (S1 ps eq_refl) as (ts' & El' & Dp & _).
    assert (ts' = ts). { apply opt_list_F2 in El, El'. congruence. } subst ts'.
    rewrite (omap_from_complete h1 d ps ts Dp).
    + rewrite add_object by (unfold room in R; lia).
      eexists _, _. split; [reflexivity|]. rewrite app_length. cbn. lia.
    + eapply Forall_impl; [|exact D']. cbn. intros; lia.
    + unfold short in *. rewrite L2, (Forall2_length _ _ _ El). exact Sh.
    + exact So.
Qed.

(* ------------------------------------------------------ host to XDR *)

Lemma tree_xdr s t : sc_typed s -> tree_of s = Some t -> s = xdr_of t.
Proof.
  revert t. induction s as [s L1 L2 L3|l IH|m IH|e m IH] using scval_ind'; intros t T E.
  - destruct (is_num s) eqn:N.
    + destruct (num_leaf s T N) as (k & x & E'). assert (t = TNum k x) by congruence. subst t.
      now apply num_scval.
    + destruct s; try discriminate N; cbn in E; try discriminate E; try (apply some_inj in E; subst t; reflexivity).
      * destruct l; [|discriminate]. exfalso. eapply L1; reflexivity.
      * destruct m; [|discriminate]. exfalso. eapply L2; reflexivity.
  - cbn [tree_of] in E. destruct (opt_list tree_of l) as [ts|] eqn:El; [|discriminate]. apply some_inj in E. subst t.
    apply opt_list_F2 in El. cbn [sc_typed optP] in T. rewrite allP_Forall in T. cbn [xdr_of]. do 2 f_equal.
    induction El as [|s t l ts E F IHl]; [reflexivity|]. cbn. f_equal.
    + exact (Forall_inv IH _ (Forall_inv T) E).
    + exact (IHl (Forall_inv_tail IH) (Forall_inv_tail T)).
  - cbn [tree_of] in E. destruct (opt_list (opt_pair tree_of) m) as [ts|] eqn:El; [|discriminate]. apply some_inj in E. subst t.
    apply opt_list_F2 in El. cbn [sc_typed optP] in T. rewrite allP_Forall in T. cbn [xdr_of]. do 2 f_equal.
    induction El as [|[a b] [ta tb] l ts E F IHl]; [reflexivity|]. cbn [map fst snd]. apply opt_pair_some in E as [Ea Eb].
    destruct (Forall_inv IH) as [Ia Ib], (Forall_inv T) as [Ta Tb]. cbn [fst snd] in *.
    f_equal; [f_equal; auto|]. exact (IHl (Forall_inv_tail IH) (Forall_inv_tail T)).
  - discriminate E.
Qed.

Lemma small_body_nonneg w : 0 <= get_body w < 2 ^ 56 -> get_body w / 2 ^ 64 = 0 /\ get_body w mod 2 ^ 64 = get_body w.
Proof. intros. split; [apply Z.div_small|apply Z.mod_small]; lia. Qed.

Lemma scval_of_small_ok w t : small_denotes w t -> scval_of_small w = Ok (xdr_of t).
Proof.
  intros D. destruct (small_facts _ _ D) as (T & _ & F & W & G). unfold scval_of_small. rewrite T.
  destruct D as [a t OK E|w W' G' T'].
  2:{ reflexivity. }
  destruct a as [[]| |u|i|k x|e|tg hd]; inversion E; subst; clear E; cbn [stag]; cbn [sfield] in F; try reflexivity.
  - rewrite F. reflexivity.
  - rewrite F. reflexivity.
  - destruct F as [_ F]. destruct k; cbn [small_tag signed_num] in *; rewrite F; try reflexivity;
      cbn [xdr_of]; cbn [atom_ok] in OK; unfold small_range in OK; cbn in OK.
    + rewrite (Z.div_small x), (Z.mod_small x) by lia. reflexivity.
    + assert (R : - 2 ^ 127 <= x < 2 ^ 127) by lia. destruct (i128_split x R) as (Eh & El & _).
      unfold i128_hi, i128_lo in Eh, El. cbv zeta. rewrite Eh, El. reflexivity.
    + rewrite (Z.div_small x (2 ^ 192)), (Z.div_small x (2 ^ 128)), (Z.div_small x (2 ^ 64)), (Z.mod_small x) by lia. reflexivity.
    + assert (R : - 2 ^ 255 <= x < 2 ^ 255) by lia.
      destruct (xdr_num_range NI256 x R) as (_ & _ & Q). cbn [scval_of_num xdr_of] in Q.
      destruct (i256_into_pieces x) as [[[? ?] ?] ?]. rewrite Q. reflexivity.
  - rewrite <- val_of_error_word by exact OK. rewrite error_roundtrip_lemma by exact OK. reflexivity.
Qed.

Definition from_res (d : nat) (storage : bool) (t : tval) (r : res scval) : Prop :=
  match r with
  | Ok s => s = xdr_of t /\ (storage = true -> mux_free t)
  | Err e => (e = e_depth /\ (d < tdepth t)%nat)
             \/ (e = ESys TStorage CInvalidInput /\ storage = true /\ ~ mux_free t)
  end.

Lemma res_list_ok d st h (f : Z -> res scval) :
  (forall v t, denotes h v t -> from_res d st t (f v)) ->
  forall l ts, denotes_list h l ts ->
  match res_list f l with
  | Ok ss => ss = map xdr_of ts /\ (st = true -> Forall mux_free ts)
  | Err e => (e = e_depth /\ Exists (fun t => (d < tdepth t)%nat) ts)
             \/ (e = ESys TStorage CInvalidInput /\ st = true /\ ~ Forall mux_free ts)
  end.
Proof.
  intros Hf. induction 1 as [|w t ws ts D DL IH]; cbn [res_list]; [split; auto|].
  pose proof (Hf _ _ D) as H. destruct (f w) as [s|e]; cbn in H; cbn [rbind].
  - destruct H as [-> M]. destruct (res_list f ws) as [ss|e]; cbn [rbind].
    + destruct IH as [-> Ms]. split; [reflexivity|]. intros E. constructor; auto.
    + destruct IH as [[-> X]|(-> & E & N)]; [left; auto|right; repeat split; auto].
      intros F. apply N. exact (Forall_inv_tail F).
  - destruct H as [[-> X]|(-> & E & N)]; [left; auto|right; repeat split; auto].
    intros F. apply N. exact (Forall_inv F).
Qed.

Definition pmux (p : tval * tval) : Prop := mux_free (fst p) /\ mux_free (snd p).

Lemma res_pairs_ok d st h (f : Z -> res scval) :
  (forall v t, denotes h v t -> from_res d st t (f v)) ->
  forall l ts, denotes_pairs h l ts ->
  match res_list (res_pair f) l with
  | Ok ss => ss = map (fun p => (xdr_of (fst p), xdr_of (snd p))) ts /\ (st = true -> Forall pmux ts)
  | Err e => (e = e_depth /\ Exists (fun p => (d < Nat.max (tdepth (fst p)) (tdepth (snd p)))%nat) ts)
             \/ (e = ESys TStorage CInvalidInput /\ st = true /\ ~ Forall pmux ts)
  end.
Proof.
  intros Hf. induction 1 as [|k v tk tv m ts Dk Dv DL IH]; cbn [res_list]; [split; auto|].
  unfold res_pair at 1. cbn [fst snd].
  pose proof (Hf _ _ Dk) as Hk. pose proof (Hf _ _ Dv) as Hv.
  destruct (f k) as [s|e]; cbn in Hk; cbn [rbind].
  2:{ destruct Hk as [[-> X]|(-> & E & N)]; [left; split; auto; constructor; cbn; lia|right; repeat split; auto].
      intros F. apply N. apply (Forall_inv F). }
  destruct (f v) as [s'|e]; cbn in Hv; cbn [rbind].
  2:{ destruct Hv as [[-> X]|(-> & E & N)]; [left; split; auto; constructor; cbn; lia|right; repeat split; auto].
      intros F. apply N. apply (Forall_inv F). }
  destruct Hk as [-> Mk], Hv as [-> Mv].
  destruct (res_list (res_pair f) m) as [ss|e]; cbn [rbind].
  - destruct IH as [-> Ms]. split; [reflexivity|]. intros E. constructor; auto. split; auto.
  - destruct IH as [[-> X]|(-> & E & N)]; [left; auto|right; repeat split; auto].
    intros F. apply N. exact (Forall_inv_tail F).
Qed.

Lemma xdr_rep t : can_represent (xdr_of t) = true.
Proof. destruct t as [| | | | |[]| | | | | | |]; reflexivity. Qed.

Theorem from_host_ok : forall d st h v t, denotes h v t -> from_res d st t (from_host_val d st h v).
Proof.
  induction d as [|d IH]; intros st h v t D.
  { cbn. left. pose proof (tdepth_pos t). split; [reflexivity|lia]. }
  assert (M : from_res (S d) st t (if is_object v then
                   let? o := visit_obj_untyped h v in
                   from_host_obj st (from_host_val d st h) o
                 else scval_of_small v)).
  { apply denotes_cases in D as [D|(i & o & -> & N & L & D)].
    - rewrite (proj1 (proj2 (small_facts _ _ D))), (scval_of_small_ok _ _ D). split; [reflexivity|].
      intros _. destruct D as [a t OK E|]; [|exact I].
      destruct a; inversion E; exact I.
    - rewrite obj_is_object, (visit_obj h i o N L) by assumption. cbn [rbind].
      destruct D as [k x R|b|b|b V|l ts Sh DL|m ts Sh MS DL|k|k|i' k|b]; cbn [from_host_obj];
        try (split; [reflexivity|intros _; exact I]).
      + split; [apply (xdr_num_range k x R)|]. intros _; exact I.
      + pose proof (res_list_ok d st h _ (IH st h) _ _ DL) as H.
        destruct (res_list _ l) as [ss|e]; cbn [rbind from_res].
        * destruct H as [-> Ms]. split; [reflexivity|]. intros E. cbn [mux_free]. apply allP_Forall. auto.
        * destruct H as [[-> X]|(-> & E & Nm)].
          -- left. split; [reflexivity|]. cbn [tdepth]. apply Exists_lmax in X. lia.
          -- right. repeat split; auto. cbn [mux_free]. now rewrite allP_Forall.
      + pose proof (res_pairs_ok d st h _ (IH st h) _ _ DL) as H.
        destruct (res_list _ m) as [ss|e]; cbn [rbind from_res].
        * destruct H as [-> Ms]. split; [reflexivity|]. intros E. cbn [mux_free]. apply allP_Forall. exact (Ms E).
        * destruct H as [[-> X]|(-> & E & Nm)].
          -- left. split; [reflexivity|]. cbn [tdepth].
             apply (Exists_lmax (fun p => Nat.max (tdepth (fst p)) (tdepth (snd p)))) in X. lia.
          -- right. repeat split; auto. cbn [mux_free]. rewrite allP_Forall. exact Nm.
      + destruct st; cbn; [right; repeat split; auto|split; [reflexivity|discriminate]]. }
  cbn [from_host_val].
  destruct (if is_object v then _ else _) as [s|e]; cbn [rbind].
  - destruct M as [-> M]. rewrite xdr_rep. split; auto.
  - exact M.
Qed.
