(* The vector and byte-string computations are the sequence operations. *)
From Coq Require Import ZArith Lia List Bool.
From Verif Require Import Prelude ContainerModel HeapModel HeapSpec HostFnModel HostFnSpec ConvProofs.
Import ListNotations.
Open Scope Z_scope.

Definition opt_of {A} (r : res A) : option A := match r with Ok x => Some x | Err _ => None end.

Lemma opt_of_some {A} (r : res A) x : opt_of r = Some x <-> r = Ok x.
Proof. destruct r; cbn; split; congruence. Qed.

Ltac nb := repeat match goal with
  | |- context [Nat.ltb ?a ?b] => destruct (Nat.ltb_spec a b)
  | |- context [Nat.leb ?a ?b] => destruct (Nat.leb_spec a b)
  | |- context [Nat.eqb ?a ?b] => destruct (Nat.eqb_spec a b)
  | |- context [Z.ltb ?a ?b] => destruct (Z.ltb_spec a b)
  | |- context [Z.leb ?a ?b] => destruct (Z.leb_spec a b)
  | |- context [Z.eqb ?a ?b] => destruct (Z.eqb_spec a b)
  end.

Lemma list_set_eq {A} (l : list A) i x : (i < length l)%nat ->
  list_set l i x = firstn i l ++ x :: skipn (i + 1) l.
Proof.
  revert i. induction l as [|a l IH]; intros i H; cbn in H; [lia|].
  destruct i; cbn; [reflexivity|]. f_equal. apply IH. lia.
Qed.

Lemma mvec_from_short {A} (l : list A) : short l -> mvec_from l = Ok l.
Proof. unfold short, mvec_from, fits_u32. intros. now replace (_ <=? _) with true by lia. Qed.

Section S.
  Context {A : Type}.
  Implicit Type l : list A.

  Lemma put_seq l i x : short l -> opt_of (hvec_put l (Z.of_nat i) x) = seq_put l i x.
  Proof.
    unfold hvec_put, validate_index_lt_bound, mvec_set, seq_put, some_if. intros S. rewrite Nat2Z.id.
    nb; cbn; try lia; auto. destruct (nth_error l i) eqn:N.
    - cbn. now rewrite list_set_eq.
    - apply nth_error_None in N. lia.
  Qed.

  Lemma get_seq l i : opt_of (hvec_get l (Z.of_nat i)) = seq_get l i.
  Proof.
    unfold hvec_get, validate_index_lt_bound, mvec_get, seq_get. rewrite Nat2Z.id.
    nb; cbn; destruct (nth_error l i) eqn:N; cbn; auto.
    assert (i < length l)%nat by (apply nth_error_Some; congruence). lia.
  Qed.

  Lemma del_seq l i : short l -> opt_of (hvec_del l (Z.of_nat i)) = seq_del l i.
  Proof.
    unfold hvec_del, validate_index_lt_bound, mvec_remove, seq_del, some_if, add_or_err, fits_u32, short.
    intros S. rewrite Nat2Z.id. nb; cbn; try lia; auto.
    rewrite mvec_from_short; auto. unfold short. rewrite app_length, firstn_length, skipn_length. lia.
  Qed.

  Lemma len_ok_short l : len_ok l = true <-> short l.
  Proof. unfold len_ok, short. lia. Qed.

  Lemma push_front_seq l x : short l -> opt_of (mvec_push_front l x) = seq_insert l 0 x.
  Proof.
    unfold mvec_push_front, seq_insert, some_if, is_u32_max, mvec_from, fits_u32, len_ok, short.
    intros S. cbn [firstn skipn app length Nat.leb andb]. rewrite Nat2Z.inj_succ. nb; cbn; auto; lia.
  Qed.

  Lemma push_back_seq l x : short l -> opt_of (mvec_push_back l x) = seq_append l [x].
  Proof.
    unfold mvec_push_back, seq_append, some_if, is_u32_max, mvec_from, fits_u32, len_ok, short.
    rewrite app_length. cbn. intros S. nb; cbn; auto; lia.
  Qed.

  Lemma insert_seq l i x : short l -> opt_of (hvec_insert l (Z.of_nat i) x) = seq_insert l i x.
  Proof.
    intros Sh. unfold hvec_insert, validate_index_le_bound. rewrite Nat2Z.id.
    destruct (Z.ltb_spec (Z.of_nat (length l)) (Z.of_nat i)).
    { cbn. unfold seq_insert, some_if. nb; cbn; auto. lia. }
    cbn [rbind]. unfold mvec_insert.
    assert (L : length (firstn i l ++ x :: skipn i l) = S (length l)).
    { rewrite app_length, firstn_length. cbn. rewrite skipn_length. lia. }
    destruct (is_u32_max (length l)) eqn:M.
    { unfold seq_insert, some_if, len_ok, is_u32_max in *. rewrite L, Nat2Z.inj_succ. nb; cbn; auto. lia. }
    destruct (Nat.ltb_spec (length l) i); [lia|].
    destruct (Nat.eqb_spec i (length l)) as [->|NE].
    { rewrite push_back_seq by auto. unfold seq_append, seq_insert. rewrite firstn_all, skipn_all.
      rewrite Nat.leb_refl. reflexivity. }
    destruct (Nat.eqb_spec i 0) as [->|NZ].
    { rewrite push_front_seq by auto. reflexivity. }
    unfold seq_insert, some_if, len_ok, mvec_from, fits_u32. cbn [app]. nb; cbn; auto; lia.
  Qed.

  Lemma append_seq l m : short l -> short m -> opt_of (hvec_append l m) = seq_append l m.
  Proof.
    unfold hvec_append, mvec_append, add_or_err, mvec_from, seq_append, some_if, len_ok, fits_u32, short.
    rewrite app_length. intros. nb; cbn; auto; lia.
  Qed.

  Lemma slice_seq l s e : short l -> opt_of (hvec_slice l (Z.of_nat s) (Z.of_nat e)) = seq_slice l s e.
  Proof.
    intros Sh. unfold hvec_slice, valid_range, validate_index_le_bound, mvec_slice, seq_slice, some_if.
    repeat (nb; cbn [rbind fst snd andb opt_of]; rewrite ?Nat2Z.id; try reflexivity; try lia).
    rewrite mvec_from_short; auto. unfold short in *. rewrite firstn_length, skipn_length. lia.
  Qed.

  Lemma pop_front_seq l : short l -> opt_of (mvec_pop_front l) = seq_tail l.
  Proof.
    unfold mvec_pop_front, seq_tail. destruct l as [|a l]; cbn [skipn]; auto. intros S.
    rewrite mvec_from_short; auto. unfold short in *. cbn in S. lia.
  Qed.

  Lemma removelast_firstn l : removelast l = firstn (length l - 1) l.
  Proof.
    induction l as [|a l IH]; auto. cbn [removelast length]. destruct l as [|b l]; auto.
    rewrite IH. cbn [length]. replace (S (S (length l)) - 1)%nat with (S (S (length l) - 1)) by lia. reflexivity.
  Qed.

  Lemma pop_back_seq l : short l -> opt_of (mvec_pop_back l) = seq_init l.
  Proof.
    unfold mvec_pop_back, seq_init. destruct l as [|a l]; auto. intros S.
    unfold sub_or_err. destruct (Nat.ltb_spec (length (a :: l)) 1); [cbn in *; lia|]. cbn [rbind].
    rewrite mvec_from_short; [now rewrite removelast_firstn|].
    unfold short in *. rewrite firstn_length. lia.
  Qed.

  Lemma front_seq l : opt_of (mvec_front l) = seq_head l.
  Proof. destruct l; reflexivity. Qed.

  Lemma nth_last_rev l : nth_error l (length l - 1) = match rev l with [] => None | x :: _ => Some x end.
  Proof.
    destruct l as [|a l] using rev_ind; auto. rewrite app_length, rev_app_distr. cbn.
    replace (length l + 1 - 1)%nat with (length l) by lia. rewrite nth_error_app2, Nat.sub_diag by lia. reflexivity.
  Qed.

  Lemma back_seq l : opt_of (mvec_back l) = seq_last l.
  Proof. unfold mvec_back, seq_last. rewrite nth_last_rev. destruct (rev l); reflexivity. Qed.
End S.

Lemma bput_seq l i x : opt_of (hbytes_put l i x) = seq_put l i x.
Proof.
  unfold hbytes_put, seq_put, some_if. destruct (nth_error l i) eqn:N; cbn [opt_of].
  - assert (i < length l)%nat by (apply nth_error_Some; congruence). rewrite list_set_eq by auto. nb; auto; lia.
  - apply nth_error_None in N. nb; auto; lia.
Qed.
Lemma bget_seq l i : opt_of (hbytes_get l i) = seq_get l i.
Proof. unfold hbytes_get, seq_get. destruct (nth_error l i); reflexivity. Qed.
Lemma bdel_seq l i : opt_of (hbytes_del l i) = seq_del l i.
Proof. unfold hbytes_del, validate_index_lt_bound, seq_del, some_if. nb; cbn; auto; lia. Qed.
Lemma sum_fits a b : Z.of_nat a <= u32_max -> Z.of_nat b <= u32_max ->
  opt_of (validate_usize_sum_fits_in_u32 a b) = some_if (Z.of_nat (a + b) <=? u32_max) (a + b)%nat.
Proof. unfold validate_usize_sum_fits_in_u32, fits_u32, some_if. intros. nb; cbn; auto; lia. Qed.
Lemma bappend_seq l m : short l -> short m -> opt_of (hbytes_append l m) = seq_append l m.
Proof.
  unfold short. intros L M. pose proof (sum_fits _ _ L M) as E. unfold hbytes_append, seq_append, len_ok.
  rewrite app_length. destruct (validate_usize_sum_fits_in_u32 _ _) as [n|e]; cbn in *; unfold some_if in *;
    destruct (_ <=? _); congruence.
Qed.
Lemma bpush_seq l x : short l -> opt_of (hbytes_push l x) = seq_append l [x].
Proof.
  intros L. assert (M : short [x]) by (unfold short, u32_max; cbn; lia).
  pose proof (bappend_seq l [x] L M) as E. exact E.
Qed.
Lemma bpop_seq l : opt_of (hbytes_pop l) = seq_init l.
Proof. destruct l; reflexivity. Qed.
Lemma bfront_seq l : opt_of (hbytes_front l) = seq_head l.
Proof. destruct l; reflexivity. Qed.
Lemma bback_seq l : opt_of (hbytes_back l) = seq_last l.
Proof. unfold hbytes_back, seq_last. destruct (rev l); reflexivity. Qed.
Lemma binsert_seq l i x : short l -> opt_of (hbytes_insert l i x) = seq_insert l i x.
Proof.
  intros L. unfold hbytes_insert, validate_index_le_bound, seq_insert, len_ok.
  destruct (Z.ltb_spec (Z.of_nat (length l)) (Z.of_nat i)).
  { cbn. unfold some_if. nb; cbn; auto; lia. }
  cbn [rbind]. pose proof (sum_fits (length l) 1 L ltac:(unfold u32_max; lia)) as E.
  rewrite app_length, firstn_length. cbn [length]. rewrite skipn_length.
  replace (Nat.min i (length l) + S (length l - i))%nat with (length l + 1)%nat by lia.
  replace (Nat.leb i (length l)) with true by (symmetry; apply Nat.leb_le; lia). cbn [andb].
  destruct (validate_usize_sum_fits_in_u32 _ _) as [n|e]; cbn in *; unfold some_if in *;
    destruct (_ <=? _); congruence.
Qed.
Lemma bslice_seq l s e : opt_of (hbytes_slice l s e) = seq_slice l s e.
Proof.
  unfold hbytes_slice, valid_range, validate_index_le_bound, seq_slice, some_if.
  repeat (nb; cbn [rbind fst snd andb opt_of]; rewrite ?Nat2Z.id; try reflexivity; try lia).
Qed.

(* ------------------------------------------------- sequence operations respect relations *)

Definition orel {A B} (R : A -> B -> Prop) (a : option A) (b : option B) : Prop :=
  match a, b with Some x, Some y => R x y | None, None => True | _, _ => False end.

Section Rel.
  Context {A B : Type} (R : A -> B -> Prop).
  Notation RL := (Forall2 R).

  Lemma F2_firstn n l m : RL l m -> RL (firstn n l) (firstn n m).
  Proof. intros F. revert n. induction F; intros [|n]; cbn; constructor; auto. Qed.
  Lemma F2_skipn n l m : RL l m -> RL (skipn n l) (skipn n m).
  Proof. intros F. revert n. induction F; intros [|n]; cbn; auto. Qed.
  Lemma F2_rev l m : RL l m -> RL (rev l) (rev m).
  Proof. induction 1; cbn; auto. apply Forall2_app; auto. Qed.
  Lemma F2_nth l m i : RL l m -> orel R (nth_error l i) (nth_error m i).
  Proof. intros F. revert i. induction F; intros [|i]; cbn; auto. Qed.

  Lemma some_if_rel (b : bool) x y : RL x y -> orel RL (some_if b x) (some_if b y).
  Proof. destruct b; cbn; auto. Qed.

  Lemma put_rel l m i x y : RL l m -> R x y -> orel RL (seq_put l i x) (seq_put m i y).
  Proof.
    intros F X. unfold seq_put. rewrite (Forall2_length _ _ _ F). apply some_if_rel, Forall2_app.
    - now apply F2_firstn. - constructor; auto. now apply F2_skipn.
  Qed.
  Lemma get_rel l m i : RL l m -> orel R (seq_get l i) (seq_get m i).
  Proof. apply F2_nth. Qed.
  Lemma del_rel l m i : RL l m -> orel RL (seq_del l i) (seq_del m i).
  Proof.
    intros F. unfold seq_del. rewrite (Forall2_length _ _ _ F). apply some_if_rel, Forall2_app.
    - now apply F2_firstn. - now apply F2_skipn.
  Qed.
  Lemma insert_rel l m i x y : RL l m -> R x y -> orel RL (seq_insert l i x) (seq_insert m i y).
  Proof.
    intros F X. unfold seq_insert, len_ok.
    assert (G : RL (firstn i l ++ x :: skipn i l) (firstn i m ++ y :: skipn i m)).
    { apply Forall2_app; [now apply F2_firstn|]. constructor; auto. now apply F2_skipn. }
    rewrite (Forall2_length _ _ _ F), (Forall2_length _ _ _ G). now apply some_if_rel.
  Qed.
  Lemma append_rel l m l' m' : RL l m -> RL l' m' -> orel RL (seq_append l l') (seq_append m m').
  Proof.
    intros F G. pose proof (Forall2_app F G) as H. unfold seq_append, len_ok.
    rewrite (Forall2_length _ _ _ H). now apply some_if_rel.
  Qed.
  Lemma slice_rel l m s e : RL l m -> orel RL (seq_slice l s e) (seq_slice m s e).
  Proof.
    intros F. unfold seq_slice. rewrite (Forall2_length _ _ _ F). apply some_if_rel, F2_firstn, F2_skipn, F.
  Qed.
  Lemma tail_rel l m : RL l m -> orel RL (seq_tail l) (seq_tail m).
  Proof. destruct 1; cbn; auto. Qed.
  Lemma init_rel l m : RL l m -> orel RL (seq_init l) (seq_init m).
  Proof.
    intros F. assert (RL (removelast l) (removelast m)).
    { rewrite !removelast_firstn, (Forall2_length _ _ _ F). now apply F2_firstn. }
    destruct F; cbn; auto.
  Qed.
  Lemma head_rel l m : RL l m -> orel R (seq_head l) (seq_head m).
  Proof. destruct 1; cbn; auto. Qed.
  Lemma last_rel l m : RL l m -> orel R (seq_last l) (seq_last m).
  Proof. intros F. apply F2_rev in F. unfold seq_last. destruct F; cbn; auto. Qed.
End Rel.

(* every sequence operation keeps the length within u32 and the elements *)
Lemma put_short {A} (l : list A) i x l' : short l -> seq_put l i x = Some l' -> short l'.
Proof.
  unfold seq_put, some_if, short. intros S. destruct (Nat.ltb_spec i (length l)); [|discriminate].
  intros E. injection E as <-. rewrite app_length, firstn_length. cbn [length]. rewrite skipn_length. lia.
Qed.
Lemma del_short {A} (l : list A) i l' : short l -> seq_del l i = Some l' -> short l'.
Proof.
  unfold seq_del, some_if, short. intros S. destruct (Nat.ltb_spec i (length l)); [|discriminate].
  intros E. injection E as <-. rewrite app_length, firstn_length, skipn_length. lia.
Qed.
Lemma insert_short {A} (l : list A) i x l' : seq_insert l i x = Some l' -> short l'.
Proof.
  unfold seq_insert, some_if, short, len_ok. destruct (_ && _) eqn:B; [|discriminate].
  intros E. injection E as <-. apply andb_true_iff in B as [_ B]. lia.
Qed.
Lemma append_short {A} (l m : list A) l' : seq_append l m = Some l' -> short l'.
Proof.
  unfold seq_append, some_if, short, len_ok. destruct (_ <=? _) eqn:B; [|discriminate].
  intros E. injection E as <-. lia.
Qed.
Lemma slice_short {A} (l : list A) s e l' : short l -> seq_slice l s e = Some l' -> short l'.
Proof.
  unfold seq_slice, some_if, short. intros S. destruct (_ && _) eqn:B; [|discriminate].
  intros E. injection E as <-. rewrite firstn_length, skipn_length. lia.
Qed.
Lemma tail_short {A} (l : list A) l' : short l -> seq_tail l = Some l' -> short l'.
Proof. unfold short. destruct l; cbn; [discriminate|]. intros S E. injection E as <-. lia. Qed.
Lemma init_short {A} (l : list A) l' : short l -> seq_init l = Some l' -> short l'.
Proof.
  unfold short, seq_init. intros S E. destruct l as [|a l]; [discriminate|].
  assert (X : l' = removelast (a :: l)) by congruence. rewrite X, removelast_firstn, firstn_length. lia.
Qed.
