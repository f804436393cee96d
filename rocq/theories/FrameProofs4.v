(* Random numbers: which generator each draw comes from. *)
From Coq Require Import ZArith Lia List Bool.
From Verif Require Import Prelude ValModel ContainerModel HeapModel AMap StorageModel StorageSpec
  StorageProofs StorageProofs2 StorageLogic StorageProofs3 FrameModel FrameSpec FrameProofs FrameStore FrameProofs2 FrameProofs3.
Import ListNotations.
Open Scope Z_scope.

Lemma label_tree_frame w r l k own : label_tree (TFrame w r l) k own = let '(k1, _, es) := label l k None in (k1, own, es).
Proof. reflexivity. Qed.

Section Prng.
  Context {P : Type}.
  Variable E : env P.
  Variable b0 : P.

  Fixpoint after (p : P) (l : list pop) : P := match l with [] => p | o :: l' => after (fst (drawn E o p)) l' end.
  Lemma after_app p l l' : after p (l ++ l') = after (after p l) l'.
  Proof. revert p. induction l; cbn; auto. Qed.
  Lemma stream_app p l l' : stream E p (l ++ l') = stream E p l ++ stream E (after p l) l'.
  Proof. revert p. induction l; intros p; cbn; auto. now rewrite IHl. Qed.

  Lemma of_gen_app j a b : of_gen j (a ++ b) = of_gen j a ++ of_gen j b.
  Proof. apply filter_app_. Qed.

  (* everything drawn so far came from the right generators *)
  Definition sound (hist : list (nat * pop * res scval)) : Prop :=
    forall j, answers (of_gen j hist) = stream E (generator E b0 j) (requests (of_gen j hist)).
  Definition below (k : nat) (hist : list (nat * pop * res scval)) : Prop := forall e, In e hist -> (fst (fst e) < k)%nat.
  Definition current (p : option P) (own : option nat) (k : nat) (hist : list (nat * pop * res scval)) : Prop :=
    match p, own with
    | None, None => True
    | Some p, Some j => (j < k)%nat /\ p = after (generator E b0 j) (requests (of_gen j hist))
    | _, _ => False
    end.

  Lemma below_none k hist j : below k hist -> (k <= j)%nat -> of_gen j hist = [].
  Proof.
    intros B L. unfold of_gen. induction hist as [|e hist IH]; cbn; auto.
    destruct (Nat.eqb_spec (fst (fst e)) j) as [X|]; [|apply IH; intros e' I; apply B; now right].
    specialize (B e (or_introl eq_refl)). lia.
  Qed.
  Lemma below_mono k k' hist : below k hist -> (k <= k')%nat -> below k' hist.
  Proof. intros B L e I. specialize (B e I). lia. Qed.

  Lemma sound_snoc hist j o r : sound hist ->
    r = snd (drawn E o (after (generator E b0 j) (requests (of_gen j hist)))) -> sound (hist ++ [(j, o, r)]).
  Proof.
    intros SO -> i. rewrite of_gen_app. pose proof (SO i) as SI. unfold answers, requests in *. rewrite !map_app, stream_app, <- SI. f_equal.
    unfold of_gen at 1 3. cbn. destruct (Nat.eqb_spec j i) as [->|]; reflexivity.
  Qed.

  Lemma label_sound b p ts b' p' : draws E (b, p) ts (b', p') -> forall k own hist,
    b = advance E k b0 -> current p own k hist -> below k hist -> sound hist ->
    let '(k', own', es) := label ts k own in
    b' = advance E k' b0 /\ current p' own' k' (hist ++ es) /\ below k' (hist ++ es) /\ sound (hist ++ es)
    /\ (k <= k')%nat /\ (forall e, In e es -> own = Some (fst (fst e)) \/ (k <= fst (fst e))%nat).
  Proof.
    intros D. remember (b, p) as s eqn:ES. remember (b', p') as s' eqn:ES'. revert b p b' p' ES ES'.
    induction D as [s|b p o ts s' D IH|b o ts s' D IH|b p w r l b1 q ts s' D1 IH1 D2 IH2|s t ts s' N D IH];
      intros b2 p2 b3 p3 ES ES' k own hist HB HC HL HS.
    - subst s. injection ES' as <- <-. cbn [label]. rewrite app_nil_r. repeat split; auto. intros e [].
    - injection ES as <- <-. cbn [label label_tree]. destruct own as [j|]; [|contradiction]. destruct HC as [JK EP].
      specialize (IH _ _ _ _ eq_refl ES' k (Some j) (hist ++ [(j, o, snd (drawn E o p))]) HB).
      destruct (label ts k (Some j)) as [[k' own'] es]. cbn [app].
      replace (hist ++ (j, o, snd (drawn E o p)) :: es) with ((hist ++ [(j, o, snd (drawn E o p))]) ++ es) by (now rewrite <- app_assoc).
      destruct IH as (A1 & A2 & A3 & A4 & A5 & A6).
      + split; auto. rewrite of_gen_app. unfold requests. rewrite map_app, after_app. fold (requests (of_gen j hist)).
        rewrite <- EP. unfold of_gen. cbn. rewrite Nat.eqb_refl. reflexivity.
      + intros e I. apply in_app_or in I as [I|[<-|[]]]; auto.
      + apply sound_snoc; auto. now rewrite EP.
      + split; auto. split; auto. split; auto. split; auto. split; auto.
        intros e [<-|I]; auto.
    - injection ES as <- <-. cbn [label label_tree]. destruct own as [j|]; [contradiction|].
      specialize (IH _ _ _ _ eq_refl ES' (S k) (Some k) (hist ++ [(k, o, snd (drawn E o (fst (sub_prng E b))))])).
      destruct (label ts (S k) (Some k)) as [[k' own'] es]. cbn [app].
      set (e0 := (k, o, snd (drawn E o (fst (sub_prng E b))))) in *.
      replace (hist ++ e0 :: es) with ((hist ++ [e0]) ++ es) by (now rewrite <- app_assoc).
      assert (NK : of_gen k hist = []) by (eapply below_none; eauto).
      destruct IH as (A1 & A2 & A3 & A4 & A5 & A6).
      + now rewrite HB.
      + split; [lia|]. rewrite of_gen_app. unfold requests. rewrite map_app, after_app. fold (requests (of_gen k hist)).
        rewrite NK. unfold of_gen, e0. cbn. rewrite Nat.eqb_refl. cbn. unfold generator. now rewrite HB.
      + intros e I. apply in_app_or in I as [I|[<-|[]]]; [specialize (HL e I); lia|cbn; lia].
      + apply sound_snoc; auto. rewrite NK. cbn. unfold generator. now rewrite HB.
      + split; auto. split; auto. split; auto. split; auto. split; [lia|].
        intros e [<-|I]; [right; cbn; lia|]. destruct (A6 e I) as [X|X]; right; [injection X as ->|]; lia.
    - injection ES as <- <-. cbn [label]. rewrite label_tree_frame.
      specialize (IH1 _ _ _ _ eq_refl eq_refl k None hist HB I HL HS). destruct (label l k None) as [[k1 o1] es1].
      destruct IH1 as (A1 & _ & A3 & A4 & A5 & A6).
      specialize (IH2 _ _ _ _ eq_refl ES' k1 own (hist ++ es1) A1). destruct (label ts k1 own) as [[k2 o2] es2].
      rewrite <- app_assoc in IH2. destruct IH2 as (B1 & B2 & B3 & B4 & B5 & B6); auto.
      + unfold current in *. destruct p as [p|], own as [j|]; auto. destruct HC as [JK ->]. split; [lia|].
        rewrite of_gen_app. replace (of_gen j es1) with (@nil (nat * pop * res scval)); [now rewrite app_nil_r|].
        symmetry. unfold of_gen. clear - A6 JK. induction es1 as [|e es IH]; cbn; auto.
        destruct (Nat.eqb_spec (fst (fst e)) j) as [X|]; [|apply IH; intros e' H; apply A6; now right].
        destruct (A6 e (or_introl eq_refl)) as [Y|Y]; [discriminate|lia].
      + split; auto. split; auto. split; auto. split; auto. split; [lia|].
        intros e H. apply in_app_or in H as [H|H].
        * destruct (A6 e H) as [Y|Y]; [discriminate|auto].
        * destruct (B6 e H) as [Y|Y]; [auto|right; lia].
    - subst s. cbn [label]. assert (LT : label_tree t k own = (k, own, [])) by (destruct t; auto; contradiction).
      rewrite LT. specialize (IH _ _ _ _ eq_refl ES' k own hist HB HC HL HS).
      destruct (label ts k own) as [[k' own'] es]. exact IH.
  Qed.
End Prng.

(* All draws of an invocation come from numbered generators. *)
Theorem invoke_streams {P} (E : env P) c h f h' r t : h_stack h = [] -> invoke E c h f = (h', r, t) ->
  let '(k, _, es) := label t 0 None in
  h_base h' = advance E k (h_base h)
  /\ forall j, answers (of_gen j es) = stream E (generator E (h_base h) j) (requests (of_gen j es)).
Proof.
  intros S IN. destruct (invoke_shape E c h f h' r t S IN) as (l & -> & F). destruct (fr_draws _ _ _ _ _ _ _ F) as [q D].
  cbn [label]. rewrite label_tree_frame.
  assert (HS : sound E (h_base h) []) by (intros j; reflexivity).
  assert (HL : below 0 []) by (intros e []).
  pose proof (label_sound E (h_base h) (h_base h) None l (h_base h') q D 0%nat None [] eq_refl I HL HS) as L.
  destruct (label l 0 None) as [[k o] es]. rewrite app_nil_r. destruct L as (A & _ & _ & B & _). split; auto.
Qed.
