(* The XDR encoding can be read back: prefix-injectivity of every encoder. *)
From Coq Require Import ZArith Lia List Bool.
From Verif Require Import Prelude ValModel HeapModel FrameModel AuthModel TreeProofs XdrModel XdrSpec.
Import ListNotations.
Open Scope Z_scope.

(* a can be read back from the front of a byte string, among the values in P *)
Definition reads {A} (f : A -> list Z) (P : A -> Prop) (a : A) : Prop :=
  forall b r s, P b -> f a ++ r = f b ++ s -> a = b /\ r = s.

Lemma app_len_inj {A} (a b r s : list A) : length a = length b -> a ++ r = b ++ s -> a = b /\ r = s.
Proof.
  revert b. induction a as [|x a IH]; intros [|y b] L E; simpl in *; try discriminate; auto.
  injection E as -> E. destruct (IH b) as [-> ->]; auto.
Qed.

Lemma be_length n x : length (be n x) = n.
Proof. induction n; simpl; auto. Qed.

Lemma be_inj n x y : be n x = be n y -> x mod 256 ^ Z.of_nat n = y mod 256 ^ Z.of_nat n.
Proof.
  induction n as [|n IH]; intros E.
  - simpl. now rewrite !Z.mod_1_r.
  - cbn [be] in E. injection E as E1 E2. apply IH in E2.
    rewrite Nat2Z.inj_succ, Z.pow_succ_r by lia.
    assert (0 < 256 ^ Z.of_nat n) by (apply Z.pow_pos_nonneg; lia).
    rewrite (Z.mul_comm 256), !Z.rem_mul_r by lia. congruence.
Qed.

Lemma be_reads n x y r s : be n x ++ r = be n y ++ s ->
  x mod 256 ^ Z.of_nat n = y mod 256 ^ Z.of_nat n /\ r = s.
Proof.
  intros E. apply app_len_inj in E as [E ->]; [|now rewrite !be_length].
  split; auto. now apply be_inj.
Qed.

Lemma x32_reads x : is_u32 x -> reads x32 is_u32 x.
Proof.
  unfold is_u32. intros Hx y r s Hy E. apply be_reads in E as [E ->].
  change (256 ^ Z.of_nat 4) with (2 ^ 32) in E. rewrite !Z.mod_small in E by lia. auto.
Qed.
Lemma x32i_reads x : is_i32 x -> reads x32 is_i32 x.
Proof.
  unfold is_i32. intros Hx y r s Hy E. apply be_reads in E as [E ->].
  change (256 ^ Z.of_nat 4) with (2 ^ 32) in E. split; auto.
  pose proof (Z.div_mod x (2 ^ 32)). pose proof (Z.div_mod y (2 ^ 32)). lia.
Qed.
Lemma x64_reads x : is_u64 x -> reads x64 is_u64 x.
Proof.
  unfold is_u64. intros Hx y r s Hy E. apply be_reads in E as [E ->].
  change (256 ^ Z.of_nat 8) with (2 ^ 64) in E. rewrite !Z.mod_small in E by lia. auto.
Qed.
Lemma x64i_reads x : is_i64 x -> reads x64 is_i64 x.
Proof.
  unfold is_i64. intros Hx y r s Hy E. apply be_reads in E as [E ->].
  change (256 ^ Z.of_nat 8) with (2 ^ 64) in E. split; auto.
  pose proof (Z.div_mod x (2 ^ 64)). pose proof (Z.div_mod y (2 ^ 64)). lia.
Qed.

Lemma sized_reads n b r c s : sized n b -> sized n c -> b ++ r = c ++ s -> b = c /\ r = s.
Proof. unfold sized. intros. apply app_len_inj; auto. congruence. Qed.

Lemma xvar_reads b : fits b -> reads xvar fits b.
Proof.
  unfold fits. intros Hb c r s Hc E. unfold xvar in E. rewrite <- !app_assoc in E.
  apply x32_reads in E as [L E]; try (unfold is_u32; lia).
  assert (Q : length b = length c) by lia.
  apply app_len_inj in E as [-> E]; auto. apply app_inv_head in E. auto.
Qed.

Lemma everyP_Forall {A} (P : A -> Prop) l : everyP P l <-> Forall P l.
Proof.
  induction l as [|x l IH]; simpl; [split; auto|].
  split; [intros [? ?]; constructor; tauto|].
  intros F. split; [exact (Forall_inv F)|apply IH; exact (Forall_inv_tail F)].
Qed.

Lemma xlist_reads {A} (f : A -> list Z) (P : A -> Prop) l :
  Forall (reads f P) l -> fits l -> reads (xlist f) (fun l => fits l /\ everyP P l) l.
Proof.
  unfold fits. intros F Hl m r s [Hm Pm] E. unfold xlist in E. rewrite <- !app_assoc in E.
  apply x32_reads in E as [L E]; try (unfold is_u32; lia).
  assert (Q : length l = length m) by lia. clear - F Q Pm E.
  revert m Q Pm E. induction F as [|x l Hx F IH]; intros [|y m] Q Pm E; simpl in *; try discriminate.
  - auto.
  - rewrite <- !app_assoc in E. destruct Pm as [Py Pm]. apply Hx in E as [-> E]; auto.
    apply IH in E as [-> ->]; auto.
Qed.

Lemma xopt_reads {A} (f : A -> list Z) (P : A -> Prop) o :
  (forall a, o = Some a -> reads f P a) -> reads (xopt f) (maybeP P) o.
Proof.
  intros H [b|] r s Pb E; destruct o as [a|]; unfold xopt in E.
  - rewrite <- !app_assoc in E. apply app_inv_head in E.
    apply (H a eq_refl) in E as [-> ->]; auto.
  - rewrite <- app_assoc in E. apply x32_reads in E as [E _]; [discriminate|unfold is_u32; lia..].
  - rewrite <- app_assoc in E. apply x32_reads in E as [E _]; [discriminate|unfold is_u32; lia..].
  - apply app_inv_head in E. auto.
Qed.

Ltac u32 := unfold is_u32; lia.

Lemma xaddr_reads a : addr_xdr a -> reads xaddr addr_xdr a.
Proof.
  intros Ha b r s Hb E. unfold xaddr in E. rewrite <- !app_assoc in E.
  assert (D : forall c, addr_xdr c -> is_u32 (addr_disc c)).
  { intros [k|k|i k|d p]; simpl; u32. }
  apply x32_reads in E as [K E]; auto.
  destruct a as [k|k|i k|d p], b as [k'|k'|i' k'|d' p']; simpl in K, Ha, Hb;
    try discriminate; try lia.
  - rewrite <- !app_assoc in E. apply app_inv_head in E.
    apply (sized_reads 32) in E as [-> ->]; auto.
  - apply (sized_reads 32) in E as [-> ->]; auto.
  - destruct Ha, Hb. rewrite <- !app_assoc in E. apply x64_reads in E as [-> E]; auto.
    apply (sized_reads 32) in E as [-> ->]; auto.
  - subst d'. destruct Ha as [[-> Ha]|[-> Ha]], Hb as [[E' Hb]|[E' Hb]]; try discriminate;
      eapply sized_reads in E as [-> ->]; eauto.
Qed.

Lemma xexe_reads e : exe_xdr e -> reads xexe exe_xdr e.
Proof.
  intros He f r s Hf E. unfold xexe in E. rewrite <- !app_assoc in E.
  apply x32_reads in E as [K E]; try (destruct e; simpl; u32); try (destruct f; simpl; u32).
  destruct e as [h| |o t], f as [h'| |o' t']; simpl in K, He, Hf; try discriminate.
  - apply (sized_reads 32) in E as [-> ->]; auto.
  - auto.
  - destruct He, Hf. rewrite <- !app_assoc in E. apply xaddr_reads in E as [-> E]; auto.
    apply xvar_reads in E as [-> ->]; auto.
Qed.

Lemma xerr_reads e : err_xdr e -> reads xerr err_xdr e.
Proof.
  intros He f r s Hf E. unfold xerr in E. rewrite <- !app_assoc in E.
  assert (B : forall c, err_xdr c -> is_u32 (fst (err_key c)) /\ is_u32 (snd (err_key c))).
  { intros [c|t c]; unfold err_key; cbn [fst snd].
    - intros H. split; auto. u32.
    - intros _. split; [destruct t|destruct c]; unfold ety_num, ecode_num; u32. }
  destruct (B e He), (B f Hf).
  apply x32_reads in E as [K E]; auto. apply x32_reads in E as [K2 ->]; auto. split; auto.
  destruct e as [c|t c], f as [c'|t' c']; unfold err_key in *; cbn [fst snd] in *.
  - congruence.
  - destruct t'; discriminate.
  - destruct t; discriminate.
  - apply ety_num_inj in K. apply ecode_num_inj in K2. congruence.
Qed.

Lemma xpair_reads (f : scval -> list Z) (P : scval -> Prop) (p : scval * scval) :
  reads f P (fst p) -> reads f P (snd p) ->
  reads (fun p => f (fst p) ++ f (snd p)) (fun p => P (fst p) /\ P (snd p)) p.
Proof.
  intros H1 H2 [c d] r s [Hc Hd] E. destruct p as [a b]; cbn [fst snd] in *.
  rewrite <- !app_assoc in E. apply H1 in E as [-> E]; auto. apply H2 in E as [-> ->]; auto.
Qed.

Lemma xscval_body s : exists b, xscval s = x32 (scv_disc s) ++ b.
Proof. destruct s; eexists; reflexivity. Qed.
Lemma scv_disc_u32 s : is_u32 (scv_disc s).
Proof. destruct s; simpl; u32. Qed.

Ltac unlist := repeat rewrite <- !app_assoc in *.
Ltac num_step E :=
  first [ apply x64_reads in E as [-> E]; [|assumption|assumption]
        | apply x64i_reads in E as [-> E]; [|assumption|assumption] ].

Lemma everyP_reads {A} (f : A -> list Z) (P : A -> Prop) l :
  Forall (fun a => P a -> reads f P a) l -> everyP P l -> Forall (reads f P) l.
Proof.
  intros F. induction F; simpl; constructor; try tauto. 
Qed.

Lemma xscval_reads s : scval_xdr s -> reads xscval scval_xdr s.
Proof.
  induction s as [s Lf1 Lf2 Lf3|l IH|m IH|e m IH] using scval_ind'; intros Hs b r t Hb E.
  - assert (D : scv_disc s = scv_disc b).
    { destruct (xscval_body s) as [x Ex], (xscval_body b) as [y Ey].
      rewrite Ex, Ey in E. rewrite <- !app_assoc in E.
      apply x32_reads in E as [D _]; auto using scv_disc_u32. }
    destruct s; destruct b; try discriminate D; cbn [xscval scv_disc] in E; cbn [scval_xdr] in Hs, Hb;
      unlist; apply app_inv_head in E; clear D.
    + apply x32_reads in E as [D ->]; [|destruct b0; u32|destruct b; u32].
      destruct b0, b; try discriminate; auto.
    + simpl in E. auto.
    + apply xerr_reads in E as [-> ->]; auto.
    + apply x32_reads in E as [-> ->]; auto.
    + apply x32i_reads in E as [-> ->]; auto.
    + apply x64_reads in E as [-> ->]; auto.
    + apply x64i_reads in E as [-> ->]; auto.
    + apply x64_reads in E as [-> ->]; auto.
    + apply x64_reads in E as [-> ->]; auto.
    + destruct Hs, Hb. repeat num_step E. subst; auto.
    + destruct Hs, Hb. repeat num_step E. subst; auto.
    + destruct Hs as (?&?&?&?), Hb as (?&?&?&?). repeat num_step E. subst; auto.
    + destruct Hs as (?&?&?&?), Hb as (?&?&?&?). repeat num_step E. subst; auto.
    + apply xvar_reads in E as [-> ->]; auto.
    + apply xvar_reads in E as [-> ->]; auto.
    + apply xvar_reads in E as [-> ->]; auto.
    + destruct l as [l|]; [exfalso; solve [eapply Lf1; reflexivity | eapply Lf2; reflexivity | eapply Lf3; reflexivity]|].
      eapply (xopt_reads _ _ None) in E as [E ->]; [|intros ? Q; discriminate Q|exact Hb]. now rewrite E.
    + destruct m as [m|]; [exfalso; solve [eapply Lf1; reflexivity | eapply Lf2; reflexivity | eapply Lf3; reflexivity]|].
      eapply (xopt_reads _ _ None) in E as [E ->]; [|intros ? Q; discriminate Q|exact Hb]. now rewrite E.
    + apply xaddr_reads in E as [-> ->]; auto.
    + destruct storage as [m|]; [exfalso; solve [eapply Lf1; reflexivity | eapply Lf2; reflexivity | eapply Lf3; reflexivity]|].
      destruct Hs, Hb. unlist. apply xexe_reads in E as [-> E]; auto.
      eapply (xopt_reads _ _ None) in E as [E ->]; [|intros ? Q; discriminate Q|eassumption]. now rewrite E.
    + simpl in E. auto.
    + apply x64i_reads in E as [-> ->]; auto.
    + apply xvar_reads in E as [-> ->]; auto.
  - assert (D : scv_disc (SVec (Some l)) = scv_disc b).
    { destruct (xscval_body (SVec (Some l))) as [x Ex], (xscval_body b) as [y Ey].
      rewrite Ex, Ey in E. rewrite <- !app_assoc in E.
      apply x32_reads in E as [D _]; auto using scv_disc_u32. }
    destruct b; try discriminate D. cbn [xscval scv_disc] in E. cbn [scval_xdr] in Hs, Hb.
    unlist. apply app_inv_head in E. destruct Hs as [Hf Hs].
    eapply (xopt_reads (xlist xscval) _ (Some l)) in E as [E ->]; [now rewrite E| |exact Hb].
    intros ? [= <-]. apply xlist_reads; auto using everyP_reads.
  - assert (D : scv_disc (SMap (Some m)) = scv_disc b).
    { destruct (xscval_body (SMap (Some m))) as [x Ex], (xscval_body b) as [y Ey].
      rewrite Ex, Ey in E. rewrite <- !app_assoc in E.
      apply x32_reads in E as [D _]; auto using scv_disc_u32. }
    destruct b; try discriminate D. cbn [xscval scv_disc] in E. cbn [scval_xdr] in Hs, Hb.
    unlist. apply app_inv_head in E. destruct Hs as [Hf Hs].
    eapply (xopt_reads _ _ (Some m)) in E as [E ->]; [now rewrite E| |exact Hb].
    intros ? [= <-]. apply xlist_reads; auto. apply everyP_reads; auto.
    eapply Forall_impl; [|exact IH]. intros p [I1 I2] [P1 P2]. apply xpair_reads; auto.
  - assert (D : scv_disc (SContractInstance e (Some m)) = scv_disc b).
    { destruct (xscval_body (SContractInstance e (Some m))) as [x Ex], (xscval_body b) as [y Ey].
      rewrite Ex, Ey in E. rewrite <- !app_assoc in E.
      apply x32_reads in E as [D _]; auto using scv_disc_u32. }
    destruct b; try discriminate D. cbn [xscval scv_disc] in E. cbn [scval_xdr] in Hs, Hb.
    unlist. apply app_inv_head in E. destruct Hs as [He [Hf Hs]], Hb as [He' Hb].
    unlist. apply xexe_reads in E as [-> E]; auto.
    eapply (xopt_reads _ _ (Some m)) in E as [E ->]; [now rewrite E| |exact Hb].
    intros ? [= <-]. apply xlist_reads; auto. apply everyP_reads; auto.
    eapply Forall_impl; [|exact IH]. intros p [I1 I2] [P1 P2]. apply xpair_reads; auto.
Qed.

Lemma xscvals_reads l : fits l -> everyP scval_xdr l ->
  reads (xlist xscval) (fun l => fits l /\ everyP scval_xdr l) l.
Proof.
  intros F H. apply xlist_reads; auto. apply everyP_reads; auto.
  apply Forall_forall. intros s _. apply xscval_reads.
Qed.

Lemma asset_reads a b r s : asset_xdr a -> asset_xdr b -> a ++ r = b ++ s -> a = b /\ r = s.
Proof.
  unfold asset_xdr.
  intros [->|[(x & -> & Hx)|(x & -> & Hx)]] [->|[(y & -> & Hy)|(y & -> & Hy)]] E;
    try (simpl in E; discriminate E); rewrite <- ?app_assoc in E; apply app_inv_head in E; auto;
    eapply sized_reads in E as [-> ->]; eauto.
Qed.

Lemma xpre_reads p : pre_xdr p -> reads xpre pre_xdr p.
Proof.
  intros Hp q r s Hq E. destruct p as [a x|a], q as [b y|b]; cbn [xpre pre_xdr] in *; unlist.
  - destruct Hp, Hq. apply app_inv_head in E. unlist. apply xaddr_reads in E as [-> E]; auto.
    apply (sized_reads 32) in E as [-> ->]; auto.
  - apply x32_reads in E as [E _]; [discriminate|u32..].
  - apply x32_reads in E as [E _]; [discriminate|u32..].
  - apply app_inv_head in E. apply asset_reads in E as [-> ->]; auto.
Qed.

Lemma enc_fn_reads f : fn_xdr f -> reads enc_fn fn_xdr f.
Proof.
  intros Hf g r s Hg E. destruct f as [a n l|p e|p e l], g as [a' n' l'|p' e'|p' e' l'];
    cbn [enc_fn fn_xdr] in *; unlist;
    try (apply x32_reads in E as [E _]; [discriminate|u32..]); apply app_inv_head in E; unlist.
  - destruct Hf as (?&?&?&?), Hg as (?&?&?&?). apply xaddr_reads in E as [-> E]; auto.
    apply xvar_reads in E as [-> E]; auto. apply xscvals_reads in E as [-> ->]; auto.
  - destruct Hf, Hg. apply xpre_reads in E as [-> E]; auto. apply xexe_reads in E as [-> ->]; auto.
  - destruct Hf as (?&?&?&?), Hg as (?&?&?&?). apply xpre_reads in E as [-> E]; auto.
    apply xexe_reads in E as [-> E]; auto. apply xscvals_reads in E as [-> ->]; auto.
Qed.

Section XinvInd.
  Variable P : xinv -> Prop.
  Hypothesis H : forall f l, Forall P l -> P (XInv f l).
  Fixpoint xinv_ind' (i : xinv) : P i.
  Proof.
    destruct i as [f l]. apply H. induction l as [|x l IH]; constructor; [apply xinv_ind'|exact IH].
  Defined.
End XinvInd.

Lemma enc_inv_reads i : inv_xdr i -> reads enc_inv inv_xdr i.
Proof.
  induction i as [f l IH] using xinv_ind'. intros (Hf & Fl & Hl) [g m] r s (Hg & Fm & Hm) E.
  cbn [enc_inv] in E. unlist. apply enc_fn_reads in E as [-> E]; auto.
  apply (xlist_reads enc_inv inv_xdr) in E as [-> ->]; auto using everyP_reads.
Qed.

(* ------------------------------------------------- what the host encodes *)

Definition norm_fn (f : xfn) : xfn :=
  match f with XCreate p e => XCreateV2 p e [] | _ => f end.
Fixpoint norm (i : xinv) : xinv := let 'XInv f l := i in XInv (norm_fn f) (map norm l).

Lemma round_trip i : inv_to_xdr false (inv_from_xdr i) = norm i.
Proof.
  induction i as [f l IH] using xinv_ind'. cbn [inv_from_xdr inv_to_xdr norm]. f_equal.
  - destruct f; reflexivity.
  - induction IH as [|x l Hx F IHF]; [reflexivity|]. cbn [map flat_map]. rewrite IHF, <- Hx.
    destruct x as [g m]. cbn [inv_from_xdr]. rewrite orb_true_r. reflexivity.
Qed.

Lemma norm_xdr i : inv_xdr i -> inv_xdr (norm i).
Proof.
  induction i as [f l IH] using xinv_ind'. cbn [inv_xdr norm]. intros (Hf & Fl & Hl).
  repeat split.
  - destruct f; simpl in *; intuition. unfold fits. simpl. lia.
  - unfold fits in *. now rewrite map_length.
  - clear - IH Hl. induction IH; simpl in *; auto. destruct Hl; auto.
Qed.

Lemma norm_same_fn f g : norm_fn f = norm_fn g -> same_fn f g.
Proof.
  destruct f, g; cbn [norm_fn]; try discriminate; intros E; injection E; intros; subst; constructor.
Qed.

Lemma norm_same i : forall j, norm i = norm j -> same_inv i j.
Proof.
  induction i as [f l IH] using xinv_ind'. intros [g m] E. cbn [norm] in E.
  injection E as E1 E2. constructor; [now apply norm_same_fn|].
  revert m E2. induction IH as [|x l Hx F IHF]; intros [|y m] E2; try discriminate; constructor;
    cbn [map] in E2; injection E2 as E2 E3; auto.
Qed.

Lemma same_norm_fn f g : same_fn f g -> norm_fn f = norm_fn g.
Proof. destruct 1; reflexivity. Qed.
Lemma same_norm i : forall j, same_inv i j -> norm i = norm j.
Proof.
  induction i as [f l IH] using xinv_ind'. intros j H. inversion H as [? g ? m Sf Sl]; subst.
  cbn [norm]. f_equal; [now apply same_norm_fn|].
  clear - IH Sl. revert m Sl. induction IH as [|x l Hx F IHF]; intros m Sl;
    inversion Sl; subst; cbn [map]; [reflexivity|]. f_equal; auto.
Qed.

Definition bound (c : cred) : Prop := with_address c = true.
Lemma bound_binds c : bound c <-> binds_address c.
Proof. unfold bound, binds_address. destruct c; simpl; intuition discriminate. Qed.

Lemma payload_eq net e b : payload_preimage net (from_entry e) = Ok b ->
  ae_cred e <> CrSource /\
  b = (if with_address (ae_cred e)
       then x32 10 ++ net ++ x64 (ae_nonce e) ++ x32 (ae_exp e) ++ xaddr (ae_addr e) ++ enc_inv (norm (ae_inv e))
       else x32 9 ++ net ++ x64 (ae_nonce e) ++ x32 (ae_exp e) ++ enc_inv (norm (ae_inv e))).
Proof.
  unfold payload_preimage, from_entry. cbn [pt_nonce pt_cred pt_addr pt_inv]. rewrite round_trip.
  destruct (ae_cred e); intros E; try discriminate; injection E as <-; split; auto; discriminate.
Qed.

Theorem preimage_determines net net' e e' b :
  sized 32 net -> sized 32 net' -> entry_xdr e -> entry_xdr e' ->
  payload_preimage net (from_entry e) = Ok b ->
  payload_preimage net' (from_entry e') = Ok b ->
  net = net' /\ ae_nonce e = ae_nonce e' /\ ae_exp e = ae_exp e' /\
  same_inv (ae_inv e) (ae_inv e') /\
  (binds_address (ae_cred e) <-> binds_address (ae_cred e')) /\
  (binds_address (ae_cred e) -> ae_addr e = ae_addr e').
Proof.
  intros N N' (A & No & X & I) (A' & No' & X' & I') P P'.
  apply payload_eq in P as [_ P], P' as [_ P']. rewrite P in P'. clear P.
  rewrite <- !bound_binds. unfold bound.
  apply norm_xdr in I. apply norm_xdr in I'.
  assert (Nil : forall l : list Z, l = l ++ []) by (intros; now rewrite app_nil_r).
  destruct (with_address (ae_cred e)), (with_address (ae_cred e')).
  - apply app_inv_head in P'. apply (sized_reads 32) in P' as [-> P']; auto.
    apply x64i_reads in P' as [-> P']; auto. apply x32_reads in P' as [-> P']; auto.
    apply xaddr_reads in P' as [-> P']; auto.
    rewrite (Nil (enc_inv (norm (ae_inv e)))), (Nil (enc_inv (norm (ae_inv e')))) in P'.
    apply enc_inv_reads in P' as [P' _]; auto. apply norm_same in P'. intuition.
  - apply x32_reads in P' as [P' _]; [discriminate|u32..].
  - apply x32_reads in P' as [P' _]; [discriminate|u32..].
  - apply app_inv_head in P'. apply (sized_reads 32) in P' as [-> P']; auto.
    apply x64i_reads in P' as [-> P']; auto. apply x32_reads in P' as [-> P']; auto.
    rewrite (Nil (enc_inv (norm (ae_inv e)))), (Nil (enc_inv (norm (ae_inv e')))) in P'.
    apply enc_inv_reads in P' as [P' _]; auto. apply norm_same in P'. intuition discriminate.
Qed.

(* Conversely the payload depends on nothing else. *)
Theorem preimage_depends net e e' :
  ae_cred e <> CrSource -> ae_cred e' <> CrSource ->
  ae_nonce e = ae_nonce e' -> ae_exp e = ae_exp e' -> same_inv (ae_inv e) (ae_inv e') ->
  (binds_address (ae_cred e) <-> binds_address (ae_cred e')) ->
  (binds_address (ae_cred e) -> ae_addr e = ae_addr e') ->
  payload_preimage net (from_entry e) = payload_preimage net (from_entry e').
Proof.
  intros C C' N X S B A. apply same_norm in S.
  unfold payload_preimage, from_entry. cbn [pt_nonce pt_cred pt_addr pt_inv].
  rewrite !round_trip, N, X, S. unfold binds_address in *.
  destruct (ae_cred e), (ae_cred e'); try congruence; cbn [with_address]; try reflexivity;
    try (exfalso; clear - B; intuition discriminate);
    rewrite A; auto.
Qed.

Theorem source_has_no_payload net e : ae_cred e = CrSource ->
  payload_preimage net (from_entry e) = Err (ESys TAuth CInternalError).
Proof. intros E. unfold payload_preimage, from_entry. cbn [pt_nonce]. now rewrite E. Qed.

(* The tree the manager tracks. *)
Lemma tracks_norm i : forall t, tracks i t -> tracks (norm i) t.
Proof.
  induction i as [f l IH] using xinv_ind'. intros t H.
  assert (L : forall m, tracks_all l m -> tracks_all (map norm l) m).
  { clear - IH. induction IH; intros m H0; inversion H0; subst; simpl; constructor; auto. }
  inversion H; subst; cbn [norm norm_fn]; constructor; auto.
Qed.
Lemma tracks_fun i : forall t u, tracks i t -> tracks i u -> t = u.
Proof.
  induction i as [f l IH] using xinv_ind'. intros t u H K.
  assert (L : forall m n, tracks_all l m -> tracks_all l n -> m = n).
  { clear - IH. induction IH; intros m n H0 H1; inversion H0; inversion H1; subst; f_equal; eauto. }
  inversion H; subst; inversion K; subst; f_equal; auto.
Qed.
Theorem same_tracked i j t u : same_inv i j -> tracks i t -> tracks j u -> t = u.
Proof.
  intros S T U. apply same_norm in S. apply tracks_norm in T. apply tracks_norm in U.
  rewrite S in T. eapply tracks_fun; eauto.
Qed.

(* contract addresses *)
Theorem id_preimage_determines net net' p p' :
  sized 32 net -> sized 32 net' -> pre_xdr p -> pre_xdr p' ->
  id_preimage net p = id_preimage net' p' -> net = net' /\ p = p'.
Proof.
  intros N N' P P' E. unfold id_preimage in E. apply app_inv_head in E.
  apply (sized_reads 32) in E as [-> E]; auto. split; auto.
  assert (Nil : forall l : list Z, l = l ++ []) by (intros; now rewrite app_nil_r).
  rewrite (Nil (xpre p)), (Nil (xpre p')) in E. apply xpre_reads in E as [-> _]; auto.
Qed.
(* an address preimage is never an authorization preimage *)
Theorem id_preimage_not_payload net p net' e b :
  payload_preimage net' (from_entry e) = Ok b -> id_preimage net p <> b.
Proof.
  intros P E. apply payload_eq in P as [_ P]. rewrite P in E. unfold id_preimage in E.
  destruct (with_address (ae_cred e)); apply x32_reads in E as [E _]; try discriminate; u32.
Qed.
