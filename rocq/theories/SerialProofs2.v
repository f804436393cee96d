(* Value trees and their bytes; the host functions. *)
From Coq Require Import ZArith Lia List Bool.
From Verif Require Import Prelude ValModel ValSpec HeapModel FrameModel AuthModel XdrModel XdrSpec XdrProofs
  TreeProofs HeapSpec HeapProofs ConvProofs HeapProofs2 MapFnProofs StrkeySpec AssetModel SerialModel SerialSpec SerialProofs.
Import ListNotations.
Open Scope Z_scope.
Ltac Zify.zify_post_hook ::= idtac.

Lemma be_bytes n : forall x, are_bytes (be n x).
Proof. induction n as [|n IH]; intros x; cbn [be]; constructor; [apply Z.mod_pos_bound; lia | apply IH]. Qed.
Lemma be_len n : forall x, length (be n x) = n.
Proof. induction n as [|n IH]; intros x; cbn [be length]; [reflexivity | now rewrite IH]. Qed.
Lemma app_bytes a b : are_bytes (a ++ b) <-> are_bytes a /\ are_bytes b.
Proof. apply Forall_app. Qed.
Lemma pad_bytes n : are_bytes (pad n).
Proof. unfold pad. induction ((4 - n mod 4) mod 4)%nat; cbn [repeat]; constructor; [lia | assumption]. Qed.
Lemma var_bytes b : are_bytes (xvar b) <-> are_bytes b.
Proof.
  unfold xvar. rewrite !app_bytes. pose proof (be_bytes 4 (Z.of_nat (length b))). pose proof (pad_bytes (length b)).
  unfold x32. tauto.
Qed.
Lemma flat_bytes {A} (f : A -> list Z) l : are_bytes (flat_map f l) <-> Forall (fun x => are_bytes (f x)) l.
Proof.
  induction l as [|x l IH]; cbn [flat_map]; [split; constructor|]. rewrite app_bytes, IH.
  split; [intros [H1 H2]; now constructor | intros H; inversion H; auto].
Qed.
Lemma list_bytes {A} (f : A -> list Z) l : are_bytes (xlist f l) <-> Forall (fun x => are_bytes (f x)) l.
Proof.
  unfold xlist. rewrite app_bytes, flat_bytes. pose proof (be_bytes 4 (Z.of_nat (length l))). unfold x32. tauto.
Qed.
Lemma some_bytes {A} (f : A -> list Z) a : are_bytes (xopt f (Some a)) <-> are_bytes (f a).
Proof. cbn [xopt]. rewrite app_bytes. pose proof (be_bytes 4 1). unfold x32. tauto. Qed.
Lemma scval_bytes s : are_bytes (xscval s) <-> are_bytes (sbody s).
Proof. rewrite xscval_parts, app_bytes. pose proof (be_bytes 4 (scv_disc s)). unfold x32. tauto. Qed.

(* nesting is no deeper than the bytes are long *)
Lemma depth_flat {A} (f : A -> nat) (g : A -> list Z) l : Forall (fun x => (f x <= length (g x))%nat) l ->
  (lmax (map f l) <= length (flat_map g l))%nat.
Proof.
  induction 1 as [|x l Hx _ IH]; cbn [map lmax fold_right flat_map length]; [lia|].
  change (fold_right Nat.max 0%nat (map f l)) with (lmax (map f l)). rewrite app_length. lia.
Qed.
Lemma depth_bytes s : (sdepth s <= length (xscval s))%nat.
Proof.
  induction s as [s L1 L2 L3|l IH|m IH|e m IH] using scval_ind'.
  - assert (E : sdepth s = 1%nat).
    { destruct s as [| | | | | | | | | | | | | | | |[l|]|[m|]| |e [m|]| | |]; try reflexivity.
      - destruct (L1 l eq_refl). - destruct (L2 m eq_refl). - destruct (L3 e m eq_refl). }
    rewrite E, xscval_parts, app_length. unfold x32. rewrite be_len. lia.
  - rewrite xscval_parts. cbn [sdepth sbody xopt xlist]. unfold xlist, x32. rewrite !app_length, !be_len.
    pose proof (depth_flat sdepth xscval l IH). lia.
  - rewrite xscval_parts. cbn [sdepth sbody xopt xlist]. unfold xlist, x32. rewrite !app_length, !be_len.
    pose proof (depth_flat (fun p => Nat.max (sdepth (fst p)) (sdepth (snd p))) (fun p => xscval (fst p) ++ xscval (snd p)) m) as D.
    assert (Q : Forall (fun x => (Nat.max (sdepth (fst x)) (sdepth (snd x)) <= length (xscval (fst x) ++ xscval (snd x)))%nat) m)
      by (eapply Forall_impl; [|exact IH]; cbv beta; intros p [A B]; rewrite app_length; lia).
    specialize (D Q). lia.
  - rewrite xscval_parts. cbn [sdepth sbody xopt xlist]. unfold xlist, x32. rewrite !app_length, !be_len.
    pose proof (depth_flat (fun p => Nat.max (sdepth (fst p)) (sdepth (snd p))) (fun p => xscval (fst p) ++ xscval (snd p)) m) as D.
    assert (Q : Forall (fun x => (Nat.max (sdepth (fst x)) (sdepth (snd x)) <= length (xscval (fst x) ++ xscval (snd x)))%nat) m)
      by (eapply Forall_impl; [|exact IH]; cbv beta; intros p [A B]; rewrite app_length; lia).
    specialize (D Q). lia.
Qed.

(* what is read has the XDR types *)
Lemma wire_typed s : wire s -> are_bytes (xscval s) -> sc_typed s.
Proof.
  induction s as [s L1 L2 L3|l IH|m IH|e m IH] using scval_ind'; intros W B; apply scval_bytes in B.
  - destruct s as [b| |e|x|x|x|x|x|x|a b|a b|a b c d|a b c d|b|b|b|[l|]|[m|]|a|e [m|]| |x|b]; try exact I; try exact W;
      cbn [sc_typed wire sbody] in *; unfold u64_ok, i64_ok, is_u64, is_i64 in *; try tauto;
      try (split; [exact W | apply var_bytes; exact B]).
    + destruct (L1 l eq_refl).
    + destruct (L2 m eq_refl).
    + destruct a; try exact I. cbn in W |- *. destruct W as [[-> _]|[-> _]]; auto.
    + destruct (L3 e m eq_refl).
  - cbn [sbody] in B. rewrite some_bytes, list_bytes in B. cbn [wire maybeP] in W. destruct W as [_ W].
    apply everyP_Forall in W. cbn [sc_typed optP]. apply allP_Forall. rewrite Forall_forall in *. auto.
  - cbn [sbody] in B. rewrite some_bytes, list_bytes in B. cbn [wire maybeP] in W. destruct W as [_ W].
    apply everyP_Forall in W. cbn [sc_typed optP]. apply allP_Forall. rewrite Forall_forall in *.
    intros p i. specialize (B p i). apply app_bytes in B. specialize (IH p i). specialize (W p i). tauto.
  - cbn [sbody] in B. apply app_bytes in B as [_ B]. rewrite some_bytes, list_bytes in B.
    cbn [wire maybeP] in W. destruct W as [_ [_ W]].
    apply everyP_Forall in W. cbn [sc_typed optP]. apply allP_Forall. rewrite Forall_forall in *.
    intros p i. specialize (B p i). apply app_bytes in B. specialize (IH p i). specialize (W p i). tauto.
Qed.

(* trees *)
Lemma tree_depth t : sdepth (xdr_of t) = tdepth t.
Proof.
  induction t as [t L1 L2|l IH|m IH] using tval_ind'.
  - destruct t as [| | | | |[]| | | |l|m| |]; try reflexivity; [destruct (L1 l eq_refl) | destruct (L2 m eq_refl)].
  - cbn [xdr_of sdepth tdepth]. rewrite map_map. do 2 f_equal. apply map_ext_Forall. exact IH.
  - cbn [xdr_of sdepth tdepth]. rewrite map_map. do 2 f_equal. apply map_ext_Forall.
    eapply Forall_impl; [|exact IH]. cbv beta. cbn [fst snd]. intros p [-> ->]. reflexivity.
Qed.
Lemma sym_bytes b : Forall sym_char b -> are_bytes b.
Proof. apply Forall_impl. intros c. unfold sym_char. lia. Qed.
Lemma tree_wire t : valid_tree t -> whole t -> wire (xdr_of t) /\ are_bytes (bytes_of t).
Proof.
  unfold bytes_of.
  induction t as [t L1 L2|l IH|m IH] using tval_ind'; intros V H; rewrite scval_bytes.
  - destruct t as [b| |e|x|x|k x|b|b|b|l|m|a|b]; cbn [xdr_of wire sbody valid_tree whole] in *.
    + split; [exact I | apply be_bytes].
    + split; [exact I | constructor].
    + split; [destruct e; [exact I | exact V] || (destruct e; cbn in *; auto)|].
      unfold xerr. apply app_bytes; split; apply be_bytes.
    + split; [exact V | apply be_bytes].
    + split; [exact V | apply be_bytes].
    + destruct (xdr_num_range k x V) as [T _]. destruct k; cbn [xdr_of wire sbody sc_typed] in *;
        unfold u64_ok, i64_ok, is_u64, is_i64 in *; split; try tauto; rewrite ?app_bytes; unfold x64; repeat split; apply be_bytes.
    + destruct V as [V1 V2]. split; [exact V1 | now apply var_bytes].
    + destruct V as [V1 V2]. split; [exact V1 | now apply var_bytes].
    + destruct V as [V1 V2]. split; [lia | apply var_bytes; now apply sym_bytes].
    + destruct (L1 l eq_refl).
    + destruct (L2 m eq_refl).
    + unfold xaddr. destruct a as [k|k|i k|d p]; cbn [whole_addr addr_wire] in *; [| | |contradiction];
        unfold key32 in H; rewrite ?app_bytes; unfold x32, x64; repeat split; try apply be_bytes; try tauto.
    + destruct V as [V1 V2]. split; [exact V1 | now apply var_bytes].
  - cbn [valid_tree whole] in V, H. destruct V as [Sh V]. rewrite allP_Forall in V, H. rewrite Forall_forall in *.
    cbn [xdr_of wire sbody maybeP]. rewrite some_bytes, list_bytes, everyP_Forall, !Forall_map, !Forall_forall, map_length.
    split; [split|].
    + unfold short, u32_max in Sh. lia.
    + intros x i. apply IH; auto.
    + intros x i. apply IH; auto.
  - cbn [valid_tree whole] in V, H. destruct V as (Sh & _ & V). rewrite allP_Forall in V, H. rewrite Forall_forall in *.
    cbn [xdr_of wire sbody maybeP]. rewrite some_bytes, list_bytes, everyP_Forall, !Forall_map, !Forall_forall, map_length.
    cbn [fst snd]. split; [split|].
    + unfold short, u32_max in Sh. lia.
    + intros x i. destruct (IH x i) as [I1 I2], (V x i), (H x i). split; [apply I1 | apply I2]; auto.
    + intros x i. destruct (IH x i) as [I1 I2], (V x i), (H x i). rewrite app_bytes. split; [apply I1 | apply I2]; auto.
Qed.
Lemma wire_whole t : valid_tree t -> wire (xdr_of t) -> are_bytes (bytes_of t) -> whole t.
Proof.
  unfold bytes_of.
  induction t as [t L1 L2|l IH|m IH] using tval_ind'; intros V W B; rewrite scval_bytes in B.
  - destruct t as [| | | | | | | | |l|m|a|]; try exact I; [destruct (L1 l eq_refl) | destruct (L2 m eq_refl) |].
    cbn [xdr_of wire sbody valid_tree whole] in *. unfold xaddr in B.
    destruct a as [k|k|i k|d p]; cbn [addr_wire whole_addr supported_addr] in *; unfold key32; rewrite ?app_bytes in B; unfold is_u64 in *; try tauto.
  - cbn [valid_tree] in V. destruct V as [Sh V]. rewrite allP_Forall in V. cbn [xdr_of wire sbody maybeP] in *.
    rewrite some_bytes, list_bytes, Forall_map in B. destruct W as [_ W]. rewrite everyP_Forall, Forall_map in W.
    cbn [whole]. rewrite allP_Forall. rewrite Forall_forall in *. auto.
  - cbn [valid_tree] in V. destruct V as (Sh & _ & V). rewrite allP_Forall in V. cbn [xdr_of wire sbody maybeP] in *.
    rewrite some_bytes, list_bytes, Forall_map in B. destruct W as [_ W]. rewrite everyP_Forall, Forall_map in W.
    cbn [whole fst snd] in *. rewrite allP_Forall. rewrite Forall_forall in *. intros p i.
    specialize (B p i). apply app_bytes in B. specialize (IH p i). specialize (V p i). specialize (W p i). tauto.
Qed.

Lemma fuel_enough b s r : are_bytes b ->
  r_scval (S (length b)) b = Ok (s, r) <-> b = xscval s ++ r /\ wire s.
Proof.
  intros B. rewrite (exact_scval _ _ _ _ B). unfold upto. split; [tauto|]. intros [E W].
  split; [exact E|]. split; [exact W|]. pose proof (depth_bytes s) as D. rewrite E, app_length. lia.
Qed.
Lemma addr_wire_xdr a : addr_wire a -> addr_xdr a.
Proof.
  destruct a as [k|k|i k|d p]; cbn [addr_wire addr_xdr]; unfold sized; try tauto.
  intros [[-> (q & -> & L)]|[-> L]]; [left | right; auto]. split; [reflexivity|].
  rewrite app_length. unfold x32. rewrite be_len. lia.
Qed.
Lemma exe_wire_xdr e : exe_wire e -> exe_xdr e.
Proof.
  destruct e as [h| |o tg]; cbn [exe_wire exe_xdr]; unfold sized; try tauto.
  intros [Wo Wt]. split; [now apply addr_wire_xdr | unfold XdrSpec.fits, u32_limit in *; lia].
Qed.
Lemma prefix_free t u r r' : valid_tree t -> whole t -> valid_tree u -> whole u ->
  bytes_of t ++ r = bytes_of u ++ r' -> t = u /\ r = r'.
Proof.
  intros Vt Wt Vu Wu E. destruct (tree_wire t Vt Wt) as [Xt _], (tree_wire u Vu Wu) as [Xu _].
  assert (G : forall s, wire s -> scval_xdr s).
  { clear. induction s as [s L1 L2 L3|l IH|m IH|e m IH] using scval_ind'; intros W.
    - destruct s as [b| |e|x|x|x|x|x|x|a b|a b|a b c d|a b c d|b|b|b|[l|]|[m|]|a|e [m|]| |x|b]; try exact I; try exact W;
        cbn [scval_xdr wire] in *; try tauto;
        try (unfold XdrSpec.fits, u32_limit in *; lia).
      + destruct (L1 l eq_refl).
      + destruct (L2 m eq_refl).
      + now apply addr_wire_xdr.
      + destruct (L3 e m eq_refl).
      + destruct W as [We _]. split; [now apply exe_wire_xdr | exact I].
    - cbn [wire scval_xdr maybeP] in *. destruct W as [L W]. split; [exact L|]. rewrite everyP_Forall in *. rewrite Forall_forall in *. auto.
    - cbn [wire scval_xdr maybeP] in *. destruct W as [L W]. split; [exact L|]. rewrite everyP_Forall in *. rewrite Forall_forall in *.
      intros p i. specialize (W p i). specialize (IH p i). tauto.
    - cbn [wire scval_xdr maybeP] in *. destruct W as [We [L W]]. split; [|split; [exact L|]].
      + now apply exe_wire_xdr.
      + rewrite everyP_Forall in *. rewrite Forall_forall in *.
        intros p i. specialize (W p i). specialize (IH p i). tauto. }
  apply G in Xt, Xu. unfold bytes_of in E.
  apply (xscval_reads _ Xt (xdr_of u) r r' Xu) in E as [E ->]. split; [|reflexivity].
  destruct (xdr_tree t Vt) as [_ Tt], (xdr_tree u Vu) as [_ Tu]. congruence.
Qed.
Lemma bytes_inj t u : valid_tree t -> whole t -> valid_tree u -> whole u -> bytes_of t = bytes_of u -> t = u.
Proof.
  intros Vt Wt Vu Wu E. apply (prefix_free t u [] []); auto. now rewrite E.
Qed.

(* the host's recursive check *)
Lemma can_represent_iff s : can_represent_recursive s = true <-> exists t, tree_of s = Some t.
Proof.
  induction s as [s L1 L2 L3|l IH|m IH|e m IH] using scval_ind'.
  - destruct s as [b| |e|x|x|x|x|x|x|a b|a b|a b c d|a b c d|b|b|b|[l|]|[m|]|a|e [m|]| |x|b]; cbn [can_represent_recursive tree_of];
      try (split; [eauto | reflexivity]); try (split; [discriminate | intros [t H]; discriminate H]).
    + destruct (L1 l eq_refl).
    + destruct (L2 m eq_refl).
  - cbn [can_represent_recursive tree_of]. rewrite forallb_forall. rewrite Forall_forall in IH. split.
    + intros H. assert (Q : exists ts, opt_list tree_of l = Some ts).
      { induction l as [|x l IHl]; [exists []; reflexivity|]. cbn [opt_list].
        destruct IHl as [ts ->]; [intros y i; apply IH; now right | intros y i; apply H; now right|].
        destruct (proj1 (IH x (or_introl eq_refl)) (H x (or_introl eq_refl))) as [t ->]. eauto. }
      destruct Q as [ts ->]. cbn. eauto.
    + intros [t H]. destruct (opt_list tree_of l) as [ts|] eqn:O; [|discriminate H]. clear H t. revert ts O.
      induction l as [|y l IHl]; intros ts O x i; [destruct i|]. cbn [opt_list] in O.
      destruct (tree_of y) eqn:Ey; [|discriminate O]. destruct (opt_list tree_of l) as [ts'|] eqn:Ol; [|discriminate O].
      destruct i as [->|i]; [apply IH; [now left | eauto]|]. eapply IHl; [intros z j; apply IH; now right | reflexivity | exact i].
  - cbn [can_represent_recursive tree_of]. rewrite forallb_forall. rewrite Forall_forall in IH. split.
    + intros H. assert (Q : exists ts, opt_list (opt_pair tree_of) m = Some ts).
      { induction m as [|[a b] m IHm]; [exists []; reflexivity|]. cbn [opt_list].
        destruct IHm as [ts ->]; [intros y i; apply IH; now right | intros y i; apply H; now right|].
        pose proof (H _ (or_introl eq_refl)) as Hx. apply andb_prop in Hx as [Ha Hb].
        destruct (IH _ (or_introl eq_refl)) as [Ia Ib]. apply Ia in Ha as [ta Ta]. apply Ib in Hb as [tb Tb].
        cbn [fst snd] in *. cbn [opt_pair]. rewrite Ta, Tb. eauto. }
      destruct Q as [ts ->]. cbn. eauto.
    + intros [t H]. destruct (opt_list (opt_pair tree_of) m) as [ts|] eqn:O; [|discriminate H]. clear H t. revert ts O.
      induction m as [|[a b] m IHm]; intros ts O x i; [destruct i|]. cbn [opt_list opt_pair] in O.
      destruct (tree_of a) eqn:Ea; [|discriminate O]. destruct (tree_of b) eqn:Eb; [|discriminate O].
      destruct (opt_list (opt_pair tree_of) m) as [ts'|] eqn:Ol; [|discriminate O].
      destruct i as [<-|i].
      * destruct (IH _ (or_introl eq_refl)) as [Ia Ib]. cbn [fst snd] in *. apply andb_true_intro. split; [apply Ia | apply Ib]; eauto.
      * eapply IHm; [intros z j; apply IH; now right | reflexivity | exact i].
  - cbn. split; [discriminate | intros [t H]; discriminate H].
Qed.

(* a value deeper than the limit is not converted *)
Lemma res_list_Forall {A B} (f : A -> res B) (P : B -> Prop) : (forall a b, f a = Ok b -> P b) ->
  forall l ss, res_list f l = Ok ss -> Forall P ss.
Proof.
  intros H. induction l as [|x l IH]; intros ss E; cbn [res_list] in E; [injection E as <-; constructor|].
  destruct (f x) as [y|] eqn:Ex; [|discriminate E]. cbn [rbind] in E.
  destruct (res_list f l) as [ys|] eqn:El; [|discriminate E]. injection E as <-. constructor; [eauto | now apply IH].
Qed.
Lemma small_depth v s : scval_of_small v = Ok s -> sdepth s = 1%nat.
Proof.
  unfold scval_of_small. destruct (get_tag v); try discriminate; try (intros H; injection H as <-; reflexivity).
  - destruct (error_of_val v); [intros H; injection H as <-; reflexivity | discriminate].
Qed.
Lemma converted_depth st h : forall d v s, from_host_val d st h v = Ok s -> (sdepth s <= d)%nat.
Proof.
  induction d as [|d IH]; intros v s E; cbn [from_host_val] in E; [discriminate E|].
  destruct (is_object v).
  - destruct (visit_obj_untyped h v) as [o|]; [|discriminate E]. cbn [rbind] in E.
    destruct (from_host_obj st (from_host_val d st h) o) as [s'|] eqn:F; [|discriminate E]. cbn [rbind] in E.
    destruct (can_represent s'); [|discriminate E]. injection E as <-.
    destruct o; cbn [from_host_obj] in F;
      try (injection F as <-; cbn [sdepth]; lia).
    + assert (sdepth s' = 1%nat) as ->; [|lia]. destruct k; injection F as <-; cbn [scval_of_num]; try reflexivity;
      (destruct (u256_into_pieces x) as [[[a b] c] e]; reflexivity) || (destruct (i256_into_pieces x) as [[[a b] c] e]; reflexivity).
    + destruct (res_list (from_host_val d st h) l) as [ss|] eqn:R; [|discriminate F]. injection F as <-.
      cbn [sdepth]. apply le_n_S, lmax_iff. eapply res_list_Forall; [|exact R]. exact IH.
    + destruct (res_list (res_pair (from_host_val d st h)) m) as [ss|] eqn:R; [|discriminate F]. injection F as <-.
      cbn [sdepth]. apply le_n_S, lmax_iff. eapply res_list_Forall; [|exact R]. intros [p q] [p' q'] H. unfold res_pair in H. cbn [fst snd] in H.
      destruct (from_host_val d st h p) as [y|] eqn:Ep; [|discriminate H]. cbn [rbind] in H.
      destruct (from_host_val d st h q) as [z|] eqn:Eq; [|discriminate H]. injection H as <- <-.
      cbn [fst snd]. apply IH in Ep, Eq. lia.
    + destruct st; [discriminate F|]. injection F as <-. cbn [sdepth]. lia.
  - destruct (scval_of_small v) as [s'|] eqn:S; [|discriminate E]. cbn [rbind] in E.
    destruct (can_represent s'); [|discriminate E]. injection E as <-. apply small_depth in S. lia.
Qed.

Lemma serialize_eq writable h v t : denotes h v t ->
  serialize_to_bytes writable h v =
  (if (tdepth t <=? 100)%nat then
     if writable (xdr_of t) then
       if u32_limit <? Z.of_nat (length (bytes_of t)) then (h, Err e_xdr_bad)
       else add_host_object h (HOBytes (bytes_of t))
     else (h, Err (ESys TBudget CExceededLimit))
   else (h, Err e_depth)).
Proof.
  intros D. unfold serialize_to_bytes, HOST_DEPTH.
  generalize 100%nat as n. intros n.
  pose proof (from_host_ok n false h v t D) as R. pose proof (converted_depth false h n v) as T.
  destruct (from_host_val n false h v) as [s|e]; cbn [from_res] in R; cbn [rbind].
  - destruct R as [-> _]. specialize (T _ eq_refl). rewrite tree_depth in T. rewrite (proj2 (Nat.leb_le _ _) T).
    unfold metered_write_xdr, scbytes_from_vec, bytes_of. destruct (writable (xdr_of t)); cbn [rbind]; [|reflexivity].
    destruct (u32_limit <? _); reflexivity.
  - destruct R as [[-> L]|(_ & F & _)]; [|discriminate F]. rewrite (proj2 (Nat.leb_gt _ _) L). reflexivity.
Qed.

Lemma decode_iff readable b s : are_bytes b ->
  scval_from_xdr readable b = Ok s <-> b = xscval s /\ wire s /\ readable s = true.
Proof.
  intros B. unfold scval_from_xdr. pose proof (fuel_enough b) as F.
  set (f := r_scval (S (length b)) b) in *. split.
  - destruct f as [[s' r]|]; [|discriminate]. cbn [rbind fst snd].
    destruct (readable s') eqn:R; cbn [negb]; [|discriminate]. unfold at_end. destruct r; [|discriminate].
    intros E. injection E as ->. destruct (proj1 (F s [] B) eq_refl) as [-> W]. rewrite app_nil_r. auto.
  - intros (E & W & R). rewrite (proj2 (F s [] B)); [|rewrite app_nil_r; auto]. cbn [rbind fst snd]. rewrite R. reflexivity.
Qed.

Lemma deserialize_sound readable h b h' v : are_bytes b ->
  deserialize_from_bytes readable h b = (h', Ok v) -> HeapSpec.fits h' ->
  exists t, b = bytes_of t /\ valid_tree t /\ whole t /\ (tdepth t <= 100)%nat /\ readable (xdr_of t) = true /\
            denotes h' v t /\ extends h h' /\ (heap_ok h -> heap_ok h').
Proof.
  intros B E F. unfold deserialize_from_bytes in E.
  destruct (scval_from_xdr readable b) as [s|] eqn:D; [|discriminate E].
  apply decode_iff in D as (-> & W & R); [|exact B].
  destruct (can_represent_recursive s); [|discriminate E].
  pose proof (wire_typed s W B) as T.
  unfold HOST_DEPTH in E. destruct (loaded _ _ _ _ _ T E F) as (t & Et & Dt & V & Ld).
  pose proof (tree_xdr _ _ T Et) as ->. destruct (load_keeps _ _ _ _ _ T E F) as [X K].
  exists t. unfold bytes_of. repeat (split; [first [reflexivity | assumption | now apply wire_whole]|]). exact K.
Qed.
Lemma deserialize_complete readable h t : valid_tree t -> whole t -> (tdepth t <= 100)%nat -> readable (xdr_of t) = true ->
  room h (tsize t) ->
  exists h' v, deserialize_from_bytes readable h (bytes_of t) = (h', Ok v) /\ HeapSpec.fits h'.
Proof.
  intros V W L R Rm. unfold deserialize_from_bytes. destruct (tree_wire t V W) as [X B].
  destruct (xdr_tree t V) as [T Et].
  rewrite (proj2 (decode_iff readable (bytes_of t) (xdr_of t) B)); [|unfold bytes_of; auto].
  rewrite (proj2 (can_represent_iff (xdr_of t))) by eauto.
  unfold HOST_DEPTH. exact (load_accepts _ _ _ _ T Et V L Rm).
Qed.
