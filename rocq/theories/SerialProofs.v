(* The decoder reads exactly what the encoder writes. *)
From Coq Require Import ZArith Lia List Bool.
From Verif Require Import Prelude ValModel HeapModel HeapSpec FrameModel AuthModel XdrModel XdrSpec XdrProofs
  TreeProofs StrkeyModel StrkeySpec StrkeyProofs StrkeyProofs2 AssetModel AssetProofs SerialModel SerialSpec.
Import ListNotations.
Open Scope Z_scope.
Ltac Zify.zify_post_hook ::= idtac.

(* f reads e x, for the x in P, and nothing else *)
Definition exact_ {A} (f : reader A) (e : A -> list Z) (P : A -> Prop) : Prop :=
  forall b x r, are_bytes b -> (f b = Ok (x, r) <-> b = e x ++ r /\ P x).

Lemma exact_map {U V} (g : U -> V) f e P e' (Q : V -> Prop) : exact_ f e P ->
  (forall x, P x -> e' (g x) = e x) -> (forall y, Q y <-> exists x, y = g x /\ P x) ->
  exact_ (r_map g f) e' Q.
Proof.
  intros F E PQ b y r B. unfold r_map. split.
  - destruct (f b) as [[x q]|] eqn:Fb; [|discriminate]. cbn [rbind fst snd].
    intros H. injection H as <- <-. apply F in Fb as [-> Px]; [|exact B].
    split; [now rewrite E | apply PQ; eauto].
  - intros [-> Qy]. apply PQ in Qy as (x & -> & Px). rewrite E in * by exact Px.
    rewrite (proj2 (F _ x r B)) by auto. reflexivity.
Qed.
Lemma exact_ext {A} (f : reader A) e P e' Q : exact_ f e P ->
  (forall x, P x -> e' x = e x) -> (forall x, Q x <-> P x) -> exact_ f e' Q.
Proof.
  intros F E PQ b x r B. rewrite (F b x r B). rewrite PQ. split; intros [-> Px]; split; auto; now rewrite E.
Qed.
Lemma exact_seq {U V} (f : reader U) (g : reader V) e P e' Q : exact_ f e P -> exact_ g e' Q ->
  exact_ (r_seq f g) (fun p => e (fst p) ++ e' (snd p)) (fun p => P (fst p) /\ Q (snd p)).
Proof.
  intros F G b [x y] r B. unfold r_seq. cbn [fst snd]. split.
  - destruct (f b) as [[u q]|] eqn:Fb; [|discriminate]. cbn [rbind fst snd].
    apply F in Fb as [-> Pu]; [|exact B]. apply are_bytes_app in B as [_ B].
    destruct (g q) as [[v s]|] eqn:Gb; [|discriminate]. cbn [rbind fst snd].
    apply G in Gb as [-> Qv]; [|exact B]. intros H. injection H as <- <- <-.
    now rewrite app_assoc.
  - intros [-> [Px Qy]]. rewrite <- app_assoc in *.
    rewrite (proj2 (F _ x (e' y ++ r) B)) by auto. cbn [rbind fst snd].
    apply are_bytes_app in B as [_ B]. rewrite (proj2 (G _ y r B)) by auto. reflexivity.
Qed.
Lemma exact_take n : exact_ (take n) (fun p => p) (fun p => length p = n).
Proof. intros b x r _. apply take_iff. Qed.
Lemma exact_none {A} e (P : A -> Prop) : (forall x, ~ P x) -> exact_ r_none e P.
Proof. intros N b x r _. split; [discriminate|]. intros [_ H]. destruct (N x H). Qed.
Lemma exact_nothing : exact_ r_nothing (fun _ => []) (fun _ => True).
Proof.
  intros b [] r _. unfold r_nothing. cbn [app].
  split; [intros H; injection H as ->; auto | intros [-> _]; reflexivity].
Qed.

(* numbers *)
Lemma be_bytes_ok n x : are_bytes (be n x).
Proof. induction n; cbn [be]; constructor; [apply Z.mod_pos_bound; lia | assumption]. Qed.
Lemma be_value n x : number 256 (be n x) = x mod 256 ^ Z.of_nat n.
Proof.
  induction n as [|n IH]; [cbn; now rewrite Z.mod_1_r|]. cbn [be number]. rewrite be_length, IH.
  rewrite Nat2Z.inj_succ, Z.pow_succ_r by lia.
  assert (0 < 256 ^ Z.of_nat n) by (apply Z.pow_pos_nonneg; lia).
  rewrite (Z.mul_comm 256), Z.rem_mul_r by lia. lia.
Qed.
Lemma be_of_number p : are_bytes p -> be (length p) (number 256 p) = p.
Proof.
  intros B. apply number_inj; [apply be_length | apply be_bytes_ok | exact B|].
  rewrite be_value. apply Z.mod_small. apply number_bound; exact B.
Qed.
Lemma exact_num n (f : Z -> Z) (P : Z -> Prop) :
  (forall x, P x <-> f (x mod 256 ^ Z.of_nat n) = x) ->
  (forall u, 0 <= u < 256 ^ Z.of_nat n -> f u mod 256 ^ Z.of_nat n = u) ->
  exact_ (r_map (fun p => f (of_be p)) (take n)) (be n) P.
Proof.
  intros FP FU b x r B. unfold r_map. split.
  - destruct (take n b) as [[p q]|] eqn:T; [|discriminate]. cbn [rbind fst snd].
    intros H. injection H as <- <-. apply take_iff in T as [-> L].
    apply are_bytes_app in B as [B _]. rewrite of_be_number.
    pose proof (number_bound p B) as N. rewrite L in N. assert (FU' := FU _ N). split.
    + f_equal. symmetry. etransitivity; [|apply (be_of_number p B)]. rewrite L.
      apply number_inj; [now rewrite !be_length | apply be_bytes_ok | apply be_bytes_ok|].
      rewrite !be_value, FU'. symmetry. apply Z.mod_small. lia.
    + apply FP. now rewrite FU'.
  - intros [-> Px]. rewrite (proj2 (take_iff n _ (be n x) r) (conj eq_refl (be_length n x))).
    cbn [rbind fst snd]. rewrite of_be_number, be_value. apply FP in Px. now rewrite Px.
Qed.
Lemma exact_u32 : exact_ r_u32 x32 is_u32.
Proof.
  apply (exact_num 4 (fun x => x) is_u32); change (256 ^ Z.of_nat 4) with (2 ^ 32); unfold is_u32.
  - intros x. split; [intros H; now apply Z.mod_small | intros <-; apply Z.mod_pos_bound; lia].
  - intros u H. now apply Z.mod_small.
Qed.
Lemma exact_u64 : exact_ r_u64 x64 is_u64.
Proof.
  apply (exact_num 8 (fun x => x) is_u64); change (256 ^ Z.of_nat 8) with (2 ^ 64); unfold is_u64.
  - intros x. split; [intros H; now apply Z.mod_small | intros <-; apply Z.mod_pos_bound; lia].
  - intros u H. now apply Z.mod_small.
Qed.
Lemma signed_iff m x : 0 < m -> (- m <= x < m <->
  (let u := (x mod (2 * m)) mod (2 * m) in if u <? m then u else u - 2 * m) = x).
Proof.
  intros M. cbv zeta. rewrite Z.mod_mod by lia.
  pose proof (Z.mod_pos_bound x (2 * m) ltac:(lia)) as B.
  pose proof (Z.div_mod x (2 * m) ltac:(lia)) as D.
  destruct (Z.ltb_spec (x mod (2 * m)) m) as [H|H].
  - split; [|lia]. intros R. assert (x / (2 * m) = 0) as Q; [|rewrite Q in D; lia].
    assert (x / (2 * m) < 1) by (apply Z.div_lt_upper_bound; lia).
    assert (-1 < x / (2 * m)); [|lia]. nia.
  - split; [|lia]. intros R. assert (x / (2 * m) = -1) as Q; [|rewrite Q in D; lia].
    assert (x / (2 * m) < 0); [|assert (-2 < x / (2 * m)); [nia | lia]]. nia.
Qed.
Lemma unsigned m u : 0 < m -> 0 <= u < 2 * m ->
  (let v := u mod (2 * m) in if v <? m then v else v - 2 * m) mod (2 * m) = u.
Proof.
  intros M R. cbv zeta. rewrite (Z.mod_small u) by lia. destruct (Z.ltb_spec u m).
  - apply Z.mod_small. lia.
  - symmetry. apply (Z.mod_unique_pos _ _ (-1)); lia.
Qed.
Lemma exact_i32 : exact_ r_i32 x32 is_i32.
Proof.
  apply (exact_num 4 as_i32 is_i32); change (256 ^ Z.of_nat 4) with (2 * 2 ^ 31); unfold is_i32, as_i32;
    change (2 ^ 32) with (2 * 2 ^ 31).
  - intros x. apply signed_iff. lia.
  - intros u H. apply unsigned; lia.
Qed.
Lemma exact_i64 : exact_ r_i64 x64 is_i64.
Proof.
  apply (exact_num 8 as_i64 is_i64); change (256 ^ Z.of_nat 8) with (2 * 2 ^ 63); unfold is_i64, as_i64;
    change (2 ^ 64) with (2 * 2 ^ 63).
  - intros x. apply signed_iff. lia.
  - intros u H. apply unsigned; lia.
Qed.

(* unions *)
Lemma exact_union {A} (arm : Z -> reader A) (disc : A -> Z) body (P : A -> Prop) :
  (forall x, P x -> is_u32 (disc x)) ->
  (forall d, exact_ (arm d) body (fun x => P x /\ disc x = d)) ->
  exact_ (r_union arm) (fun x => x32 (disc x) ++ body x) P.
Proof.
  intros D F b x r B. unfold r_union. split.
  - destruct (r_u32 b) as [[d q]|] eqn:R; [|discriminate]. cbn [rbind fst snd].
    apply exact_u32 in R as [-> U]; [|exact B]. apply are_bytes_app in B as [_ B].
    intros E. apply F in E as [-> [Px <-]]; [|exact B]. split; [now rewrite app_assoc | exact Px].
  - intros [-> Px]. rewrite <- app_assoc in *.
    rewrite (proj2 (exact_u32 _ (disc x) (body x ++ r) B)) by auto. cbn [rbind fst snd].
    apply are_bytes_app in B as [_ B]. now apply (F (disc x)).
Qed.

(* sequences *)
Lemma pad_zeros n q : length q = length (pad n) -> forallb (fun x => x =? 0) q = true -> q = pad n.
Proof.
  unfold pad. generalize ((4 - n mod 4) mod 4)%nat as k. clear n. intros k. rewrite repeat_length.
  revert k. induction q as [|x q IH]; intros [|k] L H; try discriminate; [reflexivity|].
  cbn in *. apply andb_true_iff in H as [E H]. apply Z.eqb_eq in E as ->. f_equal. apply IH; congruence.
Qed.
Lemma pad_ok n : forallb (fun x => x =? 0) (pad n) = true.
Proof. unfold pad. generalize ((4 - n mod 4) mod 4)%nat as k. induction k; auto. Qed.
Lemma exact_var max : 0 <= max < 2 ^ 32 -> exact_ (r_var max) xvar (fun l => Z.of_nat (length l) <= max).
Proof.
  intros M b l r B. unfold r_var, xvar. split.
  - destruct (r_u32 b) as [[n q]|] eqn:R; [|discriminate]. cbn [rbind fst snd].
    apply exact_u32 in R as [-> U]; [|exact B]. destruct (Z.ltb_spec max n) as [|H]; [discriminate|].
    destruct (take (Z.to_nat n) q) as [[p q2]|] eqn:T; [|discriminate]. cbn [rbind fst snd].
    apply take_iff in T as [-> L].
    destruct (take (length (pad (Z.to_nat n))) q2) as [[z q3]|] eqn:T; [|discriminate]. cbn [rbind fst snd].
    apply take_iff in T as [-> Lz]. destruct (forallb _ z) eqn:F; [|discriminate].
    intros E. injection E as <- <-. apply (pad_zeros (Z.to_nat n)) in F; [|exact Lz]. subst z. unfold is_u32 in U.
    rewrite L. rewrite Z2Nat.id by lia. split; [now rewrite <- !app_assoc | exact H].
  - intros [-> L]. rewrite <- !app_assoc in *.
    rewrite (proj2 (exact_u32 _ (Z.of_nat (length l)) (l ++ pad (length l) ++ r) B))
      by (split; [reflexivity | unfold is_u32; lia]).
    cbn [rbind fst snd]. replace (max <? Z.of_nat (length l)) with false by (symmetry; apply Z.ltb_ge; lia).
    rewrite Nat2Z.id. rewrite (proj2 (take_iff _ _ l (pad (length l) ++ r)) (conj eq_refl eq_refl)).
    cbn [rbind fst snd]. rewrite (proj2 (take_iff _ _ (pad (length l)) r) (conj eq_refl eq_refl)).
    cbn [rbind fst snd]. rewrite pad_ok. reflexivity.
Qed.
Lemma exact_times {A} (f : reader A) e P : exact_ f e P ->
  forall n, exact_ (r_times f n) (flat_map e) (fun l => length l = n /\ Forall P l).
Proof.
  intros F. induction n as [|n IH]; intros b l r B; cbn [r_times].
  - split.
    + intros E. injection E as <- <-. auto.
    + intros [-> [L _]]. destruct l; [reflexivity | discriminate].
  - split.
    + destruct (f b) as [[x q]|] eqn:Fb; [|discriminate]. cbn [rbind fst snd].
      apply F in Fb as [-> Px]; [|exact B]. apply are_bytes_app in B as [_ B].
      destruct (r_times f n q) as [[t s]|] eqn:T; [|discriminate]. cbn [rbind fst snd].
      apply IH in T as [-> [L Pt]]; [|exact B]. intros E. injection E as <- <-.
      cbn [flat_map length]. rewrite app_assoc. auto.
    + intros [-> [L Pl]]. destruct l as [|x l]; [discriminate|]. inversion Pl; subst.
      cbn [flat_map] in *. rewrite <- app_assoc in *.
      rewrite (proj2 (F _ x (flat_map e l ++ r) B)) by auto. cbn [rbind fst snd].
      apply are_bytes_app in B as [_ B].
      rewrite (proj2 (IH _ l r B)) by (split; [reflexivity | split; [cbn in L; congruence | assumption]]).
      reflexivity.
Qed.
Lemma exact_list {A} (f : reader A) e P : exact_ f e P ->
  exact_ (r_list f) (xlist e) (fun l => Z.of_nat (length l) < 2 ^ 32 /\ Forall P l).
Proof.
  intros F b l r B. unfold r_list, xlist. split.
  - destruct (r_u32 b) as [[n q]|] eqn:R; [|discriminate]. cbn [rbind fst snd].
    apply exact_u32 in R as [-> U]; [|exact B]. apply are_bytes_app in B as [_ B]. unfold is_u32 in U.
    intros E. apply (exact_times f e P F) in E as [-> [L Pl]]; [|exact B].
    rewrite L, Z2Nat.id, app_assoc by lia. repeat split; [lia | exact Pl].
  - intros [-> [L Pl]]. rewrite <- app_assoc in *.
    rewrite (proj2 (exact_u32 _ (Z.of_nat (length l)) (flat_map e l ++ r) B))
      by (split; [reflexivity | unfold is_u32; lia]).
    cbn [rbind fst snd]. apply are_bytes_app in B as [_ B]. rewrite Nat2Z.id.
    now apply (exact_times f e P F).
Qed.
Lemma exact_opt {A} (f : reader A) e P : exact_ f e P -> exact_ (r_opt f) (xopt e) (maybeP P).
Proof.
  intros F. unfold r_opt.
  apply (exact_ext _ (fun o => x32 (match o with None => 0 | Some _ => 1 end) ++ match o with None => [] | Some a => e a end) (maybeP P));
    [|intros [a|] _; [reflexivity | now rewrite app_nil_r] | reflexivity].
  apply exact_union; [intros [a|] _; unfold is_u32; lia|].
  intros d. destruct (Z.eqb_spec d 0) as [->|N0]; [|destruct (Z.eqb_spec d 1) as [->|N1]].
  - eapply exact_map; [apply exact_nothing | reflexivity|]. cbv beta.
    intros [a|]; split; [intros [_ H]; discriminate | intros (x & H & _); discriminate
                        | intros _; exists tt; auto | intros _; split; [exact I | reflexivity]].
  - eapply exact_map; [exact F | reflexivity|]. cbv beta.
    intros [a|]; split; [intros [H _]; eauto | intros (x & H & Px); injection H as <-; auto
                        | intros [_ H]; discriminate | intros (x & H & _); discriminate].
  - apply exact_none. intros [a|] [_ H]; congruence.
Qed.
Lemma exact_only f e P : exact_ f e P -> exact_ (r_only f) (fun x => x32 0 ++ e x) P.
Proof.
  intros F. unfold r_only.
  apply (exact_union _ (fun _ : list Z => 0) e P); [intros; unfold is_u32; lia|].
  intros d. destruct (Z.eqb_spec d 0) as [->|N].
  - eapply exact_ext; [exact F | reflexivity|]. intros x. cbv beta. tauto.
  - apply exact_none. intros x [_ H]. congruence.
Qed.

(* addresses, executables, errors *)
Definition addr_wire (a : addr) : Prop :=
  match a with
  | AAccount k | AContract k => length k = 32%nat
  | AMuxed i k => is_u64 i /\ length k = 32%nat
  | AOther d p => d = 3 /\ (exists q, p = x32 0 ++ q /\ length q = 32%nat) \/ d = 4 /\ length p = 32%nat
  end.
Ltac arm := eapply exact_map; [| |]; cycle 1.
Lemma exact_addr : exact_ r_addr xaddr addr_wire.
Proof.
  unfold r_addr, xaddr.
  apply exact_union.
  { intros [k|k|i k|d p]; cbn; unfold is_u32; intros H; lia. }
  intros d.
  destruct (Z.eqb_spec d 0) as [->|N0]; [|destruct (Z.eqb_spec d 1) as [->|N1];
    [|destruct (Z.eqb_spec d 2) as [->|N2]; [|destruct (Z.eqb_spec d 3) as [->|N3];
    [|destruct (Z.eqb_spec d 4) as [->|N4]]]]].
  - eapply exact_map; [apply exact_only, exact_take | reflexivity|]. cbv beta.
    intros [k|k|i k|d p]; cbn [addr_wire addr_disc]; split.
    all: try (intros (x & E & H); discriminate E). all: try (intros [_ H]; discriminate H).
    + intros [H _]. eauto.
    + intros (x & E & H). injection E as <-. auto.
    + intros [[[-> _]|[-> _]] H]; discriminate H.
  - eapply exact_map; [apply exact_take | reflexivity|]. cbv beta.
    intros [k|k|i k|d p]; cbn [addr_wire addr_disc]; split.
    all: try (intros (x & E & H); discriminate E). all: try (intros [_ H]; discriminate H).
    + intros [H _]. eauto.
    + intros (x & E & H). injection E as <-. auto.
    + intros [[[-> _]|[-> _]] H]; discriminate H.
  - eapply exact_map; [apply exact_seq; [apply exact_u64 | apply exact_take] | reflexivity|]. cbv beta.
    intros [k|k|i k|d p]; cbn [addr_wire addr_disc]; split.
    all: try (intros (x & E & H); discriminate E). all: try (intros [_ H]; discriminate H).
    + intros [H _]. exists (i, k). auto.
    + intros ([x y] & E & H). injection E as -> ->. auto.
    + intros [[[-> _]|[-> _]] H]; discriminate H.
  - eapply exact_map; [apply exact_only, exact_take | reflexivity|]. cbv beta.
    intros [k|k|i k|d p]; cbn [addr_wire addr_disc]; split.
    all: try (intros (x & E & H); discriminate E). all: try (intros [_ H]; discriminate H).
    + intros [[[-> (q & -> & L)]|[-> _]] H]; [eauto | discriminate H].
    + intros (x & E & H). assert (d = 3) as -> by congruence. assert (p = x32 0 ++ x) as -> by congruence. eauto 8.
  - eapply exact_map; [apply exact_take | reflexivity|]. cbv beta.
    intros [k|k|i k|d p]; cbn [addr_wire addr_disc]; split.
    all: try (intros (x & E & H); discriminate E). all: try (intros [_ H]; discriminate H).
    + intros [[[-> _]|[-> L]] H]; [discriminate H | eauto].
    + intros (x & E & H). injection E as -> ->. auto.
  - apply exact_none. intros [k|k|i k|e p] [H E]; cbn in *; try congruence.
    destruct H as [[-> _]|[-> _]]; congruence.
Qed.
Definition exe_wire (e : executable) : Prop :=
  match e with
  | ExWasm h => length h = 32%nat
  | ExStellarAsset => True
  | ExExternalRef o t => addr_wire o /\ Z.of_nat (length t) <= u32_limit
  end.
Lemma exact_exe : exact_ r_exe xexe exe_wire.
Proof.
  unfold r_exe, xexe. apply exact_union; [intros [h| |o t] _; cbn; unfold is_u32; lia|].
  intros d.
  destruct (Z.eqb_spec d 0) as [->|N0]; [|destruct (Z.eqb_spec d 1) as [->|N1];
    [|destruct (Z.eqb_spec d 2) as [->|N2]]].
  - eapply exact_map; [apply exact_take | reflexivity|]. cbv beta.
    intros [h| |o t]; cbn [exe_wire exe_disc]; split.
    all: try (intros (x & E & H); discriminate E). all: try (intros [_ H]; discriminate H).
    + intros [H _]. eauto.
    + intros (x & E & H). injection E as <-. auto.
  - eapply exact_map; [apply exact_nothing | reflexivity|]. cbv beta.
    intros [h| |o t]; cbn [exe_wire exe_disc]; split.
    all: try (intros (x & E & H); discriminate E). all: try (intros [_ H]; discriminate H).
    + intros _. exists tt. auto.
    + auto.
  - eapply exact_map; [apply exact_seq; [apply exact_addr | apply exact_var; unfold u32_limit; lia] | reflexivity|]. cbv beta.
    intros [h| |o t]; cbn [exe_wire exe_disc]; split.
    all: try (intros (x & E & H); discriminate E). all: try (intros [_ H]; discriminate H).
    + intros [H _]. exists (o, t). auto.
    + intros ([x y] & E & H). injection E as -> ->. auto.
  - apply exact_none. intros [h| |o t] [H E]; cbn in *; congruence.
Qed.
Lemma ecode_iff d c : ecode_of_num d = Some c <-> ecode_num c = d.
Proof.
  unfold ecode_of_num. split.
  - intros H. apply find_some in H as [_ H]. now apply Z.eqb_eq.
  - intros <-. destruct c; reflexivity.
Qed.
Lemma ety_iff d c : ety_of_num d = Some c <-> ety_num c = d.
Proof.
  unfold ety_of_num. split.
  - intros H. apply find_some in H as [_ H]. now apply Z.eqb_eq.
  - intros <-. destruct c; reflexivity.
Qed.
Lemma exact_code : exact_ r_code (fun c => x32 (ecode_num c)) (fun _ => True).
Proof.
  unfold r_code. apply (exact_ext _ (fun c => x32 (ecode_num c) ++ []) (fun _ => True));
    [|intros; now rewrite app_nil_r | reflexivity].
  apply (exact_union _ ecode_num (fun _ => [])); [intros [] _; unfold is_u32; cbn; lia|].
  intros d. destruct (ecode_of_num d) as [c|] eqn:E.
  - eapply exact_map; [apply exact_nothing | reflexivity|]. cbv beta. intros y. split.
    + intros [_ H]. exists tt. split; [|exact I]. apply ecode_iff in H. congruence.
    + intros (_ & -> & _). split; [exact I | now apply ecode_iff].
  - apply exact_none. intros c [_ H]. apply ecode_iff in H. congruence.
Qed.
Lemma exact_err : exact_ r_err xerr err_xdr.
Proof.
  unfold r_err, xerr. apply exact_union; [intros [c|t c] _; unfold is_u32; [cbn; lia | destruct t; cbn; lia]|].
  intros d. destruct (Z.eqb_spec d 0) as [->|N0].
  - eapply exact_map; [apply exact_u32 | reflexivity|]. cbv beta.
    intros [c|t c]; cbn [err_xdr err_key fst]; split.
    + intros [H _]. eauto.
    + intros (x & E & H). injection E as <-. auto.
    + intros [_ H]. destruct t; discriminate H.
    + intros (x & E & H). discriminate E.
  - destruct (ety_of_num d) as [t|] eqn:E.
    + apply ety_iff in E as E'. eapply exact_map; [apply exact_code | reflexivity|]. cbv beta.
      intros [c|u c]; cbn [err_xdr err_key fst]; split.
      * intros [_ H]. congruence.
      * intros (x & Ex & H). discriminate Ex.
      * intros [_ H]. exists c. apply ety_iff in H. split; [congruence | exact I].
      * intros (x & Ex & _). injection Ex as -> ->. auto.
    + apply exact_none. intros [c|t c] [_ H]; cbn [err_key fst] in H; [congruence|].
      apply ety_iff in H. congruence.
Qed.
Lemma exact_bool : exact_ r_bool (fun b => x32 (if b : bool then 1 else 0)) (fun _ => True).
Proof.
  unfold r_bool. apply (exact_ext _ (fun b : bool => x32 (if b then 1 else 0) ++ []) (fun _ => True));
    [|intros; now rewrite app_nil_r | reflexivity].
  apply (exact_union _ (fun b : bool => if b then 1 else 0) (fun _ => [])); [intros [] _; unfold is_u32; lia|].
  intros d. destruct (Z.eqb_spec d 0) as [->|N0]; [|destruct (Z.eqb_spec d 1) as [->|N1]].
  - eapply exact_map; [apply exact_nothing | reflexivity|]. cbv beta.
    intros []; split; [intros [_ H]; discriminate | intros (_ & H & _); discriminate
                      | intros _; exists tt; auto | auto].
  - eapply exact_map; [apply exact_nothing | reflexivity|]. cbv beta.
    intros []; split; [intros _; exists tt; auto | auto
                      | intros [_ H]; discriminate | intros (_ & H & _); discriminate].
  - apply exact_none. intros [] [_ H]; congruence.
Qed.

(* values *)
Definition pairP {A} (P : A -> Prop) (p : A * A) : Prop := P (fst p) /\ P (snd p).
Fixpoint wire (s : scval) : Prop :=
  match s with
  | SBool _ | SVoid | SLedgerKeyContractInstance => True
  | SError e => err_xdr e
  | SU32 x => is_u32 x
  | SI32 x => is_i32 x
  | SU64 x | STimepoint x | SDuration x => is_u64 x
  | SI64 x | SLedgerKeyNonce x => is_i64 x
  | SU128 a b => is_u64 a /\ is_u64 b
  | SI128 a b => is_i64 a /\ is_u64 b
  | SU256 a b c d => ((is_u64 a /\ is_u64 b) /\ is_u64 c) /\ is_u64 d
  | SI256 a b c d => ((is_i64 a /\ is_u64 b) /\ is_u64 c) /\ is_u64 d
  | SBytes b | SString b | SExecutableTag b => Z.of_nat (length b) <= u32_limit
  | SSymbol b => Z.of_nat (length b) <= 32
  | SVec l => maybeP (fun l => Z.of_nat (length l) < 2 ^ 32 /\ everyP wire l) l
  | SMap m => maybeP (fun m => Z.of_nat (length m) < 2 ^ 32 /\ everyP (fun p => wire (fst p) /\ wire (snd p)) m) m
  | SAddress a => addr_wire a
  | SContractInstance e m =>
      exe_wire e /\
      maybeP (fun m => Z.of_nat (length m) < 2 ^ 32 /\ everyP (fun p => wire (fst p) /\ wire (snd p)) m) m
  end.
Fixpoint sdepth (s : scval) : nat :=
  match s with
  | SVec (Some l) => S (lmax (map sdepth l))
  | SMap (Some m) | SContractInstance _ (Some m) =>
      S (lmax (map (fun p => Nat.max (sdepth (fst p)) (sdepth (snd p))) m))
  | _ => 1%nat
  end.
Definition sbody (s : scval) : list Z :=
  match s with
  | SBool b => x32 (if b then 1 else 0)
  | SVoid | SLedgerKeyContractInstance => []
  | SError e => xerr e
  | SU32 x | SI32 x => x32 x
  | SU64 x | SI64 x | STimepoint x | SDuration x | SLedgerKeyNonce x => x64 x
  | SU128 a b | SI128 a b => x64 a ++ x64 b
  | SU256 a b c d | SI256 a b c d => x64 a ++ x64 b ++ x64 c ++ x64 d
  | SBytes b | SString b | SSymbol b | SExecutableTag b => xvar b
  | SVec l => xopt (xlist xscval) l
  | SMap m => xopt (xlist (fun p => xscval (fst p) ++ xscval (snd p))) m
  | SAddress a => xaddr a
  | SContractInstance e m =>
      xexe e ++ xopt (xlist (fun p => xscval (fst p) ++ xscval (snd p))) m
  end.
Lemma xscval_parts s : xscval s = x32 (scv_disc s) ++ sbody s.
Proof. destruct s; reflexivity. Qed.
Lemma sdepth_pos s : (1 <= sdepth s)%nat.
Proof. destruct s as [| | | | | | | | | | | | | | | |[l|]|[m|]| |e [m|]| | |]; cbn [sdepth]; lia. Qed.
Lemma lmax_iff {A} (f : A -> nat) l n : (lmax (map f l) <= n)%nat <-> Forall (fun x => (f x <= n)%nat) l.
Proof.
  induction l as [|x l IH]; cbn [map lmax fold_right]; [split; [constructor | lia]|].
  change (fold_right Nat.max 0%nat (map f l)) with (lmax (map f l)). split.
  - intros H. constructor; [lia | apply IH; lia].
  - intros H. inversion H; subst. apply IH in H3. lia.
Qed.
Lemma Forall_and_iff {A} (P Q : A -> Prop) l : Forall (fun x => P x /\ Q x) l <-> Forall P l /\ Forall Q l.
Proof.
  split; [intros H; split; eapply Forall_impl; try exact H; intros a [X Y]; assumption|].
  intros [H1 H2]. apply Forall_forall. intros x I. rewrite Forall_forall in H1, H2. auto.
Qed.
Definition upto (n : nat) (s : scval) : Prop := wire s /\ (sdepth s <= n)%nat.
Lemma vec_upto n l : upto (S n) (SVec l) <->
  maybeP (fun l => Z.of_nat (length l) < 2 ^ 32 /\ Forall (upto n) l) l.
Proof.
  unfold upto. destruct l as [l|]; cbn [wire sdepth maybeP]; [|split; [auto | intros _; split; [exact I | lia]]].
  rewrite everyP_Forall, <- Nat.succ_le_mono, lmax_iff, Forall_and_iff. tauto.
Qed.
Lemma map_upto n m : (maybeP (fun m => Z.of_nat (length m) < 2 ^ 32 /\
      everyP (fun p => wire (fst p) /\ wire (snd p)) m) m /\
     (match m with Some m => S (lmax (map (fun p => Nat.max (sdepth (fst p)) (sdepth (snd p))) m)) | None => 1 end <= S n)%nat)
  <-> maybeP (fun m => Z.of_nat (length m) < 2 ^ 32 /\ Forall (fun p => upto n (fst p) /\ upto n (snd p)) m) m.
Proof.
  unfold upto. destruct m as [m|]; cbn [maybeP]; [|split; [auto | intros _; split; [exact I | lia]]].
  rewrite everyP_Forall, <- Nat.succ_le_mono, lmax_iff.
  assert (E : Forall (fun p => (wire (fst p) /\ (sdepth (fst p) <= n)%nat) /\ wire (snd p) /\ (sdepth (snd p) <= n)%nat) m
    <-> Forall (fun p => wire (fst p) /\ wire (snd p)) m /\
        Forall (fun p => (Nat.max (sdepth (fst p)) (sdepth (snd p)) <= n)%nat) m).
  { rewrite <- Forall_and_iff. split; apply Forall_impl; intros p; rewrite Nat.max_lub_iff; tauto. }
  rewrite E. tauto.
Qed.

Ltac atom L :=
  eapply exact_map; [exact L | reflexivity |]; cbv beta; intros y; unfold upto; split;
  [ intros [[W D] E]; destruct y; try discriminate E; cbn [wire] in W; eauto
  | intros (x & -> & H); cbn [wire sdepth scv_disc]; (split; [split; [exact H | lia] | reflexivity]) ].
Lemma exact_four g f P n k :
  exact_ f x64 P ->
  (forall a b c d, sbody (g a b c d) = x64 a ++ x64 b ++ x64 c ++ x64 d) ->
  (forall y, upto (S n) y /\ scv_disc y = k <->
     exists a b c d, y = g a b c d /\ ((P a /\ is_u64 b) /\ is_u64 c) /\ is_u64 d) ->
  exact_ (r_four g f) sbody (fun y => upto (S n) y /\ scv_disc y = k).
Proof.
  intros F E D. unfold r_four.
  eapply exact_map; [apply exact_seq; [apply exact_seq; [apply exact_seq; [exact F | exact exact_u64] | exact exact_u64] | exact exact_u64] | |].
  - intros [[[a b] c] d] _. cbn [fst snd]. rewrite E. now rewrite <- !app_assoc.
  - intros y. cbv beta. rewrite D. split.
    + intros (a & b & c & d & -> & H). exists (((a, b), c), d). auto.
    + intros ([[[a b] c] d] & -> & H). exists a, b, c, d. auto.
Qed.
Lemma exact_scval n : exact_ (r_scval n) xscval (upto n).
Proof.
  induction n as [|n IH].
  - cbn [r_scval]. intros b x r _. split; [discriminate|]. intros [_ [_ H]]. pose proof (sdepth_pos x). lia.
  - assert (M : exact_ (r_opt (r_list (r_seq (r_scval n) (r_scval n))))
                  (xopt (xlist (fun p => xscval (fst p) ++ xscval (snd p))))
                  (maybeP (fun m => Z.of_nat (length m) < 2 ^ 32 /\ Forall (fun p => upto n (fst p) /\ upto n (snd p)) m)))
      by (apply exact_opt, exact_list, exact_seq; exact IH).
    assert (L : exact_ (r_opt (r_list (r_scval n))) (xopt (xlist xscval))
                  (maybeP (fun l => Z.of_nat (length l) < 2 ^ 32 /\ Forall (upto n) l)))
      by (apply exact_opt, exact_list; exact IH).
    cbn [r_scval].
    apply (exact_ext _ (fun s => x32 (scv_disc s) ++ sbody s) (upto (S n)));
      [|intros s _; apply xscval_parts | reflexivity].
    apply exact_union; [intros s _; apply scv_disc_u32|].
    intros d.
    assert (C : 0 <= d <= 22 \/ (d < 0 \/ 22 < d)) by lia. destruct C as [C|C].
    + assert (d = 0 \/ d = 1 \/ d = 2 \/ d = 3 \/ d = 4 \/ d = 5 \/ d = 6 \/ d = 7 \/ d = 8 \/ d = 9 \/ d = 10 \/ d = 11 \/
              d = 12 \/ d = 13 \/ d = 14 \/ d = 15 \/ d = 16 \/ d = 17 \/ d = 18 \/ d = 19 \/ d = 20 \/ d = 21 \/ d = 22) as K by lia.
      clear C. destruct K as [-> | [-> | [-> | [-> | [-> | [-> | [-> | [-> | [-> | [-> | [-> | [-> | [-> | [-> | [-> | [-> |
                 [-> | [-> | [-> | [-> | [-> | [-> | -> ]]]]]]]]]]]]]]]]]]]]]]; cbv beta iota.
      * atom exact_bool.
      * eapply exact_map; [exact exact_nothing | reflexivity|]. cbv beta. intros y. unfold upto. split.
        -- intros [[W D] E]. destruct y; try discriminate E. exists tt. auto.
        -- intros (x & -> & H). cbn. split; [split; [exact I | lia] | reflexivity].
      * atom exact_err.
      * atom exact_u32.
      * atom exact_i32.
      * atom exact_u64.
      * atom exact_i64.
      * atom exact_u64.
      * atom exact_u64.
      * eapply exact_map; [apply exact_seq; exact exact_u64 | reflexivity|]. cbv beta. intros y. unfold upto. split.
        -- intros [[W D] E]. destruct y; try discriminate E. cbn [wire] in W. exists (hi, lo). auto.
        -- intros ([a b] & -> & H). cbn [wire sdepth scv_disc fst snd] in *. split; [split; [exact H | lia] | reflexivity].
      * eapply exact_map; [apply exact_seq; [exact exact_i64 | exact exact_u64] | reflexivity|]. cbv beta. intros y. unfold upto. split.
        -- intros [[W D] E]. destruct y; try discriminate E. cbn [wire] in W. exists (hi, lo). auto.
        -- intros ([a b] & -> & H). cbn [wire sdepth scv_disc fst snd] in *. split; [split; [exact H | lia] | reflexivity].
      * apply (exact_four _ _ _ _ _ exact_u64); [reflexivity|]. intros y. unfold upto. split.
        -- intros [[W D] E]. destruct y; try discriminate E. cbn [wire] in W. eauto 8.
        -- intros (a & b & c & d & -> & H). cbn [wire sdepth scv_disc]. split; [split; [exact H | lia] | reflexivity].
      * apply (exact_four _ _ _ _ _ exact_i64); [reflexivity|]. intros y. unfold upto. split.
        -- intros [[W D] E]. destruct y; try discriminate E. cbn [wire] in W. eauto 8.
        -- intros (a & b & c & d & -> & H). cbn [wire sdepth scv_disc]. split; [split; [exact H | lia] | reflexivity].
      * atom (exact_var u32_limit ltac:(unfold u32_limit; lia)).
      * atom (exact_var u32_limit ltac:(unfold u32_limit; lia)).
      * atom (exact_var SCSYMBOL_LIMIT ltac:(unfold SCSYMBOL_LIMIT; lia)).
      * eapply exact_map; [exact L | reflexivity|]. cbv beta. intros y. split.
        -- intros [U E]. destruct y; try discriminate E. apply vec_upto in U. eauto.
        -- intros (x & -> & H). split; [now apply vec_upto | reflexivity].
      * eapply exact_map; [exact M | reflexivity|]. cbv beta. intros y. split.
        -- intros [[W D] E]. destruct y; try discriminate E. exists m. split; [reflexivity|].
           apply map_upto. split; [exact W | destruct m; exact D].
        -- intros (m & -> & H). split; [|reflexivity]. apply map_upto in H as [W D].
           split; [exact W | destruct m; exact D].
      * atom exact_addr.
      * eapply exact_map; [apply exact_seq; [exact exact_exe | exact M] | reflexivity|]. cbv beta. intros y. split.
        -- intros [[W D] E]. destruct y; try discriminate E. exists (e, storage). destruct W as [We W].
           split; [reflexivity|]. split; [exact We|]. cbn [snd]. apply map_upto. split; [exact W | destruct storage; exact D].
        -- intros ([e m] & -> & [We H]). cbn [fst snd] in *. split; [|reflexivity]. apply map_upto in H as [W D].
           split; [split; [exact We | exact W] | destruct m; exact D].
      * eapply exact_map; [exact exact_nothing | reflexivity|]. cbv beta. intros y. unfold upto. split.
        -- intros [[W D] E]. destruct y; try discriminate E. exists tt. auto.
        -- intros (x & -> & H). cbn. split; [split; [exact I | lia] | reflexivity].
      * atom exact_i64.
      * atom (exact_var u32_limit ltac:(unfold u32_limit; lia)).
    + assert (N : forall A (x : A), forall y, ~ (upto (S n) y /\ scv_disc y = d)).
      { intros _ _ y [_ E]. destruct y; cbn in E; lia. }
      destruct d as [|p|p]; [lia | | apply exact_none; intros y; now apply (N _ tt)].
      do 5 (destruct p as [p|p|]; try (exfalso; lia); try (apply exact_none; intros y; now apply (N _ tt))).
Qed.
