(* Credit: every operation stays ahead of its work. *)
From Coq Require Import ZArith Lia List Bool.
From Verif Require Import Prelude ValModel ContainerModel ContainerProofs HeapModel BudgetModel BudgetSpec BudgetProofs StorageModel PaySpec PayModel.
Import ListNotations.
Open Scope Z_scope.
Ltac Zify.zify_post_hook ::= idtac.

Definition good (s : step) : Prop :=
  match s with
  | Pay ty i =>
      (exists n, i = Some n /\ 0 <= n /\ (ty = 1 \/ ty = 2 \/ ty = 3)%nat) \/ (i = None /\ ty = 5%nat)
  | Allocate n | Copy n | Read n | Match n => 0 <= n
  | Visit => True
  end.

Lemma did_pos k s : good s -> 0 <= did k s.
Proof. destruct s, k; cbn; intros; try lia. Qed.
Lemma charged_pos k s : good s -> 0 <= charged k s.
Proof.
  destruct s as [ty i| | | | |]; [|destruct k; cbn; lia..].
  intros [(n & -> & P & T)|(-> & ->)].
  - destruct T as [->|[->| ->]]; destruct k; cbn; lia.
  - destruct k; cbn; lia.
Qed.
Lemma sum_app f a b : sum_of f (a ++ b) = sum_of f a + sum_of f b.
Proof. induction a; cbn; [|rewrite IHa]; lia. Qed.
Lemma work_app k a b : work k (a ++ b) = work k a + work k b.
Proof. apply sum_app. Qed.
Lemma paid_app k a b : paid k (a ++ b) = paid k a + paid k b.
Proof. apply sum_app. Qed.
Lemma work_pos k t : Forall good t -> 0 <= work k t.
Proof.
  unfold work. induction 1 as [|s t H]; cbn; [lia|]. pose proof (did_pos k s H). lia.
Qed.
Lemma paid_pos k t : Forall good t -> 0 <= paid k t.
Proof.
  unfold paid. induction 1 as [|s t H]; cbn; [lia|]. pose proof (charged_pos k s H). lia.
Qed.

(* c: credit at the start; n: slack in between *)
Definition G (c : kind -> Z) (n : Z) (t : list step) : Prop :=
  Forall good t /\ 0 <= n /\ (forall k, 0 <= c k)
  /\ (forall p s, t = p ++ s -> forall k, Z.min u64_max (work k p) <= c k + paid k p + n)
  /\ (forall k, Z.min u64_max (work k t) <= c k + paid k t).

Definition none (k : kind) : Z := 0.
Definition plus (c d : kind -> Z) (k : kind) : Z := c k + d k.

Lemma u64_pos : 0 < u64_max. Proof. reflexivity. Qed.

Lemma G_nil : G none 0 [].
Proof.
  pose proof u64_pos. unfold none.
  split; [constructor|]. split; [lia|]. split; [cbn; lia|]. split.
  - intros p s E k. destruct p; [|discriminate]. cbn. lia.
  - intros k. cbn. lia.
Qed.

Lemma G_mono c c' n n' t : G c n t -> (forall k, c k <= c' k) -> n <= n' -> G c' n' t.
Proof.
  intros (A & B & C & D & E) Hc Hn. split; [exact A|]. split; [lia|].
  split; [intros k; specialize (C k); specialize (Hc k); lia|]. split.
  - intros p s Ep k. specialize (D p s Ep k). specialize (Hc k). lia.
  - intros k. specialize (E k). specialize (Hc k). lia.
Qed.

Lemma G_app c1 c2 n a b : G c1 n a -> G c2 n b -> G (plus c1 c2) n (a ++ b).
Proof.
  intros (A & B & C & D & E) (A' & B' & C' & D' & E'). unfold plus.
  split; [apply Forall_app; auto|]. split; [exact B|].
  split; [intros k; specialize (C k); specialize (C' k); lia|]. split.
  - intros p s Ep k. pose proof u64_pos.
    assert (S : (exists s', a = p ++ s') \/ (exists p', p = a ++ p' /\ b = p' ++ s)).
    { clear - Ep. revert p Ep. induction a as [|x a IH]; intros p Ep.
      - right. exists p. auto.
      - destruct p as [|y p]; [left; exists (x :: a); auto|].
        cbn in Ep. injection Ep as <- Ep. destruct (IH p Ep) as [[s' ->]|(p' & -> & ->)].
        + left. exists s'. reflexivity.
        + right. exists p'. auto. }
    destruct S as [[s' Es]|(p' & -> & Eb)].
    + specialize (D p s' Es k). specialize (C' k). lia.
    + specialize (D' p' s Eb k). rewrite work_app, paid_app. specialize (E k).
      assert (Fp : Forall good p') by (rewrite Eb in A'; apply Forall_app in A'; tauto).
      pose proof (work_pos k a A). pose proof (work_pos k p' Fp).
      pose proof (paid_pos k p' Fp). specialize (C k). specialize (C' k). lia.
  - intros k. rewrite work_app, paid_app. specialize (E k). specialize (E' k).
    pose proof (work_pos k a A). pose proof (work_pos k b A').
    pose proof (paid_pos k a A). pose proof (paid_pos k b A').
    specialize (C k). specialize (C' k). lia.
Qed.

(* a charge adds to the credit *)
Lemma G_pay c n s t : good s -> (forall k, did k s = 0) -> (forall k, 0 <= c k) ->
  G (plus c (fun k => charged k s)) n t -> G c n (s :: t).
Proof.
  intros Hs Z0 Hc (A & B & C & D & E). pose proof u64_pos.
  split; [constructor; auto|]. split; [exact B|]. split; [exact Hc|]. split.
  - intros p s' Ep k. destruct p as [|y p]; [cbn; specialize (Hc k); lia|].
    cbn in Ep. injection Ep as <- Ep. specialize (D p s' Ep k). unfold plus in D.
    unfold work, paid in *. cbn [sum_of]. rewrite Z0. lia.
  - intros k. specialize (E k). unfold plus in E. unfold work, paid in *. cbn [sum_of]. rewrite Z0. lia.
Qed.

(* credit beyond 2^64 - 1 is no use *)
Lemma G_sat c n t : G c n t -> G (fun k => Z.min u64_max (c k)) n t.
Proof.
  intros (A & B & C & D & E). pose proof u64_pos.
  split; [exact A|]. split; [exact B|]. split; [intros k; specialize (C k); lia|]. split.
  - intros p s Ep k. specialize (D p s Ep k).
    assert (Fp : Forall good p) by (subst t; apply Forall_app in A; tauto).
    pose proof (paid_pos k p Fp). lia.
  - intros k. specialize (E k). pose proof (paid_pos k t A). lia.
Qed.

(* ------------------------------------------------------------ operations *)

Definition O {A} (c : kind -> Z) (n : Z) (m : op A) : Prop := G c n (fst m).

Lemma O_mono {A} c c' n n' (m : op A) : O c n m -> (forall k, c k <= c' k) -> n <= n' -> O c' n' m.
Proof. apply G_mono. Qed.
Lemma O_ret {A} (x : A) : O none 0 (ret x).
Proof. apply G_nil. Qed.
Lemma O_fail {A} e : O none 0 (@fail A e).
Proof. apply G_nil. Qed.
Lemma O_lift {A} (r : res A) : O none 0 (lift r).
Proof. apply G_nil. Qed.

Lemma O_bind {A B} c1 c2 n (m : op A) (f : A -> op B) :
  O c1 n m -> (forall k, 0 <= c2 k) -> (forall x, snd m = Ok x -> O c2 n (f x)) ->
  O (plus c1 c2) n (obnd m f).
Proof.
  intros H P K. unfold O, obnd. destruct (snd m) as [x|e] eqn:E.
  - apply G_app; [exact H|]. apply K. reflexivity.
  - apply (G_mono c1 _ n); [exact H| |lia]. intros k. unfold plus. specialize (P k). lia.
Qed.

Definition on (k : kind) (x : Z) (j : kind) : Z :=
  match k, j with
  | Heap, Heap | Memory, Memory | Bytes, Bytes | Objects, Objects => x
  | _, _ => 0
  end.

Lemma on_pos k x j : 0 <= x -> 0 <= on k x j.
Proof. destruct k, j; cbn; lia. Qed.

Lemma O_act s : good s -> O (fun k => did k s) 0 (act s).
Proof.
  intros Hs. pose proof u64_pos.
  assert (H0 : match s with Pay _ _ => False | _ => True end -> forall k, charged k s = 0).
  { destruct s, k; cbn; tauto. }
  destruct s as [ty i|x|x|x|x|].
  1:{ unfold O, act. cbn [fst]. replace (fun k => did k (Pay ty i)) with (fun k : kind => did k (Pay ty i)) by reflexivity.
      apply G_pay; [exact Hs|destruct k; reflexivity|destruct k; cbn; lia|].
      apply (G_mono none _ 0); [apply G_nil| |lia].
      intros k. unfold plus, none. pose proof (charged_pos k _ Hs). destruct k; cbn in *; lia. }
  all: unfold O, act; cbn [fst]; (split; [repeat constructor; exact Hs|]); (split; [lia|]);
    (split; [intros k; apply did_pos; exact Hs|]); split;
    [intros p q Ep k; destruct p as [|y p]; [pose proof (did_pos k _ Hs); cbn in *; lia|];
     cbn in Ep; injection Ep as <- Ep; destruct p; [|discriminate]; destruct k; cbn in *; lia
    |intros k; destruct k; cbn in *; lia].
Qed.

Lemma O_pay {A} c n ty x (f : unit -> op A) k :
  0 <= x -> (ty, k) = (1%nat, Heap) \/ (ty, k) = (2%nat, Memory) \/ (ty, k) = (3%nat, Bytes) ->
  (forall j, 0 <= c j) -> O (plus c (on k x)) n (f tt) -> O c n (obnd (pay ty x) f).
Proof.
  intros X T C H. unfold O, obnd, pay. cbn [fst snd app].
  apply G_pay; [left; exists x; destruct T as [E|[E|E]]; injection E as -> ->; intuition lia| |exact C|].
  - intros j. destruct j; reflexivity.
  - apply (G_mono _ _ _ _ _ H); [|lia]. intros j. unfold plus.
    destruct T as [E|[E|E]]; injection E as -> ->; destruct j; cbn; lia.
Qed.

Lemma sat_min x : 0 <= x -> sat_u64 x = Z.min u64_max x.
Proof. intros. unfold sat_u64, clamp, u64_max in *. repeat case_if; lia. Qed.

(* a saturated charge is as good as the whole *)
Lemma O_pay_sat {A} n ty x (f : unit -> op A) k :
  0 <= x -> (ty, k) = (1%nat, Heap) \/ (ty, k) = (2%nat, Memory) \/ (ty, k) = (3%nat, Bytes) ->
  O (on k x) n (f tt) -> O none n (obnd (pay ty (sat_u64 x)) f).
Proof.
  intros X T H. pose proof u64_pos. rewrite sat_min by exact X.
  apply (O_pay none n ty _ f k); [lia|exact T|unfold none; lia|].
  apply (G_mono (fun j => Z.min u64_max (on k x j)) _ n); [apply G_sat; exact H| |lia].
  intros j. unfold plus, none. destruct k, j; cbn; lia.
Qed.

(* the same for the last charge of an operation *)
Lemma O_last ty x : 0 <= x -> (ty = 1 \/ ty = 2 \/ ty = 3)%nat -> O none 0 (pay ty x).
Proof.
  intros X T. pose proof u64_pos. unfold O, pay. cbn [fst].
  apply G_pay; [left; exists x; auto|intros k; destruct k; reflexivity|unfold none; lia|].
  apply (G_mono none _ 0); [apply G_nil| |lia]. intros k. unfold plus, none.
  destruct T as [->|[->| ->]]; destruct k; cbn; lia.
Qed.

Lemma O_seq {A B} n (m : op A) (f : A -> op B) :
  O none n m -> (forall x, snd m = Ok x -> O none n (f x)) -> O none n (obnd m f).
Proof.
  intros H K. apply (O_mono (plus none none) _ n); [|unfold plus, none; lia|lia].
  apply O_bind; [exact H|unfold none; lia|exact K].
Qed.

(* ------------------------------------------------------------ under a budget *)

Lemma has_nth (l l' : list tracker) n t :
  map has_input l' = map has_input l -> nth_error l n = Some t ->
  exists t', nth_error l' n = Some t' /\ has_input t' = has_input t.
Proof.
  intros E H. assert (X : nth_error (map has_input l') n = Some (has_input t)).
  { rewrite E. apply map_nth_error. exact H. }
  destruct (nth_error l' n) as [t'|] eqn:Q.
  - exists t'. split; [reflexivity|]. rewrite (map_nth_error has_input _ _ Q) in X. congruence.
  - apply nth_error_None in Q. assert (nth_error (map has_input l') n <> None) by congruence.
    apply nth_error_Some in H0. rewrite map_length in H0. lia.
Qed.

Lemma shape_kept b b' ty i : map has_input (trackers b') = map has_input (trackers b) ->
  input_shape b ty i -> input_shape b' ty i.
Proof.
  unfold input_shape. intros E H. destruct (nth_error (trackers b) ty) as [t|] eqn:Q; [|tauto].
  destruct (has_nth _ _ _ _ E Q) as (t' & -> & X).
  rewrite <- has_input_none in *. rewrite X. exact H.
Qed.

Lemma charge_keeps b ty it i : metering b -> metering (fst (charge b ty it i)).
Proof.
  intros (A & B & C1 & C2 & C3 & C5).
  pose proof (proj1 (charge_good b ty it i A B)).
  destruct (charge_ok b ty it i A) as (_ & S & _ & _ & M & _).
  split; [assumption|]. split; [congruence|].
  repeat split; intros; eapply shape_kept; eauto.
Qed.

Lemma steps_run t : Forall good t -> forall b, metering b ->
  match take_steps b t with
  | (_, d, None) => d = t
  | (_, d, Some e) => e = ESys TBudget CExceededLimit /\ exists s, t = d ++ s
  end.
Proof.
  induction 1 as [|s t Hs Ht IH]; intros b M; cbn [take_steps]; [reflexivity|].
  assert (K : forall (s' : step),
    match (let '(b', d, e) := take_steps b t in (b', s' :: d, e)) with
    | (_, d, None) => d = s' :: t
    | (_, d, Some e) => e = ESys TBudget CExceededLimit /\ exists s, s' :: t = d ++ s
    end).
  { intros s'. specialize (IH b M). destruct (take_steps b t) as [[b' d] [e|]].
    - destruct IH as (-> & q & ->). split; [reflexivity|]. exists q. reflexivity.
    - congruence. }
  destruct s as [ty i|x|x|x|x|]; [|apply K..].
  destruct (charge b ty 1 i) as [b' r] eqn:C.
  assert (Sh : input_shape b ty i).
  { destruct M as (_ & _ & C1 & C2 & C3 & C5).
    destruct Hs as [(n & -> & _ & [->|[->| ->]])|(-> & ->)]; auto. }
  destruct r as [u|e].
  - assert (M' : metering b') by (pose proof (charge_keeps b ty 1 i M) as Q; rewrite C in Q; exact Q).
    specialize (IH b' M'). destruct (take_steps b' t) as [[b'' d] [e|]].
    + destruct IH as (-> & q & ->). split; [reflexivity|]. exists q. reflexivity.
    + congruence.
  - destruct M as (A & B & _). destruct (charge_outcome b ty 1 i A B Sh) as [X Y].
    rewrite C in X, Y. cbn [snd] in X, Y. split.
    + assert (N : Err e <> @Ok unit tt) by discriminate.
      specialize (Y (fun h => N (proj2 X h))). congruence.
    + exists t. reflexivity.
Qed.

Lemma O_pays {A} n (m : op A) r : O none n m -> snd m = r -> pays n m r.
Proof.
  intros (Gd & N & _ & P & E) R b M. unfold run_under.
  pose proof (steps_run (fst m) Gd b M) as S.
  destruct (take_steps b (fst m)) as [[b' d] [e|]].
  - destruct S as (-> & s & Es). right. split; [reflexivity|]. intros k. specialize (P d s Es k).
    unfold none in P. lia.
  - subst d. left. split; [exact R|]. intros k. specialize (E k). unfold none in E. lia.
Qed.
