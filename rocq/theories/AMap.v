(* Finite maps as association lists, with decidable keys.  They stand for the
   host's MeteredOrdMap wherever only the contents matter: P_Container.v
   (C11_any_key_type) proves that map's answers are those of a finite map. *)
From Coq Require Import List Bool.
Import ListNotations.

Section AMap.
  Context {K V : Type}.
  Variable eq_dec : forall a b : K, {a = b} + {a <> b}.

  Fixpoint aget (m : list (K * V)) (k : K) : option V :=
    match m with
    | [] => None
    | (k', v) :: m' => if eq_dec k k' then Some v else aget m' k
    end.

  Fixpoint aset (m : list (K * V)) (k : K) (v : V) : list (K * V) :=
    match m with
    | [] => [(k, v)]
    | (k', v') :: m' => if eq_dec k k' then (k, v) :: m' else (k', v') :: aset m' k v
    end.

  Fixpoint adel (m : list (K * V)) (k : K) : list (K * V) :=
    match m with
    | [] => []
    | (k', v') :: m' => if eq_dec k k' then adel m' k else (k', v') :: adel m' k
    end.

  Lemma aget_aset_eq m k v : aget (aset m k v) k = Some v.
  Proof.
    induction m as [|[k' v'] m IH]; cbn.
    - destruct (eq_dec k k); congruence.
    - destruct (eq_dec k k'); cbn; destruct (eq_dec k _); congruence.
  Qed.
  Lemma aget_aset_ne m k k' v : k' <> k -> aget (aset m k v) k' = aget m k'.
  Proof.
    intros N. induction m as [|[k0 v0] m IH]; cbn.
    - destruct (eq_dec k' k); congruence.
    - destruct (eq_dec k k0); cbn; destruct (eq_dec k' _); try congruence.
      destruct (eq_dec k' k0); congruence.
  Qed.
  Lemma aget_aset m k k' v : aget (aset m k v) k' = if eq_dec k' k then Some v else aget m k'.
  Proof. destruct (eq_dec k' k) as [->|N]; [apply aget_aset_eq|now apply aget_aset_ne]. Qed.

  Lemma aget_adel m k k' : aget (adel m k) k' = if eq_dec k' k then None else aget m k'.
  Proof.
    induction m as [|[k0 v0] m IH]; cbn.
    - now destruct (eq_dec k' k).
    - destruct (eq_dec k k0); cbn; rewrite ?IH; destruct (eq_dec k' k), (eq_dec k' k0); congruence.
  Qed.

  Lemma aget_In m k v : aget m k = Some v -> In (k, v) m.
  Proof.
    induction m as [|[k' v'] m IH]; cbn; [discriminate|]. destruct (eq_dec k k'); [|auto].
    intros [= ->]. subst. auto.
  Qed.
  Lemma aget_None m k : aget m k = None <-> ~ In k (map fst m).
  Proof.
    induction m as [|[k' v'] m IH]; cbn; [tauto|]. destruct (eq_dec k k') as [->|N].
    - split; [discriminate|tauto].
    - rewrite IH. split; intuition.
  Qed.
  Lemma aset_keys m k v k' : In k' (map fst (aset m k v)) <-> k' = k \/ In k' (map fst m).
  Proof.
    induction m as [|[k0 v0] m IH]; cbn; [intuition|]. destruct (eq_dec k k0) as [->|N]; cbn.
    - intuition congruence.
    - rewrite IH. intuition congruence.
  Qed.
  Lemma aset_NoDup m k v : NoDup (map fst m) -> NoDup (map fst (aset m k v)).
  Proof.
    induction m as [|[k0 v0] m IH]; cbn; intros D.
    - constructor; [tauto|constructor].
    - inversion D; subst. destruct (eq_dec k k0) as [->|N]; cbn; constructor; auto.
      rewrite aset_keys. intuition congruence.
  Qed.
  Lemma aget_NoDup m k v : NoDup (map fst m) -> In (k, v) m -> aget m k = Some v.
  Proof.
    induction m as [|[k0 v0] m IH]; cbn; intros D I; [destruct I|]. inversion D; subst.
    destruct (eq_dec k k0) as [->|N].
    - destruct I as [[= -> ]|I]; [reflexivity|]. exfalso. apply H1. now apply (in_map fst) in I.
    - destruct I as [[= -> ->]|I]; [congruence|auto].
  Qed.
End AMap.
