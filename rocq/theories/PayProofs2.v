(* The containers: every operation is paid for and answers as without metering. *)
From Coq Require Import ZArith Lia List Bool.
From Verif Require Import Prelude ValModel ContainerModel ContainerProofs HeapModel BudgetModel BudgetSpec BudgetProofs StorageModel PaySpec PayModel PayProofs.
Import ListNotations.
Open Scope Z_scope.
Ltac Zify.zify_post_hook ::= idtac.

(* ------------------------------------------------------------ symbolic running *)

Lemma O_zero {A} c n (x : op A) : O none 0 x -> (forall k, 0 <= c k) -> 0 <= n -> O c n x.
Proof. intros H C N. apply (O_mono none c 0 n); auto. Qed.
Lemma r_ret {A} c n (x : A) : (forall k, 0 <= c k) -> 0 <= n -> O c n (ret x).
Proof. intros. apply O_zero; auto using O_ret. Qed.
Lemma r_fail {A} c n e : (forall k, 0 <= c k) -> 0 <= n -> O c n (@fail A e).
Proof. intros. apply O_zero; auto using O_fail. Qed.
Lemma r_lift {A} c n (r : res A) : (forall k, 0 <= c k) -> 0 <= n -> O c n (lift r).
Proof. intros. apply O_zero; auto using O_lift. Qed.

Lemma r_op {A B} c n (m : op A) (f : A -> op B) :
  O none n m -> (forall k, 0 <= c k) -> (forall x, snd m = Ok x -> O c n (f x)) -> O c n (obnd m f).
Proof.
  intros H C K. apply (O_mono (plus none c) _ n); [|unfold plus, none; lia|lia].
  apply O_bind; auto.
Qed.
Lemma r_pay {A} c n ty x (f : unit -> op A) k :
  (ty, k) = (1%nat, Heap) \/ (ty, k) = (2%nat, Memory) \/ (ty, k) = (3%nat, Bytes) ->
  0 <= x -> (forall j, 0 <= c j) -> O (plus c (on k x)) n (f tt) -> O c n (obnd (pay ty x) f).
Proof. intros T X C H. apply (O_pay c n ty x f k); auto. Qed.
Lemma r_sat {A} c n ty x (f : unit -> op A) k :
  (ty, k) = (1%nat, Heap) \/ (ty, k) = (2%nat, Memory) \/ (ty, k) = (3%nat, Bytes) ->
  0 <= x -> (forall j, 0 <= c j) -> O (plus c (on k x)) n (f tt) ->
  O c n (obnd (pay ty (sat_u64 x)) f).
Proof.
  intros T X C H. pose proof u64_pos. rewrite sat_min by exact X.
  apply (O_pay c n ty _ f k); [lia|exact T|exact C|].
  apply (G_mono (fun j => Z.min u64_max (plus c (on k x) j)) _ n); [apply G_sat; exact H| |lia].
  intros j. specialize (C j). unfold plus. destruct k, j; cbn in *; lia.
Qed.
Lemma r_act {A} c n s (f : unit -> op A) :
  good s -> (forall k, did k s <= c k) -> (forall k, charged k s = 0) -> 0 <= n ->
  O (fun k => c k - did k s) n (f tt) -> O c n (obnd (act s) f).
Proof.
  intros Hs Hc Z0 N H. apply (O_mono (plus (fun k => did k s) (fun k => c k - did k s)) _ n).
  - apply O_bind.
    + apply (O_mono (fun k => did k s) _ 0); [apply O_act; exact Hs|intros; lia|exact N].
    + intros k. specialize (Hc k). lia.
    + intros [] _. exact H.
  - intros k. unfold plus. lia.
  - lia.
Qed.

Lemma snd_bind {A B} (m : op A) (f : A -> op B) : snd (obnd m f) = rbind (snd m) (fun x => snd (f x)).
Proof. unfold obnd. destruct (snd m); reflexivity. Qed.

Lemma len_pos {A} (l : list A) : 0 <= len l.
Proof. unfold len. lia. Qed.
Lemma len_cons {A} x (l : list A) : len (x :: l) = 1 + len l.
Proof. unfold len. cbn [length]. lia. Qed.
Lemma len_app {A} (l m : list A) : len (l ++ m) = len l + len m.
Proof. unfold len. rewrite app_length. lia. Qed.

Ltac kinds := let k := fresh in intros k; destruct k; unfold plus, none; cbn [on did charged]; try nia.

(* ------------------------------------------------------------ vectors *)

Section Vector.
  Context {A : Type}.
  Variables ds rs : Z.
  Hypothesis Hs : 0 <= rs <= ds.

  Lemma snd_build (l : list A) : snd (build rs l) = Ok tt.
  Proof. reflexivity. Qed.
  Lemma snd_clone (l : list A) : snd (vec_clone ds rs l) = Ok l.
  Proof. reflexivity. Qed.
  Lemma snd_deep (l : list A) : snd (charge_deep_clone ds l) = Ok tt.
  Proof. reflexivity. Qed.

  Lemma snd_iter (l : list A) : snd (from_exact_iter ds rs l) = mvec_from l.
  Proof.
    unfold from_exact_iter, mvec_from. destruct (fits_u32 (length l)) eqn:E; [|reflexivity].
    rewrite snd_bind, snd_build. cbn [rbind]. rewrite ?snd_bind, snd_deep. cbn [rbind].
    reflexivity.
  Qed.

  Lemma o_clone (l : list A) : O none 0 (vec_clone ds rs l).
  Proof.
    pose proof (len_pos l). unfold vec_clone, vec_sub, charge_heap_alloc, charge_shallow_copy, build.
    apply (r_sat _ _ _ _ _ Memory); [auto|lia|kinds|].
    unfold O, obnd, pay, act, ret. cbn [fst snd app].
    (* the remaining trace is concrete *)
    change (O (plus none (on Memory (1 * 24))) 0
      (do _ <- pay MemAlloc (sat_u64 (len l * ds)); do _ <- pay MemCpy (sat_u64 (len l * ds));
       do _ <- act (Allocate (rs * len l)); do _ <- act (Copy (24 + rs * len l)); ret l)).
    apply (r_sat _ _ _ _ _ Heap); [auto|nia|kinds|].
    apply (r_sat _ _ _ _ _ Memory); [auto|nia|kinds|].
    apply r_act; [cbn [good]; nia|kinds|kinds|lia|].
    apply r_act; [cbn [good]; nia|kinds|kinds|lia|].
    apply r_ret; [kinds|lia].
  Qed.

  (* a new container is built before it is charged *)
  Lemma g_iter (l : list A) :
    G none (24 + rs * len l) (fst (do _ <- build rs l; charge_deep_clone ds l)).
  Proof.
    pose proof (len_pos l). pose proof u64_pos.
    assert (S24 : sat_u64 (1 * 24) = 24) by reflexivity.
    cbn -[Z.mul Z.add sat_u64 u64_max]. rewrite S24.
    assert (X : sat_u64 (len l * ds) = Z.min u64_max (len l * ds)) by (apply sat_min; nia).
    assert (Y : rs * len l <= len l * ds) by nia. assert (Y0 : 0 <= rs * len l) by nia.
    rewrite X. set (a := rs * len l) in *. set (c := len l * ds) in *. clearbody a c. clear X S24.
    remember (24 + a) as b eqn:Eb.
    assert (U : 24 < u64_max) by reflexivity.
    split.
    { assert (P : forall ty n, (ty = 1 \/ ty = 2 \/ ty = 3)%nat -> 0 <= n -> good (Pay ty (Some n))).
      { intros ty n T N. left. exists n. auto. }
      repeat first [apply Forall_nil | apply Forall_cons];
        first [apply P; [auto|lia] | cbn [good]; lia]. }
    split; [lia|]. split; [unfold none; lia|]. split.
    - intros p s E k.
      destruct p as [|x1 p]; [cbn -[Z.add Z.mul Z.min u64_max]; unfold none; lia|]. injection E as <- E.
      destruct p as [|x1 p]; [destruct k; cbn -[Z.add Z.mul Z.min u64_max]; unfold none; lia|]. injection E as <- E.
      destruct p as [|x1 p]; [destruct k; cbn -[Z.add Z.mul Z.min u64_max]; unfold none; lia|]. injection E as <- E.
      destruct p as [|x1 p]; [destruct k; cbn -[Z.add Z.mul Z.min u64_max]; unfold none; lia|]. injection E as <- E.
      destruct p as [|x1 p]; [destruct k; cbn -[Z.add Z.mul Z.min u64_max]; unfold none; lia|]. injection E as <- E.
      destruct p as [|x1 p]; [destruct k; cbn -[Z.add Z.mul Z.min u64_max]; unfold none; lia|discriminate].
    - intros k. destruct k; cbn -[Z.add Z.mul Z.min u64_max]; unfold none; lia.
  Qed.

  Lemma o_iter (l : list A) n : 24 + rs * len l <= n -> O none n (from_exact_iter ds rs l).
  Proof.
    intros N. pose proof (len_pos l). unfold from_exact_iter. destruct (fits_u32 (length l)).
    - apply (O_mono none _ (24 + rs * len l)); [|lia|exact N].
      pose proof (g_iter l) as K. unfold O.
      replace (fst (do _ <- build rs l; do _ <- charge_deep_clone ds l; lift (mvec_from l)))
        with (fst (do _ <- build rs l; charge_deep_clone ds l)); [exact K|].
      unfold obnd. rewrite snd_build, snd_deep. cbn [fst lift]. rewrite app_nil_r. reflexivity.
    - apply r_fail; [kinds|nia].
  Qed.

  Definition room (l : list A) : Z := 24 + rs * (len l + 1).

  Lemma firstn_len i (l : list A) : len (firstn i l) <= len l.
  Proof. unfold len. rewrite firstn_length. lia. Qed.
  Lemma skipn_len i (l : list A) : len (skipn i l) = Z.max 0 (len l - Z.of_nat i).
  Proof. unfold len. rewrite skipn_length. lia. Qed.
  Lemma firstn_len_eq i (l : list A) : len (firstn i l) = Z.min (Z.of_nat i) (len l).
  Proof. unfold len. rewrite firstn_length. lia. Qed.

  Ltac access :=
    apply (r_sat _ _ _ _ _ Memory); [auto|nia|kinds|];
    apply r_op; [apply O_lift|kinds|intros ? _];
    apply r_act; [cbn [good]; lia|kinds|kinds|lia|];
    apply r_ret; [kinds|lia].

  Lemma o_get (l : list A) i : O none 0 (mv_get ds rs l i).
  Proof. unfold mv_get, charge_access. access. Qed.
  Lemma o_front (l : list A) : O none 0 (mv_front ds rs l).
  Proof. unfold mv_front, charge_access. access. Qed.
  Lemma o_back (l : list A) : O none 0 (mv_back ds rs l).
  Proof. unfold mv_back, charge_access. access. Qed.
  Lemma o_set (l : list A) i x : O none 0 (mv_set ds rs l i x).
  Proof. unfold mv_set, charge_access. apply r_op; [apply o_clone|kinds|intros new _]. access. Qed.

  Lemma s_get (l : list A) i : snd (mv_get ds rs l i) = mvec_get l i.
  Proof. unfold mv_get. rewrite !snd_bind. cbn. destruct (mvec_get l i); reflexivity. Qed.
  Lemma s_front (l : list A) : snd (mv_front ds rs l) = mvec_front l.
  Proof. unfold mv_front. rewrite !snd_bind. cbn. destruct (mvec_front l); reflexivity. Qed.
  Lemma s_back (l : list A) : snd (mv_back ds rs l) = mvec_back l.
  Proof. unfold mv_back. rewrite !snd_bind. cbn. destruct (mvec_back l); reflexivity. Qed.
  Lemma s_set (l : list A) i x : snd (mv_set ds rs l i x) = mvec_set l i x.
  Proof. unfold mv_set. rewrite !snd_bind, snd_clone. cbn. destruct (mvec_set l i x); reflexivity. Qed.

  Ltac small := first [apply r_fail; [kinds|pose proof (len_pos [0]); unfold room; nia]].

  Lemma room_pos (l : list A) : 0 <= room l.
  Proof. unfold room. pose proof (len_pos l). nia. Qed.

  Lemma o_push_front (l : list A) x : O none (room l) (mv_push_front ds rs l x).
  Proof.
    pose proof (room_pos l). unfold mv_push_front. destruct (is_u32_max _); [apply r_fail; [kinds|lia]|].
    apply o_iter. cbn [app]. rewrite len_cons. unfold room. lia.
  Qed.
  Lemma s_push_front (l : list A) x : snd (mv_push_front ds rs l x) = mvec_push_front l x.
  Proof.
    unfold mv_push_front, mvec_push_front. destruct (is_u32_max _); [reflexivity|apply snd_iter].
  Qed.
  Lemma o_push_back (l : list A) x : O none (room l) (mv_push_back ds rs l x).
  Proof.
    pose proof (room_pos l). unfold mv_push_back. destruct (is_u32_max _); [apply r_fail; [kinds|lia]|].
    apply o_iter. rewrite len_app. unfold room. change (len [x]) with 1. lia.
  Qed.
  Lemma s_push_back (l : list A) x : snd (mv_push_back ds rs l x) = mvec_push_back l x.
  Proof.
    unfold mv_push_back, mvec_push_back. destruct (is_u32_max _); [reflexivity|apply snd_iter].
  Qed.
  Lemma o_pop_front (l : list A) : O none (room l) (mv_pop_front ds rs l).
  Proof.
    pose proof (room_pos l). unfold mv_pop_front. destruct l as [|y l]; [apply r_fail; [kinds|lia]|].
    apply o_iter. cbn [skipn]. unfold room. rewrite len_cons. nia.
  Qed.
  Lemma s_pop_front (l : list A) : snd (mv_pop_front ds rs l) = mvec_pop_front l.
  Proof. unfold mv_pop_front, mvec_pop_front. destruct l; [reflexivity|apply snd_iter]. Qed.
  Lemma o_pop_back (l : list A) : O none (room l) (mv_pop_back ds rs l).
  Proof.
    pose proof (room_pos l). unfold mv_pop_back. destruct l as [|y l]; [apply r_fail; [kinds|lia]|].
    apply r_op; [apply O_zero; [apply O_lift|kinds|lia]|kinds|intros n _].
    apply o_iter. pose proof (firstn_len n (y :: l)). unfold room. nia.
  Qed.
  Lemma s_pop_back (l : list A) : snd (mv_pop_back ds rs l) = mvec_pop_back l.
  Proof.
    unfold mv_pop_back, mvec_pop_back. destruct l; [reflexivity|]. rewrite snd_bind. cbn [snd lift].
    destruct (sub_or_err _ 1); [apply snd_iter|reflexivity].
  Qed.
  Lemma o_remove (l : list A) i : O none (room l) (mv_remove ds rs l i).
  Proof.
    pose proof (room_pos l). unfold mv_remove. destruct (Nat.leb _ _); [apply r_fail; [kinds|lia]|].
    apply r_op; [apply O_zero; [apply O_lift|kinds|lia]|kinds|intros s Es].
    assert (s = i + 1)%nat.
    { cbn in Es. unfold add_or_err in Es. destruct (fits_u32 _); congruence. }
    subst s. apply o_iter. rewrite len_app, firstn_len_eq, skipn_len. unfold room. nia.
  Qed.
  Lemma s_remove (l : list A) i : snd (mv_remove ds rs l i) = mvec_remove l i.
  Proof.
    unfold mv_remove, mvec_remove. destruct (Nat.leb _ _); [reflexivity|]. rewrite snd_bind. cbn [snd lift].
    destruct (add_or_err i 1); [apply snd_iter|reflexivity].
  Qed.
  Lemma o_insert (l : list A) i x : O none (room l) (mv_insert ds rs l i x).
  Proof.
    pose proof (room_pos l). unfold mv_insert. destruct (is_u32_max _); [apply r_fail; [kinds|lia]|].
    destruct (Nat.ltb _ _); [apply r_fail; [kinds|lia]|].
    destruct (Nat.eqb i (length l)); [apply o_push_back|].
    destruct (Nat.eqb i 0); [apply o_push_front|].
    apply o_iter. rewrite len_app. cbn [app]. rewrite len_cons, firstn_len_eq, skipn_len. unfold room. nia.
  Qed.
  Lemma s_insert (l : list A) i x : snd (mv_insert ds rs l i x) = mvec_insert l i x.
  Proof.
    unfold mv_insert, mvec_insert. destruct (is_u32_max _); [reflexivity|].
    destruct (Nat.ltb _ _); [reflexivity|].
    destruct (Nat.eqb i (length l)); [apply s_push_back|].
    destruct (Nat.eqb i 0); [apply s_push_front|]. apply snd_iter.
  Qed.
  Lemma o_append (l m : list A) : O none (24 + rs * (len l + len m)) (mv_append ds rs l m).
  Proof.
    pose proof (len_pos l). pose proof (len_pos m). unfold mv_append.
    apply r_op; [apply O_zero; [apply O_lift|kinds|nia]|kinds|intros s _].
    apply o_iter. rewrite len_app. lia.
  Qed.
  Lemma s_append (l m : list A) : snd (mv_append ds rs l m) = mvec_append l m.
  Proof.
    unfold mv_append, mvec_append. rewrite snd_bind. cbn [snd lift].
    destruct (add_or_err _ _); [apply snd_iter|reflexivity].
  Qed.
  Lemma o_slice (l : list A) s e : O none (room l) (mv_slice ds rs l s e).
  Proof.
    pose proof (room_pos l). unfold mv_slice. destruct (_ && _); [|apply r_fail; [kinds|lia]].
    apply o_iter. rewrite firstn_len_eq, skipn_len. unfold room. pose proof (len_pos l). apply Z.add_le_mono_l, Z.mul_le_mono_nonneg_l; lia.
  Qed.
  Lemma s_slice (l : list A) s e : snd (mv_slice ds rs l s e) = mvec_slice l s e.
  Proof. unfold mv_slice, mvec_slice. destruct (_ && _); [apply snd_iter|reflexivity]. Qed.

  (* ---------------------------------------------------------- searches *)

  Variable f : A -> op comparison.

  Lemma o_scan (l : list A) : (forall x, In x l -> O none 0 (f x)) -> forall b, O (on Memory (rs * len l)) 0 (scan_from rs f l b).
  Proof.
    induction l as [|x l IH]; intros Hf b; cbn [scan_from].
    - apply r_ret; [pose proof (len_pos (@nil A)); kinds|lia].
    - pose proof (len_pos l). rewrite len_cons.
      apply r_act; [cbn [good]; lia|kinds|kinds|lia|].
      apply r_op; [apply Hf; left; reflexivity|kinds|intros c _].
      destruct c; [apply r_ret; [kinds|lia]|..];
        (apply (O_mono (on Memory (rs * len l)) _ 0); [apply IH; intros; apply Hf; right; assumption|kinds|lia]).
  Qed.
  Lemma o_scan_back (l : list A) : (forall x, In x l -> O none 0 (f x)) -> forall b, O (on Memory (rs * len l)) 0 (scan_back rs f l b).
  Proof.
    induction l as [|x l IH]; intros Hf b; cbn [scan_back].
    - apply r_ret; [pose proof (len_pos (@nil A)); kinds|lia].
    - pose proof (len_pos l). rewrite len_cons.
      apply r_act; [cbn [good]; lia|kinds|kinds|lia|].
      apply r_op; [apply Hf; left; reflexivity|kinds|intros c _].
      destruct c; [apply r_ret; [kinds|lia]|..];
        (apply (O_mono (on Memory (rs * len l)) _ 0); [apply IH; intros; apply Hf; right; assumption|kinds|lia]).
  Qed.
  Lemma o_first (l : list A) : (forall x, In x l -> O none 0 (f x)) -> O none 0 (mv_first_index_of ds rs f l).
  Proof.
    intros Hf. pose proof (len_pos l). unfold mv_first_index_of, charge_scan.
    apply (r_sat _ _ _ _ _ Memory); [auto|nia|kinds|].
    apply (O_mono (on Memory (rs * len l)) _ 0); [apply o_scan; exact Hf|kinds|lia].
  Qed.
  Lemma o_last (l : list A) : (forall x, In x l -> O none 0 (f x)) -> O none 0 (mv_last_index_of ds rs f l).
  Proof.
    intros Hf. pose proof (len_pos l). unfold mv_last_index_of, charge_scan.
    apply (r_sat _ _ _ _ _ Memory); [auto|nia|kinds|].
    apply (O_mono (on Memory (rs * len (rev l))) _ 0); [apply o_scan_back; intros x Hx; apply Hf, in_rev, Hx| |lia].
    unfold len. rewrite rev_length. fold (len l). kinds.
  Qed.
  Lemma s_scan (l : list A) : forall b,
    snd (scan_from rs f l b) = first_index_from (fun x => snd (f x)) l b.
  Proof.
    induction l as [|x l IH]; intros b; cbn [scan_from first_index_from]; [reflexivity|].
    rewrite !snd_bind. cbn [snd act rbind]. rewrite ?snd_bind. destruct (snd (f x)) as [c|e]; [|reflexivity].
    cbn [rbind]. destruct c; [reflexivity|apply IH..].
  Qed.
  Lemma s_scan_back (l : list A) : forall b,
    snd (scan_back rs f l b) = last_index_from (fun x => snd (f x)) l b.
  Proof.
    induction l as [|x l IH]; intros b; cbn [scan_back last_index_from]; [reflexivity|].
    rewrite !snd_bind. cbn [snd act rbind]. rewrite ?snd_bind. destruct (snd (f x)) as [c|e]; [|reflexivity].
    cbn [rbind]. destruct c; [reflexivity|apply IH..].
  Qed.
  Lemma s_first (l : list A) : snd (mv_first_index_of ds rs f l) = mvec_first_index_of (fun x => snd (f x)) l.
  Proof. unfold mv_first_index_of. rewrite snd_bind. cbn. apply s_scan. Qed.
  Lemma s_last (l : list A) : snd (mv_last_index_of ds rs f l) = mvec_last_index_of (fun x => snd (f x)) l.
  Proof. unfold mv_last_index_of. rewrite snd_bind. cbn. apply s_scan_back. Qed.

  Definition probes (n : nat) : nat := match n with 0%nat => 0 | _ => S (Nat.log2 n) end.
  Lemma probes_half s n : (s <= n / 2 -> 0 < n -> S (probes s) <= probes n)%nat.
  Proof.
    intros H P. unfold probes. destruct n as [|n]; [lia|]. destruct s as [|s]; [lia|].
    assert (2 <= S n)%nat by (destruct n; cbn in H; lia).
    apply le_n_S. rewrite <- (Nat.log2_double (S s)) by lia. apply Nat.log2_le_mono.
    pose proof (Nat.mul_div_le (S n) 2). lia.
  Qed.
  Lemma o_probe (l : list A) : (forall x, In x l -> O none 0 (f x)) -> forall fuel size left right, size = (right - left)%nat ->
    O (on Memory (rs * Z.of_nat (probes size))) 0 (probe rs f l fuel size left right).
  Proof.
    intros Hf. induction fuel as [|fuel IH]; intros size left right E; cbn [probe].
    { apply r_fail; [kinds|lia]. }
    destruct (Nat.ltb left right) eqn:LT; [|apply r_ret; [kinds|lia]].
    apply Nat.ltb_lt in LT. cbv zeta. destruct (nth_error l _) as [x|] eqn:Ex; [|apply r_fail; [kinds|lia]].
    apply nth_error_In in Ex.
    assert (D : (size / 2 < size)%nat) by (apply Nat.div_lt; lia).
    assert (D2 : (size - size / 2 - 1 <= size / 2)%nat).
    { pose proof (Nat.div_mod size 2 ltac:(lia)). pose proof (Nat.mod_upper_bound size 2). lia. }
    pose proof (probes_half (size / 2) size (le_n _) ltac:(lia)) as P0.
    apply r_act; [cbn [good]; lia| |kinds|lia|].
    { kinds. }
    apply r_op; [apply Hf, Ex|kinds|intros c _].
    destruct c; [apply r_ret; [kinds|lia]|..].
    - pose proof (probes_half (right - (left + size / 2 + 1)) size ltac:(lia) ltac:(lia)) as P1.
      apply (O_mono (on Memory (rs * Z.of_nat (probes (right - (left + size / 2 + 1))))) _ 0);
        [apply IH; reflexivity|kinds|lia].
    - pose proof (probes_half (left + size / 2 - left) size ltac:(lia) ltac:(lia)) as P1.
      apply (O_mono (on Memory (rs * Z.of_nat (probes (left + size / 2 - left)))) _ 0);
        [apply IH; reflexivity|kinds|lia].
  Qed.
  Lemma probes_bits n : Z.of_nat (probes n) <= 1 + bits (Z.of_nat n) /\ 0 <= bits (Z.of_nat n).
  Proof.
    unfold probes, bits. destruct n as [|n]; [cbn; lia|].
    replace (Z.of_nat (S n) =? 0) with false by (symmetry; apply Z.eqb_neq; lia).
    assert (E : Z.of_nat (Nat.log2 (S n)) = Z.log2 (Z.of_nat (S n))).
    { symmetry. apply Z.log2_unique; [lia|].
      destruct (Nat.log2_spec (S n) ltac:(lia)) as [U V].
      rewrite <- Nat2Z.inj_succ. change 2 with (Z.of_nat 2). rewrite <- !Nat2Z.inj_pow. lia. }
    rewrite <- E. lia.
  Qed.
  Lemma o_search (l : list A) : (forall x, In x l -> O none 0 (f x)) -> O none 0 (mv_binary_search ds rs f l).
  Proof.
    intros Hf. unfold mv_binary_search, charge_binsearch. destruct (probes_bits (length l)) as [P P0].
    fold (len l) in P, P0.
    apply (r_sat _ _ _ _ _ Memory); [auto|nia|kinds|].
    apply (O_mono (on Memory (rs * Z.of_nat (probes (length l)))) _ 0); [apply o_probe; [exact Hf|lia]|kinds|lia].
  Qed.
  Lemma s_probe (l : list A) : forall fuel size left right,
    snd (probe rs f l fuel size left right) = snd (bsearch_loop (fun x => snd (f x)) l fuel size left right).
  Proof.
    induction fuel as [|fuel IH]; intros size left right; cbn [probe bsearch_loop]; [reflexivity|].
    destruct (Nat.ltb left right); [|reflexivity]. cbv zeta.
    destruct (nth_error l _) as [x|]; [|reflexivity].
    rewrite !snd_bind. cbn [snd act rbind]. rewrite ?snd_bind. destruct (snd (f x)) as [c|e]; [|reflexivity].
    cbn [rbind]. destruct c; [reflexivity|..]; rewrite IH; destruct (bsearch_loop _ _ _ _ _ _); reflexivity.
  Qed.
  Lemma s_search (l : list A) : snd (mv_binary_search ds rs f l) = bsearch (fun x => snd (f x)) l.
  Proof. unfold mv_binary_search. rewrite snd_bind. cbn [snd charge_binsearch pay rbind]. apply s_probe. Qed.
End Vector.

Section Elems.
  Context {A : Type}.
  Variables ds rs : Z.
  Hypothesis Hs : 0 <= rs <= ds.
  Variable f : A -> A -> op comparison.

  Lemma o_elems (a : list A) : forall b,
    (forall x y, In x a -> O none 0 (f x y)) -> O (on Memory (rs * Z.min (len a) (len b))) 0 (cmp_elems rs f a b).
  Proof.
    assert (Z0 : len (@nil A) = 0) by reflexivity.
    induction a as [|x a IH]; intros [|y b] Hf; cbn [cmp_elems].
    - apply r_ret; [kinds|lia].
    - pose proof (len_pos b). rewrite len_cons. apply r_ret; [kinds|lia].
    - pose proof (len_pos a). rewrite len_cons. apply r_ret; [kinds|lia].
    - pose proof (len_pos a). pose proof (len_pos b). rewrite !len_cons.
      apply r_act; [cbn [good]; lia|kinds|kinds|lia|].
      apply r_op; [apply Hf; left; reflexivity|kinds|intros c _].
      destruct c; [|apply r_ret; [kinds|lia]..].
      apply (O_mono (on Memory (rs * Z.min (len a) (len b))) _ 0); [apply IH|kinds|lia].
      intros. apply Hf. right. assumption.
  Qed.
  Lemma s_elems (a : list A) : forall b,
    snd (cmp_elems rs f a b) = cmp_list (fun x y => snd (f x y)) a b.
  Proof.
    induction a as [|x a IH]; intros [|y b]; cbn [cmp_elems cmp_list]; try reflexivity.
    rewrite snd_bind. cbn [snd act rbind]. rewrite ?snd_bind. destruct (snd (f x y)) as [c|e]; [|reflexivity].
    cbn [rbind]. destruct c; [apply IH|reflexivity..].
  Qed.
  Lemma o_mv_compare (a b : list A) : (forall x y, In x a -> O none 0 (f x y)) ->
    O none 0 (mv_compare ds rs f a b).
  Proof.
    intros Hf. pose proof (len_pos a). pose proof (len_pos b). unfold mv_compare.
    apply (r_sat _ _ _ _ _ Memory); [auto|nia|kinds|].
    apply (r_sat _ _ _ _ _ Bytes); [auto|nia|kinds|].
    apply (O_mono (on Memory (rs * Z.min (len a) (len b))) _ 0); [apply o_elems; exact Hf|kinds|lia].
  Qed.
  Lemma s_mv_compare (a b : list A) : snd (mv_compare ds rs f a b) = cmp_list (fun x y => snd (f x y)) a b.
  Proof. unfold mv_compare. rewrite snd_bind. cbn [snd pay rbind]. rewrite ?snd_bind. cbn [snd pay rbind]. apply s_elems. Qed.
  Lemma o_scvec (a b : list A) : (forall x y, In x a -> O none 0 (f x y)) ->
    O none 0 (mcmp_scvec ds rs f a b).
  Proof.
    intros Hf. pose proof (len_pos a). pose proof (len_pos b). unfold mcmp_scvec.
    apply (r_sat _ _ _ _ _ Memory); [auto|nia|kinds|].
    apply (O_mono (on Memory (rs * Z.min (len a) (len b))) _ 0); [apply o_elems; exact Hf|kinds|lia].
  Qed.
  Lemma s_scvec (a b : list A) : snd (mcmp_scvec ds rs f a b) = cmp_list (fun x y => snd (f x y)) a b.
  Proof. unfold mcmp_scvec. rewrite snd_bind. cbn [snd pay rbind]. apply s_elems. Qed.
End Elems.

(* ------------------------------------------------------------ sorted maps *)

Section OrdMap.
  Context {K V : Type}.
  Variables ds rs vds vrs : Z.
  Hypothesis Hs : 0 <= rs <= ds.
  Hypothesis Hv : 0 <= vrs <= vds.
  Variable cmp : K -> K -> op comparison.
  Variable P : K -> Prop.
  Hypothesis Hf : forall x y, P x -> O none 0 (cmp x y).
  Let all (m : list (K * V)) := Forall (fun p => P (fst p)) m.
  Let rcmp x y := snd (cmp x y).

  Lemma o_windows (l : list (K * V)) : all l -> O (on Memory (rs * len l)) 0 (windows rs cmp l).
  Proof.
    induction l as [|a l IH]; intros Ha; cbn [windows].
    - apply r_ret; [pose proof (len_pos (@nil (K * V))); kinds|lia].
    - pose proof (len_pos l). rewrite len_cons.
      apply r_act; [cbn [good]; lia|kinds|kinds|lia|].
      destruct l as [|b l]; [apply r_ret; [kinds|lia]|].
      apply r_op; [apply Hf, (Forall_inv Ha)|kinds|intros c _].
      destruct c; [apply r_fail; [kinds|lia]| |apply r_fail; [kinds|lia]].
      apply (O_mono (on Memory (rs * len (b :: l))) _ 0); [apply IH, (Forall_inv_tail Ha)|kinds|lia].
  Qed.
  Lemma s_windows (l : list (K * V)) : snd (windows rs cmp l) = check_sorted rcmp l.
  Proof.
    induction l as [|a l IH]; cbn [windows check_sorted]; [reflexivity|].
    rewrite snd_bind. cbn [snd act rbind]. destruct l as [|b l]; [reflexivity|].
    rewrite snd_bind. unfold rcmp at 1. destruct (snd (cmp (fst a) (fst b))) as [c|e]; [|reflexivity].
    cbn [rbind]. destruct c; [reflexivity|exact IH|reflexivity].
  Qed.
  Lemma o_from_map (l : list (K * V)) : all l -> O none 0 (mm_from_map ds rs cmp l).
  Proof.
    intros Ha. pose proof (len_pos l). unfold mm_from_map. destruct (fits_u32 _); [|apply r_fail; [kinds|lia]].
    unfold charge_scan. apply (r_sat _ _ _ _ _ Memory); [auto|nia|kinds|].
    apply (O_mono (plus (on Memory (rs * len l)) none) _ 0); [|kinds|lia].
    apply O_bind; [apply o_windows; exact Ha|kinds|intros [] _]. apply O_ret.
  Qed.
  Lemma s_from_map (l : list (K * V)) : snd (mm_from_map ds rs cmp l) = omap_from rcmp l.
  Proof.
    unfold mm_from_map, omap_from. destruct (fits_u32 _); [|reflexivity].
    rewrite snd_bind. cbn [snd charge_scan pay rbind]. rewrite ?snd_bind, s_windows. reflexivity.
  Qed.
  Lemma o_mm_iter (l : list (K * V)) n : all l -> 24 + rs * len l <= n -> O none n (mm_from_exact_iter ds rs cmp l).
  Proof.
    intros Ha N. pose proof (len_pos l). unfold mm_from_exact_iter. destruct (fits_u32 _); [|apply r_fail; [kinds|nia]].
    assert (E : O none n (do _ <- (do _ <- build rs l; charge_deep_clone ds l); mm_from_map ds rs cmp l)).
    { apply r_op; [|kinds|].
      - apply (O_mono none _ (24 + rs * len l)); [|lia|exact N]. apply (g_iter ds rs Hs).
      - intros x _. apply O_zero; [apply o_from_map; exact Ha|kinds|nia]. }
    unfold O in *. replace (fst (do _ <- build rs l; do _ <- charge_deep_clone ds l; mm_from_map ds rs cmp l))
      with (fst (do _ <- (do _ <- build rs l; charge_deep_clone ds l); mm_from_map ds rs cmp l)); [exact E|].
    unfold obnd. rewrite (snd_build rs), (snd_deep ds). cbn [fst snd]. rewrite app_assoc. reflexivity.
  Qed.
  Lemma s_mm_iter (l : list (K * V)) : snd (mm_from_exact_iter ds rs cmp l) = omap_from rcmp l.
  Proof.
    unfold mm_from_exact_iter. destruct (fits_u32 (length l)) eqn:E.
    - rewrite snd_bind, (snd_build rs). cbn [rbind]. rewrite ?snd_bind, (snd_deep ds). cbn [rbind]. apply s_from_map.
    - unfold omap_from. rewrite E. reflexivity.
  Qed.
  Lemma o_find (m : list (K * V)) k : all m -> O none 0 (mm_find ds rs cmp m k).
  Proof. intros Ha. apply o_search; [exact Hs|]. intros x Hx. apply Hf. exact (proj1 (Forall_forall _ _) Ha x Hx). Qed.
  Lemma s_find (m : list (K * V)) k : snd (mm_find ds rs cmp m k) = omap_find rcmp m k.
  Proof. apply s_search. Qed.

  Definition mroom (l : list (K * V)) : Z := 24 + rs * (len l + 1).
  Lemma mroom_pos l : 0 <= mroom l.
  Proof. unfold mroom. pose proof (len_pos l). nia. Qed.

  Lemma o_contains (m : list (K * V)) k : all m -> O none 0 (mm_contains ds rs cmp m k).
  Proof. intros Ha. unfold mm_contains. apply r_op; [apply o_find, Ha|kinds|intros r _]. apply O_ret. Qed.
  Lemma s_contains (m : list (K * V)) k : snd (mm_contains ds rs cmp m k) = omap_contains rcmp m k.
  Proof. unfold mm_contains. rewrite snd_bind, s_find. reflexivity. Qed.
  Lemma o_at (m : list (K * V)) i : O none 0 (mm_at ds rs m i).
  Proof.
    unfold mm_at, charge_access. apply (r_sat _ _ _ _ _ Memory); [auto|nia|kinds|].
    apply r_op; [apply O_lift|kinds|intros x _].
    apply r_act; [cbn [good]; lia|kinds|kinds|lia|]. apply r_ret; [kinds|lia].
  Qed.
  Lemma s_at (m : list (K * V)) i : snd (mm_at ds rs m i) = omap_at m i.
  Proof. unfold mm_at. rewrite !snd_bind. cbn [snd charge_access pay rbind]. rewrite ?snd_bind. cbn. destruct (omap_at m i); reflexivity. Qed.
  Lemma o_mm_get (m : list (K * V)) k : all m -> O none 0 (mm_get ds rs cmp m k).
  Proof.
    intros Ha. unfold mm_get. apply r_op; [apply o_find, Ha|kinds|intros r _]. destruct r; [|apply O_ret].
    unfold charge_access. apply (r_sat _ _ _ _ _ Memory); [auto|nia|kinds|].
    destruct (nth_error m i) as [[a v]|]; [|apply r_fail; [kinds|lia]].
    apply r_act; [cbn [good]; lia|kinds|kinds|lia|]. apply r_ret; [kinds|lia].
  Qed.
  Lemma s_mm_get (m : list (K * V)) k : snd (mm_get ds rs cmp m k) = omap_get rcmp m k.
  Proof.
    unfold mm_get, omap_get. rewrite snd_bind, s_find. destruct (omap_find rcmp m k) as [r|]; [|reflexivity].
    cbn [rbind]. destruct r; [|reflexivity]. rewrite snd_bind. cbn. destruct (nth_error m i) as [[a v]|]; reflexivity.
  Qed.
  Lemma all_app a b : all a -> all b -> all (a ++ b).
  Proof. intros. apply Forall_app. split; assumption. Qed.
  Lemma all_first n a : all a -> all (firstn n a).
  Proof. intros H. unfold all in H. rewrite <- (firstn_skipn n a) in H. apply Forall_app in H. exact (proj1 H). Qed.
  Lemma all_skip n a : all a -> all (skipn n a).
  Proof. intros H. unfold all in H. rewrite <- (firstn_skipn n a) in H. apply Forall_app in H. exact (proj2 H). Qed.
  Lemma o_mm_insert (m : list (K * V)) k v : all m -> P k -> O none (mroom m) (mm_insert ds rs cmp m k v).
  Proof.
    intros Ha Hk. pose proof (mroom_pos m). unfold mm_insert, charge_access.
    apply (r_sat _ _ _ _ _ Memory); [auto|nia|kinds|].
    apply (O_mono none _ (mroom m)); [|kinds|lia].
    apply r_op; [apply O_zero; [apply o_find, Ha|kinds|lia]|kinds|intros r _].
    destruct r as [i|i].
    - apply o_mm_iter; [repeat first [apply all_app; [apply all_first, Ha|] | apply Forall_cons; [exact Hk|] | apply all_skip, Ha]|]. rewrite len_app. cbn [app]. rewrite len_cons, firstn_len_eq, skipn_len. unfold mroom. nia.
    - destruct (is_u32_max _); [apply r_fail; [kinds|lia]|].
      apply o_mm_iter; [repeat first [apply all_app; [apply all_first, Ha|] | apply Forall_cons; [exact Hk|] | apply all_skip, Ha]|]. rewrite len_app. cbn [app]. rewrite len_cons, firstn_len_eq, skipn_len. unfold mroom. nia.
  Qed.
  Lemma s_mm_insert (m : list (K * V)) k v : snd (mm_insert ds rs cmp m k v) = omap_insert rcmp m k v.
  Proof.
    unfold mm_insert, omap_insert. rewrite snd_bind. cbn [snd charge_access pay rbind].
    rewrite snd_bind, s_find. destruct (omap_find rcmp m k) as [r|]; [|reflexivity].
    cbn [rbind]. destruct r; [apply s_mm_iter|]. destruct (is_u32_max _); [reflexivity|apply s_mm_iter].
  Qed.
  Lemma o_mm_remove (m : list (K * V)) k : all m -> O none (mroom m) (mm_remove ds rs vds vrs cmp m k).
  Proof.
    intros Ha. pose proof (mroom_pos m). unfold mm_remove.
    apply r_op; [apply O_zero; [apply o_find, Ha|kinds|lia]|kinds|intros r _].
    destruct r as [i|i]; [|apply r_ret; [kinds|lia]].
    apply r_op; [|kinds|intros new _].
    - destruct (Nat.ltb 0 i).
      + apply o_mm_iter; [apply all_app; [apply all_first, Ha|apply all_skip, Ha]|]. rewrite len_app, firstn_len_eq, skipn_len. unfold mroom. nia.
      + apply o_mm_iter; [apply all_skip, Ha|]. rewrite skipn_len. unfold mroom. pose proof (len_pos m). nia.
    - destruct (nth_error m i) as [[a v]|]; [|apply r_fail; [kinds|lia]].
      unfold charge_shallow_copy. apply (r_sat _ _ _ _ _ Memory); [auto|nia|kinds|].
      apply r_act; [cbn [good]; lia|kinds|kinds|lia|]. apply r_ret; [kinds|lia].
  Qed.
  Lemma s_mm_remove (m : list (K * V)) k : snd (mm_remove ds rs vds vrs cmp m k) = omap_remove rcmp m k.
  Proof.
    unfold mm_remove, omap_remove. rewrite snd_bind, s_find. destruct (omap_find rcmp m k) as [r|]; [|reflexivity].
    cbn [rbind]. destruct r; [|reflexivity]. rewrite snd_bind.
    destruct (Nat.ltb 0 i); rewrite s_mm_iter;
      (destruct (omap_from rcmp _); [|reflexivity]); cbn [rbind];
      destruct (nth_error m i) as [[a1 v1]|]; reflexivity.
  Qed.
  Lemma o_iter_all (m : list (K * V)) : O none 0 (mm_iter ds rs m).
  Proof.
    pose proof (len_pos m). unfold mm_iter, charge_scan.
    apply (r_sat _ _ _ _ _ Memory); [auto|nia|kinds|].
    apply r_act; [cbn [good]; nia|kinds|kinds|lia|]. apply r_ret; [kinds|lia].
  Qed.
  Lemma o_collect {A} (pick : K * V -> A) eds ers (m : list (K * V)) : 0 <= ers <= eds ->
    O none (24 + ers * len m) (mm_collect ds rs pick eds ers m).
  Proof.
    intros He. pose proof (len_pos m). unfold mm_collect.
    apply r_op; [apply O_zero; [apply o_iter_all|kinds|nia]|kinds|intros l El].
    injection El as <-. apply o_iter; [exact He|]. unfold len. rewrite map_length. lia.
  Qed.
  Lemma s_collect {A} (pick : K * V -> A) eds ers (m : list (K * V)) :
    snd (mm_collect ds rs pick eds ers m) = mvec_from (map pick m).
  Proof. unfold mm_collect. rewrite snd_bind. cbn [snd mm_iter charge_scan pay obnd act ret rbind]. apply snd_iter. Qed.
End OrdMap.
