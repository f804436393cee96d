(* Linear memory: exact effects of the memory functions. *)
From Coq Require Import ZArith Lia List Bool.
From Verif Require Import Prelude ValModel ValSpec ValProofs SymbolProofs GuestProofs ContainerModel ContainerSpec ContainerProofs HeapModel HeapSpec TreeProofs HeapProofs ConvProofs HeapProofs2
  SeqProofs MapFnProofs SeqSpecProofs HostFnModel HostFnSpec HostFnProofs HostFnProofs2 GuestModel GuestSpec GuestHandles GuestCalls.
Import ListNotations.
Open Scope Z_scope.
Ltac Zify.zify_post_hook ::= Z.div_mod_to_equations.

(* ------------------------------------------------------------ byte lists *)

Lemma at_app a b p : 0 <= p -> at_ (a ++ b) p = if p <? Z.of_nat (length a) then at_ a p else at_ b (p - Z.of_nat (length a)).
Proof.
  intros P. unfold at_. destruct (Z.ltb_spec p (Z.of_nat (length a))).
  - rewrite app_nth1 by lia. reflexivity.
  - rewrite app_nth2 by lia. f_equal. lia.
Qed.
Lemma at_firstn n m p : 0 <= p < Z.of_nat n -> at_ (firstn n m) p = at_ m p.
Proof.
  intros P. unfold at_. assert (L : (Z.to_nat p < n)%nat) by lia. clear P. revert m L. generalize (Z.to_nat p). intros k. revert n.
  induction k as [|k IH]; intros [|n] [|x m] L; cbn; auto; try lia. apply IH. lia.
Qed.
Lemma at_skipn n m p : 0 <= p -> at_ (skipn n m) p = at_ m (Z.of_nat n + p).
Proof.
  intros P. unfold at_. replace (Z.to_nat (Z.of_nat n + p)) with (n + Z.to_nat p)%nat by lia.
  revert m. induction n as [|n IH]; intros m; cbn; auto. destruct m; cbn; auto. now destruct (Z.to_nat p).
Qed.
Lemma at_out m p : Z.of_nat (length m) <= p -> at_ m p = 0.
Proof. intros P. unfold at_. apply nth_overflow. lia. Qed.
Lemma list_at_eq a b : length a = length b -> (forall k, 0 <= k < Z.of_nat (length a) -> at_ a k = at_ b k) -> a = b.
Proof.
  intros L H. apply (nth_ext a b 0 0 L). intros n N. specialize (H (Z.of_nat n) ltac:(lia)). unfold at_ in H. now rewrite Nat2Z.id in H.
Qed.

Lemma patch_length m pos b : 0 <= pos -> pos + Z.of_nat (length b) <= Z.of_nat (length m) -> length (patch m pos b) = length m.
Proof. intros P L. unfold patch. rewrite !app_length, firstn_length, skipn_length. lia. Qed.
Lemma patch_written m pos b : 0 <= pos -> pos + Z.of_nat (length b) <= Z.of_nat (length m) -> written m (patch m pos b) pos b.
Proof.
  intros P L. split; [now apply patch_length|]. intros p Hp. unfold patch.
  rewrite at_app by auto. rewrite firstn_length. replace (Z.of_nat (Nat.min (Z.to_nat pos) (length m))) with pos by lia.
  destruct (Z.ltb_spec p pos) as [A|A].
  - rewrite at_firstn by lia. destruct (Z.leb_spec pos p); [lia|reflexivity].
  - rewrite at_app by lia. destruct (Z.leb_spec pos p); [|lia]. cbn [andb].
    destruct (Z.ltb_spec (p - pos) (Z.of_nat (length b))); destruct (Z.ltb_spec p (pos + Z.of_nat (length b))); try lia; auto.
    rewrite at_skipn by lia. f_equal. lia.
Qed.
Lemma written_patch m m' pos b : 0 <= pos -> pos + Z.of_nat (length b) <= Z.of_nat (length m) -> written m m' pos b -> m' = patch m pos b.
Proof.
  intros P L [A B]. destruct (patch_written m pos b P L) as [A' B']. apply list_at_eq; [congruence|].
  intros k K. rewrite B, B' by lia. reflexivity.
Qed.
Lemma patch_bytes m pos b : Forall byte m -> Forall byte b -> Forall byte (patch m pos b).
Proof.
  intros F G. unfold patch. apply Forall_app. split; [now apply Forall_firstn'|]. apply Forall_app. split; auto. now apply Forall_skipn'.
Qed.

Lemma slice_of_iff m pos len b : 0 <= pos -> 0 <= len ->
  slice_of m pos len = Some b <-> holds_bytes m pos b /\ Z.of_nat (length b) = len.
Proof.
  intros P L. unfold slice_of. destruct (Z.leb_spec (pos + len) (Z.of_nat (length m))) as [H|H].
  - assert (LN : length (firstn (Z.to_nat len) (skipn (Z.to_nat pos) m)) = Z.to_nat len) by (rewrite firstn_length, skipn_length; lia).
    assert (AT : forall k, 0 <= k < len -> at_ (firstn (Z.to_nat len) (skipn (Z.to_nat pos) m)) k = at_ m (pos + k)).
    { intros k K. rewrite at_firstn by lia. rewrite at_skipn by lia. f_equal. lia. }
    split.
    + intros E. injection E as <-. rewrite LN. split; [|lia]. split; auto. rewrite LN. split; [lia|].
      intros k K. symmetry. apply AT. lia.
    + intros [(_ & B & C) Lb]. f_equal. apply list_at_eq; [lia|]. intros k K. rewrite AT by lia. apply C. lia.
  - split; [discriminate|]. intros [(_ & B & C) Lb]. lia.
Qed.
Lemma slice_of_none m pos len : 0 <= pos -> 0 <= len -> slice_of m pos len = None <-> Z.of_nat (length m) < pos + len.
Proof. intros P L. unfold slice_of. destruct (Z.leb_spec (pos + len) (Z.of_nat (length m))); split; try discriminate; try lia; auto. Qed.
Lemma slice_of_bytes m pos len b : Forall byte m -> slice_of m pos len = Some b -> Forall byte b.
Proof.
  unfold slice_of. intros F. destruct (_ <=? _); [|discriminate]. intros E. injection E as <-. now apply Forall_firstn', Forall_skipn'.
Qed.

(* ------------------------------------------------------------ little endian *)

Lemma le_bytes_length n v : length (le_bytes n v) = n.
Proof. revert v. induction n; intros v; cbn; auto. Qed.
Lemma le_bytes_bytes n v : Forall byte (le_bytes n v).
Proof. revert v. induction n; intros v; cbn; constructor; auto. unfold byte. lia. Qed.
Lemma le_bytes_at n v k : 0 <= k < Z.of_nat n -> at_ (le_bytes n v) k = (v / 256 ^ k) mod 256.
Proof.
  revert v k. induction n as [|n IH]; intros v k K; [lia|]. cbn [le_bytes]. destruct (Z.eqb_spec k 0) as [->|N].
  - unfold at_. cbn. now rewrite Z.div_1_r.
  - unfold at_. replace (Z.to_nat k) with (S (Z.to_nat (k - 1))) by lia. cbn [nth]. fold (at_ (le_bytes n (v / 256)) (k - 1)).
    rewrite IH by lia. rewrite Z.div_div by (try apply Z.pow_pos_nonneg; lia). do 2 f_equal.
    replace k with (1 + (k - 1)) at 2 by lia. rewrite Z.pow_add_r by lia. lia.
Qed.
Lemma le_value_bytes n v : 0 <= v < 256 ^ Z.of_nat n -> le_value (le_bytes n v) = v.
Proof.
  revert v. induction n as [|n IH]; intros v R.
  - cbn in *. lia.
  - cbn [le_bytes le_value]. rewrite IH.
    + clear. lia.
    + rewrite Nat2Z.inj_succ, Z.pow_succ_r in R by lia. clear -R. generalize dependent (256 ^ Z.of_nat n). intros q R. lia.
Qed.
Lemma le_value_range b : Forall byte b -> 0 <= le_value b < 256 ^ Z.of_nat (length b).
Proof.
  induction 1 as [|x b B F IH]; cbn [le_value length]; [cbn; lia|]. rewrite Nat2Z.inj_succ, Z.pow_succ_r by lia. unfold byte in B.
  generalize dependent (256 ^ Z.of_nat (length b)). intros q IH. lia.
Qed.
Lemma le_bytes_value b : Forall byte b -> le_bytes (length b) (le_value b) = b.
Proof.
  induction 1 as [|x b B F IH]; cbn [le_value length le_bytes]; auto. unfold byte in B.
  replace ((x + 256 * le_value b) mod 256) with x by lia. replace ((x + 256 * le_value b) / 256) with (le_value b) by lia. now rewrite IH.
Qed.

Lemma holds_num_bytes n m pos v : holds_num (Z.of_nat n) m pos v ->
  firstn n (skipn (Z.to_nat pos) m) = le_bytes n v /\ slice_of m pos (Z.of_nat n) = Some (le_bytes n v).
Proof.
  intros (P & L & R & A). assert (S : slice_of m pos (Z.of_nat n) = Some (le_bytes n v)).
  { apply slice_of_iff; [auto|lia|]. rewrite le_bytes_length. split; auto. split; auto. rewrite le_bytes_length. split; auto.
    intros k K. rewrite le_bytes_at by auto. apply A. auto. }
  split; auto. unfold slice_of in S. destruct (_ <=? _); [|discriminate]. rewrite Nat2Z.id in S. congruence.
Qed.
Lemma slice_holds_num n m pos b : Forall byte m -> 0 <= pos -> slice_of m pos (Z.of_nat n) = Some b ->
  holds_num (Z.of_nat n) m pos (le_value b).
Proof.
  intros F P S. pose proof (slice_of_bytes _ _ _ _ F S) as Fb. apply slice_of_iff in S; [|auto|lia]. destruct S as [(_ & B & C) L].
  pose proof (le_value_range b Fb) as R. rewrite L in *. split; auto. split; auto. split; auto.
  intros k K. rewrite C by auto. rewrite <- (le_bytes_value b Fb) at 1. apply le_bytes_at. lia.
Qed.
Lemma holds_num_fun n m pos v v' : holds_num (Z.of_nat n) m pos v -> holds_num (Z.of_nat n) m pos v' -> v = v'.
Proof.
  intros H H'. destruct (holds_num_bytes _ _ _ _ H) as [E _]. destruct (holds_num_bytes _ _ _ _ H') as [E' _].
  rewrite E in E'. apply (f_equal le_value) in E'. destruct H as (_ & _ & R & _). destruct H' as (_ & _ & R' & _).
  now rewrite !le_value_bytes in E' by auto.
Qed.
Lemma holds_bytes_fun m pos b b' : length b = length b' -> holds_bytes m pos b -> holds_bytes m pos b' -> b = b'.
Proof. intros L (_ & _ & A) (_ & _ & B). apply list_at_eq; auto. intros k K. rewrite <- A, <- B by lia. reflexivity. Qed.

(* ------------------------------------------------------------ ranges *)

Lemma vals_range_iff m pos n : 0 <= pos -> 0 <= n ->
  vals_range m pos n = Ok tt <-> pos + 8 * n <= u32_max /\ pos + 8 * n <= Z.of_nat (length m).
Proof.
  intros P N. unfold vals_range. destruct (Z.ltb_spec u32_max n); [split; [discriminate|lia]|].
  destruct (Z.ltb_spec u32_max (8 * n)); [split; [discriminate|lia]|].
  destruct (Z.ltb_spec u32_max (pos + 8 * n)); [split; [discriminate|lia]|].
  destruct (Z.ltb_spec (Z.of_nat (length m)) (pos + 8 * n)); [split; [discriminate|lia]|]. split; auto.
Qed.
Lemma vals_range_cases m pos n : vals_range m pos n = Ok tt \/ exists e, vals_range m pos n = Err e.
Proof. destruct (vals_range m pos n) as [[]|e]; eauto. Qed.

(* ------------------------------------------------------------ reading words *)

Lemma read_loop_same n : forall g pos g' r, read_loop g pos n = (g', r) -> same_state g g'.
Proof.
  induction n as [|n IH]; intros g pos g' r; cbn [read_loop].
  - intros X; pe X. apply same_refl.
  - destruct (take g _) as [g1 a] eqn:T. apply take_ok in T as [SM _]. destruct a.
    + destruct (read_loop g1 (pos + 8) n) as [g2 rr] eqn:R. apply IH in R. intros X; pe X. eapply same_trans; eauto.
    + intros X; pe X. auto.
Qed.
Lemma read_vals_same g pos n g' r : read_vals g pos n = (g', r) -> same_state g g'.
Proof. unfold read_vals. destruct (vals_range _ _ _); [apply read_loop_same|]. intros X; pe X. apply same_refl. Qed.

Lemma read_loop_ok n : forall g pos g' r, 0 <= pos -> Forall byte (g_mem g) -> pos + 8 * Z.of_nat n <= Z.of_nat (length (g_mem g)) ->
  read_loop g pos n = (g', r) ->
  exists ws, length ws = n /\ holds_words (g_mem g) pos ws
    /\ match r with
       | Ok la => Forall2 (names (g_table g)) ws la
       | Err e => e = e_val_invalid /\ Exists (fun w => forall a, ~ names (g_table g) w a) ws
       end.
Proof.
  induction n as [|n IH]; intros g pos g' r P F L; cbn [read_loop].
  - intros X; pe X. exists []. split; auto. split; [|constructor]. intros i w N. destruct i; discriminate.
  - set (w := le_value (firstn 8 (skipn (Z.to_nat pos) (g_mem g)))).
    assert (HW : holds_num 8 (g_mem g) pos w).
    { change 8 with (Z.of_nat 8). apply slice_holds_num; auto. unfold slice_of.
      destruct (Z.leb_spec (pos + Z.of_nat 8) (Z.of_nat (length (g_mem g)))); [reflexivity|lia]. }
    destruct (take g w) as [g1 ra] eqn:T. apply take_ok in T as [SM ->].
    assert (CONS : forall ws, holds_words (g_mem g) (pos + 8) ws -> holds_words (g_mem g) pos (w :: ws)).
    { intros ws H [|i] x N; cbn in N.
      - injection N as <-. now rewrite Z.mul_0_r, Z.add_0_r.
      - specialize (H i x N). replace (pos + 8 * Z.of_nat (S i)) with (pos + 8 + 8 * Z.of_nat i) by lia. exact H. }
    destruct SM as (S1 & S2 & S3).
    destruct (read_loop g1 (pos + 8) n) as [g2 rr] eqn:R.
    destruct (IH g1 (pos + 8) g2 rr) as (ws & Lw & Hw & Q); auto; try (rewrite S3; auto; lia); [lia|].
    rewrite S3 in Hw. rewrite S2 in Q. 
    destruct (relative_to_absolute (g_table g) w) as [a|e] eqn:RA; intros X; pe X;
      (exists (w :: ws); split; [cbn; lia|]; split; [now apply CONS|]).
    + apply r2a_names in RA. destruct rr; cbn [rmap]; [now constructor|]. destruct Q as [Q1 Q2]. split; auto.
    + split; [now apply r2a_err in RA|]. left. intros a N. apply r2a_names in N. congruence.
Qed.
Lemma read_vals_ok g pos n g' r : 0 <= pos -> 0 <= n -> Forall byte (g_mem g) -> read_vals g pos n = (g', r) ->
  (pos + 8 * n <= u32_max /\ pos + 8 * n <= Z.of_nat (length (g_mem g)) /\ exists ws, Z.of_nat (length ws) = n /\ holds_words (g_mem g) pos ws
    /\ match r with
       | Ok la => Forall2 (names (g_table g)) ws la
       | Err e => e = e_val_invalid /\ Exists (fun w => forall a, ~ names (g_table g) w a) ws
       end)
  \/ (~ (pos + 8 * n <= u32_max /\ pos + 8 * n <= Z.of_nat (length (g_mem g))) /\ exists e, r = Err e).
Proof.
  intros P N F. unfold read_vals. destruct (vals_range (g_mem g) pos n) as [[]|e] eqn:V; intros X.
  - apply vals_range_iff in V; auto. destruct V as [V1 V2]. left. split; auto. split; auto.
    destruct (read_loop_ok (Z.to_nat n) g pos g' r P F ltac:(lia) X) as (ws & L & H). exists ws. split; [lia|auto].
  - right. split; [|pe X; eauto]. intros C. apply vals_range_iff in C; auto. congruence.
Qed.
Lemma nth_error_ext_len {A} (a b : list A) : length a = length b ->
  (forall n x y, nth_error a n = Some x -> nth_error b n = Some y -> x = y) -> a = b.
Proof.
  revert b. induction a as [|x a IH]; intros [|y b] L H; cbn in L; try discriminate; auto. f_equal.
  - exact (H 0%nat x y eq_refl eq_refl).
  - apply IH; [lia|]. intros n. exact (H (S n)).
Qed.
Lemma holds_words_fun m pos ws ws' : length ws = length ws' -> holds_words m pos ws -> holds_words m pos ws' -> ws = ws'.
Proof.
  intros L H H'. apply (nth_error_ext_len ws ws' L). intros n w w' A B. apply (holds_num_fun 8 m _ w w' (H n w A) (H' n w' B)).
Qed.

(* ------------------------------------------------------------ writing words *)

Lemma holds_num_written n m m' pos b p v : holds_num n m p v -> written m m' pos b ->
  p + n <= pos \/ pos + Z.of_nat (length b) <= p -> holds_num n m' p v.
Proof.
  intros (P & L & R & A) [E W] D. split; auto. split; [now rewrite E|]. split; auto. intros k K. rewrite W by lia.
  destruct (Z.leb_spec pos (p + k)); destruct (Z.ltb_spec (p + k) (pos + Z.of_nat (length b))); cbn [andb]; try lia; now apply A.
Qed.
Lemma written_num m pos v : 0 <= pos -> pos + 8 <= Z.of_nat (length m) -> 0 <= v < 2 ^ 64 -> holds_num 8 (patch m pos (le_bytes 8 v)) pos v.
Proof.
  intros P L R. pose proof (le_bytes_length 8 v) as LB.
  destruct (patch_written m pos (le_bytes 8 v) P) as [E W]; [rewrite LB; exact L|]. rewrite LB in W.
  split; auto. split; [rewrite E; exact L|]. split; [exact R|]. intros k K. rewrite W by lia.
  destruct (Z.leb_spec pos (pos + k)); [|lia]. destruct (Z.ltb_spec (pos + k) (pos + Z.of_nat 8)); [|lia]. cbn [andb].
  replace (pos + k - pos) with k by lia. apply le_bytes_at. lia.
Qed.

Lemma write_loop_grown l : forall g pos g' r, Forall (live (g_heap g)) l -> 0 <= pos ->
  write_loop g pos l = (g', r) -> grown g g' /\ g_heap g' = g_heap g.
Proof.
  induction l as [|v l IH]; intros g pos g' r F P; cbn [write_loop].
  - intros X; pe X. auto using grown_refl.
  - inversion F; subst. destruct (give g v) as [g1 w] eqn:G. destruct (give_ok g v g1 w (fun _ _ _ => H1) G) as (A & B & C & _).
    destruct w as [w|]; intros X; [|pe X; auto].
    assert (A2 : grown g1 (set_mem g1 (patch (g_mem g1) pos (le_bytes 8 w)))).
    { split; cbn [set_mem g_heap g_table]; auto using extends_refl. - exists []. now rewrite app_nil_r.
      - intros _ (Q1 & Q2 & Q3). split; auto. split; auto. cbn [set_mem g_mem]. apply patch_bytes; auto. apply le_bytes_bytes. }
    apply IH in X; [|cbn; now rewrite B|lia]. destruct X as [X1 X2]. split.
    + eapply grown_trans; [exact A|]. eapply grown_trans; eauto.
    + cbn in X2. congruence.
Qed.
Lemma write_loop_ok l : forall g pos g' r, Forall (live (g_heap g)) l -> 0 <= pos ->
  pos + 8 * Z.of_nat (length l) <= Z.of_nat (length (g_mem g)) -> Z.of_nat (length (g_table g) + length l) <= 2 ^ 31 ->
  write_loop g pos l = (g', r) ->
  r = Ok tt /\ untouched (g_mem g) (g_mem g') pos (8 * Z.of_nat (length l))
  /\ exists ws, Forall2 (fun w a => word w /\ is_good w = true /\ names (g_table g') w a) ws l /\ holds_words (g_mem g') pos ws.
Proof.
  induction l as [|v l IH]; intros g pos g' r F P L T; cbn [write_loop].
  - intros X; pe X. split; auto. split; [split; auto|]. exists []. split; [constructor|]. intros i w N. destruct i; discriminate.
  - inversion F; subst. destruct (give g v) as [g1 rw] eqn:G. destruct (give_ok g v g1 rw (fun _ _ _ => H1) G) as (A & B & C & D).
    cbn [length] in *. destruct (D H1 ltac:(lia)) as (w & -> & W & Gd & N & T1 & T0). intros X.
    set (m1 := patch (g_mem g1) pos (le_bytes 8 w)) in *.
    assert (LB := le_bytes_length 8 w). assert (WR : written (g_mem g) m1 pos (le_bytes 8 w)).
    { unfold m1. rewrite C. apply patch_written; auto. rewrite LB. lia. }
    destruct WR as [WL WA] eqn:EW. clear EW.
    assert (TL : (length (g_table g1) <= S (length (g_table g)))%nat).
    { destruct (is_object v) eqn:O; [rewrite T1 by auto; lia|]. rewrite T0 by auto. lia. }
    assert (X' := X). apply write_loop_grown in X'; [|cbn; now rewrite B|lia]. destruct X' as [GR _].
    apply IH in X; cbn [set_mem g_heap g_mem g_table]; [|now rewrite B|lia|lia|lia].
    destruct X as (-> & [U1 U2] & ws & FW & HW). split; auto. rewrite LB in *. cbn [set_mem g_mem] in *. split.
    + split; [congruence|]. intros p Pp O. rewrite U2 by lia. rewrite WA by auto.
      destruct (Z.leb_spec pos p); destruct (Z.ltb_spec p (pos + Z.of_nat 8)); cbn [andb]; auto; lia.
    + exists (w :: ws). split.
      * constructor; auto. split; auto. split; auto. destruct GR as [_ [y Ty] _]. cbn in Ty. rewrite Ty. now apply names_app.
      * intros [|i] x Nx; cbn in Nx.
        -- injection Nx as <-. rewrite Z.mul_0_r, Z.add_0_r.
           pose proof (written_num (g_mem g1) pos w P ltac:(rewrite C; lia) W) as HN. fold m1 in HN.
           destruct HN as (_ & HL & HR & HA). split; auto. split; [rewrite U1; exact HL|]. split; auto.
           intros k K. rewrite U2 by lia. now apply HA.
        -- specialize (HW i x Nx). replace (pos + 8 * Z.of_nat (S i)) with (pos + 8 + 8 * Z.of_nat i) by lia. exact HW.
Qed.
Lemma write_vals_ok g pos l g' r : Forall (live (g_heap g)) l -> 0 <= pos ->
  Z.of_nat (length (g_table g) + length l) <= 2 ^ 31 -> write_vals g pos l = (g', r) ->
  let n := Z.of_nat (length l) in
  (pos + 8 * n <= u32_max /\ pos + 8 * n <= Z.of_nat (length (g_mem g)) /\ r = Ok tt
   /\ untouched (g_mem g) (g_mem g') pos (8 * n)
   /\ exists ws, Forall2 (fun w a => word w /\ is_good w = true /\ names (g_table g') w a) ws l /\ holds_words (g_mem g') pos ws)
  \/ (~ (pos + 8 * n <= u32_max /\ pos + 8 * n <= Z.of_nat (length (g_mem g))) /\ (exists e, r = Err e) /\ g' = g).
Proof.
  intros F P T. unfold write_vals. cbv zeta. destruct (vals_range (g_mem g) pos (Z.of_nat (length l))) as [[]|e] eqn:V; intros X.
  - apply vals_range_iff in V; [|auto|lia]. destruct V as [V1 V2]. left. split; auto. split; auto. now apply write_loop_ok.
  - right. split; [|pe X; eauto]. intros Q. apply vals_range_iff in Q; [congruence|auto|lia].
Qed.
Lemma write_vals_grown g pos l g' r : Forall (live (g_heap g)) l -> 0 <= pos ->
  write_vals g pos l = (g', r) -> grown g g' /\ g_heap g' = g_heap g.
Proof. intros F P. unfold write_vals. destruct (vals_range _ _ _); [now apply write_loop_grown|]. intros X; pe X. auto using grown_refl. Qed.

(* ------------------------------------------------------------ slices *)

Lemma skipn_skipn' {A} x : forall y (l : list A), skipn x (skipn y l) = skipn (y + x) l.
Proof. induction y as [|y IH]; intros l; cbn; auto. destruct l; auto. now rewrite skipn_nil. Qed.
Lemma slice_split m p s : 0 <= p -> slice_of m p 8 = Some s ->
  slice_of m p 4 = Some (firstn 4 s) /\ slice_of m (p + 4) 4 = Some (skipn 4 s).
Proof.
  intros P. unfold slice_of. destruct (Z.leb_spec (p + 8) (Z.of_nat (length m))); [|discriminate]. intros E.
  apply (f_equal (fun o => match o with Some x => x | None => [] end)) in E. subst s.
  destruct (Z.leb_spec (p + 4) (Z.of_nat (length m))); [|lia]. destruct (Z.leb_spec (p + 4 + 4) (Z.of_nat (length m))); [|lia].
  change (Z.to_nat 4) with 4%nat. change (Z.to_nat 8) with 8%nat. split.
  - rewrite firstn_firstn. reflexivity.
  - rewrite skipn_firstn_comm. change (8 - 4)%nat with 4%nat. f_equal. f_equal. rewrite skipn_skipn'. f_equal. lia.
Qed.
Lemma slice_at_iff m pos i b : Forall byte m -> 0 <= pos ->
  slice_at m pos i = Ok b <-> holds_slice m (pos + 8 * Z.of_nat i) b.
Proof.
  intros F P. unfold slice_at. set (p := pos + 8 * Z.of_nat i). assert (Pp : 0 <= p) by (unfold p; lia). clearbody p.
  destruct (slice_of m p 8) as [s|] eqn:S.
  - destruct (slice_split m p s Pp S) as [S1 S2].
    pose proof (slice_holds_num 4 m p _ F Pp S1) as H1. pose proof (slice_holds_num 4 m (p + 4) _ F ltac:(lia) S2) as H2.
    cbv zeta. set (ptr := le_value (firstn 4 s)) in *. set (len := le_value (skipn 4 s)) in *.
    assert (R1 : 0 <= ptr) by (destruct H1 as (_ & _ & R & _); lia). assert (R2 : 0 <= len) by (destruct H2 as (_ & _ & R & _); lia).
    split.
    + destruct (Z.ltb_spec u32_max (ptr + len)); [discriminate|]. destruct (slice_of m ptr len) as [b'|] eqn:SB; [|discriminate].
      intros E. injection E as <-. apply slice_of_iff in SB; auto. destruct SB as [HB <-]. exists ptr. auto.
    + intros (ptr' & N1 & N2 & L & HB). pose proof (holds_num_fun 4 _ _ _ _ H1 N1) as <-. pose proof (holds_num_fun 4 _ _ _ _ H2 N2) as E.
      rewrite E in *. destruct (Z.ltb_spec u32_max (ptr + Z.of_nat (length b))); [lia|].
      rewrite (proj2 (slice_of_iff m ptr (Z.of_nat (length b)) b R1 ltac:(lia))); auto.
  - split; [discriminate|]. intros (ptr & N1 & N2 & _). exfalso. apply slice_of_none in S; [|auto|lia].
    destruct N2 as (_ & L & _). lia.
Qed.
Lemma scan_slices_iff m pos bs : Forall byte m -> 0 <= pos -> forall n i,
  scan_slices m pos i n = Ok bs <-> length bs = n /\ forall k b, nth_error bs k = Some b -> holds_slice m (pos + 8 * Z.of_nat (i + k)) b.
Proof.
  intros F P. revert bs. intros bs n. revert bs. induction n as [|n IH]; intros bs i; cbn [scan_slices].
  - split.
    + intros E. injection E as <-. split; auto. intros [|k]; discriminate.
    + intros [L _]. destruct bs; [reflexivity|discriminate].
  - split.
    + destruct (slice_at m pos i) as [b|] eqn:S; [|discriminate]. cbn [rbind].
      destruct (scan_slices m pos (Datatypes.S i) n) as [r|] eqn:SC; [|discriminate]. cbn [rbind]. intros E. injection E as <-.
      apply IH in SC as [L H]. split; [cbn; lia|]. intros [|k] x N; cbn in N.
      * injection N as <-. rewrite Nat.add_0_r. now apply slice_at_iff.
      * replace (i + Datatypes.S k)%nat with (Datatypes.S i + k)%nat by lia. auto.
    + intros [L H]. destruct bs as [|b bs]; [discriminate|].
      assert (S : slice_at m pos i = Ok b).
      { apply slice_at_iff; auto. specialize (H 0%nat b eq_refl). now rewrite Nat.add_0_r in H. }
      rewrite S. cbn [rbind]. assert (SC : scan_slices m pos (Datatypes.S i) n = Ok bs).
      { apply IH. split; [cbn in L; lia|]. intros k x N. specialize (H (Datatypes.S k) x N).
        now replace (i + Datatypes.S k)%nat with (Datatypes.S i + k)%nat in H by lia. }
      now rewrite SC.
Qed.
Lemma scan_iff m pos n bs : Forall byte m -> 0 <= pos -> 0 <= n ->
  scan_slices m pos 0 (Z.to_nat n) = Ok bs <-> Z.of_nat (length bs) = n /\ holds_slices m pos bs.
Proof.
  intros F P N. rewrite scan_slices_iff by auto. unfold holds_slices. split; intros [A B]; (split; [lia|exact B]).
Qed.

(* ------------------------------------------------------------ arguments *)

Lemma dispatch_stands g ty i t g1 r : stands g i t -> dispatch_arg g ty i = (g1, r) ->
  same_state g g1 /\ exists a, names (g_table g) (as_u64 i) a /\ denotes (g_heap g) a t
    /\ (if has_type ty a then r = Ok a else exists e, r = Err e).
Proof.
  intros (G & a & N & D) X. pose proof X as X'. apply dispatch_arg_ok in X as [SM H]. split; auto. exists a. split; auto. split; auto.
  pose proof (integrity _ _ _ D) as C. destruct r as [b|e].
  - destruct H as (_ & N' & T & _). rewrite (names_fun _ _ _ _ N' N) in *. now rewrite T.
  - rewrite (H a G N C). eauto.
Qed.
Lemma bytes_visit h a b : denotes h a (TBytes b) -> has_tag a TgBytesObject = true /\ visit_bytes h a = Ok b /\ bytes_ok b.
Proof.
  intros D. pose proof (arg_bytes_den h a _ D) as H. unfold arg_bytes, typed in H. destruct (has_tag a TgBytesObject).
  - destruct (visit_bytes h a) as [m|]; [destruct H as [E B]; injection E as ->; auto|]. specialize (H (fun l => Some [])). discriminate.
  - specialize (H (fun l => Some [])). discriminate.
Qed.
Lemma string_visit h a b : denotes h a (TString b) -> has_tag a TgStringObject = true /\ visit_string h a = Ok b /\ bytes_ok b.
Proof.
  intros D. pose proof (arg_string_den h a _ D) as H. unfold arg_string, typed in H. destruct (has_tag a TgStringObject).
  - destruct (visit_string h a) as [m|]; [destruct H as [E B]; injection E as ->; auto|]. specialize (H (fun l => Some [])). discriminate.
  - specialize (H (fun l => Some [])). discriminate.
Qed.
Lemma vec_visit h a ts : denotes h a (TVec ts) -> has_tag a TgVecObject = true /\ exists l, visit_vec h a = Ok l /\ denotes_list h l ts /\ short l.
Proof.
  intros D. pose proof (arg_vec_den h a _ D) as H. unfold arg_vec, typed in H. destruct (has_tag a TgVecObject).
  - destruct (visit_vec h a) as [m|]; [destruct H as (us & E & B); injection E as ->; eauto|]. specialize (H (fun l => Some [])). discriminate.
  - specialize (H (fun l => Some [])). discriminate.
Qed.
Lemma map_visit h a ts : denotes h a (TMap ts) -> has_tag a TgMapObject = true
  /\ exists l, visit_map h a = Ok l /\ denotes_pairs h l ts /\ short l /\ map_sorted ts.
Proof.
  intros D. pose proof (arg_map_den h a _ D) as H. unfold arg_map, typed in H. destruct (has_tag a TgMapObject).
  - destruct (visit_map h a) as [m|]; [destruct H as (us & E & B); injection E as ->; eauto|]. specialize (H (fun l => Some [])). discriminate.
  - specialize (H (fun l => Some [])). discriminate.
Qed.
Lemma symbol_visit h a b : denotes h a (TSymbol b) -> is_object a = true -> has_tag a TgSymbolObject = true /\ visit_symbol h a = Ok b /\ bytes_ok b.
Proof.
  intros D O. destruct (denotes_cases h a _ D) as [S|(i & o & -> & N & L & Od)].
  - destruct (small_facts a _ S) as (_ & F & _). congruence.
  - inversion Od; subst. rewrite tag_true by (auto; now rewrite obj_get_tag). split; auto. unfold visit_symbol.
    rewrite (visit_obj h i _ N L). split; auto. match goal with H : valid_symbol _ |- _ => destruct H as [A B] end. split; [unfold short, u32_max; lia|].
    eapply Forall_impl; [|exact B]. intros c C. unfold sym_char in C. lia.
Qed.
Lemma symbol_typed h a b : denotes h a (TSymbol b) -> has_type TySymbol a = true /\ symbol_text h a = Ok b.
Proof.
  intros D. pose proof (symbol_text_den h a _ D) as H. destruct (symbol_text h a) as [s|] eqn:E; [|discriminate].
  injection H as ->. split; auto. cbn. unfold symbol_text in E. destruct (has_tag a TgSymbolSmall); auto.
  destruct (has_tag a TgSymbolObject); auto. discriminate.
Qed.

Lemma kind_visit k h a b : denotes h a (kind_tree k b) -> (k = KSymbol -> is_object a = true) ->
  has_type (TyObj (kind_tag k)) a = true /\ visit_kind k h a = Ok b /\ bytes_ok b.
Proof.
  destruct k; cbn; intros D S; [now apply bytes_visit|now apply string_visit|apply symbol_visit; auto].
Qed.

(* ------------------------------------------------------------ byte copies *)

Lemma copy_to_ok d g k i b op lp len g' r : stands g i (kind_tree k b) -> (k = KSymbol -> is_object (as_u64 i) = true) ->
  0 <= op -> 0 <= lp -> 0 <= len -> mem_call d g (MCopyTo k i op lp len) = (g', r) ->
  (op + len <= Z.of_nat (length b) /\ lp + len <= Z.of_nat (length (g_mem g)) /\ r = Ok val_void
   /\ g_heap g' = g_heap g /\ g_table g' = g_table g
   /\ exists s, Z.of_nat (length s) = len /\ holds_bytes b op s /\ written (g_mem g) (g_mem g') lp s)
  \/ (~ (op + len <= Z.of_nat (length b) /\ lp + len <= Z.of_nat (length (g_mem g))) /\ (exists e, r = Err e) /\ same_state g g').
Proof.
  intros ST SO Ho Hl Hn. cbn [mem_call]. unfold with_arg. destruct (dispatch_arg g _ i) as [g1 r1] eqn:D.
  destruct (dispatch_stands _ _ _ _ _ _ ST D) as (SM & a & N & Dn & T).
  destruct (kind_visit k _ a b Dn) as (HT & V & (Sh & Fb)).
  { intros K. rewrite (proj2 (names_tag _ _ _ N)). auto. }
  rewrite HT in T. subst r1. destruct SM as (S1 & S2 & S3). unfold copy_to. rewrite S1, V.
  unfold short in Sh. destruct (Z.ltb_spec u32_max (op + len)) as [LE|LE].
  { intros X. unfold fail in X. pe X. right. split; [lia|]. split; [eauto|]. repeat split; auto. }
  destruct (slice_of b op len) as [s|] eqn:SL.
  2:{ intros X. unfold fail in X. pe X. apply slice_of_none in SL; auto. right. split; [lia|]. split; [eauto|]. repeat split; auto. }
  pose proof SL as SL'. apply slice_of_iff in SL; auto. destruct SL as [HB LB]. pose proof HB as (_ & HB2 & _).
  unfold vm_write_bytes. rewrite S3, LB. destruct (Z.leb_spec (lp + len) (Z.of_nat (length (g_mem g)))) as [W|W]; intros X; [|unfold fail in X]; pe X.
  - left. split; [lia|]. split; auto. split; auto. split; auto. split; auto. exists s. split; auto. split; auto. apply patch_written; lia.
  - right. split; [lia|]. split; [eauto|]. repeat split; auto.
Qed.

Lemma copy_from_ok d g i b op lp len g' r : stands g i (TBytes b) -> Forall byte (g_mem g) ->
  0 <= op -> 0 <= lp -> 0 <= len -> mem_call d g (MCopyFrom i op lp len) = (g', r) -> fits (g_heap g') ->
  Z.of_nat (length (g_table g)) < 2 ^ 31 ->
  g_mem g' = g_mem g /\
  ((op + len <= u32_max /\ lp + len <= Z.of_nat (length (g_mem g))
    /\ exists w b', r = Ok w /\ stands g' w (TBytes b')
       /\ Z.of_nat (length b') = Z.max (Z.of_nat (length b)) (op + len)
       /\ forall p, 0 <= p -> at_ b' p = if (op <=? p) && (p <? op + len) then at_ (g_mem g) (lp + (p - op)) else at_ b p)
   \/ (~ (op + len <= u32_max /\ lp + len <= Z.of_nat (length (g_mem g))) /\ (exists e, r = Err e) /\ same_state g g')).
Proof.
  intros ST Fm Ho Hl Hn. cbn [mem_call]. unfold with_arg. destruct (dispatch_arg g _ i) as [g1 r1] eqn:D.
  destruct (dispatch_stands _ _ _ _ _ _ ST D) as (SM & a & N & Dn & T).
  destruct (bytes_visit _ a b Dn) as (HT & V & (Sh & Fb)). cbn [has_type] in T. rewrite HT in T. subst r1. destruct SM as (S1 & S2 & S3).
  unfold copy_from. rewrite S1, V. cbv zeta. unfold short in Sh. destruct (Z.ltb_spec u32_max (op + len)) as [LE|LE].
  { intros X. unfold fail in X. pe X. intros _ _. split; auto. right. split; [lia|]. split; [eauto|]. repeat split; auto. }
  unfold vm_read_bytes. rewrite S3. destruct (slice_of (g_mem g) lp len) as [s|] eqn:SL.
  2:{ intros X. unfold fail in X. pe X. apply slice_of_none in SL; auto. intros _ _. split; auto. right. split; [lia|]. split; [eauto|]. repeat split; auto. }
  pose proof (slice_of_bytes _ _ _ _ Fm SL) as Fs. apply slice_of_iff in SL; auto. destruct SL as [(_ & HB1 & HB2) LB].
  set (b1 := b ++ repeat 0 (Z.to_nat (op + len) - length b)).
  assert (L1 : Z.of_nat (length b1) = Z.max (Z.of_nat (length b)) (op + len)).
  { unfold b1. rewrite app_length, repeat_length. lia. }
  assert (A1 : forall p, 0 <= p -> at_ b1 p = at_ b p).
  { intros p P. unfold b1. rewrite at_app by auto. destruct (Z.ltb_spec p (Z.of_nat (length b))); auto.
    rewrite (at_out b) by auto. unfold at_. apply nth_repeat. }
  destruct (patch_written b1 op s Ho) as [PL PA]; [lia|].
  assert (BO : bytes_ok (patch b1 op s)).
  { split; [unfold short; rewrite PL; lia|]. apply patch_bytes; auto. unfold b1. apply Forall_app. split; auto.
    apply Forall_forall. intros x I. apply repeat_spec in I. subst x. unfold byte. lia. }
  intros X F LT. destruct (new_object_grown _ _ _ _ (fun _ _ => ex_intro _ _ (do_bytes (g_heap g1) _ BO)) X) as [GR GM].
  split; [now rewrite GM|]. left. split; auto. split; [lia|].
  destruct (new_object_means _ _ _ _ _ (do_bytes (g_heap g1) _ BO) X F ltac:(now rewrite S2)) as (w & -> & W).
  exists w, (patch b1 op s). split; auto. split; auto. rewrite PL. split; auto. intros p P. rewrite PA, LB by auto.
  destruct (Z.leb_spec op p); destruct (Z.ltb_spec p (op + len)); cbn [andb]; auto. rewrite HB2 by lia. reflexivity.
Qed.

Lemma new_from_ok d g k lp len g' r : guest_ok g -> 0 <= lp -> 0 <= len <= u32_max ->
  mem_call d g (MNew k lp len) = (g', r) -> fits (g_heap g') -> Z.of_nat (length (g_table g)) < 2 ^ 31 ->
  g_mem g' = g_mem g /\
  ((exists b, Z.of_nat (length b) = len /\ holds_bytes (g_mem g) lp b /\ (k = KSymbol -> valid_symbol b)
      /\ exists w, r = Ok w /\ stands g' w (kind_tree k b))
   \/ (~ (exists b, Z.of_nat (length b) = len /\ holds_bytes (g_mem g) lp b /\ (k = KSymbol -> valid_symbol b))
       /\ (exists e, r = Err e) /\ same_state g g')).
Proof.
  intros (O1 & O2 & O3) Hl Hn. cbn [mem_call]. unfold new_from, vm_read_bytes.
  destruct (slice_of (g_mem g) lp len) as [s|] eqn:SL; cbn [rbind].
  2:{ intros X. unfold fail in X. pe X. intros _ _. split; auto. apply slice_of_none in SL; [|auto|lia].
      right. split; [|split; [eauto|apply same_refl]]. intros (b & L & (_ & H & _) & _). lia. }
  pose proof (slice_of_bytes _ _ _ _ O3 SL) as Fs. apply slice_of_iff in SL; [|auto|lia]. destruct SL as [HB LB].
  assert (BO : bytes_ok s) by (split; auto; unfold short; lia).
  destruct (kind_object k s) as [o|e] eqn:KO.
  - assert (OD : (k = KSymbol -> valid_symbol s) /\ obj_denotes (g_heap g) o (kind_tree k s)).
    { destruct k; cbn in KO.
      - injection KO as <-. split; [discriminate|]. now constructor.
      - injection KO as <-. split; [discriminate|]. now constructor.
      - destruct (symbol_bytes_ok s) eqn:SB; [|discriminate]. injection KO as <-. apply symbol_bytes_ok_spec in SB. split; auto. now constructor. }
    destruct OD as [VS OD]. intros X F LT. destruct (new_object_grown _ _ _ _ (fun _ _ => ex_intro _ _ OD) X) as [GR GM]. split; auto.
    left. exists s. split; auto. split; auto. split; auto. now apply (new_object_means _ _ _ _ _ OD X F).
  - intros X. unfold fail in X. pe X. intros _ _. split; auto. right. split; [|split; [eauto|apply same_refl]].
    intros (b & L & HB' & VS). assert (b = s) by (eapply holds_bytes_fun; eauto; lia). subst b.
    destruct k; cbn in KO; try discriminate. pose proof (proj2 (symbol_bytes_ok_spec s) (VS eq_refl)) as SB. rewrite SB in KO. discriminate.
Qed.

(* ------------------------------------------------------------ symbol lookup *)

Lemma index_of_spec t l : forall i, match index_of t l i with
  | Some n => (i <= n)%nat /\ nth_error l (n - i) = Some t /\ forall j, (j < n - i)%nat -> nth_error l j <> Some t
  | None => ~ In t l
  end.
Proof.
  induction l as [|b l IH]; intros i; cbn [index_of].
  - cbn. tauto.
  - assert (BC : bytes_cmp t b = Eq <-> t = b) by (rewrite <- lex_eq; now rewrite bytes_cmp_lex).
    destruct (bytes_cmp t b) eqn:C.
    + split; [lia|]. rewrite Nat.sub_diag. split; [cbn; f_equal; symmetry; tauto|]. intros j J. lia.
    + specialize (IH (S i)). destruct (index_of t l (S i)) as [n|].
      * destruct IH as (A & B & D). split; [lia|]. replace (n - i)%nat with (S (n - S i)) by lia. split; auto.
        intros [|j] J; cbn; [intros E; injection E as ->; assert (X : Lt = Eq) by tauto; discriminate|apply D; lia].
      * cbn. intros [E|E]; [subst b; assert (X : Lt = Eq) by tauto; discriminate|tauto].
    + specialize (IH (S i)). destruct (index_of t l (S i)) as [n|].
      * destruct IH as (A & B & D). split; [lia|]. replace (n - i)%nat with (S (n - S i)) by lia. split; auto.
        intros [|j] J; cbn; [intros E; injection E as ->; assert (X : Gt = Eq) by tauto; discriminate|apply D; lia].
      * cbn. intros [E|E]; [subst b; assert (X : Gt = Eq) by tauto; discriminate|tauto].
Qed.
Lemma symbol_index_ok d g i t lp len g' r : stands g i (TSymbol t) -> Forall byte (g_mem g) -> 0 <= lp -> 0 <= len ->
  mem_call d g (MSymbolIndex i lp len) = (g', r) ->
  same_state g g' /\
  ((exists bs, Z.of_nat (length bs) = len /\ holds_slices (g_mem g) lp bs
      /\ ((exists n, nth_error bs n = Some t /\ (forall j, (j < n)%nat -> nth_error bs j <> Some t) /\ r = Ok (val_of_u32 (Z.of_nat n)))
          \/ (~ In t bs /\ r = Err (ESys TValue CMissingValue))))
   \/ ((forall bs, ~ (Z.of_nat (length bs) = len /\ holds_slices (g_mem g) lp bs)) /\ exists e, r = Err e)).
Proof.
  intros ST Fm Hl Hn. cbn [mem_call]. unfold with_arg. destruct (dispatch_arg g _ i) as [g1 r1] eqn:D.
  destruct (dispatch_stands _ _ _ _ _ _ ST D) as (SM & a & N & Dn & T). destruct (symbol_typed _ _ _ Dn) as [HT TX].
  rewrite HT in T. subst r1. unfold symbol_index. intros X. pe X. split; auto. destruct SM as (S1 & S2 & S3). rewrite S1, S3, TX. clear -Fm Hl Hn.
  destruct (scan_slices (g_mem g) lp 0 (Z.to_nat len)) as [bs|e] eqn:SC; cbn [rbind].
  - apply scan_iff in SC; auto. left. exists bs. destruct SC as [A B]. split; auto. split; auto.
    pose proof (index_of_spec t bs 0) as I. destruct (index_of t bs 0) as [n|].
    + left. exists n. rewrite Nat.sub_0_r in I. tauto.
    + auto.
  - right. split; eauto. intros bs H. apply scan_iff in H; auto. congruence.
Qed.
