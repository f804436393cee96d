(* Calls from a guest act on the values its words name; objects handed out exist. *)
From Coq Require Import ZArith Lia List Bool.
From Verif Require Import Prelude ValModel ValSpec ValProofs SymbolProofs GuestProofs ContainerModel ContainerSpec HeapModel HeapSpec TreeProofs HeapProofs ConvProofs HeapProofs2
  HostFnModel HostFnSpec HostFnProofs HostFnProofs2 GuestModel GuestSpec GuestHandles.
Import ListNotations.
Open Scope Z_scope.
Ltac Zify.zify_post_hook ::= Z.div_mod_to_equations.

Lemma live_word h a : live h a -> word a.
Proof. now intros [W _]. Qed.
Lemma extends_live h h' a : extends h h' -> live h a -> live h' a.
Proof.
  intros [x ->] (W & G & O). split; auto. split; auto. intros H. destruct (O H) as (i & o & N & L & E).
  exists i, o. split; auto. rewrite nth_error_app1; auto. apply nth_error_Some. congruence.
Qed.
Lemma extends_handed h h' l : extends h h' -> Forall (handed h) l -> Forall (handed h') l.
Proof. intros X. apply Forall_impl. intros a [O L]. split; auto. eapply extends_live; eauto. Qed.

Lemma live_integrity h a : word a -> check_val_integrity h a = Ok tt -> live h a.
Proof.
  intros W. unfold check_val_integrity. destruct (is_good a) eqn:G; [|discriminate]. cbn [negb]. intros C.
  split; auto. split; auto. intros O. rewrite O in C. unfold visit_obj_untyped in C.
  destruct (is_relative_handle (get_major a)) eqn:R; [discriminate|].
  destruct (nth_error h (handle_to_index (get_major a))) as [o|] eqn:N; [|discriminate]. cbn [rbind] in C.
  destruct (Z.eqb_spec (tag_num (hobj_tag o)) (tag_num (get_tag a))) as [E|]; [|discriminate]. apply tag_num_inj in E.
  pose proof (get_major_range a) as MR. unfold is_relative_handle in R. rewrite land_1 in R. apply Z.eqb_neq in R.
  unfold handle_to_index in *. rewrite Z.shiftr_div_pow2 in * by lia. change (2 ^ 1) with 2 in *.
  exists (Z.to_nat (get_major a / 2)), o. split; auto. split; [lia|].
  pose proof (good_obj_word a W G O) as EQ. unfold obj_word, obj_handle. rewrite E.
  destruct (object_word_facts (get_major a) (get_tag a) MR (obj_in_tags a O)) as (F & _).
  assert (M2 : 2 * Z.of_nat (Z.to_nat (get_major a / 2)) + 1 = get_major a) by (clear -R MR; lia).
  rewrite M2. now rewrite <- F.
Qed.
Lemma integrity_live h a : live h a -> check_val_integrity h a = Ok tt.
Proof.
  intros (W & G & O). unfold check_val_integrity. rewrite G. cbn [negb]. destruct (is_object a) eqn:Ob; auto.
  destruct (O eq_refl) as (i & o & N & L & ->). rewrite (visit_obj h i o N L). cbn [rbind]. rewrite obj_get_tag by auto.
  now rewrite Z.eqb_refl.
Qed.

(* ------------------------------------------------------------ taking and giving *)

Lemma same_refl g : same_state g g.
Proof. repeat split. Qed.
Lemma same_trans a b c : same_state a b -> same_state b c -> same_state a c.
Proof. intros (A & B & C) (D & E & F). unfold same_state. now rewrite D, E, F. Qed.
Lemma same_ok g g' : same_state g g' -> guest_ok g -> guest_ok g'.
Proof. intros (A & B & C). unfold guest_ok. now rewrite A, B, C. Qed.
Lemma same_stands g g' i t : same_state g g' -> stands g i t -> stands g' i t.
Proof. intros (A & B & C). unfold stands. now rewrite A, B. Qed.

Lemma take_ok g w g' r : take g w = (g', r) -> same_state g g' /\ r = relative_to_absolute (g_table g) w.
Proof.
  unfold take. destruct (relative_to_absolute (g_table g) w) as [a|e]; intros X; pe X; split; auto; repeat split.
Qed.

(* The words a guest can name are in the object table. *)
Lemma names_live g w a : guest_ok g -> word w -> names (g_table g) w a ->
  word a /\ (is_object a = true -> live (g_heap g) a).
Proof.
  intros (_ & T & _) W N. destruct N as [w O|w i a O H N Tg].
  - split; auto. congruence.
  - rewrite Forall_forall in T. apply nth_error_In in N. destruct (T a N) as [_ L]. split; auto. now apply live_word in L.
Qed.

Record grown (g g' : guest) : Prop := {
  gr_heap : extends (g_heap g) (g_heap g');
  gr_table : exists x, g_table g' = g_table g ++ x;
  gr_ok : fits (g_heap g') -> guest_ok g -> guest_ok g' }.
Lemma grown_refl g : grown g g.
Proof. split; auto using extends_refl. exists []. now rewrite app_nil_r. Qed.
Lemma grown_trans a b c : grown a b -> grown b c -> grown a c.
Proof.
  intros [A1 [x A2] A3] [B1 [y B2] B3]. split.
  - eapply extends_trans; eauto.
  - exists (x ++ y). now rewrite B2, A2, app_assoc.
  - intros F O. apply B3; auto. apply A3; auto. eapply extends_fits; eauto.
Qed.
Lemma same_grown g g' : same_state g g' -> grown g g'.
Proof.
  intros S. destruct S as (A & B & C) eqn:E. split.
  - rewrite A. apply extends_refl.
  - exists []. now rewrite B, app_nil_r.
  - intros _. now apply same_ok.
Qed.
Lemma grown_stands g g' i t : grown g g' -> stands g i t -> stands g' i t.
Proof.
  intros [X [y T] _] (G & a & N & D). split; auto. exists a. rewrite T. split; [now apply names_app|].
  eapply extends_denotes; eauto.
Qed.

Lemma give_ok g a g' r : (fits (g_heap g) -> guest_ok g -> is_object a = true -> live (g_heap g) a) -> give g a = (g', r) ->
  grown g g' /\ g_heap g' = g_heap g /\ g_mem g' = g_mem g
  /\ (live (g_heap g) a -> Z.of_nat (length (g_table g)) < 2 ^ 31 -> exists w, r = Ok w /\ word w /\ is_good w = true
       /\ names (g_table g') w a /\ (is_object a = true -> length (g_table g') = S (length (g_table g)))
       /\ (is_object a = false -> g_table g' = g_table g)).
Proof.
  intros L. unfold give. destruct (absolute_to_relative (g_table g) a) as [t r1] eqn:A.
  assert (G1 : grown g {| g_heap := g_heap g; g_table := t; g_mem := g_mem g; g_log := g_log g |}).
  { destruct (a2r_cases _ _ _ _ A) as [(O & -> & _)|[(O & _ & -> & _)|[(O & -> & _)|(O & -> & _)]]];
      split; cbn; auto using extends_refl; try (exists []; now rewrite app_nil_r); eauto;
      intros F (H1 & H2 & H3); assert (L' := L F (conj H1 (conj H2 H3)) O);
      split; auto; split; auto; cbn; apply Forall_app; split; auto; constructor; auto; split; auto. }
  intros X. assert (G2 : grown g g' /\ g_heap g' = g_heap g /\ g_mem g' = g_mem g /\ g_table g' = t /\ r = r1).
  { destruct r1; pe X; auto. split; auto. destruct G1 as [A1 A2 A3]. split; auto. }
  destruct G2 as (G2 & H & M & T & ->). split; auto. split; auto. split; auto. intros Lv B.
  destruct (a2r_cases _ _ _ _ A) as [(O & -> & R)|[(O & RL & -> & R)|[(O & -> & LE & R)|(O & -> & LE & e & R)]]].
  - exists a. subst r1. split; auto. destruct Lv as (W & Gd & _). split; auto. split; auto. split; [now constructor|]. split; [congruence|]. now rewrite T.
  - exfalso. destruct (proj2 (proj2 Lv) O) as (i & o & _ & Li & ->). rewrite obj_get_major in RL by auto. destruct (handle_index i) as [RF _]. congruence.
  - subst r1. destruct (a2r_back _ _ _ _ A B) as [N E]. eexists. split; [reflexivity|].
    destruct (object_word_facts (as_u32 (2 * Z.of_nat (length (g_table g)))) (get_tag a) (word_as_u32 _) (obj_in_tags a O))
      as (_ & _ & _ & _ & W & Gd). split; auto. split; auto. rewrite T. split; auto. split; [|congruence]. intros _. rewrite app_length. cbn. lia.
  - exfalso. clear -B LE. unfold u32_max in LE. lia.
Qed.

(* ------------------------------------------------------------ dispatch *)

Lemma dispatch_arg_ok g ty i g' r : dispatch_arg g ty i = (g', r) ->
  same_state g g' /\
  match r with
  | Ok a => is_good (as_u64 i) = true /\ names (g_table g) (as_u64 i) a /\ has_type ty a = true
            /\ check_val_integrity (g_heap g) a = Ok tt
  | Err e => forall a, is_good (as_u64 i) = true -> names (g_table g) (as_u64 i) a ->
             check_val_integrity (g_heap g) a = Ok tt -> has_type ty a = false
  end.
Proof.
  unfold dispatch_arg, marshal_from_wasm. destruct (is_good (as_u64 i)) eqn:G.
  2:{ intros X; pe X. split; [apply same_refl|]. intros a. discriminate. }
  destruct (has_type ty (as_u64 i)) eqn:T.
  2:{ intros X; pe X. split; [apply same_refl|]. intros a _ N _. now rewrite (names_type _ _ _ ty N). }
  destruct (take g (as_u64 i)) as [g1 r1] eqn:TK. apply take_ok in TK as [SM ->].
  destruct (relative_to_absolute (g_table g) (as_u64 i)) as [a|e] eqn:R.
  2:{ intros X; pe X. split; auto. intros a _ N _. apply r2a_names in N. congruence. }
  apply r2a_names in R. destruct (has_type ty a) eqn:T2.
  2:{ rewrite (names_type _ _ _ ty R) in T2. congruence. }
  destruct SM as (S1 & S2 & S3). intros X. destruct (check_val_integrity (g_heap g1) a) as [[]|e] eqn:C; cbn [rbind] in X; pe X;
    (split; [repeat split; auto|]); rewrite S1 in C.
  - auto.
  - intros b _ N V. rewrite (names_fun _ _ _ _ N R) in V. congruence.
Qed.

Lemma dispatch_args_ok l : forall g g' r, dispatch_args g l = (g', r) ->
  same_state g g' /\
  match r with
  | Ok la => Forall2 (fun p a => is_good (as_u64 (snd p)) = true /\ names (g_table g) (as_u64 (snd p)) a
                       /\ has_type (fst p) a = true /\ check_val_integrity (g_heap g) a = Ok tt) l la
  | Err e => Exists (fun p => forall a, is_good (as_u64 (snd p)) = true -> names (g_table g) (as_u64 (snd p)) a ->
                       check_val_integrity (g_heap g) a = Ok tt -> has_type (fst p) a = false) l
  end.
Proof.
  induction l as [|[ty i] l IH]; intros g g' r; cbn [dispatch_args].
  - intros X; pe X. split; [apply same_refl|constructor].
  - destruct (dispatch_arg g ty i) as [g1 r1] eqn:D. apply dispatch_arg_ok in D as [SM D]. destruct r1 as [a|e].
    2:{ intros X; pe X. split; auto. }
    destruct (dispatch_args g1 l) as [g2 rs] eqn:DD. apply IH in DD as [SM2 DD]. intros X; pe X.
    split; [eapply same_trans; eauto|]. destruct SM as (S1 & S2 & S3). rewrite S1, S2 in DD. destruct rs; cbn [rmap].
    + now constructor.
    + now right.
Qed.

Lemma dispatch_result_ok g a g' r : (fits (g_heap g) -> guest_ok g -> word a) -> dispatch_result g a = (g', r) ->
  grown g g' /\ g_heap g' = g_heap g /\ g_mem g' = g_mem g
  /\ (live (g_heap g) a -> Z.of_nat (length (g_table g)) < 2 ^ 31 ->
      exists w, r = Ok w /\ word w /\ is_good w = true /\ names (g_table g') w a).
Proof.
  intros W. unfold dispatch_result. destruct (check_val_integrity (g_heap g) a) as [[]|e] eqn:C.
  - intros X. destruct (give_ok g a g' r (fun F O _ => live_integrity _ _ (W F O) C) X) as (A & B & D & F).
    split; auto. split; auto. split; auto. intros Lv Bd. destruct (F Lv Bd) as (w & H). exists w. tauto.
  - intros X; pe X. split; [apply grown_refl|]. split; auto. split; auto. intros L. rewrite (integrity_live _ _ L) in C. discriminate.
Qed.

(* ------------------------------------------------------------ container functions *)

Lemma call_args_hop {V} (op : hop V) : call_args op = hop_args op.
Proof. now destruct op. Qed.
Lemma arg_types_map {A B} (f : A -> B) (op : hop A) : arg_types (hop_map f op) = arg_types op.
Proof. now destruct op. Qed.
Lemma arg_types_length {V} (op : hop V) tys : arg_types op = Some tys -> length tys = length (call_args op).
Proof. destruct op; cbn; intros E; try discriminate E; injection E as <-; reflexivity. Qed.

Lemma hop_map_ext {A B} (f g : A -> B) op : Forall (fun x => f x = g x) (hop_args op) -> hop_map f op = hop_map g op.
Proof.
  intros F. destruct op; cbn [hop_args hop_map] in *; auto;
    repeat match goal with H : Forall _ (_ :: _) |- _ => inversion H; clear H; subst end; try congruence; f_equal.
  - apply map_ext_in. now apply Forall_forall.
  - apply map_ext_in. now apply Forall_forall.
Qed.

(* arguments of an exported call decide: a wrongly typed one has no meaning *)
Lemma type_none h op (c : call) tys : op = on_words c -> arg_types op = Some tys -> args_denote h c ->
  Exists (fun p => has_type (fst p) (snd p) = false) (combine tys (hop_args op)) -> astep (on_trees c) = None.
Proof.
  intros -> T A E. unfold on_words in *. rewrite arg_types_map in T. rewrite hop_args_map in E. unfold args_denote in A.
  assert (M : forall w t f, denotes h w t -> has_tag w TgMapObject = false -> on_map t f = None).
  { intros w t f D H. pose proof (arg_map_den h w t D) as X. unfold arg_map, typed in X. rewrite H in X. apply X. }
  assert (VV : forall w t f, denotes h w t -> has_tag w TgVecObject = false -> on_vec t f = None).
  { intros w t f D H. pose proof (arg_vec_den h w t D) as X. unfold arg_vec, typed in X. rewrite H in X. apply X. }
  assert (BB : forall w t f, denotes h w t -> has_tag w TgBytesObject = false -> on_bytes t f = None).
  { intros w t f D H. pose proof (arg_bytes_den h w t D) as X. unfold arg_bytes, typed in X. rewrite H in X. apply X. }
  assert (SS : forall w t (f : list Z -> option (list tval)), denotes h w t -> has_tag w TgStringObject = false ->
    match t with TString l => f l | _ => None end = None).
  { intros w t f D H. pose proof (arg_string_den h w t D) as X. unfold arg_string, typed in X. rewrite H in X. apply X. }
  unfold on_trees.
  destruct c; cbn [arg_types hop_args hop_map map] in *; try discriminate T; apply (f_equal (fun o => match o with Some x => x | None => [] end)) in T;
    cbn beta iota in T; subst tys; cbn [combine] in E;
    repeat match goal with H : Forall _ (_ :: _) |- _ => inversion H; clear H; subst end;
    repeat match goal with H : Exists _ (_ :: _) |- _ => inversion H; clear H; subst | H : Exists _ [] |- _ => inversion H end;
    cbn [fst snd has_type] in *; try discriminate; cbn [astep]; eauto.
  - destruct (snd v) as [| | | | | | | | |l| | |]; cbn; auto. eauto.
  - destruct (snd b) as [| | | | | | | | |l| | |]; cbn; auto. eauto.
Qed.

Lemma single d h op h' ws : arg_types op <> None -> hstep d h op = (h', Ok ws) -> exists a, ws = [a].
Proof.
  intros T. unfold hstep.
  assert (AR : forall h o h' ws, add_result h o = (h', Ok ws) -> exists a, ws = [a]).
  { intros h0 o h1 ws0. unfold add_result. destruct (add_host_object h0 o) as [h2 [w|]]; cbn; intros X; apply pair_equal_spec in X as [_ X]; [|discriminate].
    injection X as <-. eauto. }
  assert (RV : forall r l, rval r = Ok (RVals l) -> exists a, l = [a]).
  { intros [x|] l; cbn; intros X; [|discriminate]. injection X as <-. eauto. }
  destruct (hpure d h op) as [[o|l]|e] eqn:P.
  - destruct op; try (now destruct T); apply AR.
  - assert (L : exists a, l = [a]).
    { clear AR h' ws. unfold hpure, robj in P.
      destruct op; try (now destruct T);
      repeat match type of P with
      | rval _ = _ => apply RV in P
      | rbind ?r _ = _ => destruct r; cbn [rbind] in P
      | rmap _ ?r = _ => destruct r; cbn [rmap] in P
      | match ?o with _ => _ end = _ => destruct o
      end; try discriminate P; try exact P; injection P as <-; eauto. }
    destruct op; try (now destruct T); intros X; apply pair_equal_spec in X as [_ X]; injection X as <-; exact L.
  - destruct op; try (now destruct T); intros X; apply pair_equal_spec in X as [_ X]; discriminate.
Qed.

Lemma Forall2_combine {A B C} (P : A * B -> C -> Prop) (la : list A) (lb : list B) (lc : list C) :
  length la = length lb -> Forall2 P (combine la lb) lc -> Forall2 (fun b c => exists a, P (a, b) c) lb lc.
Proof.
  revert la lc. induction lb as [|b lb IH]; intros [|a la] lc L F; cbn in *; try discriminate.
  - inversion F. constructor.
  - inversion F; subst. constructor; eauto.
Qed.

(* the trees of the resolved arguments *)
Lemma resolve_args g (l : list Z) la : guest_ok g ->
  Forall2 (fun i a => names (g_table g) (as_u64 i) a /\ check_val_integrity (g_heap g) a = Ok tt) l la ->
  Forall (fun i => exists t, denotes (g_heap g) (resolved g i) t) l /\ map (resolved g) l = la.
Proof.
  intros O F. induction F as [|i a l la [N C] F [IH1 IH2]]; [split; constructor|].
  assert (R : resolved g i = a). { unfold resolved. apply r2a_names in N. now rewrite N. }
  destruct (names_live g _ a O (as_u64_word i) N) as [W _].
  split; [|cbn; now rewrite R, IH2]. constructor; auto. rewrite R.
  apply live_denotes; [apply O|]. now apply live_integrity.
Qed.

Lemma hop_choose {A B} (P : A -> B -> Prop) (b0 : B) (op : hop A) : Forall (fun x => exists y, P x y) (hop_args op) ->
  exists c : hop (A * B), hop_map fst c = op /\ Forall (fun p => P (fst p) (snd p)) (hop_args c).
Proof.
  assert (L : forall l, Forall (fun x => exists y, P x y) l -> exists c : list (A * B), map fst c = l /\ Forall (fun p => P (fst p) (snd p)) c).
  { induction 1 as [|x l [y H] F (c & <- & G)]; [exists []; auto|]. exists ((x, y) :: c). split; auto. }
  intros F. destruct op; cbn [hop_args] in F;
    repeat match goal with H : Forall _ (_ :: _) |- _ => apply Forall_cons_iff in H as [[? ?] H] end.
  all: try (apply L in F as (c & <- & G)).
  all: clear L b0.
  Local Ltac fin := split; [reflexivity|cbn [hop_args]; repeat (apply Forall_cons; [cbn [fst snd]; eassumption|]); apply Forall_nil].
  - exists OMapNew; fin.
  - eexists (OMapPut (_, _) (_, _) (_, _)); fin.
  - eexists (OMapGet (_, _) (_, _)); fin.
  - eexists (OMapDel (_, _) (_, _)); fin.
  - eexists (OMapLen (_, _)); fin.
  - eexists (OMapHas (_, _) (_, _)); fin.
  - eexists (OMapKeyByPos (_, _) _); fin.
  - eexists (OMapValByPos (_, _) _); fin.
  - eexists (OMapKeys (_, _)); fin.
  - eexists (OMapValues (_, _)); fin.
  - eexists (OMapFromSlices _ _ c); split; [reflexivity|exact G].
  - eexists (OMapUnpack _ (_, _) _); fin.
  - exists OVecNew; fin.
  - eexists (OVecFromSlice c); split; [reflexivity|exact G].
  - eexists (OVecUnpack (_, _) _); fin.
  - eexists (OVecPut (_, _) _ (_, _)); fin.
  - eexists (OVecGet (_, _) _); fin.
  - eexists (OVecDel (_, _) _); fin.
  - eexists (OVecLen (_, _)); fin.
  - eexists (OVecPushFront (_, _) (_, _)); fin.
  - eexists (OVecPopFront (_, _)); fin.
  - eexists (OVecPushBack (_, _) (_, _)); fin.
  - eexists (OVecPopBack (_, _)); fin.
  - eexists (OVecFront (_, _)); fin.
  - eexists (OVecBack (_, _)); fin.
  - eexists (OVecInsert (_, _) _ (_, _)); fin.
  - eexists (OVecAppend (_, _) (_, _)); fin.
  - eexists (OVecSlice (_, _) _ _); fin.
  - eexists (OVecFirstIndexOf (_, _) (_, _)); fin.
  - eexists (OVecLastIndexOf (_, _) (_, _)); fin.
  - exists OBytesNew; fin.
  - eexists (OBytesPut (_, _) _ _); fin.
  - eexists (OBytesGet (_, _) _); fin.
  - eexists (OBytesDel (_, _) _); fin.
  - eexists (OBytesLen (_, _)); fin.
  - eexists (OBytesPush (_, _) _); fin.
  - eexists (OBytesPop (_, _)); fin.
  - eexists (OBytesFront (_, _)); fin.
  - eexists (OBytesBack (_, _)); fin.
  - eexists (OBytesInsert (_, _) _ _); fin.
  - eexists (OBytesAppend (_, _) (_, _)); fin.
  - eexists (OBytesSlice (_, _) _ _); fin.
  - eexists (OStringLen (_, _)); fin.
  - eexists (OStringToBytes (_, _)); fin.
  - eexists (OBytesToString (_, _)); fin.
  - eexists (OCreateExecutableTag (_, _)); fin.
Qed.

Lemma hstep_extends d h op h' r : hstep d h op = (h', r) -> Forall (fun a => exists t, denotes h a t) (hop_args op) ->
  extends h h' /\ (fits h' -> heap_ok h -> heap_ok h' /\ match r with Ok ws => Forall (live h') ws | Err _ => True end).
Proof.
  intros E F. destruct (hop_choose (denotes h) TVoid op F) as (c & W & A).
  change (hop_map fst c) with (on_words c) in W. rewrite <- W in E. destruct (hstep_ok d h c h' r A E) as [X Y].
  split; auto. intros Ft O. destruct (Y Ft) as [O' P]. split; auto. destruct r as [ws|]; auto.
  destruct P as (ts & _ & D). clear -D. induction D; constructor; auto. eapply denotes_live; eauto.
Qed.

Lemma host_call_grown d g op g' r : guest_ok g -> host_call d g op = (g', r) -> grown g g' /\ g_mem g' = g_mem g.
Proof.
  intros O. unfold host_call. destruct (arg_types op) as [tys|] eqn:T; [|intros X; pe X; split; auto using grown_refl].
  destruct (dispatch_args g _) as [g1 ra] eqn:D. apply dispatch_args_ok in D as [SM D].
  destruct ra as [la|]; [|intros X; pe X; split; [now apply same_grown|apply SM]].
  apply Forall2_combine in D; [|now apply arg_types_length].
  assert (O1 : guest_ok g1) by (eapply same_ok; eauto). destruct SM as (S1 & S2 & S3).
  assert (D1 : Forall2 (fun i a => names (g_table g1) (as_u64 i) a /\ check_val_integrity (g_heap g1) a = Ok tt) (call_args op) la).
  { rewrite S1, S2. clear -D. induction D as [|i a l la (ty & H) D IH]; constructor; auto. cbn in H. tauto. }
  destruct (resolve_args g1 _ _ O1 D1) as [R1 R2].
  destruct (hstep d (g_heap g1) _) as [h rr] eqn:HS.
  destruct (hstep_extends _ _ _ _ _ HS) as [X Y].
  { rewrite hop_args_map. apply Forall_map. rewrite <- call_args_hop. exact R1. }
  assert (G2 : grown g (set_heap g1 h)).
  { apply (grown_trans _ g1); [apply same_grown; now repeat split|]. split; cbn; auto.
    - exists []. now rewrite app_nil_r.
    - intros F (Q1 & Q2 & Q3). split; [now apply (Y F)|]. split; auto. cbn. eapply extends_handed; eauto. }
  destruct rr as [ws|]; [|intros Z; pe Z; split; auto].
  destruct ws as [|a [|]]; try (intros Z; pe Z; split; auto; fail).
  intros Z. destruct (dispatch_result_ok (set_heap g1 h) a g' r) as (A1 & A2 & A3 & _); auto.
  { intros F _. destruct (Y F (proj1 O1)) as [_ L]. inversion L; subst. eapply live_word; eauto. }
  split; [eapply grown_trans; eauto|]. now rewrite A3.
Qed.

Lemma word_stands g w a t : word w -> is_good w = true -> names (g_table g) w a -> denotes (g_heap g) a t -> stands g w t.
Proof. intros W G N D. unfold stands. rewrite as_u64_id by auto. eauto. Qed.

Lemma combine_In_snd {A B} (la : list A) (lb : list B) p : In p (combine la lb) -> In (snd p) lb.
Proof. destruct p. apply in_combine_r. Qed.

Theorem host_call_means d g c g' r : guest_ok g -> arg_types (on_words c) <> None -> stands_all g c ->
  host_call d g (on_words c) = (g', r) -> fits (g_heap g') -> Z.of_nat (length (g_table g)) < 2 ^ 31 ->
  match r with
  | Ok w => exists t, astep (on_trees c) = Some [t] /\ stands g' w t
  | Err e => astep (on_trees c) = None \/ (e = e_depth /\ too_deep d c)
  end.
Proof.
  intros O TY ST HC F LT. destruct (host_call_grown _ _ _ _ _ O HC) as [_ _].
  unfold host_call in HC. destruct (arg_types (on_words c)) as [tys|] eqn:T; [|now destruct TY].
  destruct (dispatch_args g _) as [g1 ra] eqn:D. apply dispatch_args_ok in D as [SM D].
  assert (O1 : guest_ok g1) by (eapply same_ok; eauto).
  (* the call on resolved words *)
  set (c1 := hop_map (fun p => (resolved g (fst p), snd p)) c : call).
  assert (W1 : on_words c1 = hop_map (resolved g) (on_words c)).
  { unfold c1, on_words. now rewrite !hop_map_map. }
  assert (T1 : on_trees c1 = on_trees c).
  { unfold c1, on_trees. now rewrite !hop_map_map. }
  assert (A1 : args_denote (g_heap g) c1).
  { unfold args_denote, c1. rewrite hop_args_map. apply Forall_map. eapply Forall_impl; [|exact ST].
    intros p (_ & a & N & Dn). cbn. unfold resolved. apply r2a_names in N. rewrite N. exact Dn. }
  destruct ra as [la|e].
  2:{ apply pair_equal_spec in HC as [<- <-]. left. rewrite <- T1.
      apply (type_none (g_heap g) (on_words c1) c1 tys eq_refl); auto.
      { rewrite W1, arg_types_map. exact T. }
      rewrite W1, hop_args_map. rewrite call_args_hop in D.
      apply Exists_exists in D as (p & I & H). apply Exists_exists. exists (fst p, resolved g (snd p)). split.
      { clear -I. revert I. generalize (hop_args (on_words c)). intros l. revert tys. induction l as [|i l IH]; intros [|ty tys]; cbn; try tauto.
        intros [<-|I]; [now left|right; auto]. }
      cbn [fst snd]. apply combine_In_snd in I. unfold on_words in I. rewrite hop_args_map in I. apply in_map_iff in I as (q & E & I).
      unfold stands_all in ST. rewrite Forall_forall in ST. destruct (ST q I) as (G & a & N & Dn). rewrite E in *.
      unfold resolved. pose proof N as N2. apply r2a_names in N2. rewrite N2. apply H; auto. eapply integrity; eauto. }
  destruct SM as (S1 & S2 & S3).
  assert (R1 : hop_map (resolved g1) (on_words c) = on_words c1).
  { rewrite W1. apply hop_map_ext, Forall_forall. intros i _. unfold resolved. now rewrite S2. }
  rewrite R1, S1 in HC. destruct (hstep d (g_heap g) (on_words c1)) as [h rr] eqn:HS.
  destruct (hstep_ok d _ c1 h rr A1 HS) as [X Y].
  assert (DEEP : too_deep d c1 -> too_deep d c).
  { unfold too_deep, c1. rewrite hop_args_map. intros E. apply Exists_exists in E as (p & I & L). apply in_map_iff in I as (q & <- & I).
    apply Exists_exists. exists q. auto. }
  destruct rr as [ws|e].
  2:{ apply pair_equal_spec in HC as [<- <-]. destruct (Y F) as [_ P]. cbn in P. rewrite T1 in P. destruct P as [P|[P Q]]; auto. }
  destruct (single d (g_heap g) (on_words c1) h ws) as [a ->]; auto.
  { rewrite W1, arg_types_map, T. discriminate. }
  assert (Eh : g_heap g' = h).
  { unfold dispatch_result, give in HC. destruct (check_val_integrity _ a); [|apply pair_equal_spec in HC as [<- _]; reflexivity].
    destruct (absolute_to_relative _ a) as [t [w|]]; apply pair_equal_spec in HC as [<- _]; reflexivity. }
  rewrite Eh in F. destruct (Y F) as [OH P]. cbn in P. destruct P as (ts & At & DL). inversion DL as [|? t ? ? Da DN]; subst. inversion DN; subst.
  destruct (dispatch_result_ok (set_heap g1 (g_heap g')) a g' r) as (B1 & B2 & B3 & B4); auto.
  { intros _ _. eapply live_word, denotes_live; eauto. }
  destruct B4 as (w & -> & Ww & Gw & Nw).
  { eapply denotes_live; eauto. }
  { cbn. now rewrite S2. }
  exists t. rewrite <- T1. split; auto. eapply word_stands; eauto.
Qed.

Lemma new_object_grown g o g' r : (fits (g_heap g') -> guest_ok g -> exists t, obj_denotes (g_heap g) o t) -> new_object g o = (g', r) ->
  grown g g' /\ g_mem g' = g_mem g.
Proof.
  intros T. unfold new_object. destruct (add_host_object (g_heap g) o) as [h ra] eqn:A.
  pose proof (add_prefix _ _ _ _ A) as X.
  assert (G1 : (fits h -> guest_ok g -> exists t, obj_denotes (g_heap g) o t) -> grown g (set_heap g h)).
  { clear T. intros T. split; cbn; auto.
    - exists []. now rewrite app_nil_r.
    - intros F (Q1 & Q2 & Q3). destruct (T F (conj Q1 (conj Q2 Q3))) as [t D].
      destruct (add_step _ _ t _ _ A (fun _ => D)) as [_ S]. split; [now apply (S F)|]. split; auto. cbn. eapply extends_handed; eauto. }
  destruct ra as [a|e]; intros Z.
  2:{ pe Z. auto. }
  assert (W : word a).
  { unfold add_host_object in A. destruct (index_to_handle (length (g_heap g)) false) as [hd|] eqn:I; [|discriminate].
    apply pair_equal_spec in A as [_ A]. assert (a = object_word hd (hobj_tag o)) by congruence. subst a.
    apply object_word_facts; [|apply hobj_tag_object]. unfold index_to_handle in I. destruct (fits_u32 _); [|discriminate].
    assert (HE : hd = Z.lor (as_u32 (Z.shiftl (Z.of_nat (length (g_heap g))) 1)) 1) by congruence. rewrite HE.
    clear. rewrite Z.shiftl_mul_pow2 by lia. change (2 ^ 1) with 2.
    replace (as_u32 (Z.of_nat (length (g_heap g)) * 2)) with (Z.shiftl (Z.of_nat (length (g_heap g)) mod 2 ^ 31) 1).
    - rewrite lor_shift_low by lia. lia.
    - rewrite Z.shiftl_mul_pow2 by lia. unfold as_u32. lia. }
  destruct (dispatch_result_ok (set_heap g h) a g' r (fun _ _ => W) Z) as (A1 & A2 & A3 & _).
  cbn in A2. rewrite A2 in T. specialize (G1 T). split; [eapply grown_trans; eauto|]. now rewrite A3.
Qed.

Lemma new_object_means g o t g' r : obj_denotes (g_heap g) o t -> new_object g o = (g', r) -> fits (g_heap g') ->
  Z.of_nat (length (g_table g)) < 2 ^ 31 -> exists w, r = Ok w /\ stands g' w t.
Proof.
  intros D Z F LT. unfold new_object in Z. destruct (add_host_object (g_heap g) o) as [h ra] eqn:A.
  assert (Eh : g_heap g' = h).
  { destruct ra as [a|]; [|apply pair_equal_spec in Z as [<- _]; reflexivity].
    unfold dispatch_result, give in Z. destruct (check_val_integrity _ a); [|apply pair_equal_spec in Z as [<- _]; reflexivity].
    destruct (absolute_to_relative _ a) as [tt [w|]]; apply pair_equal_spec in Z as [<- _]; reflexivity. }
  rewrite Eh in F. destruct (add_step _ _ t _ _ A (fun _ => D)) as [_ S]. destruct (S F) as [_ S2].
  destruct ra as [a|e]; [|destruct (add_fits _ _ _ _ A F)].
  pose proof (S2 a eq_refl) as Da. pose proof (denotes_live _ _ _ Da) as La.
  destruct (dispatch_result_ok (set_heap g h) a g' r (fun _ _ => live_word _ _ La) Z) as (B1 & B2 & B3 & B4).
  destruct (B4 La LT) as (w & -> & Ww & Gw & Nw). exists w. split; auto. eapply word_stands; eauto. now rewrite Eh.
Qed.

Lemma give_all_grown l : forall g g' r, Forall (live (g_heap g)) l -> give_all g l = (g', r) ->
  grown g g' /\ g_heap g' = g_heap g /\ g_mem g' = g_mem g.
Proof.
  induction l as [|a l IH]; intros g g' r F; cbn.
  - intros X; pe X. auto using grown_refl.
  - inversion F; subst. destruct (give g a) as [g1 w] eqn:G. destruct (give_ok g a g1 w (fun _ _ _ => H1) G) as (A & B & C & _).
    destruct w.
    + destruct (give_all g1 l) as [g2 ws] eqn:GA. apply IH in GA as (A' & B' & C'); [|now rewrite B].
      intros X; pe X. split; [eapply grown_trans; eauto|]. now rewrite B', C'.
    + intros X; pe X. auto.
Qed.

Lemma visit_vec_live h a l : heap_ok h -> live h a -> visit_vec h a = Ok l -> Forall (live h) l.
Proof.
  intros O L V. destruct (live_denotes h a O L) as [t D]. unfold visit_vec, visit_obj_untyped in V.
  destruct (is_relative_handle _); [discriminate|]. destruct (nth_error h (handle_to_index (get_major a))) as [o|] eqn:N; [|discriminate].
  cbn in V. destruct o; try discriminate. injection V as ->.
  unfold heap_ok in O. rewrite Forall_forall in O. apply nth_error_In in N. destruct (O _ N) as [u U].
  inversion U as [| | | |l' ts Sh DL| | | | |]; subst. clear -DL. induction DL; constructor; auto. eapply denotes_live; eauto.
Qed.
Lemma visit_map_live h a m : heap_ok h -> visit_map h a = Ok m -> exists ts, denotes_pairs h m ts /\ map_sorted ts /\ short m.
Proof.
  intros O V. unfold visit_map, visit_obj_untyped in V.
  destruct (is_relative_handle _); [discriminate|]. destruct (nth_error h (handle_to_index (get_major a))) as [o|] eqn:N; [|discriminate].
  cbn in V. destruct o; try discriminate. injection V as ->.
  unfold heap_ok in O. rewrite Forall_forall in O. apply nth_error_In in N. destruct (O _ N) as [u U].
  inversion U; subst. eauto.
Qed.
