(* C79: the work next to the charges is not less than what there is to do. *)
From Coq Require Import ZArith Lia List Bool.
From Verif Require Import Prelude ValModel ContainerModel HeapModel BudgetModel StorageModel PaySpec PayModel PayWorkSpec.
Import ListNotations.
Open Scope Z_scope.
Ltac Zify.zify_post_hook ::= idtac.

Lemma work_app k s t : work k (s ++ t) = work k s + work k t.
Proof. unfold work. induction s as [|x s IH]; [reflexivity|]. cbn [app sum_of]. rewrite IH. lia. Qed.
Definition sane (t : list step) : Prop := forall k, 0 <= work k t.

Lemma len_pos' {A} (l : list A) : 0 <= len l.
Proof. unfold len. lia. Qed.
Lemma len_cons' {A} (x : A) l : len (x :: l) = 1 + len l.
Proof. unfold len. cbn [length]. lia. Qed.
Lemma examined_pos a : forall b, 0 <= examined a b.
Proof.
  induction a as [|x a IH]; intros [|y b]; cbn [examined]; try lia. specialize (IH b). destruct (x =? y); lia.
Qed.
Lemma examined_all a : forall b, bytes_cmp a b = Eq -> examined a b = len a.
Proof.
  induction a as [|x a IH]; intros [|y b] E; cbn [bytes_cmp] in E; try discriminate; [reflexivity|].
  destruct (x ?= y) eqn:C; try discriminate. apply Z.compare_eq in C. subst y.
  cbn [examined]. rewrite Z.eqb_refl, len_cons'. rewrite (IH b E). reflexivity.
Qed.

(* sequencing *)
Definition fine {A} (m : op A) : Prop := sane (fst m).
Lemma fine_bind {A B} (m : op A) (f : A -> op B) : fine m -> (forall x, fine (f x)) -> fine (obnd m f).
Proof.
  intros F G k. unfold obnd. destruct (snd m) as [x|e]; cbn [fst]; [|apply F].
  rewrite work_app. specialize (F k). specialize (G x k). unfold fine, sane in *. lia.
Qed.
Lemma fine_pay ty n : fine (pay ty n).
Proof. intros k. destruct k; unfold work; cbn; lia. Qed.
Lemma fine_ret {A} (x : A) : fine (ret x).
Proof. intros k. unfold work; cbn; lia. Qed.
Lemma fine_fail {A} e : fine (@fail A e).
Proof. intros k. unfold work; cbn; lia. Qed.
Lemma fine_match n : 0 <= n -> fine (act (Match n)).
Proof. intros N k. destruct k; unfold work; cbn; lia. Qed.
Lemma fine_read n : 0 <= n -> fine (act (Read n)).
Proof. intros N k. destruct k; unfold work; cbn; lia. Qed.
Lemma fine_fixed ds rs c : 0 <= rs -> fine (mcmp_fixed ds rs c).
Proof. intros R. apply fine_bind; [apply fine_pay|intros _]. apply fine_bind; [apply fine_match, R|intros; apply fine_ret]. Qed.
Lemma fine_bytes a b : fine (mcmp_bytes a b).
Proof. apply fine_bind; [apply fine_pay|intros _]. apply fine_bind; [apply fine_match, examined_pos|intros; apply fine_ret]. Qed.
Lemma fine_elems {A} rs (f : A -> A -> op comparison) : 0 <= rs -> (forall x y, fine (f x y)) ->
  forall a b, fine (cmp_elems rs f a b).
Proof.
  intros R F. induction a as [|x a IH]; intros [|y b]; cbn [cmp_elems]; try apply fine_ret.
  apply fine_bind; [apply fine_read, R|intros _]. apply fine_bind; [apply F|]. intros [| |]; auto using fine_ret.
Qed.
Lemma fine_pair {A} (f : A -> A -> op comparison) p q : (forall x y, fine (f x y)) -> fine (mcmp_pair f p q).
Proof. intros F. apply fine_bind; [apply F|]. intros [| |]; auto using fine_ret. Qed.
Lemma fine_scvec {A} ds rs (f : A -> A -> op comparison) a b : 0 <= rs -> (forall x y, fine (f x y)) -> fine (mcmp_scvec ds rs f a b).
Proof. intros R F. apply fine_bind; [apply fine_pay|intros _]. apply fine_elems; assumption. Qed.
Lemma exe_examined_pos a b : 0 <= exe_examined a b.
Proof.
  destruct a, b; cbn [exe_examined]; try lia. pose proof (examined_pos tag tag0). destruct (addr_cmp owner owner0); lia.
Qed.

Lemma fine_scval d : forall a b, fine (mcmp_scval d a b).
Proof.
  induction d as [|d IH]; intros a b; [apply fine_fail|].
  assert (P : forall x y, fine (mcmp_scvec 192 192 (mcmp_pair (mcmp_scval d)) x y)).
  { intros. apply fine_scvec; [lia|]. intros. apply fine_pair, IH. }
  destruct a as [| | | | | | | | | | | | | | | |[x|]|[x|]| |e x| | |], b as [| | | | | | | | | | | | | | | |[y|]|[y|]| |f y| | |];
    cbn [mcmp_scval];
    try apply fine_ret; try apply fine_fail; try apply fine_bytes; try apply P; try (apply fine_fixed; lia);
    try (apply fine_scvec; [lia|exact IH]).
  apply fine_bind; [apply fine_fixed, exe_examined_pos|]. intros [| |]; try apply fine_ret.
  destruct x, y; auto using fine_ret.
Qed.

(* ------------------------------------------------------------ equal *)

Lemma bind_work {A B} (m : op A) (f : A -> op B) r : snd (obnd m f) = Ok r ->
  exists x, snd m = Ok x /\ snd (f x) = Ok r /\ forall k, work k (fst (obnd m f)) = work k (fst m) + work k (fst (f x)).
Proof.
  unfold obnd. destruct (snd m) as [x|e]; cbn [fst snd]; intros E; [|discriminate].
  exists x. split; [reflexivity|]. split; [exact E|]. intros k. apply work_app.
Qed.
Ltac binds H x E W := apply bind_work in H; destruct H as (x & E & H & W).

Lemma eq_bytes a b : looked_at (len a) 0 (mcmp_bytes a b).
Proof.
  unfold looked_at, mcmp_bytes. intros H. cbn [obnd pay act ret fst snd app] in *.
  injection H as H. rewrite (examined_all _ _ H). unfold work; cbn. lia.
Qed.
Lemma eq_fixed ds rs c : looked_at rs 0 (mcmp_fixed ds rs c).
Proof. unfold looked_at, mcmp_fixed. intros _. unfold work; cbn. lia. Qed.

Fixpoint total {A} (g : A -> Z) (l : list A) : Z := match l with [] => 0 | x :: l => g x + total g l end.

Lemma eq_elems {A} rs (f : A -> A -> op comparison) gb gm :
  (forall x y, looked_at (gb x) (gm x) (f x y)) ->
  forall a b, looked_at (total gb a) (total (fun x => rs + gm x) a) (cmp_elems rs f a b).
Proof.
  intros F. induction a as [|x a IH]; intros [|y b] H; cbn [cmp_elems] in H |- *; try discriminate.
  - unfold work; cbn; lia.
  - binds H u E W. binds H c E2 W2. rewrite !W, !W2.
    destruct c; [|discriminate|discriminate].
    destruct (F x y E2) as [F1 F2]. destruct (IH b H) as [I1 I2].
    cbn [total]. unfold act at 1 2. cbn [fst]. replace (work Bytes [Read rs]) with 0 by reflexivity.
    replace (work Memory [Read rs]) with rs by (unfold work; cbn; lia). lia.
Qed.
Lemma eq_scvec {A} ds rs (f : A -> A -> op comparison) gb gm :
  (forall x y, looked_at (gb x) (gm x) (f x y)) ->
  forall a b, looked_at (total gb a) (total (fun x => rs + gm x) a) (mcmp_scvec ds rs f a b).
Proof.
  intros F a b H. unfold mcmp_scvec in H |- *. binds H u E W. rewrite !W.
  destruct (eq_elems rs f gb gm F a b H) as [I1 I2]. pose proof (fine_pay MemCpy (sat_u64 (ds * Z.min (len a) (len b)))) as P.
  pose proof (P Bytes). pose proof (P Memory). lia.
Qed.
Lemma eq_pair {A} (f : A -> A -> op comparison) gb gm p q :
  (forall x y, looked_at (gb x) (gm x) (f x y)) ->
  looked_at (gb (fst p) + gb (snd p)) (gm (fst p) + gm (snd p)) (mcmp_pair f p q).
Proof.
  intros F H. unfold mcmp_pair in H |- *. binds H c E W. rewrite !W. destruct c; try discriminate.
  destruct (F _ _ E), (F _ _ H). lia.
Qed.
Lemma eq_exe e f : looked_at (exe_content e) 0 (mcmp_exe e f).
Proof.
  unfold looked_at, mcmp_exe, mcmp_fixed. cbn [obnd pay act ret fst snd app]. intros H. injection H as H.
  replace (work Bytes _) with (exe_examined e f) by (unfold work; cbn; lia).
  replace (work Memory _) with 0 by (unfold work; cbn; lia). split; [|lia].
  destruct e, f; cbn [exe_cmp exe_examined exe_content] in *; try discriminate; try lia.
  unfold then_cmp in H. destruct (addr_cmp owner owner0); try discriminate. rewrite (examined_all _ _ H). lia.
Qed.

Lemma content_vec l : content (SVec (Some l)) = total content l.
Proof. cbn [content]. induction l as [|x l IH]; [reflexivity|]. cbn [total]. rewrite <- IH. reflexivity. Qed.
Lemma content_map m : content (SMap (Some m)) = total (fun p => content (fst p) + content (snd p)) m.
Proof. cbn [content]. induction m as [|[x y] l IH]; [reflexivity|]. cbn [total fst snd]. rewrite <- IH. lia. Qed.
Lemma content_inst e m : content (SContractInstance e (Some m)) = exe_content e + content (SMap (Some m)).
Proof. reflexivity. Qed.
Lemma slots_vec l : slots (SVec (Some l)) = total (fun x => 96 + slots x) l.
Proof. cbn [slots]. induction l as [|x l IH]; [reflexivity|]. cbn [total]. rewrite <- IH. reflexivity. Qed.
Lemma slots_map m : slots (SMap (Some m)) = total (fun p => 192 + (slots (fst p) + slots (snd p))) m.
Proof. cbn [slots]. induction m as [|[x y] l IH]; [reflexivity|]. cbn [total fst snd]. rewrite <- IH. lia. Qed.
Lemma slots_inst e m : slots (SContractInstance e (Some m)) = slots (SMap (Some m)).
Proof. reflexivity. Qed.

Lemma eq_scval d : forall a b, looked_at (content a) (slots a) (mcmp_scval d a b).
Proof.
  induction d as [|d IH]; intros a b; [discriminate|].
  assert (P : forall x y, looked_at (content (SMap (Some x))) (slots (SMap (Some x))) (mcmp_scvec 192 192 (mcmp_pair (mcmp_scval d)) x y)).
  { intros. rewrite content_map, slots_map.
    apply (eq_scvec 192 192 _ (fun p => content (fst p) + content (snd p)) (fun p => slots (fst p) + slots (snd p))).
    intros p q. apply (eq_pair _ content slots), IH. }
  destruct a as [| | | | | | | | | | | | | | | |[x|]|[x|]| |e x| | |], b as [| | | | | | | | | | | | | | | |[y|]|[y|]| |f y| | |];
    cbn [mcmp_scval]; try discriminate; try (intros H; discriminate H);
    try (apply eq_bytes); try (apply eq_fixed); try (exact (P _ _));
    try (rewrite content_vec, slots_vec; apply eq_scvec, IH);
    try (intros _; unfold work; cbn; lia).
  intros H. binds H c E W. rewrite !W. destruct (eq_exe e f) as [X1 X2].
  { rewrite E. destruct c; [reflexivity| |]; discriminate H. }
  destruct c; try discriminate.
  destruct x as [x|], y as [y|]; try discriminate H.
  - rewrite content_inst, slots_inst. destruct (P x y H). lia.
  - assert (Z0 : forall k, work k (fst (@ret comparison Eq)) = 0) by (intros []; reflexivity).
    rewrite !Z0. cbn [content slots]. lia.
Qed.

Lemma eq_key d a b : looked_at (key_content a) (key_slots a) (mcmp_lkey d a b).
Proof.
  destruct a, b; cbn [mcmp_lkey]; try discriminate; try (apply eq_fixed); try (intros H; discriminate H).
  intros H. binds H c E W. rewrite !W. destruct (eq_fixed 48 48 (addr_cmp contract contract0)) as [X1 X2].
  { rewrite E. destruct c; [reflexivity| |]; discriminate H. }
  destruct c; try discriminate. binds H c E2 W2. rewrite !W2. destruct c; try discriminate.
  destruct (eq_scval d _ _ E2) as [Y1 Y2]. destruct (eq_fixed 4 4 _ H) as [Z1 Z2].
  cbn [key_content key_slots]. lia.
Qed.

(* Two values or two ledger keys cannot be found equal without their contents having
   been compared and the elements of their containers fetched, at every level. *)
Theorem C79_equality_reads_everything d :
  (forall a b, looked_at (content a) (slots a) (mcmp_scval d a b))
  /\ (forall a b, looked_at (key_content a) (key_slots a) (mcmp_lkey d a b)).
Proof. split; [apply eq_scval|apply eq_key]. Qed.
Print Assumptions C79_equality_reads_everything.

Example C79_equality_hyp :
  let v := SVec (Some [SString [104; 105; 33]; SMap (Some [(SU32 1, SBytes [7; 8])])]) in
  snd (mcmp_scval 5 v v) = Ok Eq /\ content v = 9 /\ slots v = 384
  /\ work Bytes (fst (mcmp_scval 5 v v)) = 9 /\ work Memory (fst (mcmp_scval 5 v v)) = 384.
Proof. repeat split; vm_compute; reflexivity. Qed.

(* ------------------------------------------------------------ host objects *)

Lemma fine_visit h a : fine (mvisit h a).
Proof.
  apply fine_bind; [intros k; destruct k; unfold work; cbn; lia|intros _].
  apply fine_bind; [intros k; destruct k; unfold work; cbn; lia|intros _]. intros k. unfold work; cbn; lia.
Qed.
Lemma fine_hobj cv a b : (forall x y, fine (cv x y)) -> fine (mcmp_hobj cv a b).
Proof.
  intros F. destruct a, b; cbn [mcmp_hobj]; try apply fine_ret; try apply fine_bytes; try (apply fine_fixed; lia).
  - destruct (numty_eqb k k0); [apply fine_fixed; destruct k; cbn; lia|apply fine_ret].
  - unfold mv_compare. apply fine_bind; [apply fine_pay|intros _]. apply fine_bind; [apply fine_pay|intros _].
    apply fine_elems; [lia|exact F].
  - apply fine_scvec; [lia|]. intros. apply fine_pair, F.
Qed.
Lemma fine_small o v : fine (mtry_small o v).
Proof.
  destruct o; cbn [mtry_small]; try apply fine_ret.
  - destruct (small_to_num k v); [|apply fine_ret]. apply fine_bind; [apply fine_fixed; destruct k; cbn; lia|intros; apply fine_ret].
  - destruct (has_tag v TgSymbolSmall); [|apply fine_ret]. apply fine_bind; [apply fine_bytes|intros; apply fine_ret].
Qed.
Lemma fine_val d h : forall a b, fine (mcmp_val d h a b).
Proof.
  induction d as [|d IH]; intros a b; cbn [mcmp_val]; (destruct (a =? b); [apply fine_ret|]);
    (destruct (is_object a || is_object b); [|apply fine_ret]); unfold mobj_cmp; cbv zeta;
    (assert (FF : forall r : option comparison, fine (match r with Some c => ret c | None =>
        if scty_num a =? scty_num b then fail (ESys TValue CInternalError) else ret (scty_num a ?= scty_num b) end))
       by (intros [r|]; [apply fine_ret|]; destruct (scty_num a =? scty_num b); [apply fine_fail|apply fine_ret]));
    (destruct (is_object a), (is_object b); [| | |apply fine_fail]);
    (apply fine_bind; [apply fine_visit|intros ao]);
    try (apply fine_bind; [apply fine_small|intros; apply FF]);
    (apply fine_bind; [apply fine_visit|intros bo]); (apply fine_bind; [|intros c; apply (FF (Some c))]).
  - apply fine_fail.
  - apply fine_hobj, IH.
Qed.

Lemma total_zero {A} rs (l : list A) : total (fun _ => rs + 0) l = rs * len l.
Proof. induction l as [|x l IH]; [unfold len; cbn; lia|]. cbn [total]. rewrite IH, len_cons'. lia. Qed.
Lemma total_nil {A} (l : list A) : total (fun _ => 0) l = 0.
Proof. induction l as [|x l IH]; [reflexivity|]. cbn [total]. lia. Qed.

Lemma fine_looked m : fine m -> looked_at 0 0 m.
Proof. intros F _. split; apply F. Qed.

Lemma eq_hobj cv a b : (forall x y, fine (cv x y)) -> looked_at (obj_content a) (obj_slots a) (mcmp_hobj cv a b).
Proof.
  intros F. assert (L : forall x y, looked_at 0 0 (cv x y)) by (intros; apply fine_looked, F).
  destruct a, b; cbn [mcmp_hobj]; try (apply eq_bytes); try (apply eq_fixed); try (intros H; discriminate H);
    try (intros H; destruct k; discriminate H).
  - destruct (numty_eqb k k0) eqn:K.
    + destruct k; apply eq_fixed.
    + intros H. exfalso. destruct k, k0; discriminate.
  - intros H. unfold mv_compare in H |- *. binds H u E W. binds H u2 E2 W2. rewrite !W, !W2.
    destruct (eq_elems 8 cv (fun _ => 0) (fun _ => 0) L _ _ H) as [I1 I2]. rewrite total_nil in I1. rewrite total_zero in I2.
    pose proof (fine_pay MemCpy (sat_u64 (8 * Z.min (len l) (len l0)))) as P1.
    pose proof (fine_pay MemCmp (sat_u64 (8 * Z.min (len l) (len l0)))) as P2.
    pose proof (P1 Bytes). pose proof (P1 Memory). pose proof (P2 Bytes). pose proof (P2 Memory).
    cbn [obj_content obj_slots]. lia.
  - cbn [obj_content obj_slots]. rewrite <- (total_nil m), <- (total_zero 16 m).
    apply eq_scvec. intros p q. exact (eq_pair cv (fun _ => 0) (fun _ => 0) p q L).
Qed.

(* Two different words that are found equal are objects that were both looked up,
   and whose bytes were compared or elements fetched. *)
Theorem C79_equal_objects_were_read d h a b oa ob :
  a <> b -> is_object a = true -> is_object b = true ->
  visit_obj_untyped h a = Ok oa -> visit_obj_untyped h b = Ok ob ->
  snd (mcmp_val d h a b) = Ok Eq ->
  let t := fst (mcmp_val d h a b) in
  2 <= work Objects t /\ obj_content oa <= work Bytes t /\ obj_slots oa <= work Memory t.
Proof.
  intros N Oa Ob Va Vb H t. subst t. destruct d as [|d]; cbn [mcmp_val] in H |- *;
    rewrite (proj2 (Z.eqb_neq a b) N), Oa in H |- *; cbn [orb] in H |- *;
    unfold mobj_cmp in H |- *; rewrite Oa, Ob in H |- *; cbv zeta in H |- *;
    binds H x E W; binds H y E2 W2; binds H c E3 W3; [discriminate E3|].
  assert (Ex : x = oa) by (cbn in E; congruence). assert (Ey : y = ob) by (cbn in E2; congruence). subst x y.
  cbn [ret snd] in H. injection H as ->.
  destruct (eq_hobj (mcmp_val d h) oa ob (fine_val d h) E3) as [X1 X2].
  pose proof (fine_hobj (mcmp_val d h) oa ob (fine_val d h) Objects) as X3.
  rewrite !W, !W2, !W3. unfold mvisit at 1 2 3 4 5 6. cbn [obnd act lift ret fst snd app].
  replace (work Objects [Pay VisitObject None; Visit]) with 1 by reflexivity.
  replace (work Bytes [Pay VisitObject None; Visit]) with 0 by reflexivity.
  replace (work Memory [Pay VisitObject None; Visit]) with 0 by reflexivity.
  replace (work Objects []) with 0 by reflexivity. replace (work Bytes []) with 0 by reflexivity.
  replace (work Memory []) with 0 by reflexivity. lia.
Qed.
Print Assumptions C79_equal_objects_were_read.

Example C79_objects_hyp :
  let h := [HOBytes [7; 8; 9]; HOBytes [7; 8; 9]] in
  exists a b, snd (add_host_object [] (HOBytes [7; 8; 9])) = Ok a
    /\ snd (add_host_object [HOBytes [7; 8; 9]] (HOBytes [7; 8; 9])) = Ok b
    /\ a <> b /\ is_object a = true /\ is_object b = true
    /\ visit_obj_untyped h a = Ok (HOBytes [7; 8; 9]) /\ visit_obj_untyped h b = Ok (HOBytes [7; 8; 9])
    /\ snd (mcmp_val 3 h a b) = Ok Eq /\ work Bytes (fst (mcmp_val 3 h a b)) = 3.
Proof.
  eexists _, _. split; [vm_compute; reflexivity|]. split; [vm_compute; reflexivity|].
  split; [discriminate|]. repeat split; vm_compute; reflexivity.
Qed.

(* ------------------------------------------------------------ new containers and clones *)

Lemma built_bind {A B} rs (m : op A) (f : A -> op (list B)) : fine m -> (forall x, built rs (f x)) -> built rs (obnd m f).
Proof.
  intros F G l H. binds H x E W. rewrite !W. destruct (G x l H) as [G1 G2]. pose proof (F Heap). pose proof (F Memory). lia.
Qed.
Lemma built_fail {A} rs e : built rs (@fail (list A) e).
Proof. intros l H. discriminate H. Qed.
Lemma fine_lift {A} (r : res A) : fine (lift r).
Proof. intros k. unfold work; cbn; lia. Qed.
Lemma built_from {A} ds rs (l : list A) : 0 <= rs -> built rs (from_exact_iter ds rs l).
Proof.
  intros R l2 H. unfold from_exact_iter in *. destruct (fits_u32 (length l)) eqn:F; [|discriminate].
  binds H u E W. binds H u2 E2 W2. rewrite (W Heap), (W Memory), (W2 Heap), (W2 Memory).
  assert (L : l2 = l) by (unfold lift, mvec_from in H; cbn [snd] in H; rewrite F in H; congruence). subst l2.
  replace (work Heap (fst (build rs l))) with (rs * len l) by (unfold work; cbn; lia).
  replace (work Memory (fst (build rs l))) with (24 + rs * len l) by (unfold work; cbn; lia).
  replace (work Heap (fst (charge_deep_clone ds l))) with 0 by reflexivity.
  replace (work Memory (fst (charge_deep_clone ds l))) with 0 by reflexivity.
  replace (work Heap (fst (lift (mvec_from l)))) with 0 by reflexivity.
  replace (work Memory (fst (lift (mvec_from l)))) with 0 by reflexivity. lia.
Qed.

(* Every operation that answers with a new vector has allocated and written it. *)
Theorem C79_new_vectors_were_built {A} ds rs (l m : list A) i j x : 0 <= rs ->
  built rs (from_exact_iter ds rs l) /\ built rs (mv_set ds rs l i x)
  /\ built rs (mv_push_front ds rs l x) /\ built rs (mv_push_back ds rs l x)
  /\ built rs (mv_pop_front ds rs l) /\ built rs (mv_pop_back ds rs l)
  /\ built rs (mv_insert ds rs l i x) /\ built rs (mv_remove ds rs l i)
  /\ built rs (mv_append ds rs l m) /\ built rs (mv_slice ds rs l i j) /\ built rs (mv_to_vec ds rs l).
Proof.
  intros R. assert (B : forall l : list A, built rs (from_exact_iter ds rs l)) by (intros; apply built_from, R).
  assert (PF : built rs (mv_push_front ds rs l x)) by (unfold mv_push_front; destruct (is_u32_max (length l)); auto using built_fail).
  assert (PB : built rs (mv_push_back ds rs l x)) by (unfold mv_push_back; destruct (is_u32_max (length l)); auto using built_fail).
  assert (VC : forall k, work k (fst (vec_clone ds rs l)) = match k with Heap => rs * len l | Memory => 24 + rs * len l | _ => 0 end).
  { intros k. unfold vec_clone, vec_sub, build, charge_heap_alloc, charge_shallow_copy, pay, act, ret, work.
    cbn [obnd fst snd app]. destruct k; cbn; lia. }
  split; [apply B|]. split.
  { unfold mv_set. intros r H. binds H n E W. rewrite (W Heap), (W Memory), !VC. binds H u E2 W2. binds H r2 E3 W3. binds H u2 E4 W4.
    rewrite (W2 Heap), (W2 Memory), (W3 Heap), (W3 Memory), (W4 Heap), (W4 Memory). cbn [ret snd] in H. injection H as <-.
    assert (n = l) by (cbn in E; congruence). subst n.
    assert (L : len r2 = len l).
    { cbn [lift snd] in E3. unfold mvec_set in E3. unfold len.
      destruct (nth_error l i); [|discriminate]. injection E3 as <-. f_equal.
      clear. revert i. induction l as [|y l IH]; intros [|i]; cbn; auto. }
    rewrite L. pose proof (fine_pay MemCpy (sat_u64 (ds * 1)) Heap). pose proof (fine_pay MemCpy (sat_u64 (ds * 1)) Memory).
    unfold charge_access. replace (work Heap (fst (lift (mvec_set l i x)))) with 0 by reflexivity.
    replace (work Memory (fst (lift (mvec_set l i x)))) with 0 by reflexivity.
    replace (work Heap (fst (act (Copy rs)))) with 0 by reflexivity.
    replace (work Memory (fst (act (Copy rs)))) with rs by (unfold work; cbn; lia).
    replace (work Heap (fst (ret r2))) with 0 by reflexivity. replace (work Memory (fst (ret r2))) with 0 by reflexivity. lia. }
  split; [exact PF|]. split; [exact PB|]. split.
  { unfold mv_pop_front. destruct l; [apply built_fail|apply B]. }
  split.
  { unfold mv_pop_back. destruct l; [apply built_fail|]. apply built_bind; [apply fine_lift|intros; apply B]. }
  split.
  { unfold mv_insert. destruct (is_u32_max (length l)); [apply built_fail|]. destruct (Nat.ltb (length l) i); [apply built_fail|].
    destruct (Nat.eqb i (length l)); [exact PB|]. destruct (Nat.eqb i 0); [exact PF|apply B]. }
  split.
  { unfold mv_remove. destruct (Nat.leb (length l) i); [apply built_fail|]. apply built_bind; [apply fine_lift|intros; apply B]. }
  split.
  { unfold mv_append. apply built_bind; [apply fine_lift|intros; apply B]. }
  split.
  { unfold mv_slice. destruct (Nat.leb i j && Nat.leb j (length l)); [apply B|apply built_fail]. }
  intros r H. unfold mv_to_vec in *. rewrite !VC. assert (r = l) by (cbn in H; congruence). subst r. lia.
Qed.
Print Assumptions C79_new_vectors_were_built.

(* A clone has allocated all the value owns and written it with the value itself. *)
Theorem C79_clones_were_copied d :
  (forall v w, snd (clone_scval d v) = Ok w -> w = v /\ owned v <= work Heap (fst (clone_scval d v))
      /\ 96 + owned v <= work Memory (fst (clone_scval d v)))
  /\ (forall c v p w, snd (clone_lkey d (LKData c v p)) = Ok w -> w = LKData c v p
      /\ owned v <= work Heap (fst (clone_lkey d (LKData c v p))) /\ 152 + owned v <= work Memory (fst (clone_lkey d (LKData c v p)))).
Proof.
  assert (FE : forall A (f : A -> op unit) l, (forall x, fine (f x)) -> fine (each f l)).
  { intros A f l F. induction l as [|x l IH]; cbn [each]; [apply fine_ret|]. apply fine_bind; [apply F|intros _; exact IH]. }
  assert (FV : forall A (f : A -> op unit) ds l, (forall x, fine (f x)) -> fine (sub_vec f ds l)).
  { intros A f ds l F. apply fine_bind; [apply fine_pay|intros _]. apply fine_bind; [apply fine_pay|intros _]. apply FE, F. }
  assert (FB : forall b, fine (sub_bytes b)).
  { intros b. apply fine_bind; [apply fine_pay|intros _]. apply fine_pay. }
  assert (FS : forall d v, fine (sub_scval d v)).
  { clear d. induction d as [|d IH]; intros v; [apply fine_fail|].
    assert (FP : forall p : scval * scval, fine (do _ <- sub_scval d (fst p); sub_scval d (snd p))).
    { intros p. apply fine_bind; [apply IH|intros _; apply IH]. }
    destruct v as [| | | | | | | | | | | | | | | |[l|]|[m|]| |e [m|]| | |]; cbn [sub_scval]; try apply fine_ret; try apply fine_fail; auto.
    - apply fine_bind; [|intros _; apply FV, FP]. destruct e; cbn [sub_exe]; auto using fine_ret.
    - apply fine_bind; [|intros _; apply fine_ret]. destruct e; cbn [sub_exe]; auto using fine_ret. }
  assert (G : forall A size own (sub : op unit) (x w : A), fine sub -> snd (clone_with size own sub x) = Ok w ->
     w = x /\ own <= work Heap (fst (clone_with size own sub x)) /\ size + own <= work Memory (fst (clone_with size own sub x))).
  { intros A size own sub x w F H. unfold clone_with in *. binds H u E W. binds H u2 E2 W2. binds H u3 E3 W3. binds H u4 E4 W4.
    rewrite (W Heap), (W Memory), (W2 Heap), (W2 Memory), (W3 Heap), (W3 Memory), (W4 Heap), (W4 Memory). cbn [ret snd] in H. injection H as <-. split; [reflexivity|].
    pose proof (F Heap). pose proof (F Memory).
    pose proof (fine_pay MemCpy (sat_u64 (1 * size)) Heap). pose proof (fine_pay MemCpy (sat_u64 (1 * size)) Memory).
    unfold charge_shallow_copy.
    replace (work Heap (fst (act (Allocate own)))) with own by (unfold work; cbn; lia).
    replace (work Memory (fst (act (Allocate own)))) with 0 by reflexivity.
    replace (work Heap (fst (act (Copy (size + own))))) with 0 by reflexivity.
    replace (work Memory (fst (act (Copy (size + own))))) with (size + own) by (unfold work; cbn; lia).
    replace (work Heap (fst (ret x))) with 0 by reflexivity. replace (work Memory (fst (ret x))) with 0 by reflexivity. lia. }
  split; intros; apply G; cbn [sub_lkey]; auto.
Qed.
Print Assumptions C79_clones_were_copied.
