(* Proofs about CtModel: the entries of authorize_as_curr_contract. *)
From Coq Require Import ZArith Lia String List Bool Sorting.Sorted Sorting.Permutation.
From Verif Require Import Prelude ValModel ValSpec HeapModel HeapSpec TreeProofs HostFnProofs WideProofs ConvProofs FrameModel XdrModel MultisigModel DelegProofs CtModel CtSpec CtProofs CtProofs2 CtProofs3.
Import ListNotations.
Open Scope Z_scope.
Ltac Zify.zify_post_hook ::= idtac.

(* reading a struct: the values under the sorted names, then each of them *)
Lemma read_struct fs gs v d : by_name fs = gs -> (from_val (YStruct fs) v = Ok d <->
  exists vs xs l, v = SMap (Some (combine (map SSymbol (map fst gs)) vs))
    /\ length vs = length gs
    /\ read_fields (map (fun p => (fst p, from_val (snd p))) gs) vs = Ok xs
    /\ build (map fst fs) xs = Ok l /\ d = DStruct l).
Proof.
  intros <-. cbn [from_val]. split.
  - destruct v; try discriminate. destruct m as [m|]; [|discriminate]. rewrite struct_readers, map_fst_pair.
    destruct (unpack_dense _ m) as [vs|] eqn:U; cbn [rbind]; [|discriminate].
    apply unpack_dense_spec in U. destruct U as (-> & L). rewrite map_length in L.
    destruct (read_fields _ vs) as [xs|] eqn:R; cbn [rbind]; [|discriminate].
    destruct (build _ xs) as [l|] eqn:B1; cbn [rbind]; [|discriminate].
    intros H. injection H as <-. exists vs, xs, l. auto.
  - intros (vs & xs & l & -> & L & R & B1 & ->). rewrite struct_readers, map_fst_pair.
    rewrite (proj2 (unpack_dense_spec _ _ vs)) by (rewrite map_length; auto). cbn [rbind].
    rewrite R. cbn [rbind]. rewrite B1. reflexivity.
Qed.

Ltac take vs L x := destruct vs as [|x vs]; [discriminate L|].

Lemma contract_ctx_iff v d : from_val t_contract_ctx v = Ok d <->
  exists args c f, plain c
    /\ v = SMap (Some [(sym "args", SVec (Some args)); (sym "contract", SAddress c); (sym "fn_name", SSymbol f)])
    /\ d = DStruct [(lit "contract", DAddress c); (lit "fn_name", DSymbol f); (lit "args", DVec args)].
Proof.
  unfold t_contract_ctx. split.
  - rewrite (read_struct _ [(lit "args", YVec); (lit "contract", YAddress); (lit "fn_name", YSymbol)]) by (vm_compute; reflexivity).
    intros (vs & xs & l & -> & L & R & B1 & ->).
    take vs L a. take vs L b. take vs L c. destruct vs; [|discriminate L].
    cbn [read_fields map fst snd] in R.
    destruct a; cbn [from_val rbind] in R; try discriminate. destruct l0 as [args|]; cbn [rbind] in R; [|discriminate].
    destruct b; cbn [from_val rbind] in R; try discriminate. destruct (is_muxed a) eqn:M; cbn [rbind] in R; [discriminate|].
    destruct c; cbn [from_val rbind] in R; try discriminate. injection R as <-.
    vm_compute in B1. injection B1 as <-.
    exists args, a, b. split; [now apply plain_muxed|]. split; reflexivity.
  - intros (args & c & f & P & -> & ->). destruct c; try contradiction; vm_compute; reflexivity.
Qed.

Lemma executable_ref_iff v d : from_val t_executable_ref v = Ok d <->
  exists o t, plain o /\ v = SMap (Some [(sym "owner", SAddress o); (sym "tag", SString t)])
    /\ d = DStruct [(lit "owner", DAddress o); (lit "tag", DString t)].
Proof.
  unfold t_executable_ref. split.
  - rewrite (read_struct _ [(lit "owner", YAddress); (lit "tag", YString)]) by (vm_compute; reflexivity).
    intros (vs & xs & l & -> & L & R & B1 & ->).
    take vs L a. take vs L b. destruct vs; [|discriminate L].
    cbn [read_fields map fst snd] in R.
    destruct a; cbn [from_val rbind] in R; try discriminate. destruct (is_muxed a) eqn:M; cbn [rbind] in R; [discriminate|].
    destruct b; cbn [from_val rbind] in R; try discriminate. injection R as <-.
    vm_compute in B1. injection B1 as <-.
    exists a, b. split; [now apply plain_muxed|]. split; reflexivity.
  - intros (o & t & P & -> & ->). destruct o; try contradiction; vm_compute; reflexivity.
Qed.

(* reading an enum *)
Lemma read_enum cs v d : NoDup (map fst cs) -> (from_val (YEnum cs) v = Ok d <->
  exists i n r, v = SVec (Some (SSymbol n :: r)) /\
    ((nth_error cs i = Some (n, None) /\ d = DEnum i None)
     \/ (exists t x r' y, nth_error cs i = Some (n, Some t) /\ r = x :: r' /\ from_val t x = Ok y /\ d = DEnum i (Some y)))).
Proof.
  intros N. split.
  - cbn [from_val]. destruct v; try discriminate. destruct l as [[|s r]|]; try discriminate. destruct s; try discriminate.
    destruct (symbol_index_in_strs b (map fst cs)) as [i|] eqn:I; cbn [rbind]; [|discriminate].
    apply symbol_index_inv, nth_error_map_inv in I. destruct I as ([n ot] & I & Hn). cbn in Hn. subst b.
    rewrite (map_nth_error _ _ _ I). cbn [snd]. intros E. exists i, n, r. split; auto. destruct ot as [t|].
    + right. destruct r as [|x r]; [discriminate|]. destruct (from_val t x) as [y|] eqn:F; cbn [rbind] in E; [|discriminate].
      injection E as <-. exists t, x, r, y. auto.
    + left. injection E as <-. auto.
  - intros (i & n & r & -> & H). cbn [from_val]. destruct H as [(I & ->)|(t & x & r' & y & I & -> & F & ->)];
      (rewrite (symbol_index_ok n _ i N) by exact (map_nth_error fst _ _ I)); cbn [rbind];
      rewrite (map_nth_error _ _ _ I); cbn [snd]; auto. now rewrite F.
Qed.

Ltac names := repeat (constructor; [vm_compute; intuition discriminate|]); constructor.

Lemma executable_iff v d : from_val t_executable v = Ok d <->
  (exists ex, executable_value false ex v /\ executable_sized ex /\ d = executable_dat ex)
  \/ (d = executable_dat ExStellarAsset /\ exists r, v = SVec (Some (sym "StellarAsset" :: r))).
Proof.
  unfold t_executable. rewrite read_enum by names. split.
  - intros (i & n & r & -> & [(I & ->)|(t & x & r' & y & I & -> & F & ->)]);
      (destruct i as [|[|[|i]]]; cbn in I; try discriminate; try (destruct i; discriminate));
      first [injection I as <- <-|injection I as <-].
    + right. split; auto. eexists; reflexivity.
    + left. cbn in F. destruct x; cbn in F; try discriminate.
      destruct (Nat.eqb (length b) 32) eqn:E; cbn in F; [|discriminate]. injection F as <-. apply Nat.eqb_eq in E.
      exists (ExWasm b). split; [apply ev_wasm; discriminate|auto].
    + left. apply executable_ref_iff in F. destruct F as (o & t' & P & -> & ->).
      exists (ExExternalRef o t'). split; [apply ev_ref; discriminate|auto].
  - intros [(ex & V & S & ->)|(-> & r & ->)].
    + inversion V; subst.
      * exists O, (lit "Wasm"), (SBytes h :: rest). split; auto. right. eexists _, _, _, _. split; [reflexivity|].
        split; [reflexivity|]. split; [|reflexivity]. cbn in *. now rewrite S.
      * exists 2%nat, (lit "ExternalRef"). eexists. split; [reflexivity|]. right. eexists _, _, _, _. split; [reflexivity|].
        split; [reflexivity|]. split; [|reflexivity]. apply executable_ref_iff. exists o, t. cbn in S. auto.
    + exists 1%nat, (lit "StellarAsset"), r. split; auto.
Qed.

Lemma create_ctx_iff v d : from_val t_create_ctx v = Ok d <->
  exists w e salt, from_val t_executable w = Ok e /\ length salt = 32%nat
    /\ v = SMap (Some [(sym "executable", w); (sym "salt", SBytes salt)])
    /\ d = DStruct [(lit "executable", e); (lit "salt", DBytes salt)].
Proof.
  unfold t_create_ctx.
  rewrite (read_struct _ [(lit "executable", t_executable); (lit "salt", YBytesN 32)]) by (vm_compute; reflexivity). split.
  - intros (vs & xs & l & -> & L & R & B1 & ->).
    take vs L a. take vs L b. destruct vs; [|discriminate L].
    cbn [read_fields map fst snd] in R.
    destruct (from_val t_executable a) as [e|] eqn:E; cbn [rbind] in R; [|discriminate].
    destruct b; cbn in R; try discriminate. destruct (Nat.eqb (length b) 32) eqn:S; cbn [rmap rbind] in R; [|discriminate].
    injection R as <-. apply Nat.eqb_eq in S. vm_compute in B1. injection B1 as <-.
    exists a, e, b. auto.
  - intros (w & e & salt & E & S & -> & ->).
    exists [w; SBytes salt], [(lit "executable", e); (lit "salt", DBytes salt)], [(lit "executable", e); (lit "salt", DBytes salt)].
    split; [reflexivity|]. split; [reflexivity|]. split.
    + cbn [read_fields map fst snd]. rewrite E. cbn. now rewrite S.
    + split; vm_compute; reflexivity.
Qed.
Lemma create_ctor_ctx_iff v d : from_val t_create_ctor_ctx v = Ok d <->
  exists args w e salt, from_val t_executable w = Ok e /\ length salt = 32%nat
    /\ v = SMap (Some [(sym "constructor_args", SVec (Some args)); (sym "executable", w); (sym "salt", SBytes salt)])
    /\ d = DStruct [(lit "executable", e); (lit "salt", DBytes salt); (lit "constructor_args", DVec args)].
Proof.
  unfold t_create_ctor_ctx.
  rewrite (read_struct _ [(lit "constructor_args", YVec); (lit "executable", t_executable); (lit "salt", YBytesN 32)]) by (vm_compute; reflexivity). split.
  - intros (vs & xs & l & -> & L & R & B1 & ->).
    take vs L a. take vs L b. take vs L c. destruct vs; [|discriminate L].
    cbn [read_fields map fst snd] in R.
    destruct a; cbn [from_val rbind] in R; try discriminate. destruct l0 as [args|]; cbn [rbind] in R; [|discriminate].
    destruct (from_val t_executable b) as [e|] eqn:E; cbn [rbind] in R; [|discriminate].
    destruct c; cbn in R; try discriminate. destruct (Nat.eqb (length b0) 32) eqn:S; cbn [rmap rbind] in R; [|discriminate].
    injection R as <-. apply Nat.eqb_eq in S. vm_compute in B1. injection B1 as <-.
    exists args, b, e, b0. auto.
  - intros (args & w & e & salt & E & S & -> & ->).
    exists [SVec (Some args); w; SBytes salt], [(lit "constructor_args", DVec args); (lit "executable", e); (lit "salt", DBytes salt)],
      [(lit "executable", e); (lit "salt", DBytes salt); (lit "constructor_args", DVec args)].
    split; [reflexivity|]. split; [reflexivity|]. split.
    + cbn [read_fields map fst snd from_val rbind]. change (from_val t_executable w) with (from_val t_executable w). rewrite E. cbn. now rewrite S.
    + split; vm_compute; reflexivity.
Qed.
Lemma sub_invocation_iff v d : from_val t_sub_invocation v = Ok d <->
  exists w c vs, from_val t_contract_ctx w = Ok c
    /\ v = SMap (Some [(sym "context", w); (sym "sub_invocations", SVec (Some vs))])
    /\ d = DStruct [(lit "context", c); (lit "sub_invocations", DVec vs)].
Proof.
  unfold t_sub_invocation.
  rewrite (read_struct _ [(lit "context", t_contract_ctx); (lit "sub_invocations", YVec)]) by (vm_compute; reflexivity). split.
  - intros (vs & xs & l & -> & L & R & B1 & ->).
    take vs L a. take vs L b. destruct vs; [|discriminate L].
    cbn [read_fields map fst snd] in R.
    destruct (from_val t_contract_ctx a) as [e|] eqn:E; cbn [rbind] in R; [|discriminate].
    destruct b; cbn [from_val rbind] in R; try discriminate. destruct l0 as [vs|]; cbn [rbind] in R; [|discriminate].
    injection R as <-. vm_compute in B1. injection B1 as <-.
    exists a, e, vs. auto.
  - intros (w & c & vs & E & -> & ->).
    exists [w; SVec (Some vs)], [(lit "context", c); (lit "sub_invocations", DVec vs)], [(lit "context", c); (lit "sub_invocations", DVec vs)].
    split; [reflexivity|]. split; [reflexivity|]. split.
    + cbn [read_fields map fst snd]. rewrite E. reflexivity.
    + split; vm_compute; reflexivity.
Qed.

(* the loop over the sub-invocations *)
Fixpoint sub_entries (n : nat) (by_ : addr) (l : list scval) : res (list hinv) :=
  match l with
  | [] => Ok []
  | v :: r => let? i := invoker_entry n by_ v in let? is_ := sub_entries n by_ r in Ok (i :: is_)
  end.
Lemma to_auth_call n by_ c f args vs :
  to_authorized_invocation (Datatypes.S n) by_
    (DEnum 0 (Some (DStruct [(lit "context", DStruct [(lit "contract", DAddress c); (lit "fn_name", DSymbol f); (lit "args", DVec args)]);
                             (lit "sub_invocations", DVec vs)])))
  = (let? subs := sub_entries n by_ vs in Ok (HInv (HContractFn c f args) false subs)).
Proof.
  cbn [to_authorized_invocation].
  transitivity (let? subs := (fix go (l : list scval) : res (list hinv) :=
                          match l with
                          | [] => Ok []
                          | v :: r =>
                              let? e' := from_val t_invoker_entry v in
                              let? i := to_authorized_invocation n by_ e' in
                              let? is_ := go r in
                              Ok (i :: is_)
                          end) vs in
          Ok (HInv (HContractFn c f args) false subs)); [reflexivity|].
  f_equal. induction vs as [|v vs IH]; cbn [sub_entries]; auto. unfold invoker_entry at 1.
  destruct (from_val t_invoker_entry v) as [e|]; cbn [rbind]; auto.
  destruct (to_authorized_invocation n by_ e); cbn [rbind]; auto. now rewrite IH.
Qed.
Lemma create_ok by_ e salt args more i : 
  create_invocation by_ (DStruct ((lit "executable", e) :: (lit "salt", DBytes salt) :: more)) args = Ok i <->
  exists ex, e <> executable_dat ExStellarAsset /\ dat_executable e = Ok ex
    /\ i = HInv (HCreate (PreAddress by_ salt) ex args) false [].
Proof.
  unfold create_invocation.
  change (get (DStruct ((lit "executable", e) :: (lit "salt", DBytes salt) :: more)) (lit "executable")) with (@Ok dat e).
  change (get (DStruct ((lit "executable", e) :: (lit "salt", DBytes salt) :: more)) (lit "salt")) with (@Ok dat (DBytes salt)).
  cbn [rbind].
  assert (V : validate_executable e = if match e with DEnum 1 None => true | _ => false end then Err (ESys TAuth CInvalidInput) else Ok tt)
    by (destruct e; try reflexivity; destruct case as [|[|case]]; try reflexivity; destruct arg; reflexivity).
  destruct (match e with DEnum 1 None => true | _ => false end) eqn:Q.
  - assert (e = executable_dat ExStellarAsset) by (destruct e; try discriminate; destruct case as [|[|case]]; try discriminate; destruct arg; [discriminate|reflexivity]).
    rewrite V. cbn [rbind]. split; [discriminate|]. intros (ex & N & _). congruence.
  - assert (N : e <> executable_dat ExStellarAsset) by (intros ->; discriminate). rewrite V. cbn [rbind].
    destruct (dat_executable e) as [ex|] eqn:X; cbn [rbind].
    + split.
      * intros H. injection H as <-. exists ex. auto.
      * intros (ex' & _ & H & ->). injection H as ->. reflexivity.
    + split; [discriminate|]. intros (ex' & _ & H & _). discriminate.
Qed.

Lemma dat_executable_id ex : dat_executable (executable_dat ex) = Ok ex.
Proof. destruct ex; vm_compute; reflexivity. Qed.
Lemma executable_dat_inj a b : executable_dat a = executable_dat b -> a = b.
Proof. intros H. apply (f_equal dat_executable) in H. rewrite !dat_executable_id in H. congruence. Qed.
Lemma executable_value_not_asset s ex w : executable_value s ex w -> ex <> ExStellarAsset.
Proof. intros H. inversion H; discriminate. Qed.

(* an executable read and accepted *)
Lemma executable_accepted w e ex : from_val t_executable w = Ok e -> e <> executable_dat ExStellarAsset ->
  dat_executable e = Ok ex -> executable_value false ex w /\ executable_sized ex.
Proof.
  intros E N X. apply executable_iff in E. destruct E as [(ex' & V & S & ->)|(-> & _)]; [|congruence].
  rewrite dat_executable_id in X. injection X as <-. auto.
Qed.
Lemma executable_accepts w ex : executable_value false ex w -> executable_sized ex ->
  from_val t_executable w = Ok (executable_dat ex) /\ executable_dat ex <> executable_dat ExStellarAsset.
Proof.
  intros V S. split; [apply executable_iff; left; eauto|].
  intros H. apply executable_dat_inj in H. exact (executable_value_not_asset _ _ _ V H).
Qed.

Lemma invoker_entry_iff n : forall by_ v i, invoker_entry n by_ v = Ok i <-> grants by_ n v i.
Proof.
  induction n as [|n IH]; intros by_ v i.
  - split; [|intros H; inversion H]. unfold invoker_entry. destruct (from_val t_invoker_entry v); discriminate.
  - assert (SUB : forall vs subs, sub_entries n by_ vs = Ok subs <-> Forall2 (grants by_ n) vs subs).
    { induction vs as [|x vs IHv]; intros subs; cbn [sub_entries].
      - split; intros H; [injection H as <-; constructor|inversion H; auto].
      - split.
        + destruct (invoker_entry n by_ x) as [j|] eqn:E; cbn [rbind]; [|discriminate].
          destruct (sub_entries n by_ vs) as [l|] eqn:F; cbn [rbind]; [|discriminate].
          intros H. injection H as <-. constructor; [now apply IH|now apply IHv].
        + intros H. inversion H as [|? j ? l H1 H2]; subst. apply IH in H1. apply IHv in H2. rewrite H1. cbn [rbind]. rewrite H2. reflexivity. }
    split.
    + unfold invoker_entry. destruct (from_val t_invoker_entry v) as [e|] eqn:E; cbn [rbind]; [|discriminate].
      unfold t_invoker_entry in E. apply read_enum in E; [|names].
      destruct E as (k & nm & r & -> & [(I & ->)|(t & x & r' & y & I & -> & F & ->)]);
        (destruct k as [|[|[|k]]]; cbn in I; try discriminate; try (destruct k; discriminate));
        injection I as <- <-.
      * apply sub_invocation_iff in F. destruct F as (w & c & vs & Fc & -> & ->).
        apply contract_ctx_iff in Fc. destruct Fc as (args & a & f & P & -> & ->).
        rewrite to_auth_call. destruct (sub_entries n by_ vs) as [subs|] eqn:Sb; cbn [rbind]; [|discriminate].
        intros H. injection H as <-. apply SUB in Sb. now apply gr_call.
      * apply create_ctx_iff in F. destruct F as (w & e & salt & Fe & Ls & -> & ->).
        intros H. cbn [to_authorized_invocation] in H. apply create_ok in H. destruct H as (ex & N & X & ->).
        destruct (executable_accepted _ _ _ Fe N X) as (V & S). now apply gr_create.
      * apply create_ctor_ctx_iff in F. destruct F as (args & w & e & salt & Fe & Ls & -> & ->).
        intros H.
        change (create_invocation by_ (DStruct [(lit "executable", e); (lit "salt", DBytes salt); (lit "constructor_args", DVec args)]) args = Ok i) in H.
        apply create_ok in H. destruct H as (ex & N & X & ->).
        destruct (executable_accepted _ _ _ Fe N X) as (V & S). now apply gr_ctor.
    + intros H. unfold invoker_entry.
      inversion H as [n0 c f args vs subs rest P Sb|n0 salt ex w rest V S Ls|n0 salt ex w args rest V S Ls]; subst.
      * assert (E : from_val t_invoker_entry (SVec (Some (sym "Contract" ::
           SMap (Some [(sym "context", SMap (Some [(sym "args", SVec (Some args)); (sym "contract", SAddress c); (sym "fn_name", SSymbol f)]));
                     (sym "sub_invocations", SVec (Some vs))]) :: rest)))
           = Ok (DEnum 0 (Some (DStruct [(lit "context", DStruct [(lit "contract", DAddress c); (lit "fn_name", DSymbol f); (lit "args", DVec args)]);
                             (lit "sub_invocations", DVec vs)])))).
        { apply read_enum; [names|]. exists O, (lit "Contract"). eexists. split; [reflexivity|]. right. eexists _, _, _, _.
          split; [reflexivity|]. split; [reflexivity|]. split; [|reflexivity].
          apply sub_invocation_iff. eexists _, _, _. split; [|split; reflexivity].
          apply contract_ctx_iff. exists args, c, f. auto. }
        rewrite E. cbn [rbind]. rewrite to_auth_call. apply SUB in Sb. rewrite Sb. reflexivity.
      * destruct (executable_accepts _ _ V S) as (Fe & N).
        assert (E : from_val t_invoker_entry (SVec (Some (sym "CreateContractHostFn" ::
             SMap (Some [(sym "executable", w); (sym "salt", SBytes salt)]) :: rest)))
           = Ok (DEnum 1 (Some (DStruct [(lit "executable", executable_dat ex); (lit "salt", DBytes salt)])))).
        { apply read_enum; [names|]. exists 1%nat, (lit "CreateContractHostFn"). eexists. split; [reflexivity|]. right. eexists _, _, _, _.
          split; [reflexivity|]. split; [reflexivity|]. split; [|reflexivity].
          apply create_ctx_iff. exists w, (executable_dat ex), salt. auto. }
        rewrite E. cbn [rbind to_authorized_invocation]. apply create_ok. exists ex. split; auto. split; auto. apply dat_executable_id.
      * destruct (executable_accepts _ _ V S) as (Fe & N).
        assert (E : from_val t_invoker_entry (SVec (Some (sym "CreateContractWithCtorHostFn" ::
             SMap (Some [(sym "constructor_args", SVec (Some args)); (sym "executable", w); (sym "salt", SBytes salt)]) :: rest)))
           = Ok (DEnum 2 (Some (DStruct [(lit "executable", executable_dat ex); (lit "salt", DBytes salt); (lit "constructor_args", DVec args)])))).
        { apply read_enum; [names|]. exists 2%nat, (lit "CreateContractWithCtorHostFn"). eexists. split; [reflexivity|]. right. eexists _, _, _, _.
          split; [reflexivity|]. split; [reflexivity|]. split; [|reflexivity].
          apply create_ctor_ctx_iff. exists args, w, (executable_dat ex), salt. auto. }
        rewrite E. cbn [rbind].
        change (create_invocation by_ (DStruct [(lit "executable", executable_dat ex); (lit "salt", DBytes salt); (lit "constructor_args", DVec args)]) args
                = Ok (HInv (HCreate (PreAddress by_ salt) ex args) false [])).
        apply create_ok. exists ex. split; auto. split; auto. apply dat_executable_id.
Qed.
