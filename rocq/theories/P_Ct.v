(* C77: contract types — structs, enums and functions of built-in contracts as
   values — and what the authorization framework shows and reads with them. *)
From Coq Require Import ZArith Lia String List Bool Sorting.Sorted Sorting.Permutation.
From Verif Require Import Prelude ValModel ValSpec HeapModel HeapSpec TreeProofs HostFnProofs WideProofs ConvProofs FrameModel XdrModel MultisigModel DelegProofs
  CtModel CtSpec CtProofs CtProofs2 CtProofs3 CtProofs4 CtProofs5.
Import ListNotations.
Open Scope Z_scope.
Ltac Zify.zify_post_hook ::= idtac.

(* names of declarations are distinct symbols *)
Ltac symbols := repeat (apply Forall_cons; [split; [cbn; lia|repeat (apply Forall_cons; [unfold sym_char; lia|]); constructor]|]); constructor.
Ltac usable := cbn -[lit]; repeat match goal with
  | |- True => exact I
  | |- _ /\ _ => split
  | |- NoDup _ => names
  | |- Forall valid_symbol _ => vm_compute lit; symbols
  end.

(* ----------------------------------------------------------- writing and reading *)

(* Every datum of every type is written, as the one value that shows it. *)
Theorem C77_write : forall t d, type_ok t -> datum t d ->
  exists v, to_val t d = Ok v /\ forall w, shows true t d w <-> w = v.
Proof.
  intros t d T D. destruct (to_val_shows t d T D) as (v & E & S). exists v. split; auto.
  intros w. split; [intros S'; exact (shows_strictly_once t d w v T S' S)|intros ->; exact S].
Qed.
Print Assumptions C77_write.

(* A value is read exactly when it shows a datum, and then as that datum. *)
Theorem C77_read : forall t v d, type_ok t -> sc_typed v -> (from_val t v = Ok d <-> shows false t d v).
Proof. intros. now apply from_val_iff. Qed.
Print Assumptions C77_read.

(* What is written is read back as it was. *)
Theorem C77_round_trip : forall t d v, type_ok t -> datum t d -> to_val t d = Ok v -> from_val t v = Ok d.
Proof. intros t d v T D E. apply to_val_iff in E; auto. exact (shows_from_val _ t d v T E). Qed.
Print Assumptions C77_round_trip.

(* Different data are different values: two storage keys are the same only for the
   same datum. *)
Theorem C77_injective : forall t d d' v, type_ok t -> datum t d -> datum t d' ->
  to_val t d = Ok v -> to_val t d' = Ok v -> d = d'.
Proof.
  intros t d d' v T D D' E E'. apply C77_round_trip in E, E'; auto. congruence.
Qed.
Print Assumptions C77_injective.

(* The order in which the fields of a struct are declared does not show. *)
Theorem C77_field_order : forall fs fs' l l' v, type_ok (YStruct fs) -> type_ok (YStruct fs') ->
  Permutation fs fs' -> map fst l' = map fst fs' -> Permutation l l' -> datum (YStruct fs) (DStruct l) ->
  (to_val (YStruct fs) (DStruct l) = Ok v <-> to_val (YStruct fs') (DStruct l') = Ok v).
Proof.
  intros fs fs' l l' v T T' P M Q D.
  assert (D' : datum (YStruct fs') (DStruct l')) by (apply (datum_perm fs fs' l l'); auto; apply T).
  rewrite (to_val_iff _ _ _ T D), (to_val_iff _ _ _ T' D'). split; intros S.
  - exact (shows_perm true fs fs' l l' v P M Q S).
  - apply (shows_perm true fs' fs l' l v); auto; [now apply Permutation_sym|destruct D; auto|now apply Permutation_sym].
Qed.
Print Assumptions C77_field_order.

(* A value of a type without enums is what would be written for the datum read. *)
Theorem C77_read_exact : forall t v d, type_ok t -> no_enum t -> sc_typed v ->
  from_val t v = Ok d -> datum t d /\ to_val t d = Ok v.
Proof.
  intros t v d T N W E. apply C77_read in E; auto. apply shows_no_enum in E; auto.
  assert (D := shows_datum t _ d v T W E). split; auto. now apply to_val_iff.
Qed.
Print Assumptions C77_read_exact.

(* With enums it is not: what follows the case and its argument is ignored, so that
   one datum has many values. *)
Theorem C77_read_exact_refuted : exists t v v' d, type_ok t /\ sc_typed v /\ sc_typed v' /\ v <> v'
  /\ from_val t v = Ok d /\ from_val t v' = Ok d.
Proof.
  exists t_data_key, (SVec (Some [sym "Balance"; SAddress (AContract (repeat 7 32))])),
    (SVec (Some [sym "Balance"; SAddress (AContract (repeat 7 32)); SU32 1; SVoid])),
    (DEnum 1 (Some (DAddress (AContract (repeat 7 32))))).
  split; [usable|]. split; [cbn; intuition lia|]. split; [cbn; intuition lia|].
  split; [discriminate|]. split; reflexivity.
Qed.
Print Assumptions C77_read_exact_refuted.

(* ------------------------------------------------------------- functions called *)

(* A call reaches the function of that name, with the data the arguments show, and
   only with as many arguments as it takes. *)
Theorem C77_dispatch : forall fns f args i ds, NoDup (map fst fns) ->
  (forall n ts, In (n, ts) fns -> Forall type_ok ts) -> Forall sc_typed args ->
  (dispatch fns f args = Ok (i, ds) <-> exists ts, nth_error fns i = Some (f, ts) /\ args_show ts ds args).
Proof. intros. now apply dispatch_iff. Qed.
Print Assumptions C77_dispatch.

Theorem C77_dispatch_count : forall fns f ts args, NoDup (map fst fns) -> In (f, ts) fns ->
  length args <> length ts -> dispatch fns f args = Err (ESys TContext CUnexpectedSize).
Proof. intros. eapply dispatch_count; eauto. Qed.
Print Assumptions C77_dispatch_count.

(* Functions that do not exist are refused as bad values: the error the code has for
   them (Context, MissingValue) never occurs. *)
Theorem C77_dispatch_unknown : forall fns f args, ~ In f (map fst fns) ->
  dispatch fns f args = Err (ESys TValue CInvalidInput).
Proof. intros. now apply dispatch_unknown. Qed.
Print Assumptions C77_dispatch_unknown.

(* So it is for the asset contract, whose functions have different names. *)
Theorem C77_asset_contract : forall f args i ds, Forall sc_typed args ->
  (dispatch sac_fns f args = Ok (i, ds) <-> exists ts, nth_error sac_fns i = Some (f, ts) /\ args_show ts ds args).
Proof.
  intros f args i ds W. apply dispatch_iff; auto.
  - names.
  - intros n ts I. cbn [In sac_fns] in I. apply Forall_forall. intros t It.
    repeat (destruct I as [I|I]; [injection I as <- <-; cbn in It;
      repeat (destruct It as [It|It]; [subst t; exact Logic.I|]); contradiction|]). contradiction.
Qed.
Print Assumptions C77_asset_contract.

(* The keys of the asset contract: one for each datum, none shared. *)
Theorem C77_asset_keys :
  (forall a b, allowance_key a b = Ok (SVec (Some [sym "Allowance"; SMap (Some [(sym "from", SAddress a); (sym "spender", SAddress b)])])))
  /\ (forall a, balance_key a = Ok (SVec (Some [sym "Balance"; SAddress a])))
  /\ admin_key = Ok (SVec (Some [sym "Admin"])) /\ asset_info_key = Ok (SVec (Some [sym "AssetInfo"]))
  /\ metadata_key = Ok (sym "METADATA")
  /\ (forall a b a' b', allowance_key a b = allowance_key a' b' -> a = a' /\ b = b')
  /\ (forall a a', balance_key a = balance_key a' -> a = a')
  /\ (forall a b, NoDup [allowance_key a b; balance_key a; admin_key; asset_info_key; metadata_key])
  /\ (forall a b c, allowance_key a b <> balance_key c).
Proof.
  split; [intros; vm_compute; reflexivity|]. split; [intros; vm_compute; reflexivity|].
  split; [vm_compute; reflexivity|]. split; [vm_compute; reflexivity|]. split; [vm_compute; reflexivity|].
  split; [intros a b a' b' H; vm_compute in H; injection H as <- <-; auto|].
  split; [intros a a' H; vm_compute in H; injection H as <-; auto|].
  split; [|intros a b c H; vm_compute in H; discriminate].
  intros. repeat (constructor; [vm_compute; intuition discriminate|]). constructor.
Qed.
Print Assumptions C77_asset_keys.

(* ------------------------------------------- what account contracts are asked *)

(* An account contract is shown the functions of the tree it is to authorize, each
   before those it calls. *)
Theorem C77_contexts : forall i v, auth_context_val i = Ok v <->
  exists l, v = SVec (Some l) /\ Forall2 seen (preorder i) l.
Proof.
  intros i v. unfold auth_context_val. rewrite push_contexts_vals. cbn [app].
  destruct (context_vals (preorder i)) as [l|] eqn:E; cbn [rbind].
  - split.
    + intros H. injection H as <-. exists l. split; auto. now apply context_vals_spec.
    + intros (l' & -> & F). apply context_vals_spec in F. congruence.
  - split; [discriminate|]. intros (l' & _ & F). apply context_vals_spec in F. congruence.
Qed.
Print Assumptions C77_contexts.

(* It is asked unless the tree creates an asset contract, which gives this error. *)
Theorem C77_contexts_error : forall i,
  (Forall authorizable (preorder i) -> exists v, auth_context_val i = Ok v)
  /\ (~ Forall authorizable (preorder i) -> auth_context_val i = Err (ESys TAuth CInvalidInput)).
Proof.
  intros i. unfold auth_context_val. rewrite push_contexts_vals. cbn [app]. split.
  - intros A. assert (E : exists l, Forall2 seen (preorder i) l).
    { induction A as [|f l A _ IH]; [exists []; constructor|]. destruct IH as (vs & F).
      apply authorizable_seen in A. destruct A as (w & A). exists (w :: vs). now constructor. }
    destruct E as (l & F). apply context_vals_spec in F. rewrite F. cbn [rbind]. eauto.
  - intros N. rewrite context_vals_err; auto.
    assert (D : forall f, authorizable f \/ ~ authorizable f).
    { intros [a n args|[b s|x] [h| |o t] args]; cbn; intuition discriminate. }
    induction (preorder i) as [|f l IH]; [exfalso; apply N; constructor|].
    destruct (D f) as [A|A]; [|exists f; split; [now left|auto]].
    destruct IH as (g & I & B); [intros F; apply N; now constructor|]. exists g. split; [now right|auto].
Qed.
Print Assumptions C77_contexts_error.

(* From what it is shown it knows every function, except who deploys a contract. *)
Theorem C77_contexts_tell : forall i j v, auth_context_val i = Ok v -> auth_context_val j = Ok v ->
  Forall2 same_but_deployer (preorder i) (preorder j).
Proof.
  intros i j v A B. apply C77_contexts in A, B. destruct A as (l & -> & A), B as (l' & E & B). injection E as <-.
  revert A B. generalize (preorder i) (preorder j). intros p. revert l. induction p as [|f p IH]; intros l q A B.
  - inversion A; subst. inversion B; subst. constructor.
  - inversion A; subst. inversion B; subst. constructor; [eapply seen_inj; eauto|eauto].
Qed.
Print Assumptions C77_contexts_tell.

(* It does not know who deploys, nor which call is under which. *)
Theorem C77_contexts_tell_refuted :
  (exists f g v, f <> g /\ auth_context_val (HInv f false []) = Ok v /\ auth_context_val (HInv g false []) = Ok v)
  /\ (exists i j v, i <> j /\ Forall authorizable (preorder i)
        /\ (forall f, In f (preorder i) -> match f with HContractFn _ _ _ => True | _ => False end)
        /\ auth_context_val i = Ok v /\ auth_context_val j = Ok v).
Proof.
  split.
  - exists (HCreate (PreAddress (AContract [1]) [3]) (ExWasm [4]) []), (HCreate (PreAddress (AContract [2]) [3]) (ExWasm [4]) []).
    eexists. split; [discriminate|]. split; vm_compute; reflexivity.
  - set (a := HContractFn (AContract [1]) (lit "a") []). set (b := HContractFn (AContract [2]) (lit "b") []).
    set (c := HContractFn (AContract [3]) (lit "c") []).
    exists (HInv a false [HInv b false [HInv c false []]]), (HInv a false [HInv b false []; HInv c false []]).
    eexists. split; [discriminate|]. split; [repeat constructor|].
    split; [cbn; intros f [<-|[<-|[<-|[]]]]; exact I|]. split; vm_compute; reflexivity.
Qed.
Print Assumptions C77_contexts_tell_refuted.

(* The signatures of accounts are data of the declared type. *)
Theorem C77_account_signature : forall v pk sg, sc_typed v ->
  (decode_sig v = Ok (pk, sg) <->
   length pk = 32%nat /\ length sg = 64%nat
   /\ v = SMap (Some [(sym "public_key", SBytes pk); (sym "signature", SBytes sg)])).
Proof.
  intros v pk sg W. rewrite decode_sig_iff. split.
  - intros E.
    assert (T : type_ok t_signature) by usable.
    assert (E' := E). apply C77_read_exact in E'; auto; [|cbn; tauto]. destruct E' as (D & E').
    vm_compute in E'. injection E' as <-. cbn in D. destruct D as (_ & D1 & D2 & _).
    assert (X := D1 (DBytes pk) (or_introl eq_refl)). assert (Y := D2 (DBytes sg) (or_intror (or_introl eq_refl))). cbn in X, Y. auto.
  - intros (P & S & ->). apply (shows_from_val true t_signature).
    + usable.
    + apply sh_struct with (ks := [lit "public_key"; lit "signature"]); auto.
      * repeat constructor.
      * intros n t x w [I|[I|[]]] [J|[J|[]]] [K|[K|[]]]; injection I as <- <-; try discriminate; injection J as E1; subst;
          try discriminate; injection K as E2; subst; try discriminate; now constructor.
Qed.
Print Assumptions C77_account_signature.

(* --------------------------------------------- what contracts authorize themselves *)

(* An entry of authorize_as_curr_contract is accepted exactly if it is written as
   the specification says, to the depth allowed, and means the tree it says. *)
Theorem C77_invoker_entry : forall n by_ v t, invoker_entry n by_ v = Ok t <-> grants by_ n v t.
Proof. intros. apply invoker_entry_iff. Qed.
Print Assumptions C77_invoker_entry.

(* The trees a contract can so authorize: calls, and creations by itself. *)
Theorem C77_invoker_trees : forall n by_ t,
  (exists v, invoker_entry n by_ v = Ok t) <-> own_tree by_ t /\ (levels t <= n)%nat.
Proof. intros. apply grantable. Qed.
Print Assumptions C77_invoker_trees.

(* ------------------------------------------------------ get_address_executable *)

Theorem C77_address_executable : forall has_account instance resolve a v,
  get_address_executable has_account instance resolve a = Ok v <->
  match a with
  | AAccount k =>
      (has_account k = Ok true /\ v = SVec (Some [sym "Account"])) \/ (has_account k = Ok false /\ v = SVoid)
  | AContract id =>
      (instance id = Ok None /\ v = SVoid)
      \/ (instance id = Ok (Some ExStellarAsset) /\ v = SVec (Some [sym "StellarAsset"]))
      \/ exists h, (instance id = Ok (Some (ExWasm h))
                    \/ exists o t, instance id = Ok (Some (ExExternalRef o t)) /\ resolve o t = Ok h)
           /\ v = SVec (Some [sym "Wasm"; SBytes h])
  | _ => False
  end.
Proof.
  intros ha ins rs a v. unfold get_address_executable. destruct a as [k|id|mi mk|od op]; cbn [rbind]; try (split; [discriminate|tauto]).
  - destruct (ha k) as [[|]|]; cbn [rbind].
    + split; [intros H; vm_compute in H; injection H as <-; auto|]. intros [(_ & ->)|(H & _)]; [vm_compute; reflexivity|discriminate].
    + split; [intros H; injection H as <-; auto|]. intros [(H & _)|(_ & ->)]; [discriminate|reflexivity].
    + split; [discriminate|]. intros [(H & _)|(H & _)]; discriminate.
  - destruct (ins id) as [[[h| |o t]|]|]; cbn [rbind address_executable_dat].
    + split.
      * intros H. vm_compute in H. injection H as <-. right. right. exists h. auto.
      * intros [(H & _)|[(H & _)|(h' & [H|(o & t & H & _)] & ->)]]; try discriminate. injection H as <-. vm_compute; reflexivity.
    + split.
      * intros H. vm_compute in H. injection H as <-. auto.
      * intros [(H & _)|[(_ & ->)|(h' & [H|(o & t & H & _)] & ->)]]; try discriminate. vm_compute; reflexivity.
    + destruct (rs o t) as [h|] eqn:R; cbn [rbind].
      * split.
        -- intros H. vm_compute in H. injection H as <-. right. right. exists h. split; auto. right. exists o, t. auto.
        -- intros [(H & _)|[(H & _)|(h' & [H|(o' & t' & H & H')] & ->)]]; try discriminate.
           injection H as <- <-. assert (h = h') as <- by congruence. vm_compute; reflexivity.
      * split; [discriminate|]. intros [(H & _)|[(H & _)|(h' & [H|(o' & t' & H & H')] & ->)]]; try discriminate.
        injection H as <- <-. congruence.
    + split; [intros H; injection H as <-; auto|].
      intros [(_ & ->)|[(H & _)|(h' & [H|(o & t & H & _)] & ->)]]; try discriminate. reflexivity.
    + split; [discriminate|]. intros [(H & _)|[(H & _)|(h' & [H|(o & t & H & _)] & ->)]]; discriminate.
Qed.
Print Assumptions C77_address_executable.

(* ------------------------------------------------------------------- examples *)

(* A balance: the fields in order, the amount of 2^64 + 5 in two halves. *)
Example C77_example_balance :
  datum t_balance (DStruct [(lit "amount", DI128 (2 ^ 64 + 5)); (lit "authorized", DBool true); (lit "clawback", DBool false)])
  /\ to_val t_balance (DStruct [(lit "amount", DI128 (2 ^ 64 + 5)); (lit "authorized", DBool true); (lit "clawback", DBool false)])
     = Ok (SMap (Some [(sym "amount", SI128 1 5); (sym "authorized", SBool true); (sym "clawback", SBool false)])).
Proof.
  split; [|vm_compute; reflexivity]. cbn. repeat split; auto; intros x [H|[H|[H|[]]]]; try discriminate; injection H as <-; cbn; lia || exact I.
Qed.
(* its type can be used, and so can the others *)
Example C77_example_types : Forall type_ok
  [t_balance; t_allowance; t_data_key; t_instance_key; t_asset_info; t_metadata; t_address_executable; t_context; t_signature; t_invoker_entry].
Proof.
  repeat (apply Forall_cons; [usable|]). constructor.
Qed.
(* a transfer to a muxed address; the same with the amount left out *)
Example C77_example_dispatch :
  dispatch sac_fns (lit "transfer") [SAddress (AContract [1]); SAddress (AMuxed 9 [2]); SI128 0 10]
    = Ok (5%nat, [DAddress (AContract [1]); DAddress (AMuxed 9 [2]); DI128 10])
  /\ dispatch sac_fns (lit "transfer") [SAddress (AContract [1]); SAddress (AMuxed 9 [2])] = Err (ESys TContext CUnexpectedSize)
  /\ dispatch sac_fns (lit "transfers") [] = Err (ESys TValue CInvalidInput)
  /\ dispatch sac_fns (lit "mint") [SAddress (AMuxed 9 [2]); SI128 0 10] = Err (ESys TValue CUnexpectedType).
Proof. repeat split; vm_compute; reflexivity. Qed.
(* an entry with a call under a call, and one level fewer *)
Example C77_example_entry : let by_ := AContract (repeat 1 32) in
  let ctx f := SMap (Some [(sym "args", SVec (Some [SU32 3])); (sym "contract", SAddress (AContract (repeat 2 32))); (sym "fn_name", SSymbol (lit f))]) in
  let inner := SVec (Some [sym "Contract"; SMap (Some [(sym "context", ctx "g"%string); (sym "sub_invocations", SVec (Some []))])]) in
  let outer := SVec (Some [sym "Contract"; SMap (Some [(sym "context", ctx "f"%string); (sym "sub_invocations", SVec (Some [inner]))])]) in
  let f n := HContractFn (AContract (repeat 2 32)) (lit n) [SU32 3] in
  invoker_entry 2 by_ outer = Ok (HInv (f "f"%string) false [HInv (f "g"%string) false []])
  /\ invoker_entry 1 by_ outer = Err (ESys TContext CExceededLimit).
Proof. split; vm_compute; reflexivity. Qed.
