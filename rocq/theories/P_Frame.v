(* Properties C24 (failed calls leave no trace), C25 (try_call), C26 (call
   stacks), C27 (events), C50 (instance storage), C51 (contract creation), C52
   (executable references), C54 (random numbers). *)
From Coq Require Import ZArith Lia List Bool Permutation.
From Verif Require Import Prelude ValModel ContainerModel HeapModel AMap StorageModel StorageSpec
  StorageProofs StorageProofs2 StorageLogic StorageProofs3 FrameModel FrameSpec FrameProofs FrameStore
  FrameProofs2 FrameProofs3 FrameProofs4 FrameProofs5 PrngModel PrngProofs.
Import ListNotations.
Open Scope Z_scope.

(* ---------------------------------------------------------------- an example *)

(* Two contracts a = [10] and b = [11].
   a.run: stores 5 under 1, publishes an event, draws, tries b.boom (which
     stores, publishes, draws and then fails with its error 7), publishes what it
     got, reads 1 back, creates a contract from b's code, returns.
   a.deep: calls b.burn inside try_call, which runs out of budget. *)
Definition fx_run : list Z := [114; 117; 110].
Definition fx_boom : list Z := [98; 111; 111; 109].
Definition fx_burn : list Z := [98; 117; 114; 110].
Definition fx_deep : list Z := [100; 101; 101; 112].
Definition fx_back : list Z := [98; 97; 99; 107].
Definition fx_a : list Z := [10].
Definition fx_b : list Z := [11].
Definition fx_n : list Z := [12].
Definition fx_ha : list Z := repeat 1 32.
Definition fx_hb : list Z := repeat 2 32.
Definition fx_pre : preimage := PreAddress (AContract fx_a) (repeat 0 32).

Definition fx_prog_run : gprog :=
  GOp (OInst (IPut (SU32 1) (SU32 5))) (fun _ =>
  GOp (OEvent false (SU32 100)) (fun _ =>
  GOp (ODraw (PU64 0 9)) (fun _ =>
  GTry fx_b fx_boom [] (fun v =>
  GOp (OEvent false v) (fun _ =>
  GOp (OInst (IGet (SU32 1))) (fun _ =>
  GOp (ODraw (PU64 0 9)) (fun _ =>
  GCreate fx_pre (ExWasm fx_hb) [SU32 3] (fun a => GRet a)))))))).
Definition fx_prog_boom : gprog :=
  GOp (OInst (IPut (SU32 1) (SU32 6))) (fun _ =>
  GOp (OStore (HPut (SU32 2) (SU32 7) Persistent)) (fun _ =>
  GOp (OEvent false (SU32 200)) (fun _ =>
  GOp (ODraw (PU64 0 9)) (fun _ => GFail (EContract 7))))).
Definition fx_wasm (h fn : list Z) (args : list scval) : option gprog :=
  if zlist_eq_dec h fx_ha then
    if zlist_eq_dec fn fx_run then Some fx_prog_run
    else if zlist_eq_dec fn fx_deep then Some (GTry fx_b fx_burn [] (fun v => GRet v))
    else if zlist_eq_dec fn fx_back then Some (GTry fx_b fx_back [] (fun v => GRet (SVec (Some [v]))))
    else None
  else if zlist_eq_dec h fx_hb then
    if zlist_eq_dec fn fx_boom then Some fx_prog_boom
    else if zlist_eq_dec fn fx_burn then Some (GTrap (ESys TBudget CExceededLimit))
    else if zlist_eq_dec fn fx_back then Some (GCall fx_a fx_run [] (fun v => GRet v))
    else if zlist_eq_dec fn s_constructor then
      Some (GOp (OInst (IPut (SU32 9) (SVec (Some args)))) (fun _ => GRet SVoid))
    else None
  else None.
Definition fx_env : env Z := {|
  sub_prng := fun b => (1000 * b, b + 1);
  reseed := fun s => fold_left Z.add s 0;
  draw := fun o p => (p + 1, Ok (SU64 p));
  wasm := fx_wasm;
  wasm_proto := fun _ => 23;
  sac := fun _ _ => GRet SVoid;
  cid := fun _ => fx_n;
  check_upload := fun w => Ok (repeat 3 32, w)
|}.
Definition fx_inst (h : list Z) : lentry := (EData (SContractInstance (ExWasm h) None), Some 500).
Definition fx_src : lkey -> option lentry := fun k =>
  if lkey_eq_dec k (instance_key (AContract fx_a)) then Some (fx_inst fx_ha)
  else if lkey_eq_dec k (instance_key (AContract fx_b)) then Some (fx_inst fx_hb)
  else if lkey_eq_dec k (LKCode fx_ha) then Some (ECode [1], Some 500)
  else if lkey_eq_dec k (LKCode fx_hb) then Some (ECode [2], Some 500)
  else if lkey_eq_dec k (exe_ref_key (AContract fx_b) [5]) then Some (EData (SBytes fx_hb), Some 500)
  else None.
Definition fx_li : linfo := {| li_seq := 100; li_min_temp := 16; li_min_persistent := 4096; li_max_ttl := 10000 |}.
Definition fx_c : sconf := {| sc_li := fx_li; sc_mode := Recording fx_src; sc_recording_build := true |}.
Definition fx_h : host Z := {| h_store := empty_storage; h_ev := []; h_base := 7; h_stack := [] |}.

Example fx_li_ok : li_ok (sc_li fx_c).
Proof. unfold li_ok, min_live, max_live, u32_max. cbn. lia. Qed.
Example fx_src_live : forall k e l, fx_src k = Some (e, l) -> l = Some 500.
Proof.
  intros k e l. unfold fx_src. repeat (destruct (lkey_eq_dec k _); [unfold fx_inst; congruence|]). discriminate.
Qed.
Example fx_idle : idle fx_c fx_h.
Proof.
  split; [|split; [|reflexivity]].
  - right. exists fx_src. split; [reflexivity|]. split; [|split; [reflexivity|intros k o H; discriminate H]].
    intros k e l H _. rewrite (fx_src_live k e l H). discriminate.
  - intros k. cbn. apply now_live; [apply fx_li_ok|]. intros e l H. rewrite (fx_src_live k e l H). discriminate.
Qed.
(* inside a.run *)
Definition fx_in_a : host Z :=
  set_stack fx_h [ {| cx_frame := FContract fx_a fx_run []; cx_prng := None; cx_inst := None |};
                   {| cx_frame := FHost; cx_prng := None; cx_inst := None |} ].
Example fx_running : running fx_c fx_in_a.
Proof. destruct fx_idle as (A & B & _). split; [exact A|]. split; [exact B|discriminate]. Qed.

(* ---------------------------------------------------------------- C24 *)

(* A contract call or try_call that fails, made by a contract in any state and
   whatever happened inside it: every ledger entry has the contents and TTL it
   had, the caller's frames are as they were (their instance storage and random
   generators included), and the published events are those before the call.
   (The authorization state is part of the auth model: C38.) *)
Theorem C24_failed_call_leaves_no_trace :
  forall P (E : env P) c n kd id fn args h h' e t, li_ok (sc_li c) -> running c h ->
  kd = KCall \/ kd = KTry ->
  call_n E c (exec E c n) kd id fn args h = (h', Err e, t) ->
  (forall k, contents c (h_store h') k = contents c (h_store h) k)
  /\ h_stack h' = h_stack h
  /\ published (h_ev h') = published (h_ev h).
Proof.
  intros P E c n kd id fn args h h' e t LI R K. apply (failed_call E c n kd id fn args h h' e t LI R);
    destruct K as [->| ->]; try discriminate; exact I.
Qed.
Print Assumptions C24_failed_call_leaves_no_trace.

(* The same for a whole invocation: calling, creating or uploading. *)
Theorem C24_failed_invocation_leaves_no_trace :
  forall P (E : env P) c h f h' e t, li_ok (sc_li c) -> idle c h ->
  invoke E c h f = (h', Err e, t) ->
  (forall k, contents c (h_store h') k = contents c (h_store h) k)
  /\ h_stack h' = [] /\ published (h_ev h') = published (h_ev h).
Proof. intros P E c h f h' e t. exact (failed_invocation E c h f h' e t). Qed.
Print Assumptions C24_failed_invocation_leaves_no_trace.

(* b.boom writes both kinds of storage and publishes before it fails *)
Example C24_example :
  let '(h', r, t) := call_n fx_env fx_c (exec fx_env fx_c 50) KTry fx_b fx_boom [] fx_in_a in
  r = Err (EContract 7)
  /\ (exists e l, t = [TFrame (Some (KTry, fx_b, fx_boom, [])) (Err (EContract 7)) (TInst (IPut (SU32 1) (SU32 6)) (Ok SVoid) :: TEvent e :: l)])
  /\ h_ev h' <> [] /\ published (h_ev h') = [].
Proof. vm_compute. repeat split; try discriminate. eauto. Qed.
Example C24_example_invocation :
  let '(h', r, t) := invoke fx_env fx_c fx_h (HFInvoke fx_a fx_deep []) in r = Err (ESys TBudget CExceededLimit).
Proof. vm_compute. reflexivity. Qed.

(* ---------------------------------------------------------------- C25 *)

(* try_call: the caller goes on with the callee's value if it succeeded; with an
   error value if the error is not fatal, and then sees the callee's own error
   only if it is a contract error; a fatal error ends the caller with it. *)
Theorem C25_try_call :
  forall P (E : env P) c n id fn args k h h1 r t1,
  call_n E c (exec E c n) KTry id fn args h = (h1, r, t1) ->
  let goes_on_with v := exec E c (S n) h (GTry id fn args k) =
    (let '(h2, r2, t2) := exec E c (S n) h1 (k v) in (h2, r2, t1 ++ t2)) in
  match r with
  | Ok v => goes_on_with v
  | Err e => (~ fatal e -> goes_on_with (SError (seen e)))
             /\ (fatal e -> exec E c (S n) h (GTry id fn args k) = (h1, Err e, t1))
  end.
Proof.
  intros P E c n id fn args k h h1 [v|e] t1 CN.
  - exact (try_ok E c n id fn args k h h1 v t1 CN).
  - split; intros F; [exact (try_recovers E c n id fn args k h h1 e t1 CN F)|exact (try_fatal E c n id fn args k h h1 e t1 CN F)].
Qed.
Print Assumptions C25_try_call.

(* Whatever the nesting of calls and try_calls: if any call fails with a fatal
   error, so do all the calls around it and the invocation, with that error. *)
Theorem C25_fatal_errors_abort :
  forall P (E : env P) c h f h' r t, h_stack h = [] -> invoke E c h f = (h', r, t) ->
  forall p w e, occurs t p (w, Err e) -> fatal e ->
  (forall q, In q p -> snd q = Err e) /\ r = Err e.
Proof. intros P E c h f h' r t. exact (invoke_fatal E c h f h' r t). Qed.
Print Assumptions C25_fatal_errors_abort.

(* A contract that ends with fail_with_error passes on the contract errors it is
   given and no others. *)
Theorem C25_fail_with_error :
  forall P (E : env P) c n h e,
  exec E c n h (GFail e) = (h, Err (match e with EContract k => EContract k | _ => ESys TContext CUnexpectedType end), []).
Proof. intros P E c [|n] h e; reflexivity. Qed.
Print Assumptions C25_fail_with_error.

(* A frame whose function returns an error value fails, with that error if it is
   a contract error and with (Context, InvalidAction) otherwise; no call succeeds
   with an error value. *)
Theorem C25_returned_errors :
  forall P c w f body (h : host P) h1 e t,
  (length (h_stack h) < 100)%nat ->
  body (set_stack h ({| cx_frame := f; cx_prng := None; cx_inst := None |} :: h_stack h)) = (h1, Ok (SError e), t) ->
  exists h', with_frame c w f body h = (h', Err (seen e), [TFrame w (Err (seen e)) t]).
Proof. intros P c w f body h h1 e t. exact (with_frame_error c w f body h h1 e t). Qed.
Print Assumptions C25_returned_errors.
Theorem C25_no_error_values :
  forall P (E : env P) c n kd id fn args h h' v t,
  call_n E c (exec E c n) kd id fn args h = (h', Ok v, t) -> forall e, v <> SError e.
Proof. intros P E c n kd id fn args h h' v t. exact (call_value E c (exec E c n) kd id fn args h h' v t). Qed.
Print Assumptions C25_no_error_values.

Example C25_example :
  (let '(_, r, _) := exec fx_env fx_c 50 fx_in_a (GTry fx_b fx_boom [] (fun v => GRet v)) in r = Ok (SError (EContract 7)))
  /\ (let '(_, r, _) := exec fx_env fx_c 50 fx_in_a (GTry fx_b [1] [] (fun v => GRet v)) in r = Ok (SError (ESys TContext CInvalidAction)))
  /\ (let '(_, r, t) := invoke fx_env fx_c fx_h (HFInvoke fx_a fx_deep []) in
      r = Err (ESys TBudget CExceededLimit) /\
      t = [TFrame None r [TFrame (Some (KCall, fx_a, fx_deep, [])) r [TFrame (Some (KTry, fx_b, fx_burn, [])) r []]]]).
Proof. vm_compute. repeat split. Qed.
Example C25_example_fatal : fatal (ESys TBudget CExceededLimit) /\ fatal (ESys TAuth CInternalError)
  /\ ~ fatal (EContract 7) /\ ~ fatal (ESys TContext CExceededLimit).
Proof. repeat split; try constructor; intros F; inversion F. Qed.

(* ---------------------------------------------------------------- C26 *)

(* Every frame of an invocation: at most 99 frames around it (so a stack of at
   most 100), reserved names only for the host's own calls, and no contract
   already running except one authenticating itself directly. *)
Theorem C26_call_stacks :
  forall P (E : env P) c h f h' r t, h_stack h = [] -> invoke E c h f = (h', r, t) ->
  forall p w r', occurs t p (w, r') -> (length p < 100)%nat /\ legal (ids (map fst p)) w.
Proof. intros P E c h f h' r t. exact (invoke_legal E c h f h' r t). Qed.
Print Assumptions C26_call_stacks.

(* The model's recursion bound is the depth limit itself: a larger bound gives
   the same run, so no execution is cut short by the model. *)
Theorem C26_bound_irrelevant :
  forall P (E : env P) c n m h p, running c h ->
  (100 <= n + length (h_stack h))%nat -> (100 <= m + length (h_stack h))%nat ->
  exec E c n h p = exec E c m h p.
Proof. intros P E c n m h p R. exact (exec_fuel E c n m h p (running_pre c h R)). Qed.
Print Assumptions C26_bound_irrelevant.

(* b.back would re-enter a: refused, while a.back goes on *)
Example C26_example :
  let '(_, r, t) := invoke fx_env fx_c fx_h (HFInvoke fx_a fx_back []) in
  r = Ok (SVec (Some [SError (ESys TContext CInvalidAction)]))
  /\ occurs t [(Some (KCall, fx_a, fx_back, []), r); (None, r)] (Some (KTry, fx_b, fx_back, []), Err (ESys TContext CInvalidAction)).
Proof.
  vm_compute. split; [reflexivity|].
  eapply (occ_in _ _ _ _ [_]); [now left|]. eapply (occ_in _ _ _ _ []); [now left|]. eapply occ_here. now left.
Qed.
Example C26_example_reserved :
  let '(_, r, _) := invoke fx_env fx_c fx_h (HFInvoke fx_b s_constructor []) in r = Err (ESys TContext CInvalidAction).
Proof. vm_compute. reflexivity. Qed.

(* ---------------------------------------------------------------- C27 *)

(* The events recorded are all events of the run, in order, flagged exactly if a
   call around them failed; the published ones are the non-diagnostic events of
   calls that all succeeded, in order. *)
Theorem C27_events :
  forall P (E : env P) c h f h' r t, h_stack h = [] -> invoke E c h f = (h', r, t) ->
  h_ev h' = h_ev h ++ ev_trees t
  /\ published (h_ev h') = published (h_ev h) ++ filter not_diagnostic (flat_map kept t).
Proof. intros P E c h f h' r t. exact (invoke_events E c h f h' r t). Qed.
Print Assumptions C27_events.

Example C27_example :
  let '(h', r, _) := invoke fx_env fx_c fx_h (HFInvoke fx_a fx_run []) in
  let ev id b := {| ev_id := Some id; ev_kind := EvContract; ev_body := b |} in
  is_ok r = true
  /\ h_ev h' = [(ev fx_a (SU32 100), false); (ev fx_b (SU32 200), true); (ev fx_a (SError (EContract 7)), false)]
  /\ published (h_ev h') = [ev fx_a (SU32 100); ev fx_a (SError (EContract 7))].
Proof. vm_compute. repeat split. Qed.

(* ---------------------------------------------------------------- C50 *)

(* The run is explained by a world that maps each contract to its executable and
   instance storage (FrameSpec.explained): every access answers from the map of
   the contract making it, with all its earlier writes, upgrades change the
   executable only, failed calls change nothing; and the ledger afterwards holds
   exactly that world. *)
Theorem C50_instance_storage :
  forall P (E : env P) c h f h' r t, li_ok (sc_li c) -> idle c h ->
  invoke E c h f = (h', r, t) ->
  exists w', explained None (contracts (contents c (h_store h))) t w'
             /\ same_world w' (contracts (contents c (h_store h'))).
Proof. intros P E c h f h' r t. exact (invoke_explained E c h f h' r t). Qed.
Print Assumptions C50_instance_storage.

Example C50_example :
  let '(h', r, _) := invoke fx_env fx_c fx_h (HFInvoke fx_a fx_run []) in
  let w := contracts (contents fx_c (h_store h')) in
  (exists e f, w fx_a = Some (e, f) /\ f (SU32 1) = Some (SU32 5))
  /\ (exists e f, w fx_b = Some (e, f) /\ f (SU32 1) = None)
  /\ (exists f, w fx_n = Some (ExWasm fx_hb, f) /\ f (SU32 9) = Some (SVec (Some [SU32 3]))).
Proof. vm_compute. split; [|split]; repeat eexists. Qed.

(* ---------------------------------------------------------------- C51 *)

(* Creating a contract where one exists (or any entry under the instance key)
   fails and changes nothing. *)
Theorem C51_no_second_creation :
  forall P (E : env P) c n pr exe args h, li_ok (sc_li c) -> running c h ->
  contents c (h_store h) (instance_key (AContract (cid E pr))) <> None ->
  exists h' e, create E c (exec E c n) pr exe args h = (h', Err e, [])
    /\ forall k, contents c (h_store h') k = contents c (h_store h) k.
Proof. intros P E c n pr exe args h. exact (create_exists E c n pr exe args h). Qed.
Print Assumptions C51_no_second_creation.

(* A creation that succeeds: there was no instance; one with the requested
   executable, no storage and the minimum TTL is added, and nothing else
   changes; the executable exists; and then, if the code has constructors, the
   constructor ran on that state with the given arguments and returned void (a
   contract without constructors takes no arguments); an asset contract was
   initialized. *)
Theorem C51_creation :
  forall P (E : env P) c n pr exe args h h' v t, li_ok (sc_li c) -> running c h ->
  create E c (exec E c n) pr exe args h = (h', Ok v, t) ->
  let id := cid E pr in
  let key := instance_key (AContract id) in
  contents c (h_store h) key = None /\ v = SAddress (AContract id) /\ pairing_ok pr exe = true /\
  exists h1 t',
    h_stack h1 = h_stack h /\ t = TCreated id exe :: t'
    /\ (forall k, contents c (h_store h1) k =
          upd (contents c (h_store h)) key (Some (EData (SContractInstance exe None), Some (min_live (sc_li c) Persistent))) k)
    /\ runnable (contents c (h_store h1)) exe
    /\ match pr with
       | PreAddress _ _ =>
           (t' = [] /\ args = [] /\ h' = h1)
           \/ (exists l, t' = [TFrame (Some (KCtor, id, s_constructor, args)) (Ok SVoid) l]
                 /\ call E c (exec E c n) KCtor id s_constructor args h1 = (h', Ok SVoid, t'))
       | PreAsset a => exists r l, t' = [TFrame (Some (KInit, id, s_init_asset, [SBytes a])) (Ok r) l]
                 /\ call E c (exec E c n) KInit id s_init_asset [SBytes a] h1 = (h', Ok r, t')
       end.
Proof. intros P E c n pr exe args h h' v t LI R. exact (create_succeeds E c n pr exe args h h' v t LI (or_introl R)). Qed.
Print Assumptions C51_creation.

(* Constructor arguments for code without a constructor are refused. *)
Theorem C51_arguments_need_constructor :
  forall P (E : env P) c n d salt hash args h h' v t, li_ok (sc_li c) -> running c h ->
  create E c (exec E c n) (PreAddress d salt) (ExWasm hash) args h = (h', Ok v, t) ->
  wasm E hash s_constructor args = None -> args = [].
Proof. intros P E c n d salt hash args h h' v t LI R. exact (create_ctor_args E c n d salt hash args h h' v t LI (or_introl R)). Qed.
Print Assumptions C51_arguments_need_constructor.

(* Constructors run only right after the creation of their contract, anywhere in
   any invocation. *)
Theorem C51_constructors_once :
  forall P (E : env P) c h f h' r t, h_stack h = [] -> invoke E c h f = (h', r, t) -> everywhere (ctors_ok None) t.
Proof. intros P E c h f h' r t. exact (invoke_ctors E c h f h' r t). Qed.
Print Assumptions C51_constructors_once.

(* A contract that exists keeps existing, and (C24) a creation whose constructor
   fails takes its frame with it: creation failures are never absorbed by the
   creator, so the instance is gone. *)
Theorem C51_instances_stay :
  forall P (E : env P) c h f h' r t, li_ok (sc_li c) -> idle c h -> invoke E c h f = (h', r, t) ->
  forall id, contracts (contents c (h_store h)) id <> None -> contracts (contents c (h_store h')) id <> None.
Proof.
  intros P E c h f h' r t LI R IN id. rewrite !iview_contracts. pose proof (ev_inst _ _ (invoke_evolves E c h f h' r t LI R IN) id) as X.
  destruct (iview _ id), (iview (contents c (h_store h')) id); cbn; try congruence. intros _. destruct X; congruence.
Qed.
Print Assumptions C51_instances_stay.
Theorem C51_failed_creation_propagates :
  forall P (E : env P) c n pr exe args k h h1 e t1,
  create E c (exec E c n) pr exe args h = (h1, Err e, t1) ->
  exec E c (S n) h (GCreate pr exe args k) = (h1, Err e, t1).
Proof.
  intros P E c n pr exe args k h h1 e t1 CR.
  change (exec E c (S n) h (GCreate pr exe args k)) with (bind (create E c (exec E c n) pr exe args h) (fun v h1 => exec E c (S n) h1 (k v))).
  rewrite CR. reflexivity.
Qed.
Print Assumptions C51_failed_creation_propagates.

Example C51_example :
  (let '(h', r, t) := create fx_env fx_c (exec fx_env fx_c 50) fx_pre (ExWasm fx_hb) [SU32 3] fx_in_a in
   r = Ok (SAddress (AContract fx_n))
   /\ (exists st, contents fx_c (h_store h') (instance_key (AContract fx_n)) = Some (EData (SContractInstance (ExWasm fx_hb) st), Some 4195)
         /\ st <> None)
   /\ (let '(_, r2, _) := create fx_env fx_c (exec fx_env fx_c 50) fx_pre (ExWasm fx_hb) [SU32 3] h' in r2 = Err (ESys TStorage CExistingValue)))
  /\ (let '(_, r, _) := create fx_env fx_c (exec fx_env fx_c 50) fx_pre (ExWasm (repeat 4 32)) [] fx_in_a in is_ok r = false).
Proof. vm_compute. repeat split. eexists. split; [reflexivity|discriminate]. Qed.

Example C51_arguments_example :
  running fx_c fx_in_a /\ wasm fx_env fx_ha s_constructor [SU32 3] = None
  /\ (let '(_, r, _) := create fx_env fx_c (exec fx_env fx_c 50) fx_pre (ExWasm fx_ha) [] fx_in_a in is_ok r = true)
  /\ (let '(_, r2, _) := create fx_env fx_c (exec fx_env fx_c 50) fx_pre (ExWasm fx_ha) [SU32 3] fx_in_a in r2 = Err (ESys TContext CInvalidAction)).
Proof. split; [exact fx_running|]. vm_compute. auto. Qed.

(* ---------------------------------------------------------------- C52 *)

(* Any invocation: an executable reference keeps its value or ends up with the
   32-byte hash of existing code, and never disappears; contracts cannot write
   such keys in temporary storage; code never disappears; a contract's executable
   is unchanged or can be run. *)
Theorem C52_executable_references :
  forall P (E : env P) c h f h' r t, li_ok (sc_li c) -> idle c h -> invoke E c h f = (h', r, t) ->
  let m := contents c (h_store h) in
  let m' := contents c (h_store h') in
  (forall o tag, same_entry (m (exe_ref_key o tag)) (m' (exe_ref_key o tag)) \/ ref_valid m' (m' (exe_ref_key o tag)))
  /\ (forall o tag, m (exe_ref_key o tag) <> None -> m' (exe_ref_key o tag) <> None)
  /\ (forall o tag, same_entry (m (LKData o (SExecutableTag tag) Temporary)) (m' (LKData o (SExecutableTag tag) Temporary)))
  /\ (forall hash, m (LKCode hash) <> None -> m' (LKCode hash) <> None)
  /\ (forall id ex w, contracts m' id = Some (ex, w) ->
        (exists w0, contracts m id = Some (ex, w0)) \/ runnable m' ex).
Proof.
  intros P E c h f h' r t LI R IN m m'. destruct (invoke_evolves E c h f h' r t LI R IN) as [A B C D F G].
  repeat split; auto. intros id ex w. unfold m', m. rewrite !iview_contracts.
  destruct (iview (contents c (h_store h')) id) as [[ex' st]|] eqn:V; [|discriminate]. intros [= -> <-].
  destruct (G id ex st V) as [(st0 & X)|X]; auto. left. rewrite X. cbn. eauto.
Qed.
Print Assumptions C52_executable_references.

(* So the invariant: from a ledger where every executable reference is valid,
   every history of invocations leads to such a ledger. *)
Definition refs_valid (m : store) : Prop :=
  (forall o tag, m (exe_ref_key o tag) = None \/ ref_valid m (m (exe_ref_key o tag)))
  /\ (forall o tag, m (LKData o (SExecutableTag tag) Temporary) = None).
Fixpoint history {P} (E : env P) (c : sconf) (h : host P) (l : list hostfn) : host P :=
  match l with [] => h | f :: l' => history E c (fst (fst (invoke E c h f))) l' end.
Theorem C52_references_stay_valid :
  forall P (E : env P) c l h, li_ok (sc_li c) -> idle c h ->
  refs_valid (contents c (h_store h)) -> refs_valid (contents c (h_store (history E c h l))).
Proof.
  intros P E c. induction l as [|f l IH]; intros h LI R V; [exact V|]. cbn [history].
  destruct (invoke E c h f) as [[h' r] t] eqn:IN. cbn [fst].
  apply IH; [exact LI|exact (invoke_idle E c h f h' r t LI R IN)|].
  destruct (C52_executable_references P E c h f h' r t LI R IN) as (A & _ & B & C & _). destruct V as [V1 V2]. split.
  - intros o tag. destruct (A o tag) as [S|S]; [|now right]. destruct (V1 o tag) as [N|(b & x & X1 & X2 & X3)].
    + left. unfold same_entry in S. rewrite N in S. destruct (contents c (h_store h') _); [discriminate|auto].
    + right. unfold same_entry in S. rewrite X1 in S. destruct (contents c (h_store h') _) as [[e y]|]; [|discriminate].
      injection S as ->. exists b, y. auto.
  - intros o tag. specialize (B o tag). unfold same_entry in B. rewrite V2 in B.
    destruct (contents c (h_store h') _); [discriminate|auto].
Qed.
Print Assumptions C52_references_stay_valid.

Example C52_example : refs_valid (contents fx_c (h_store fx_h)).
Proof.
  split.
  - intros o tag. change (contents fx_c (h_store fx_h) (exe_ref_key o tag)) with (now fx_li (exe_ref_key o tag) (fx_src (exe_ref_key o tag))).
    unfold fx_src, instance_key, exe_ref_key. repeat (destruct (lkey_eq_dec _ _) as [Q|Q]; [try discriminate Q|clear Q]).
    + right. exists fx_hb, (Some 500). split; [reflexivity|]. split; [reflexivity|discriminate].
    + left. reflexivity.
  - intros o tag. change (contents fx_c (h_store fx_h) (LKData o (SExecutableTag tag) Temporary))
      with (now fx_li (LKData o (SExecutableTag tag) Temporary) (fx_src (LKData o (SExecutableTag tag) Temporary))).
    unfold fx_src, instance_key, exe_ref_key. repeat (destruct (lkey_eq_dec _ _) as [Q|Q]; [discriminate Q|clear Q]). reflexivity.
Qed.
(* a contract can change its reference to existing code, not to missing code *)
Definition fx_in_b : host Z :=
  set_stack fx_h [ {| cx_frame := FContract fx_b fx_run []; cx_prng := None; cx_inst := None |};
                   {| cx_frame := FHost; cx_prng := None; cx_inst := None |} ].
Example C52_example_put :
  (let '(h', r, _) := exec fx_env fx_c 50 fx_in_b (GOp (OStore (HPut (SExecutableTag [5]) (SBytes fx_ha) Persistent)) (fun _ => GRet SVoid)) in
   r = Ok SVoid /\ contents fx_c (h_store h') (exe_ref_key (AContract fx_b) [5]) = Some (EData (SBytes fx_ha), Some 500))
  /\ (let '(h', r, _) := exec fx_env fx_c 50 fx_in_b (GOp (OStore (HPut (SExecutableTag [5]) (SBytes (repeat 4 32)) Persistent)) (fun _ => GRet SVoid)) in is_ok r = false)
  /\ (let '(h', r, _) := exec fx_env fx_c 50 fx_in_b (GOp (OStore (HDel (SExecutableTag [5]) Persistent)) (fun _ => GRet SVoid)) in is_ok r = false).
Proof. vm_compute. repeat split. Qed.

(* ---------------------------------------------------------------- C54 *)

(* Number the frames that use random numbers in the order of their first draw
   (failed calls included): what frame j sees is the stream of the j-th generator
   the base generator gives, in answer to its own requests alone. *)
Theorem C54_isolated_streams :
  forall P (E : env P) c h f h' r t, h_stack h = [] -> invoke E c h f = (h', r, t) ->
  let '(k, _, es) := label t 0 None in
  h_base h' = advance E k (h_base h)
  /\ forall j, answers (of_gen j es) = stream E (generator E (h_base h) j) (requests (of_gen j es)).
Proof. intros P E c h f h' r t. exact (invoke_streams E c h f h' r t). Qed.
Print Assumptions C54_isolated_streams.

(* u64_in_inclusive_range lies in the range, for any generator outputs, and an
   empty range is refused. *)
Theorem C54_range :
  forall lo hi out, 0 <= lo -> 0 <= hi < 2 ^ 64 -> (forall x, In x out -> 0 <= x < 2 ^ 64) ->
  match u64_in_inclusive_range lo hi out with
  | Ok (Some (v, _)) => lo <= v <= hi
  | Ok None => lo <= hi       (* only if the outputs ran out *)
  | Err _ => hi < lo
  end.
Proof.
  intros lo hi out L H O. unfold u64_in_inclusive_range. destruct (lo >? hi) eqn:C; [lia|].
  destruct (uniform _ _ _ _) as [[v out']|] eqn:U; [|lia]. apply uniform_range in U; auto; lia.
Qed.
Print Assumptions C54_range.

(* vec_shuffle returns a permutation. *)
Theorem C54_shuffle :
  forall A (l l' : list A) out out', vec_shuffle l out = Some (l', out') -> Permutation l' l.
Proof. intros A l l' out out'. apply shuffle_perm. Qed.
Print Assumptions C54_shuffle.

Example C54_example :
  let '(h', r, t) := invoke fx_env fx_c fx_h (HFInvoke fx_a fx_run []) in
  let '(k, _, es) := label t 0 None in
  k = 2%nat /\ h_base h' = 9
  /\ es = [(0%nat, PU64 0 9, Ok (SU64 7000)); (1%nat, PU64 0 9, Ok (SU64 8000)); (0%nat, PU64 0 9, Ok (SU64 7001))].
Proof. vm_compute. repeat split. Qed.
Example C54_example_shuffle :
  vec_shuffle [1; 2; 3] [2863311531; 0] = Some ([2; 1; 3], []) /\ u64_in_inclusive_range 10 19 [2 ^ 63] = Ok (Some (15, [])).
Proof. vm_compute. repeat split. Qed.
