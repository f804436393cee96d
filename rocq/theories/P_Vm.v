(* C64: which Wasm modules run, and what their imports call.  C65: what modules are charged
   for when they are parsed. *)
From Coq Require Import ZArith Lia List Bool Permutation.
From Verif Require Import Prelude AMap BudgetModel VmTable VmModel VmSpec VmProofs VmProofs2.
Import ListNotations.
Open Scope Z_scope.

(* ---------------------------------------------------------------- C64 *)

(* The real table: 199 functions, each with its own pair of short names; each function has
   at most one result word and at most ten argument words. *)
Definition names_eq_dec : forall a b : list Z * list Z, {a = b} + {a <> b}.
Proof. decide equality; apply bytes_eq_dec. Defined.
Fixpoint nodupb (l : list (list Z * list Z)) : bool :=
  match l with [] => true | a :: l' => (if in_dec names_eq_dec a l' then false else true) && nodupb l' end.
Lemma nodupb_ok l : nodupb l = true -> NoDup l.
Proof. induction l as [|a l IH]; cbn; [constructor|]. destruct (in_dec names_eq_dec a l); [discriminate|]. constructor; auto. Qed.
Theorem C64_table : table_ok host_functions /\ length host_functions = 199%nat
  /\ Forall (fun f => (hf_arity f <= 10)%nat /\ (forall a b, hf_min f = Some a -> hf_max f = Some b -> a <= b)
                      /\ (forall a, hf_min f = Some a -> a <= interface_protocol)) host_functions.
Proof.
  split; [split|split].
  - apply nodupb_ok. vm_compute. reflexivity.
  - assert (A : forallb (fun f => Nat.ltb (length (hf_mod f)) 10 && Nat.ltb (length (hf_fn f)) 10) host_functions = true) by (vm_compute; reflexivity).
    rewrite forallb_forall in A. apply Forall_forall. intros f I. specialize (A f I). apply andb_true_iff in A as [A B]. now apply Nat.ltb_lt in A, B.
  - reflexivity.
  - assert (A : forallb (fun f => Nat.leb (hf_arity f) 10 && match hf_min f, hf_max f with Some a, Some b => a <=? b | _, _ => true end
                 && match hf_min f with Some a => a <=? interface_protocol | None => true end) host_functions = true) by (vm_compute; reflexivity).
    rewrite forallb_forall in A. apply Forall_forall. intros f I. specialize (A f I). apply andb_true_iff in A as [A C]. apply andb_true_iff in A as [A B]. apply Nat.leb_le in A. split; auto. split.
    + intros a b X Y. rewrite X, Y in B. now apply Z.leb_le.
    + intros a X. rewrite X in C. now apply Z.leb_le.
Qed.
Print Assumptions C64_table.

(* A module runs exactly if it decodes and is acceptable: made for the ledger's protocol or
   an earlier released one, importing nothing but host functions of exactly their types that
   exist both in its own protocol and in the ledger's; its imports then call these. *)
Theorem C64_accepts_iff :
  forall E, table_ok (e_fns E) -> forall ledger w v,
  vm_new E ledger w = Ok v <->
    e_decode E w = Ok (p_mod (vm_parsed v))
    /\ acceptable E ledger (p_mod (vm_parsed v)) (p_proto (vm_parsed v)) (vm_calls v).
Proof. exact vm_new_spec. Qed.
Print Assumptions C64_accepts_iff.

(* What the imports call is determined: an import is bound to the one function of its names. *)
Theorem C64_imports_bound_by_name :
  forall E, table_ok (e_fns E) -> forall ledger w v n mo fn x,
  vm_new E ledger w = Ok v -> nth_error (m_imports (p_mod (vm_parsed v))) n = Some (mo, fn, x) ->
  exists f, nth_error (vm_calls v) n = Some f /\ hf_mod f = mo /\ hf_fn f = fn
    /\ x = XFunc {| ft_params := repeat I64 (hf_arity f); ft_results := [I64] |}
    /\ forall g, In g (e_fns E) -> hf_mod g = mo -> hf_fn g = fn -> g = f.
Proof.
  intros E T ledger w v n mo fn x V N. apply (vm_new_spec E T) in V as (_ & _ & _ & _ & F & C & _ & _).
  revert n N C. induction F as [|i f is fs I F IH]; intros [|n] N C; try discriminate; inversion_clear C as [|? ? (C1 & _) C2].
  - injection N as ->. injection I as -> -> ->. exists f. repeat split; auto. intros g G E1 E2. destruct T as [ND _]. clear -ND G C1 E1 E2.
    induction (e_fns E) as [|a l IH]; [destruct G|]. cbn in ND. inversion_clear ND as [|? ? N1 N2].
    assert (NE : names g = names f) by (unfold names; congruence).
    destruct G as [->|G], C1 as [->|C1]; auto; exfalso; apply N1.
    + rewrite NE. apply in_map; auto.
    + rewrite <- NE. apply in_map; auto.
  - destruct (IH n N C2) as (h & H). exists h. exact H.
Qed.
Print Assumptions C64_imports_bound_by_name.

(* Whatever was put into the module cache, dropped from it and cleared, at this protocol or
   earlier ones, a contract runs from the cache exactly as it does from the ledger: with the
   same imports, or failing with the same error (as long as no two different modules in play
   have the same hash, and the ledger keeps code under its hash). *)
Theorem C64_cache_is_transparent :
  forall E, table_ok (e_fns E) -> e_pre E = 0 -> forall sha extractable ops stored hash,
  ops_before (e_proto E) ops ->
  (forall h w, stored h = Ok (Some w) -> h = sha w) ->
  (forall w w', added ops w -> stored hash = Ok (Some w') -> sha w = sha w' -> w = w') ->
  instantiate_vm E (e_proto E) (Some (cache_run E sha extractable ops)) stored hash
  = instantiate_vm E (e_proto E) None stored hash.
Proof. intros E T PRE sha extractable ops stored hash. now apply cache_transparent. Qed.
Print Assumptions C64_cache_is_transparent.

(* Simulations, which parse live code afresh, run the same. *)
Theorem C64_simulation_runs_the_same :
  forall E extractable ledger live stored hash,
  (forall w, stored hash = Ok (Some w) -> extractable w = Ok tt) -> (exists b, live hash = Ok b) ->
  instantiate_vm_recording E extractable ledger live stored hash = instantiate_vm E ledger None stored hash.
Proof. exact recording_same. Qed.
Print Assumptions C64_simulation_runs_the_same.

(* A module that runs keeps running, with the same imports, after the network upgrades to a
   later protocol, unless that protocol ended one of the functions it imports. *)
Theorem C64_upgrades_keep_modules :
  forall E E' w v, table_ok (e_fns E) -> table_ok (e_fns E') -> later_host E E' ->
  vm_new E (e_proto E) w = Ok v -> Forall (available (e_proto E')) (vm_calls v) ->
  vm_new E' (e_proto E') w = Ok v.
Proof. exact upgrade. Qed.
Print Assumptions C64_upgrades_keep_modules.

(* No module reaches a function that was added after the protocol it was made for. *)
Theorem C64_no_later_functions :
  forall E, table_ok (e_fns E) -> forall ledger w v f n,
  vm_new E ledger w = Ok v -> In f (vm_calls v) -> hf_min f = Some n -> n <= p_proto (vm_parsed v) /\ n <= ledger.
Proof.
  intros E T ledger w v f n V I M. apply (vm_new_spec E T) in V as (_ & _ & _ & _ & _ & C & _). rewrite Forall_forall in C.
  destruct (C f I) as (_ & [A _] & [B _]). auto.
Qed.
Print Assumptions C64_no_later_functions.

(* A call runs a function exactly if it is exported under the called name, takes exactly the
   given words and gives one result; a missing function counts as success only where asked. *)
Theorem C64_called_function :
  forall v fn n mo, NoDup (map fst (m_exports (p_mod (vm_parsed v)))) ->
  (resolve_call v fn n mo = Ok true <->
     (n <= 32)%nat /\ exists r, In (fn, XFunc {| ft_params := repeat I64 n; ft_results := [r] |}) (m_exports (p_mod (vm_parsed v))))
  /\ (resolve_call v fn n mo = Ok false <-> mo = true /\ ~ In fn (map fst (m_exports (p_mod (vm_parsed v))))).
Proof. exact resolve_spec. Qed.
Print Assumptions C64_called_function.

(* ---- examples: real functions, a module made for protocol 27 *)
Definition ex_words (n : nat) : extern := XFunc {| ft_params := repeat I64 n; ft_results := [I64] |}.
Definition ex_meta (proto : Z) : list Z * list Z := (env_meta_name, [0; 0; 0; 0; 0; 0; 0; proto; 0; 0; 0; 0]).
Definition ex_module (proto : Z) (imports : list (list Z * list Z * extern)) : module_ :=
  {| m_imports := imports; m_exports := [([109; 101], ex_words 2); ([109], XOther)];
     m_custom := [([110], [1; 2]); ex_meta proto]; m_start := false |}.
(* x._ (log), i.H (u256_checked_add, from 26) *)
Definition ex_imports : list (list Z * list Z * extern) := [([105], [72], ex_words 2); ([120], [95], ex_words 4)].
Definition ex_env (p : Z) : henv :=
  {| e_proto := p; e_pre := 0; e_fns := host_functions;
     e_decode := fun w => match w with
       | [1] => Ok (ex_module 27 ex_imports)
       | [2] => Ok (ex_module 25 ex_imports)                              (* older than i.H *)
       | [3] => Ok (ex_module 27 [([120], [95], ex_words 3)])             (* wrong arity *)
       | [4] => Ok (ex_module 28 ex_imports)
       | _ => Err (ESys TWasmVm CInvalidAction) end;
     e_init := fun _ => Ok tt |}.
Definition ex_vm (proto : Z) : vm :=
  {| vm_parsed := {| p_mod := ex_module proto ex_imports; p_proto := proto |};
     vm_calls := [hf [105] [72] 2 (Some 26) None; hf [120] [95] 4 None None] |}.
Example C64_hyp :
  vm_new (ex_env 28) 28 [1] = Ok (ex_vm 27)
  /\ vm_new (ex_env 28) 28 [4] = Ok (ex_vm 28)
  /\ vm_new (ex_env 27) 27 [1] = Ok (ex_vm 27)
  /\ vm_new (ex_env 27) 27 [4] = Err (ESys TWasmVm CInvalidInput)
  /\ vm_new (ex_env 28) 28 [2] = Err (ESys TWasmVm CInvalidAction)
  /\ vm_new (ex_env 28) 28 [3] = Err (ESys TWasmVm CInvalidAction)
  /\ resolve_call (ex_vm 27) [109; 101] 2 false = Ok true
  /\ resolve_call (ex_vm 27) [109; 101] 3 false = Err (ESys TWasmVm CUnexpectedSize)
  /\ resolve_call (ex_vm 27) [109] 0 true = Err (ESys TWasmVm CUnexpectedType)
  /\ resolve_call (ex_vm 27) [120] 0 true = Ok false.
Proof. vm_compute. repeat split. Qed.
Example C64_accepts_hyp :
  table_ok (e_fns (ex_env 28)) /\ acceptable (ex_env 28) 28 (ex_module 27 ex_imports) 27 (vm_calls (ex_vm 27)).
Proof.
  pose proof (proj1 C64_table) as T. split; [exact T|].
  exact (proj2 (proj1 (C64_accepts_iff (ex_env 28) T 28 [1] (ex_vm 27)) (proj1 C64_hyp))).
Qed.
Example C64_upgrade_hyp :
  later_host (ex_env 27) (ex_env 28) /\ vm_new (ex_env 27) (e_proto (ex_env 27)) [1] = Ok (ex_vm 27)
  /\ Forall (available (e_proto (ex_env 28))) (vm_calls (ex_vm 27)).
Proof.
  split; [|split].
  - repeat split; cbn; try lia. intros f I. exact I.
  - apply C64_hyp.
  - repeat constructor; cbn; intros n X; inversion X; lia.
Qed.
Example C64_cache_hyp :
  let ops := [CAdd 27 [1]; CAdd 27 [4]; CAdd 28 [3]; CRemove [3]; CAdd 28 [4]] in
  let stored := fun h : list Z => Ok (Some h) in
  ops_before (e_proto (ex_env 28)) ops
  /\ (forall h w, stored h = Ok (Some w) -> h = (fun x => x) w)
  /\ map fst (cache_run (ex_env 28) (fun w => w) (fun _ => Ok tt) ops) = [[1]; [4]]
  /\ instantiate_vm (ex_env 28) 28 (Some (cache_run (ex_env 28) (fun w => w) (fun _ => Ok tt) ops)) stored [1] = Ok (ex_vm 27).
Proof.
  cbn zeta. split; [repeat constructor; cbn; lia|]. split; [now intros h w [= ->]|]. split; vm_compute; reflexivity.
Qed.

(* ---------------------------------------------------------------- C65 *)

(* A module can be uploaded only if it uses nothing but 32-bit memories and constant
   initial values, and names no more data than memory and no more elements than table
   entries; its cost inputs are then the exact counts (capped at 2^32 - 1). *)
Theorem C65_counts_are_exact :
  forall l, Forall sane l -> forall c,
  extract l = Ok c <->
    Forall plain_section l
    /\ cap (sums count_data_bytes l) <= cap (sums count_memory l) /\ cap (sums count_elements l) <= cap (sums count_table_entries l)
    /\ c = {| n_instructions := cap (sums count_instructions l); n_functions := cap (sums count_functions l); n_globals := cap (sums count_globals l);
              n_table_entries := cap (sums count_table_entries l); n_types := cap (sums count_types l); n_data_segments := cap (sums count_data_segments l);
              n_elem_segments := cap (sums count_elem_segments l); n_imports := cap (sums count_imports l); n_exports := cap (sums count_exports l);
              n_data_bytes := cap (sums count_data_bytes l) |}.
Proof. intros l S c. now apply extract_spec. Qed.
Print Assumptions C65_counts_are_exact.

Lemma sums_perm f l l' : Permutation l l' -> sums f l' = sums f l.
Proof. unfold sums, sum. induction 1; cbn [map fold_right]; lia. Qed.
(* The order of the sections does not matter. *)
Theorem C65_order_is_irrelevant :
  forall l l' c, Forall sane l -> Permutation l l' -> extract l = Ok c -> extract l' = Ok c.
Proof.
  intros l l' c S P X. assert (S' : Forall sane l') by (eapply Permutation_Forall; eauto).
  apply extract_spec; auto. apply extract_spec in X; auto. rewrite !(sums_perm _ l l' P). destruct X as [X Y]. split; auto. eapply Permutation_Forall; eauto.
Qed.
Print Assumptions C65_order_is_irrelevant.

(* Parsing a module charges memory by the price list of the network's settings: the sum of
   the prices of everything in it, and that very sum is what rent is charged for. *)
Theorem C65_parsing_is_charged_as_rent_counts :
  forall b v b', in_shadow b = false -> 0 <= d_net (mem b) <= 2 ^ 64 - 1 -> models_ok (d_models (mem b)) -> parts_ok v ->
  charge_for_parsing b v = (b', Ok tt) ->
  d_net (mem b') = Z.min (d_net (mem b) + total_price (d_models (mem b)) v) (2 ^ 64 - 1)
  /\ forall size, 0 <= size -> code_size_for_rent b size v = Ok (cap (size + cap (total_price (d_models (mem b)) v))).
Proof.
  intros b v b' SH R M P C. destruct (parsing_charge b v b' SH R C) as (c & W & D). pose proof (memory_cost_price b v c M P W) as ->.
  assert (T : 0 <= total_price (d_models (mem b)) v).
  { unfold total_price. assert (0 <= sum (map (price (d_models (mem b))) (parts v))); [|lia]. apply sums_map. eapply Forall_impl; [|exact P].
    intros x N. apply price_nonneg; auto. }
  split.
  - rewrite D. unfold sat_u64, clamp, u64_max. change (2 ^ 64) with 18446744073709551616 in *. lia.
  - intros size S. unfold code_size_for_rent. rewrite W. cbn [rbind]. f_equal. unfold sat_u32, clamp, u32_max, cap. change (2 ^ 32) with 4294967296. lia.
Qed.
Print Assumptions C65_parsing_is_charged_as_rent_counts.

(* More of anything never costs less. *)
Theorem C65_more_never_costs_less :
  forall models v w, models_ok models -> at_least v w -> total_price models w <= total_price models v.
Proof. exact total_price_le. Qed.
Print Assumptions C65_more_never_costs_less.

Definition ex_sections : list section :=
  [SecTypes 3; SecImports 2; SecFunctions 2; SecTables [(5, None); (1, Some [true])]; SecMemory [(false, false, 2)]; SecGlobals [[true]];
   SecExports 2; SecElems [(Some [true], inl 3); (None, inr [[true]; [true]])]; SecIgnored; SecCode 10; SecCode 7; SecData [(Some [true], 100); (None, 7)]].
Definition ex_costs : costs :=
  {| n_instructions := 17; n_functions := 2; n_globals := 1; n_table_entries := 6; n_types := 3; n_data_segments := 2; n_elem_segments := 2;
     n_imports := 2; n_exports := 2; n_data_bytes := 107 |}.
Example C65_hyp : Forall sane ex_sections /\ extract ex_sections = Ok ex_costs
  /\ extract (SecData [(None, 131072)] :: ex_sections) = Err (ESys TWasmVm CInvalidInput)
  /\ extract (SecMemory [(false, false, 65536)] :: ex_sections) = Err (ESys TWasmVm CInvalidInput).
Proof. split; [repeat constructor; cbn; lia|]. vm_compute. auto. Qed.
Definition ex_vm_budget : res budget := budget_of_configs 100000 100000 (repeat (10, 128) 86) (repeat (5, 256) 86).
Example C65_charge_hyp : exists b b', ex_vm_budget = Ok b /\ in_shadow b = false /\ 0 <= d_net (mem b) <= 2 ^ 64 - 1 /\ models_ok (d_models (mem b))
  /\ parts_ok (V1 ex_costs) /\ charge_for_parsing b (V1 ex_costs) = (b', Ok tt) /\ d_net (mem b') = 338 /\ at_least (V1 ex_costs) (V1 no_costs).
Proof.
  eexists _, _. split; [vm_compute; reflexivity|]. split; [reflexivity|]. split; [cbn; lia|]. split; [|split; [|split; [vm_compute; reflexivity|split; [reflexivity|]]]].
  - unfold models_ok. apply Forall_forall. intros m I. cbn [mem d_models] in I.
    assert (A : forall l, In m l -> forallb (fun m => (0 <=? cm_const m) && (cm_const m <=? 2 ^ 64 - 1) && (0 <=? cm_lin m)) l = true -> 0 <= cm_const m <= 2 ^ 64 - 1 /\ 0 <= cm_lin m).
    { intros l J F. rewrite forallb_forall in F. specialize (F m J). lia. }
    eapply A; [exact I|vm_compute; reflexivity].
  - repeat constructor; cbn; lia.
  - repeat constructor; cbn; lia.
Qed.
