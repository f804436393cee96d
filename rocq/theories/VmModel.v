(* From Wasm bytes to a running contract: parsing checks, protocol gating, linking
   (vm.rs, vm/parsed_module.rs, vm/module_cache.rs), the cache of parsed modules, the
   resolution of called functions, and the cost inputs of modules.

   Simplifications.  The decoding and validation of Wasm (wasmparser and wasmi, with the
   features of budget/wasmi_helper.rs:136-159) is a parameter that gives the parts of a
   module the host looks at; so is the initialization of its memories and tables, which
   does not depend on the linker.  Charges appear only in the last part.  The builds for
   tests and with feature "next" are left out. *)
From Coq Require Import ZArith Lia List Bool.
From Verif Require Import Prelude AMap VmTable BudgetModel.
Import ListNotations.
Open Scope Z_scope.

Definition e_vm_action : err := ESys TWasmVm CInvalidAction.
Definition e_vm_input : err := ESys TWasmVm CInvalidInput.
Definition e_vm_missing : err := ESys TWasmVm CMissingValue.
Definition e_vm_type : err := ESys TWasmVm CUnexpectedType.
Definition e_vm_size : err := ESys TWasmVm CUnexpectedSize.
Definition e_context_internal : err := ESys TContext CInternalError.
Definition e_xdr : err := ESys TValue CInvalidInput.
Definition e_storage_missing : err := ESys TStorage CMissingValue.

Definition bytes_eq_dec : forall a b : list Z, {a = b} + {a <> b} := list_eq_dec Z.eq_dec.
Definition bytes_eqb (a b : list Z) : bool := if bytes_eq_dec a b then true else false.

(* ------------------------------------------------------------------ modules *)

Inductive valty := I32 | I64 | OtherTy.
Record functy := { ft_params : list valty; ft_results : list valty }.
Definition valty_eqb (a b : valty) : bool := match a, b with I32, I32 | I64, I64 | OtherTy, OtherTy => true | _, _ => false end.
Fixpoint tys_eqb (a b : list valty) : bool :=
  match a, b with [], [] => true | x :: a', y :: b' => valty_eqb x y && tys_eqb a' b' | _, _ => false end.
Inductive extern := XFunc (t : functy) | XOther.
(* what wasmi::Module shows of a validated module *)
Record module_ := {
  m_imports : list (list Z * list Z * extern);
  m_exports : list (list Z * extern);
  m_custom : list (list Z * list Z);
  m_start : bool
}.

(* vm.rs:131 *)
Definition max_vm_args : nat := 32.
(* meta.rs:45 "contractenvmetav0" *)
Definition env_meta_name : list Z := [99; 111; 110; 116; 114; 97; 99; 116; 101; 110; 118; 109; 101; 116; 97; 118; 48].
(* parsed_module.rs:238 *)
Definition sym_len_limit : nat := 10.

(* What differs between hosts, and the parameters standing for Wasm libraries. *)
Record henv := {
  e_proto : Z;                              (* meta.rs:57-64 INTERFACE_VERSION *)
  e_pre : Z;
  e_fns : list hostfn;                      (* HOST_FUNCTIONS *)
  e_decode : list Z -> res module_;         (* wasmparser::validate, wasmi::Module::new *)
  e_init : module_ -> res unit              (* instantiation but for imports and start *)
}.
(* meta.rs:60-64 *)
Definition interface_protocol : Z := 28.
Definition interface_pre_release : Z := 0.

(* XDR of ScEnvMetaEntry: a union over int32 whose only arm is 0, with two uint32s *)
Definition be32 (l : list Z) : option (Z * list Z) :=
  match l with
  | a :: b :: c :: d :: r => Some (((a * 256 + b) * 256 + c) * 256 + d, r)
  | _ => None
  end.
Definition decode_meta (l : list Z) : res (Z * Z) :=
  match be32 l with
  | Some (k, r) =>
      if k =? 0 then
        match be32 r with
        | Some (proto, r2) => match be32 r2 with Some (pre, _) => Ok (proto, pre) | None => Err e_xdr end
        | None => Err e_xdr
        end
      else Err e_xdr
  | None => Err e_xdr
  end.

Section Vm.
  Variable E : henv.

  (* parsed_module.rs:318-394 *)
  Definition check_version (ledger : Z) (v : Z * Z) : res unit :=
    let '(proto, pre) := v in
    if e_proto E <? ledger then Err e_context_internal
    else if proto <? ledger then if pre =? 0 then Ok tt else Err e_vm_input
    else if proto =? ledger then if e_pre E =? pre then Ok tt else Err e_vm_input
    else Err e_vm_input.

  (* parsed_module.rs:455-463 *)
  Fixpoint custom_section (l : list (list Z * list Z)) (n : list Z) : option (list Z) :=
    match l with
    | [] => None
    | (n', d) :: l' => if bytes_eqb n' n then Some d else custom_section l' n
    end.
  (* parsed_module.rs:472-500 *)
  Definition check_meta (ledger : Z) (m : module_) : res (Z * Z) :=
    match custom_section (m_custom m) env_meta_name with
    | None => Err e_vm_input
    | Some [] => Err e_vm_input
    | Some d => let? v := decode_meta d in let? _ := check_version ledger v in Ok v
    end.
  (* parsed_module.rs:502-525 *)
  Fixpoint check_max_args (l : list (list Z * extern)) : res unit :=
    match l with
    | [] => Ok tt
    | (_, XFunc t) :: l' =>
        if Nat.ltb max_vm_args (length (ft_results t)) then Err e_vm_input
        else if Nat.ltb max_vm_args (length (ft_params t)) then Err e_vm_input
        else check_max_args l'
    | _ :: l' => check_max_args l'
    end.

  Record parsed := { p_mod : module_; p_proto : Z }.
  (* parsed_module.rs:286-316 *)
  Definition parse (ledger : Z) (wasm : list Z) : res parsed :=
    let? m := e_decode E wasm in
    let? _ := check_max_args (m_exports m) in
    let? v := check_meta ledger m in
    Ok {| p_mod := m; p_proto := fst v |}.

  (* parsed_module.rs:230-262: the names of imported functions *)
  Definition imported (m : module_) (f : hostfn) : bool :=
    existsb (fun i => let '(mo, fn, x) := i in
      match x with
      | XFunc _ => Nat.ltb (length mo) sym_len_limit && Nat.ltb (length fn) sym_len_limit
                   && bytes_eqb mo (hf_mod f) && bytes_eqb fn (hf_fn f)
      | XOther => false
      end) (m_imports m).
  (* vm.rs:99-113, 116-125 *)
  Definition minimal_linker (m : module_) : list hostfn := filter (imported m) (e_fns E).
  Definition maximal_linker : list hostfn := e_fns E.

  (* parsed_module.rs:396-453 *)
  Definition fits (proto ledger : Z) (f : hostfn) : bool :=
    match hf_min f with Some n => negb ((proto <? n) || (ledger <? n)) | None => true end
    && match hf_max f with Some n => negb ((n <? proto) || (n <? ledger)) | None => true end.
  Definition check_imports (ledger : Z) (p : parsed) : res unit :=
    if forallb (fun f => negb (imported (p_mod p) f) || fits (p_proto p) ledger f) (e_fns E) then Ok tt
    else Err e_vm_action.

  (* the type func_wrap gives a dispatch function (vm/dispatch.rs:205-209) *)
  Definition host_type (f : hostfn) : functy := {| ft_params := repeat I64 (hf_arity f); ft_results := [I64] |}.
  Definition type_eqb (a b : functy) : bool :=
    tys_eqb (ft_params a) (ft_params b) && tys_eqb (ft_results a) (ft_results b).
  (* wasmi::Linker: later definitions of a name are refused, so the first one counts *)
  Definition lookup (linker : list hostfn) (mo fn : list Z) : option hostfn :=
    find (fun f => bytes_eqb mo (hf_mod f) && bytes_eqb fn (hf_fn f)) linker.
  (* wasmi::Linker::instantiate: each import gets its definition, of its type; every
     linker error becomes the same host error (error.rs:216-277) *)
  Fixpoint link (linker : list hostfn) (l : list (list Z * list Z * extern)) : res (list hostfn) :=
    match l with
    | [] => Ok []
    | (mo, fn, x) :: l' =>
        match lookup linker mo fn, x with
        | Some f, XFunc t =>
            if type_eqb t (host_type f) then let? fs := link linker l' in Ok (f :: fs) else Err e_vm_action
        | _, _ => Err e_vm_action
        end
    end.

  (* a VM: its module and what its imports call *)
  Record vm := { vm_parsed : parsed; vm_calls : list hostfn }.
  (* host.rs:572-605 *)
  Definition protocol_supported (ledger : Z) : res unit :=
    if ledger <? e_proto E then Err e_context_internal
    else if e_proto E <? ledger then Err e_context_internal else Ok tt.
  (* vm.rs:153-219 *)
  Definition instantiate (ledger : Z) (p : parsed) (linker : list hostfn) : res vm :=
    let? _ := protocol_supported ledger in
    let? _ := check_imports ledger p in
    let? calls := link linker (m_imports (p_mod p)) in
    let? _ := e_init E (p_mod p) in
    if m_start (p_mod p) then Err e_vm_action else Ok {| vm_parsed := p; vm_calls := calls |}.
  (* vm.rs:242-261 *)
  Definition vm_new (ledger : Z) (wasm : list Z) : res vm :=
    let? p := parse ledger wasm in instantiate ledger p (minimal_linker (p_mod p)).

  (* ---------------------------------------------------------------- the cache *)

  Definition cache := list (list Z * parsed).
  Variable sha : list Z -> list Z.
  (* module_cache.rs:143-185: [parse_and_cache_module_simple]; the result and the cache *)
  Variable extractable : list Z -> res unit.    (* extract_refined_contract_cost_inputs *)
  Definition cache_add (c : cache) (ledger : Z) (wasm : list Z) : cache * res unit :=
    match extractable wasm with
    | Err e => (c, Err e)
    | Ok _ =>
        match aget bytes_eq_dec c (sha wasm) with
        | Some _ => (c, Ok tt)
        | None =>
            match parse ledger wasm with
            | Err e => (c, Err e)
            | Ok p => (aset bytes_eq_dec c (sha wasm) p, Ok tt)
            end
        end
    end.
  (* module_cache.rs:60-81, 187-210 *)
  Inductive cache_op := CAdd (ledger : Z) (wasm : list Z) | CRemove (hash : list Z) | CClear.
  Definition cache_step (c : cache) (o : cache_op) : cache :=
    match o with
    | CAdd ledger wasm => fst (cache_add c ledger wasm)
    | CRemove h => adel bytes_eq_dec c h
    | CClear => []
    end.
  Definition cache_run (ops : list cache_op) : cache := fold_left cache_step ops [].

  (* frame.rs:981-1091 outside simulations; [stored]: the code in the ledger, as storage
     gives it *)
  Definition instantiate_vm (ledger : Z) (c : option cache) (stored : list Z -> res (option (list Z))) (hash : list Z) : res vm :=
    let fresh :=
      let? o := stored hash in
      match o with None => Err e_storage_missing | Some wasm => vm_new ledger wasm end in
    match c with
    | None => fresh
    | Some c =>
        let? o := stored hash in
        match o, aget bytes_eq_dec c hash with
        | Some _, Some p => instantiate ledger p maximal_linker
        | _, _ => fresh
        end
    end.
  (* frame.rs:1053-1087: simulations parse a live module again, outside the budget *)
  Definition instantiate_vm_recording (ledger : Z) (live : list Z -> res bool) (stored : list Z -> res (option (list Z))) (hash : list Z) : res vm :=
    let fresh :=
      let? o := stored hash in
      match o with None => Err e_storage_missing | Some wasm => vm_new ledger wasm end in
    let? l := live hash in
    if l then
      let? o := stored hash in
      match o with
      | None => Err e_storage_missing
      | Some wasm =>
          let? _ := extractable wasm in
          let? p := parse ledger wasm in
          instantiate ledger p (minimal_linker (p_mod p))
      end
    else fresh.

  (* -------------------------------------------------------------------- calls *)

  Fixpoint export (l : list (list Z * extern)) (n : list Z) : option extern :=
    match l with
    | [] => None
    | (n', x) :: l' => if bytes_eqb n' n then Some x else export l' n
    end.
  (* vm.rs:280-337 up to the run of the function: [Ok true] if it is run, [Ok false] if a
     missing function counts as one that does nothing; wasmi's Func::call compares the
     arguments (all of type i64) and the room for one result with the function's type *)
  Definition resolve_call (v : vm) (fn : list Z) (nargs : nat) (missing_ok : bool) : res bool :=
    match export (m_exports (p_mod (vm_parsed v))) fn with
    | None => if missing_ok then Ok false else Err e_vm_missing
    | Some XOther => Err e_vm_type
    | Some (XFunc t) =>
        if Nat.ltb max_vm_args nargs then Err e_vm_input
        else if negb (Nat.eqb (length (ft_params t)) nargs) then Err e_vm_size
        else if negb (tys_eqb (ft_params t) (repeat I64 nargs)) then Err e_vm_type
        else if negb (Nat.eqb (length (ft_results t)) 1) then Err e_vm_size
        else Ok true
    end.
End Vm.

(* ------------------------------------------------------------- cost inputs *)

(* the sections of a module as the second parse sees them (parsed_module.rs:560-684); a
   constant expression is the list of its operators, of which only their being simple
   counts (parsed_module.rs:713-736) *)
Definition cexpr := list bool.
Inductive section :=
| SecIgnored
| SecUnsupported
| SecMemory (l : list (bool * bool * Z))              (* 64-bit, shared, initial pages *)
| SecTypes (n : Z)
| SecImports (n : Z)
| SecFunctions (n : Z)
| SecTables (l : list (Z * option cexpr))             (* initial size, initial value *)
| SecGlobals (l : list cexpr)
| SecExports (n : Z)
| SecElems (l : list (option cexpr * (Z + list cexpr)))  (* offset if active; functions or expressions *)
| SecData (l : list (option cexpr * Z))               (* offset if active; length *)
| SecCode (n : Z).                                    (* operators of one function *)

Record costs := {
  n_instructions : Z; n_functions : Z; n_globals : Z; n_table_entries : Z; n_types : Z;
  n_data_segments : Z; n_elem_segments : Z; n_imports : Z; n_exports : Z; n_data_bytes : Z
}.
Definition no_costs : costs :=
  {| n_instructions := 0; n_functions := 0; n_globals := 0; n_table_entries := 0; n_types := 0;
     n_data_segments := 0; n_elem_segments := 0; n_imports := 0; n_exports := 0; n_data_bytes := 0 |}.
Definition page : Z := 65536.

Record acc := { a_costs : costs; a_elems : Z; a_mem : Z }.
Definition simple (e : cexpr) : bool := forallb (fun b => b) e.
Definition simple_opt (o : option cexpr) : bool := match o with Some e => simple e | None => true end.

(* parsed_module.rs:589-611 *)
Fixpoint add_mems (l : list (bool * bool * Z)) (a : Z) : res Z :=
  match l with
  | [] => Ok a
  | (m64, sh, initial) :: l' =>
      if m64 then Err e_vm_input
      else if sh then Err e_vm_input
      else if u32_max <? sat_u64 (initial * page) then Err e_vm_input
      else add_mems l' (sat_u32 (a + sat_u32 (initial mod 2 ^ 32 * page)))
  end.
(* parsed_module.rs:619-631 *)
Fixpoint add_tables (l : list (Z * option cexpr)) (n : Z) : res Z :=
  match l with
  | [] => Ok n
  | (i, e) :: l' => if simple_opt e then add_tables l' (sat_u32 (n + i)) else Err e_vm_input
  end.
(* parsed_module.rs:641-663 *)
Fixpoint add_elems (l : list (option cexpr * (Z + list cexpr))) (n : Z) : res Z :=
  match l with
  | [] => Ok n
  | (off, items) :: l' =>
      if simple_opt off then
        match items with
        | inl c => add_elems l' (sat_u32 (n + c))
        | inr es => if forallb simple es then add_elems l' (sat_u32 (n + Z.of_nat (length es))) else Err e_vm_input
        end
      else Err e_vm_input
  end.
(* parsed_module.rs:664-685 *)
Fixpoint add_data (l : list (option cexpr * Z)) (n : Z) : res Z :=
  match l with
  | [] => Ok n
  | (off, len) :: l' =>
      if u32_max <? len then Err e_vm_input
      else if simple_opt off then add_data l' (sat_u32 (n + len)) else Err e_vm_input
  end.
(* parsed_module.rs:561-694 *)
Definition add_section (a : acc) (s : section) : res acc :=
  let c := a_costs a in
  let upd ins fns glo tab typ dat ele imp exp byt elems mem :=
    {| a_costs := {| n_instructions := ins; n_functions := fns; n_globals := glo; n_table_entries := tab; n_types := typ;
                     n_data_segments := dat; n_elem_segments := ele; n_imports := imp; n_exports := exp; n_data_bytes := byt |};
       a_elems := elems; a_mem := mem |} in
  let ins := n_instructions c in let fns := n_functions c in let glo := n_globals c in let tab := n_table_entries c in
  let typ := n_types c in let dat := n_data_segments c in let ele := n_elem_segments c in let imp := n_imports c in
  let exp := n_exports c in let byt := n_data_bytes c in let es := a_elems a in let me := a_mem a in
  match s with
  | SecIgnored => Ok a
  | SecUnsupported => Err e_vm_input
  | SecMemory l => let? m := add_mems l me in Ok (upd ins fns glo tab typ dat ele imp exp byt es m)
  | SecTypes n => Ok (upd ins fns glo tab (sat_u32 (typ + n)) dat ele imp exp byt es me)
  | SecImports n => Ok (upd ins fns glo tab typ dat ele (sat_u32 (imp + n)) exp byt es me)
  | SecFunctions n => Ok (upd ins (sat_u32 (fns + n)) glo tab typ dat ele imp exp byt es me)
  | SecTables l => let? t := add_tables l tab in Ok (upd ins fns glo t typ dat ele imp exp byt es me)
  | SecGlobals l =>
      if forallb simple l then Ok (upd ins fns (sat_u32 (glo + Z.of_nat (length l))) tab typ dat ele imp exp byt es me)
      else Err e_vm_input
  | SecExports n => Ok (upd ins fns glo tab typ dat ele imp (sat_u32 (exp + n)) byt es me)
  | SecElems l => let? e := add_elems l es in Ok (upd ins fns glo tab typ dat (sat_u32 (ele + Z.of_nat (length l))) imp exp byt e me)
  | SecData l => let? b := add_data l byt in Ok (upd ins fns glo tab typ (sat_u32 (dat + Z.of_nat (length l))) ele imp exp b es me)
  | SecCode n => Ok (upd (sat_u32 (ins + n)) fns glo tab typ dat ele imp exp byt es me)
  end.
Fixpoint add_sections (a : acc) (l : list section) : res acc :=
  match l with [] => Ok a | s :: l' => let? a' := add_section a s in add_sections a' l' end.
(* parsed_module.rs:529-711 for a core module *)
Definition extract (l : list section) : res costs :=
  let? a := add_sections {| a_costs := no_costs; a_elems := 0; a_mem := 0 |} l in
  if a_mem a <? n_data_bytes (a_costs a) then Err e_vm_input
  else if n_table_entries (a_costs a) <? a_elems a then Err e_vm_input
  else Ok (a_costs a).

(* The numbers of the cost types in XDR *)
Definition VmInstantiation : nat := 11.
Definition ParseWasmInstructions : nat := 23.
Definition ParseWasmFunctions : nat := 24.
Definition ParseWasmGlobals : nat := 25.
Definition ParseWasmTableEntries : nat := 26.
Definition ParseWasmTypes : nat := 27.
Definition ParseWasmDataSegments : nat := 28.
Definition ParseWasmElemSegments : nat := 29.
Definition ParseWasmImports : nat := 30.
Definition ParseWasmExports : nat := 31.
Definition ParseWasmDataSegmentBytes : nat := 32.

(* parsed_module.rs:14-19; the extension of a code entry gives one or the other
   (data_helper.rs:147-156) *)
Inductive vcosts := V0 (wasm_bytes : Z) | V1 (c : costs).

Fixpoint charge_all (b : budget) (l : list (nat * Z)) : budget * res unit :=
  match l with
  | [] => (b, Ok tt)
  | (ty, n) :: l' => match charge b ty 1 (Some n) with (b', Ok _) => charge_all b' l' | (b', Err e) => (b', Err e) end
  end.
(* parsed_module.rs:29-80 *)
Definition charge_for_parsing (b : budget) (v : vcosts) : budget * res unit :=
  match v with
  | V0 n => charge b VmInstantiation 1 (Some n)
  | V1 c => charge_all b
      [(ParseWasmInstructions, n_instructions c); (ParseWasmFunctions, n_functions c); (ParseWasmGlobals, n_globals c);
       (ParseWasmTableEntries, n_table_entries c); (ParseWasmTypes, n_types c); (ParseWasmDataSegments, n_data_segments c);
       (ParseWasmElemSegments, n_elem_segments c); (ParseWasmImports, n_imports c); (ParseWasmExports, n_exports c);
       (ParseWasmDataSegmentBytes, n_data_bytes c)]
  end.
Fixpoint add_costs (b : budget) (r : Z) (l : list (nat * Z)) : res Z :=
  match l with
  | [] => Ok r
  | (ty, n) :: l' => let? c := get_cost (mem b) ty 1 (Some n) in add_costs b (sat_u64 (r + c)) l'
  end.
(* parsed_module.rs:155-210 *)
Definition wasm_module_memory_cost (b : budget) (v : vcosts) : res Z :=
  match v with
  | V0 n => get_cost (mem b) VmInstantiation 1 (Some n)
  | V1 c => add_costs b 0
      [(ParseWasmInstructions, n_instructions c); (ParseWasmFunctions, n_functions c); (ParseWasmGlobals, n_globals c);
       (ParseWasmTableEntries, n_table_entries c); (ParseWasmTypes, n_types c); (ParseWasmDataSegments, n_data_segments c);
       (ParseWasmElemSegments, n_elem_segments c); (ParseWasmImports, n_imports c); (ParseWasmExports, n_exports c);
       (ParseWasmDataSegmentBytes, n_data_bytes c)]
  end.
(* e2e_invoke.rs:428-446 for a code entry *)
Definition code_size_for_rent (b : budget) (xdr_size : Z) (v : vcosts) : res Z :=
  let? c := wasm_module_memory_cost b v in Ok (sat_u32 (xdr_size + sat_u32 c)).
