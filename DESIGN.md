# Formal model of rs-soroban-env in Rocq (Coq 8.16.1)

The development lives in `rocq/theories` (logical name `Verif`). Each area of the code has

* `XModel.v`  – executable Gallina definitions, one per Rust function, each with a comment citing
  the file and lines it models and every simplification;
* `XSpec.v`   – (where useful) the small independent vocabulary in which the property is stated;
* `XProofs.v` – lemmas;
* `P_X.v`     – only the property theorems, each closed by `exact lemma`, each followed by
  `Print Assumptions` and by an `Example` showing a concrete non-trivial state meeting its hypotheses.

Conventions: machine integers are `Z` with explicit ranges and explicit wrap/saturate/checked
operations; Rust `Result<T, HostError>` is `res T := Ok T | Err error`, where an error is the pair
(type, code) the caller can observe; `&mut self` functions return the new state; panics do not occur in
the modelled functions (the crate forbids them) except where stated.

## Plan per property

| Id | Modelled | Method |
|----|----------|--------|
| C01 | Val word layout, `is_small_*`, `TryFrom` number impls | algebraic round trip over all `Z` in range |
| C02 | `Tag::from_u8`, `Val::is_good`, decode/encode of non-object words | case analysis on tags, arithmetic |
| C03 | `SymbolSmall::try_from_bytes`, `encode_byte`, `SymbolSmallIter` | induction on strings, 256-byte finite check lifted by `forallb_forall` |
| C04 | small/small, small/object, object/object symbol compare | lexicographic order equality by induction |
| C05 | `Error` packing, `TryFrom<Error> for ScError` | case analysis |
| C06 | `u256_from_pieces` etc. | div/mod arithmetic |
| C07 | object table, `to_host_val`, `from_host_val`, classification | induction on XDR trees, heap-extension lemma |
| C08 | `Compare<Val>`, `obj_cmp`, `Compare<HostObject>` with depth limit | denotation of Vals into trees + order on trees |
| C09 | the above plus `Compare<ScVal>` | both equal the tree order |
| C10 | object table, per-frame relative tables, handle conversions | invariant over op lists |
| C11 | `MeteredOrdMap` | refinement to partial functions, sortedness invariant, canonical form |
| C12 | `from_map`, `map_new_from_slices_impl` | iff characterisation |
| C13 | `map_unpack_impl` | induction on the merge walk |
| C14 | `MeteredVector`, `vec_*` | equality with list specification |
| C15 | `binary_search_by_pre_rust_182` | loop invariant by well-founded fuel |
| C16 | `mem_helper.rs`, `bytes_*` | arithmetic and list lemmas |
| C17 | `Footprint`, `Storage` (enforcing) | invariant over op lists |
| C18 | `Storage` get/put/del/has | refinement to a function from keys |
| C19 | `Storage` recording + enforcing, frames with rollback | simulation relation between both modes |
| C20, C21 | `extend_ttl`, `extend_ttl_v2` | arithmetic + frame condition |
| C22 | `handle_maybe_expired_entry`, map building | invariant |
| C23 | `put_contract_data_into_ledger` and friends | frame conditions |
| C24 | frame push/pop, storage map, events, auth snapshot | induction on call trees |
| C25 | `try_call`, `is_recoverable`, frame result escalation | induction on call trees |
| C26 | `call_n_internal` | invariant of the stack over programs |
| C27 | event buffer | induction on call trees |
| C28, C29 | `BudgetDimension`, `BudgetImpl::charge`, `MeteredCostComponent` | invariant over op lists; non-interference |
| C30 | `get_wasmi_fuel_remaining`, fuel settlement | arithmetic |
| C31 | `with_limited_depth` | induction on operation trees |
| C32–C34 | `fees.rs` | arithmetic on `Z` with saturation |
| C35–C39 | `AuthorizationManager` enforcing mode, frames | invariants over program executions |
| C40 | `check_account_authentication` | iff characterisation |
| C41 | preimage construction (XDR encoding/hash abstract and injective as section hypotheses) | injectivity |
| C42–C46 | Stellar asset contract | step function over asset state; invariants |
| C47–C49 | `get_ledger_changes`, `extract_rent_changes`, `invoke_host_function` | list lemmas |
| C50 | instance storage in frames | induction on programs |
| C51, C52 | lifecycle + data validation | case analysis, invariants |
| C53 | linear-memory accounting | induction on call trees |
| C54 | PRNG per-frame seeding (stream abstract) | non-interference |
| C57–C60 | asset contract events, authorization, transfer liveness, `trust` | over the same step function |
| C56 | contract address preimages | injectivity of the XDR encoding |
| C61 | `invoke_host_function_in_recording_mode` against `invoke_host_function` | replay of a recorded run (C19) extended to whole programs, then comparison of the two change lists |
| C55 | `soroban-simulation`: adjustments (f64 as in Coq's `SpecFloat`), the three simulated operations, the restoring snapshot | bounds on rounded products; list induction; C61 for invocations |
| C62 | `snapshot_source.rs`: account extensions | case analysis |
| C63 | `auth.rs` in recording mode against enforcing mode | simulation relation between recorded and given trees, which grow and are used up in step; then the storage replay of C19 |
| C64 | module checks, protocol gating, linking against the table of `env.json`, module cache, call resolution | equivalence with a separate acceptance condition; invariant of the cache over operation histories |
| C65 | cost inputs of modules, parsing charges and the size for rent | list induction with capped sums; the budget model of C28 |
| C66 | delegate trees, trackers, match stacks and rollbacks; programs of nested authentications | refinement to a specification without trackers by induction over programs, then invariants of the specification |
| C67 | scalars of BLS12-381 and BN254: conversion from and to U256 values, arithmetic, powers by squaring, inversion by Euclid's algorithm | modular arithmetic; the orders are prime by a chain of certificates checked in the kernel (Pocklington's criterion) |
| C68 | Poseidon and Poseidon2: parameters, rounds, matrices, argument conversion | generic in the field up to a ring homomorphism; matrices by evaluation in polynomials; permutations by injectivity of each step and counting |
| C69 | number objects, pieces, bytes and 256-bit arithmetic of the `int` module on the object table; ethnum's functions on integers, powers by checked squaring | each function against its meaning on integers, in both directions; soundness and completeness of checked squaring by induction on the exponent's bits; round trips through bytes and pieces |
| C70 | points of BLS12-381 and BN254: encodings, flags, checks of curve and subgroup, sums, multiples, pairings, maps to the curves | equivalence of each reader with a separate specification of encodings; the curve's equation by divisibility; the group operations are an arbitrary library |
| C71 | `verify_sig_ed25519`, `verify_sig_ecdsa_secp256r1`, `recover_key_ecdsa_secp256k1`: reading of keys, digests, signatures and recovery ids | equivalence with a separate specification of the byte strings; the verification itself is an arbitrary function |
| C72 | `address_to_strkey`, `strkey_to_address` and the muxed ones, with SEP-23 (versions, CRC-16, base 32) | equivalence with a specification in arithmetic: numbers in bases 32 and 256, the checksum as the remainder of a polynomial division; detection of mistakes because the polynomial divides no short word |
| C73 | `init_asset`, `set_admin`, metadata, `validate_asset`, display of codes, `get_asset_contract_id`, the XDR of assets | exact characterisation of a successful initialization; invariant over all histories of calls; injectivity of names, encodings and display |
| C74 | `serialize_to_bytes`, `deserialize_from_bytes`, `can_represent_scval_recursive`, a decoder of the XDR of values | the decoder accepts exactly the encoder's outputs (induction over nesting, one lemma per combinator); composed with the exact conversion theorems of C07 |
| C75 | the same model as C35–C39, its record extended with refusals and with how authentications ended | the answer found by the search is characterised as the least suitable one, given the relation of tracker states to the record (C35–C39); uniqueness from that order; the footprint is constant along executions; success of signed trees by induction over trees on the record |
| C76 | `host/invocation_metering.rs`: scopes, observations of storage and events, limits, fee estimates | the meter's tree with a cursor refined to a recursive specification of the calls, by induction over programs; observations by induction over footprints; fees by arithmetic of rounded quotients |
| C77 | derived conversions of structs, enums and functions (`contracttype`, `contractimpl`) for any declaration; the declared types; contexts of `__check_auth`; entries of `authorize_as_curr_contract`; `get_address_executable` | a relation between data and values, from declarations alone; both conversions equal it by induction on types; sorting of names by permutations; trees by nested induction |
| C78 | the asset contract's balances, allowances and TTL extensions on the host's storage: keys and values (C77), footprint, missing and expiring entries | simulation: each function on entries answers what it answers on the balances and allowances they show; existence of those for any ledger in order; frame and TTL lemmas on entries directly |
| C79 | the charges of `metered_vector.rs`, `metered_map.rs`, `metered_clone.rs` and `comparison.rs` in their order, next to the physical work (allocating, copying, reading, comparing, looking up), run on the budget of C28 | a credit argument: charges add credit of their kind, work uses it, no prefix of the steps is in debt; by induction over containers, searches (probe count) and nested values; answers equal the unmetered models of C04, C06-C08 |
| C80 | `event.rs` of the asset contract: topics and data as values | a reader of raw values (`told`), proved to agree with the records of C57 on every history; injectivity with names from C73 |
| C81 | event buffer, diagnostics, debug and shadow mode, calls, what `invoke_host_function` gives out | programs as trees (`act`); a relational account of the story (`tells`); simulation between hosts `alike` up to diagnostics, using the budget's erasure theorem (C29) |
| C82 | emulated authentication at the end of a recorded run; the reads of authentication | programs that only read (`reader`), run in both modes; key sets compared through `needs`; `replay_run` of C19 for the parts around; exact proviso, refuted without it |
| C83 | loading of the network configuration, its budget and ledger info | settings as a record `settings` held by a snapshot; composition with the fee theorems (C32, C34) and with the budget's limits (C28, through C29 for the shadow limits) |
| C84 | the calls that extend instance and code; what calling a contract reads | the entries of a contract defined from the ledger alone (`LifeSpec`); program logic of C23, and a second one for runs in which no access is refused |
| C85 | conversions of soroban-env-common between Rust data and values, over the object table | trees of data and which tree reads as which data, defined by recursion (`RustSpec`), against the `denotes` relation of C07; induction on types and data |
| C86 | ranged draws and shuffling of C54, over the generator outputs | the outputs giving a number are shown to be a run of consecutive words of constant length; induction on the steps of the shuffle, each of which has one possible index for a given order |
| C87 | the trackers and the charge count of the budget model of C28–C31 | one induction over programs for any quantity that each charge raises by a given amount, instantiated for each field; sum over cost types |

## Findings (statements that are false of the faithful model)

* F1 (C03) Symbol words accepted at the host boundary are not canonical: two different accepted
  SymbolSmall payloads can read as the same string (`C03_symbol_words_not_canonical_refuted`).
* F2 (C34) The rent write fee is not monotone in the bucket-list size for configurations whose low fee
  exceeds the high fee (`C34_monotone_needs_sane_config_refuted`).
* F3 (C53) `call_contract_fn` moves a new VM's linear-memory charge off the caller before
  `with_frame` checks the context depth; when the stack is full that memory is never refunded although
  the error is recoverable (`C53_memory_lost_when_stack_full_refuted`).
* F4 (C04) `Compare<Symbol>` (comparison of values typed as `Symbol`) orders an in-word symbol before any
  object symbol, so it is not the order of the strings (`C04_typed_symbol_comparison_refuted`); the
  host's `obj_cmp` and the comparison of `Val`s are right.
* F5 (C46) Asset contract allowances can expire before their live-until ledger: `approve(f, s, 1, 20)`,
  `approve(f, s, 0, 100)`, `approve(f, s, 5, 100)` at ledger 10 all succeed, and at ledger 26 the
  allowance reads 0 (`C46_refuted`). `write_allowance` compares the new live-until ledger with the one
  in the value, which an approval of 0 sets without extending the entry's TTL.
* F6 (C61) A simulated invocation announces keys touched only inside a failed `try_call` as bare
  footprint entries with no value and no old size (`add_footprint_only_ledger_changes`), while the
  transaction reports the entry it read and, if it had to be restored, its rent: the simulated write
  bytes and rent are too small for such runs (`C61_simulation_is_exact_refuted`).
  `C61_exact_if_no_call_failed` shows that this is the only gap.
* F7 (C55) `simulate_extend_ttl_op` adds the ledger sequence and `extend_to` without a check: for large
  `extend_to` it panics (overflow checks are on in the workspace), while its documentation promises an
  error only for a mis-configured ledger (`C55_extend_overflows_refuted`).
* F8 (C55) `SimulationAdjustmentFactor::no_adjustment` changes fees of 2^53 and more, as they go through
  f64 (`C55_no_adjustment_above_2_53_refuted`). They are never lowered.
* F9 (C10) `index_to_handle` shifts an object's index left by one in 32 bits, so the object number 2^31 of
  a frame gets the handle of its object number 0 (`C10_out_and_back_needs_the_bound_refuted`). The
  metering of memory stops every real run long before; below that bound the round trip is exact.
* F10 (C63) Two require_auths of one address in one call through two different address objects are recorded
  as two entries; below that call the recording follows the object, enforcement the first entry that lists
  the call, and the signed transaction can be refused (`C63_two_handles_refuted`).
* F11 (C63) A require_auth inside a `try_call` that fails is rolled back in the recording, so the
  transaction fails there with an authorization error instead of the recorded one, and a caller that tells
  the two apart fails (`C63_failed_call_refuted`).
* F12 (C63) The recording does not call `__check_auth`. When an account contract is first asked between
  `authorize_as_curr_contract` and the call that is for, enforcement calls `__check_auth` there, and its
  return drops the pending authorization (`C63_check_auth_between_refuted`).
* F13 (C68) `poseidon2_permutation` ignores the caller's `mat_internal_diag_m_1` for states of two and three
  elements and uses fixed diagonals (only its length is checked); in partial rounds only the first constant of a
  row is used and the row's length is not checked beyond being non-empty; `poseidon_permutation` with no rounds
  does not look at the lengths of the matrix rows. None of this is in the interface's documentation.

* F14 (C69) `i256_div` rounds towards zero while `i256_rem_euclid` is Euclidean: quotient and remainder of a
  negative number do not fit together unless it is a multiple (`C69_quotient_and_remainder`, exact
  characterisation), and `i256_rem_euclid` of the least number by -1 fails as an overflow although the
  remainder is 0 (`C69_rem_refused`). `shl` drops the bits it shifts out without an error.

* F15 (C72) Strkeys detect every mistake within two neighbouring letters, not within three
  (`C72_three_letters_refuted`): a property of SEP-23's 16-bit checksum, not of this code.
* F16 (C73) Symbols do not identify assets: the code `native` of any issuer is displayed with the symbol of lumens
  (`C73_symbols_identify_refuted`). Names do (`C73_names_identify`).
* F17 (C76) With invocation metering on (as in every test of the SDK), an invocation that deletes an entry and writes it again
  panics: `new_live_until - init_live_until_ledger` is below zero, since the new entry starts with the minimum lifetime
  (`invocation_metering.rs:1028`). The network accepts it. `C76_metering_completes_refuted`.
* F18 (C76) The state before an invocation is taken from the entries storage has loaded so far, not from the snapshot source.
  An entry that is first loaded by the invocation counts as created by it: reading it is reported with rent for its whole
  remaining life, an archived one as a memory read, an account without disk bytes. `C76_reading_costs_nothing_refuted`.
* F19 (C76) The estimate charges the fee for reading an entry for written entries too, as the comment at `fees.rs:31` says, but
  `compute_transaction_resource_fee` does not. Its rent is one ledger short per added byte (the network counts the current
  ledger), without the discount for code. Both differences are in the statements of `C76_estimated_fee` and `C76_estimated_rent`.
* F20 (C77) Reading a case of an enum ignores whatever follows it in the vec (`derive_type.rs:105-131` takes elements 0 and 1 and
  checks no length), where structs must match exactly: one datum has many values (`C77_read_exact_refuted`). It reaches users in
  entries of `authorize_as_curr_contract`; keys are only written, so storage is not affected (`C77_injective`).
* F21 (C77) The contexts given to `__check_auth` name neither the deployer of a contract to be created nor which call is under
  which (`C77_contexts_tell_refuted`): a tree a → b → c and a tree a → b, a → c look alike to a contract account, as do creations
  by different deployers. Everything else is told (`C77_contexts_tell`). The signature payload does tell them apart (C41).
* F22 (C77) A call of a function that a built-in contract does not have fails with (Value, InvalidInput): the arm with
  (Context, MissingValue), "function does not exist", cannot be reached (`C77_dispatch_unknown`).

* F23 (C79) `Compare<ContractFunction>` compares the arguments as plain `Vec<Val>`, without the charges of
  `HostVec`: comparing calls with inline arguments is free whatever their number (`C79_call_arguments_refuted`).
* F24 (C79) `Compare<CreateContractArgsV2>` does the same for constructor arguments, of 96 bytes each
  (`C79_constructor_arguments_refuted`).
* F25 (C79) `ContractExecutable` is compared as a type of fixed size for 72 bytes, but a reference to an
  external executable contains a tag of any length (`C79_long_tags_refuted`).
* F26 (C82) authentication is emulated at the end of a recorded run. If the owner of an executable reference moves
  it after an account that uses it was authenticated, the recorded footprint lacks the code the account was run
  by, and the enforcing run fails with (Storage, ExceededLimit) (`C82_moved_reference_refuted`).

Smaller observations, not contradicting a property: `Option<Option<T>>`, `Option<()>` and `Result<Result<T, E>, E>` do not survive
a conversion to a value and back, and nothing forbids these types (C85); `NetworkConfig` reads a negative `tx_max_instructions` as a limit near 2^64 and
accepts sizes of the state whose average does not fit 63 bits when their sum is capped (C83); `vec_new_from_linear_memory` and
`map_new_from_linear_memory` accept object words with junk in the minor bits (the object is found by the
major bits alone); values logged by `log_from_linear_memory` are not integrity-checked (they reach only
diagnostics); an `authorize_as_curr_contract` is used up by the next sub-call even if that call fails, and
also by a `__check_auth` call or a contract creation; the documentation of `LedgerEntryLiveUntilChange`
("new ≥ old") is false for deleted entries; V1 and V2 contract creations have the same signature payload;
the payload of plain `Address` credentials does not bind the address; a simulated restore reports 0 disk
read entries.

## Trusted base

* **Kernel.** Coq 8.16.1's kernel, including the `vm_compute` machine, used for examples and for finite
  checks that are lifted with `forallb_forall`.
* **Assumptions.** Every property theorem is followed by `Print Assumptions`; each prints
  `Closed under the global context`. No axiom is added, and none of the standard library's is used.
  A listing of everything the loaded libraries contain shows `Coq.ssr.ssrunder.Under_rel.*` (the module
  parameters of a standard library file that is loaded, not used).
* **The reading of the Rust source** in the comment above each definition, with the simplifications named
  at the head of each `…Model.v` file and beside the definitions.
* **What is a parameter** (a `Section` variable or a record field that every theorem quantifies over, so
  it is visible in each statement): SHA-256, the verification of one ed25519 signature, the ChaCha20
  stream, the decoding of Wasm modules and the initialization of instances, the behaviour of Wasm code
  (programs are arbitrary trees of host calls), the ledger snapshot,
  XDR sizes of entries, the answers of `require_auth` to the asset contract, footprint errors met by the
  asset contract. Where a property needs a hash to be injective, this is a hypothesis of the theorem.
* **XDR.** The `stellar-xdr` crate is outside the repository. `XdrModel.v` writes out the standard
  encoding of the types concerned (RFC 4506); discriminants and the order of fields come from the
  published `.x` files, not from `/repo`. The same holds for the `rand` loops of `PrngModel.v`.

### Modelled

| Model file | Code |
|---|---|
| `ValModel` | `soroban-env-common/src/{val,num,symbol,error,compare}.rs`: words, tags, small values, symbols, errors |
| `HeapModel` | `host_object.rs`, `host/comparison.rs`, `host/conversion.rs`: objects, comparison, XDR values in and out |
| `ContainerModel`, `HostFnModel` | `host/metered_{map,vector}.rs` and the map, vec and buf host functions |
| `GuestModel` | `host_object.rs` relative handles, `vm/dispatch.rs`, `host/mem_helper.rs`, linear-memory functions |
| `BudgetModel` | `budget.rs`, `budget/*`, `vm/fuel_refillable.rs`, memory bookkeeping of `host/frame.rs` |
| `StorageModel` | `storage.rs` (both modes), `ledger_info.rs`, contract data and TTL functions of `host.rs` |
| `FrameModel` | `host/frame.rs`, `host/lifecycle.rs`, call/ledger/context/prng functions, `events/internal.rs` |
| `AuthModel` | `auth.rs` in enforcing mode, with frames and nonces |
| `AuthRecModel` | `auth.rs` in recording mode, with the recorded payloads |
| `VmTable`, `VmModel` | `env.json`/`vm/func_info.rs`; `vm.rs`, `vm/parsed_module.rs`, `vm/module_cache.rs`, `frame.rs` instantiate_vm |
| `DelegModel` | `auth.rs` delegated authentication; `host.rs` delegate_account_auth, get_delegated_signers_for_current_auth_check |
| `FieldModel` | `host.rs` bls12_381_fr_*, bn254_fr_*; `crypto/bls12_381.rs`, `crypto/bn254.rs` conversions and inversion of scalars |
| `PoseidonModel` | `crypto/poseidon/*`; `crypto/mod.rs` poseidon_permutation_impl, poseidon2_permutation_impl; `host.rs` poseidon_permutation, poseidon2_permutation |
| `PointModel` | `host.rs` bls12_381_* and bn254_* on points; `crypto/bls12_381.rs`, `crypto/bn254.rs` encodings, validation and vectors of points |
| `EcdsaModel` | `host.rs` verify_sig_ed25519, verify_sig_ecdsa_secp256r1, recover_key_ecdsa_secp256k1; `crypto/mod.rs` keys and signatures |
| `IntModel` | `host.rs` functions of the `int` module, `host/num.rs`, conversions of U256 and I256 in `convert.rs` |
| `XdrModel` | the signature payloads of `auth.rs` and the preimages of contract addresses |
| `MultisigModel` | `builtin_contracts/account_contract.rs` and the account helpers of `host/data_helper.rs` |
| `SacModel` | `builtin_contracts/stellar_asset_contract/*` after initialization |
| `AssetModel` | its initialization, administrator and metadata: `contract.rs` init_asset, `asset_info.rs`, `metadata.rs`, `admin.rs`; `host.rs` get_asset_contract_id |
| `StrkeyModel` | `host.rs` strkey functions and muxed addresses, `host/conversion.rs` strkeys |
| `SerialModel` | `host.rs` serialize_to_bytes, deserialize_from_bytes; `val.rs` can_represent_scval_recursive; `metered_xdr.rs`; the decoder of `ScVal` |
| `FeesModel` | `fees.rs` |
| `MeterModel` | `host/invocation_metering.rs` |
| `CtModel` | `soroban-builtin-sdk-macros`, `builtin_contracts/{base_types,common_types,invoker_contract_auth}.rs`, contexts in `account_contract.rs`, declared types and keys of the asset contract, `get_address_executable` |
| `SacLedgerModel` | `balance.rs`, `allowance.rs`, `contract.rs` of the asset contract where they touch contract data, on `StorageModel`'s programs of `host/data_helper.rs` and the TTL functions |
| `PayModel` | `host/metered_vector.rs`, `host/metered_map.rs`, `host/metered_clone.rs` (values, keys, creations), `host/comparison.rs`, `obj_cmp` in `host.rs`, comparison of calls in `auth.rs`, with their charges |
| `SacEventModel` | `builtin_contracts/stellar_asset_contract/event.rs`, `record_contract_event` in `events/mod.rs` (values as XDR; budget omitted) |
| `DiagModel` | `events/internal.rs`, `events/diagnostic.rs`, `with_debug_mode` in `host.rs`, the events of calls in `host/frame.rs`, `encode_contract_events`, `extract_diagnostic_events` and the end of `invoke_host_function` in `e2e_invoke.rs` (values as XDR; conversions and XDR writing are arbitrary metered work `conv`, `xconv`, `wr`; objects created by error reports in debug mode, tracing and the test-only `DebugInfo` omitted) |
| `EmuModel` | `emulate_authentication`, `maybe_emulate_authentication` and the reads of `authenticate` in `auth.rs`, `check_account_authentication` up to the load of the account, the end of `pop_context` (preparation of the payload and conversion of the tree are an outcome `tk_prepared`; budget and diagnostics omitted) |
| `NetModel` | `soroban-simulation/src/network_config.rs` (error texts omitted; of each setting the fields that are read) |
| `LifeModel` | `host.rs` 2208-2276, 2307-2337, `data_helper.rs` 139-166, 340-454, 613-636, `frame.rs` 902-937 (the module cache is omitted) |
| `RustModel` | `soroban-env-common/src/convert.rs` 60-414, `option.rs`, `result.rs`, `tuple.rs` 8-34, `bytes.rs`, `symbol.rs` 107-130, 303-316, 354-377, `val.rs` 481-545, `wrapper_macros.rs` 41-83, `host.rs` 1053-1082 (the error type of a Result is `Error`; strings and conversions to and from arrays of values are omitted) |
| `E2EModel` | `e2e_invoke.rs`, enforcing and recording |
| `SimModel` | `soroban-simulation/src`: adjustments, the three operations, snapshot sources |
| `PrngModel` | `host/prng.rs` with the sampling loops of `rand` 0.8.5, written from recollection: that crate's source is not available here, so C86 and the `rand` part of C54 rest on an unchecked transcription |

### Not modelled

The Wasm engine: decoding and validation of modules, initialization of memories and tables, execution; cryptography other than scalars, Poseidon and the encoding and validation of points, keys and signatures (hashes, the verification of signatures, the group operations and pairings of BLS12-381 and BN254);
tracing and test utilities; the macros that generate the
environment traits; the challenge crate and the fuzzing helpers. Budget charges appear only in
`BudgetModel`, `PayModel` and `DiagModel`: elsewhere a run that exceeds the budget is not represented, and the theorems speak about
runs that do not. Limits on call depth and reentry are in `FrameModel`, and are left out of `AuthModel`,
which thereby covers more executions.

### Notes on particular models

* `AuthModel` has an execution trace as instrumentation; it is tied to the state by `record`.
* `SacModel` treats the unchecked i64 addition in `trust` as a failure (overflow checks are on).
* `GuestModel` has a log of the words crossing the boundary as instrumentation; frames may continue after a
  failed host function, which covers more runs than the code has.
* `AuthRecModel` takes the handle of each requested address and the drawn nonces as parameters; C63 is for
  transactions whose accounts accept (`accepts`: signatures verify, `__check_auth` returns without doing
  anything), since what a `__check_auth` does is not recorded.
* `DelegModel` has the check of classic accounts' signatures (`acct`, see `MultisigModel`) as a parameter and the list
  of checks made as instrumentation; programs say which entry a require_auth uses.
* `VmModel` has the decoding of Wasm (`e_decode`: wasmparser and wasmi, which also resolve the section list given
  to `extract`) and the initialization of instances (`e_init`) as fields of the record `henv`; theorems hold for
  all of them. SHA-256 is a function parameter; cache transparency asks that the modules in play do not collide.
* `IntModel` has ethnum's 256-bit functions (external) as functions on integers with their documented ranges:
  checked results, truncating division, Euclidean remainder, shifts of at most 255.
* `PointModel` takes arkworks' group operations, subgroup tests, pairings and maps to the curves (external) as
  an arbitrary `library`. Theorems about results assume that it is `closed` (`PointSpec`): operations stay on the
  curve or in the group. Reading and writing of coordinates and the test of the equation are modelled on integers.
* `EcdsaModel` takes the verification of signatures and the recovery of keys (external) as an arbitrary `verifier`;
  parsing of signatures and of SEC1 keys is modelled on integers.
* `StrkeyModel` writes out the crates stellar-strkey and data-encoding and the CRC-16 (external) as SEP-23 describes
  them.
* `AssetModel` writes out the XDR of `Asset` (external), and has SHA-256 and the outcome of require_auth as parameters.
* `SerialModel` writes out the XDR decoder of `ScVal` (crate stellar-xdr, external: RFC 4506 with strict padding, strict booleans and options, and bounded symbols); what its depth and length limits accept is a pair of arbitrary predicates `readable` and `writable`.
* `FieldModel` has the arithmetic of arkworks' `Fr` (Montgomery form, external) as arithmetic on reduced integers,
  with the published orders. `FieldCert` is checked with the kernel's virtual machine (`vm_cast_no_check`).
* `MeterModel` represents panics (overflow, exceeded limits) as `None`; work between entry points is an arbitrary function of the host, so failing calls and rollbacks are included. The encodings of entries and their length are a `codec`, as in `E2EModel`. `C76_estimated_rent` is for data entries; code has a discount.
* `CtModel` takes declarations as data, since macros run on them; a Rust program exists only for well-formed ones (`type_ok`), and data have their Rust types (`datum`). Values are XDR values (C07 relates them to words). The derived `Compare` is not modelled; for enums it compares names as typed symbols (F4).
* `SacLedgerModel` is the build without recording mode, enforcing its footprint. Entries of balances and allowances it starts from are live, as the network loads them, and hold values of the declared types (`in_order`, kept by every call). Classic accounts, trustlines, instance data and events stay the records of `SacModel`. require_auth may change any entry but the contract's own (`quiet`): the contract cannot be entered while it waits for a signature check, since contract calls do not allow reentry (C26).
* `PayModel` counts as work the bytes the Rust operations allocate, copy, read and compare; these counts, and the real sizes of types (from `declared_size.rs` and its tests), are part of the model and trusted; `P_PayWork` bounds them from below by what there is to compare, build and copy (`PayWorkSpec`). Work in registers (comparing words, tags and the characters of a small symbol) is not counted. The depth limit is a parameter. Metered clones of types other than XDR values, ledger keys and creations, metered hashing, XDR conversion and the charges of the VM are not in it (`BudgetModel` has the budget, `VmModel` the fuel). Not modelled and noted while reading: `CreateContractArgs` (V1) is cloned and compared as a shallow type though an executable tag is inside; the clone of `SorobanAuthorizationEntry` does not charge for the signature.
