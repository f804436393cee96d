{"id": "C01", "title": "Small integers embedded in a Val come back unchanged", "statement": "Encoding any u32, i32, u64, i64, timepoint, duration, u128, i128, u256 or i256 number as a Val and decoding it returns the same number; the in-word form is chosen exactly when the number lies in the documented small range ([0,2^56) unsigned, [-2^55,2^55) signed), and every other number is refused the in-word form.", "quantifier": "every integer of every one of the ten number types", "why_tests_cant": "2^64 (and more) inputs per type; the sign-extension and shift boundaries are exactly where sampling misses", "anchors": ["soroban-env-common/src/num.rs: is_small_u64/is_small_i64/..., TryFrom impls", "soroban-env-common/src/val.rs: from_body_and_tag, get_body, get_signed_body", "soroban-env-common/src/convert.rs"]}
{"id": "C02", "title": "Only well-formed words cross the guest/host boundary", "statement": "A 64-bit word handed over by a guest is accepted as a value exactly when it is well formed (known tag, zero padding, valid error and symbol payloads); for each accepted non-object word except symbols, decoding it to the value it denotes and encoding that value again gives the identical word, so two different accepted words never denote the same bool/void/number/error.", "quantifier": "all 2^64 words", "why_tests_cant": "the input space is all 64-bit words from an adversarial guest", "anchors": ["soroban-env-common/src/val.rs: Val::is_good, Tag::from_u8, WasmiMarshal for Val", "soroban-env-common/src/error.rs", "soroban-env-common/src/symbol.rs"]}
{"id": "C03", "title": "Short symbols round-trip and are injective", "statement": "Every string of at most nine characters from [A-Za-z0-9_] has an in-word symbol form which reads back as the same string; different strings get different words; strings with any other character or of length over nine are refused the in-word form.", "quantifier": "every byte string", "why_tests_cant": "all byte strings of every length; 64^9 short symbols", "anchors": ["soroban-env-common/src/symbol.rs: SymbolSmall::try_from_bytes, encode_byte, SymbolSmallIter"]}
{"id": "C04", "title": "Symbols sort as strings whatever their representation", "statement": "Comparing two symbols, each either in-word or a host object, through the host's value comparison gives exactly the lexicographic byte order of the strings they spell.", "quantifier": "every pair of valid symbol strings and both representations of each", "why_tests_cant": "infinite pairs, four representation combinations", "anchors": ["soroban-env-common/src/symbol.rs: Ord for SymbolSmall", "soroban-env-common/src/compare.rs", "soroban-env-host/src/host_object.rs: try_compare_to_small", "soroban-env-host/src/host.rs: obj_cmp"]}
{"id": "C05", "title": "Error values carry their error unchanged", "statement": "Packing any XDR error (contract code or system type/code) into a Val and unpacking it gives the same error; a word is accepted as an Error only if it unpacks to an XDR error.", "quantifier": "all errors, all 64-bit words with the error tag", "why_tests_cant": "2^32 contract codes times error types", "anchors": ["soroban-env-common/src/error.rs: Error::from_contract_error, from_type_and_code, TryFrom<Error> for ScError"]}
{"id": "C06", "title": "Wide integers survive splitting into words", "statement": "Splitting a u128/i128/u256/i256 into its hi/lo 64-bit pieces and reassembling gives the same number, and reassembling any pieces then splitting gives the same pieces; hence XDR parts and host numbers are in bijection, and order of numbers equals lexicographic order of pieces with a signed top piece.", "quantifier": "every 128/256-bit number and every tuple of 64-bit pieces", "why_tests_cant": "2^256 inputs", "anchors": ["soroban-env-common/src/num.rs: u256_from_pieces, u256_into_pieces, i256_from_pieces, i256_into_pieces", "soroban-env-host/src/host/comparison.rs"]}
{"id": "C07", "title": "XDR value to host value and back is the identity", "statement": "Loading a representable XDR value tree into the host and converting the resulting Val back produces the same XDR tree; unrepresentable trees (absent vec/map bodies, unsorted or duplicate map keys, invalid symbols, reserved ledger-key values) are refused rather than altered; objects already in the host are not disturbed.", "quantifier": "every XDR value tree of any shape within the depth limit, every starting host state", "why_tests_cant": "unbounded recursive data and arbitrary host heaps", "anchors": ["soroban-env-host/src/host/conversion.rs: to_host_val, from_host_val, to_host_obj, from_host_obj", "soroban-env-common/src/convert.rs", "soroban-env-common/src/object.rs: ScValObjRef::classify"]}
{"id": "C08", "title": "Value comparison is a total order", "statement": "The host's comparison of two values is reflexive, antisymmetric and transitive with respect to 'equal', 'less' and 'greater', across all mixes of in-word and object values and nested containers, whenever it does not fail for lack of depth.", "quantifier": "every host state and every two or three values in it", "why_tests_cant": "pairs and triples of unbounded nested values", "anchors": ["soroban-env-common/src/compare.rs: Compare<Val>", "soroban-env-host/src/host.rs: obj_cmp", "soroban-env-host/src/host/comparison.rs: Compare<HostObject>", "soroban-env-host/src/host_object.rs: try_compare_to_small"]}
{"id": "C09", "title": "Host order and XDR order agree", "statement": "Comparing two values inside the host gives the same answer as comparing the XDR values they were loaded from, so maps sorted by one are sorted for the other.", "quantifier": "every pair of representable XDR values, every host state they are loaded into", "why_tests_cant": "needs agreement of two independent comparison routines on all pairs", "anchors": ["soroban-env-common/src/compare.rs", "soroban-env-host/src/host/comparison.rs: Compare<ScVal> for Budget", "soroban-env-host/src/host.rs: obj_cmp"]}
{"id": "C10", "title": "Contracts can only name objects they were given", "statement": "A guest frame's handle resolves only to an object previously passed to or returned to that same frame, with the same type tag; absolute handles, out-of-range handles and mistyped handles are refused; translating an object out to a frame and back gives the same object, and existing objects never change when more are added.", "quantifier": "every interleaving of frames pushing, receiving and resolving handles", "why_tests_cant": "adversarial guests choose any 64-bit word at any time", "anchors": ["soroban-env-host/src/host_object.rs: relative_to_absolute, absolute_to_relative, add_host_object, visit_obj", "soroban-env-host/src/vm/dispatch.rs"]}
{"id": "C11", "title": "Map host functions behave as a finite map with canonical order", "statement": "Any history of put/del/get/has/len/key_by_pos/val_by_pos on map values gives the answers of a mathematical finite map, keeps keys strictly ascending, never changes earlier map values, and two maps with the same contents are represented identically whatever history built them.", "quantifier": "every sequence of operations, every totally ordered key type", "why_tests_cant": "all histories; binary search correctness at every size", "anchors": ["soroban-env-host/src/host/metered_map.rs", "soroban-env-host/src/host.rs: map_put, map_get, map_del, map_has, map_len, map_key_by_pos, map_val_by_pos"]}
{"id": "C12", "title": "Building a map from raw entries accepts exactly sorted unique keys", "statement": "Constructing a map from an entry list succeeds exactly when keys are strictly ascending, and then contains exactly these entries; the same holds for map_new_from_linear_memory-style construction where the sparse form drops void values only.", "quantifier": "every entry list", "why_tests_cant": "all lists of all lengths", "anchors": ["soroban-env-host/src/host/metered_map.rs: from_map", "soroban-env-host/src/host/data_helper.rs: map_new_from_slices_impl"]}
{"id": "C13", "title": "Map unpacking returns the requested fields", "statement": "Unpacking a map against a list of symbols writes at each position the value stored under that symbol; the dense form succeeds exactly when the map's keys are these symbols in this order; the sparse form succeeds exactly when the list is strictly ascending and the map has only symbol keys, gives void for absent keys and ignores the map's other symbols.", "quantifier": "every map and every key list", "why_tests_cant": "merge walk over two lists of arbitrary length", "anchors": ["soroban-env-host/src/host/data_helper.rs: map_unpack_impl"]}
{"id": "C14", "title": "Vector host functions behave as sequences with exact bounds", "statement": "vec put/get/del/push/pop/insert/append/slice/front/back/first_index_of/last_index_of compute the mathematical sequence operation, fail exactly when the index or range is out of bounds, and never change the input vector.", "quantifier": "every vector, every u32 index", "why_tests_cant": "all lengths and all indices including u32 extremes", "anchors": ["soroban-env-host/src/host/metered_vector.rs", "soroban-env-host/src/host.rs: vec_*", "soroban-env-host/src/host/validity.rs"]}
{"id": "C15", "title": "Binary search is correct", "statement": "On an ascending sequence binary search returns a position holding an equal element if one exists, and otherwise the insertion point that keeps the sequence ascending, using at most floor(log2 n)+1 comparisons; the encoded result distinguishes found from not found and decodes uniquely.", "quantifier": "every sequence length, every monotone comparison function", "why_tests_cant": "loop invariants over unbounded sizes", "anchors": ["soroban-env-host/src/host/metered_vector.rs: binary_search_by_pre_rust_182", "soroban-env-host/src/host/conversion.rs: u64_from_binary_search_result"]}
{"id": "C16", "title": "Byte-array host functions and linear memory copies are exact", "statement": "bytes put/get/del/insert/append/push/pop/slice compute the byte sequence operation with exact bounds; copying to and from linear memory touches exactly the addressed range, fails without effect when any part is out of range (including 32-bit overflow), and copying out then in restores the bytes.", "quantifier": "every byte array, memory, offset and length", "why_tests_cant": "offset arithmetic at every 32-bit value", "anchors": ["soroban-env-host/src/host/mem_helper.rs", "soroban-env-host/src/host.rs: bytes_*"]}
{"id": "C17", "title": "Execution never steps outside its declared footprint", "statement": "In enforcing mode every ledger key read, written or extended during an invocation is in the declared footprint, every created, changed or deleted entry is declared read-write, and the operation that would violate this fails with the non-recoverable footprint error and changes nothing.", "quantifier": "every footprint, storage state and sequence of storage operations", "why_tests_cant": "all programs against all footprints", "anchors": ["soroban-env-host/src/storage.rs: Footprint::enforce_access, Storage::put_opt_helper, prepare_read_only_access, extend_ttl"]}
{"id": "C18", "title": "Storage reads return the last write", "statement": "After any history of storage operations, reading a key yields the latest value put (and its live-until) or missing if last deleted, otherwise its initial value; operations on one key never affect another.", "quantifier": "every operation history and every key", "why_tests_cant": "all histories", "anchors": ["soroban-env-host/src/storage.rs: get, put, del, has, try_get_full"]}
{"id": "C19", "title": "A recorded footprint is enough to replay", "statement": "If a sequence of storage operations runs in recording mode against a snapshot, running the same sequence in enforcing mode with the recorded footprint and the ledger entries of that snapshot (archived entries restored, expired temporaries absent) gives the same results at every step and the same final contents, even if intermediate call frames are rolled back.", "quantifier": "every snapshot, ledger sequence and program of operations and rollbacks", "why_tests_cant": "relational property over two executions and all programs", "anchors": ["soroban-env-host/src/storage.rs: prepare_read_only_access, handle_maybe_expired_entry, record_access", "soroban-env-host/src/host/frame.rs: pop_context", "soroban-simulation/src/snapshot_source.rs", "soroban-env-host/src/e2e_invoke.rs"]}
{"id": "C20", "title": "TTL extension never shortens and never exceeds the network maximum", "statement": "extend_ttl leaves all data and all other keys' TTL unchanged, never lowers a live-until, extends exactly when the remaining TTL is at most the threshold, extends to min(now+extend_to, max), and refuses temporary entries asked to go past the maximum and thresholds above extend_to.", "quantifier": "every entry, ledger, threshold and extend_to", "why_tests_cant": "u32 boundary arithmetic over all parameters", "anchors": ["soroban-env-host/src/storage.rs: prepare_extend_ttl, extend_ttl, apply_ttl_extension"]}
{"id": "C21", "title": "TTL extension v2 honours its minimum and maximum", "statement": "extend_ttl_v2 extends by an amount that never exceeds max_extension, the network maximum or what is needed to reach extend_to; it does nothing when that amount is below min_extension; it never shortens; data and other keys are untouched.", "quantifier": "every entry, ledger, extend_to, min_extension and max_extension", "why_tests_cant": "u32 boundary arithmetic over all parameters", "anchors": ["soroban-env-host/src/storage.rs: extend_ttl_v2"]}
{"id": "C22", "title": "Expired entries are never silently readable", "statement": "In recording mode an expired temporary entry is reported as missing and an expired persistent entry is readable only after being recorded read-write and given the minimum live-until; every entry a contract reads is live at the current ledger.", "quantifier": "every snapshot and operation history", "why_tests_cant": "all snapshots and histories", "anchors": ["soroban-env-host/src/storage.rs: handle_maybe_expired_entry", "soroban-env-host/src/e2e_invoke.rs: build_storage_map_from_xdr_ledger_entries"]}
{"id": "C23", "title": "Writing keeps an entry's TTL; creating gives the minimum", "statement": "put_contract_data on an existing entry changes only its value and keeps its live-until ledger; on a missing entry it creates it with exactly the minimum TTL of its durability; persistent, temporary and instance entries with the same key are independent.", "quantifier": "every key, durability, value and storage state", "why_tests_cant": "all states", "anchors": ["soroban-env-host/src/host/data_helper.rs: put_contract_data_into_ledger", "soroban-env-host/src/host.rs: put_contract_data, get_contract_data, del_contract_data", "soroban-env-host/src/ledger_info.rs"]}
{"id": "C24", "title": "A failed call leaves no trace", "statement": "If a call frame fails, ledger storage contents, TTLs, contract authorization state and the set of emitted (non-failed) events are exactly as before the call, however deep the call tree and however many nested successes it contained.", "quantifier": "every call tree with any pattern of nested success and failure", "why_tests_cant": "all call trees; tests cover a handful of shapes", "anchors": ["soroban-env-host/src/host/frame.rs: push_context, pop_context, with_frame", "soroban-env-host/src/events/internal.rs: rollback", "soroban-env-host/src/auth.rs: snapshot, rollback"]}
{"id": "C25", "title": "try_call exposes recoverable errors only", "statement": "try_call returns an error value only for recoverable errors; budget exhaustion, footprint violations and internal errors always propagate and abort the whole invocation no matter how contracts nest try_call; a contract can pass exactly its own contract-type errors to its caller, every other recoverable error arrives as the generic (Context, InvalidAction).", "quantifier": "every error and every nesting of calls", "why_tests_cant": "all call trees and all errors", "anchors": ["soroban-env-host/src/host.rs: try_call", "soroban-env-host/src/host/error.rs: is_recoverable", "soroban-env-host/src/host/frame.rs: with_frame_and_initial_mem_charge"]}
{"id": "C26", "title": "No re-entry and no direct calls to reserved functions", "statement": "During any execution no contract appears twice on the call stack except directly re-entering itself for its own authentication callback; a contract can never call a function whose name begins with two underscores; the call stack never exceeds the fixed depth limit.", "quantifier": "every program of nested calls", "why_tests_cant": "all call graphs", "anchors": ["soroban-env-host/src/host/frame.rs: call_n_internal, ContractReentryMode, with_frame_and_initial_mem_charge"]}
{"id": "C27", "title": "Emitted events are exactly those of committed frames, in order", "statement": "The contract events of a successful invocation are exactly those recorded in frames all of whose enclosing frames succeeded, in emission order; events of failed calls are flagged, never reordered or dropped from diagnostics, and never reach the transaction's event output.", "quantifier": "every call tree with interleaved events", "why_tests_cant": "all traces", "anchors": ["soroban-env-host/src/events/internal.rs: record, rollback, externalize", "soroban-env-host/src/e2e_invoke.rs: encode_contract_events"]}
{"id": "C28", "title": "Budget limits are never exceeded silently", "statement": "After any sequence of charges that all succeeded, consumed cpu and memory are at most the limits; a charge that would exceed fails with the budget error; consumption is exact saturating model cost and never decreases except by memory refunds, and the reported peak never decreases.", "quantifier": "every cost model, limit and sequence of charges and refunds", "why_tests_cant": "all sequences and all u64 parameters", "anchors": ["soroban-env-host/src/budget.rs: BudgetImpl::charge", "soroban-env-host/src/budget/dimension.rs: charge, check_budget_limit, refund", "soroban-env-host/src/budget/model.rs: evaluate"]}
{"id": "C29", "title": "Diagnostic (shadow) work never affects the metered budget", "statement": "Charges made in shadow mode never change the reported cpu/memory consumption and so never change whether a later metered charge succeeds.", "quantifier": "every interleaving of shadow and normal charges", "why_tests_cant": "non-interference over all interleavings", "anchors": ["soroban-env-host/src/budget.rs: with_shadow_mode", "soroban-env-host/src/budget/dimension.rs: charge"]}
{"id": "C30", "title": "Wasm fuel never exceeds the remaining budget", "statement": "Fuel handed to the VM, once converted back to cpu instructions, never exceeds the remaining cpu budget, wastes less than one instruction's cost, and a VM consuming any part of its fuel never makes the fuel settlement itself exceed the limit.", "quantifier": "every budget state and every amount of fuel consumed", "why_tests_cant": "u64 division/multiplication boundaries", "anchors": ["soroban-env-host/src/budget.rs: get_wasmi_fuel_remaining", "soroban-env-host/src/vm/fuel_refillable.rs"]}
{"id": "C31", "title": "Recursion depth accounting is balanced", "statement": "Work nested deeper than the limit fails with ExceededLimit, and after any operation - successful or failed - the depth allowance is back to its previous value, so failures cannot leak or gain depth.", "quantifier": "every nesting of operations with success or failure at any level", "why_tests_cant": "all recursion trees", "anchors": ["soroban-env-host/src/budget/limits.rs: with_limited_depth, enter, leave"]}
{"id": "C32", "title": "Resource fees are non-negative, monotone and rounded up", "statement": "The computed non-refundable and refundable resource fees never decrease when any consumed resource or any fee rate grows, are never negative for non-negative rates, round each component up, and saturate instead of wrapping.", "quantifier": "every resource vector and every non-negative fee configuration", "why_tests_cant": "products of 32/64-bit quantities at all magnitudes", "anchors": ["soroban-env-host/src/fees.rs: compute_transaction_resource_fee, compute_fee_per_increment"]}
{"id": "C33", "title": "Rent fees charge exactly for extension and growth", "statement": "Every entry owes, rounded up, its new size times its added ledgers plus its added bytes times the ledgers already paid for, at the rate of its kind, a third for code; the total adds the cost of rewriting each prolonged record. Rent is zero when no entry is extended or grown, grows with size and with the number of extension ledgers, extending in one step never costs more than extending in two, a smaller entry never costs more, code entries are discounted by the fixed factor, and the result is never negative.", "quantifier": "every list of entry changes and every sane fee configuration", "why_tests_cant": "all sizes, ledgers and configurations", "anchors": ["soroban-env-host/src/fees.rs: compute_rent_fee, rent_fee_per_entry_change, rent_fee_for_size_and_ledgers"]}
{"id": "C34", "title": "The rent write fee is bounded and monotone in ledger state size", "statement": "compute_rent_write_fee_per_1kb is at least the fixed minimum, equals the configured low and high fees at their sizes, and never decreases as ledger state grows, for configurations whose high fee is not below the low fee; the clamp makes negative fees impossible.", "quantifier": "every state size and every sane configuration", "why_tests_cant": "i64 saturation and division over all magnitudes", "anchors": ["soroban-env-host/src/fees.rs: compute_rent_write_fee_per_1kb, clamp_fee"]}
{"id": "C35", "title": "require_auth succeeds only with a matching authorization", "statement": "In enforcing mode require_auth for an address succeeds only if the address is the direct calling contract, or a contract up the stack pre-authorized exactly this call, or a signed entry of that address contains a not-yet-used node with exactly this contract, function and arguments whose parent node was matched by an ancestor frame of the current call (or the node is the root).", "quantifier": "every call tree, every set of authorization entries, every placement of require_auth", "why_tests_cant": "all trees and all schedules of authorization", "anchors": ["soroban-env-host/src/auth.rs: require_auth_internal, maybe_check_invoker_contract_auth, require_auth_enforcing, maybe_extend_invocation_match"]}
{"id": "C36", "title": "Each authorized node is used at most once", "statement": "Within an invocation every node of every authorization tree authorizes at most one successful, not rolled back require_auth; a second identical require_auth in another frame needs another node.", "quantifier": "every execution", "why_tests_cant": "all executions", "anchors": ["soroban-env-host/src/auth.rs: maybe_extend_invocation_match, snapshot, rollback"]}
{"id": "C37", "title": "An authorization entry's nonce can be consumed once", "statement": "A signed entry with credentials can be accepted only while the current ledger is at most its expiration and the expiration is within the maximum TTL, each (address, nonce) is accepted at most once while the entry could still be valid, in this or any later transaction, and a rolled back use does not consume it.", "quantifier": "every history of transactions and ledgers", "why_tests_cant": "replay protection is a property of all histories", "anchors": ["soroban-env-host/src/auth.rs: verify_and_consume_nonce, consume_nonce", "soroban-env-host/src/storage.rs: put, extend_ttl"]}
{"id": "C38", "title": "Rolled back calls give authorizations back", "statement": "When a call fails and is rolled back, every authorization consumed inside it is again available, trackers created inside it are gone, and the match state seen by the caller is the same as before the call.", "quantifier": "every execution and rollback point", "why_tests_cant": "all executions", "anchors": ["soroban-env-host/src/auth.rs: AuthorizationManager::snapshot, rollback, push_frame, pop_frame"]}
{"id": "C39", "title": "Signatures are checked before authorization takes effect and only once", "statement": "No require_auth of an account address succeeds via an entry unless that entry's credentials have been authenticated and its nonce consumed in this invocation (and not rolled back); an entry currently being authenticated cannot authorize anything.", "quantifier": "every execution including custom account callbacks", "why_tests_cant": "re-entrant schedules of authentication", "anchors": ["soroban-env-host/src/auth.rs: maybe_authorize_invocation, require_auth_enforcing, authenticate"]}
{"id": "C40", "title": "Classic multisig reaches its threshold with distinct valid signers", "statement": "Account authentication succeeds exactly when 1 to 20 signatures are given with strictly increasing public keys, each verifies, each key has non-zero weight and the total weight reaches the medium threshold; no key counts twice.", "quantifier": "every signature list and account signer set", "why_tests_cant": "all signature lists and signer sets", "anchors": ["soroban-env-host/src/builtin_contracts/account_contract.rs: check_account_authentication", "soroban-env-host/src/host/data_helper.rs: get_signer_weight_from_account"]}
{"id": "C41", "title": "Signature payload binds what is signed", "statement": "The payload preimage determines network id, nonce, expiration ledger and the whole invocation tree; the address-bound variant also determines the address; so a signature for one cannot be used for a different one.", "quantifier": "every pair of credentials and invocation trees", "why_tests_cant": "injectivity over unbounded trees", "anchors": ["soroban-env-host/src/auth.rs: get_signature_payload"]}
{"id": "C42", "title": "Asset contract conserves supply", "statement": "transfer and transfer_from leave the sum of all balances of a non-native or native asset unchanged apart from the issuer's side, mint adds exactly the amount, burn and clawback remove exactly the amount, and no other balance changes; a failing call changes nothing.", "quantifier": "every state, address kinds (account, contract, issuer) and amounts", "why_tests_cant": "all states, aliasing of from/to, boundary amounts", "anchors": ["soroban-env-host/src/builtin_contracts/stellar_asset_contract/contract.rs", "soroban-env-host/src/builtin_contracts/stellar_asset_contract/balance.rs"]}
{"id": "C43", "title": "Asset balances stay within their limits", "statement": "After any history of asset contract calls balances are never negative, account and trustline balances stay between liabilities/reserve and the limit (int64), contract balances fit i128, and negative amounts are always refused.", "quantifier": "every call history", "why_tests_cant": "invariant over all histories", "anchors": ["soroban-env-host/src/builtin_contracts/stellar_asset_contract/balance.rs: transfer_account_balance, transfer_trustline_balance, get_min_max_*", "soroban-env-host/src/builtin_contracts/stellar_asset_contract/contract.rs: check_nonnegative_amount"]}
{"id": "C44", "title": "Deauthorized holders cannot move the asset; only clawback-enabled balances can be clawed back", "statement": "A deauthorized holder can neither send nor receive through transfer, transfer_from, mint, burn; set_authorized changes only the flag; clawback succeeds only on clawback-enabled balances, and works on deauthorized ones.", "quantifier": "every state and call", "why_tests_cant": "all flag combinations and states", "anchors": ["soroban-env-host/src/builtin_contracts/stellar_asset_contract/balance.rs: is_authorized, write_authorization, check_clawbackable"]}
{"id": "C45", "title": "Allowances bound what a spender can take", "statement": "Between approvals the total taken by a spender through transfer_from/burn_from is at most the approved amount, nothing can be taken after the allowance expires, each spend lowers it exactly, and approvals for other pairs are unaffected.", "quantifier": "every history of approvals, spends and ledger advances", "why_tests_cant": "all histories", "anchors": ["soroban-env-host/src/builtin_contracts/stellar_asset_contract/allowance.rs"]}
{"id": "C46", "title": "An approved allowance stays usable until its live-until ledger", "statement": "After approve(from, spender, amount>0, live_until) succeeds, allowance(from, spender) keeps returning the unspent amount at every ledger up to live_until.", "quantifier": "every prior approval history and ledger", "why_tests_cant": "depends on the history of the entry's TTL", "anchors": ["soroban-env-host/src/builtin_contracts/stellar_asset_contract/allowance.rs: write_allowance"]}
{"id": "C47", "title": "Ledger changes reported to the ledger are faithful", "statement": "After a successful invocation there is exactly one change per footprint key, read-only keys never carry a new value, read-write keys carry exactly the final stored value (or deletion), and live-until ledgers of surviving entries never go down.", "quantifier": "every initial state, footprint and final storage", "why_tests_cant": "all storages", "anchors": ["soroban-env-host/src/e2e_invoke.rs: get_ledger_changes, add_footprint_only_ledger_changes"]}
{"id": "C48", "title": "Rent is charged exactly for changed entries", "statement": "The rent changes extracted from ledger changes include an entry exactly when its TTL was extended or its size grew (new or restored entries counted from zero), with the sizes and ledgers of the change.", "quantifier": "every list of ledger changes", "why_tests_cant": "all lists", "anchors": ["soroban-env-host/src/e2e_invoke.rs: extract_rent_changes, get_ledger_changes, entry_size_for_rent"]}
{"id": "C49", "title": "A failed invocation changes nothing", "statement": "When the invoked host function returns an error, the result contains no ledger changes and no contract events.", "quantifier": "every invocation", "why_tests_cant": "all failing executions", "anchors": ["soroban-env-host/src/e2e_invoke.rs: invoke_host_function"]}
{"id": "C50", "title": "Instance storage reads its own writes and survives upgrades", "statement": "Instance storage writes made by a frame are visible to later reads of that contract, persisted exactly when the frame succeeds, discarded when it fails, and replacing the executable neither loses storage changes nor the reverse.", "quantifier": "every program of instance writes, upgrades and nested calls", "why_tests_cant": "all programs", "anchors": ["soroban-env-host/src/host/frame.rs: persist_instance_storage, maybe_init_instance_storage", "soroban-env-host/src/host/data_helper.rs: store_contract_instance"]}
{"id": "C51", "title": "A contract is created at most once per address", "statement": "Creating a contract fails if an instance exists at its address and otherwise leaves an instance with the requested existing executable and minimum TTL; if the constructor fails the instance is gone; existing instances are never overwritten.", "quantifier": "every state and creation request", "why_tests_cant": "all states and constructors", "anchors": ["soroban-env-host/src/host/lifecycle.rs: create_contract_with_id, call_constructor, create_contract_internal"]}
{"id": "C52", "title": "Executable reference entries stay valid", "statement": "Data entries under executable-tag keys always hold, in persistent storage, a 32-byte hash of an existing Wasm, and can never be deleted by a contract.", "quantifier": "every history of contract data operations", "why_tests_cant": "invariant over all histories", "anchors": ["soroban-env-host/src/host/data_helper.rs: validate_put_contract_data, validate_del_contract_data"]}
{"id": "C53", "title": "Frame memory is released exactly", "statement": "Linear memory charged by a frame is refunded exactly when it ends, on success and failure alike, so the net memory of a balanced call equals its non-linear-memory charges while the peak keeps the maximum.", "quantifier": "every call tree and memory growth schedule", "why_tests_cant": "all call trees", "anchors": ["soroban-env-host/src/host/frame.rs: reclaim_frame_linear_mem_since, charge_current_frame_linear_mem, pop_context", "soroban-env-host/src/budget/dimension.rs: refund"]}
{"id": "C54", "title": "Frame PRNGs are isolated", "statement": "The random stream a frame sees depends only on the base seed and the number of frames that used randomness before it, not on draws or reseeds made in other frames; shuffling returns a permutation; a ranged draw lies in the range.", "quantifier": "every program of frames and draws", "why_tests_cant": "non-interference over all schedules", "anchors": ["soroban-env-host/src/host/frame.rs: with_current_prng", "soroban-env-host/src/host/prng.rs"]}
{"id": "C55", "title": "Simulation adjustments never under-estimate", "statement": "Simulation's adjusted resources and fees are at least the measured ones and zero stays zero; TTL-extension simulation includes exactly live entries that need extension; restore simulation includes exactly archived persistent entries; and the data simulated for an invocation is enough for the transaction, which gives the simulated result, if no call failed on the way.", "quantifier": "every measured value and adjustment factor, every snapshot", "why_tests_cant": "all magnitudes and snapshots", "anchors": ["soroban-simulation/src/resources.rs: adjust_u32, simulate_extend_ttl_op_resources, simulate_restore_op_resources", "soroban-simulation/src/simulation.rs"]}
{"id": "C56", "title": "A contract address identifies its deployment", "statement": "The address a contract gets is determined by the network and by the deployer and salt, or the asset, it is created from, and two different ones never give the same bytes to hash; those bytes are never bytes signed in an authorization.", "quantifier": "every pair of networks, deployers, salts and assets", "why_tests_cant": "injectivity of an encoding over all values", "anchors": ["soroban-env-host/src/host/lifecycle.rs: get_contract_id_hash, get_asset_contract_id_hash", "soroban-env-host/src/host/data_helper.rs: get_full_contract_id_preimage", "soroban-env-host/src/host/metered_xdr.rs: metered_hash_xdr"]}
{"id": "C57", "title": "Asset events account for every balance change", "statement": "The transfer, mint, burn and clawback events the asset contract has emitted determine, together with earlier balances, what every address but the issuer holds: no call changes a balance without the event that says so, and failed calls emit none.", "quantifier": "every history of asset contract calls", "why_tests_cant": "an indexer's view must agree after every history", "anchors": ["soroban-env-host/src/builtin_contracts/stellar_asset_contract/event.rs", "soroban-env-host/src/builtin_contracts/stellar_asset_contract/contract.rs"]}
{"id": "C58", "title": "Asset calls need the right authorization", "statement": "A call succeeds only with the authorization of the one whose say it is (the sender, the spender, or the administrator); what an address holds falls only by its own authorization, on its allowance, or by the administrator's clawback; the administrator changes only by set_admin authorized by the present one.", "quantifier": "every call, every history of calls by others", "why_tests_cant": "must hold for all callers and all histories", "anchors": ["soroban-env-host/src/builtin_contracts/stellar_asset_contract/contract.rs", "soroban-env-host/src/builtin_contracts/stellar_asset_contract/admin.rs", "soroban-env-host/src/builtin_contracts/stellar_asset_contract/allowance.rs"]}
{"id": "C59", "title": "A permitted asset transfer succeeds", "statement": "A transfer between different authorized holders, authorized by the sender, succeeds for every amount within the sender's spendable balance (above reserve and selling liabilities) and the receiver's room (limit less buying liabilities).", "quantifier": "every state within the limits and every amount", "why_tests_cant": "liveness at every boundary of reserve, liabilities and limit", "anchors": ["soroban-env-host/src/builtin_contracts/stellar_asset_contract/balance.rs: transfer_account_balance, transfer_trustline_balance, receive_balance, spend_balance"]}
{"id": "C60", "title": "trust opens an empty trustline with the issuer's flags", "statement": "trust() on a contract or an account with a trustline succeeds and changes nothing; for the native asset and for the issuer it fails; otherwise, with the account's authorization, it adds exactly one empty trustline with the largest limit, authorized unless the issuer requires authorization and clawback-enabled exactly if the issuer has clawback enabled, adds one subentry to the account, and moves nothing.", "quantifier": "every state and every address", "why_tests_cant": "all combinations of issuer flags, reserves and subentries", "anchors": ["soroban-env-host/src/builtin_contracts/stellar_asset_contract/balance.rs: create_trustline", "soroban-env-host/src/builtin_contracts/stellar_asset_contract/contract.rs: trust"]}
{"id": "C61", "title": "Simulation predicts the transaction", "statement": "Simulating an invocation against a ledger always yields a footprint, an archival-restoration list and announced changes such that the transaction proposed from them, run against that ledger, is accepted and gives the simulated result and contract events; it restores exactly the archived entries it declares; and if no call failed during the simulation it makes exactly the announced changes, writes exactly the announced bytes and owes exactly the announced rent.", "quantifier": "every ledger, contract code and invocation", "why_tests_cant": "must hold for all programs, including those whose calls fail and are caught", "anchors": ["soroban-env-host/src/e2e_invoke.rs: invoke_host_function_in_recording_mode, add_footprint_only_ledger_changes, storage_footprint_to_ledger_footprint", "soroban-env-host/src/storage.rs: prepare_read_only_access, handle_maybe_expired_entry"]}
{"id": "C62", "title": "Simulations read accounts as the network would leave them", "statement": "An account read by a simulation says the same about balances, liabilities, sponsorships and sequence numbers as the ledger's; the extensions the network adds are filled in, so that its size is never underestimated, and filling them in twice changes nothing.", "quantifier": "every account", "why_tests_cant": "all combinations of extensions and sponsors", "anchors": ["soroban-simulation/src/snapshot_source.rs: update_account_entry, fill_account_ext_v2, fill_account_ext_v3"]}
{"id": "C63", "title": "Recorded authorizations are enough", "statement": "If a transaction is run while recording the authorizations it needs, and each recorded payload is signed with any expiration the network allows, then the same transaction with these entries and the recorded footprint is authorized on a validator with the same ledger: it succeeds, uses every node of every signed tree, and leaves the recorded ledger (but for how long nonces are kept). This is for recordings where a call asks an address at most once, no failed call asked for authorization, and no account contract is first asked between authorize_as_curr_contract and the call it is for; each of these is needed.", "quantifier": "every program of calls, creations, authorization requests and storage operations; every ledger, nonce sequence, expiration and assignment of handles to addresses", "why_tests_cant": "must hold for all call trees, and for all orders in which addresses are asked", "anchors": ["soroban-env-host/src/auth.rs: AuthorizationManager::require_auth_internal, RecordingAuthInfo, record_invocation, get_recorded_auth_payloads, emulate_authentication", "soroban-env-host/src/e2e_invoke.rs: invoke_host_function_in_recording_mode"]}
{"id": "C64", "title": "Only modules made for this network run, and their imports call what they name", "statement": "Code runs exactly if it is valid, says in its metadata that it was made for the ledger's protocol (and this pre-release) or an earlier released one, has no start function, exports no function with more than 32 parameters or results, and imports nothing but host functions, with exactly their types, that exist both in its protocol and in the ledger's. Each import is bound to the one host function of its names. Running from the module cache, whatever its history, or in a simulation is the same as running from the ledger. What runs keeps running after an upgrade unless the upgrade ends a function it imports. A call runs the function exported under the called name, and only with its exact number of word arguments and one result.", "quantifier": "every module, host function table, protocol, cache history and call", "why_tests_cant": "tests try a few modules; consensus needs every validator to accept and link every module alike, from any cache state", "anchors": ["soroban-env-host/src/vm.rs: Vm::instantiate, new_with_cost_inputs, metered_func_call", "soroban-env-host/src/vm/parsed_module.rs: ParsedModule::new, check_meta_section, check_max_args, check_contract_imports_match_host_function_protocol_versions", "soroban-env-host/src/vm/module_cache.rs: ModuleCache", "soroban-env-host/src/vm/func_info.rs: HOST_FUNCTIONS", "soroban-env-host/src/host/frame.rs: instantiate_vm", "soroban-env-common/env.json"]}
{"id": "C65", "title": "Modules are charged for exactly what they contain", "statement": "The cost inputs recorded when code is uploaded are the exact numbers of instructions, functions, globals, table entries, types, segments, imports, exports and data bytes (capped at 2^32-1), in any order of sections; code is refused exactly if it uses other than 32-bit memories and constant initial values, or has more data than memory or more elements than table entries. Parsing charges the sum of the network's prices for these, the very amount rent is charged for, and more of anything never costs less.", "quantifier": "every list of sections and every price list", "why_tests_cant": "must hold for all sizes and prices, also at the caps", "anchors": ["soroban-env-host/src/vm/parsed_module.rs: extract_refined_contract_cost_inputs, check_const_expr_simple, VersionedContractCodeCostInputs, wasm_module_memory_cost", "soroban-env-host/src/e2e_invoke.rs: entry_size_for_rent"]}
{"id": "C66", "title": "Delegates sign once each, as listed, below the signer that listed them", "statement": "A signer being authenticated can have each delegate listed directly below it in the authorization entry checked once, with the signature listed for it and the payload and context of the entry, and nothing else; every delegate that takes effect passed its check, after the signer that lists it was itself asked; what a failed call used can be used again; the getter lists exactly the delegates below the current signer. Entries whose delegates are out of order or repeated, at any depth, are refused before anything runs.", "quantifier": "every list of entries with delegate trees of any depth, every behaviour of the contracts involved, every outcome of signature checks", "why_tests_cant": "must hold for all trees and all interleavings of nested authentication, failing calls and reuse", "anchors": ["soroban-env-host/src/auth.rs: delegate_account_auth, get_delegated_signers_for_current_auth_check, AccountAuthorizationTracker, DelegatedAccountAuthTracker, DelegatedAccountAuthSignerTreeNode", "soroban-env-host/src/host.rs: delegate_account_auth", "soroban-env-host/src/host/frame.rs"]}
{"id": "C67", "title": "Scalar functions compute in the prime field of the group's order", "statement": "Addition, subtraction, multiplication and powers of BLS12-381 and BN254 scalars never fail, take every pair of U256 values, reduced or not, and return the exact result modulo the group's order, as the one U256 value standing for it; only residues of the arguments matter. Inversion fails exactly on multiples of the order, and otherwise returns the only reduced number whose product with the input is one. Both orders are prime, so that these functions obey the laws of a field.", "quantifier": "every pair of 256-bit values, every 64-bit exponent, both groups", "why_tests_cant": "the results range over 2^512 pairs; primality of a 255-bit number is not a test", "anchors": ["soroban-env-host/src/host.rs: bls12_381_fr_add, bls12_381_fr_pow, bls12_381_fr_inv, bn254_fr_add, bn254_fr_inv", "soroban-env-host/src/crypto/bls12_381.rs: fr_from_u256val, fr_to_u256val, fr_inv_internal", "soroban-env-host/src/crypto/bn254.rs: bn254_fr_from_u256val"]}
{"id": "C68", "title": "Poseidon functions compute the published permutations", "statement": "The Poseidon and Poseidon2 functions accept parameters exactly if they fit together (degree five, an even number of full rounds, sizes that agree, for Poseidon2 one of eight state sizes), and then return the published permutation of the inputs modulo the group's order, for every number of rounds. With an invertible matrix the function is a permutation of the states: inputs that differ modulo the order have different images, and every state is an image; the fixed matrices of Poseidon2 are invertible modulo both orders. For states of two and three elements the diagonal passed by the caller is ignored.", "quantifier": "every state, size, number of rounds, matrix and constants, both fields", "why_tests_cant": "tests compare a few published vectors; collisions and refusals range over all states and parameters", "anchors": ["soroban-env-host/src/crypto/poseidon/poseidon.rs: Poseidon::permutation, matmul", "soroban-env-host/src/crypto/poseidon/poseidon2.rs: Poseidon2::permutation, matmul_m4, matmul_external, matmul_internal", "soroban-env-host/src/crypto/poseidon/poseidon_params.rs", "soroban-env-host/src/crypto/poseidon/poseidon2_params.rs", "soroban-env-host/src/crypto/poseidon/utils.rs", "soroban-env-host/src/crypto/mod.rs: poseidon_permutation_impl, poseidon2_permutation_impl"]}
{"id": "C69", "title": "Number functions return the exact integer or refuse", "statement": "The 256-bit functions take numbers of their type, small or as objects alike, and return the one canonical value of the exact integer they stand for (sum, difference, product, quotient rounded towards zero, Euclidean remainder, power, shift), or fail with the overflow error exactly when that integer does not exist or does not fit (the remainder of the least number by -1 apart); the checked variants return Void instead. Other types are refused. Exactly 32 bytes are a number, big-endian in two's complement, and both conversions are inverse; number objects and 64-bit pieces round-trip for every type.", "quantifier": "every pair of 256-bit numbers in either representation, every exponent and shift, every object table", "why_tests_cant": "results range over 2^512 pairs; overflow of powers is found by induction on the exponent, not by cases", "anchors": ["soroban-env-host/src/host.rs: u256_add, u256_pow, i256_div, i256_rem_euclid, u256_checked_add, obj_from_u256_pieces, u256_val_from_be_bytes, i256_val_to_be_bytes", "soroban-env-host/src/host/num.rs: impl_bignum_host_fns, impl_wrapping_obj_from_num", "soroban-env-common/src/convert.rs: TryFromVal for U256, I256, U256Val, I256Val", "soroban-env-common/src/num.rs: u256_from_pieces, i256_into_pieces"]}
{"id": "C70", "title": "Functions on curve points accept exactly the points they demand, in their one encoding", "statement": "A byte string is taken for a point of BLS12-381 or BN254 exactly if it has the point's fixed size, both coordinates below the field's modulus, big-endian, x first, the flags of an uncompressed point, and, where the function demands it, the point satisfies the curve's equation and lies in the subgroup; all else is refused with the invalid-input error. Every point has one encoding and infinity its own. Sums of multiples and pairings take as many points as scalars or partners, at least one; scalars count modulo the order. Results are encoded likewise: sums and mapped elements are accepted where points of the curve are, multiples, sums of multiples and hashed strings where points of the group are.", "quantifier": "every byte string, every list of arguments, every library of group operations that stays on the curve and in the group", "why_tests_cant": "encodings range over 2^1536 byte strings; uniqueness and refusal must hold for all of them", "anchors": ["soroban-env-host/src/host.rs: bls12_381_g1_add, bls12_381_g1_msm, bls12_381_multi_pairing_check, bls12_381_map_fp_to_g1, bls12_381_hash_to_g1, bn254_g1_add, bn254_g1_msm, bn254_multi_pairing_check", "soroban-env-host/src/crypto/bls12_381.rs: validate_point_encoding, affine_deserialize, field_element_deserialize, msm_internal, pairing_internal", "soroban-env-host/src/crypto/bn254.rs: bn254_validate_flags_and_check_infinity, bn254_g1_affine_deserialize, bn254_g2_affine_deserialize"]}
{"id": "C71", "title": "Signature functions take one byte string per key and signature", "statement": "Verification on secp256r1 succeeds exactly for the uncompressed 65-byte encoding of a point of the curve, a 32-byte digest and a 64-byte signature (r, s) with 0 < r < n and 0 < s < n/2 that verifies; recovery on secp256k1 exactly for a 32-byte digest, such a signature and a recovery id up to 3 for which a key exists, and returns the key uncompressed; Ed25519 exactly for a valid 32-byte key and a 64-byte signature that passes strict verification. All else is an error. So accepted signatures are not malleable: r and s determine the bytes, and of (r, s) and (r, n-s) exactly one is taken.", "quantifier": "every byte string for keys, digests and signatures, every recovery id, every outcome of the underlying verification", "why_tests_cant": "encodings range over all byte strings; non-malleability relates pairs of signatures", "anchors": ["soroban-env-host/src/host.rs: verify_sig_ed25519, verify_sig_ecdsa_secp256r1, recover_key_ecdsa_secp256k1", "soroban-env-host/src/crypto/mod.rs: ecdsa_signature_from_bytes, secp256r1_decode_sec1_uncompressed_pubkey, secp256k1_recovery_id_from_u32val, ed25519_pub_key_from_bytes"]}
{"id": "C72", "title": "An address has one strkey, and every other string is refused", "statement": "The strkey of an account, contract or muxed account is the SEP-23 string of its key: version, key and CRC-16 checksum in base 32. The host writes exactly that string, reads it back to the same address, from a string or bytes object, and refuses every other string, among them any string that differs from a strkey in one letter or in two neighbouring ones. Strkeys of accounts, contracts and muxed accounts begin with G, C and M and have 56, 56 and 69 letters; muxed ones are refused where a plain address is asked for. Putting a muxed address together and taking it apart are inverse.", "quantifier": "every address and every byte string", "why_tests_cant": "strings range over all bytes and lengths; detection of mistakes relates every strkey to all strings near it", "anchors": ["soroban-env-host/src/host.rs: address_to_strkey, strkey_to_address, muxed_address_to_strkey, strkey_to_muxed_address, get_address_from_muxed_address, get_id_from_muxed_address", "soroban-env-host/src/host/conversion.rs: scaddress_from_strkey_obj, non_muxed_sc_address_to_strkey, muxed_sc_address_to_strkey"]}
{"id": "C73", "title": "An asset's contract is initialized once, by that asset, and describes it unambiguously", "statement": "Initialization succeeds exactly once, and exactly with the XDR of a proper asset (native, or a code of 1 to 12 letters and digits and an issuer, in its one form) whose derived address is the contract's; it is refused otherwise, with nothing changed. From then on, whatever is called, the contract names that asset: decimals 7, symbol the code, name CODE:ISSUER or native, and different assets have different names. The issuer is the first administrator, each later one is named under the authorization of the one before, and lumens never have one. Codes, validated or not, are displayed in printable characters without a colon, two alike only if their significant bytes are the same.", "quantifier": "every byte string given as an asset, every contract address, every history of calls, every hash function", "why_tests_cant": "encodings and histories are unbounded; uniqueness of names relates all pairs of assets", "anchors": ["soroban-env-host/src/builtin_contracts/stellar_asset_contract/contract.rs: init_asset, set_admin, admin, name, symbol, decimals", "soroban-env-host/src/builtin_contracts/stellar_asset_contract/asset_info.rs: validate_asset, write_asset_info", "soroban-env-host/src/builtin_contracts/stellar_asset_contract/metadata.rs: set_metadata, render_sep0011_asset_code", "soroban-env-host/src/host.rs: get_asset_contract_id", "soroban-env-host/src/host/lifecycle.rs: get_asset_contract_id_hash"]}
{"id": "C74", "title": "Values and their serialized bytes determine each other", "statement": "Serializing a value gives a byte string with its XDR encoding, whatever the value's representation; two values give the same bytes exactly when they compare equal. Deserializing accepts a byte string exactly when it is the encoding of a value contracts can hold (maps sorted, symbols of the alphabet, padding zero, nothing after the end, nested at most 100 deep) and returns that value; so reading what was written gives an equal value, accepted bytes written again are the same bytes, each value has one accepted encoding, and no encoding is a prefix of another. Encodings of values reserved to the ledger are refused with the unexpected-type error, everything else malformed with an error; a refusal changes no existing object.", "quantifier": "every value of any depth and size, every byte string, every state of the object table, every limit of the codec", "why_tests_cant": "byte strings and values are unbounded; injectivity relates all pairs of values and acceptance all byte strings", "anchors": ["soroban-env-host/src/host.rs: serialize_to_bytes, deserialize_from_bytes", "soroban-env-host/src/host/metered_xdr.rs: metered_write_xdr, metered_from_xdr", "soroban-env-host/src/host/conversion.rs: from_host_val, to_host_val, scbytes_from_vec", "soroban-env-common/src/val.rs: can_represent_scval_recursive"]}
{"id": "C75", "title": "Every require_auth gets the one right answer, and signed trees authorize their calls", "statement": "Every require_auth in a transaction, in failed calls and in contract accounts' checks too, gets the answer that the entries, the pre-authorizations and what was used so far determine: the direct invoker is authorized without anything else; otherwise the first unused matching node of the earliest pre-authorization in scope; otherwise the first unused matching node of the earliest entry of the address; it is refused exactly if there is none of these. Exactly one answer is right. A matching entry with good signatures is refused only because it has expired or expires too late, its nonce is on the ledger, or its nonce is not writable in the footprint. So if an account signed one tree of calls, a transaction making these calls, each asking for the account, succeeds, and each call is authorized by its own node, whatever the tree.", "quantifier": "every list of entries, every ledger, every program of calls, creations, failed and caught calls, requests and pre-authorizations, every tree of any depth and width", "why_tests_cant": "completeness of the search relates every history of consumed nodes to every possible match; trees and histories are unbounded", "anchors": ["soroban-env-host/src/auth.rs: require_auth, require_auth_internal, require_auth_enforcing, maybe_check_invoker_contract_auth, maybe_authorize_invocation, maybe_extend_invocation_match, authenticate, verify_and_consume_nonce, consume_nonce, push_frame, pop_frame", "soroban-env-host/src/host/frame.rs: push_context, pop_context"]}
{"id": "C76", "title": "The resources reported for an invocation are those it used, and the estimated fee is their price up to a stated difference", "statement": "With metering on, the report about an outermost invocation is the tree of the contract calls it made, each with what was used between its beginning and its end; the root's numbers are exactly the instructions, memory, event bytes and, for each entry touched, the disk or memory read, the write and the rent of its growth and extension; a call's instructions and memory contain those of its calls. Looking changes no entry. An invocation over the limits panics, and one within them does not. The estimated fee is the network's fee for these resources without the transaction's size, plus rent, plus a read per written entry; estimated rent of data is at most the network's and short of it by at most one ledger of the added bytes and two stroops per entry. Not true: that metering never makes an invocation panic (an entry deleted and written again with a shorter life does), and that reading a live entry costs no rent (it does if storage had not loaded it before).", "quantifier": "every program of nested calls and entry points, every storage and ledger, every outcome of its operations, every limit, every fee configuration", "why_tests_cant": "call trees and footprints are unbounded; tests compare a few reports with recorded numbers", "anchors": ["soroban-env-host/src/host/invocation_metering.rs: push_invocation, pop_invocation, snapshot_current_resources, try_snapshot_storage_and_event_resources, subtract, verify_limits, estimate_fees", "soroban-env-host/src/fees.rs: compute_transaction_resource_fee, compute_rent_fee", "soroban-env-host/src/storage.rs: get_from_map, reset_footprint"]}
{"id": "C77", "title": "Data of built-in contracts are values unambiguously, and authorization shows and accepts exactly what it says", "statement": "Every struct or enum of a built-in contract is written as one value: a map from its field names in ascending order, whatever the order of declaration, or a vec of the case's name and argument. Reading accepts exactly the values that show a datum of the type, gives back what was written, and different data (so different storage keys) are different values. A call reaches the function of that name with the data its arguments show, and fails with an error for another name, another number of arguments or values of other types. A contract account is shown the functions of the tree it is to authorize, each before those it calls; trees creating asset contracts are refused; from what it sees it knows every function except who deploys. An entry of authorize_as_curr_contract is accepted exactly when it is written as documented and nested within the depth limit, and means that tree of calls and creations by the contract itself. Not true: that a read value is what would be written (what follows an enum's case is ignored), and that contexts tell deployers and nesting.", "quantifier": "every declaration of structs and enums of any nesting, every datum, every value, every list of functions, every tree of invocations", "why_tests_cant": "declarations, values and trees are unbounded; injectivity relates all pairs of data", "anchors": ["soroban-builtin-sdk-macros/src/derive_type.rs: derive_type_struct, derive_type_enum", "soroban-builtin-sdk-macros/src/derive_fn.rs: derive_contract_function_set", "soroban-env-host/src/builtin_contracts/account_contract.rs: from_authorized_fn, invocation_tree_to_auth_contexts", "soroban-env-host/src/builtin_contracts/invoker_contract_auth.rs: to_authorized_invocation, invoker_contract_auth_to_authorized_invocation", "soroban-env-host/src/builtin_contracts/common_types.rs", "soroban-env-host/src/builtin_contracts/base_types.rs", "soroban-env-host/src/host.rs: symbol_index_in_strs, get_address_executable"]}
{"id": "C78", "title": "The asset contract's ledger entries are exactly the balances and allowances its calls make", "statement": "A contract's balance of an asset is the persistent entry under [Balance, holder], an allowance the temporary entry under [Allowance, {from, spender}]. On every ledger whose entries of that kind are in order, every sequence of calls of the asset contract answers what it answers on the balances and allowances those entries show, error for error, and leaves entries that show the result: so the amounts in the entries change exactly by what was moved, and the entries stay in order. No other entry changes, and no entry outside a call's parties; a failing call changes nothing. A successful call leaves the instance with seven days to live if it had six or less, and the balance entries it concerns with at least 29 days, up to the network's maximum.", "quantifier": "every ledger, footprint and storage state, every sequence of calls, every answer of require_auth and its effects on other entries, all amounts", "why_tests_cant": "ledgers, amounts and sequences of calls are unbounded; the claim relates raw entries before and after any of them", "anchors": ["soroban-env-host/src/builtin_contracts/stellar_asset_contract/balance.rs: read_balance, write_contract_balance, receive_balance, spend_balance, write_authorization", "soroban-env-host/src/builtin_contracts/stellar_asset_contract/allowance.rs: read_allowance, write_allowance, spend_allowance", "soroban-env-host/src/builtin_contracts/stellar_asset_contract/contract.rs: transfer, approve, mint, burn, clawback", "soroban-env-host/src/builtin_contracts/stellar_asset_contract/storage_types.rs", "soroban-env-host/src/host/data_helper.rs: try_get_contract_data, put_contract_data_into_ledger", "soroban-env-host/src/storage.rs: extend_ttl"]}
{"id": "C79", "title": "Copying, building, searching, comparing and cloning values is charged at least what it touches", "statement": "Every operation of the host's vectors and maps, every comparison of values, of their XDR forms and of ledger keys, and every metered clone gives the answer it gives without metering, or fails with the budget-exceeded error. On every configured budget and at every point of it, the heap bytes allocated, the memory bytes copied or read, the bytes compared and the objects looked up are at most what was charged for them (amounts from 2^64 - 1 count as that). The exceptions are exact: a new container is built before it is charged, so a failing budget leaves at most that one container unpaid; comparing two calls leaves the 8-byte words of their arguments unpaid, comparing two creations the 96 bytes of each constructor argument, comparing references to external executables the part of their tags beyond 24 bytes. None of these exceptions is bounded by a charge. The work spoken of is all there is to do: values found equal have had every byte of their contents compared and every element of their containers fetched, at all levels; a new container has been allocated and written in full; a clone has been allocated and written with all it owns.", "quantifier": "every budget configuration, every limit and point where the budget runs out, all containers, values, keys of any size and depth, every state of the object table, all element types whose declared size is at least their size", "why_tests_cant": "sizes, nestings and the point where the budget runs out are unbounded; tests compare a few consumptions with recorded numbers", "anchors": ["soroban-env-host/src/host/metered_vector.rs", "soroban-env-host/src/host/metered_map.rs", "soroban-env-host/src/host/metered_clone.rs: charge_shallow_copy, charge_heap_alloc, MeteredClone", "soroban-env-host/src/host/comparison.rs: Compare<HostObject>, Compare<ScVal>, Compare<LedgerKey>, Compare<CreateContractArgsV2>", "soroban-env-host/src/host/declared_size.rs", "soroban-env-host/src/auth.rs: Compare<ContractFunction>", "soroban-env-host/src/host.rs: obj_cmp"]}
{"id": "C80", "title": "From the values of its events alone one can tell what the asset contract did, to which asset, and what everyone holds", "statement": "Every event of the asset contract carries the contract's id, a first topic naming what happened, the addresses concerned, the asset's name as the last topic and as data the amount (with the live-until ledger of an approval, with the id of a muxed receiver as a second field, or the new flag or administrator). Two events with equal values are the same event of the same asset and contract. After any sequence of calls, adding up for a holder the amounts of the transfer, mint, burn and clawback events that name it, as read from their raw topics and data, gives exactly the change of what it holds, unless it is the issuer or was changed outside the contract. Failed calls leave no event.", "quantifier": "every sequence of calls with 128-bit amounts, every asset, holder and state of the contract, every pair of events", "why_tests_cant": "histories and amounts are unbounded; unambiguity relates all pairs of events", "anchors": ["soroban-env-host/src/builtin_contracts/stellar_asset_contract/event.rs: approve, transfer_maybe_with_issuer, mint, clawback, set_authorized, set_admin, burn, get_amount_data_maybe_muxed", "soroban-env-host/src/events/mod.rs: record_contract_event", "soroban-env-host/src/builtin_contracts/stellar_asset_contract/metadata.rs: read_name"]}
{"id": "C81", "title": "Diagnostics cannot be noticed by a run, and tell its tree of calls", "statement": "Running and finishing an invocation gives the same result, the same contract events and the same metered budget - at every point where contract code or the host may look at it - whatever the diagnostic level, the limits of the shadow budget and what was recorded before. The contract events given out on success are the events emitted outside failed calls, in order. Without diagnostics enabled, no diagnostic events are given out. With them enabled, the list given out holds every contract event in order, marked if it is from a failed call, and besides only diagnostic events; if the shadow budget does not run out it is the whole story: for each call an fn_call event carrying the caller, then what the callee told, then an fn_return event with the returned value if it succeeded, all of it marked if it failed, and each log and error report with the contract that was running.", "quantifier": "every program of metered work, looks at the budget, events, logs, reports and calls, nested and reacting to results in any way; every budget, limit, point of exhaustion and pair of hosts differing only in diagnostics", "why_tests_cant": "the claim compares all pairs of runs; the point where either budget runs out is arbitrary", "anchors": ["soroban-env-host/src/events/internal.rs: InternalEventsBuffer", "soroban-env-host/src/events/diagnostic.rs", "soroban-env-host/src/host.rs: with_debug_mode", "soroban-env-host/src/budget.rs: with_shadow_mode", "soroban-env-host/src/host/frame.rs: push_context, pop_context, call_contract_fn", "soroban-env-host/src/e2e_invoke.rs: invoke_host_function, encode_contract_events, extract_diagnostic_events"]}
{"id": "C82", "title": "A recorded footprint lets every authorization be authenticated", "statement": "At the end of a run whose authorizations are recorded, the host reads what authentication would have read. This changes no entry, forgets nothing recorded, also for runs that failed, and fails only for addresses that are neither accounts nor contracts. In the enforcing run from the ledger restricted to the recorded footprint, which answers every storage call alike, an account that is authenticated at any point finds the entries that are read before its own code runs - the account, or the instance, the reference and the code - as the recorded run had them there: none of these reads is refused. This holds of classic accounts always, and of contract accounts if their executable, and what its reference stands for, are at the end of the recorded run what they are at that point. Not true without that: when the owner of a reference moves it after the authentication, the old code is missing from the recorded footprint and the enforcing run fails.", "quantifier": "every ledger, every run of storage calls and frames split at any point, every list of recorded authorizations, every number of signatures and everything done after the reads", "why_tests_cant": "the claim relates two runs in different modes, for every run and every ledger", "anchors": ["soroban-env-host/src/auth.rs: emulate_authentication, maybe_emulate_authentication, authenticate", "soroban-env-host/src/host/frame.rs: pop_context", "soroban-env-host/src/builtin_contracts/account_contract.rs: check_account_authentication, check_account_contract_auth", "soroban-env-host/src/storage.rs: try_get"]}
{"id": "C83", "title": "A simulation runs with the limits and prices its network has set", "statement": "Loading the network configuration from a ledger succeeds exactly when the ledger holds the ten settings it reads, with at least one recorded size of the state and an average that fits; it depends on nothing else in the ledger. With it, a transaction's resources are priced resource by resource as the settings say, rounded up; rent uses the settings' rates and the price for the average of the recorded sizes, which never falls when the state grows; new entries get the settings' lifetimes; and a run in which no charge fails consumes at most the instructions and memory the network allows a transaction, with the network's cost parameters, while diagnostics have ten times the instructions and twice the memory to themselves. Not true: that sizes whose average does not fit are refused (a sum over 64 bits is capped), and that a negative limit is refused (it becomes an enormous one).", "quantifier": "every ledger snapshot, including failing ones, all settings, all transactions' resources, all metered programs", "why_tests_cant": "settings, windows of sizes and programs are unbounded; tests load a few fixed configurations", "anchors": ["soroban-simulation/src/network_config.rs: load_from_snapshot, load_bucket_list_size_from_snapshot, fill_config_fields_in_ledger_info, create_budget", "soroban-env-host/src/budget.rs: try_from_configs_with_shadow_limits, set_shadow_limits", "soroban-env-host/src/fees.rs: compute_rent_write_fee_per_1kb, compute_transaction_resource_fee"]}
{"id": "C84", "title": "Extending a contract's lifetime covers everything the contract needs to run, and nothing else", "statement": "A request to extend a contract's lifetime is about the contract's instance, about its code, or both; the code is the Wasm it runs, or the reference entry another contract keeps for it together with the Wasm that the reference names. Whatever happens, other entries are untouched and no entry changes except to live longer. When the request succeeds, the address is a contract's, every entry it is about was there and live, and each lives on exactly as the request's threshold or bounds say. It succeeds for every contract whose entries are there, with arguments in range, read-only declarations being enough. After a request for both, at every ledger up to the promised one no entry of the contract is archived and a call finds its executable. Not true: that a successful request leaves every entry the whole `extend_to` (entries beyond the threshold are not touched).", "quantifier": "every contract, executable and reference, all entries and lifetimes, all arguments, enforced and recorded runs, every later ledger", "why_tests_cant": "entries, lifetimes, arguments and later ledgers are unbounded; tests extend a few fixed contracts", "anchors": ["soroban-env-host/src/host.rs: extend_current_contract_instance_and_code_ttl, extend_contract_instance_ttl, extend_contract_code_ttl, extend_contract_instance_and_code_ttl, extend_contract_instance_and_code_ttl_v2", "soroban-env-host/src/host/data_helper.rs: extend_contract_code_ttl_from_contract_id, extend_contract_instance_ttl_from_contract_id, extend_contract_code_ttl_v2, extend_contract_instance_ttl_v2, contract_id_from_address, retrieve_wasm_from_storage", "soroban-env-host/src/host/frame.rs: call_contract_fn, instantiate_vm"]}
{"id": "C85", "title": "Rust data converts to host values and back", "statement": "Unit, bool, the integer types up to 256 bits, timepoints, durations, byte strings of any or of fixed length, symbols, and Options, Results and tuples of them, nested at will, convert to a host value whenever the host has room for its objects, and the value is the one described: numbers keep their type and value whether they fit a word or need an object, None is void, Some and Ok add nothing, an error result is the error, a tuple is the vector of its parts. Reading a host value as a type succeeds exactly when the value has that shape, with tuples and fixed-length byte strings of exactly that length, and gives that data; everything else is refused. Data read back as its own type, at any later time, is the same data, and different data give different values, if no Option is around a type that can itself become void and no Result around a type that can itself become an error. Not true without that: Some(()) and Some(None) come back as None, and Ok(Err(e)) as Err(e); nothing else changes.", "quantifier": "every type and all data of it, every object table, everything added to the table in between", "why_tests_cant": "types nest without bound and numbers range over 256 bits", "anchors": ["soroban-env-common/src/convert.rs: TryFromVal, TryIntoVal", "soroban-env-common/src/option.rs", "soroban-env-common/src/result.rs", "soroban-env-common/src/tuple.rs: impl_for_tuple", "soroban-env-common/src/bytes.rs", "soroban-env-common/src/symbol.rs: TryFromVal", "soroban-env-common/src/val.rs: ValConvert", "soroban-env-host/src/host.rs: vec_new_from_slice, vec_unpack_to_slice"]}
{"id": "C86", "title": "Random choices are fair", "statement": "For a range of numbers, each number in it is drawn for exactly the same positive number of 64-bit generator outputs, and every other output is passed over as if it had not come. For a vector of distinct elements, each of its orders comes out of shuffling for exactly the same positive number of sequences of generator outputs. So no number and no order is favoured or impossible, whatever the range and the length.", "quantifier": "every range, every vector and every target order", "why_tests_cant": "counting outputs over 2^64 words and all orders of vectors of any length; a bias of one word in 2^64 is invisible to sampling", "anchors": ["soroban-env-host/src/host/prng.rs: u64_in_inclusive_range, vec_shuffle", "soroban-env-host/src/host.rs: prng_u64_in_inclusive_range, prng_vec_shuffle"]}
{"id": "C87", "title": "The itemised cost report accounts for all consumption", "statement": "After any run in which no metered charge failed, the record kept for each cost type holds exactly the number of iterations, the total input and the cpu and memory prices of the charges of that type, the number of charges is counted (each figure stopping at the largest value its field holds), and, for any cpu limit below the largest 64-bit value, the cpu figures of all types add up to the cpu consumed. Diagnostic work leaves no trace in the report.", "quantifier": "every configuration with a memory limit below the largest 64-bit value, and every program of charges, memory growth, nested calls, VM execution and diagnostic work", "why_tests_cant": "all programs and all cost types; a figure booked under the wrong type or dimension shows in no result", "anchors": ["soroban-env-host/src/budget.rs: BudgetImpl::charge, BudgetTracker, Budget::get_tracker", "soroban-env-host/src/budget/dimension.rs: charge"]}
