(* The table of host functions, as generated by the macros of vm/func_info.rs:10-150
   from soroban-env-common/env.json: one row per function, in the order of that file,
   with the module and function names modules import it by, its arity and the first and
   last protocol that have it.  The functions are numbered in this order. *)
From Coq Require Import ZArith List.
Import ListNotations.
Open Scope Z_scope.

Record hostfn := { hf_mod : list Z; hf_fn : list Z; hf_arity : nat; hf_min : option Z; hf_max : option Z }.
Definition hf (m f : list Z) (a : nat) (mn mx : option Z) : hostfn :=
  {| hf_mod := m; hf_fn := f; hf_arity := a; hf_min := mn; hf_max := mx |}.

Definition host_functions : list hostfn := [
  hf [120] [95] 4 None None;  (* context.log_from_linear_memory *)
  hf [120] [48] 2 None None;  (* context.obj_cmp *)
  hf [120] [49] 2 None None;  (* context.contract_event *)
  hf [120] [50] 0 None None;  (* context.get_ledger_version *)
  hf [120] [51] 0 None None;  (* context.get_ledger_sequence *)
  hf [120] [52] 0 None None;  (* context.get_ledger_timestamp *)
  hf [120] [53] 1 None None;  (* context.fail_with_error *)
  hf [120] [54] 0 None None;  (* context.get_ledger_network_id *)
  hf [120] [55] 0 None None;  (* context.get_current_contract_address *)
  hf [120] [56] 0 None None;  (* context.get_max_live_until_ledger *)
  hf [105] [95] 1 None None;  (* int.obj_from_u64 *)
  hf [105] [48] 1 None None;  (* int.obj_to_u64 *)
  hf [105] [49] 1 None None;  (* int.obj_from_i64 *)
  hf [105] [50] 1 None None;  (* int.obj_to_i64 *)
  hf [105] [51] 2 None None;  (* int.obj_from_u128_pieces *)
  hf [105] [52] 1 None None;  (* int.obj_to_u128_lo64 *)
  hf [105] [53] 1 None None;  (* int.obj_to_u128_hi64 *)
  hf [105] [54] 2 None None;  (* int.obj_from_i128_pieces *)
  hf [105] [55] 1 None None;  (* int.obj_to_i128_lo64 *)
  hf [105] [56] 1 None None;  (* int.obj_to_i128_hi64 *)
  hf [105] [57] 4 None None;  (* int.obj_from_u256_pieces *)
  hf [105] [97] 1 None None;  (* int.u256_val_from_be_bytes *)
  hf [105] [98] 1 None None;  (* int.u256_val_to_be_bytes *)
  hf [105] [99] 1 None None;  (* int.obj_to_u256_hi_hi *)
  hf [105] [100] 1 None None;  (* int.obj_to_u256_hi_lo *)
  hf [105] [101] 1 None None;  (* int.obj_to_u256_lo_hi *)
  hf [105] [102] 1 None None;  (* int.obj_to_u256_lo_lo *)
  hf [105] [103] 4 None None;  (* int.obj_from_i256_pieces *)
  hf [105] [104] 1 None None;  (* int.i256_val_from_be_bytes *)
  hf [105] [105] 1 None None;  (* int.i256_val_to_be_bytes *)
  hf [105] [106] 1 None None;  (* int.obj_to_i256_hi_hi *)
  hf [105] [107] 1 None None;  (* int.obj_to_i256_hi_lo *)
  hf [105] [108] 1 None None;  (* int.obj_to_i256_lo_hi *)
  hf [105] [109] 1 None None;  (* int.obj_to_i256_lo_lo *)
  hf [105] [110] 2 None None;  (* int.u256_add *)
  hf [105] [111] 2 None None;  (* int.u256_sub *)
  hf [105] [112] 2 None None;  (* int.u256_mul *)
  hf [105] [113] 2 None None;  (* int.u256_div *)
  hf [105] [114] 2 None None;  (* int.u256_rem_euclid *)
  hf [105] [115] 2 None None;  (* int.u256_pow *)
  hf [105] [116] 2 None None;  (* int.u256_shl *)
  hf [105] [117] 2 None None;  (* int.u256_shr *)
  hf [105] [118] 2 None None;  (* int.i256_add *)
  hf [105] [119] 2 None None;  (* int.i256_sub *)
  hf [105] [120] 2 None None;  (* int.i256_mul *)
  hf [105] [121] 2 None None;  (* int.i256_div *)
  hf [105] [122] 2 None None;  (* int.i256_rem_euclid *)
  hf [105] [65] 2 None None;  (* int.i256_pow *)
  hf [105] [66] 2 None None;  (* int.i256_shl *)
  hf [105] [67] 2 None None;  (* int.i256_shr *)
  hf [105] [68] 1 None None;  (* int.timepoint_obj_from_u64 *)
  hf [105] [69] 1 None None;  (* int.timepoint_obj_to_u64 *)
  hf [105] [70] 1 None None;  (* int.duration_obj_from_u64 *)
  hf [105] [71] 1 None None;  (* int.duration_obj_to_u64 *)
  hf [105] [72] 2 (Some 26) None;  (* int.u256_checked_add *)
  hf [105] [73] 2 (Some 26) None;  (* int.u256_checked_sub *)
  hf [105] [74] 2 (Some 26) None;  (* int.u256_checked_mul *)
  hf [105] [75] 2 (Some 26) None;  (* int.u256_checked_pow *)
  hf [105] [76] 2 (Some 26) None;  (* int.i256_checked_add *)
  hf [105] [77] 2 (Some 26) None;  (* int.i256_checked_sub *)
  hf [105] [78] 2 (Some 26) None;  (* int.i256_checked_mul *)
  hf [105] [79] 2 (Some 26) None;  (* int.i256_checked_pow *)
  hf [109] [95] 0 None None;  (* map.map_new *)
  hf [109] [48] 3 None None;  (* map.map_put *)
  hf [109] [49] 2 None None;  (* map.map_get *)
  hf [109] [50] 2 None None;  (* map.map_del *)
  hf [109] [51] 1 None None;  (* map.map_len *)
  hf [109] [52] 2 None None;  (* map.map_has *)
  hf [109] [53] 2 None None;  (* map.map_key_by_pos *)
  hf [109] [54] 2 None None;  (* map.map_val_by_pos *)
  hf [109] [55] 1 None None;  (* map.map_keys *)
  hf [109] [56] 1 None None;  (* map.map_values *)
  hf [109] [57] 3 None None;  (* map.map_new_from_linear_memory *)
  hf [109] [97] 4 None None;  (* map.map_unpack_to_linear_memory *)
  hf [109] [98] 3 (Some 28) None;  (* map.sparse_map_new_from_linear_memory *)
  hf [109] [99] 4 (Some 28) None;  (* map.sparse_map_unpack_to_linear_memory *)
  hf [118] [95] 0 None None;  (* vec.vec_new *)
  hf [118] [48] 3 None None;  (* vec.vec_put *)
  hf [118] [49] 2 None None;  (* vec.vec_get *)
  hf [118] [50] 2 None None;  (* vec.vec_del *)
  hf [118] [51] 1 None None;  (* vec.vec_len *)
  hf [118] [52] 2 None None;  (* vec.vec_push_front *)
  hf [118] [53] 1 None None;  (* vec.vec_pop_front *)
  hf [118] [54] 2 None None;  (* vec.vec_push_back *)
  hf [118] [55] 1 None None;  (* vec.vec_pop_back *)
  hf [118] [56] 1 None None;  (* vec.vec_front *)
  hf [118] [57] 1 None None;  (* vec.vec_back *)
  hf [118] [97] 3 None None;  (* vec.vec_insert *)
  hf [118] [98] 2 None None;  (* vec.vec_append *)
  hf [118] [99] 3 None None;  (* vec.vec_slice *)
  hf [118] [100] 2 None None;  (* vec.vec_first_index_of *)
  hf [118] [101] 2 None None;  (* vec.vec_last_index_of *)
  hf [118] [102] 2 None None;  (* vec.vec_binary_search *)
  hf [118] [103] 2 None None;  (* vec.vec_new_from_linear_memory *)
  hf [118] [104] 3 None None;  (* vec.vec_unpack_to_linear_memory *)
  hf [108] [95] 3 None None;  (* ledger.put_contract_data *)
  hf [108] [48] 2 None None;  (* ledger.has_contract_data *)
  hf [108] [49] 2 None None;  (* ledger.get_contract_data *)
  hf [108] [50] 2 None None;  (* ledger.del_contract_data *)
  hf [108] [51] 3 None None;  (* ledger.create_contract *)
  hf [108] [52] 1 None None;  (* ledger.create_asset_contract *)
  hf [108] [53] 1 None None;  (* ledger.upload_wasm *)
  hf [108] [54] 1 None None;  (* ledger.update_current_contract_wasm *)
  hf [108] [55] 4 None None;  (* ledger.extend_contract_data_ttl *)
  hf [108] [56] 2 None None;  (* ledger.extend_current_contract_instance_and_code_ttl *)
  hf [108] [57] 3 None None;  (* ledger.extend_contract_instance_and_code_ttl *)
  hf [108] [97] 2 None None;  (* ledger.get_contract_id *)
  hf [108] [98] 1 None None;  (* ledger.get_asset_contract_id *)
  hf [108] [99] 3 (Some 21) None;  (* ledger.extend_contract_instance_ttl *)
  hf [108] [100] 3 (Some 21) None;  (* ledger.extend_contract_code_ttl *)
  hf [108] [101] 4 (Some 22) None;  (* ledger.create_contract_with_constructor *)
  hf [108] [102] 5 (Some 26) None;  (* ledger.extend_contract_data_ttl_v2 *)
  hf [108] [103] 5 (Some 26) None;  (* ledger.extend_contract_instance_and_code_ttl_v2 *)
  hf [108] [104] 1 (Some 28) None;  (* ledger.create_executable_tag *)
  hf [108] [105] 5 (Some 28) None;  (* ledger.create_external_ref_contract *)
  hf [108] [106] 2 (Some 28) None;  (* ledger.update_current_contract_executable_ref *)
  hf [100] [95] 3 None None;  (* call.call *)
  hf [100] [48] 3 None None;  (* call.try_call *)
  hf [98] [95] 1 None None;  (* buf.serialize_to_bytes *)
  hf [98] [48] 1 None None;  (* buf.deserialize_from_bytes *)
  hf [98] [49] 4 None None;  (* buf.bytes_copy_to_linear_memory *)
  hf [98] [50] 4 None None;  (* buf.bytes_copy_from_linear_memory *)
  hf [98] [51] 2 None None;  (* buf.bytes_new_from_linear_memory *)
  hf [98] [52] 0 None None;  (* buf.bytes_new *)
  hf [98] [53] 3 None None;  (* buf.bytes_put *)
  hf [98] [54] 2 None None;  (* buf.bytes_get *)
  hf [98] [55] 2 None None;  (* buf.bytes_del *)
  hf [98] [56] 1 None None;  (* buf.bytes_len *)
  hf [98] [57] 2 None None;  (* buf.bytes_push *)
  hf [98] [97] 1 None None;  (* buf.bytes_pop *)
  hf [98] [98] 1 None None;  (* buf.bytes_front *)
  hf [98] [99] 1 None None;  (* buf.bytes_back *)
  hf [98] [100] 3 None None;  (* buf.bytes_insert *)
  hf [98] [101] 2 None None;  (* buf.bytes_append *)
  hf [98] [102] 3 None None;  (* buf.bytes_slice *)
  hf [98] [103] 4 None None;  (* buf.string_copy_to_linear_memory *)
  hf [98] [104] 4 None None;  (* buf.symbol_copy_to_linear_memory *)
  hf [98] [105] 2 None None;  (* buf.string_new_from_linear_memory *)
  hf [98] [106] 2 None None;  (* buf.symbol_new_from_linear_memory *)
  hf [98] [107] 1 None None;  (* buf.string_len *)
  hf [98] [108] 1 None None;  (* buf.symbol_len *)
  hf [98] [109] 3 None None;  (* buf.symbol_index_in_linear_memory *)
  hf [98] [110] 1 (Some 23) None;  (* buf.string_to_bytes *)
  hf [98] [111] 1 (Some 23) None;  (* buf.bytes_to_string *)
  hf [99] [95] 1 None None;  (* crypto.compute_hash_sha256 *)
  hf [99] [48] 3 None None;  (* crypto.verify_sig_ed25519 *)
  hf [99] [49] 1 None None;  (* crypto.compute_hash_keccak256 *)
  hf [99] [50] 3 None None;  (* crypto.recover_key_ecdsa_secp256k1 *)
  hf [99] [51] 3 (Some 21) None;  (* crypto.verify_sig_ecdsa_secp256r1 *)
  hf [99] [52] 1 (Some 22) None;  (* crypto.bls12_381_check_g1_is_in_subgroup *)
  hf [99] [53] 2 (Some 22) None;  (* crypto.bls12_381_g1_add *)
  hf [99] [54] 2 (Some 22) None;  (* crypto.bls12_381_g1_mul *)
  hf [99] [55] 2 (Some 22) None;  (* crypto.bls12_381_g1_msm *)
  hf [99] [56] 1 (Some 22) None;  (* crypto.bls12_381_map_fp_to_g1 *)
  hf [99] [57] 2 (Some 22) None;  (* crypto.bls12_381_hash_to_g1 *)
  hf [99] [97] 1 (Some 22) None;  (* crypto.bls12_381_check_g2_is_in_subgroup *)
  hf [99] [98] 2 (Some 22) None;  (* crypto.bls12_381_g2_add *)
  hf [99] [99] 2 (Some 22) None;  (* crypto.bls12_381_g2_mul *)
  hf [99] [100] 2 (Some 22) None;  (* crypto.bls12_381_g2_msm *)
  hf [99] [101] 1 (Some 22) None;  (* crypto.bls12_381_map_fp2_to_g2 *)
  hf [99] [102] 2 (Some 22) None;  (* crypto.bls12_381_hash_to_g2 *)
  hf [99] [103] 2 (Some 22) None;  (* crypto.bls12_381_multi_pairing_check *)
  hf [99] [104] 2 (Some 22) None;  (* crypto.bls12_381_fr_add *)
  hf [99] [105] 2 (Some 22) None;  (* crypto.bls12_381_fr_sub *)
  hf [99] [106] 2 (Some 22) None;  (* crypto.bls12_381_fr_mul *)
  hf [99] [107] 2 (Some 22) None;  (* crypto.bls12_381_fr_pow *)
  hf [99] [108] 1 (Some 22) None;  (* crypto.bls12_381_fr_inv *)
  hf [99] [109] 2 (Some 25) None;  (* crypto.bn254_g1_add *)
  hf [99] [110] 2 (Some 25) None;  (* crypto.bn254_g1_mul *)
  hf [99] [111] 2 (Some 25) None;  (* crypto.bn254_multi_pairing_check *)
  hf [99] [112] 8 (Some 25) None;  (* crypto.poseidon_permutation *)
  hf [99] [113] 8 (Some 25) None;  (* crypto.poseidon2_permutation *)
  hf [99] [114] 2 (Some 26) None;  (* crypto.bn254_g1_msm *)
  hf [99] [115] 2 (Some 26) None;  (* crypto.bn254_fr_add *)
  hf [99] [116] 2 (Some 26) None;  (* crypto.bn254_fr_sub *)
  hf [99] [117] 2 (Some 26) None;  (* crypto.bn254_fr_mul *)
  hf [99] [118] 2 (Some 26) None;  (* crypto.bn254_fr_pow *)
  hf [99] [119] 1 (Some 26) None;  (* crypto.bn254_fr_inv *)
  hf [99] [120] 1 (Some 26) None;  (* crypto.bls12_381_g1_is_on_curve *)
  hf [99] [121] 1 (Some 26) None;  (* crypto.bls12_381_g2_is_on_curve *)
  hf [99] [122] 1 (Some 26) None;  (* crypto.bn254_g1_is_on_curve *)
  hf [97] [95] 2 None None;  (* address.require_auth_for_args *)
  hf [97] [48] 1 None None;  (* address.require_auth *)
  hf [97] [49] 1 None None;  (* address.strkey_to_address *)
  hf [97] [50] 1 None None;  (* address.address_to_strkey *)
  hf [97] [51] 1 None None;  (* address.authorize_as_curr_contract *)
  hf [97] [52] 1 (Some 23) None;  (* address.get_address_from_muxed_address *)
  hf [97] [53] 1 (Some 23) None;  (* address.get_id_from_muxed_address *)
  hf [97] [54] 1 (Some 23) None;  (* address.get_address_executable *)
  hf [97] [55] 1 (Some 26) None;  (* address.strkey_to_muxed_address *)
  hf [97] [56] 1 (Some 26) None;  (* address.muxed_address_to_strkey *)
  hf [97] [57] 0 (Some 27) None;  (* address.get_delegated_signers_for_current_auth_check *)
  hf [97] [97] 1 (Some 27) None;  (* address.delegate_account_auth *)
  hf [116] [95] 0 None None;  (* test.dummy0 *)
  hf [116] [48] 0 (Some 19) (Some 19);  (* test.protocol_gated_dummy *)
  hf [112] [95] 1 None None;  (* prng.prng_reseed *)
  hf [112] [48] 1 None None;  (* prng.prng_bytes_new *)
  hf [112] [49] 2 None None;  (* prng.prng_u64_in_inclusive_range *)
  hf [112] [50] 1 None None  (* prng.prng_vec_shuffle *)
].
