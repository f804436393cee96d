(* Contract types: the conversions between Rust data and host values that
   #[contracttype] and #[contractimpl] derive (soroban-builtin-sdk-macros/src/
   derive_type.rs, derive_fn.rs), the leaf conversions of
   builtin_contracts/base_types.rs, the types built with them, and what the
   authorization framework does with those: the contexts shown to account
   contracts (account_contract.rs:69-149) and the entries of
   authorize_as_curr_contract (invoker_contract_auth.rs).

   Values are the XDR values they denote (conversion between the two: C07).  The
   macros run on type declarations; here they run on a datatype of declarations.
   Not modelled: charging, Compare, and the macros' support for unnamed fields
   (format_ident!("{}", i) is not an identifier, derive_type.rs:27, so that no type
   can use it). *)
From Coq Require Import ZArith String Ascii List Bool.
From Verif Require Import Prelude ValModel HeapModel FrameModel XdrModel MultisigModel.
Import ListNotations.
Open Scope Z_scope.

Definition name := list Z.
(* the bytes of a string literal *)
Fixpoint lit (s : string) : name :=
  match s with
  | EmptyString => []
  | String c r => Z.of_N (N_of_ascii c) :: lit r
  end.
Arguments lit s%string_scope.

(* Type declarations: the leaves that occur, structs with named fields and enums
   whose cases carry at most one value, in the order of declaration. *)
Inductive ty :=
| YAddress | YMuxedAddress | YBytesN (n : nat) | YBytes | YString | YSymbol | YVec
| YBool | YU32 | YI128
| YStruct (fields : list (name * ty))
| YEnum (cases : list (name * option ty)).

(* Rust data.  A vec is an object handle in Rust: the values in it stay values. *)
Inductive dat :=
| DAddress (a : addr) | DBytes (b : list Z) | DString (b : list Z) | DSymbol (b : list Z)
| DVec (l : list scval) | DBool (b : bool) | DU32 (x : Z) | DI128 (x : Z)
| DStruct (fields : list (name * dat))
| DEnum (case : nat) (arg : option dat).

(* `x.ident` and `Self { ident: … }` go by name *)
Fixpoint field {A} (n : name) (l : list (name * A)) : option A :=
  match l with
  | [] => None
  | (m, x) :: r => if bytes_eqb n m then Some x else field n r
  end.

(* derive_type.rs:13, itertools sorted_by_key on the names: stable, byte order *)
Fixpoint insert {A} (x : name * A) (l : list (name * A)) : list (name * A) :=
  match l with
  | [] => [x]
  | y :: r => match bytes_cmp (fst x) (fst y) with Gt => y :: insert x r | _ => x :: l end
  end.
Definition by_name {A} (l : list (name * A)) : list (name * A) := fold_right insert [] l.

(* `?` on every element, in order *)
Fixpoint all_ok {A} (l : list (name * res A)) : res (list (name * A)) :=
  match l with
  | [] => Ok []
  | (n, r) :: t => let? x := r in let? xs := all_ok t in Ok ((n, x) :: xs)
  end.

(* env-common symbol.rs:107-137, host.rs:990-1009: Symbol::try_from_val of a string *)
Definition new_symbol (n : name) : res scval :=
  if symbol_bytes_ok n then Ok (SSymbol n) else Err e_val_invalid.
Fixpoint new_keys (l : list (name * scval)) : res (list (scval * scval)) :=
  match l with
  | [] => Ok []
  | (n, v) :: t => let? k := new_symbol n in let? r := new_keys t in Ok ((k, v) :: r)
  end.
(* metered_map.rs:117-138 (keys compared as values: C08) *)
Fixpoint ascending (l : list (name * scval)) : bool :=
  match l with
  | a :: (b :: _) as r => match bytes_cmp (fst a) (fst b) with Lt => ascending r | _ => false end
  | _ => true
  end.
(* data_helper.rs:745-794 with `sparse` false *)
Definition map_new_from_slices (l : list (name * scval)) : res scval :=
  let? m := new_keys l in
  if ascending l then Ok (SMap (Some m)) else Err (ESys TObject CInvalidInput).

(* host.rs:1084-1103: the first of the strings that is the symbol *)
Fixpoint index_from (i : nat) (s : name) (l : list name) : option nat :=
  match l with
  | [] => None
  | x :: r => if bytes_eqb s x then Some i else index_from (Datatypes.S i) s r
  end.
Definition symbol_index_in_strs (s : name) (l : list name) : res nat :=
  match index_from 0 s l with Some i => Ok i | None => Err (ESys TValue CInvalidInput) end.

(* vec_get, host.rs; past the end *)
Definition e_vec_get : err := ESys TObject CIndexBounds.

Definition is_muxed (a : addr) : bool := match a with AMuxed _ _ => true | _ => false end.

(* Rust to host.  Leaves: base_types.rs:47-53, 136-142, 221-227, 354-360, 466-477,
   env-common convert.rs:230-236; structs: derive_type.rs:71-83; enums: 98-131,
   195-204 with env-common tuple.rs:22-35. *)
Fixpoint to_val (t : ty) (d : dat) : res scval :=
  match t, d with
  | YAddress, DAddress a | YMuxedAddress, DAddress a => Ok (SAddress a)
  | YBytesN _, DBytes b | YBytes, DBytes b => Ok (SBytes b)
  | YString, DString b => Ok (SString b)
  | YSymbol, DSymbol b => Ok (SSymbol b)
  | YVec, DVec l => Ok (SVec (Some l))
  | YBool, DBool b => Ok (SBool b)
  | YU32, DU32 x => Ok (SU32 x)
  | YI128, DI128 x => Ok (SI128 (i128_hi x) (i128_lo x))
  | YStruct fs, DStruct l =>
      let? vs := all_ok (by_name (map (fun f => (fst f,
                   match field (fst f) l with
                   | Some x => to_val (snd f) x
                   | None => Err e_convert       (* not a datum of the type *)
                   end)) fs)) in
      map_new_from_slices vs
  | YEnum cs, DEnum i x =>
      match nth_error (map (fun c => (fst c, match snd c with
                                             | Some t' => Some (to_val t')
                                             | None => None
                                             end)) cs) i with
      | Some (n, None) =>
          let? s := new_symbol n in
          match x with None => Ok (SVec (Some [s])) | Some _ => Err e_convert end
      | Some (n, Some f) =>
          let? s := new_symbol n in
          match x with
          | Some y => let? v := f y in Ok (SVec (Some [s; v]))
          | None => Err e_convert
          end
      | None => Err e_convert
      end
  | _, _ => Err e_convert       (* not a datum of the type *)
  end.

(* `T::try_from_val` for each of the values of a struct, in the order of the names *)
Fixpoint read_fields (rd : list (name * (scval -> res dat))) (vs : list scval)
  : res (list (name * dat)) :=
  match rd, vs with
  | (n, f) :: r, v :: t => let? x := f v in let? l := read_fields r t in Ok ((n, x) :: l)
  | _, _ => Ok []
  end.
(* `Self { … }` *)
Fixpoint build (names : list name) (l : list (name * dat)) : res (list (name * dat)) :=
  match names with
  | [] => Ok []
  | n :: r =>
      match field n l with
      | Some x => let? t := build r l in Ok ((n, x) :: t)
      | None => Err e_convert            (* no such program *)
      end
  end.

(* Host to Rust.  Leaves: base_types.rs:26-45, 96-134, 199-219, 324-343, 412-447,
   env-common convert.rs:214-228; structs: derive_type.rs:47-70 (field names are
   distinct in Rust, so the check of data_helper.rs:894-907 that they ascend passes);
   enums: 105-131, 171-193. *)
Fixpoint from_val (t : ty) (v : scval) : res dat :=
  match t with
  | YAddress =>
      match v with
      | SAddress a => if is_muxed a then Err e_convert else Ok (DAddress a)
      | _ => Err e_convert
      end
  | YMuxedAddress => match v with SAddress a => Ok (DAddress a) | _ => Err e_convert end
  | YBytesN n => rmap DBytes (bytes_n n v)
  | YBytes => match v with SBytes b => Ok (DBytes b) | _ => Err e_convert end
  | YString => match v with SString b => Ok (DString b) | _ => Err e_convert end
  | YSymbol => match v with SSymbol b => Ok (DSymbol b) | _ => Err e_convert end
  | YVec => match v with SVec (Some l) => Ok (DVec l) | _ => Err e_convert end
  | YBool => match v with SBool b => Ok (DBool b) | _ => Err e_convert end
  | YU32 => match v with SU32 x => Ok (DU32 x) | _ => Err e_convert end
  | YI128 =>
      match v with SI128 hi lo => Ok (DI128 (i128_from_pieces hi lo)) | _ => Err e_convert end
  | YStruct fs =>
      match v with
      | SMap (Some m) =>
          let rd := by_name (map (fun f => (fst f, from_val (snd f))) fs) in
          let? vs := unpack_dense (map fst rd) m in
          let? xs := read_fields rd vs in
          let? l := build (map fst fs) xs in
          Ok (DStruct l)
      | _ => Err e_convert
      end
  | YEnum cs =>
      match v with
      | SVec (Some []) => Err e_vec_get
      | SVec (Some (SSymbol s :: r)) =>
          let? i := symbol_index_in_strs s (map fst cs) in
          match nth_error (map (fun c => match snd c with
                                         | Some t' => Some (from_val t')
                                         | None => None
                                         end) cs) i with
          | Some None => Ok (DEnum i None)
          | Some (Some f) =>
              match r with
              | [] => Err e_vec_get
              | x :: _ => let? d := f x in Ok (DEnum i (Some d))
              end
          | None => Err e_convert
          end
      | _ => Err e_convert
      end
  end.

(* derive_fn.rs:20-62: the function called and its arguments, or the error.  The
   arm for an index out of range is not reachable. *)
Fixpoint read_args (ts : list ty) (args : list scval) : res (list dat) :=
  match ts, args with
  | t :: ts', v :: r => let? x := from_val t v in let? l := read_args ts' r in Ok (x :: l)
  | _, _ => Ok []
  end.
Definition dispatch (fns : list (name * list ty)) (f : name) (args : list scval)
  : res (nat * list dat) :=
  let? i := symbol_index_in_strs f (map fst fns) in
  match nth_error fns i with
  | Some (_, ts) =>
      if Nat.eqb (length args) (length ts)
      then let? l := read_args ts args in Ok (i, l)
      else Err (ESys TContext CUnexpectedSize)
  | None => Err (ESys TContext CMissingValue)
  end.

(* stellar_asset_contract/contract.rs:78-413, without the host *)
Definition sac_fns : list (name * list ty) := [
  (lit "init_asset", [YBytes]);
  (lit "allowance", [YAddress; YAddress]);
  (lit "approve", [YAddress; YAddress; YI128; YU32]);
  (lit "balance", [YAddress]);
  (lit "authorized", [YAddress]);
  (lit "transfer", [YAddress; YMuxedAddress; YI128]);
  (lit "transfer_from", [YAddress; YAddress; YAddress; YI128]);
  (lit "burn", [YAddress; YI128]);
  (lit "burn_from", [YAddress; YAddress; YI128]);
  (lit "clawback", [YAddress; YI128]);
  (lit "set_authorized", [YAddress; YBool]);
  (lit "mint", [YAddress; YI128]);
  (lit "set_admin", [YAddress]);
  (lit "admin", []);
  (lit "decimals", []);
  (lit "name", []);
  (lit "symbol", []);
  (lit "trust", [YAddress])].

(* stellar_asset_contract/storage_types.rs:11-42 *)
Definition t_allowance_key : ty := YStruct [(lit "from", YAddress); (lit "spender", YAddress)].
Definition t_allowance : ty := YStruct [(lit "amount", YI128); (lit "live_until_ledger", YU32)].
Definition t_balance : ty :=
  YStruct [(lit "amount", YI128); (lit "authorized", YBool); (lit "clawback", YBool)].
Definition t_data_key : ty :=
  YEnum [(lit "Allowance", Some t_allowance_key); (lit "Balance", Some YAddress)].
Definition t_instance_key : ty := YEnum [(lit "Admin", None); (lit "AssetInfo", None)].
(* public_types.rs:9-28 *)
Definition t_alpha4 : ty := YStruct [(lit "asset_code", YString); (lit "issuer", YBytesN 32)].
Definition t_alpha12 : ty := YStruct [(lit "asset_code", YString); (lit "issuer", YBytesN 32)].
Definition t_asset_info : ty :=
  YEnum [(lit "Native", None); (lit "AlphaNum4", Some t_alpha4); (lit "AlphaNum12", Some t_alpha12)].
(* metadata.rs:14-20 *)
Definition t_metadata : ty :=
  YStruct [(lit "decimal", YU32); (lit "name", YString); (lit "symbol", YString)].

(* common_types.rs:7-12, 39-45, 75-80 *)
Definition t_executable_ref : ty := YStruct [(lit "owner", YAddress); (lit "tag", YString)].
Definition t_executable : ty :=
  YEnum [(lit "Wasm", Some (YBytesN 32)); (lit "StellarAsset", None);
         (lit "ExternalRef", Some t_executable_ref)].
Definition t_address_executable : ty :=
  YEnum [(lit "Wasm", Some (YBytesN 32)); (lit "StellarAsset", None); (lit "Account", None)].

(* account_contract.rs:31-67 *)
Definition t_contract_ctx : ty :=
  YStruct [(lit "contract", YAddress); (lit "fn_name", YSymbol); (lit "args", YVec)].
Definition t_create_ctx : ty := YStruct [(lit "executable", t_executable); (lit "salt", YBytesN 32)].
Definition t_create_ctor_ctx : ty :=
  YStruct [(lit "executable", t_executable); (lit "salt", YBytesN 32); (lit "constructor_args", YVec)].
Definition t_context : ty :=
  YEnum [(lit "Contract", Some t_contract_ctx); (lit "CreateContractHostFn", Some t_create_ctx);
         (lit "CreateContractWithCtorHostFn", Some t_create_ctor_ctx)].
Definition t_signature : ty := YStruct [(lit "public_key", YBytesN 32); (lit "signature", YBytesN 64)].

(* invoker_contract_auth.rs:22-38 *)
Definition t_sub_invocation : ty :=
  YStruct [(lit "context", t_contract_ctx); (lit "sub_invocations", YVec)].
Definition t_invoker_entry : ty :=
  YEnum [(lit "Contract", Some t_sub_invocation); (lit "CreateContractHostFn", Some t_create_ctx);
         (lit "CreateContractWithCtorHostFn", Some t_create_ctor_ctx)].

(* ------------------------------------------------ keys of the asset contract *)

(* allowance.rs, balance.rs: DataKey; admin.rs, asset_info.rs, metadata.rs *)
Definition allowance_key (from spender : addr) : res scval :=
  to_val t_data_key
    (DEnum 0 (Some (DStruct [(lit "from", DAddress from); (lit "spender", DAddress spender)]))).
Definition balance_key (a : addr) : res scval := to_val t_data_key (DEnum 1 (Some (DAddress a))).
Definition admin_key : res scval := to_val t_instance_key (DEnum 0 None).
Definition asset_info_key : res scval := to_val t_instance_key (DEnum 1 None).
Definition metadata_key : res scval := new_symbol (lit "METADATA").

(* ------------------------------------------------------------- executables *)

(* common_types.rs:14-23, 47-60 *)
Definition executable_dat (e : executable) : dat :=
  match e with
  | ExWasm h => DEnum 0 (Some (DBytes h))
  | ExStellarAsset => DEnum 1 None
  | ExExternalRef o t =>
      DEnum 2 (Some (DStruct [(lit "owner", DAddress o); (lit "tag", DString t)]))
  end.
(* common_types.rs:25-36, 62-72 *)
Definition dat_executable (d : dat) : res executable :=
  match d with
  | DEnum 0 (Some (DBytes h)) => Ok (ExWasm h)
  | DEnum 1 None => Ok ExStellarAsset
  | DEnum 2 (Some (DStruct l)) =>
      match field (lit "owner") l, field (lit "tag") l with
      | Some (DAddress o), Some (DString t) => Ok (ExExternalRef o t)
      | _, _ => Err e_convert
      end
  | _ => Err e_convert
  end.

Section Executable.
  (* storage: is there such an account; the executable of a contract; the wasm an
     external reference resolves to (host/data_helper.rs, FrameModel) *)
  Variable has_account : list Z -> res bool.
  Variable instance : list Z -> res (option executable).
  Variable resolve : addr -> list Z -> res (list Z).
  (* common_types.rs:82-101 *)
  Definition address_executable_dat (e : executable) : res dat :=
    match e with
    | ExWasm h => Ok (DEnum 0 (Some (DBytes h)))
    | ExStellarAsset => Ok (DEnum 1 None)
    | ExExternalRef o t => let? h := resolve o t in Ok (DEnum 0 (Some (DBytes h)))
    end.
  (* host.rs:3685-3730 *)
  Definition get_address_executable (a : addr) : res scval :=
    let? o := match a with
              | AAccount k =>
                  let? b := has_account k in
                  Ok (if b then Some (DEnum 2 None) else None)
              | AContract id =>
                  let? e := instance id in
                  match e with
                  | Some e => let? d := address_executable_dat e in Ok (Some d)
                  | None => Ok None
                  end
              | _ => Err (ESys TObject CInternalError)
              end in
    match o with
    | Some d => to_val t_address_executable d
    | None => Ok SVoid
    end.
End Executable.

(* -------------------------------------------------- contexts of __check_auth *)

(* account_contract.rs:69-122, from_authorized_fn *)
Definition context_dat (f : hfn) : res dat :=
  match f with
  | HContractFn a n args =>
      Ok (DEnum 0 (Some (DStruct [(lit "contract", DAddress a); (lit "fn_name", DSymbol n);
                                  (lit "args", DVec args)])))
  | HCreate pre ex args =>
      let? e := match ex with
                | ExStellarAsset => Err (ESys TAuth CInvalidInput)
                | _ => Ok (executable_dat ex)
                end in
      let? salt := match pre with
                   | PreAddress _ salt => Ok salt
                   | PreAsset _ => Err (ESys TAuth CInvalidInput)
                   end in
      match args with
      | [] => Ok (DEnum 1 (Some (DStruct [(lit "executable", e); (lit "salt", DBytes salt)])))
      | _ => Ok (DEnum 2 (Some (DStruct [(lit "executable", e); (lit "salt", DBytes salt);
                                         (lit "constructor_args", DVec args)])))
      end
  end.
(* account_contract.rs:125-139: each node before its children *)
Fixpoint push_contexts (i : hinv) (out : list scval) : res (list scval) :=
  let 'HInv f _ subs := i in
  let? d := context_dat f in
  let? v := to_val t_context d in
  (fix go (l : list hinv) (out : list scval) : res (list scval) :=
     match l with
     | [] => Ok out
     | x :: r => let? out1 := push_contexts x out in go r out1
     end) subs (out ++ [v]).
(* account_contract.rs:141-149 *)
Definition auth_context_val (i : hinv) : res scval :=
  let? l := push_contexts i [] in Ok (SVec (Some l)).

(* ------------------------------------------- authorize_as_curr_contract *)

(* `x.ident` *)
Definition get (d : dat) (n : name) : res dat :=
  match d with
  | DStruct l => match field n l with Some x => Ok x | None => Err e_convert end
  | _ => Err e_convert
  end.
Definition get_vec (d : dat) : res (list scval) :=
  match d with DVec l => Ok l | _ => Err e_convert end.
Definition get_bytes (d : dat) : res (list Z) :=
  match d with DBytes b => Ok b | _ => Err e_convert end.
Definition get_address (d : dat) : res addr :=
  match d with DAddress a => Ok a | _ => Err e_convert end.
Definition get_symbol (d : dat) : res name :=
  match d with DSymbol b => Ok b | _ => Err e_convert end.

(* invoker_contract_auth.rs:118-131 *)
Definition validate_executable (e : dat) : res unit :=
  match e with DEnum 1 None => Err (ESys TAuth CInvalidInput) | _ => Ok tt end.

(* invoker_contract_auth.rs:76-93, 95-114 *)
Definition create_invocation (by_ : addr) (d : dat) (args : list scval) : res hinv :=
  let? ed := get d (lit "executable") in
  let? _ := validate_executable ed in
  let? ex := dat_executable ed in
  let? sd := get d (lit "salt") in
  let? salt := get_bytes sd in
  Ok (HInv (HCreate (PreAddress by_ salt) ex args) false []).

(* invoker_contract_auth.rs:43-115; n is what is left of the depth limit *)
Fixpoint to_authorized_invocation (n : nat) (by_ : addr) (e : dat) : res hinv :=
  match n with
  | O => Err e_depth
  | Datatypes.S n' =>
      match e with
      | DEnum 0 (Some d) =>
          let? ctx := get d (lit "context") in
          let? cd := get ctx (lit "contract") in
          let? c := get_address cd in
          let? fd := get ctx (lit "fn_name") in
          let? f := get_symbol fd in
          let? ad := get ctx (lit "args") in
          let? args := get_vec ad in
          let? sd := get d (lit "sub_invocations") in
          let? vs := get_vec sd in
          let? subs := (fix go (l : list scval) : res (list hinv) :=
                          match l with
                          | [] => Ok []
                          | v :: r =>
                              let? e' := from_val t_invoker_entry v in
                              let? i := to_authorized_invocation n' by_ e' in
                              let? is_ := go r in
                              Ok (i :: is_)
                          end) vs in
          Ok (HInv (HContractFn c f args) false subs)
      | DEnum 1 (Some d) => create_invocation by_ d []
      | DEnum 2 (Some d) =>
          let? ad := get d (lit "constructor_args") in
          let? args := get_vec ad in
          create_invocation by_ d args
      | _ => Err e_convert
      end
  end.
(* invoker_contract_auth.rs:134-141 *)
Definition invoker_entry (n : nat) (by_ : addr) (v : scval) : res hinv :=
  let? e := from_val t_invoker_entry v in to_authorized_invocation n by_ e.
