(* What the values of contract types look like: an account that knows about
   declarations, data and values, and nothing about how they are converted. *)
From Coq Require Import ZArith String List Bool Sorting.Sorted Sorting.Permutation.
From Verif Require Import Prelude ValModel ValSpec HeapModel HeapSpec FrameModel XdrModel CtModel.
Import ListNotations.
Open Scope Z_scope.

(* strictly ascending byte strings *)
Definition asc (ks : list (list Z)) : Prop := StronglySorted (fun a b => lex a b = Lt) ks.
Definition plain (a : addr) : Prop := match a with AMuxed _ _ => False | _ => True end.

(* The value v shows the datum d of type t.  A struct is a map from the names of
   its fields, as symbols in ascending order, to what shows the fields; a case of
   an enum is a vec of its name and of what shows its argument, if it has one.
   Strictly, the vec has nothing else in it; loosely, anything may follow. *)
Inductive shows (strict : bool) : ty -> dat -> scval -> Prop :=
| sh_address a : plain a -> shows strict YAddress (DAddress a) (SAddress a)
| sh_muxed a : shows strict YMuxedAddress (DAddress a) (SAddress a)
| sh_bytes_n n b : length b = n -> shows strict (YBytesN n) (DBytes b) (SBytes b)
| sh_bytes b : shows strict YBytes (DBytes b) (SBytes b)
| sh_string b : shows strict YString (DString b) (SString b)
| sh_symbol b : shows strict YSymbol (DSymbol b) (SSymbol b)
| sh_vec l : shows strict YVec (DVec l) (SVec (Some l))
| sh_bool b : shows strict YBool (DBool b) (SBool b)
| sh_u32 x : shows strict YU32 (DU32 x) (SU32 x)
| sh_i128 hi lo : - 2 ^ 63 <= hi < 2 ^ 63 -> 0 <= lo < 2 ^ 64 ->
    shows strict YI128 (DI128 (hi * 2 ^ 64 + lo)) (SI128 hi lo)
| sh_struct fs l m ks :
    map fst l = map fst fs ->
    map fst m = map SSymbol ks -> asc ks -> Permutation ks (map fst fs) ->
    (forall n t x w, In (n, t) fs -> In (n, x) l -> In (SSymbol n, w) m -> shows strict t x w) ->
    shows strict (YStruct fs) (DStruct l) (SMap (Some m))
| sh_case cs i n rest :
    nth_error cs i = Some (n, None) -> (strict = true -> rest = []) ->
    shows strict (YEnum cs) (DEnum i None) (SVec (Some (SSymbol n :: rest)))
| sh_case_arg cs i n t x w rest :
    nth_error cs i = Some (n, Some t) -> shows strict t x w -> (strict = true -> rest = []) ->
    shows strict (YEnum cs) (DEnum i (Some x)) (SVec (Some (SSymbol n :: w :: rest))).

(* Data of a type, with the ranges of the Rust types. *)
Fixpoint datum (t : ty) (d : dat) : Prop :=
  match t, d with
  | YAddress, DAddress a => plain a
  | YMuxedAddress, DAddress _ => True
  | YBytesN n, DBytes b => length b = n
  | YBytes, DBytes _ | YString, DString _ | YVec, DVec _ | YBool, DBool _ => True
  | YSymbol, DSymbol _ => True
  | YU32, DU32 x => 0 <= x <= u32_max
  | YI128, DI128 x => - 2 ^ 127 <= x < 2 ^ 127
  | YStruct fs, DStruct l =>
      map fst l = map fst fs
      /\ allP (fun f => forall x, In (fst f, x) l -> datum (snd f) x) fs
  | YEnum cs, DEnum i x =>
      match nth_error (map (fun c => match snd c with
                                     | Some t => Some (datum t) | None => None end) cs) i, x with
      | Some None, None => True
      | Some (Some P), Some y => P y
      | _, _ => False
      end
  | _, _ => False
  end.

(* Declarations that can be used: distinct names that are symbols. *)
Fixpoint type_ok (t : ty) : Prop :=
  match t with
  | YStruct fs => NoDup (map fst fs) /\ Forall valid_symbol (map fst fs) /\ allP (fun f => type_ok (snd f)) fs
  | YEnum cs => NoDup (map fst cs) /\ Forall valid_symbol (map fst cs)
                /\ allP (fun c => match snd c with Some t => type_ok t | None => True end) cs
  | _ => True
  end.

(* Types without enums in them. *)
Fixpoint no_enum (t : ty) : Prop :=
  match t with
  | YStruct fs => allP (fun f => no_enum (snd f)) fs
  | YEnum _ => False
  | _ => True
  end.

(* ------------------------------------------------------------ authorization *)

(* the nodes of a tree of invocations, each before its children *)
Fixpoint preorder (i : hinv) : list hfn :=
  let 'HInv f _ subs := i in f :: flat_map preorder subs.

Definition sym (s : String.string) : scval := SSymbol (lit s).
Arguments sym s%string_scope.

(* The values that stand for an executable other than the asset contract; what
   follows the argument of a case is `rest` (none when written by the host). *)
Inductive executable_value (strict : bool) : executable -> scval -> Prop :=
| ev_wasm h rest : (strict = true -> rest = []) ->
    executable_value strict (ExWasm h) (SVec (Some (sym "Wasm" :: SBytes h :: rest)))
| ev_ref o t rest : (strict = true -> rest = []) ->
    executable_value strict (ExExternalRef o t)
      (SVec (Some (sym "ExternalRef" ::
                   SMap (Some [(sym "owner", SAddress o); (sym "tag", SString t)]) :: rest))).

(* What an account contract is shown of a function it is asked to authorize. *)
Inductive seen : hfn -> scval -> Prop :=
| seen_call a n args :
    seen (HContractFn a n args)
      (SVec (Some [sym "Contract";
                   SMap (Some [(sym "args", SVec (Some args)); (sym "contract", SAddress a);
                               (sym "fn_name", SSymbol n)])]))
| seen_create by_ salt ex w :
    executable_value true ex w ->
    seen (HCreate (PreAddress by_ salt) ex [])
      (SVec (Some [sym "CreateContractHostFn";
                   SMap (Some [(sym "executable", w); (sym "salt", SBytes salt)])]))
| seen_ctor by_ salt ex w args :
    args <> [] -> executable_value true ex w ->
    seen (HCreate (PreAddress by_ salt) ex args)
      (SVec (Some [sym "CreateContractWithCtorHostFn";
                   SMap (Some [(sym "constructor_args", SVec (Some args)); (sym "executable", w);
                               (sym "salt", SBytes salt)])])).

(* Creations of asset contracts are not for others to authorize. *)
Definition authorizable (f : hfn) : Prop :=
  match f with
  | HContractFn _ _ _ => True
  | HCreate (PreAddress _ _) ex _ => ex <> ExStellarAsset
  | HCreate (PreAsset _) _ _ => False
  end.

(* The same function, whoever deploys. *)
Inductive same_but_deployer : hfn -> hfn -> Prop :=
| sbd_call a n args : same_but_deployer (HContractFn a n args) (HContractFn a n args)
| sbd_create b1 b2 salt ex args :
    same_but_deployer (HCreate (PreAddress b1 salt) ex args) (HCreate (PreAddress b2 salt) ex args).

(* executables and salts have their sizes; owners are addresses proper *)
Definition executable_sized (ex : executable) : Prop :=
  match ex with
  | ExWasm h => length h = 32%nat
  | ExStellarAsset => True
  | ExExternalRef o _ => plain o
  end.

(* An entry of authorize_as_curr_contract, as contracts write it, and the tree of
   invocations it authorizes on behalf of the contract by_; n bounds the depth. *)
Inductive grants (by_ : addr) : nat -> scval -> hinv -> Prop :=
| gr_call n c f args vs subs rest :
    plain c -> Forall2 (grants by_ n) vs subs ->
    grants by_ (Datatypes.S n)
      (SVec (Some (sym "Contract" ::
         SMap (Some [(sym "context",
                      SMap (Some [(sym "args", SVec (Some args)); (sym "contract", SAddress c);
                                  (sym "fn_name", SSymbol f)]));
                     (sym "sub_invocations", SVec (Some vs))]) :: rest)))
      (HInv (HContractFn c f args) false subs)
| gr_create n salt ex w rest :
    executable_value false ex w -> executable_sized ex -> length salt = 32%nat ->
    grants by_ (Datatypes.S n)
      (SVec (Some (sym "CreateContractHostFn" ::
         SMap (Some [(sym "executable", w); (sym "salt", SBytes salt)]) :: rest)))
      (HInv (HCreate (PreAddress by_ salt) ex []) false [])
| gr_ctor n salt ex w args rest :
    executable_value false ex w -> executable_sized ex -> length salt = 32%nat ->
    grants by_ (Datatypes.S n)
      (SVec (Some (sym "CreateContractWithCtorHostFn" ::
         SMap (Some [(sym "constructor_args", SVec (Some args)); (sym "executable", w);
                     (sym "salt", SBytes salt)]) :: rest)))
      (HInv (HCreate (PreAddress by_ salt) ex args) false []).

(* The arguments vs of a call show the data ds of the types ts. *)
Inductive args_show : list ty -> list dat -> list scval -> Prop :=
| as_nil : args_show [] [] []
| as_cons t ts d ds v vs : shows false t d v -> args_show ts ds vs -> args_show (t :: ts) (d :: ds) (v :: vs).

(* How deep a tree of invocations is. *)
Fixpoint levels (i : hinv) : nat :=
  let 'HInv _ _ subs := i in Datatypes.S (fold_right Nat.max O (map levels subs)).

(* Trees a contract can authorize on its own behalf: calls of contracts, and
   creations by itself at the leaves. *)
Fixpoint own_tree (by_ : addr) (i : hinv) : Prop :=
  let 'HInv f used subs := i in
  used = false /\
  match f with
  | HContractFn c _ _ => plain c /\ allP (own_tree by_) subs
  | HCreate (PreAddress b salt) ex _ =>
      b = by_ /\ ex <> ExStellarAsset /\ executable_sized ex /\ length salt = 32%nat /\ subs = []
  | HCreate (PreAsset _) _ _ => False
  end.
