(* What values mean, independently of their representation: value trees, their
   order, and which tree a word stands for in a given object table. *)
From Coq Require Import ZArith Lia List Bool Sorted.
From Verif Require Import Prelude ValModel ValSpec ContainerModel ContainerSpec HeapModel.
Import ListNotations.
Open Scope Z_scope.

(* ------------------------------------------------------------ value trees *)

Inductive tval :=
| TBool (b : bool)
| TVoid
| TErr (e : err)
| TU32 (x : Z)
| TI32 (x : Z)
| TNum (k : numty) (x : Z)
| TBytes (b : list Z)
| TString (b : list Z)
| TSymbol (b : list Z)
| TVec (l : list tval)
| TMap (m : list (tval * tval))
| TAddr (a : addr)
| TExe (b : list Z).

(* The documented type order (XDR SCValType numbers). *)
Definition trank (t : tval) : Z :=
  match t with
  | TBool _ => 0 | TVoid => 1 | TErr _ => 2 | TU32 _ => 3 | TI32 _ => 4
  | TNum NU64 _ => 5 | TNum NI64 _ => 6 | TNum NTimepoint _ => 7 | TNum NDuration _ => 8
  | TNum NU128 _ => 9 | TNum NI128 _ => 10 | TNum NU256 _ => 11 | TNum NI256 _ => 12
  | TBytes _ => 13 | TString _ => 14 | TSymbol _ => 15 | TVec _ => 16 | TMap _ => 17
  | TAddr _ => 18 | TExe _ => 22
  end.

(* Content of a leaf, to be compared lexicographically. *)
Definition addr_key (a : addr) : list Z :=
  match a with
  | AAccount k => 0 :: k
  | AContract k => 1 :: k
  | AMuxed i k => 2 :: i :: k
  | AOther d p => 3 :: d :: p
  end.

Definition tkey (t : tval) : list Z :=
  match t with
  | TBool b => [if b then 1 else 0]
  | TVoid => []
  | TErr (EContract c) => [0; c]
  | TErr (ESys t c) => [ety_num t; ecode_num c]
  | TU32 x | TI32 x | TNum _ x => [x]
  | TBytes b | TString b | TSymbol b | TExe b => b
  | TAddr a => addr_key a
  | TVec _ | TMap _ => []
  end.

Definition lexc {A} (f : A -> A -> comparison) :=
  fix go (a b : list A) : comparison :=
    match a, b with
    | [], [] => Eq
    | [], _ :: _ => Lt
    | _ :: _, [] => Gt
    | x :: a', y :: b' => match f x y with Eq => go a' b' | c => c end
    end.

Definition pairc {A} (f : A -> A -> comparison) (p q : A * A) : comparison :=
  match p, q with
  | (a, b), (c, d) => match f a c with Eq => f b d | r => r end
  end.

(* Order of value trees: by type, then numbers numerically, strings
   lexicographically, containers lexicographically by elements or entries. *)
Fixpoint tcmp (a b : tval) : comparison :=
  match trank a ?= trank b with
  | Eq =>
      match a, b with
      | TVec x, TVec y => lexc tcmp x y
      | TMap x, TMap y => lexc (pairc tcmp) x y
      | _, _ => lex (tkey a) (tkey b)
      end
  | c => c
  end.

(* Nesting depth. *)
Definition lmax (l : list nat) : nat := fold_right Nat.max O l.
Fixpoint tdepth (t : tval) : nat :=
  match t with
  | TVec l => S (lmax (map tdepth l))
  | TMap m => S (lmax (map (fun p => Nat.max (tdepth (fst p)) (tdepth (snd p))) m))
  | _ => 1%nat
  end.

(* Number of nodes; an upper bound on the objects a tree needs. *)
Definition lsum (l : list nat) : nat := fold_right Nat.add O l.
Fixpoint tsize (t : tval) : nat :=
  match t with
  | TVec l => S (lsum (map tsize l))
  | TMap m => S (lsum (map (fun p => tsize (fst p) + tsize (snd p)) m)%nat)
  | _ => 1%nat
  end.

(* Valid trees. *)
Definition valid_symbol (b : list Z) : Prop := (length b <= 32)%nat /\ Forall sym_char b.
Definition supported_addr (a : addr) : Prop :=
  match a with AOther _ _ => False | _ => True end.
Definition map_sorted {V} (m : list (tval * V)) : Prop :=
  keys_ascending tcmp (fun t => t) m.
Definition short {A} (l : list A) : Prop := Z.of_nat (length l) <= u32_max.

(* Byte strings of u32 length. *)
Definition bytes_ok (b : list Z) : Prop := short b /\ Forall (fun x => 0 <= x < 256) b.

Definition allP {A} (P : A -> Prop) := fix go (l : list A) : Prop :=
  match l with [] => True | x :: r => P x /\ go r end.

Fixpoint valid_tree (t : tval) : Prop :=
  match t with
  | TBool _ | TVoid => True
  | TBytes b | TString b | TExe b => bytes_ok b
  | TErr e => atom_ok (AErr e)
  | TU32 x => atom_ok (AU32 x)
  | TI32 x => atom_ok (AI32 x)
  | TNum k x => num_range k x
  | TSymbol b => valid_symbol b
  | TVec l => short l /\ allP valid_tree l
  | TMap m => short m /\ map_sorted m
              /\ allP (fun p => valid_tree (fst p) /\ valid_tree (snd p)) m
  | TAddr a => supported_addr a
  end.

(* ------------------------------------------------------------ denotation *)

Definition tree_of_atom (a : atom) : option tval :=
  match a with
  | ABool b => Some (TBool b)
  | AVoid => Some TVoid
  | AU32 u => Some (TU32 u)
  | AI32 i => Some (TI32 i)
  | ANum k x => Some (TNum k x)
  | AErr e => Some (TErr e)
  | AObj _ _ => None
  end.

Definition obj_handle (i : nat) : Z := 2 * Z.of_nat i + 1.
Definition obj_word (i : nat) (o : hobj) : Z := word_of_atom (AObj (hobj_tag o) (obj_handle i)).

(* `denotes h w t`: with object table h the word w stands for the tree t. *)
Inductive denotes (h : heap) : Z -> tval -> Prop :=
| dn_atom a t : atom_ok a -> tree_of_atom a = Some t -> denotes h (word_of_atom a) t
| dn_symbol w : word w -> is_good w = true -> get_tag w = TgSymbolSmall ->
    denotes h w (TSymbol (symbol_small_chars w))
| dn_object i o t : nth_error h i = Some o -> Z.of_nat i < 2 ^ 31 ->
    obj_denotes h o t -> denotes h (obj_word i o) t
with obj_denotes (h : heap) : hobj -> tval -> Prop :=
| do_num k x : num_range k x -> obj_denotes h (HONum k x) (TNum k x)
| do_bytes b : bytes_ok b -> obj_denotes h (HOBytes b) (TBytes b)
| do_string b : bytes_ok b -> obj_denotes h (HOString b) (TString b)
| do_symbol b : valid_symbol b -> obj_denotes h (HOSymbol b) (TSymbol b)
| do_vec l ts : short l -> denotes_list h l ts -> obj_denotes h (HOVec l) (TVec ts)
| do_map m ts : short m -> map_sorted ts -> denotes_pairs h m ts ->
    obj_denotes h (HOMap m) (TMap ts)
| do_account k : obj_denotes h (HOAddress (AAccount k)) (TAddr (AAccount k))
| do_contract k : obj_denotes h (HOAddress (AContract k)) (TAddr (AContract k))
| do_muxed i k : obj_denotes h (HOMuxed (AMuxed i k)) (TAddr (AMuxed i k))
| do_exe b : bytes_ok b -> obj_denotes h (HOExeTag b) (TExe b)
with denotes_list (h : heap) : list Z -> list tval -> Prop :=
| dl_nil : denotes_list h [] []
| dl_cons w t ws ts : denotes h w t -> denotes_list h ws ts ->
    denotes_list h (w :: ws) (t :: ts)
with denotes_pairs (h : heap) : list (Z * Z) -> list (tval * tval) -> Prop :=
| dp_nil : denotes_pairs h [] []
| dp_cons k v tk tv m ts : denotes h k tk -> denotes h v tv -> denotes_pairs h m ts ->
    denotes_pairs h ((k, v) :: m) ((tk, tv) :: ts).

(* Every object in the table is well formed. *)
Definition heap_ok (h : heap) : Prop := Forall (fun o => exists t, obj_denotes h o t) h.

(* ------------------------------------------------------------ XDR values *)

Definition opt_list {A B} (f : A -> option B) := fix go (l : list A) : option (list B) :=
  match l with
  | [] => Some []
  | x :: r =>
      match f x, go r with Some y, Some ys => Some (y :: ys) | _, _ => None end
  end.

Definition opt_pair {A B} (f : A -> option B) (p : A * A) : option (B * B) :=
  match p with
  | (a, b) => match f a, f b with Some x, Some y => Some (x, y) | _, _ => None end
  end.

(* The tree an XDR value spells, when its type is one contracts can hold. *)
Fixpoint tree_of (s : scval) : option tval :=
  match s with
  | SBool b => Some (TBool b)
  | SVoid => Some TVoid
  | SError e => Some (TErr e)
  | SU32 x => Some (TU32 x)
  | SI32 x => Some (TI32 x)
  | SU64 x => Some (TNum NU64 x)
  | SI64 x => Some (TNum NI64 x)
  | STimepoint x => Some (TNum NTimepoint x)
  | SDuration x => Some (TNum NDuration x)
  | SU128 hi lo => Some (TNum NU128 (hi * 2 ^ 64 + lo))
  | SI128 hi lo => Some (TNum NI128 (hi * 2 ^ 64 + lo))
  | SU256 a b c e => Some (TNum NU256 (((a * 2 ^ 64 + b) * 2 ^ 64 + c) * 2 ^ 64 + e))
  | SI256 a b c e => Some (TNum NI256 (((a * 2 ^ 64 + b) * 2 ^ 64 + c) * 2 ^ 64 + e))
  | SBytes b => Some (TBytes b)
  | SString b => Some (TString b)
  | SSymbol b => Some (TSymbol b)
  | SVec (Some l) => option_map TVec (opt_list tree_of l)
  | SMap (Some m) => option_map TMap (opt_list (opt_pair tree_of) m)
  | SAddress a => Some (TAddr a)
  | SExecutableTag b => Some (TExe b)
  | SVec None | SMap None | SContractInstance _ _ | SLedgerKeyContractInstance
  | SLedgerKeyNonce _ => None
  end.

(* XDR typing: every field within the range its XDR type allows. *)
Definition u64_ok (x : Z) : Prop := 0 <= x < 2 ^ 64.
Definition i64_ok (x : Z) : Prop := - 2 ^ 63 <= x < 2 ^ 63.
Definition addr_typed (a : addr) : Prop :=
  match a with AOther d _ => d = 3 \/ d = 4 | _ => True end.
Definition optP {A} (P : A -> Prop) (o : option A) : Prop :=
  match o with Some x => P x | None => True end.
Fixpoint sc_typed (s : scval) : Prop :=
  match s with
  | SBool _ | SVoid | SSymbol _ | SLedgerKeyContractInstance => True
  | SBytes b | SString b | SExecutableTag b => bytes_ok b
  | SError e => atom_ok (AErr e)
  | SU32 x => atom_ok (AU32 x)
  | SI32 x => atom_ok (AI32 x)
  | SU64 x | STimepoint x | SDuration x => u64_ok x
  | SI64 x | SLedgerKeyNonce x => i64_ok x
  | SU128 hi lo => u64_ok hi /\ u64_ok lo
  | SI128 hi lo => i64_ok hi /\ u64_ok lo
  | SU256 a b c e => u64_ok a /\ u64_ok b /\ u64_ok c /\ u64_ok e
  | SI256 a b c e => i64_ok a /\ u64_ok b /\ u64_ok c /\ u64_ok e
  | SVec l => optP (allP sc_typed) l
  | SMap m => optP (allP (fun p => sc_typed (fst p) /\ sc_typed (snd p))) m
  | SAddress a => addr_typed a
  | SContractInstance _ m => optP (allP (fun p => sc_typed (fst p) /\ sc_typed (snd p))) m
  end.

(* Representable: spells a valid tree. *)
Definition representable (s : scval) : Prop :=
  exists t, tree_of s = Some t /\ valid_tree t.

(* The number of heap slots a fresh table of this size leaves. *)
Definition room (h : heap) (n : nat) : Prop := Z.of_nat (length h + n) <= 2 ^ 31.

(* The XDR form of a tree. *)
Fixpoint xdr_of (t : tval) : scval :=
  match t with
  | TBool b => SBool b
  | TVoid => SVoid
  | TErr e => SError e
  | TU32 x => SU32 x
  | TI32 x => SI32 x
  | TNum NU64 x => SU64 x
  | TNum NI64 x => SI64 x
  | TNum NTimepoint x => STimepoint x
  | TNum NDuration x => SDuration x
  | TNum NU128 x => SU128 (x / 2 ^ 64) (x mod 2 ^ 64)
  | TNum NI128 x => SI128 (x / 2 ^ 64) (x mod 2 ^ 64)
  | TNum NU256 x => SU256 (x / 2 ^ 192) ((x / 2 ^ 128) mod 2 ^ 64) ((x / 2 ^ 64) mod 2 ^ 64) (x mod 2 ^ 64)
  | TNum NI256 x => SI256 (x / 2 ^ 192) ((x / 2 ^ 128) mod 2 ^ 64) ((x / 2 ^ 64) mod 2 ^ 64) (x mod 2 ^ 64)
  | TBytes b => SBytes b
  | TString b => SString b
  | TSymbol b => SSymbol b
  | TVec l => SVec (Some (map xdr_of l))
  | TMap m => SMap (Some (map (fun p => (xdr_of (fst p), xdr_of (snd p))) m))
  | TAddr a => SAddress a
  | TExe b => SExecutableTag b
  end.

(* No muxed address anywhere in the tree. *)
Fixpoint mux_free (t : tval) : Prop :=
  match t with
  | TAddr (AMuxed _ _) => False
  | TVec l => allP mux_free l
  | TMap m => allP (fun p => mux_free (fst p) /\ mux_free (snd p)) m
  | _ => True
  end.

(* The second table holds the first one's objects at the same places. *)
Definition extends (h h' : heap) : Prop := exists x, h' = h ++ x.
(* At most 2^31 objects, so that every handle fits its 32 bits. *)
Definition fits (h : heap) : Prop := Z.of_nat (length h) <= 2 ^ 31.

(* A word contracts or host code can hold: well formed, and if it is a handle
   then the handle of an object in the table. *)
Definition live (h : heap) (w : Z) : Prop :=
  word w /\ is_good w = true
  /\ (is_object w = true ->
        exists i o, nth_error h i = Some o /\ Z.of_nat i < 2 ^ 31 /\ w = obj_word i o).

(* A symbol word for the string s: packed in the word, or a symbol object. *)
Inductive symbol_word (h : heap) : Z -> list Z -> Prop :=
| sw_small w s : symbol_small_from_bytes s = Some w -> symbol_word h w s
| sw_object i s : valid_symbol s -> nth_error h i = Some (HOSymbol s) -> Z.of_nat i < 2 ^ 31 ->
    symbol_word h (obj_word i (HOSymbol s)) s.

(* Loading several XDR values one after the other. *)
Fixpoint load_all (d : nat) (h : heap) (l : list scval) : heap * list (res Z) :=
  match l with
  | [] => (h, [])
  | s :: r => let '(h1, v) := to_host_val d h s in
              let '(h2, vs) := load_all d h1 r in (h2, v :: vs)
  end.
