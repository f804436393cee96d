(* What converting Rust data to host values and back is supposed to mean.  A host
   value is described by its tree (HeapSpec: tval, denotes). *)
From Coq Require Import ZArith Lia List Bool.
From Verif Require Import Prelude ValModel ValSpec HeapModel HeapSpec RustModel.
Import ListNotations.
Open Scope Z_scope.

(* The tree of each piece of data: None is void, Some and Ok add nothing, an error
   result is the error, a tuple is the vector of its parts. *)
Fixpoint tree_of_data (d : rdata) : tval :=
  match d with
  | XUnit => TVoid
  | XBool b => TBool b
  | XU32 x => TU32 x
  | XI32 x => TI32 x
  | XNum k x => TNum k x
  | XNone => TVoid
  | XSome d' => tree_of_data d'
  | XOk d' => tree_of_data d'
  | XErr e => TErr e
  | XTuple l => TVec (map tree_of_data l)
  | XBytes b => TBytes b
  | XSymbol b => TSymbol b
  end.

(* The data of each type; tuples have one to thirteen parts. *)
Inductive of_type : rty -> rdata -> Prop :=
| ot_unit : of_type YUnit XUnit
| ot_bool b : of_type YBool (XBool b)
| ot_u32 x : 0 <= x < 2 ^ 32 -> of_type YU32 (XU32 x)
| ot_i32 x : - 2 ^ 31 <= x < 2 ^ 31 -> of_type YI32 (XI32 x)
| ot_num k x : num_range k x -> of_type (YNum k) (XNum k x)
| ot_none t : of_type (YOption t) XNone
| ot_some t d : of_type t d -> of_type (YOption t) (XSome d)
| ot_ok t d : of_type t d -> of_type (YResult t) (XOk d)
| ot_err t e : valid_tree (TErr e) -> of_type (YResult t) (XErr e)
| ot_tuple ts l : (1 <= length ts <= 13)%nat -> of_types ts l -> of_type (YTuple ts) (XTuple l)
| ot_bytes b : bytes_ok b -> of_type YBytes (XBytes b)
| ot_bytesn b : bytes_ok b -> of_type (YBytesN (length b)) (XBytes b)
| ot_symbol b : valid_symbol b -> of_type YSymbol (XSymbol b)
with of_types : list rty -> list rdata -> Prop :=
| ots_nil : of_types [] []
| ots_cons t ts d l : of_type t d -> of_types ts l -> of_types (t :: ts) (d :: l).

(* Which tree reads as which data of a type: void is always None for an Option and an
   error is always the error of a Result. *)
Inductive reads : rty -> tval -> rdata -> Prop :=
| rd_unit : reads YUnit TVoid XUnit
| rd_bool b : reads YBool (TBool b) (XBool b)
| rd_u32 x : reads YU32 (TU32 x) (XU32 x)
| rd_i32 x : reads YI32 (TI32 x) (XI32 x)
| rd_num k x : reads (YNum k) (TNum k x) (XNum k x)
| rd_none t : reads (YOption t) TVoid XNone
| rd_some t x d : x <> TVoid -> reads t x d -> reads (YOption t) x (XSome d)
| rd_err t e : reads (YResult t) (TErr e) (XErr e)
| rd_ok t x d : (forall e, x <> TErr e) -> reads t x d -> reads (YResult t) x (XOk d)
| rd_tuple ts xs l : reads_all ts xs l -> reads (YTuple ts) (TVec xs) (XTuple l)
| rd_bytes b : reads YBytes (TBytes b) (XBytes b)
| rd_bytesn b : reads (YBytesN (length b)) (TBytes b) (XBytes b)
| rd_symbol b : reads YSymbol (TSymbol b) (XSymbol b)
with reads_all : list rty -> list tval -> list rdata -> Prop :=
| ra_nil : reads_all [] [] []
| ra_cons t ts x xs d l : reads t x d -> reads_all ts xs l -> reads_all (t :: ts) (x :: xs) (d :: l).

(* Types with data that becomes void, or becomes an error. *)
Fixpoint may_be_void (t : rty) : bool :=
  match t with
  | YUnit => true
  | YOption _ => true
  | YResult t' => may_be_void t'
  | _ => false
  end.
Fixpoint may_be_error (t : rty) : bool :=
  match t with
  | YResult _ => true
  | YOption t' => may_be_error t'
  | _ => false
  end.

(* Types in which no Option is around a type that may be void, and no Result around a
   type that may be an error. *)
Fixpoint unambiguous (t : rty) : bool :=
  match t with
  | YOption t' => unambiguous t' && negb (may_be_void t')
  | YResult t' => unambiguous t' && negb (may_be_error t')
  | YTuple ts => forallb unambiguous ts
  | _ => true
  end.

(* What data reads back as: Some of something void is None, Ok of an error is the
   error. *)
Fixpoint collapse (d : rdata) : rdata :=
  match d with
  | XSome d' => match tree_of_data d' with TVoid => XNone | _ => XSome (collapse d') end
  | XOk d' => match tree_of_data d' with TErr e => XErr e | _ => XOk (collapse d') end
  | XTuple l => XTuple (map collapse l)
  | _ => d
  end.

(* The table has room for one object for every node of the data's tree. *)
Definition room (h : heap) (d : rdata) : Prop :=
  Z.of_nat (length h) + Z.of_nat (tsize (tree_of_data d)) <= 2 ^ 31.
