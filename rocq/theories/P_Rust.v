(* C85: Rust data converts to host values and back. *)
From Coq Require Import ZArith Lia List Bool.
From Verif Require Import Prelude ValModel ValSpec HeapModel HeapSpec HeapProofs RustModel RustSpec RustProofs.
Import ListNotations.
Open Scope Z_scope.
Ltac Zify.zify_post_hook ::= idtac.

(* Data of every type converts, when the object table has room; the value stands for
   the data's tree and older values are unaffected. *)
Theorem C85_converts :
  forall t d h, of_type t d -> room h d ->
  exists h' w, to_val h d = (h', Ok w) /\ extends h h' /\ denotes h' w (tree_of_data d).
Proof.
  intros t d h T R. destruct (to_val_ok t d T h R) as (h' & w & E & X & _ & D). eauto.
Qed.
Print Assumptions C85_converts.

(* A value reads as data of a type exactly when its tree does. *)
Theorem C85_reads_exactly :
  forall t h w x d, denotes h w x -> (from_val t h w = Ok d <-> reads t x d).
Proof. intros t h w x d D. now apply from_val_ok. Qed.
Print Assumptions C85_reads_exactly.

(* There and back, whatever is added to the table in between: always succeeds, and only
   Some of something void and Ok of an error change. *)
Theorem C85_there_and_back :
  forall t d h h' w h2, of_type t d -> room h d -> to_val h d = (h', Ok w) -> extends h' h2 ->
  from_val t h2 w = Ok (collapse d)
  /\ (unambiguous t = true -> from_val t h2 w = Ok d).
Proof.
  intros t d h h' w h2 T R E [y ->]. destruct (to_val_ok t d T h R) as (h1 & w1 & E1 & _ & _ & D).
  rewrite E in E1. injection E1 as <- <-.
  assert (F : from_val t (h' ++ y) w = Ok (collapse d)).
  { apply (from_val_ok t _ _ (tree_of_data d)); [now apply denotes_ext|now apply reads_back]. }
  split; [exact F|]. intros U. rewrite F. now rewrite (collapse_id t d T U).
Qed.
Print Assumptions C85_there_and_back.

(* Different data of an unambiguous type have different trees. *)
Theorem C85_distinct :
  forall t d1 d2, of_type t d1 -> of_type t d2 -> unambiguous t = true ->
  tree_of_data d1 = tree_of_data d2 -> d1 = d2.
Proof.
  intros t d1 d2 T1 T2 U E.
  rewrite <- (collapse_id t d1 T1 U), <- (collapse_id t d2 T2 U).
  apply (reads_fun t (tree_of_data d1)); [now apply reads_back|rewrite E; now apply reads_back].
Qed.
Print Assumptions C85_distinct.

(* A tuple with a number too big for a word, an option and a result. *)
Definition ex_t : rty := YTuple [YU32; YOption (YNum NI128); YResult (YTuple [YBool; YNum NU64]); YOption YBool;
  YBytesN 3; YSymbol].
Definition ex_d : rdata :=
  XTuple [XU32 7; XSome (XNum NI128 (- 2 ^ 100)); XOk (XTuple [XBool true; XNum NU64 (2 ^ 60)]); XNone;
  XBytes [0; 255; 7]; XSymbol (repeat 97 12)].

Example C85_hyp :
  of_type ex_t ex_d /\ unambiguous ex_t = true /\ room [HOBytes [1; 2]] ex_d
  /\ exists h' w, to_val [HOBytes [1; 2]] ex_d = (h', Ok w) /\ length h' = 7%nat
     /\ from_val ex_t h' w = Ok ex_d
     /\ from_val (YTuple [YU32; YU32]) h' w = Err (ESys TObject CUnexpectedSize).
Proof.
  split.
  { unfold ex_t, ex_d. constructor; [cbn; lia|].
    repeat apply ots_cons; try (repeat (constructor; cbn; try lia); fail).
    - apply (ot_bytesn [0; 255; 7]). split; [unfold short, u32_max; cbn; lia|repeat constructor; lia]. }
  split; [reflexivity|]. split; [unfold room; cbn; lia|].
  eexists _, _. split; [reflexivity|]. split; [reflexivity|]. split; reflexivity.
Qed.

(* Without that condition data does not come back: Some(()) and Some(None) come back
   as None, and Ok(Err(e)) as Err(e). *)
Theorem C85_there_and_back_refuted :
  ~ (forall t d h h' w, of_type t d -> room h d -> to_val h d = (h', Ok w) -> from_val t h' w = Ok d).
Proof.
  intros H. specialize (H (YOption YUnit) (XSome XUnit) [] [] val_void).
  assert (C : from_val (YOption YUnit) [] val_void = Ok (XSome XUnit)).
  { apply H; [repeat constructor|unfold room; cbn; lia|reflexivity]. }
  cbv in C. discriminate.
Qed.
Print Assumptions C85_there_and_back_refuted.

Example C85_collapses :
  from_val (YOption (YOption YBool)) [] val_void = Ok XNone
  /\ to_val [] (XSome XNone) = ([], Ok val_void)
  /\ to_val [] (XOk (XErr (EContract 3))) = ([], Ok (val_of_error (EContract 3)))
  /\ from_val (YResult (YResult YBool)) [] (val_of_error (EContract 3)) = Ok (XErr (EContract 3)).
Proof. repeat split. Qed.
