(* Property C74: values as bytes. *)
From Coq Require Import ZArith Lia List Bool.
From Verif Require Import Prelude ValModel ValSpec HeapModel FrameModel AuthModel XdrModel HeapSpec HeapProofs ConvProofs
  HeapProofs2 MapFnProofs IntProofs2 StrkeySpec AssetModel SerialModel SerialSpec SerialProofs SerialProofs2.
Import ListNotations.
Open Scope Z_scope.
Ltac Zify.zify_post_hook ::= idtac.

(* ------------------------------------------------------------ to bytes *)

Lemma add_bytes h t h' r : valid_tree t -> whole t -> Z.of_nat (length (bytes_of t)) <= u32_limit ->
  add_host_object h (HOBytes (bytes_of t)) = (h', r) -> fits h' ->
  extends h h' /\ (heap_ok h -> heap_ok h') /\ exists w, r = Ok w /\ denotes h' w (TBytes (bytes_of t)).
Proof.
  intros V W L E F.
  destruct (add_object_word h (HOBytes (bytes_of t)) (TBytes (bytes_of t)) h' r E F) as (X & K & w & -> & D & _).
  { constructor. split; [exact L | apply tree_wire; assumption]. }
  eauto.
Qed.

(* Serializing a value gives a byte string holding the value's XDR encoding,
   which says nothing about how the value is represented in the host.  It fails
   exactly for values nested deeper than 100, over the encoder's own limits, or
   longer than a byte string can be, and then changes nothing. *)
Theorem C74_serialize :
  forall writable h v t, denotes h v t -> whole t -> room h 1 ->
  (forall h' w, serialize_to_bytes writable h v = (h', Ok w) ->
     extends h h' /\ (heap_ok h -> heap_ok h') /\ denotes h' w (TBytes (bytes_of t)))
  /\ ((exists h' w, serialize_to_bytes writable h v = (h', Ok w)) <->
      (tdepth t <= 100)%nat /\ writable (xdr_of t) = true /\ Z.of_nat (length (bytes_of t)) <= 2 ^ 32 - 1)
  /\ (forall h' e, serialize_to_bytes writable h v = (h', Err e) ->
        h' = h /\ (e = if (tdepth t <=? 100)%nat
                       then if writable (xdr_of t) then ESys TValue CInvalidInput else ESys TBudget CExceededLimit
                       else ESys TContext CExceededLimit)).
Proof.
  intros writable h v t D W R. pose proof (denotes_valid _ _ _ D) as V.
  rewrite (serialize_eq writable h v t D).
  assert (A : Z.of_nat (length h) < 2 ^ 31) by (unfold room in R; lia).
  assert (F : fits (h ++ [HOBytes (bytes_of t)])) by (unfold fits, room in *; rewrite app_length; cbn [length]; exact R).
  destruct (Nat.leb_spec (tdepth t) 100) as [L|L].
  2: { split; [intros h' w E; discriminate E|]. split.
       - split; [intros (h' & w & E); discriminate E | intros (L' & _); exfalso; revert L L'; generalize 100%nat; lia].
       - intros h' e E. injection E as <- <-. split; reflexivity. }
  destruct (writable (xdr_of t)).
  2: { split; [intros h' w E; discriminate E|]. split.
       - split; [intros (h' & w & E); discriminate E | intros (_ & H & _); discriminate H].
       - intros h' e E. injection E as <- <-. auto. }
  change (2 ^ 32 - 1) with u32_limit.
  destruct (Z.ltb_spec u32_limit (Z.of_nat (length (bytes_of t)))) as [B|B].
  - split; [intros h' w E; discriminate E|]. split.
    + split; [intros (h' & w & E); discriminate E | intros (_ & _ & H); lia].
    + intros h' e E. injection E as <- <-. auto.
  - rewrite (add_object h _ A) in *. split; [|split].
    + intros h' w E.
      assert (E2 : add_host_object h (HOBytes (bytes_of t)) = (h', Ok w)) by (rewrite (add_object h _ A); exact E).
      assert (F' : fits h') by (injection E as <- _; exact F).
      destruct (add_bytes h t h' _ V W B E2 F') as (X & K & w' & Ew & Dw). injection Ew as <-. auto.
    + split; [auto | intros _; eauto].
    + intros h' e E. discriminate E.
Qed.
Print Assumptions C74_serialize.

(* Two values have the same bytes exactly when they are equal. *)
Theorem C74_equal_bytes_iff_equal_values :
  forall writable h v u t t', denotes h v t -> denotes h u t' -> whole t -> whole t' ->
  forall h1 h2 a b, serialize_to_bytes writable h v = (h1, Ok a) -> serialize_to_bytes writable h1 u = (h2, Ok b) ->
  fits h2 ->
  cmp_val 100 h2 a b = Ok Eq <-> cmp_val 100 h2 v u = Ok Eq.
Proof.
  intros writable h v u t t' D D' W W' h1 h2 a b E1 E2 F.
  pose proof (denotes_valid _ _ _ D) as V. pose proof (denotes_valid _ _ _ D') as V'.
  rewrite (serialize_eq _ _ _ _ D) in E1.
  destruct (Nat.leb_spec (tdepth t) 100) as [L|]; [|discriminate E1].
  destruct (writable (xdr_of t)); [|discriminate E1].
  destruct (Z.ltb_spec u32_limit (Z.of_nat (length (bytes_of t)))) as [|B1]; [discriminate E1|].
  assert (X1 : extends h h1).
  { unfold add_host_object in E1. destruct (index_to_handle (length h) false); [|discriminate E1].
    injection E1 as <- _. eexists. reflexivity. }
  pose proof X1 as [x ->]. rewrite (serialize_eq _ _ _ _ (denotes_ext _ x _ _ D')) in E2.
  destruct (Nat.leb_spec (tdepth t') 100) as [L'|]; [|discriminate E2].
  destruct (writable (xdr_of t')); [|discriminate E2].
  destruct (Z.ltb_spec u32_limit (Z.of_nat (length (bytes_of t')))) as [|B2]; [discriminate E2|].
  destruct (add_bytes _ _ _ _ V' W' B2 E2 F) as ([y ->] & _ & b' & Eb & Db). injection Eb as <-.
  assert (F1 : fits (h ++ x)) by (unfold fits in *; rewrite app_length in F; lia).
  destruct (add_bytes _ _ _ _ V W B1 E1 F1) as (_ & _ & a' & Ea & Da). injection Ea as <-.
  apply (denotes_ext _ y) in Da. apply (denotes_ext _ x) in D, D'. apply (denotes_ext _ y) in D, D'.
  rewrite (cmp_val_total _ 100 _ _ _ _ Da Db) by (cbn [tdepth]; generalize 99%nat; lia).
  rewrite (cmp_val_total _ 100 _ _ _ _ D D' L).
  assert (OK : forall c, @Ok comparison c = Ok Eq <-> c = Eq) by (intros c; split; [intros E; now inversion E | now intros ->]).
  rewrite !OK, !tcmp_eq. split; intros E.
  - injection E as E. apply bytes_inj in E; [exact E | assumption..].
  - now subst t'.
Qed.
Print Assumptions C74_equal_bytes_iff_equal_values.

(* ---------------------------------------------------------- from bytes *)

(* A byte string is accepted exactly when it is the encoding of a value contracts
   can hold - keys of maps sorted, every number in its range, every padding byte
   zero, nothing after the end -; the result is that value, and every object
   made before is as it was. *)
Theorem C74_deserialize :
  forall readable h b, are_bytes b ->
  (forall h' v, deserialize_from_bytes readable h b = (h', Ok v) -> fits h' ->
     exists t, b = bytes_of t /\ valid_tree t /\ whole t /\ (tdepth t <= 100)%nat /\ readable (xdr_of t) = true /\
               denotes h' v t /\ extends h h' /\ (heap_ok h -> heap_ok h'))
  /\ (forall t, b = bytes_of t -> valid_tree t -> whole t -> (tdepth t <= 100)%nat -> readable (xdr_of t) = true ->
      room h (tsize t) -> exists h' v, deserialize_from_bytes readable h b = (h', Ok v) /\ fits h').
Proof.
  intros readable h b B. split.
  - intros h' v E F. exact (deserialize_sound _ _ _ _ _ B E F).
  - intros t -> V W L R Rm. exact (deserialize_complete readable h t V W L R Rm).
Qed.
Print Assumptions C74_deserialize.

(* Reading what was written gives the value back, in whatever state of the host. *)
Theorem C74_round_trip :
  forall writable readable h v t h1 w, denotes h v t -> whole t ->
  serialize_to_bytes writable h v = (h1, Ok w) -> fits h1 ->
  denotes h1 w (TBytes (bytes_of t)) /\
  forall later, room (h1 ++ later) (tsize t) -> readable (xdr_of t) = true ->
  exists h2 v', deserialize_from_bytes readable (h1 ++ later) (bytes_of t) = (h2, Ok v') /\
                cmp_val 100 h2 v v' = Ok Eq.
Proof.
  intros writable readable h v t h1 w D W E F. pose proof (denotes_valid _ _ _ D) as V.
  rewrite (serialize_eq _ _ _ _ D) in E.
  destruct (Nat.leb_spec (tdepth t) 100) as [L|]; [|discriminate E].
  destruct (writable (xdr_of t)); [|discriminate E].
  destruct (Z.ltb_spec u32_limit (Z.of_nat (length (bytes_of t)))) as [|B1]; [discriminate E|].
  destruct (add_bytes _ _ _ _ V W B1 E F) as ([x ->] & _ & w' & Ew & Dw). injection Ew as <-.
  split; [exact Dw|]. intros later Rm R.
  destruct (deserialize_complete readable _ t V W L R Rm) as (h2 & v' & E2 & F2).
  exists h2, v'. split; [exact E2|].
  destruct (tree_wire t V W) as [_ B].
  destruct (deserialize_sound _ _ _ _ _ B E2 F2) as (t' & Et & V' & W' & _ & _ & D' & [y ->] & _).
  apply bytes_inj in Et; [subst t' | assumption..].
  apply (denotes_ext _ x) in D. apply (denotes_ext _ later) in D. apply (denotes_ext _ y) in D.
  rewrite (cmp_val_total _ 100 _ _ _ _ D D' L). now rewrite (proj2 (tcmp_eq t t) eq_refl).
Qed.
Print Assumptions C74_round_trip.

(* Accepted bytes written again are the same bytes. *)
Theorem C74_reserialize :
  forall writable readable h b h1 v, are_bytes b -> Z.of_nat (length b) <= 2 ^ 32 - 1 ->
  deserialize_from_bytes readable h b = (h1, Ok v) -> room h1 1 ->
  (forall s, readable s = true -> writable s = true) ->
  exists h2 w, serialize_to_bytes writable h1 v = (h2, Ok w) /\ denotes h2 w (TBytes b).
Proof.
  intros writable readable h b h1 v B Lb E Rm RW.
  assert (F : fits h1) by (unfold fits, room in *; lia).
  destruct (deserialize_sound _ _ _ _ _ B E F) as (t & -> & V & W & L & R & D & _).
  destruct (C74_serialize writable h1 v t D W Rm) as (S1 & S2 & _).
  destruct (proj2 S2) as (h2 & w & E2); [auto|]. exists h2, w. split; [exact E2|]. now apply S1.
Qed.
Print Assumptions C74_reserialize.

(* No value's bytes begin another's, so that bytes written one after another are
   taken apart in one way. *)
Theorem C74_prefix_free :
  forall t u r r', valid_tree t -> whole t -> valid_tree u -> whole u ->
  bytes_of t ++ r = bytes_of u ++ r' -> t = u /\ r = r'.
Proof. exact prefix_free. Qed.
Print Assumptions C74_prefix_free.

(* Equal values come from equal bytes: each value has one accepted encoding. *)
Theorem C74_one_encoding :
  forall readable h b b' h1 v h2 v', are_bytes b -> are_bytes b' ->
  deserialize_from_bytes readable h b = (h1, Ok v) -> deserialize_from_bytes readable h1 b' = (h2, Ok v') -> fits h2 ->
  cmp_val 100 h2 v v' = Ok Eq <-> b = b'.
Proof.
  intros readable h b b' h1 v h2 v' B B' E E' F.
  assert (X : exists x, h2 = h1 ++ x).
  { destruct (deserialize_sound _ _ _ _ _ B' E' F) as (u & _ & _ & _ & _ & _ & _ & X & _). exact X. }
  destruct X as [x ->]. assert (F1 : fits h1) by (unfold fits in *; rewrite app_length in F; lia).
  destruct (deserialize_sound _ _ _ _ _ B E F1) as (t & -> & V & W & L & _ & D & _).
  destruct (deserialize_sound _ _ _ _ _ B' E' F) as (u & -> & V' & W' & L' & _ & D' & _).
  apply (denotes_ext _ x) in D. rewrite (cmp_val_total _ 100 _ _ _ _ D D' L). split.
  - intros H. injection H as H. apply tcmp_eq in H. now subst.
  - intros H. apply bytes_inj in H; [subst; now rewrite (proj2 (tcmp_eq u u) eq_refl) | assumption..].
Qed.
Print Assumptions C74_one_encoding.

(* Encodings of values reserved to the ledger (contract instances, nonce keys,
   absent vectors and maps), at the top or inside, are refused as such, and
   anything that is no encoding at all is refused; neither changes anything. *)
Theorem C74_refused :
  forall readable h b, are_bytes b ->
  (forall s, b = xscval s -> wire s -> readable s = true -> tree_of s = None ->
     deserialize_from_bytes readable h b = (h, Err (ESys TValue CUnexpectedType)))
  /\ ((forall s, wire s -> b <> xscval s) -> exists e, deserialize_from_bytes readable h b = (h, Err e))
  /\ (forall h' r, deserialize_from_bytes readable h b = (h', r) -> fits h' ->
        extends h h' /\ (heap_ok h -> heap_ok h')).
Proof.
  intros readable h b B. unfold deserialize_from_bytes. pose proof (decode_iff readable b) as DI. split; [|split].
  - intros s Eb W R N. rewrite (proj2 (DI s B)) by auto.
    destruct (can_represent_recursive s) eqn:C; [|reflexivity]. apply can_represent_iff in C as [t C]. congruence.
  - intros N. destruct (scval_from_xdr readable b) as [s|e]; [|eauto].
    destruct (proj1 (DI s B) eq_refl) as (E & W & _). destruct (N s W E).
  - intros h' r E F. destruct (scval_from_xdr readable b) as [s|e].
    + destruct (proj1 (DI s B) eq_refl) as (-> & W & _). pose proof (wire_typed s W B) as T.
      destruct (can_represent_recursive s).
      * exact (load_keeps _ _ _ _ _ T E F).
      * injection E as <- _. split; [exists []; now rewrite app_nil_r | auto].
    + injection E as <- _. split; [exists []; now rewrite app_nil_r | auto].
Qed.
Print Assumptions C74_refused.

(* ------------------------------------------------------------ examples *)

(* {1: [2^60, -5 as i128, an account], "a_long_symbol": b"xy"} *)
Definition sx_tree : tval :=
  TMap [ (TU32 1, TVec [TNum NU64 (2 ^ 60); TNum NI128 (-5); TAddr (AAccount (repeat 7 32))]);
         (TSymbol [97; 95; 108; 111; 110; 103; 95; 115; 121; 109; 98; 111; 108], TBytes [120; 121]) ].
Definition sx_yes (_ : scval) : bool := true.
Example C74_valid : valid_tree sx_tree /\ whole sx_tree /\ tdepth sx_tree = 3%nat /\ length (bytes_of sx_tree) = 144%nat.
Proof.
  split; [|split; [|split; reflexivity]].
  - cbn. unfold short, u32_max, bytes_ok, short, u32_max, valid_symbol, sym_char, map_sorted. cbn.
    repeat match goal with |- _ /\ _ => split | |- Forall _ _ => constructor | |- _ => lia end; repeat constructor.
  - cbn. unfold key32. repeat split. repeat constructor; lia.
Qed.
(* read into a table that already holds an object, then written again *)
Example C74_read_write :
  match deserialize_from_bytes sx_yes [HOBytes [1]] (bytes_of sx_tree) with
  | (h1, Ok v) =>
      length h1 = 7%nat /\
      match serialize_to_bytes sx_yes h1 v with
      | (h2, Ok w) => length h2 = 8%nat /\ nth_error h2 7 = Some (HOBytes (bytes_of sx_tree))
      | _ => False
      end
  | _ => False
  end.
Proof. lazy. repeat split. Qed.
(* a boolean other than 0 and 1, a padding byte that is not zero, a byte too many,
   keys out of order, a nonce key: refused *)
Example C74_refusals :
  let refused b := exists e, deserialize_from_bytes sx_yes [] b = ([], Err e) in
  refused [0; 0; 0; 0; 0; 0; 0; 2] /\
  refused [0; 0; 0; 13; 0; 0; 0; 1; 65; 0; 1; 0] /\
  refused ([0; 0; 0; 3; 0; 0; 0; 7] ++ [0]) /\
  refused (xscval (SMap (Some [(SU32 2, SVoid); (SU32 1, SVoid)]))) /\
  deserialize_from_bytes sx_yes [] (xscval (SLedgerKeyNonce 5)) = ([], Err (ESys TValue CUnexpectedType)) /\
  deserialize_from_bytes sx_yes [] [0; 0; 0; 3; 0; 0; 0; 7] = ([], Ok (word_of_atom (AU32 7))).
Proof. lazy. repeat split; eexists; reflexivity. Qed.
