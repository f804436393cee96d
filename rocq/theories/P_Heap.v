(* Properties C04, C07, C08, C09: symbols, XDR conversion and comparison. *)
From Coq Require Import ZArith Lia List Bool Sorted.
From Verif Require Import Prelude ValModel ValSpec ContainerModel ContainerSpec HeapModel HeapSpec
  ConvProofs HeapProofs2.
Import ListNotations.
Open Scope Z_scope.

(* Example data: {1: [2^60, -5 as i128, Address(account)], "a_long_symbol": b"xy"} *)
Definition ex_long : list Z := [97; 95; 108; 111; 110; 103; 95; 115; 121; 109; 98; 111; 108].
Definition ex_sc : scval :=
  SMap (Some [ (SU32 1, SVec (Some [SU64 (2 ^ 60); SI128 (-1) (2 ^ 64 - 5); SAddress (AAccount [7; 8])]));
               (SSymbol ex_long, SBytes [120; 121]) ]).
Definition ex_heap : heap := fst (to_host_val 10 [HOBytes [1; 2; 3]] ex_sc).
Definition ex_val : res Z := snd (to_host_val 10 [HOBytes [1; 2; 3]] ex_sc).

(* ---------------------------------------------------------------- C04 *)

(* Symbols compare as the strings they spell, whichever representation each has. *)
Theorem C04_symbols_sort_as_strings :
  forall d h a b s t, (1 <= d)%nat -> symbol_word h a s -> symbol_word h b t ->
  cmp_val d h a b = Ok (lex s t).
Proof. exact symbols_compare. Qed.
Print Assumptions C04_symbols_sort_as_strings.

Example C04_hyp :
  let h := [HOSymbol ex_long; HOSymbol [97; 98]] in
  symbol_word h (obj_word 0 (HOSymbol ex_long)) ex_long
  /\ symbol_word h (obj_word 1 (HOSymbol [97; 98])) [97; 98]
  /\ (exists w, symbol_small_from_bytes [97; 98] = Some w)
  /\ cmp_val 1 h (obj_word 0 (HOSymbol ex_long)) (obj_word 1 (HOSymbol [97; 98])) = Ok Lt.
Proof.
  cbv zeta. split; [|split; [|split]].
  - apply sw_object; [|reflexivity|vm_compute; reflexivity]. now apply symbol_bytes_ok_spec.
  - apply (sw_object _ 1); [|reflexivity|vm_compute; reflexivity]. now apply symbol_bytes_ok_spec.
  - eexists. vm_compute. reflexivity.
  - vm_compute. reflexivity.
Qed.

(* The comparison offered on values typed as Symbol does not have this property:
   it orders an in-word symbol before any object symbol. *)
Theorem C04_typed_symbol_comparison_refuted :
  exists h a b s t d, symbol_word h a s /\ symbol_word h b t /\ (1 <= d)%nat
    /\ lex s t = Gt /\ cmp_symbol_typed d h a b = Ok Lt.
Proof.
  exists [HOSymbol ex_long].
  destruct (symbol_small_from_bytes [98]) as [w|] eqn:E; [|vm_compute in E; discriminate].
  exists w, (obj_word 0 (HOSymbol ex_long)), [98], ex_long, 1%nat.
  split; [now constructor|]. split.
  { apply sw_object; [|reflexivity|vm_compute; reflexivity]. now apply symbol_bytes_ok_spec. }
  split; [lia|]. vm_compute in E. injection E as <-. split; vm_compute; reflexivity.
Qed.
Print Assumptions C04_typed_symbol_comparison_refuted.

(* ---------------------------------------------------------------- C07 *)

(* A value that loads reads back as the same XDR, now and after any later
   objects are added. *)
Theorem C07_load_then_read_is_identity :
  forall d h s h' v, sc_typed s -> to_host_val d h s = (h', Ok v) -> fits h' ->
  forall d' later, (d <= d')%nat -> from_host_val d' false (h' ++ later) v = Ok s.
Proof. exact load_read. Qed.
Print Assumptions C07_load_then_read_is_identity.

(* Every representable tree within the depth limit loads, given room. *)
Theorem C07_representable_values_load :
  forall d h s t, sc_typed s -> tree_of s = Some t -> valid_tree t -> (tdepth t <= d)%nat ->
  room h (tsize t) -> exists h' v, to_host_val d h s = (h', Ok v) /\ fits h'.
Proof. exact load_accepts. Qed.
Print Assumptions C07_representable_values_load.

(* A tree with an absent body, unsorted or duplicate keys, an invalid symbol, an
   unsupported address or a reserved value anywhere in it is refused. *)
Theorem C07_unrepresentable_values_refused :
  forall d h s h' r, sc_typed s -> to_host_val d h s = (h', r) -> fits h' ->
  ~ representable s -> exists e, r = Err e.
Proof. exact load_refuses. Qed.
Print Assumptions C07_unrepresentable_values_refused.

(* Loading, successful or not, leaves existing objects where they were, and
   every object in the table stays well formed. *)
Theorem C07_loading_disturbs_nothing :
  forall d h s h' r, sc_typed s -> to_host_val d h s = (h', r) -> fits h' ->
  extends h h' /\ (heap_ok h -> heap_ok h').
Proof. exact load_keeps. Qed.
Print Assumptions C07_loading_disturbs_nothing.

(* Reading any host value out and loading it again gives an equal value. *)
Theorem C07_read_then_load_is_equal :
  forall h v, heap_ok h -> live h v -> forall d s, from_host_val d false h v = Ok s ->
  sc_typed s /\ representable s
  /\ (forall d' h' v', to_host_val d' h s = (h', Ok v') -> fits h' ->
        forall d'', (d' <= d'')%nat -> cmp_val d'' h' v v' = Ok Eq).
Proof. exact read_load. Qed.
Print Assumptions C07_read_then_load_is_equal.

(* Conversion for storage refuses exactly the values holding a muxed address. *)
Theorem C07_storage_refuses_muxed_addresses :
  forall d h s h' v, sc_typed s -> to_host_val d h s = (h', Ok v) -> fits h' ->
  forall d' later t, (d <= d')%nat -> tree_of s = Some t ->
  (mux_free t -> from_host_val d' true (h' ++ later) v = Ok s)
  /\ (~ mux_free t -> from_host_val d' true (h' ++ later) v = Err (ESys TStorage CInvalidInput)).
Proof. exact storage_read. Qed.
Print Assumptions C07_storage_refuses_muxed_addresses.

Lemma ex_typed : sc_typed ex_sc.
Proof.
  cbn. unfold u64_ok, i64_ok, bytes_ok, short, u32_max. cbn.
  repeat split; try lia. repeat constructor; lia.
Qed.

Lemma ex_loads : to_host_val 10 [HOBytes [1; 2; 3]] ex_sc = (ex_heap, ex_val)
  /\ (exists v, ex_val = Ok v) /\ length ex_heap = 7%nat /\ fits ex_heap.
Proof.
  split; [reflexivity|]. split; [eexists; vm_compute; reflexivity|].
  split; [vm_compute; reflexivity|]. unfold fits. vm_compute. discriminate.
Qed.

Example C07_hyp : sc_typed ex_sc /\ (exists v, to_host_val 10 [HOBytes [1; 2; 3]] ex_sc = (ex_heap, Ok v))
  /\ fits ex_heap /\ (exists t, tree_of ex_sc = Some t /\ tdepth t = 3%nat /\ mux_free t).
Proof.
  split; [exact ex_typed|]. destruct ex_loads as (E & (v & V) & _ & F).
  split; [exists v; rewrite E, V; reflexivity|]. split; [exact F|].
  eexists. split; [vm_compute; reflexivity|]. cbn. tauto.
Qed.

(* duplicate keys *)
Example C07_refused_hyp :
  let s := SMap (Some [(SU32 1, SVoid); (SU32 1, SVoid)]) in
  sc_typed s /\ ~ representable s /\ snd (to_host_val 5 [] s) = Err (ESys TObject CInvalidInput).
Proof.
  cbv zeta. split; [cbn; repeat split; lia|]. split; [|vm_compute; reflexivity].
  intros (t & E & V). vm_compute in E. injection E as <-. cbn in V. destruct V as (_ & S & _).
  inversion S as [|? ? _ F]. inversion F as [|? ? C _]. discriminate C.
Qed.

(* ---------------------------------------------------------------- C08 *)

(* Comparing a value with itself gives equal. *)
Theorem C08_compare_reflexive : forall d h a, cmp_val d h a a = Ok Eq.
Proof. exact compare_refl. Qed.
Print Assumptions C08_compare_reflexive.

(* Swapping the arguments reverses the answer, equal values are
   interchangeable and the order is transitive, whatever depth each comparison
   had left. *)
Theorem C08_compare_antisymmetric_transitive :
  forall h, heap_ok h -> forall d1 d2 d3 a b c x y z, live h a -> live h b -> live h c ->
  (cmp_val d1 h a b = Ok x -> cmp_val d2 h b a = Ok y -> y = CompOpp x)
  /\ (cmp_val d1 h a b = Ok x -> cmp_val d2 h b c = Ok y -> cmp_val d3 h a c = Ok z ->
      (x = Eq -> z = y) /\ (y = Eq -> z = x) /\ (x = y -> z = x)).
Proof. exact compare_laws. Qed.
Print Assumptions C08_compare_antisymmetric_transitive.

(* The answer is the documented order of the trees the words stand for: by type,
   numbers by size, strings bytewise, containers element by element. *)
Theorem C08_compare_is_the_documented_order :
  forall h d a b t u c, denotes h a t -> denotes h b u -> cmp_val d h a b = Ok c -> c = tcmp t u.
Proof. exact compare_means. Qed.
Print Assumptions C08_compare_is_the_documented_order.

(* Comparison fails only for lack of depth, and then both values nest deeper
   than the depth left. *)
Theorem C08_compare_fails_only_for_depth :
  forall h, heap_ok h -> forall d a b e, live h a -> live h b -> cmp_val d h a b = Err e ->
  e = ESys TContext CExceededLimit
  /\ exists t u, denotes h a t /\ denotes h b u /\ (d < tdepth t)%nat /\ (d < tdepth u)%nat.
Proof. exact compare_fails. Qed.
Print Assumptions C08_compare_fails_only_for_depth.

(* The hypotheses hold in every table built by loading values. *)
Theorem C08_loaded_tables_are_well_formed :
  forall d l h h' rs, Forall sc_typed l -> load_all d h l = (h', rs) -> fits h' ->
  extends h h' /\ (heap_ok h -> heap_ok h') /\ forall v, In (Ok v) rs -> live h' v.
Proof. exact load_all_ok. Qed.
Print Assumptions C08_loaded_tables_are_well_formed.

Example C08_hyp :
  exists h rs, load_all 10 [] [ex_sc; SU64 5; SU64 (2 ^ 60); ex_sc] = (h, rs) /\ fits h /\ heap_ok h
    /\ exists a b c d, rs = [Ok a; Ok b; Ok c; Ok d] /\ live h a /\ live h b /\ live h c
       /\ cmp_val 10 h a d = Ok Eq /\ a <> d /\ cmp_val 10 h b c = Ok Lt /\ cmp_val 10 h c a = Ok Lt.
Proof.
  destruct (load_all 10 [] [ex_sc; SU64 5; SU64 (2 ^ 60); ex_sc]) as [h rs] eqn:E.
  exists h, rs. split; [reflexivity|].
  assert (T : Forall sc_typed [ex_sc; SU64 5; SU64 (2 ^ 60); ex_sc]).
  { repeat (apply Forall_cons; [first [exact ex_typed | cbn; unfold u64_ok; lia]|]). constructor. }
  assert (F : fits h). { unfold fits. vm_compute in E. injection E as <- <-. vm_compute. discriminate. }
  destruct (load_all_ok _ _ _ _ _ T E F) as (_ & K & L).
  split; [exact F|]. split; [apply K; constructor|].
  vm_compute in E. injection E as <- <-. eexists _, _, _, _. split; [reflexivity|].
  split; [apply L; cbn; tauto|]. split; [apply L; cbn; tauto|]. split; [apply L; cbn; tauto|].
  split; [vm_compute; reflexivity|]. split; [discriminate|]. split; vm_compute; reflexivity.
Qed.

(* ---------------------------------------------------------------- C09 *)

(* Two values loaded into the same table compare there as their XDR forms do,
   and both comparisons succeed whenever either value's loading depth is left. *)
Theorem C09_host_order_is_xdr_order :
  forall d1 d2 h s1 s2 h1 h2 v1 v2, sc_typed s1 -> sc_typed s2 ->
  to_host_val d1 h s1 = (h1, Ok v1) -> to_host_val d2 h1 s2 = (h2, Ok v2) -> fits h2 ->
  forall later,
    (forall d d' c c', cmp_val d (h2 ++ later) v1 v2 = Ok c -> cmp_scval d' s1 s2 = Ok c' -> c = c')
    /\ (forall d d', (d1 <= d \/ d2 <= d)%nat -> (d1 <= d' \/ d2 <= d')%nat ->
        exists c, cmp_val d (h2 ++ later) v1 v2 = Ok c /\ cmp_scval d' s1 s2 = Ok c).
Proof. exact orders_agree. Qed.
Print Assumptions C09_host_order_is_xdr_order.

(* A map the host accepts has its keys ascending in the XDR order. *)
Theorem C09_accepted_maps_are_sorted_in_xdr_order :
  forall d h m h' v, sc_typed (SMap (Some m)) ->
  to_host_val d h (SMap (Some m)) = (h', Ok v) -> fits h' ->
  forall d', (d <= d')%nat -> check_sorted (cmp_scval d') m = Ok tt.
Proof. exact map_keys_agree. Qed.
Print Assumptions C09_accepted_maps_are_sorted_in_xdr_order.

Example C09_hyp : exists h1 h2 v1 v2, to_host_val 10 [] ex_sc = (h1, Ok v1)
  /\ to_host_val 10 h1 (SVec (Some [ex_sc])) = (h2, Ok v2) /\ fits h2
  /\ cmp_val 10 h2 v1 v2 = Ok Gt /\ cmp_scval 10 ex_sc (SVec (Some [ex_sc])) = Ok Gt.
Proof.
  eexists _, _, _, _. split; [vm_compute; reflexivity|]. split; [vm_compute; reflexivity|].
  split; [unfold fits; vm_compute; discriminate|]. split; vm_compute; reflexivity.
Qed.
