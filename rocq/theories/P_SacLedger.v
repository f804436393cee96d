(* Properties of the asset contract's ledger entries: C78. *)
From Coq Require Import ZArith Lia String List Bool.
From Verif Require Import Prelude ValModel HeapModel AMap StorageModel CtModel SacModel SacSpec P_Sac
  SacLedgerModel SacLedgerSpec SacLedgerProofs SacLedgerProofs3 SacLedgerProofs4.
Import ListNotations.
Open Scope Z_scope.

(* ------------------------------------------------------ a ledger to try things *)

(* The ledger of [ex_st], as entries: two balances, an allowance and the instance,
   and the keys of a third holder and of a second allowance, which have no entry. *)
Definition ex_self : addr := AContract (ex_key 77).
Definition ex_e : addr := AContract (ex_key 6).
Definition ex_bal (x : Z) (au : bool) (live : Z) : lentry :=
  (EData (SMap (Some [(name_ "amount", SI128 0 x); (name_ "authorized", SBool au); (name_ "clawback", SBool true)])),
   Some live).
Definition ex_instance : option (list (scval * scval)) := Some [(name_ "METADATA", SU32 7)].
Definition ex_store : storage := {|
  st_foot := [(bkey ex_self ex_c, ReadWrite); (bkey ex_self ex_d, ReadOnly); (bkey ex_self ex_e, ReadWrite);
              (akey ex_self ex_c ex_al, ReadWrite); (akey ex_self ex_d ex_al, ReadWrite); (ikey ex_self, ReadOnly)];
  st_map := [(bkey ex_self ex_c, Some (ex_bal 500 true 1000)); (bkey ex_self ex_d, Some (ex_bal 7 false 1000));
             (bkey ex_self ex_e, None);
             (akey ex_self ex_c ex_al,
              Some (EData (SMap (Some [(name_ "amount", SI128 0 60); (name_ "live_until_ledger", SU32 30)])), Some 30));
             (akey ex_self ex_d ex_al, None);
             (ikey ex_self, Some (EData (SContractInstance ExStellarAsset ex_instance), Some 900))];
|}.
Definition ex_ld : lst := {| ld_store := ex_store; ld_rest := ex_st |}.
Definition ex_senv : senv := answering ex_self (ex_env 10) ex_store.
Definition ex_auth : addr -> storage -> storage := fun _ s => s.
Example ex_quiet : quiet ex_self ex_auth.
Proof. intros a s. split; reflexivity. Qed.
Example ex_running : running (ex_env 10) ex_self ex_store.
Proof.
  constructor; try (vm_compute; reflexivity); try (vm_compute; congruence).
  exists ex_instance, 900. split; [vm_compute; reflexivity|vm_compute; congruence].
Qed.
Example ex_in_order : in_order 10 ex_self ex_store.
Proof.
  constructor.
  - intros a e F. unfold found in F. apply aget_In in F. cbn in F.
    destruct F as [F|[F|[F|[F|[F|[F|[]]]]]]]; try discriminate; injection F as F1 <-.
    + exists {| b_amount := 500; b_auth := true; b_claw := true; b_live := 1000 |}.
      split; [reflexivity|]. cbn. unfold i128_range. lia.
    + exists {| b_amount := 7; b_auth := false; b_claw := true; b_live := 1000 |}.
      split; [reflexivity|]. cbn. unfold i128_range. lia.
  - intros f p e F. unfold found in F. apply aget_In in F. cbn in F.
    destruct F as [F|[F|[F|[F|[F|[F|[]]]]]]]; try discriminate; injection F as F1 F2 <-.
    exists {| l_amount := 60; l_until := 30; l_live := 30 |}.
    split; [reflexivity|]. cbn. unfold i128_range. lia.
Qed.

(* ---------------------------------------------------------------------- C78 *)

(* On a ledger that shows the balances and allowances of [st], a call answers
   what it answers on [st], error for error, and the ledger then shows what the
   call makes of [st]: every property of the asset contract (C42-C46, C57-C60) is
   one of its ledger entries. *)
Theorem C78_call : forall env self auth_store L st c,
  0 <= li_seq (sv_li env) -> quiet self auth_store -> typed_call c ->
  shows env self (ld_store L) st -> running env self (ld_store L) -> same_rest (ld_rest L) st ->
  let '(L', r) := ld_invoke env self auth_store L c in
  let '(st', r') := invoke env st c in
  r = r' /\ shows env self (ld_store L') st' /\ running env self (ld_store L') /\ same_rest (ld_rest L') st'.
Proof. intros. apply call_exact; auto. Qed.
Print Assumptions C78_call.

(* The same for any sequence of calls in a transaction. *)
Fixpoint run_all env self L (l : list ((addr -> res unit) * (addr -> storage -> storage) * scall))
    : lst * list (res sret) :=
  match l with
  | [] => (L, [])
  | (f, au, c) :: l' =>
      let '(L1, r) := ld_invoke (with_auth env f) self au L c in
      let '(L2, rs) := run_all env self L1 l' in
      (L2, r :: rs)
  end.
Theorem C78_transaction : forall env self l L st,
  0 <= li_seq (sv_li env) ->
  Forall (fun p => quiet self (snd (fst p)) /\ typed_call (snd p)) l ->
  shows env self (ld_store L) st -> running env self (ld_store L) -> same_rest (ld_rest L) st ->
  let '(L', rs) := run_all env self L l in
  let '(st', rs') := invoke_all env st (map (fun p => (fst (fst p), snd p)) l) in
  rs = rs' /\ shows env self (ld_store L') st' /\ running env self (ld_store L') /\ same_rest (ld_rest L') st'.
Proof.
  intros env self l. induction l as [|[[f au] c] l IH]; intros L st S0 FA SH RN RS; [cbn; auto|].
  inversion FA as [|x y [Q T] FA' E]; subst. cbn [fst snd] in Q, T. cbn [run_all map invoke_all fst snd].
  assert (SH1 : shows (with_auth env f) self (ld_store L) st) by (destruct SH; constructor; auto).
  assert (RN1 : running (with_auth env f) self (ld_store L)) by (destruct RN; constructor; auto).
  pose proof (C78_call (with_auth env f) self au L st c S0 Q T SH1 RN1 RS) as K.
  destruct (ld_invoke _ _ _ L c) as [L1 r], (invoke _ st c) as [st1 r']. destruct K as (-> & SH2 & RN2 & RS2).
  assert (SH3 : shows env self (ld_store L1) st1) by (destruct SH2; constructor; auto).
  assert (RN3 : running env self (ld_store L1)) by (destruct RN2; constructor; auto).
  specialize (IH L1 st1 S0 FA' SH3 RN3 RS2). destruct (run_all env self L1 l), (invoke_all env st1 _).
  destruct IH as (-> & IH). auto.
Qed.
Print Assumptions C78_transaction.

(* Every ledger whose balance and allowance entries are in order shows the
   balances and allowances of some state; what the environment says of other
   entries is free. *)
Theorem C78_every_ledger : forall env self s r,
  in_order (li_seq (sv_li env)) self s ->
  exists env' st,
    sv_li env' = sv_li env /\ sv_reserve env' = sv_reserve env /\ sv_auth env' = sv_auth env
    /\ (forall k, match k with KAcc _ | KTl _ => sv_read env' k = sv_read env k /\ sv_write env' k = sv_write env k
                  | _ => True end)
    /\ shows env' self s st /\ same_rest r st
    /\ forall auth_store L c, ld_invoke env' self auth_store L c = ld_invoke env self auth_store L c.
Proof.
  intros env self s r IO. destruct (every_ledger self env s r IO) as (st & SH & RS).
  exists (answering self env s), st.
  split; [reflexivity|]. split; [reflexivity|]. split; [reflexivity|]. split; [intros []; auto|].
  split; [exact SH|]. split; [exact RS|].
  intros au L c. unfold ld_invoke. now rewrite answering_call.
Qed.
Print Assumptions C78_every_ledger.

(* Read off the ledger: the entries stay in order, and a successful call changes
   the amount in every contract's balance entry by what it is to move. *)
Theorem C78_ledger_moves : forall env self auth_store L c L' r,
  0 <= li_seq (sv_li env) -> quiet self auth_store -> typed_call c ->
  in_order (li_seq (sv_li env)) self (ld_store L) -> running env self (ld_store L) ->
  ld_invoke env self auth_store L c = (L', Ok r) ->
  in_order (li_seq (sv_li env)) self (ld_store L')
  /\ forall id, ledger_amount self (ld_store L') (AContract id)
                = ledger_amount self (ld_store L) (AContract id) + sum_for (AContract id) (moves c).
Proof. intros. eapply direct_moves; eauto. Qed.
Print Assumptions C78_ledger_moves.

(* A failing call leaves the ledger as it was.  A successful one leaves the
   footprint, and every entry as authorization left it, but for the balances of
   the contracts it moves between, the allowance it uses and the instance.  Making
   a trustline, the instance is extended first. *)
Theorem C78_nothing_else : forall env self auth_store L c L' o,
  quiet self auth_store -> running env self (ld_store L) ->
  ld_invoke env self auth_store L c = (L', o) ->
  match o with
  | Err _ => L' = L
  | Ok _ =>
      st_foot (ld_store L') = st_foot (ld_store L)
      /\ match c with
         | CTrust _ => exists s1, (forall k, k <> ikey self -> found s1 k = found (ld_store L) k)
                                 /\ ld_store L' = signed auth_store (ld_rest L) c s1
         | _ => forall k, ~ touches self c k ->
                found (ld_store L') k = found (signed auth_store (ld_rest L) c (ld_store L)) k
         end
  end.
Proof.
  intros env self auth_store L c L' [r|e] Q RN H.
  - eapply nothing_else; eauto.
  - unfold ld_invoke in H. destruct (ld_call _ _ _ _ _) as [[]|]; congruence.
Qed.
Print Assumptions C78_nothing_else.

(* The instance: every successful call but the one asking for the administrator
   keeps the contract alive.  With six days left or less, its instance will live
   for seven, as far as the network goes. *)
Theorem C78_instance_ttl : forall env self auth_store L c L' r,
  quiet self auth_store -> running env self (ld_store L) ->
  ld_invoke env self auth_store L c = (L', Ok r) ->
  exists data l,
    found (ld_store L) (ikey self) = Some (Some (EData (SContractInstance ExStellarAsset data), Some l))
    /\ found (ld_store L') (ikey self)
       = Some (Some (EData (SContractInstance ExStellarAsset data),
           Some (match c with
                 | CAdmin => l
                 | _ =>
                     let seq := li_seq (sv_li env) in
                     if seq + 6 * 17280 <? l then l
                     else Z.max l (Z.min (seq + 7 * 17280) (seq + Z.max 0 (li_max_ttl (sv_li env) - 1)))
                 end))).
Proof. intros. eapply instance_kept; eauto. Qed.
Print Assumptions C78_instance_ttl.

(* A contract's balance entry that a call asks for, moves or authorizes will live
   for at least 29 days, as far as the network goes. *)
Theorem C78_balance_ttl : forall env self auth_store L c L' r,
  0 <= li_seq (sv_li env) -> quiet self auth_store -> typed_call c ->
  in_order (li_seq (sv_li env)) self (ld_store L) -> running env self (ld_store L) ->
  ld_invoke env self auth_store L c = (L', Ok r) ->
  forall id e, In (AContract id) (holders c) -> found (ld_store L') (bkey self (AContract id)) = Some (Some e) ->
  exists l, snd e = Some l
    /\ Z.min (li_seq (sv_li env) + 29 * 17280) (li_seq (sv_li env) + Z.max 0 (li_max_ttl (sv_li env) - 1)) <= l.
Proof. intros. eapply direct_lasts; eauto. Qed.
Print Assumptions C78_balance_ttl.

(* On the example: what the entries show; a transfer from an allowance to a holder
   without entry, which gets one; and the errors of a key that may not be written,
   one outside the footprint and a holder not authorized. *)
Example ex_C78_shows : exists st, shows ex_senv ex_self ex_store st /\ same_rest ex_st st.
Proof. exact (every_ledger ex_self (ex_env 10) ex_store ex_st ex_in_order). Qed.
Example ex_C78 :
  let run := ld_invoke (ex_env 10) ex_self ex_auth in
  let p := run ex_ld (CTransferFrom ex_al ex_c ex_e 40) in
  let L1 := fst p in
  let q := run L1 (CApprove ex_d ex_al 9 50) in
  let L2 := fst q in
  snd p = Ok RUnit /\ snd q = Ok RUnit
  /\ map (fun k => found (ld_store L2) k)
       [bkey ex_self ex_c; bkey ex_self ex_e; akey ex_self ex_c ex_al; akey ex_self ex_d ex_al; ikey ex_self]
     = [Some (Some (ex_bal 460 true (10 + 30 * 17280))); Some (Some (ex_bal 40 true (10 + 30 * 17280)));
        Some (Some (EData (SMap (Some [(name_ "amount", SI128 0 20); (name_ "live_until_ledger", SU32 30)])), Some 30));
        Some (Some (EData (SMap (Some [(name_ "amount", SI128 0 9); (name_ "live_until_ledger", SU32 50)])), Some 50));
        Some (Some (EData (SContractInstance ExStellarAsset ex_instance), Some (10 + 7 * 17280)))]
  /\ map (fun c => snd (run L2 c))
       [CTransferFrom ex_al ex_c ex_e 21; CSetAuthorized ex_d true; CMint (AContract (ex_key 8)) 1; CTransfer ex_c ex_d 1;
        CBalance ex_e; CAllowance ex_c ex_al]
     = [Err (EContract 9); Err (ESys TStorage CExceededLimit); Err (ESys TStorage CExceededLimit); Err (EContract 11);
        Ok (RInt 40); Ok (RInt 20)].
Proof. vm_compute. repeat split; reflexivity. Qed.
