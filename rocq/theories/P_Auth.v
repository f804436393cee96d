(* Properties C35 (require_auth), C36 (one use for each authorization), C37
   (nonces), C38 (failed calls give authorizations back), C39 (authentication). *)
From Coq Require Import ZArith Lia List Bool Permutation.
From Verif Require Import Prelude ValModel ContainerModel HeapModel AMap StorageModel StorageSpec
  StorageProofs StorageProofs2 StorageLogic StorageProofs3 FrameModel FrameSpec FrameProofs FrameStore FrameProofs2
  AuthModel AuthSpec AuthProofs AuthProofs2 AuthProofs3 AuthProofs4 AuthProofs5 AuthProofs6 AuthProofs7.
Import ListNotations.
Open Scope Z_scope.

(* ---------------------------------------------------------------- an example *)

(* Contracts 10, 11, 12, a wallet contract 20 and an account 1.  The account
   signed a tree: 10.run(5), with 11.pay(7) below; the wallet signed 11.pay(8).
   10.run asks for the account, tries 11.pay, which asks for both and fails;
   calls 11.pay again, which succeeds; pre-authorizes 12.x() for itself and calls
   11.mid, which calls 12.x, which asks for contract 10. *)
Definition ax_run : list Z := [114; 117; 110].
Definition ax_pay : list Z := [112; 97; 121].
Definition ax_mid : list Z := [109; 105; 100].
Definition ax_x : list Z := [120].
Definition ax_user : addr := AAccount [1].
Definition ax_wallet : addr := AContract [20].
Definition ax_entries : list entry_ :=
  [ {| en_addr := ax_user; en_cred := Some (9, 150);
       en_tree := FT (FnContract [10] ax_run [SU32 5]) [FT (FnContract [11] ax_pay [SU32 7]) []] |};
    {| en_addr := ax_wallet; en_cred := Some (3, 120); en_tree := FT (FnContract [11] ax_pay [SU32 8]) [] |} ].
Definition ax_sig : nat -> res unit := fun _ => Ok tt.
Definition ax_check : nat -> aprog := fun _ => AStore (SHop (HPut (SU32 1) (SU32 2) Persistent)) (fun _ => ARet (Ok tt)).
Definition ax_none : nat -> aprog := fun _ => ARet (Err (ESys TContext CInternalError)).
Definition ax_pays (r : res unit) : aprog :=
  ARequire ax_user [SU32 7] ax_sig ax_none (ARequire ax_wallet [SU32 8] ax_sig ax_check (ARet r)).
Definition ax_prog : aprog :=
  ACall [10] ax_run false
    (ARequire ax_user [SU32 5] ax_sig ax_none
      (ACall [11] ax_pay true (ax_pays (Err (EContract 3))) (fun _ =>
       ACall [11] ax_pay false (ax_pays (Ok tt)) (fun _ =>
       AAuthorize [FT (FnContract [12] ax_x []) []]
         (ACall [11] ax_mid false
            (ACall [12] ax_x false (ARequire (AContract [10]) [] ax_sig ax_none (ARet (Ok tt))) (fun r => ARet r))
            (fun r => ARet r))))))
    (fun r => ARet r).
Definition ax_li : linfo := {| li_seq := 100; li_min_temp := 16; li_min_persistent := 4096; li_max_ttl := 10000 |}.
Definition ax_key : lkey := LKData ax_wallet (SU32 1) Persistent.
(* an enforcing run with the nonces and the wallet's entry in its footprint *)
Definition ax_foot : list (lkey * access) := [(nonce_key ax_user 9, ReadWrite); (nonce_key ax_wallet 3, ReadWrite); (ax_key, ReadWrite)].
Definition ax_c : sconf := {| sc_li := ax_li; sc_mode := Enforcing; sc_recording_build := false |}.
Definition ax_src : lkey -> option lentry := fun _ => None.
Definition ax_sto : storage := loaded ax_li ax_src ax_foot.
Definition ax_st : astate := new_enforcing ax_sto ax_entries.

Example ax_li_ok : li_ok (sc_li ax_c).
Proof. unfold li_ok, min_live, max_live, u32_max. cbn. lia. Qed.
Example ax_run_ok : run_ok ax_c ax_sto.
Proof.
  left. split; [reflexivity|]. split; [|intros X; discriminate X]. intros k F. unfold ax_sto. rewrite loaded_get.
  change (st_foot ax_sto) with ax_foot in F. destruct (fget ax_foot k); congruence.
Qed.
Example ax_alive : alive (sc_li ax_c) (contents ax_c ax_sto).
Proof. intros k. unfold contents. unfold ax_sto. rewrite loaded_get. destruct (fget ax_foot k); exact I. Qed.
Example ax_reachable : reachable ax_c ax_entries ax_st.
Proof. apply reach_start; [apply ax_run_ok|apply ax_alive]. Qed.

(* ---------------------------------------------------------------- C35 *)

(* Any transaction, with any entries, on any ledger: its record t is one of the
   program (every call, creation and successful require_auth is in it), and it is
   explained by the rules of AuthSpec: a require_auth succeeds only for the
   direct invoker, by a pre-authorization in scope of the contract asked for, or
   by an entry of the address asked for, at a node of that very function that is
   unused and lies directly under the node that authorized the nearest enclosing
   call (or is the root). *)
Theorem C35_require_auth_needs_a_match : forall c entries sto p st' r t,
  li_ok (sc_li c) -> run_ok c sto -> alive (sc_li c) (contents c sto) ->
  transaction c (new_enforcing sto entries) p = (st', r, t) ->
  record entries None p r t
  /\ exists s', explained (sc_li c) entries (start (fun a n => contents c sto (nonce_key a n))) t s'.
Proof.
  intros c entries sto p st' r t LI RO AL E. split; [exact (proj1 (tx_spec entries c LI sto RO AL p st' r t E))|].
  destruct (tx_explained entries c LI sto RO AL p st' r t E) as (s' & X & _). eauto.
Qed.
Print Assumptions C35_require_auth_needs_a_match.

(* In particular every use of an entry, in failed calls too, is for the entry's
   address and for a function its signer listed. *)
Theorem C35_entries_authorize_what_they_list : forall c entries sto p st' r t,
  li_ok (sc_li c) -> run_ok c sto -> alive (sc_li c) (contents c sto) ->
  transaction c (new_enforcing sto entries) p = (st', r, t) ->
  forall x, In x (flat_map everything t) ->
  match x with
  | TReq a f (MEntry i q) | TFirst a f i q _ _ =>
      exists e sub, nth_error entries i = Some e /\ en_addr e = a /\ tree_at (en_tree e) q = Some (FT f sub)
  | _ => True
  end.
Proof. intros c entries sto p st' r t LI RO AL. exact (entry_items entries c LI sto RO AL p st' r t). Qed.
Print Assumptions C35_entries_authorize_what_they_list.

Definition ax_tree : list atree := snd (transaction ax_c ax_st ax_prog).
Example C35_example : exists st', transaction ax_c ax_st ax_prog = (st', Ok tt, ax_tree)
  /\ ax_tree =
     [TCall [10] ax_run (Ok tt)
       [TFirst ax_user (FnContract [10] ax_run [SU32 5]) 0 [] AuthOk [];
        TCall [11] ax_pay (Err (EContract 3))
          [TReq ax_user (FnContract [11] ax_pay [SU32 7]) (MEntry 0 [0%nat]);
           TFirst ax_wallet (FnContract [11] ax_pay [SU32 8]) 1 [] AuthOk [TCall [20] s_check_auth (Ok tt) []]];
        TCall [11] ax_pay (Ok tt)
          [TReq ax_user (FnContract [11] ax_pay [SU32 7]) (MEntry 0 [0%nat]);
           TFirst ax_wallet (FnContract [11] ax_pay [SU32 8]) 1 [] AuthOk [TCall [20] s_check_auth (Ok tt) []]];
        TPre (AContract [10]) [FT (FnContract [12] ax_x []) []];
        TCall [11] ax_mid (Ok tt)
          [TCall [12] ax_x (Ok tt) [TReq (AContract [10]) (FnContract [12] ax_x []) (MPre 0 [])]]]].
Proof. eexists. vm_compute. split; reflexivity. Qed.

(* ---------------------------------------------------------------- C36 *)

(* No node of any entry authorizes two require_auths that are both kept. *)
Theorem C36_each_node_used_once : forall c entries sto p st' r t,
  li_ok (sc_li c) -> run_ok c sto -> alive (sc_li c) (contents c sto) ->
  transaction c (new_enforcing sto entries) p = (st', r, t) -> NoDup (flat_map uses t).
Proof.
  intros c entries sto p st' r t LI RO AL E. destruct (tx_explained entries c LI sto RO AL p st' r t E) as (s' & X & _).
  exact (uses_nodup _ _ _ _ _ X).
Qed.
Print Assumptions C36_each_node_used_once.
Example C36_example : flat_map uses ax_tree = [(0%nat, []); (0%nat, [0%nat]); (1%nat, [])].
Proof. vm_compute. reflexivity. Qed.
(* a second payment in the same call is refused *)
Example C36_example_twice : snd (fst (transaction ax_c ax_st
  (ACall [11] ax_pay false (ARequire ax_wallet [SU32 8] ax_sig ax_check (ARequire ax_wallet [SU32 8] ax_sig ax_check (ARet (Ok tt)))) (fun r => ARet r)))) = Err (ESys TAuth CInvalidAction).
Proof. vm_compute. reflexivity. Qed.

(* ---------------------------------------------------------------- C37 *)

(* A transaction and the nonces it consumed: each was unused on the ledger,
   within its validity, and stays on the ledger at least until its expiration;
   no nonce was consumed twice; every other nonce is as before.  A transaction
   that failed consumed none, and calls that failed do not count. *)
Theorem C37_nonces_consumed_once : forall t, tx_ok t ->
  (forall a n x, In (a, n, x) (tx_burned t) ->
     tx_seq t <= x <= max_live (sc_li (tx_c t))
     /\ tx_begin t (nonce_key a n) = None
     /\ exists l, tx_end t (nonce_key a n) = Some (EData SVoid, Some l) /\ x <= l)
  /\ NoDup (map fst (tx_burned t))
  /\ (forall a n, (forall x, ~ In (a, n, x) (tx_burned t)) -> tx_end t (nonce_key a n) = tx_begin t (nonce_key a n)).
Proof.
  intros t OK. destruct (tx_burns t OK) as (A & B & C). split; [|split; [exact C|exact B]].
  intros a n x I. destruct (A a n x I) as (Q1 & Q2 & Q3). split; [exact Q1|]. split; [exact Q2|]. eexists. split; [exact Q3|lia].
Qed.
Print Assumptions C37_nonces_consumed_once.

(* An entry with credentials that was authenticated consumed its nonce. *)
Theorem C37_authenticated_entries_consume : forall t i e n x,
  tx_result t = Ok tt -> In i (flat_map authenticated (snd (tx_run t))) ->
  nth_error (tx_entries t) i = Some e -> en_cred e = Some (n, x) -> In (en_addr e, n, x) (tx_burned t).
Proof.
  intros t i e n x OK I N C. unfold tx_burned, burned. rewrite OK. apply in_flat_map. exists i. split; [exact I|].
  unfold nonce_of. rewrite N, C. now left.
Qed.
Print Assumptions C37_authenticated_entries_consume.

(* Any history of transactions over a ledger that keeps unexpired nonces: when
   the same nonce of an address is accepted again, the first authorization has
   expired. *)
Theorem C37_no_replay : forall l, history l -> Forall tx_ok l ->
  forall j k t u a n x x', (j < k)%nat -> nth_error l j = Some t -> nth_error l k = Some u ->
  In (a, n, x) (tx_burned t) -> In (a, n, x') (tx_burned u) -> x < tx_seq u.
Proof. exact replay_history. Qed.
Print Assumptions C37_no_replay.

Definition ax_tx : tx := {| tx_c := ax_c; tx_store := ax_sto; tx_entries := ax_entries; tx_prog := ax_prog |}.
Example C37_example_ok : tx_ok ax_tx.
Proof. split; [apply ax_li_ok|]. split; [apply ax_run_ok|apply ax_alive]. Qed.
Example C37_example : tx_burned ax_tx = [(ax_user, 9, 150); (ax_wallet, 3, 120)]
  /\ tx_end ax_tx (nonce_key ax_wallet 3) = Some (EData SVoid, Some 120).
Proof. vm_compute. split; reflexivity. Qed.
(* the same transaction at ledgers 120 and 121: refused, and then accepted up to
   the nonce of the wallet *)
Definition ax_at (seq : Z) : tx :=
  let li := {| li_seq := seq; li_min_temp := 16; li_min_persistent := 4096; li_max_ttl := 10000 |} in
  {| tx_c := {| sc_li := li; sc_mode := Enforcing; sc_recording_build := false |};
     tx_store := loaded li (tx_end ax_tx) ax_foot;
     tx_entries := [ {| en_addr := ax_wallet; en_cred := Some (3, 125); en_tree := FT (FnContract [11] ax_pay [SU32 8]) [] |} ];
     tx_prog := ACall [11] ax_pay false (ARequire ax_wallet [SU32 8] ax_sig (fun _ => ARet (Ok tt)) (ARet (Ok tt))) (fun r => ARet r) |}.
Definition ax_m : list (lkey * option lentry) := Eval vm_compute in st_map (as_store (fst (fst (tx_run ax_tx)))).
Lemma ax_end_in k v : tx_end ax_tx k = Some v -> In (k, Some v) ax_m.
Proof.
  unfold tx_end, contents. replace (st_map (as_store (fst (fst (tx_run ax_tx))))) with ax_m by (vm_compute; reflexivity).
  destruct (mget ax_m k) as [o|] eqn:E; [|discriminate]. intros ->. exact (aget_In _ _ _ _ E).
Qed.
Lemma ax_end_nonces k e l : tx_end ax_tx k = Some (e, l) -> l <> None.
Proof.
  intros X. apply ax_end_in in X. cbn [In ax_m] in X. intros ->.
  repeat (destruct X as [X|X]; [discriminate X|]). exact X.
Qed.
Lemma ax_end_foot k v : tx_end ax_tx k = Some v -> fget ax_foot k <> None.
Proof.
  intros X. apply ax_end_in in X. cbn [In ax_m] in X.
  repeat (destruct X as [X|X]; [apply (f_equal fst) in X; cbn [fst] in X; subst k; vm_compute; discriminate|]). destruct X.
Qed.
Lemma ax_at_ok seq : 100 <= seq <= 200 -> tx_ok (ax_at seq).
Proof.
  intros H. assert (LI : li_ok (sc_li (tx_c (ax_at seq)))) by (unfold li_ok, min_live, max_live, u32_max; cbn; lia). split; [exact LI|]. split.
  - left. split; [reflexivity|]. split; [|intros X; discriminate X]. intros k F. cbn [tx_store ax_at]. rewrite loaded_get.
    change (st_foot (tx_store (ax_at seq))) with ax_foot in F. destruct (fget ax_foot k); congruence.
  - intros k. unfold tx_begin, contents. cbn [tx_store ax_at tx_c sc_li sc_mode]. rewrite loaded_get. destruct (fget ax_foot k); [|exact I].
    apply now_live; [exact LI|]. intros e l X D. exact (ax_end_nonces _ _ _ X).
Qed.
Example C37_example_history : history [ax_tx; ax_at 121] /\ Forall tx_ok [ax_tx; ax_at 121]
  /\ tx_result (ax_at 120) = Err (ESys TAuth CExistingValue) /\ tx_burned (ax_at 120) = []
  /\ tx_burned (ax_at 121) = [(ax_wallet, 3, 125)].
Proof.
  split; [|split; [|split; [|split]]]; [|constructor; [apply C37_example_ok|constructor; [apply ax_at_ok; lia|constructor]]|vm_compute; reflexivity..].
  split; [|split; exact I]. split; [cbn; lia|]. intros a n v x E L.
  exists v, x. split; [|lia].
  unfold tx_begin, contents. cbn [tx_store ax_at tx_c sc_li sc_mode]. rewrite loaded_get.
  pose proof (ax_end_foot _ _ E) as D.
  destruct (fget ax_foot (nonce_key a n)); [|congruence]. unfold now. cbn [key_durability nonce_key]. rewrite E.
  change (tx_seq (ax_at 121)) with 121 in L. cbn. destruct (x <? 121) eqn:Q; [lia|reflexivity].
Qed.

(* ---------------------------------------------------------------- C38 *)

(* In any state contracts run in: a try_call that fails is as if it had not been
   made, except for the record and for the pre-authorizations that were made for
   it.  Authorizations, authentications, nonces and storage are all as before. *)
Theorem C38_failed_call_gives_everything_back : forall c entries st id fn body k st2 e l,
  li_ok (sc_li c) -> reachable c entries st -> sc_mode c = Enforcing ->
  exec c (push_frame (FrContract id fn) st) body = (st2, Err e, l) -> recoverable e = true ->
  exec c st (ACall id fn true body k) =
    let '(st3, r, t) := exec c (without_pending st) (k (Err e)) in (st3, r, TCall id fn (Err e) l :: t).
Proof.
  intros c entries st id fn body k st2 e l LI RE. exact (failed_try c LI st id fn body k st2 e l (reach_ainv c entries st LI RE)).
Qed.
Print Assumptions C38_failed_call_gives_everything_back.

(* A transaction that fails uses nothing up and changes no ledger entry. *)
Theorem C38_failed_transaction : forall c entries sto p st' e t,
  li_ok (sc_li c) -> run_ok c sto -> alive (sc_li c) (contents c sto) ->
  transaction c (new_enforcing sto entries) p = (st', Err e, t) ->
  as_acc st' = as_acc (new_enforcing sto entries) /\ as_inv st' = [] /\ as_stack st' = []
  /\ forall k, contents c (as_store st') k = contents c sto k.
Proof.
  intros c entries sto p st' e t LI RO AL E. destruct (tx_spec entries c LI sto RO AL p st' (Err e) t E) as (_ & st1 & _ & _ & _ & F). exact F.
Qed.
Print Assumptions C38_failed_transaction.

(* the call of 11.pay that used both entries and then failed *)
Definition ax_in : astate := fst (fst (exec ax_c (push_frame (FrContract [10] ax_run) ax_st) (ARequire ax_user [SU32 5] ax_sig ax_none (ARet (Ok tt))))).
Example C38_example : reachable ax_c ax_entries ax_in
  /\ exists st2 l, exec ax_c (push_frame (FrContract [11] ax_pay) ax_in) (ax_pays (Err (EContract 3))) = (st2, Err (EContract 3), l)
     /\ length (flat_map uses l) = 2%nat /\ contents ax_c (as_store st2) (nonce_key ax_wallet 3) <> None
     /\ contents ax_c (as_store st2) ax_key <> None.
Proof.
  split.
  - unfold ax_in. destruct (exec ax_c (push_frame (FrContract [10] ax_run) ax_st) _) as [[s r] t] eqn:E. cbn [fst].
    eapply reach_run; [|exact E]. apply reach_enter, ax_reachable.
  - eexists. eexists. split; [vm_compute; reflexivity|]. vm_compute. repeat split; discriminate.
Qed.

(* ---------------------------------------------------------------- C39 *)

(* In a successful transaction every entry with a kept use was authenticated,
   and once.  (That a use of an entry comes after its authentication, and that
   the authentication really ran, is in C35: rules x_entry and x_first, and
   rec_first_*.) *)
Theorem C39_used_entries_are_authenticated_once : forall c entries sto p st' t,
  li_ok (sc_li c) -> run_ok c sto -> alive (sc_li c) (contents c sto) ->
  transaction c (new_enforcing sto entries) p = (st', Ok tt, t) ->
  NoDup (flat_map authenticated t) /\ forall i q, In (i, q) (flat_map uses t) -> In i (flat_map authenticated t).
Proof. intros c entries sto p st' t LI RO AL. exact (success_checked entries c LI sto RO AL p st' t). Qed.
Print Assumptions C39_used_entries_are_authenticated_once.

(* While an entry is being authenticated nothing can be authorized by it. *)
Theorem C39_not_while_authenticating : forall c entries sto p st' r t a f i q ok l,
  li_ok (sc_li c) -> run_ok c sto -> alive (sc_li c) (contents c sto) ->
  transaction c (new_enforcing sto entries) p = (st', r, t) ->
  In (TFirst a f i q ok l) (flat_map everything t) -> forall x, In x (flat_map everything l) -> ~ touches i x.
Proof. intros c entries sto p st' r t a f i q ok l LI RO AL. exact (authenticating_unused entries c LI sto RO AL p st' r t a f i q ok l). Qed.
Print Assumptions C39_not_while_authenticating.

Example C39_example : flat_map authenticated ax_tree = [0%nat; 1%nat].
Proof. vm_compute. reflexivity. Qed.
(* a wallet whose __check_auth calls a contract that calls 11.pay is refused *)
Example C39_example_self : snd (fst (transaction ax_c ax_st
  (ACall [11] ax_pay false (ARequire ax_wallet [SU32 8] ax_sig
     (fun _ => ACall [12] ax_mid false (ACall [11] ax_pay false (ARequire ax_wallet [SU32 8] ax_sig ax_check (ARet (Ok tt))) (fun r => ARet r)) (fun r => ARet r))
     (ARet (Ok tt))) (fun r => ARet r)))) = Err (ESys TAuth CInvalidAction).
Proof. vm_compute. reflexivity. Qed.
