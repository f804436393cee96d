(* What the asset contract is for, in terms of what each address holds: written
   without the contract's own functions. *)
From Coq Require Import ZArith List Bool.
From Verif Require Import Prelude ValModel HeapModel AMap StorageModel SacModel.
Import ListNotations.
Open Scope Z_scope.

Definition aget_bal (st : sst) a := aget addr_dec (s_bal st) a.
Definition aget_allow (st : sst) f s := aget pair_dec (s_allow st) (f, s).
Definition aget_acc (st : sst) k := aget key_dec (s_acc st) k.
Definition aget_tl (st : sst) k := aget key_dec (s_tl st) k.

(* What an address holds of the asset: an account of the native asset its
   balance, an account of another asset the balance of its trustline, a contract
   the amount of its balance entry. *)
Definition holds (st : sst) (a : addr) : Z :=
  match a with
  | AAccount k =>
      match s_asset st with
      | Native => match aget_acc st k with Some x => sa_bal x | None => 0 end
      | Credit _ _ => match aget_tl st k with Some t => tl_bal t | None => 0 end
      end
  | AContract _ => match aget_bal st a with Some b => b_amount b | None => 0 end
  | _ => 0
  end.

Definition the_issuer (st : sst) (a : addr) : Prop :=
  match s_asset st with Native => False | Credit _ k => a = AAccount k end.

(* The plain account of a muxed one. *)
Definition plain (a : addr) : addr := match a with AMuxed _ k => AAccount k | a => a end.

(* What a call is to do to what the addresses hold.  The issuer holds nothing of
   its own asset: what it gets is gone, what it sends is new. *)
Definition moves (c : scall) : list (addr * Z) :=
  match c with
  | CTransfer f t x => [(f, - x); (plain t, x)]
  | CTransferFrom _ f t x => [(f, - x); (t, x)]
  | CBurn f x | CBurnFrom _ f x | CClawback f x => [(f, - x)]
  | CMint t x => [(t, x)]
  | _ => []
  end.
Fixpoint sum_for (x : addr) (l : list (addr * Z)) : Z :=
  match l with
  | [] => 0
  | (a, d) :: l => (if addr_dec a x then d else 0) + sum_for x l
  end.
Definition sum_over {A} (f : A -> Z) (l : list A) : Z := fold_right (fun a s => f a + s) 0 l.

(* What a successful call announces.  A transfer from the issuer is a mint, one to
   the issuer a burn, unless it sends to itself; a muxed receiver's id goes along. *)
Definition announces (st : sst) (c : scall) : list sevent :=
  let move f t x :=
    let p := plain t in
    let mux := match t with AMuxed i _ => Some i | _ => None end in
    match s_asset st with
    | Native => EvTransfer f p mux x
    | Credit _ i =>
        if addr_dec f p then EvTransfer f p mux x
        else if addr_dec f (AAccount i) then EvMint p mux x
        else if addr_dec p (AAccount i) then EvBurn f x
        else EvTransfer f p mux x
    end in
  match c with
  | CApprove f s x until => [EvApprove f s x until]
  | CTransfer f t x | CTransferFrom _ f t x => [move f t x]
  | CBurn f x | CBurnFrom _ f x => [EvBurn f x]
  | CClawback f x => [EvClawback f x]
  | CMint t x => [EvMint t None x]
  | CSetAuthorized a b => [EvSetAuthorized a b]
  | CSetAdmin a => match s_admin st with Some ad => [EvSetAdmin ad a] | None => [] end
  | _ => []
  end.

(* Amount of the calls that have one. *)
Definition amount_of (c : scall) : option Z :=
  match c with
  | CApprove _ _ x _ | CTransfer _ _ x | CTransferFrom _ _ _ x | CBurn _ x | CBurnFrom _ _ x
  | CClawback _ x | CMint _ x => Some x
  | _ => None
  end.

(* ------------------------------------------------------------------- limits *)

(* least and greatest balance of an account; [r] is the base reserve *)
Definition acc_entries (a : sacc) : Z :=
  2 + sa_sub a + match sa_ext a with Some (_, _, Some (ing, ed)) => ing - ed | _ => 0 end.
Definition acc_selling (a : sacc) : Z := match sa_ext a with Some (_, s, _) => s | None => 0 end.
Definition acc_buying (a : sacc) : Z := match sa_ext a with Some (b, _, _) => b | None => 0 end.
Definition acc_ok (r : Z) (a : sacc) : Prop :=
  0 <= acc_entries a /\ 0 <= acc_selling a /\ 0 <= acc_buying a
  /\ r * acc_entries a + acc_selling a <= sa_bal a <= 2 ^ 63 - 1 - acc_buying a.
Definition tl_selling (t : stl) : Z := match tl_ext t with Some (_, s) => s | None => 0 end.
Definition tl_buying (t : stl) : Z := match tl_ext t with Some (b, _) => b | None => 0 end.
Definition tl_ok (t : stl) : Prop :=
  0 <= tl_selling t /\ 0 <= tl_buying t /\ tl_limit t <= 2 ^ 63 - 1
  /\ tl_selling t <= tl_bal t <= tl_limit t - tl_buying t.
Definition limits (r : Z) (st : sst) : Prop :=
  (forall a b, aget_bal st a = Some b -> 0 <= b_amount b <= 2 ^ 127 - 1)
  /\ (forall k a, aget_acc st k = Some a -> acc_ok r a)
  /\ (forall k t, aget_tl st k = Some t -> tl_ok t).

(* ------------------------------------------------------------ authorization *)

(* Whether a holder is authorized to move the asset: authorization is bit 0 of
   the flags of a trustline; an address without balance entry is authorized
   unless bit 0 of the flags of the issuer's account, AUTH_REQUIRED, is set. *)
Definition may_move (st : sst) (a : addr) : Prop :=
  match a with
  | AAccount k =>
      match s_asset st with
      | Native => True
      | Credit _ i => k = i \/ exists t, aget_tl st k = Some t /\ Z.testbit (tl_flags t) 0 = true
      end
  | AContract _ =>
      match aget_bal st a with
      | Some b => b_auth b = true
      | None =>
          match s_asset st with
          | Native => True
          | Credit _ i => exists ac, aget_acc st i = Some ac /\ Z.testbit (sa_flags ac) 0 = false
          end
      end
  | _ => False
  end.
(* Whether a holding can be clawed back: bit 2 of the flags of a trustline. *)
Definition may_claw (st : sst) (a : addr) : Prop :=
  match a with
  | AAccount k =>
      match s_asset st with
      | Native => False
      | Credit _ i => k <> i /\ exists t, aget_tl st k = Some t /\ Z.testbit (tl_flags t) 2 = true
      end
  | AContract _ => exists b, aget_bal st a = Some b /\ b_claw b = true
  | _ => False
  end.
(* Whether the issuer has clawback enabled: bit 3 of the flags of its account. *)
Definition issuer_claws (st : sst) : bool :=
  match s_asset st with
  | Native => false
  | Credit _ i => match aget_acc st i with Some ac => Z.testbit (sa_flags ac) 3 | None => false end
  end.
(* The parties of a movement of the asset (clawback is not one of theirs). *)
Definition parties (c : scall) : list addr :=
  match c with
  | CTransfer f t _ => [f; plain t]
  | CTransferFrom _ f t _ => [f; t]
  | CBurn f _ | CBurnFrom _ f _ => [f]
  | CMint t _ => [t]
  | _ => []
  end.
(* Whose authorization a call needs. *)
Definition needs (st : sst) (c : scall) : option addr :=
  match c with
  | CApprove f _ _ _ | CTransfer f _ _ | CBurn f _ => Some f
  | CTransferFrom s _ _ _ | CBurnFrom s _ _ => Some s
  | CClawback _ _ | CSetAuthorized _ _ | CMint _ _ | CSetAdmin _ => s_admin st
  | CTrust (AAccount k) => match aget_tl st k with None => Some (AAccount k) | Some _ => None end
  | _ => None
  end.

(* ---------------------------------------------------------------- allowances *)

(* The allowance at ledger [seq]: what the allowance entry says, unless it is
   past its own live-until ledger or the entry's. *)
Definition allowance_at (st : sst) (seq : Z) (f s : addr) : Z :=
  match aget_allow st f s with
  | Some v => if (l_live v <? seq) || (l_until v <? seq) then 0 else l_amount v
  | None => 0
  end.
(* What a call takes on the allowance of [s] by [f]. *)
Definition takes (f s : addr) (c : scall) : Z :=
  match c with
  | CTransferFrom s' f' _ x | CBurnFrom s' f' x =>
      if addr_dec f' f then if addr_dec s' s then x else 0 else 0
  | _ => 0
  end.
Definition approves (f s : addr) (c : scall) : Prop :=
  match c with CApprove f' s' _ _ => f' = f /\ s' = s | _ => False end.

(* -------------------------------------------------------------------- events *)

(* What an event says about what an address holds. *)
Definition effect (x : addr) (ev : sevent) : Z :=
  match ev with
  | EvTransfer f t _ a => sum_for x [(f, - a); (t, a)]
  | EvMint t _ a => sum_for x [(t, a)]
  | EvBurn f a | EvClawback f a => sum_for x [(f, - a)]
  | _ => 0
  end.

(* ----------------------------------------------------------------- histories *)

(* What happens to the ledger between the calls: classic operations may change
   accounts and trustlines as they like within the limits; what belongs to the
   contract changes only in its live-until ledgers, which do not go down, and
   expired allowance entries may go. *)
Definition elsewhere (seq r : Z) (st st' : sst) : Prop :=
  s_asset st' = s_asset st /\ s_admin st' = s_admin st /\ s_events st' = s_events st
  /\ (forall a, match aget_bal st a, aget_bal st' a with
                | Some b, Some b' =>
                    b_amount b' = b_amount b /\ b_auth b' = b_auth b /\ b_claw b' = b_claw b
                | None, None => True
                | _, _ => False
                end)
  /\ (forall f s, match aget_allow st f s, aget_allow st' f s with
                  | Some v, Some v' =>
                      l_amount v' = l_amount v /\ l_until v' = l_until v
                      /\ (l_live v' = l_live v \/ seq <= l_live v <= l_live v')
                  | Some v, None => l_live v < seq
                  | None, None => True
                  | None, Some _ => False
                  end)
  /\ (limits r st -> limits r st').

Inductive step := SCall (env : senv) (c : scall) | SElse.
(* [history r seq st l seq' st']: from ledger [seq] and state [st] the steps [l]
   lead to ledger [seq'] and state [st']; ledger numbers do not go down and the
   base reserve is at least [r].  Each step comes with its outcome. *)
Inductive history (r : Z) : Z -> sst -> list (step * res sret) -> Z -> sst -> Prop :=
| H_nil seq st : history r seq st [] seq st
| H_call seq st env c st1 o l seq' st' :
    seq <= li_seq (sv_li env) -> r <= sv_reserve env ->
    invoke env st c = (st1, o) ->
    history r (li_seq (sv_li env)) st1 l seq' st' ->
    history r seq st ((SCall env c, o) :: l) seq' st'
| H_else seq seq1 st st1 l seq' st' :
    seq <= seq1 ->
    elsewhere seq1 r st st1 ->
    history r seq1 st1 l seq' st' ->
    history r seq st ((SElse, Ok RUnit) :: l) seq' st'.

(* The calls of a history that succeeded. *)
Definition successful (l : list (step * res sret)) : list (senv * scall) :=
  flat_map (fun p => match p with (SCall env c, Ok _) => [(env, c)] | _ => [] end) l.
Definition only_calls (l : list (step * res sret)) : Prop := forall o, ~ In (SElse, o) l.
(* What is taken on an allowance by the successful calls of a history; no approval
   for the pair among them. *)
Definition taken (f s : addr) (l : list (step * res sret)) : Z :=
  sum_over (fun p => takes f s (snd p)) (successful l).
Definition not_approved (f s : addr) (l : list (step * res sret)) : Prop :=
  forall env c, In (env, c) (successful l) -> ~ approves f s c.
Definition nonneg_allow (st : sst) : Prop :=
  forall f s v, aget_allow st f s = Some v -> 0 <= l_amount v.
(* Approvals of nothing name no ledger to come. *)
Definition clears_now (f s : addr) (l : list (step * res sret)) : Prop :=
  forall env until, In (env, CApprove f s 0 until) (successful l) -> until <= li_seq (sv_li env).
(* What the successful calls of a history add to what [x] holds. *)
Definition total_move (x : addr) (l : list (step * res sret)) : Z :=
  sum_over (fun p => sum_for x (moves (snd p))) (successful l).
(* Only the calls change what [x] holds: there are only calls, or [x] is a
   contract, whose balance is the asset contract's own data. *)
Definition calls_only (l : list (step * res sret)) (x : addr) : Prop :=
  only_calls l \/ exists id, x = AContract id.
(* Nothing of [x] is clawed back; [x] authorizes none of the calls. *)
Definition no_clawback_of (x : addr) (l : list (step * res sret)) : Prop :=
  forall env a, ~ In (env, CClawback x a) (successful l).
Definition never_authorizes (x : addr) (l : list (step * res sret)) : Prop :=
  forall env c, In (env, c) (successful l) -> sv_auth env x <> Ok tt.

(* ------------------------------------------------------ when calls must work *)

(* All entries the call can touch are in its footprint, and the ledger's
   settings are such that times to live can be computed. *)
Definition open_env (env : senv) : Prop :=
  (forall k, sv_read env k = Ok tt) /\ (forall k, sv_write env k = Ok tt)
  /\ 0 <= sv_reserve env
  /\ 0 <= li_seq (sv_li env)
  /\ li_seq (sv_li env) + li_max_ttl (sv_li env) <= u32_max
  /\ li_seq (sv_li env) + li_min_persistent (sv_li env) <= u32_max
  /\ li_seq (sv_li env) + 30 * 17280 <= u32_max
  /\ li_seq (sv_li env) <= 2 ^ 31 - 1
  /\ 1 <= li_max_ttl (sv_li env) /\ 1 <= li_min_persistent (sv_li env).
(* The counts of an account are 32-bit numbers. *)
Definition counts_ok (st : sst) : Prop :=
  forall k a, aget_acc st k = Some a ->
    0 <= sa_sub a < 2 ^ 32
    /\ match sa_ext a with
       | Some (_, _, Some (ing, ed)) => 0 <= ing < 2 ^ 32 /\ 0 <= ed < 2 ^ 32
       | _ => True
       end.
(* The balance entry of a contract is not archived. *)
Definition not_archived (env : senv) (st : sst) (a : addr) : Prop :=
  forall b, aget_bal st a = Some b -> li_seq (sv_li env) <= b_live b.
(* The most that an address can send, and receive. *)
Definition can_send (env : senv) (st : sst) (a : addr) (x : Z) : Prop :=
  match a with
  | AAccount k =>
      x <= 2 ^ 63 - 1 /\
      match s_asset st with
      | Native => exists ac, aget_acc st k = Some ac
          /\ x <= sa_bal ac - (sv_reserve env * acc_entries ac + acc_selling ac)
      | Credit _ i => k = i \/ exists t, aget_tl st k = Some t /\ x <= tl_bal t - tl_selling t
      end
  | AContract _ => x <= holds st a
  | _ => False
  end.
Definition can_receive (env : senv) (st : sst) (a : addr) (x : Z) : Prop :=
  match a with
  | AAccount k =>
      x <= 2 ^ 63 - 1 /\
      match s_asset st with
      | Native =>
          match aget_acc st k with
          | Some ac => x <= 2 ^ 63 - 1 - acc_buying ac - sa_bal ac
          | None => 0 < x /\ 2 * sv_reserve env <= x
          end
      | Credit _ i => k = i \/ exists t, aget_tl st k = Some t /\ x <= tl_limit t - tl_buying t - tl_bal t
      end
  | AContract _ => x <= 2 ^ 127 - 1 - holds st a
  | _ => False
  end.
