(* The asset contract on storage: what its storage accesses come to. *)
From Coq Require Import ZArith Lia String List Bool.
From Verif Require Import Prelude ValModel HeapModel AMap MultisigModel StorageModel CtModel WideProofs
  SacModel SacSpec SacLedgerModel SacLedgerSpec.
Import ListNotations.
Open Scope Z_scope.
Ltac Zify.zify_post_hook ::= idtac.

Section L.
Variable env : senv.
Variable self : addr.
Let li := sv_li env.
Let seq := li_seq li.

Lemma enforce_ro s k : enforce_access s k ReadOnly =
  match footprint s k with Some _ => Ok tt | None => Err e_foot end.
Proof. unfold enforce_access, fget, footprint. destruct (aget _ _ k) as [[]|]; reflexivity. Qed.
Lemma enforce_rw s k : enforce_access s k ReadWrite = may_write s k.
Proof. unfold enforce_access, fget, may_write, footprint. destruct (aget _ _ k) as [[]|]; reflexivity. Qed.

Lemma try_get_run s k d : try_get (conf env) s (LKData self k d) =
  (s, match may_read s (LKData self k d) with
      | Ok _ => match found s (LKData self k d) with Some o => Ok o | None => Err e_st_internal end
      | Err e => Err e
      end).
Proof.
  unfold try_get. cbn [key_supported]. unfold prepare_read_only_access. cbn [conf sc_mode].
  rewrite enforce_ro. unfold may_read, mget. fold (found s (LKData self k d)).
  destruct (footprint s _); [|reflexivity]. destruct (found s _); reflexivity.
Qed.

Definition present (s : storage) (k : lkey) : bool :=
  match found s k with Some (Some _) => true | _ => false end.

Lemma host_has s k d : host env s (has_contract_data self k d) =
  match may_read s (LKData self k d) with
  | Ok _ => Ok (s, OBool (present s (LKData self k d)))
  | Err e => Err e
  end.
Proof.
  unfold host, has_contract_data, psucc. cbn [srun sstep]. rewrite try_get_run.
  unfold may_read, present. destruct (footprint s _); [|reflexivity].
  destruct (found s _) as [[]|]; reflexivity.
Qed.
Lemma host_get s k d : host env s (get_contract_data self k d) =
  match may_read s (LKData self k d) with
  | Ok _ => match found s (LKData self k d) with
            | Some (Some (EData v, l)) => Ok (s, OEntry (Some (EData v, l)))
            | Some None => Err e_st_missing
            | _ => Err e_st_internal
            end
  | Err e => Err e
  end.
Proof.
  unfold host, get_contract_data, pget, psucc. cbn [srun sstep]. rewrite try_get_run.
  unfold may_read. destruct (footprint s _); [|reflexivity].
  destruct (found s _) as [[[[] l]|]|]; reflexivity.
Qed.

Lemma try_get_data_run s k d : try_get_data env self s k d =
  match may_read s (LKData self k d) with
  | Ok _ => match found s (LKData self k d) with
            | Some (Some (EData v, l)) => Ok (s, Some v)
            | Some None => Ok (s, None)
            | _ => Err e_st_internal
            end
  | Err e => Err e
  end.
Proof.
  unfold try_get_data. rewrite host_has. destruct (may_read s _) as [u|e] eqn:M; cbn [rbind]; [|reflexivity].
  unfold present. unfold may_read in M. destruct (footprint s _) eqn:F; [|discriminate].
  destruct (found s _) as [[[e l]|]|] eqn:G; cbn [fst snd]; try discriminate; try reflexivity.
  rewrite host_get. unfold may_read. rewrite F, G. destruct e; reflexivity.
Qed.

(* writing a value under an ordinary key *)
Definition ordinary (k : scval) : Prop := match k with SExecutableTag _ => False | _ => True end.
Definition put_at (s : storage) (k : lkey) (e : lentry) : storage :=
  set_map s (mset (st_map s) k (Some e)).

Lemma put_opt_run s k d e : entry_supported (fst e) = true ->
  put_opt (conf env) s (LKData self k d) (Some e) =
  match may_write s (LKData self k d) with
  | Ok _ => (put_at s (LKData self k d) e, Ok tt)
  | Err x => (s, Err x)
  end.
Proof.
  intro S. unfold put_opt. cbn [key_supported negb]. destruct e as [e l]. cbn [fst] in S. rewrite S. cbn [negb].
  unfold maybe_expired_cfg. cbn [conf sc_recording_build sc_mode]. rewrite enforce_rw.
  destruct (may_write s _) as [[]|]; reflexivity.
Qed.

Lemma host_put s k v d : ordinary k ->
  host env s (put_contract_data li self k v d) =
  match may_read s (LKData self k d) with
  | Err e => Err e
  | Ok _ =>
      let put l := match may_write s (LKData self k d) with
                   | Ok _ => Ok (put_at s (LKData self k d) (EData v, l), OUnit)
                   | Err e => Err e
                   end in
      match found s (LKData self k d) with
      | Some (Some (EData _, l)) => put l
      | Some None => match get_min_live_until li d with Ok l => put (Some l) | Err e => Err e end
      | _ => Err e_st_internal
      end
  end.
Proof.
  intro O. unfold host, put_contract_data.
  assert (E : validate_put d k v (put_data_into_ledger li (LKData self k d) d v)
              = put_data_into_ledger li (LKData self k d) d v)
    by (destruct k; try reflexivity; destruct O).
  rewrite E. unfold put_data_into_ledger, phas, psucc. cbn [srun sstep]. rewrite try_get_run.
  destruct (may_read s _) as [u|e] eqn:M; [|reflexivity]. cbn [rmap].
  unfold may_read in M. destruct (footprint s _) eqn:F; [|discriminate].
  destruct (found s _) as [[[e l]|]|] eqn:G; try discriminate; cbn [rmap].
  - unfold pget, psucc. cbn [srun sstep]. rewrite try_get_run. unfold may_read. rewrite F, G. cbn [rmap].
    destruct e; try reflexivity. unfold pput, psucc. cbn [srun sstep]. rewrite put_opt_run by reflexivity.
    destruct (may_write s _); reflexivity.
  - destruct (get_min_live_until li d) as [l|e]; [|reflexivity].
    unfold pput, psucc. cbn [srun sstep]. rewrite put_opt_run by reflexivity.
    destruct (may_write s _); reflexivity.
Qed.

(* extending the TTL of a live entry *)
Lemma extend_ttl_run s k d th x e l :
  may_read s (LKData self k d) = Ok tt ->
  found s (LKData self k d) = Some (Some (e, Some l)) -> seq <= l ->
  extend_ttl (conf env) s (LKData self k d) th x =
  match extend_live env d l th x with
  | Ok l' => (if l <? l' then put_at s (LKData self k d) (e, Some l') else s, Ok tt)
  | Err x => (s, Err x)
  end.
Proof.
  intros M F L. unfold extend_ttl, extend_live. destruct (x <? th); [reflexivity|].
  unfold prepare_extend_ttl. cbn [key_supported negb].
  unfold maybe_expired_cfg. cbn [conf sc_recording_build]. fold (conf env). rewrite try_get_run, M, F.
  cbn [conf sc_li]. destruct (Z.ltb_spec l (li_seq (sv_li env))); [unfold seq, li in L; lia|].
  destruct (get_max_live_until (sv_li env)) as [mx|]; cbn [rbind]; [|reflexivity].
  cbn [key_durability].
  destruct (match d with Temporary => true | Persistent => false end
            && (sat_sub_u32 mx (li_seq (sv_li env)) <? x))%bool; [reflexivity|].
  destruct (checked_add_u32 (li_seq (sv_li env)) x) as [n|]; [|reflexivity].
  cbn [ti_ttl ti_max]. destruct (sat_sub_u32 l (li_seq (sv_li env)) <=? th); cbn [andb].
  - unfold apply_ttl_extension. cbn [ti_old ti_entry]. unfold put_at.
    destruct (l <? Z.min n mx) eqn:Q; rewrite ?Q; [reflexivity|].
    rewrite Z.ltb_irrefl. reflexivity.
  - rewrite Z.ltb_irrefl. reflexivity.
Qed.
Lemma extend_live_ge d l th x l' : extend_live env d l th x = Ok l' -> l <= l'.
Proof.
  unfold extend_live. destruct (x <? th); [discriminate|].
  destruct (get_max_live_until (sv_li env)) as [mx|]; cbn [rbind]; [|discriminate].
  destruct (_ && _)%bool; [discriminate|]. destruct (checked_add_u32 _ _) as [n|]; [|discriminate].
  intros [= <-]. destruct (_ <=? th); cbn [andb]; [|lia].
  destruct (Z.ltb_spec l (Z.min n mx)); lia.
Qed.

Lemma host_extend s k d th x e l :
  may_read s (LKData self k d) = Ok tt ->
  found s (LKData self k d) = Some (Some (e, Some l)) -> seq <= l ->
  host env s (extend_contract_data_ttl self k d th x) =
  match extend_live env d l th x with
  | Ok l' => Ok (if l <? l' then put_at s (LKData self k d) (e, Some l') else s, OUnit)
  | Err x => Err x
  end.
Proof.
  intros M F L. unfold host, extend_contract_data_ttl, psucc. cbn [srun sstep].
  rewrite (extend_ttl_run _ _ _ _ _ _ _ M F L). destruct (extend_live env d l th x); reflexivity.
Qed.

(* ---------------------------------------------------------------- effects *)

Lemma found_put s k e k' : found (put_at s k e) k' = if lkey_eq_dec k' k then Some (Some e) else found s k'.
Proof. unfold found, put_at, set_map, mset. cbn [st_map]. apply aget_aset. Qed.
Lemma foot_put s k e k' : footprint (put_at s k e) k' = footprint s k'.
Proof. reflexivity. Qed.
Lemma may_write_put s k e k' : may_write (put_at s k e) k' = may_write s k'.
Proof. reflexivity. Qed.
Lemma may_read_put s k e k' : may_read s k = Ok tt -> may_read (put_at s k e) k' = may_read s k'.
Proof.
  intro M. unfold may_read. rewrite foot_put, found_put. destruct (lkey_eq_dec k' k) as [->|]; [|reflexivity].
  unfold may_read in M. destruct (footprint s k); [|discriminate]. destruct (found s k); [reflexivity|discriminate].
Qed.

(* the instance's TTL *)
Lemma host_extend_instance s data l th x :
  may_read s (ikey self) = Ok tt ->
  found s (ikey self) = Some (Some (EData (SContractInstance ExStellarAsset data), Some l)) -> seq <= l ->
  host env s (extend_instance_and_code_ttl self th x) =
  match extend_live env Persistent l th x with
  | Ok l' => Ok (if l <? l' then put_at s (ikey self) (EData (SContractInstance ExStellarAsset data), Some l') else s, OUnit)
  | Err x => Err x
  end.
Proof.
  intros M F L. unfold host, extend_instance_and_code_ttl, psucc. cbn [srun sstep].
  unfold instance_key. unfold ikey in *.
  rewrite (extend_ttl_run _ _ _ _ _ _ _ M F L). destruct (extend_live env Persistent l th x) as [l'|]; [|reflexivity].
  cbn [unit_out fst snd rmap].
  unfold extend_code_ttl, pinstance, pget, psucc. cbn [srun sstep]. rewrite try_get_run.
  destruct (l <? l').
  - rewrite may_read_put by exact M. rewrite M, found_put. destruct (lkey_eq_dec _ _); [|congruence]. reflexivity.
  - rewrite M, F. reflexivity.
Qed.
End L.

(* ------------------------------------------------------------------ values *)

Lemma i128_hi_eq x : i128_range x -> i128_hi x = x / 2 ^ 64 /\ i128_lo x = x mod 2 ^ 64.
Proof. intro H. destruct (i128_split x H) as (A & B & _). auto. Qed.

Definition bvalue (b : bval) : scval :=
  SMap (Some [(name_ "amount", i128_val (b_amount b)); (name_ "authorized", SBool (b_auth b));
              (name_ "clawback", SBool (b_claw b))]).
Definition avalue (x until : Z) : scval :=
  SMap (Some [(name_ "amount", i128_val x); (name_ "live_until_ledger", SU32 until)]).
Lemma balance_to x au cl : i128_range x ->
  to_val t_balance (balance_dat x au cl)
  = Ok (bvalue {| b_amount := x; b_auth := au; b_claw := cl; b_live := 0 |}).
Proof.
  intro H. transitivity (Ok (SMap (Some [(name_ "amount", SI128 (i128_hi x) (i128_lo x)); (name_ "authorized", SBool au);
              (name_ "clawback", SBool cl)]))); [reflexivity|].
  destruct (i128_hi_eq x H) as [-> ->]. reflexivity.
Qed.
Lemma allowance_to x until : i128_range x ->
  to_val t_allowance (allowance_dat x until) = Ok (avalue x until).
Proof.
  intro H. transitivity (Ok (SMap (Some [(name_ "amount", SI128 (i128_hi x) (i128_lo x)); (name_ "live_until_ledger", SU32 until)]))); [reflexivity|].
  destruct (i128_hi_eq x H) as [-> ->]. reflexivity.
Qed.
Lemma pieces_back x : i128_range x -> i128_from_pieces (x / 2 ^ 64) (x mod 2 ^ 64) = x.
Proof. intro H. destruct (i128_hi_eq x H) as [<- <-]. now apply i128_join_split. Qed.
Lemma balance_from b : i128_range (b_amount b) ->
  read_balance_value (bvalue b) = Ok (b_amount b, b_auth b, b_claw b).
Proof.
  intro H. transitivity (Ok (i128_from_pieces (b_amount b / 2 ^ 64) (b_amount b mod 2 ^ 64), b_auth b, b_claw b)); [reflexivity|].
  now rewrite pieces_back.
Qed.
Lemma allowance_from x until : i128_range x -> read_allowance_value (avalue x until) = Ok (x, until).
Proof.
  intro H. transitivity (Ok (i128_from_pieces (x / 2 ^ 64) (x mod 2 ^ 64), until)); [reflexivity|].
  now rewrite pieces_back.
Qed.
Lemma balance_key_eq a : balance_key a = Ok (SVec (Some [name_ "Balance"; SAddress a])).
Proof. reflexivity. Qed.
Lemma allowance_key_eq f s : allowance_key f s =
  Ok (SVec (Some [name_ "Allowance"; SMap (Some [(name_ "from", SAddress f); (name_ "spender", SAddress s)])])).
Proof. reflexivity. Qed.
