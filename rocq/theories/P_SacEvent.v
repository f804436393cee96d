(* Property C80: from the values of the asset contract's events alone one can tell
   what happened, to which asset, and what everybody holds. *)
From Coq Require Import ZArith Lia String List Bool.
From Verif Require Import Prelude ValModel WideProofs ContainerModel HeapModel CtModel SacModel
  AssetSpec P_Asset SacSpec SacProofs3 P_Sac SacLedgerSpec SacEventModel SacEventSpec.
Import ListNotations.
Open Scope Z_scope.

(* ------------------------------------------------------------ shape *)

Definition amount_value (x : Z) : scval := SI128 (x / 2 ^ 64) (x mod 2 ^ 64).

(* amounts are i128 *)
Definition ranged (ev : sevent) : Prop :=
  match ev with
  | EvApprove _ _ x _ | EvTransfer _ _ _ x | EvMint _ _ x | EvBurn _ x | EvClawback _ x => i128_range x
  | _ => True
  end.

Lemma i128_value x : i128_range x -> i128_of x = amount_value x.
Proof.
  intros H. unfold i128_of, amount_value. destruct (i128_split x H) as (-> & -> & _). reflexivity.
Qed.
Lemma amount_muxed x i : amount_data x (Some i) =
  Ok (SMap (Some [(sym "amount", i128_of x); (sym "to_muxed_id", SU64 i)])).
Proof. reflexivity. Qed.

(* Each event as its documentation says; the id of a muxed receiver goes along as
   a field beside the amount. *)
Theorem C80_shape self name ev : ranged ev ->
  show self name ev = Ok {| w_contract := self;
    w_topics := match ev with
      | EvApprove f s _ _ => [sym "approve"; SAddress f; SAddress s; SString name]
      | EvTransfer f t _ _ => [sym "transfer"; SAddress f; SAddress t; SString name]
      | EvMint t _ _ => [sym "mint"; SAddress t; SString name]
      | EvBurn f _ => [sym "burn"; SAddress f; SString name]
      | EvClawback f _ => [sym "clawback"; SAddress f; SString name]
      | EvSetAuthorized a _ => [sym "set_authorized"; SAddress a; SString name]
      | EvSetAdmin old _ => [sym "set_admin"; SAddress old; SString name]
      end;
    w_data := match ev with
      | EvApprove _ _ x until => SVec (Some [amount_value x; SU32 until])
      | EvTransfer _ _ None x | EvMint _ None x | EvBurn _ x | EvClawback _ x => amount_value x
      | EvTransfer _ _ (Some i) x | EvMint _ (Some i) x =>
          SMap (Some [(sym "amount", amount_value x); (sym "to_muxed_id", SU64 i)])
      | EvSetAuthorized _ b => SBool b
      | EvSetAdmin _ new => SAddress new
      end |}.
Proof.
  destruct ev as [f s x u|f t [i|] x|t [i|] x|f x|f x|a b|o n]; cbn [ranged show]; intros R;
    rewrite ?amount_muxed; cbn [amount_data rbind]; rewrite ?(i128_value x R); reflexivity.
Qed.
Print Assumptions C80_shape.

(* ------------------------------------------------------------ no ambiguity *)

Lemma amount_inj x y : amount_value x = amount_value y -> x = y.
Proof.
  unfold amount_value. intros H. assert (N : 2 ^ 64 <> 0) by (apply Z.pow_nonzero; lia).
  pose proof (Z.div_mod x (2 ^ 64) N) as Dx. pose proof (Z.div_mod y (2 ^ 64) N) as Dy.
  assert (H1 : x / 2 ^ 64 = y / 2 ^ 64) by congruence. assert (H2 : x mod 2 ^ 64 = y mod 2 ^ 64) by congruence.
  rewrite H1, H2, <- Dy in Dx. exact Dx.
Qed.

(* Events that look the same are the same event of the same asset. *)
Theorem C80_unambiguous self self' a a' name name' ev ev' w :
  proper a -> proper a' -> named a name -> named a' name' -> ranged ev -> ranged ev' ->
  show self name ev = Ok w -> show self' name' ev' = Ok w -> self = self' /\ a = a' /\ ev = ev'.
Proof.
  intros P P' N N' R R' E E'.
  rewrite (C80_shape _ _ _ R) in E. rewrite (C80_shape _ _ _ R') in E'.
  injection E as <-. injection E' as Es Et Ed.
  cut (name' = name /\ ev' = ev).
  { intros [En ->]. repeat split; [symmetry; exact Es|].
    apply (C73_names_identify a a' name name' P P' N N'). symmetry. exact En. }
  clear - Et Ed.
  destruct ev as [f s x u|f t [i|] x|t [i|] x|f x|f x|q b|o n],
           ev' as [f' s' x' u'|f' t' [i'|] x'|t' [i'|] x'|f' x'|f' x'|q' b'|o' n'];
    try discriminate Et; try discriminate Ed; injection Et; intros; subst.
  all: split; [reflexivity|].
  all: try (assert (x' = x) by (apply amount_inj; congruence)).
  all: congruence.
Qed.
Print Assumptions C80_unambiguous.

(* ------------------------------------------------------------ holdings *)

Definition typed_calls (l : list (step * res sret)) : Prop :=
  forall env c o, In (SCall env c, o) l -> typed_call c.

Lemma announced_ranged st c : typed_call c -> Forall ranged (announces st c).
Proof.
  intros T. unfold typed_call in T.
  destruct c; cbn [amount_of announces] in *; try constructor; try constructor;
    try (cbn [ranged]; apply T; reflexivity); try exact I.
  - destruct (s_asset st); repeat destruct (addr_dec _ _); cbn [ranged]; apply T; reflexivity.
  - destruct (s_asset st); repeat destruct (addr_dec _ _); cbn [ranged]; apply T; reflexivity.
  - destruct (s_admin st); repeat constructor.
Qed.

Lemma history_ranged r seq st l seq' st' :
  history r seq st l seq' st' -> typed_calls l ->
  exists evs, s_events st' = s_events st ++ evs /\ Forall ranged evs.
Proof.
  induction 1 as [|seq st env c st1 o l seq' st' SL RL I H IH|seq seq1 st st1 l seq' st' SL E H IH]; intros T.
  - exists []. split; [symmetry; apply app_nil_r|constructor].
  - destruct IH as (evs & E1 & F). { intros e c' o' In'. apply (T e c' o'). right. exact In'. }
    pose proof (C57_calls_announce env st c st1 o I) as A.
    exists ((if is_ok o then announces st c else []) ++ evs). split.
    + rewrite E1, A, app_assoc. reflexivity.
    + apply Forall_app. split; [|exact F]. destruct (is_ok o); [|constructor].
      apply announced_ranged. apply (T env c o). left. reflexivity.
  - destruct IH as (evs & E1 & F). { intros e c' o' In'. apply (T e c' o'). right. exact In'. }
    exists evs. split; [|exact F]. rewrite E1. destruct E as (_ & _ & -> & _). reflexivity.
Qed.

Lemma shown_amount x : amount_shown (amount_value x) = x.
Proof.
  unfold amount_shown, amount_value. rewrite Z.mul_comm. symmetry. apply Z.div_mod. apply Z.pow_nonzero; lia.
Qed.
Lemma shown_muxed x i :
  amount_shown (SMap (Some [(sym "amount", amount_value x); (sym "to_muxed_id", SU64 i)])) = x.
Proof. exact (shown_amount x). Qed.
Lemma told_effect self name ev w x : ranged ev -> show self name ev = Ok w -> told x w = effect x ev.
Proof.
  intros R E. rewrite (C80_shape _ _ _ R) in E. injection E as <-.
  destruct ev as [f s z u|f t [i|] z|t [i|] z|f z|f z|a b|o n]; cbn [effect sum_for].
  - reflexivity.
  - change (told x _) with (for_ x f (- amount_shown (SMap (Some [(sym "amount", amount_value z); (sym "to_muxed_id", SU64 i)])))
      + for_ x t (amount_shown (SMap (Some [(sym "amount", amount_value z); (sym "to_muxed_id", SU64 i)])))).
    rewrite shown_muxed. unfold for_; cbn [sum_for]. destruct (addr_dec f x), (addr_dec t x). all: lia.
  - change (told x _) with (for_ x f (- amount_shown (amount_value z)) + for_ x t (amount_shown (amount_value z))).
    rewrite shown_amount. unfold for_; cbn [sum_for]. destruct (addr_dec f x), (addr_dec t x); lia.
  - change (told x _) with (for_ x t (amount_shown (SMap (Some [(sym "amount", amount_value z); (sym "to_muxed_id", SU64 i)])))).
    rewrite shown_muxed. unfold for_; cbn [sum_for]. destruct (addr_dec t x); lia.
  - change (told x _) with (for_ x t (amount_shown (amount_value z))).
    rewrite shown_amount. unfold for_; cbn [sum_for]. destruct (addr_dec t x); lia.
  - change (told x _) with (for_ x f (- amount_shown (amount_value z))).
    rewrite shown_amount. unfold for_; cbn [sum_for]. destruct (addr_dec f x); lia.
  - change (told x _) with (for_ x f (- amount_shown (amount_value z))).
    rewrite shown_amount. unfold for_; cbn [sum_for]. destruct (addr_dec f x); lia.
  - reflexivity.
  - reflexivity.
Qed.

(* After any history of calls, the values of the events it recorded say by how much
   each holder's balance changed; all carry the contract's id and the asset's name. *)
Theorem C80_events_tell_holdings r seq st l seq' st' self name :
  history r seq st l seq' st' -> typed_calls l ->
  exists evs ws, s_events st' = s_events st ++ evs /\ show_all self name evs = Ok ws
    /\ Forall (fun w => w_contract w = self /\ named_last w = Some name) ws
    /\ forall x, ~ the_issuer st x -> calls_only l x -> holds st' x = holds st x + sum_over (told x) ws.
Proof.
  intros H T. destruct (history_ranged _ _ _ _ _ _ H T) as (evs & E & F). exists evs.
  assert (S : exists ws, show_all self name evs = Ok ws
     /\ Forall (fun w => w_contract w = self /\ named_last w = Some name) ws
     /\ forall x, sum_over (told x) ws = sum_over (effect x) evs).
  { clear E. induction F as [|ev evs R F IH]; [exists []; repeat split; constructor|].
    destruct IH as (ws & S & N & X).
    destruct (show self name ev) as [w|e] eqn:Ew; [|rewrite (C80_shape _ _ _ R) in Ew; discriminate].
    exists (w :: ws). split; [cbn [show_all]; rewrite Ew; cbn [rbind]; rewrite S; reflexivity|]. split.
    - constructor; [|exact N]. rewrite (C80_shape _ _ _ R) in Ew. injection Ew as <-.
      split; [reflexivity|]. destruct ev; reflexivity.
    - intros x. cbn [sum_over fold_right]. fold (sum_over (told x) ws). fold (sum_over (effect x) evs).
      rewrite (told_effect _ _ _ _ x R Ew), X. reflexivity. }
  destruct S as (ws & S & N & X). exists ws. split; [exact E|]. split; [exact S|]. split; [exact N|].
  intros x NI CO. destruct (C57_events_tell_holdings _ _ _ _ _ _ x H NI CO) as (evs' & E' & Hh).
  assert (evs' = evs) as -> by (rewrite E in E'; apply app_inv_head in E'; symmetry; exact E').
  rewrite X. exact Hh.
Qed.
Print Assumptions C80_events_tell_holdings.

(* The three events of [ex_C57], as they are shown. *)
Example C80_hyp :
  show_all (ex_key 77) native [EvTransfer ex_c ex_al (Some 5) 40; EvBurn ex_al 60; EvMint ex_c None (2 ^ 64 + 9)]
  = Ok [ {| w_contract := ex_key 77; w_topics := [sym "transfer"; SAddress ex_c; SAddress ex_al; SString native];
            w_data := SMap (Some [(sym "amount", SI128 0 40); (sym "to_muxed_id", SU64 5)]) |};
         {| w_contract := ex_key 77; w_topics := [sym "burn"; SAddress ex_al; SString native]; w_data := SI128 0 60 |};
         {| w_contract := ex_key 77; w_topics := [sym "mint"; SAddress ex_c; SString native]; w_data := SI128 1 9 |} ]
  /\ proper Lumens /\ named Lumens native
  /\ ranged (EvTransfer ex_c ex_al (Some 5) 40)
  /\ typed_calls [(SCall (ex_env 10) (CTransfer ex_c (AMuxed 5 (ex_key 2)) 40), Ok RUnit)].
Proof.
  split; [reflexivity|]. split; [exact I|]. split; [reflexivity|]. split; [unfold ranged, i128_range; lia|].
  intros env c o [E|[]] x A. injection E as <- <- <-. cbn in A. injection A as <-. unfold i128_range. lia.
Qed.
