(* C73: an asset contract can be initialized once, by the XDR of the very asset its
   address is derived from, and from then on describes that asset, unambiguously. *)
From Coq Require Import ZArith Lia List Bool.
From Verif Require Import Prelude ValModel HeapModel FrameModel AuthModel XdrModel XdrProofs StrkeyModel StrkeySpec
  StrkeyProofs StrkeyProofs2 P_Strkey AssetModel AssetSpec AssetProofs.
Import ListNotations.
Open Scope Z_scope.
Ltac Zify.zify_post_hook ::= idtac.

(* the asset a contract keeps *)
Definition stored (a : asset) : ainfo :=
  match a with
  | Lumens => INative
  | Issued c i => if (length c <=? 4)%nat then IAlpha4 (fill 4 c) i else IAlpha12 (fill 12 c) i
  end.

Lemma bytes_eqb_iff a b : bytes_eqb a b = true <-> a = b.
Proof. unfold bytes_eqb. destruct (list_eq_dec Z.eq_dec a b); split; congruence. Qed.
Lemma address_hash sha net a : get_asset_contract_id_hash sha net (x_of a) = address_of sha net a.
Proof.
  unfold get_asset_contract_id_hash, contract_id, id_preimage, address_of.
  rewrite asset_bytes_x. reflexivity.
Qed.
Lemma set_metadata_iff st a st' : proper a -> i_info st = Some (stored a) ->
  set_metadata st = Ok st' <->
  exists s, named a s /\ i_admin st' = i_admin st /\ i_info st' = Some (stored a) /\
    i_meta st' = Some {| m_decimal := 7; m_name := s; m_symbol := symbol_of a |}.
Proof.
  intros P I. unfold set_metadata, read_asset_info. rewrite I. cbn [rbind].
  assert (G : forall n s,
    Ok (write_metadata st {| m_decimal := DECIMAL; m_name := n; m_symbol := s |}) = Ok st' <->
    i_admin st' = i_admin st /\ i_info st' = Some (stored a) /\
    i_meta st' = Some {| m_decimal := 7; m_name := n; m_symbol := s |}).
  { intros n s. unfold write_metadata, DECIMAL. split.
    - intros E. injection E as <-. cbn. auto.
    - destruct st' as [x y z]. cbn. intros (-> & -> & ->). rewrite <- I. reflexivity. }
  clear I. destruct a as [|c i]; cbn [stored named symbol_of] in *.
  - cbn [rbind fst snd]. rewrite G. split.
    + intros H. exists native. split; [reflexivity | exact H].
    + intros (s & -> & H). exact H.
  - destruct P as (L & A & Li & Bi).
    assert (W : writable (AAccount i)) by (split; assumption).
    assert (R : forall n, (n = 4 /\ length c <= 4 \/ n = 12 /\ 5 <= length c <= 12)%nat ->
      render_sep0011_asset n (fill n c) i = Ok (c ++ [58] ++ kind_to_string (KPublicKey i), c)).
    { intros n H. unfold render_sep0011_asset, to_array.
      assert (F : length (fill n c) = n) by (apply fill_length; lia).
      rewrite F, Nat.eqb_refl. cbn [rbind].
      rewrite render_significant by (rewrite F; lia). cbn [rbind].
      rewrite significant_fill, alnum_unit by assumption. reflexivity. }
    assert (N : forall s, (exists key, spelled (AAccount i) key /\ s = c ++ [58] ++ key) <->
                          s = c ++ [58] ++ kind_to_string (KPublicKey i)).
    { intros s. split.
      - intros (key & K & ->). apply (spelled_iff _ _ W) in K. cbn [kind_of] in K. now rewrite K.
      - intros ->. eexists. split; [apply (spelled_iff _ _ W); reflexivity | reflexivity]. }
    assert (X : forall m, (m = 4 /\ length c <= 4 \/ m = 12 /\ 5 <= length c <= 12)%nat ->
      (let? ns := render_sep0011_asset m (fill m c) i in
       Ok (write_metadata st {| m_decimal := DECIMAL; m_name := fst ns; m_symbol := snd ns |})) = Ok st' <->
      exists s, (exists key, spelled (AAccount i) key /\ s = c ++ [58] ++ key) /\
        i_admin st' = i_admin st /\ i_info st' = Some (if (length c <=? 4)%nat then IAlpha4 (fill 4 c) i else IAlpha12 (fill 12 c) i) /\
        i_meta st' = Some {| m_decimal := 7; m_name := s; m_symbol := c |}).
    { intros m H. rewrite (R m H). cbn [rbind fst snd]. rewrite G. split.
      - intros K. eexists. split; [apply N; reflexivity | exact K].
      - intros (s & S & K). apply N in S as ->. exact K. }
    destruct (Nat.leb_spec (length c) 4) as [H|H].
    + apply (X 4%nat). lia.
    + apply (X 12%nat). lia.
Qed.

(* -------------------------------------------------------- initialization *)

Theorem C73_initialize sha net cur st b st' : are_bytes b ->
  (init_asset sha net cur st b = Ok st' <->
   i_info st = None /\
   exists a s, proper a /\ b = asset_bytes a /\ cur = address_of sha net a /\ named a s /\
     i_admin st' = first_admin a (i_admin st) /\
     i_info st' = Some (stored a) /\
     i_meta st' = Some {| m_decimal := 7; m_name := s; m_symbol := symbol_of a |}).
Proof.
  intros B. unfold init_asset, has_asset_info.
  set (put := fun x => match x with
        | XNative => write_asset_info st INative
        | XAlpha4 c i => write_asset_info (write_administrator st (AAccount i)) (IAlpha4 c i)
        | XAlpha12 c i => write_asset_info (write_administrator st (AAccount i)) (IAlpha12 c i)
        end).
  assert (U : forall a, i_info (put (x_of a)) = Some (stored a) /\
                        i_admin (put (x_of a)) = first_admin a (i_admin st)).
  { intros [|c i]; cbn [x_of]; [split; reflexivity|].
    unfold stored. destruct (length c <=? 4)%nat; split; reflexivity. }
  destruct (i_info st) as [old|]; [split; [discriminate | intros [E _]; discriminate]|].
  split.
  - intros E. split; [reflexivity|].
    destruct (asset_from_xdr b) as [x|] eqn:D; [|discriminate]. cbn [rbind] in E.
    destruct (validate_asset x) as [[]|] eqn:V; [|discriminate]. cbn [rbind] in E.
    destruct (proj1 (decode_valid b x B) (conj D V)) as (a & P & -> & ->).
    destruct (bytes_eqb cur _) eqn:C in E; [|discriminate]. cbn [negb] in E.
    apply bytes_eqb_iff in C as ->. rewrite address_hash.
    fold put in E. change (set_metadata (put (x_of a)) = Ok st') in E.
    destruct (U a) as [U1 U2]. apply (set_metadata_iff _ a) in E; [|exact P | exact U1].
    destruct E as (s & N & E1 & E2 & E3). exists a, s.
    rewrite E1, E2, E3, U2. repeat (split; auto).
  - intros (_ & a & s & P & -> & -> & N & E1 & E2 & E3).
    destruct (proj2 (decode_valid _ (x_of a) B)) as [D V]; [eauto|].
    rewrite D. cbn [rbind]. rewrite V. cbn [rbind]. rewrite address_hash.
    rewrite (proj2 (bytes_eqb_iff _ _) eq_refl). cbn [negb].
    change (set_metadata (put (x_of a)) = Ok st').
    destruct (U a) as [U1 U2]. apply (set_metadata_iff _ a); [exact P | exact U1|].
    exists s. rewrite U2. auto.
Qed.
Print Assumptions C73_initialize.

Theorem C73_refused sha net cur st b : are_bytes b ->
  (i_info st <> None -> init_asset sha net cur st b = Err (EContract 3)) /\
  (i_info st = None ->
   ((forall a, proper a -> b <> asset_bytes a) ->
    init_asset sha net cur st b = Err (ESys TValue CInvalidInput) \/
    init_asset sha net cur st b = Err (ESys TContext CExceededLimit)) /\
   (forall a, proper a -> b = asset_bytes a -> cur <> address_of sha net a ->
    init_asset sha net cur st b = Err (ESys TContext CInternalError))).
Proof.
  intros B. unfold init_asset, has_asset_info. destruct (i_info st) as [old|].
  - split; [reflexivity | discriminate].
  - split; [contradiction|]. intros _. split.
    + intros H. destruct (asset_from_xdr b) as [x|e] eqn:D; cbn [rbind].
      * destruct (validate_asset x) as [[]|e] eqn:V; cbn [rbind].
        -- exfalso. destruct (proj1 (decode_valid b x B) (conj D V)) as (a & P & E & _). exact (H a P E).
        -- apply validate_err in V as ->. left. reflexivity.
      * apply asset_from_xdr_err in D as [-> | ->]; [right | left]; reflexivity.
    + intros a P -> N. destruct (proj2 (decode_valid _ (x_of a) B)) as [D V]; [eauto|].
      rewrite D. cbn [rbind]. rewrite V. cbn [rbind]. rewrite address_hash.
      destruct (bytes_eqb cur (address_of sha net a)) eqn:E; [apply bytes_eqb_iff in E; contradiction | reflexivity].
Qed.
Print Assumptions C73_refused.

(* every asset can be given its contract *)
Theorem C73_every_asset sha net a : proper a -> exists st',
  init_asset sha net (address_of sha net a) empty_inst (asset_bytes a) = Ok st'.
Proof.
  intros P.
  assert (exists s, named a s) as (s & N).
  { destruct a as [|c i]; [exists native; reflexivity|]. destruct P as (_ & _ & Li & Bi).
    exists (c ++ [58] ++ kind_to_string (KPublicKey i)), (kind_to_string (KPublicKey i)).
    split; [|reflexivity]. apply (spelled_iff (AAccount i)); [split; assumption | reflexivity]. }
  exists {| i_admin := first_admin a None; i_info := Some (stored a);
            i_meta := Some {| m_decimal := 7; m_name := s; m_symbol := symbol_of a |} |}.
  apply C73_initialize; [now apply asset_bytes_bytes|].
  split; [reflexivity|]. exists a, s. repeat (split; auto).
Qed.
Print Assumptions C73_every_asset.

(* ------------------------------------------------------------- histories *)

(* the calls that write the contract's own entries; a failed one changes nothing *)
Inductive call_ := Init (b : list Z) | SetAdmin (auth : addr -> res unit) (new_admin : addr).
Definition answer sha net cur (st : ainst) (c : call_) : res ainst :=
  match c with
  | Init b => init_asset sha net cur st b
  | SetAdmin auth a => set_admin auth st a
  end.
Definition step sha net cur (st : ainst) (c : call_) : ainst :=
  match answer sha net cur st c with Ok st' => st' | Err _ => st end.
Definition history sha net cur (l : list call_) : ainst := fold_left (step sha net cur) l empty_inst.
Definition call_bytes (c : call_) : Prop :=
  match c with Init b => are_bytes b | SetAdmin _ _ => True end.

(* what a contract says: it is the contract of the asset a *)
Definition describes (st : ainst) (a : asset) : Prop :=
  (exists x, read_asset st = Ok x /\ asset_to_xdr x = asset_bytes a) /\
  (exists s, name st = Ok s /\ named a s) /\
  symbol st = Ok (symbol_of a) /\
  decimals = 7 /\ (exists m, i_meta st = Some m /\ m_decimal m = decimals).
(* what a contract that was never initialized says *)
Definition silent (st : ainst) : Prop :=
  read_asset st = Err (ESys TStorage CMissingValue) /\ name st = Err (ESys TStorage CMissingValue) /\
  symbol st = Err (ESys TStorage CMissingValue) /\ admin st = Err (ESys TStorage CMissingValue).

Definition holds (st : ainst) (a : asset) : Prop :=
  i_info st = Some (stored a) /\
  exists s, named a s /\ i_meta st = Some {| m_decimal := 7; m_name := s; m_symbol := symbol_of a |}.
Lemma holds_describes st a : proper a -> holds st a -> describes st a.
Proof.
  intros P (I & s & N & M). split; [|split].
  - exists (x_of a). split; [|symmetry; apply asset_bytes_x].
    unfold read_asset, read_asset_info. rewrite I. cbn [rbind].
    destruct a as [|c i]; [reflexivity|]. destruct P as (L & _). cbn [stored x_of].
    destruct (Nat.leb_spec (length c) 4); unfold to_array; rewrite fill_length by lia; reflexivity.
  - exists s. unfold name. rewrite M. auto.
  - split; [unfold symbol; rewrite M; reflexivity|]. split; [reflexivity|]. rewrite M. eauto.
Qed.
Lemma set_admin_keeps auth st n st' : set_admin auth st n = Ok st' ->
  i_info st' = i_info st /\ i_meta st' = i_meta st /\ i_admin st' = Some n /\
  exists a, i_admin st = Some a /\ auth a = Ok tt.
Proof.
  unfold set_admin, admin. destruct (i_admin st) as [a|]; [|discriminate]. cbn [rbind].
  destruct (auth a) as [[]|] eqn:Q; [|discriminate]. cbn [rbind]. intros E. injection E as <-. cbn. eauto 8.
Qed.
Lemma history_inv sha net cur l : Forall call_bytes l ->
  let st := history sha net cur l in
  (st = empty_inst \/
   exists a, proper a /\ cur = address_of sha net a /\ holds st a /\ (a = Lumens -> i_admin st = None)).
Proof.
  unfold history. intros F.
  assert (G : forall l st, Forall call_bytes l ->
    (st = empty_inst \/
     exists a, proper a /\ cur = address_of sha net a /\ holds st a /\ (a = Lumens -> i_admin st = None)) ->
    fold_left (step sha net cur) l st = empty_inst \/
    exists a, proper a /\ cur = address_of sha net a /\ holds (fold_left (step sha net cur) l st) a /\
              (a = Lumens -> i_admin (fold_left (step sha net cur) l st) = None)).
  { clear. induction l as [|c l IH]; intros st F H; [exact H|]. inversion F as [|? ? Fc Fl]; subst.
    cbn [fold_left]. apply IH; [exact Fl|]. unfold step.
    destruct (answer sha net cur st c) as [st'|] eqn:E; [|exact H]. right.
    destruct c as [b|auth n]; cbn [answer call_bytes] in *.
    - apply C73_initialize in E; [|exact Fc]. destruct E as (I & a & s & P & _ & C & N & E1 & E2 & E3).
      exists a. split; [exact P|]. split; [exact C|]. split; [split; eauto|].
      intros ->. rewrite E1. destruct H as [-> | (x & _ & _ & (Hx & _) & _)]; [reflexivity | congruence].
    - apply set_admin_keeps in E as (E1 & E2 & E3 & o & E4 & _).
      destruct H as [-> | (a & P & C & (I & s & N & M) & L)]; [discriminate|].
      exists a. split; [exact P|]. split; [exact C|]. split.
      + split; [congruence|]. exists s. split; [exact N | congruence].
      + intros Q. rewrite (L Q) in E4. discriminate. }
  apply G; [exact F | left; reflexivity].
Qed.

(* Whatever is called, a contract says nothing or it is the contract of the asset
   its address is derived from; then further initializations are refused. *)
Theorem C73_describes_its_asset sha net cur l : Forall call_bytes l ->
  let st := history sha net cur l in
  (silent st /\ forall b, are_bytes b -> init_asset sha net cur st b <> Err (EContract 3)) \/
  exists a, proper a /\ cur = address_of sha net a /\ describes st a /\
    forall b, init_asset sha net cur st b = Err (EContract 3).
Proof.
  intros F st. destruct (history_inv sha net cur l F) as [E | (a & P & C & H & _)]; fold st in E || fold st in H.
  - left. rewrite E. split; [repeat split; reflexivity|]. intros b B.
    unfold init_asset. cbn [has_asset_info empty_inst i_info].
    destruct (asset_from_xdr b) as [x|e] eqn:D; cbn [rbind].
    + destruct (validate_asset x) as [[]|e] eqn:V; cbn [rbind].
      * destruct (negb _); [discriminate|].
        destruct (proj1 (decode_valid b x B) (conj D V)) as (a & P & -> & ->).
        unfold set_metadata, read_asset_info.
        destruct a as [|c i]; cbn [x_of]; [discriminate|].
        destruct (length c <=? 4)%nat; cbn [write_asset_info i_info rbind]; unfold render_sep0011_asset, to_array;
          destruct (_ =? _)%nat; cbn [rbind]; try discriminate;
          unfold render_sep0011_asset_code; destruct (_ && _); cbn [rbind]; discriminate.
      * apply validate_err in V as ->. discriminate.
    + apply asset_from_xdr_err in D as [-> | ->]; discriminate.
  - right. exists a. split; [exact P|]. split; [exact C|]. split; [now apply holds_describes|].
    intros b. unfold init_asset, has_asset_info. destruct H as (-> & _). reflexivity.
Qed.
Print Assumptions C73_describes_its_asset.

(* and no later call changes what it says *)
Theorem C73_description_is_final sha net cur l m : Forall call_bytes (l ++ m) ->
  let st := history sha net cur l in let st' := history sha net cur (l ++ m) in
  forall a, proper a -> describes st a ->
  describes st' a /\ name st' = name st /\ symbol st' = symbol st /\ read_asset st' = read_asset st.
Proof.
  intros F st st' a P D.
  assert (K : i_info st' = i_info st /\ i_meta st' = i_meta st).
  { unfold st', history. rewrite fold_left_app. fold (history sha net cur l). fold st.
    assert (I : i_info st <> None).
    { destruct D as ((x & R & _) & _). unfold read_asset, read_asset_info in R.
      destruct (i_info st); [discriminate|]. discriminate R. }
    clear F D P. clearbody st. clear st'. revert st I. induction m as [|c m IH]; intros st I; [auto|]. cbn [fold_left].
    assert (S : i_info (step sha net cur st c) = i_info st /\ i_meta (step sha net cur st c) = i_meta st).
    { unfold step. destruct (answer sha net cur st c) as [s|] eqn:E; [|auto].
      destruct c as [b|auth n]; cbn [answer] in E.
      - unfold init_asset, has_asset_info in E. destruct (i_info st); [discriminate | contradiction].
      - apply set_admin_keeps in E as (E1 & E2 & _). auto. }
    destruct S as [S1 S2]. destruct (IH (step sha net cur st c)) as [-> ->]; [congruence|]. auto. }
  destruct K as [K1 K2].
  assert (E1 : name st' = name st) by (unfold name; now rewrite K2).
  assert (E2 : symbol st' = symbol st) by (unfold symbol; now rewrite K2).
  assert (E3 : read_asset st' = read_asset st) by (unfold read_asset, read_asset_info; now rewrite K1).
  unfold describes. rewrite E1, E2, E3, K2. auto.
Qed.
Print Assumptions C73_description_is_final.

(* ---------------------------------------------------------- administrator *)

(* the issuer is the first administrator; each later one was named by a call the
   administrator of the time authorized; lumens never have one *)
Theorem C73_administrator sha net cur st b st' a : are_bytes b -> proper a -> b = asset_bytes a ->
  i_admin st = None -> init_asset sha net cur st b = Ok st' ->
  match a with
  | Lumens => admin st' = Err (ESys TStorage CMissingValue)
  | Issued _ issuer => admin st' = Ok (AAccount issuer)
  end.
Proof.
  intros B P Eb N E. apply C73_initialize in E; [|exact B].
  destruct E as (_ & x & s & Px & Ex & _ & _ & E1 & _).
  assert (a = x) as <- by (apply asset_bytes_inj; [exact P | exact Px | congruence]).
  unfold admin. rewrite E1, N. destruct a; reflexivity.
Qed.
Print Assumptions C73_administrator.

Theorem C73_set_admin auth st n st' :
  set_admin auth st n = Ok st' <->
  exists a, admin st = Ok a /\ auth a = Ok tt /\ admin st' = Ok n /\
            i_info st' = i_info st /\ i_meta st' = i_meta st.
Proof.
  split.
  - intros E. apply set_admin_keeps in E as (E1 & E2 & E3 & a & E4 & E5).
    exists a. unfold admin. rewrite E3, E4. auto.
  - intros (a & A & Q & N & E1 & E2). unfold set_admin. rewrite A. cbn [rbind]. rewrite Q. cbn [rbind].
    unfold write_administrator. destruct st' as [x y z]. cbn in *. subst.
    unfold admin in N. cbn in N. destruct x; [|discriminate]. congruence.
Qed.
Print Assumptions C73_set_admin.

Theorem C73_lumens_have_no_administrator sha net cur l : Forall call_bytes l ->
  let st := history sha net cur l in
  describes st Lumens ->
  admin st = Err (ESys TStorage CMissingValue) /\
  forall auth n, set_admin auth st n = Err (ESys TStorage CMissingValue).
Proof.
  intros F st D.
  assert (i_admin st = None) as N.
  { destruct (history_inv sha net cur l F) as [E | (a & P & C & H & L)]; fold st in E || fold st in H, L.
    - rewrite E. reflexivity.
    - apply L. apply holds_describes in H; [|exact P].
      destruct D as ((x & R & X) & _), H as ((y & R2 & Y) & _).
      apply (asset_bytes_inj a Lumens); [exact P | exact I | congruence]. }
  unfold set_admin, admin. rewrite N. split; [reflexivity|]. intros. reflexivity.
Qed.
Print Assumptions C73_lumens_have_no_administrator.

(* ------------------------------------------------------ names and symbols *)

Lemma colon_free_split : forall c d k t : list Z, Forall alphanumeric c -> Forall alphanumeric d ->
  c ++ 58 :: k = d ++ 58 :: t -> c = d /\ k = t.
Proof.
  induction c as [|x c IH]; intros [|y d] k t A B E; cbn [app] in E.
  - injection E as E. auto.
  - exfalso. injection E as E _. inversion B as [|? ? B0 _]; subst. unfold alphanumeric in B0. lia.
  - exfalso. injection E as E _. inversion A as [|? ? A0 _]; subst. unfold alphanumeric in A0. lia.
  - injection E as <- E. inversion A; inversion B; subst. destruct (IH d k t) as [-> ->]; auto.
Qed.
Lemma native_no_colon c k : native <> c ++ 58 :: k.
Proof.
  intros E. assert (H : In 58 native) by (rewrite E; apply in_or_app; right; now left).
  unfold native in H. cbn in H. intuition discriminate.
Qed.

(* different assets have different names *)
Theorem C73_names_identify a b s t : proper a -> proper b -> named a s -> named b t ->
  (a = b <-> s = t).
Proof.
  intros P Q N M. destruct a as [|c i], b as [|d j]; cbn [named proper app] in *.
  - split; [congruence | reflexivity].
  - destruct M as (key & _ & ->). subst s. split; [discriminate|]. intros E. now apply native_no_colon in E.
  - destruct N as (key & _ & ->). subst t. split; [discriminate|]. intros E. symmetry in E. now apply native_no_colon in E.
  - destruct N as (k & K & ->), M as (k2 & K2 & ->).
    destruct P as (_ & A & Li & Bi), Q as (_ & B & Lj & Bj).
    pose proof (C72_one_spelling (AAccount i) (AAccount j) k k2 (conj Li Bi) (conj Lj Bj) K K2) as S.
    split.
    + intros E. injection E as -> ->. assert (k = k2) as -> by (apply S; reflexivity). reflexivity.
    + intros E. apply colon_free_split in E as [-> E]; [|exact A | exact B].
      apply S in E. congruence.
Qed.
Print Assumptions C73_names_identify.

(* their symbols do not: the code native of any issuer is displayed like lumens *)
Lemma C73_symbols_identify_refuted : forall issuer, length issuer = 32%nat -> are_bytes issuer ->
  exists a, proper a /\ a <> Lumens /\ symbol_of a = symbol_of Lumens.
Proof.
  intros i L B. exists (Issued native i). split; [|split; [discriminate | reflexivity]].
  cbn [proper]. split; [cbn; lia|]. split; [|auto].
  unfold native. repeat constructor; unfold alphanumeric; lia.
Qed.
Print Assumptions C73_symbols_identify_refuted.

(* ------------------------------------------------------------- addresses *)

Theorem C73_one_contract_per_asset sha net a b : proper a -> proper b -> length net = 32%nat ->
  address_of sha net a = address_of sha net b ->
  a = b \/ exists p q, p <> q /\ sha p = sha q.
Proof.
  intros P Q N E. unfold address_of in E.
  destruct (list_eq_dec Z.eq_dec (asset_bytes a) (asset_bytes b)) as [H|H].
  - left. now apply asset_bytes_inj.
  - right. do 2 eexists. split; [|exact E]. intros X. do 3 apply app_inv_head in X. contradiction.
Qed.
Print Assumptions C73_one_contract_per_asset.

(* the host function that tells an asset's address reads exactly the XDR of an
   asset, without validating its code *)
Theorem C73_get_asset_contract_id sha net b r : are_bytes b ->
  (get_asset_contract_id sha net b = Ok r <->
   (b = [0; 0; 0; 0] \/
    exists code issuer, length issuer = 32%nat /\
      (length code = 4%nat /\ b = [0; 0; 0; 1] ++ code ++ [0; 0; 0; 0] ++ issuer \/
       length code = 12%nat /\ b = [0; 0; 0; 2] ++ code ++ [0; 0; 0; 0] ++ issuer)) /\
   r = HOAddress (AContract (sha ([0; 0; 0; 8] ++ net ++ [0; 0; 0; 1] ++ b)))).
Proof.
  intros B. unfold get_asset_contract_id.
  assert (H : forall x, get_asset_contract_id_hash sha net x = sha ([0; 0; 0; 8] ++ net ++ [0; 0; 0; 1] ++ asset_to_xdr x))
    by reflexivity.
  split.
  - intros E. destruct (asset_from_xdr b) as [x|] eqn:D; [|discriminate]. cbn [rbind] in E. rewrite H in E.
    injection E as <-. apply asset_from_xdr_iff in D as [-> S]; [|exact B].
    split; [|reflexivity]. destruct x as [|c i|c i]; cbn [asset_to_xdr sized] in *.
    + left. reflexivity.
    + right. exists c, i. split; [tauto|]. left. split; [tauto | reflexivity].
    + right. exists c, i. split; [tauto|]. right. split; [tauto | reflexivity].
  - intros [S ->].
    assert (exists x, b = asset_to_xdr x /\ sized x) as (x & -> & Sx).
    { destruct S as [-> | (c & i & Li & [[Lc ->]|[Lc ->]])].
      - exists XNative. split; reflexivity.
      - exists (XAlpha4 c i). split; [reflexivity | split; assumption].
      - exists (XAlpha12 c i). split; [reflexivity | split; assumption]. }
    rewrite (proj2 (asset_from_xdr_iff _ x B)) by auto. cbn [rbind]. now rewrite H.
Qed.
Print Assumptions C73_get_asset_contract_id.

(* --------------------------------------------------------------- display *)

(* Codes are displayed in printable ASCII without blanks or colons, and two codes
   alike only if they have the same significant bytes. *)
Theorem C73_display code : are_bytes code -> length code = 4%nat \/ length code = 12%nat ->
  exists s, render_sep0011_asset_code code = Ok s /\ Forall (fun c => 33 <= c <= 126 /\ c <> 58) s /\
  (Forall alphanumeric (significant code) -> s = significant code) /\
  forall code2 t, are_bytes code2 -> length code2 = 4%nat \/ length code2 = 12%nat ->
    render_sep0011_asset_code code2 = Ok t -> (s = t <-> significant code = significant code2).
Proof.
  intros B L. exists (flat_map unit_of (significant code)).
  split; [now apply render_significant|]. split.
  { apply significant_bytes in B. induction B as [|x l Bx _ IH]; cbn [flat_map]; [constructor|].
    apply Forall_app. split; [|exact IH]. unfold unit_of. destruct (is_escaped x) eqn:X.
    - assert (H : forall v, 0 <= v < 16 -> 33 <= hex v <= 126 /\ hex v <> 58).
      { intros v Hv. unfold hex. destruct (Z.ltb_spec v 10); lia. }
      unfold escape. constructor; [lia|]. constructor; [lia|].
      constructor; [apply H; split; [apply Z.div_pos; lia | apply Z.div_lt_upper_bound; lia]|].
      constructor; [apply H, Z.mod_pos_bound; lia | constructor].
    - constructor; [|constructor]. unfold is_escaped in X.
      rewrite !orb_false_iff, !andb_false_iff, !Z.eqb_neq, !Z.leb_gt in X. lia. }
  split; [intros A; now apply alnum_unit|].
  intros d t Bd Ld R. rewrite render_significant in R by exact Ld. injection R as <-. split.
  - apply units_inj; now apply significant_bytes.
  - intros ->. reflexivity.
Qed.
Print Assumptions C73_display.

(* -------------------------------------------------------------- examples *)

Definition ax_issuer : list Z := repeat 7 32.
Definition ax_net : list Z := repeat 9 32.
Definition ax_sha (l : list Z) : list Z := repeat (Z.of_nat (length l)) 32.
Definition ax_usd : asset := Issued [85; 83; 68] ax_issuer.
Definition ax_long : asset := Issued [85; 83; 68; 67; 50] ax_issuer.
Example C73_ex_proper : proper Lumens /\ proper ax_usd /\ proper ax_long.
Proof.
  split; [exact I|]. split; cbn [proper ax_usd ax_long];
    (split; [cbn; lia|]; split; [unfold alphanumeric; repeat (constructor; [lia|]); constructor|];
     split; [reflexivity|]; apply Forall_forall; intros x H; apply repeat_spec in H; lia).
Qed.
Example C73_ex_history :
  let cur := address_of ax_sha ax_net ax_usd in
  let ok := fun _ : addr => Ok tt in
  let st := history ax_sha ax_net cur
    [Init [1; 2]; SetAdmin ok (AContract ax_net); Init (asset_bytes ax_long); Init (asset_bytes ax_usd);
     SetAdmin ok (AContract ax_net); Init (asset_bytes ax_usd)] in
  admin st = Ok (AContract ax_net) /\ symbol st = Ok [85; 83; 68] /\
  read_asset st = Ok (XAlpha4 [85; 83; 68; 0] ax_issuer).
Proof. vm_compute. auto. Qed.
Example C73_ex_display :
  render_sep0011_asset_code [85; 58; 0; 68] = Ok [85; 92; 120; 51; 97] /\
  render_sep0011_asset_code [85; 0; 0; 0; 0; 0; 0; 0; 0; 0; 0; 0] =
    Ok ([85] ++ concat (repeat [92; 120; 48; 48] 4)).
Proof. split; reflexivity. Qed.
