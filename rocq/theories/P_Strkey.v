(* C72: an address has exactly one strkey and a strkey names exactly one address;
   every other string is refused, in particular one that differs from a strkey
   in one letter or in two neighbouring ones. *)
From Coq Require Import ZArith Lia List Bool.
From Verif Require Import Prelude ValModel HeapModel StrkeyModel StrkeySpec StrkeyProofs StrkeyProofs2.
Import ListNotations.
Open Scope Z_scope.
Ltac Zify.zify_post_hook ::= idtac.

(* the host object an address is *)
Definition object_of (a : addr) : hobj :=
  match a with AMuxed _ _ => HOMuxed a | _ => HOAddress a end.
(* the two objects that carry a string *)
Definition carries (o : hobj) (s : list Z) : Prop := o = HOString s \/ o = HOBytes s.

Lemma carries_parse o s m : carries o s ->
  strkey_to_scaddress (Some o) m = strkey_to_scaddress (Some (HOString s)) m.
Proof. intros [-> | ->]; reflexivity. Qed.
Lemma not_muxed a : ~ is_muxed a -> writable a ->
  non_muxed_sc_address_to_strkey a = Ok (kind_to_string (kind_of a)) /\ object_of a = HOAddress a.
Proof. destruct a; cbn; tauto. Qed.

(* ---------------------------------------------------- address to strkey *)

Theorem C72_address_to_strkey a s : writable a -> ~ is_muxed a ->
  (address_to_strkey a = Ok (HOString s) <-> spelled a s).
Proof.
  intros W M. destruct (not_muxed a M W) as [E _]. unfold address_to_strkey. rewrite E. cbn [rbind].
  rewrite spelled_iff by exact W. split; [intros H; injection H as H; exact H | intros ->; reflexivity].
Qed.
Print Assumptions C72_address_to_strkey.

Theorem C72_muxed_address_to_strkey a s : writable a ->
  (muxed_address_to_strkey (Some (object_of a)) = Ok (HOString s) <-> spelled a s).
Proof.
  intros W. rewrite spelled_iff by exact W.
  destruct a; cbn [object_of muxed_address_to_strkey non_muxed_sc_address_to_strkey
                   muxed_sc_address_to_strkey rbind kind_of];
    try (split; [intros H; injection H as H; exact H | intros ->; reflexivity]).
  destruct W.
Qed.
Print Assumptions C72_muxed_address_to_strkey.

(* ---------------------------------------------------- strkey to address *)

Theorem C72_strkey_to_address o s r : carries o s ->
  (strkey_to_address (Some o) = Ok r <->
   exists a, r = HOAddress a /\ writable a /\ ~ is_muxed a /\ spelled a s).
Proof.
  intros C. unfold strkey_to_address. rewrite (carries_parse o s false C). split.
  - destruct (strkey_to_scaddress (Some (HOString s)) false) as [a|e] eqn:E; [|discriminate].
    cbn [rbind]. intros H. injection H as <-. apply scaddress_iff in E as (W & M & S).
    exists a. repeat split; auto. intros X. discriminate (M X).
  - intros (a & -> & W & M & S).
    rewrite (proj2 (scaddress_iff s a false)); [reflexivity|]. split; [exact W|]. split; [contradiction | exact S].
Qed.
Print Assumptions C72_strkey_to_address.

Theorem C72_strkey_to_muxed_address o s r : carries o s ->
  (strkey_to_muxed_address (Some o) = Ok r <->
   exists a, r = object_of a /\ writable a /\ spelled a s).
Proof.
  intros C. unfold strkey_to_muxed_address. rewrite (carries_parse o s true C). split.
  - destruct (strkey_to_scaddress (Some (HOString s)) true) as [a|e] eqn:E; [|discriminate].
    cbn [rbind]. intros H. apply scaddress_iff in E as (W & M & S).
    exists a. split; [|auto]. destruct a; injection H as <-; reflexivity.
  - intros (a & -> & W & S).
    rewrite (proj2 (scaddress_iff s a true)); [destruct a; reflexivity|]. auto.
Qed.
Print Assumptions C72_strkey_to_muxed_address.

(* what is refused, and how *)
Theorem C72_refused arg :
  ((forall o s, arg = Some o -> ~ carries o s) ->
   strkey_to_address arg = Err (ESys TValue CUnexpectedType) /\
   strkey_to_muxed_address arg = Err (ESys TValue CUnexpectedType)) /\
  (forall o s, arg = Some o -> carries o s ->
   ((forall a, writable a -> ~ is_muxed a -> ~ spelled a s) ->
    strkey_to_address arg = Err (ESys TValue CInvalidInput)) /\
   ((forall a, writable a -> ~ spelled a s) ->
    strkey_to_muxed_address arg = Err (ESys TValue CInvalidInput))).
Proof.
  split.
  - intros H. destruct arg as [[]|]; try (split; reflexivity).
    + destruct (H _ b eq_refl). now right.
    + destruct (H _ b eq_refl). now left.
  - intros o s -> C. unfold strkey_to_address, strkey_to_muxed_address.
    rewrite !(carries_parse o s _ C). split; intros H.
    + destruct (strkey_to_scaddress (Some (HOString s)) false) as [a|e] eqn:E.
      * apply scaddress_iff in E as (W & M & S). exfalso.
        apply (H a); auto. intros X. discriminate (M X).
      * apply scaddress_err in E as ->. reflexivity.
    + destruct (strkey_to_scaddress (Some (HOString s)) true) as [a|e] eqn:E.
      * apply scaddress_iff in E as (W & M & S). exfalso. apply (H a); auto.
      * apply scaddress_err in E as ->. reflexivity.
Qed.
Print Assumptions C72_refused.

(* ------------------------------------------------------------ uniqueness *)

Theorem C72_round_trip a : writable a -> exists s,
  spelled a s /\
  muxed_address_to_strkey (Some (object_of a)) = Ok (HOString s) /\
  strkey_to_muxed_address (Some (HOString s)) = Ok (object_of a) /\
  (~ is_muxed a ->
   address_to_strkey a = Ok (HOString s) /\ strkey_to_address (Some (HOString s)) = Ok (HOAddress a)).
Proof.
  intros W. set (s := kind_to_string (kind_of a)).
  assert (S : spelled a s) by (now apply spelled_iff).
  exists s. split; [exact S|]. split; [now apply C72_muxed_address_to_strkey|].
  split; [apply (C72_strkey_to_muxed_address _ s); [now left | eauto]|].
  intros M. split; [now apply C72_address_to_strkey|].
  apply (C72_strkey_to_address _ s); [now left | eauto].
Qed.
Print Assumptions C72_round_trip.

Theorem C72_one_spelling a b s t : writable a -> writable b -> spelled a s -> spelled b t ->
  (a = b <-> s = t).
Proof.
  intros Wa Wb Sa Sb. split.
  - intros <-. apply (spelled_iff a s Wa) in Sa. apply (spelled_iff a t Wb) in Sb. congruence.
  - intros <-. apply (spelled_iff a s Wa), (from_string_iff s a Wa) in Sa.
    apply (spelled_iff b s Wb), (from_string_iff s b Wb) in Sb.
    assert (E : kind_of a = kind_of b) by congruence.
    destruct a, b; cbn [kind_of] in E; try discriminate E;
      try (injection E as <-; reflexivity); [injection E as <- <-; reflexivity | destruct Wa].
Qed.
Print Assumptions C72_one_spelling.

(* the kind of an address can be read off its first letter: G, C or M *)
Lemma first_letter ver p s : encode ver p = s -> hd 0 s = symbol32 (num (firstn 5 (bits 8 ver))).
Proof. intros <-. reflexivity. Qed.
Theorem C72_shape a s : writable a -> spelled a s ->
  Forall (fun c => 65 <= c <= 90 \/ 50 <= c <= 55) s /\
  match a with
  | AAccount _ => length s = 56%nat /\ hd 0 s = 71
  | AContract _ => length s = 56%nat /\ hd 0 s = 67
  | AMuxed _ _ => length s = 69%nat /\ hd 0 s = 77
  | AOther _ _ => False
  end.
Proof.
  intros W S. split.
  - assert (F : exists ds, Forall2 letter s ds).
    { destruct a; cbn [spelled] in S;
        [destruct S as (ds & ? & ? & F & _) | destruct S as (ds & ? & ? & F & _)
        | destruct S as (? & _ & _ & _ & ds & ? & ? & F & _) | destruct S]; eauto. }
    destruct F as [ds F]. clear S. induction F as [|c v s ds L F IH]; constructor; [|exact IH].
    unfold letter in L. lia.
  - pose proof (spelled_length a s W S) as L. apply spelled_iff in S; [|exact W].
    destruct a; cbn [kind_of kind_to_string] in S; [| | |destruct W];
      (split; [exact L | rewrite (first_letter _ _ _ S); reflexivity]).
Qed.
Print Assumptions C72_shape.

(* -------------------------------------------------------------- mistakes *)

Lemma spelled_core a s : writable a -> spelled a s -> exists ver p,
  are_bytes (ver :: p) /\ writes s (core ver p) /\
  length p = match a with AMuxed _ _ => 40%nat | _ => 32%nat end.
Proof.
  intros W S. apply spelled_iff in S; [|exact W].
  destruct a as [k|k|i k|]; cbn [kind_of kind_to_string] in S; [| | |destruct W]; apply encode_iff in S.
  - exists v_public_key, k. split; [constructor; [unfold v_public_key; lia | apply W]|]. split; [exact S | apply W].
  - exists v_contract, k. split; [constructor; [unfold v_contract; lia | apply W]|]. split; [exact S | apply W].
  - destruct W as (L & B & R). exists v_muxed, (k ++ be_bytes 8 i).
    split; [constructor; [unfold v_muxed; lia | apply are_bytes_app; split; [exact B | apply be_bytes_bytes]]|].
    split; [exact S|]. rewrite app_length, be_bytes_length, L. reflexivity.
Qed.
(* a string that agrees with an address's strkey but in one letter, or in two
   neighbouring ones, is nobody's *)
Theorem C72_mistakes a s t i : writable a -> spelled a s ->
  length t = length s -> t <> s ->
  firstn i t = firstn i s -> skipn (i + 2) t = skipn (i + 2) s ->
  strkey_to_muxed_address (Some (HOString t)) = Err (ESys TValue CInvalidInput) /\
  strkey_to_address (Some (HOString t)) = Err (ESys TValue CInvalidInput).
Proof.
  intros W S L N F K.
  assert (X : forall b, writable b -> ~ spelled b t).
  { intros b Wb Sb. apply N.
    pose proof (spelled_length a s W S) as La. pose proof (spelled_length b t Wb Sb) as Lb.
    destruct (spelled_core a s W S) as (v & p & B & Wr & Lp).
    destruct (spelled_core b t Wb Sb) as (v' & p' & B' & Wr' & Lp').
    assert (Lpp : length p' = length p) by (destruct a, b; congruence).
    assert (Lp2 : (length p = 32 \/ length p = 40)%nat) by (destruct a; auto).
    assert (J : exists j, (j + 2 <= length s)%nat /\ firstn j t = firstn j s /\ skipn (j + 2) t = skipn (j + 2) s).
    { destruct (Nat.le_gt_cases (i + 2) (length s)) as [A|A]; [eauto|].
      assert (L2 : (56 <= length s)%nat) by (rewrite La; destruct a; lia).
      exists (length s - 2)%nat. split; [lia|]. split.
      - assert (G : forall u : list Z, firstn (length s - 2) u = firstn (length s - 2) (firstn i u))
          by (intros u; rewrite firstn_firstn; f_equal; lia).
        rewrite (G t), (G s), F. reflexivity.
      - rewrite !skipn_all2 by lia. reflexivity. }
    destruct J as (j & J & Fj & Kj). symmetry.
    eapply (detect v p v' p' s t j); eauto. }
  destruct (C72_refused (Some (HOString t))) as [_ R].
  destruct (R _ t eq_refl (or_introl eq_refl)) as [R1 R2]. auto.
Qed.
Print Assumptions C72_mistakes.

(* the two parts of a muxed account, which is not written as if it were plain *)
Theorem C72_muxed_parts i k :
  get_address_from_muxed_address (AMuxed i k) = Ok (HOAddress (AAccount k)) /\
  get_id_from_muxed_address (AMuxed i k) = Ok i /\
  address_to_strkey (AMuxed i k) = Err (ESys TObject CInternalError) /\
  forall a, ~ is_muxed a ->
    get_address_from_muxed_address a = Err (ESys TObject CInternalError) /\
    get_id_from_muxed_address a = Err (ESys TObject CInternalError).
Proof.
  split; [reflexivity|]. split; [reflexivity|]. split; [reflexivity|]. intros a M. destruct a; try (split; reflexivity).
  destruct (M I).
Qed.
Print Assumptions C72_muxed_parts.

(* -------------------------------------------------------------- examples *)

Definition ex_key : list Z :=
  [3; 10; 17; 24; 31; 38; 45; 52; 59; 66; 73; 80; 87; 94; 101; 108; 115; 122; 129; 136; 143; 150;
   157; 164; 171; 178; 185; 192; 199; 206; 213; 220].
(* GABQUEIYD4TC2NB3IJEVAV26MVWHG6UBRCHZNHNEVOZLTQGHZ3K5YMUR *)
Definition ex_g : list Z :=
  [71; 65; 66; 81; 85; 69; 73; 89; 68; 52; 84; 67; 50; 78; 66; 51; 73; 74; 69; 86; 65; 86; 50; 54;
   77; 86; 87; 72; 71; 54; 85; 66; 82; 67; 72; 90; 78; 72; 78; 69; 86; 79; 90; 76; 84; 81; 71; 72;
   90; 51; 75; 53; 89; 77; 85; 82].
(* CABQUEIYD4TC2NB3IJEVAV26MVWHG6UBRCHZNHNEVOZLTQGHZ3K5ZIRI *)
Definition ex_c : list Z :=
  [67; 65; 66; 81; 85; 69; 73; 89; 68; 52; 84; 67; 50; 78; 66; 51; 73; 74; 69; 86; 65; 86; 50; 54;
   77; 86; 87; 72; 71; 54; 85; 66; 82; 67; 72; 90; 78; 72; 78; 69; 86; 79; 90; 76; 84; 81; 71; 72;
   90; 51; 75; 53; 90; 73; 82; 73].
(* MABQUEIYD4TC2NB3IJEVAV26MVWHG6UBRCHZNHNEVOZLTQGHZ3K5YAAAAAAAAAAE2K2FW, id 1234 *)
Definition ex_m : list Z :=
  [77; 65; 66; 81; 85; 69; 73; 89; 68; 52; 84; 67; 50; 78; 66; 51; 73; 74; 69; 86; 65; 86; 50; 54;
   77; 86; 87; 72; 71; 54; 85; 66; 82; 67; 72; 90; 78; 72; 78; 69; 86; 79; 90; 76; 84; 81; 71; 72;
   90; 51; 75; 53; 89; 65; 65; 65; 65; 65; 65; 65; 65; 65; 65; 69; 50; 75; 50; 70; 87].
Lemma ex_key_ok : length ex_key = 32%nat /\ are_bytes ex_key.
Proof. split; [reflexivity|]. unfold ex_key, are_bytes. repeat constructor; lia. Qed.
Example C72_ex_account :
  writable (AAccount ex_key) /\ address_to_strkey (AAccount ex_key) = Ok (HOString ex_g) /\
  strkey_to_address (Some (HOBytes ex_g)) = Ok (HOAddress (AAccount ex_key)) /\
  spelled (AAccount ex_key) ex_g.
Proof.
  assert (W : writable (AAccount ex_key)) by exact ex_key_ok.
  split; [exact W|]. split; [vm_compute; reflexivity|]. split; [vm_compute; reflexivity|].
  apply C72_address_to_strkey; [exact W | intros [] | vm_compute; reflexivity].
Qed.
Example C72_ex_contract :
  address_to_strkey (AContract ex_key) = Ok (HOString ex_c) /\
  strkey_to_muxed_address (Some (HOString ex_c)) = Ok (HOAddress (AContract ex_key)).
Proof. vm_compute. auto. Qed.
Example C72_ex_muxed :
  muxed_address_to_strkey (Some (HOMuxed (AMuxed 1234 ex_key))) = Ok (HOString ex_m) /\
  strkey_to_muxed_address (Some (HOString ex_m)) = Ok (HOMuxed (AMuxed 1234 ex_key)) /\
  strkey_to_address (Some (HOString ex_m)) = Err (ESys TValue CInvalidInput).
Proof. vm_compute. auto. Qed.
(* the last two letters swapped *)
Example C72_ex_swapped :
  strkey_to_address (Some (HOString (firstn 54 ex_g ++ [82; 85]))) = Err (ESys TValue CInvalidInput).
Proof.
  assert (W : writable (AAccount ex_key)) by exact ex_key_ok.
  apply (C72_mistakes (AAccount ex_key) ex_g _ 54 W);
    [apply C72_ex_account | reflexivity | discriminate | reflexivity | reflexivity].
Qed.
(* Three neighbouring letters are too many: GABQ...K5YMUR and GABQ...K544FR are
   the strkeys of two accounts. *)
Definition ex_g' : list Z := firstn 52 ex_g ++ [52; 52; 70; 82].
Lemma C72_three_letters_refuted :
  firstn 52 ex_g' = firstn 52 ex_g /\ skipn 55 ex_g' = skipn 55 ex_g /\ ex_g' <> ex_g /\
  exists k k', k <> k' /\ strkey_to_address (Some (HOString ex_g)) = Ok (HOAddress (AAccount k)) /\
               strkey_to_address (Some (HOString ex_g')) = Ok (HOAddress (AAccount k')).
Proof.
  split; [reflexivity|]. split; [reflexivity|]. split; [discriminate|].
  exists ex_key, (firstn 31 ex_key ++ [222]).
  split; [discriminate|]. split; vm_compute; reflexivity.
Qed.
