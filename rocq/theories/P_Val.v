(* Properties C01, C02, C03, C05, C06: 64-bit value words. *)
From Coq Require Import ZArith Lia List Bool.
From Verif Require Import Prelude ValModel ValSpec ValProofs SymbolProofs WideProofs GuestProofs.
Import ListNotations.
Open Scope Z_scope.

(* ---------------------------------------------------------------- C01 *)

(* For every number type and every number of that type: in the documented small
   range there is an in-word form, it is a good word, decodes to the same number,
   no other number of the type shares it and no other number type decodes it;
   outside that range the in-word form is refused. *)
Theorem C01_small_numbers_roundtrip :
  forall k x, num_range k x ->
  (small_range k x ->
     exists v, num_to_small k x = Some v /\ word v /\ is_good v = true
               /\ small_to_num k v = Some x
               /\ (forall k', k' <> k -> small_to_num k' v = None)
               /\ (forall y, num_range k y -> num_to_small k y = Some v -> y = x))
  /\ (~ small_range k x -> num_to_small k x = None).
Proof. exact num_small_full. Qed.
Print Assumptions C01_small_numbers_roundtrip.

Example C01_hyp : num_range NI128 (-5) /\ small_range NI128 (-5)
  /\ num_range NU256 (2 ^ 200) /\ ~ small_range NU256 (2 ^ 200).
Proof. vm_compute. intuition congruence. Qed.

Theorem C01_u32_roundtrip :
  forall u, 0 <= u < 2 ^ 32 -> u32_of_val (val_of_u32 u) = Some u.
Proof. intros u H. destruct (u32_roundtrip u H) as [-> E]. exact E. Qed.
Print Assumptions C01_u32_roundtrip.

Theorem C01_i32_roundtrip :
  forall i, - 2 ^ 31 <= i < 2 ^ 31 -> i32_of_val (val_of_i32 i) = Some i.
Proof. intros i H. destruct (i32_roundtrip i H) as [-> E]. exact E. Qed.
Print Assumptions C01_i32_roundtrip.

Example C01_i32_hyp : - 2 ^ 31 <= -7 < 2 ^ 31 /\ i32_of_val (val_of_i32 (-7)) = Some (-7).
Proof. vm_compute. intuition congruence. Qed.

(* ---------------------------------------------------------------- C02 *)

(* The guest boundary accepts an i64 exactly when its 64-bit pattern is well
   formed, and hands over that same pattern. *)
Theorem C02_guest_words_accepted_iff_well_formed :
  forall i v, marshal_from_wasm i = Some v <-> v = i mod 2 ^ 64 /\ well_formed v.
Proof. exact marshal_lemma. Qed.
Print Assumptions C02_guest_words_accepted_iff_well_formed.

(* An accepted non-symbol word reads as exactly one value, and building that
   value gives the word back. *)
Theorem C02_accepted_words_decode_uniquely :
  forall v, word v -> is_good v = true -> get_tag v <> TgSymbolSmall ->
  exists a, atom_ok a /\ reads_as v a /\ build a = Some v
            /\ (forall b, reads_as v b -> b = a).
Proof. exact good_reads. Qed.
Print Assumptions C02_accepted_words_decode_uniquely.

(* Two accepted words never denote the same value. *)
Theorem C02_accepted_words_distinct :
  forall v w a, word v -> word w -> is_good v = true -> is_good w = true ->
  reads_as v a -> reads_as w a -> v = w.
Proof. exact good_distinct. Qed.
Print Assumptions C02_accepted_words_distinct.

Example C02_hyp_accepted :
  marshal_from_wasm (-249) = Some (2 ^ 64 - 249)
  /\ reads_as (2 ^ 64 - 249) (ANum NI64 (-1))
  /\ marshal_from_wasm 256 = None (* a "false" with a dirty body *).
Proof. vm_compute. auto. Qed.

(* ---------------------------------------------------------------- C03 *)

Theorem C03_short_symbols_roundtrip :
  forall bs v, symbol_small_from_bytes bs = Some v ->
  symbol_str v = bs /\ symbol_small_chars v = bs
  /\ word v /\ get_tag v = TgSymbolSmall /\ is_good v = true.
Proof.
  intros bs v H. destruct (symbol_roundtrip_lemma bs v H) as (C & W & T & G).
  rewrite symbol_str_chars by assumption. auto.
Qed.
Print Assumptions C03_short_symbols_roundtrip.

Theorem C03_in_word_form_exists_iff_short_and_valid :
  forall bs, (exists v, symbol_small_from_bytes bs = Some v)
             <-> ((length bs <= 9)%nat /\ Forall sym_char bs).
Proof.
  intros bs. split.
  - intros [v H]. destruct (symbol_small_from_bytes_spec bs) as [(L & F & _)|[_ N]]; [auto|congruence].
  - intros [L F]. now apply symbol_small_some.
Qed.
Print Assumptions C03_in_word_form_exists_iff_short_and_valid.

Theorem C03_short_symbols_injective :
  forall a b v, symbol_small_from_bytes a = Some v -> symbol_small_from_bytes b = Some v -> a = b.
Proof. exact symbol_inj. Qed.
Print Assumptions C03_short_symbols_injective.

(* Any symbol word a guest can hand over spells a valid symbol string. *)
Theorem C03_good_symbol_words_spell_valid_strings :
  forall v, word v -> get_tag v = TgSymbolSmall -> is_good v = true ->
  Forall sym_char (symbol_small_chars v) /\ (length (symbol_small_chars v) <= 9)%nat.
Proof. exact good_symbol_chars. Qed.
Print Assumptions C03_good_symbol_words_spell_valid_strings.

Example C03_hyp : exists v, symbol_small_from_bytes [97; 95; 90; 48] = Some v.
Proof. eexists. vm_compute. reflexivity. Qed.

(* Finding: the converse (one accepted word per string) fails.  Words with a zero
   6-bit code between characters are accepted and spell the same string as the
   packed word ("a" shifted left by one code position). *)
Theorem C03_symbol_words_not_canonical_refuted :
  exists v w, word v /\ word w /\ v <> w /\ is_good v = true /\ is_good w = true
    /\ get_tag v = TgSymbolSmall /\ get_tag w = TgSymbolSmall
    /\ symbol_str v = symbol_str w.
Proof.
  exists (38 * 2 ^ 8 + 14), (38 * 2 ^ 14 + 14). vm_compute. intuition congruence.
Qed.
Print Assumptions C03_symbol_words_not_canonical_refuted.

(* ---------------------------------------------------------------- C05 *)

Definition xdr_error (e : err) : Prop :=
  match e with EContract c => 0 <= c < 2 ^ 32 | ESys _ _ => True end.

Theorem C05_error_roundtrip :
  forall e, xdr_error e ->
  error_of_val (val_of_error e) = Some e /\ get_tag (val_of_error e) = TgError
  /\ is_good (val_of_error e) = true.
Proof.
  intros e H. assert (OK : atom_ok (AErr e)) by (destruct e; exact H).
  split; [now apply error_roundtrip_lemma|]. rewrite val_of_error_word by exact OK.
  split; [now apply (get_tag_word_of_atom (AErr e))|now apply good_word_of_atom].
Qed.
Print Assumptions C05_error_roundtrip.

Theorem C05_accepted_error_words_are_xdr_errors :
  forall v, word v -> get_tag v = TgError ->
  (is_good v = true <-> exists e, xdr_error e /\ error_of_val v = Some e /\ val_of_error e = v).
Proof.
  intros v W T. split.
  - intros G. unfold is_good in G. rewrite T in G.
    destruct (error_of_val v) as [e|] eqn:E; [|discriminate]. exists e.
    destruct (error_of_val_some v e W T E) as [OK V].
    split; [destruct e; exact OK|]. split; [reflexivity|].
    rewrite val_of_error_word by exact OK. now symmetry.
  - intros (e & _ & E & _). unfold is_good. now rewrite T, E.
Qed.
Print Assumptions C05_accepted_error_words_are_xdr_errors.

Example C05_hyp : xdr_error (EContract 4294967295) /\ xdr_error (ESys TAuth CInvalidAction).
Proof. vm_compute. intuition congruence. Qed.

(* ---------------------------------------------------------------- C06 *)

Theorem C06_u128_pieces :
  (forall u, 0 <= u < 2 ^ 128 -> u128_from_pieces (u128_hi u) (u128_lo u) = u)
  /\ (forall hi lo, word hi -> word lo ->
        0 <= u128_from_pieces hi lo < 2 ^ 128
        /\ u128_hi (u128_from_pieces hi lo) = hi /\ u128_lo (u128_from_pieces hi lo) = lo).
Proof. split; [exact u128_join_split|exact u128_split_join]. Qed.
Print Assumptions C06_u128_pieces.

Theorem C06_i128_pieces :
  (forall i, - 2 ^ 127 <= i < 2 ^ 127 -> i128_from_pieces (i128_hi i) (i128_lo i) = i)
  /\ (forall hi lo, - 2 ^ 63 <= hi < 2 ^ 63 -> word lo ->
        - 2 ^ 127 <= i128_from_pieces hi lo < 2 ^ 127
        /\ i128_hi (i128_from_pieces hi lo) = hi /\ i128_lo (i128_from_pieces hi lo) = lo).
Proof. split; [exact i128_join_split|exact i128_split_join]. Qed.
Print Assumptions C06_i128_pieces.

Theorem C06_u256_pieces :
  (forall u, 0 <= u < 2 ^ 256 ->
     let '(hh, hl, lh, ll) := u256_into_pieces u in u256_from_pieces hh hl lh ll = u)
  /\ (forall hh hl lh ll, word hh -> word hl -> word lh -> word ll ->
        0 <= u256_from_pieces hh hl lh ll < 2 ^ 256
        /\ u256_into_pieces (u256_from_pieces hh hl lh ll) = (hh, hl, lh, ll)).
Proof. split; [exact u256_join_split|exact u256_split_join]. Qed.
Print Assumptions C06_u256_pieces.

Theorem C06_i256_pieces :
  (forall i, - 2 ^ 255 <= i < 2 ^ 255 ->
     let '(hh, hl, lh, ll) := i256_into_pieces i in i256_from_pieces hh hl lh ll = i)
  /\ (forall hh hl lh ll, - 2 ^ 63 <= hh < 2 ^ 63 -> word hl -> word lh -> word ll ->
        - 2 ^ 255 <= i256_from_pieces hh hl lh ll < 2 ^ 255
        /\ i256_into_pieces (i256_from_pieces hh hl lh ll) = (hh, hl, lh, ll)).
Proof. split; [exact i256_join_split|exact i256_split_join]. Qed.
Print Assumptions C06_i256_pieces.

(* Numeric order is lexicographic order of the pieces, top piece first (and
   signed for the signed types). *)
Theorem C06_pieces_order :
  (forall x y, 0 <= x < 2 ^ 128 -> 0 <= y < 2 ^ 128 ->
     (x ?= y) = lex [u128_hi x; u128_lo x] [u128_hi y; u128_lo y])
  /\ (forall x y, - 2 ^ 127 <= x < 2 ^ 127 -> - 2 ^ 127 <= y < 2 ^ 127 ->
     (x ?= y) = lex [i128_hi x; i128_lo x] [i128_hi y; i128_lo y])
  /\ (forall x y, 0 <= x < 2 ^ 256 -> 0 <= y < 2 ^ 256 ->
     (x ?= y) = lex (list4 (u256_into_pieces x)) (list4 (u256_into_pieces y)))
  /\ (forall x y, - 2 ^ 255 <= x < 2 ^ 255 -> - 2 ^ 255 <= y < 2 ^ 255 ->
     (x ?= y) = lex (list4 (i256_into_pieces x)) (list4 (i256_into_pieces y))).
Proof. exact (conj u128_order (conj i128_order (conj u256_order i256_order))). Qed.
Print Assumptions C06_pieces_order.

Example C06_hyp : i256_into_pieces (-1) = (-1, 2 ^ 64 - 1, 2 ^ 64 - 1, 2 ^ 64 - 1)
  /\ i256_from_pieces (-1) (2 ^ 64 - 1) (2 ^ 64 - 1) (2 ^ 64 - 1) = -1.
Proof. vm_compute. auto. Qed.
