(* Addresses and their strkeys, the strings by which people write them:
   host/conversion.rs:664-821, host.rs:3586-3684.

   The string format itself (SEP-23) is computed by the crates stellar-strkey
   0.0.13 and data-encoding 2.6.0, outside the repository; what is written here is
   their behaviour: a version byte, the payload and a CRC-16/XMODEM checksum (low
   byte first), in RFC 4648 base 32 without padding, decoding refusing lengths
   that leave five or more bits over and bits left over that are not zero.
   Simplified: no metering (C49, C50); an argument is the object a value refers
   to, or nothing if the value is not an object (C08-C10), and a result is the
   object created. *)
From Coq Require Import ZArith List Bool.
From Verif Require Import Prelude ValModel HeapModel.
Import ListNotations.
Open Scope Z_scope.

(* ------------------------------------------------------- external: SEP-23 *)

(* the n low bits of x, the highest first, and the number they write *)
Fixpoint bits (n : nat) (x : Z) : list bool :=
  match n with
  | O => []
  | S n' => Z.testbit x (Z.of_nat n') :: bits n' x
  end.
Definition num (l : list bool) : Z := fold_left (fun a b => 2 * a + Z.b2z b) l 0.

(* crc: CRC-16/XMODEM, polynomial 0x1021, initial value 0 *)
Definition crc_shift (s : Z) : Z :=
  if Z.testbit s 15 then Z.lxor (Z.land (2 * s) 65535) 4129 else Z.land (2 * s) 65535.
Definition crc_byte (s b : Z) : Z := Nat.iter 8 crc_shift (Z.lxor s (256 * b)).
Definition crc (data : list Z) : Z := fold_left crc_byte data 0.

(* data_encoding::BASE32_NOPAD *)
Definition symbol32 (v : Z) : Z := if v <? 26 then 65 + v else 24 + v.
Definition value32 (c : Z) : option Z :=
  if (65 <=? c) && (c <=? 90) then Some (c - 65)
  else if (50 <=? c) && (c <=? 55) then Some (c - 24)
  else None.
Fixpoint group5 (l : list bool) : list Z :=
  match l with
  | [] => []
  | a :: b :: c :: d :: e :: r => symbol32 (num [a; b; c; d; e]) :: group5 r
  | l => [symbol32 (num (firstn 5 (l ++ repeat false 4)))]
  end.
Definition encode32 (data : list Z) : list Z := group5 (flat_map (bits 8) data).
Fixpoint group8 (l : list bool) : option (list Z) :=
  match l with
  | a :: b :: c :: d :: e :: f :: g :: h :: r =>
      match group8 r with
      | Some t => Some (num [a; b; c; d; e; f; g; h] :: t)
      | None => None
      end
  | l => if (length l <? 5)%nat && forallb negb l then Some [] else None
  end.
Fixpoint values32 (s : list Z) : option (list Z) :=
  match s with
  | [] => Some []
  | c :: r =>
      match value32 c, values32 r with
      | Some v, Some t => Some (v :: t)
      | _, _ => None
      end
  end.
Definition decode32 (s : list Z) : option (list Z) :=
  match values32 s with
  | Some vs => group8 (flat_map (bits 5) vs)
  | None => None
  end.

(* stellar_strkey::convert::encode, decode *)
Definition checksum (data : list Z) : list Z := [crc data mod 256; crc data / 256].
Definition encode (ver : Z) (payload : list Z) : list Z :=
  encode32 (ver :: payload ++ checksum (ver :: payload)).
Definition bytes_eqb (a b : list Z) : bool := if list_eq_dec Z.eq_dec a b then true else false.
Definition decode (s : list Z) : option (Z * list Z) :=
  match decode32 s with
  | Some data =>
      if (length data <? 3)%nat then None
      else
        let body := firstn (length data - 2) data in
        if bytes_eqb (skipn (length data - 2) data) (checksum body)
        then match body with ver :: payload => Some (ver, payload) | [] => None end
        else None
  | None => None
  end.

(* stellar_strkey::Strkey: the three kinds the host uses; every other kind is KOther *)
Inductive strkey_kind :=
| KPublicKey (key : list Z)
| KContract (id : list Z)
| KMuxed (id : Z) (key : list Z)
| KOther.
Definition v_public_key : Z := 48.
Definition v_muxed : Z := 96.
Definition v_contract : Z := 16.
Definition be_bytes (n : nat) (x : Z) : list Z :=
  map (fun i => (x / 256 ^ Z.of_nat (n - 1 - i)) mod 256) (seq 0 n).
Definition of_be (l : list Z) : Z := fold_left (fun a b => 256 * a + b) l 0.
(* to_string *)
Definition kind_to_string (k : strkey_kind) : list Z :=
  match k with
  | KPublicKey key => encode v_public_key key
  | KContract id => encode v_contract id
  | KMuxed id key => encode v_muxed (key ++ be_bytes 8 id)
  | KOther => []
  end.
(* Strkey::from_string: the payload has its kind's length *)
Definition kind_from_string (s : list Z) : option strkey_kind :=
  match decode s with
  | None => None
  | Some (ver, payload) =>
      if ver =? v_public_key then
        if (length payload =? 32)%nat then Some (KPublicKey payload) else None
      else if ver =? v_contract then
        if (length payload =? 32)%nat then Some (KContract payload) else None
      else if ver =? v_muxed then
        if (length payload =? 40)%nat
        then Some (KMuxed (of_be (skipn 32 payload)) (firstn 32 payload)) else None
      else Some KOther
  end.

(* ----------------------------------------------------------------- host *)

Definition e_unexpected_type : err := ESys TValue CUnexpectedType.
Definition e_obj_internal : err := ESys TObject CInternalError.

(* host/conversion.rs:664-694, non_muxed_sc_address_to_strkey *)
Definition non_muxed_sc_address_to_strkey (a : addr) : res (list Z) :=
  match a with
  | AAccount key => Ok (kind_to_string (KPublicKey key))
  | AContract id => Ok (kind_to_string (KContract id))
  | _ => Err e_obj_internal
  end.
(* host/conversion.rs:696-724, muxed_sc_address_to_strkey *)
Definition muxed_sc_address_to_strkey (a : addr) : res (list Z) :=
  match a with
  | AMuxed id key => Ok (kind_to_string (KMuxed id key))
  | _ => Err e_obj_internal
  end.
(* host/conversion.rs:730-821, strkey_to_scaddress.  from_utf8_lossy puts U+FFFD for
   what is not UTF-8; neither its bytes nor those it replaces are letters of base
   32, so the parsing sees the bytes themselves here. *)
Definition key_len : nat := 56.
Definition muxed_key_len : nat := 69.
Definition strkey_to_scaddress (arg : option hobj) (allow_muxed : bool) : res addr :=
  let parse (key : list Z) :=
    let valid_length :=
      if allow_muxed
      then (length key =? key_len)%nat || (length key =? muxed_key_len)%nat
      else (length key =? key_len)%nat in
    if negb valid_length then Err e_val_invalid
    else
      match kind_from_string key with
      | None => Err e_val_invalid
      | Some (KPublicKey k) => Ok (AAccount k)
      | Some (KContract i) => Ok (AContract i)
      | Some (KMuxed i k) => if allow_muxed then Ok (AMuxed i k) else Err e_val_invalid
      | Some KOther => Err e_val_invalid
      end in
  match arg with
  | None => Err e_unexpected_type
  | Some (HOBytes key) => parse key
  | Some (HOString key) => parse key
  | Some _ => Err e_unexpected_type
  end.

(* host.rs:3586-3595, address_to_strkey, of an AddressObject *)
Definition address_to_strkey (a : addr) : res hobj :=
  let? s := non_muxed_sc_address_to_strkey a in Ok (HOString s).
(* host.rs:3597-3622, muxed_address_to_strkey *)
Definition muxed_address_to_strkey (arg : option hobj) : res hobj :=
  match arg with
  | None => Err e_unexpected_type
  | Some (HOAddress a) => let? s := non_muxed_sc_address_to_strkey a in Ok (HOString s)
  | Some (HOMuxed a) => let? s := muxed_sc_address_to_strkey a in Ok (HOString s)
  | Some _ => Err e_unexpected_type
  end.
(* host.rs:3624-3631, strkey_to_address *)
Definition strkey_to_address (arg : option hobj) : res hobj :=
  let? a := strkey_to_scaddress arg false in Ok (HOAddress a).
(* host.rs:3633-3645, strkey_to_muxed_address *)
Definition strkey_to_muxed_address (arg : option hobj) : res hobj :=
  let? a := strkey_to_scaddress arg true in
  match a with
  | AMuxed _ _ => Ok (HOMuxed a)
  | _ => Ok (HOAddress a)
  end.
(* host.rs:3647-3667, get_address_from_muxed_address, of a MuxedAddressObject *)
Definition get_address_from_muxed_address (a : addr) : res hobj :=
  match a with
  | AMuxed _ key => Ok (HOAddress (AAccount key))
  | _ => Err e_obj_internal
  end.
(* host.rs:3669-3684, get_id_from_muxed_address: the number *)
Definition get_id_from_muxed_address (a : addr) : res Z :=
  match a with
  | AMuxed id _ => Ok id
  | _ => Err e_obj_internal
  end.
