(* The asset contract's events as the values others see:
   builtin_contracts/stellar_asset_contract/event.rs.

   Values are XDR values, as an event shows them outside (C07 relates them to the
   host's objects).  The name is what read_name gives (metadata.rs, AssetModel).
   Recording is Events::record_contract_event (events/mod.rs:258-272): the event
   carries the running contract's id.  Budget is omitted. *)
From Coq Require Import ZArith Lia String List Bool.
From Verif Require Import Prelude ValModel ContainerModel HeapModel SacModel CtModel.
Import ListNotations.
Open Scope Z_scope.

Record shown := { w_contract : list Z; w_topics : list scval; w_data : scval }.

Definition sym (s : string) : scval := SSymbol (lit s).
Arguments sym s%string_scope.
(* base_types / convert.rs: i128 to a value, in its XDR form *)
Definition i128_of (x : Z) : scval := SI128 (i128_hi x) (i128_lo x).

(* map_put in host.rs: insertion under the key's place in the order of values *)
Definition put_field (m : list (scval * scval)) (k v : scval) : res (list (scval * scval)) :=
  omap_insert (cmp_scval 100) m k v.

(* event.rs:68-93 *)
Definition amount_data (amount : Z) (mux : option Z) : res scval :=
  match mux with
  | None => Ok (i128_of amount)
  | Some id =>
      let? m := put_field [] (sym "amount") (i128_of amount) in
      let? m := put_field m (sym "to_muxed_id") (SU64 id) in
      Ok (SMap (Some m))
  end.

(* event.rs:29-45, 95-171 *)
Definition show (self name : list Z) (ev : sevent) : res shown :=
  let record topics (data : res scval) : res shown :=
    let? d := data in Ok {| w_contract := self; w_topics := topics; w_data := d |} in
  match ev with
  | EvApprove f s amount until =>
      record [sym "approve"; SAddress f; SAddress s; SString name]
             (Ok (SVec (Some [i128_of amount; SU32 until])))
  | EvTransfer f t mux amount =>
      record [sym "transfer"; SAddress f; SAddress t; SString name] (amount_data amount mux)
  | EvMint t mux amount =>
      record [sym "mint"; SAddress t; SString name] (amount_data amount mux)
  | EvClawback f amount =>
      record [sym "clawback"; SAddress f; SString name] (Ok (i128_of amount))
  | EvSetAuthorized a b =>
      record [sym "set_authorized"; SAddress a; SString name] (Ok (SBool b))
  | EvSetAdmin old new =>
      record [sym "set_admin"; SAddress old; SString name] (Ok (SAddress new))
  | EvBurn f amount =>
      record [sym "burn"; SAddress f; SString name] (Ok (i128_of amount))
  end.

(* what is recorded for a list of events *)
Fixpoint show_all (self name : list Z) (l : list sevent) : res (list shown) :=
  match l with
  | [] => Ok []
  | ev :: l => let? w := show self name ev in let? ws := show_all self name l in Ok (w :: ws)
  end.
