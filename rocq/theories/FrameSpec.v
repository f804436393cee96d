(* What contract calls are supposed to do, as readings of the tree of events of
   an invocation: which events are published, which frames may occur, what each
   instance-storage access answers, which random numbers are drawn.  Nothing
   here mentions contexts, rollback points or caches. *)
From Coq Require Import ZArith Lia List Bool.
From Verif Require Import Prelude ValModel ContainerModel HeapModel AMap StorageModel StorageSpec FrameModel.
Import ListNotations.
Open Scope Z_scope.

Definition fails {A} (r : res A) : option err := match r with Ok _ => None | Err e => Some e end.
Definition failed {A} (r : res A) : bool := match r with Ok _ => false | Err _ => true end.

(* ---------------------------------------------------------------- states *)

(* A host between invocations, and one that is executing a contract. *)
Definition idle {P} (c : sconf) (h : host P) : Prop :=
  run_ok c (h_store h) /\ alive (sc_li c) (contents c (h_store h)) /\ h_stack h = [].
Definition running {P} (c : sconf) (h : host P) : Prop :=
  run_ok c (h_store h) /\ alive (sc_li c) (contents c (h_store h)) /\ cur_id h <> None.

(* ---------------------------------------------------------------- events *)

(* Every event of a tree, in the order recorded, and whether a call enclosing it
   failed. *)
Fixpoint ev_tree (lost : bool) (t : tree) : list (event * bool) :=
  match t with
  | TEvent e => [(e, lost)]
  | TFrame _ r l => flat_map (ev_tree (lost || failed r)) l
  | _ => []
  end.
Definition ev_trees (ts : list tree) : list (event * bool) := flat_map (ev_tree false) ts.

(* The events of calls that all succeeded. *)
Fixpoint kept (t : tree) : list event :=
  match t with
  | TEvent e => [e]
  | TFrame _ (Ok _) l => flat_map kept l
  | _ => []
  end.

(* What the network publishes: e2e_invoke.rs:1007-1022 *)
Definition published (l : list (event * bool)) : list event :=
  map fst (filter (fun p => negb (snd p) && match ev_kind (fst p) with EvDiagnostic => false | _ => true end) l).
Definition not_diagnostic (e : event) : bool := match ev_kind e with EvDiagnostic => false | _ => true end.

(* ---------------------------------------------------------------- frames *)

Definition who : Type := option (kind * list Z * list Z * list scval).
Definition who_id (w : who) : option (list Z) :=
  match w with Some (_, id, _, _) => Some id | None => None end.

(* A frame occurs in the trees, inside the frames of the path (innermost first). *)
Inductive occurs : list tree -> list (who * res scval) -> who * res scval -> Prop :=
| occ_here ts w r l : In (TFrame w r l) ts -> occurs ts [] (w, r)
| occ_in ts w r l p x : In (TFrame w r l) ts -> occurs l p x -> occurs ts (p ++ [(w, r)]) x.

Fixpoint ids (p : list who) : list (list Z) :=
  match p with
  | [] => []
  | w :: p' => match who_id w with Some i => i :: ids p' | None => ids p' end
  end.

(* A frame that may run while the contracts of [stack] (innermost first) are
   running. *)
Definition legal (stack : list (list Z)) (w : who) : Prop :=
  match w with
  | None => True
  | Some (kd, id, fn, _) =>
      (* functions whose name starts with two underscores run only for the host *)
      (starts_with s_prefix fn = true ->
         (kd = KAuth /\ fn = s_check_auth) \/ (kd = KCtor /\ fn = s_constructor))
      (* a running contract is entered again only to authenticate it, directly *)
      /\ (In id stack -> kd = KAuth /\ exists rest, stack = id :: rest)
  end.

(* ---------------------------------------------------------------- errors *)

(* The errors no contract can recover from: a host invariant is broken, the
   footprint was left, or the budget is used up. *)
Inductive fatal : err -> Prop :=
| fatal_internal t : fatal (ESys t CInternalError)
| fatal_footprint : fatal (ESys TStorage CExceededLimit)
| fatal_budget : fatal (ESys TBudget CExceededLimit).

(* The error value a contract sees when a try_call fails. *)
Definition seen (e : err) : err :=
  match e with EContract n => EContract n | ESys _ _ => ESys TContext CInvalidAction end.

(* ---------------------------------------------------------------- instances *)

(* For each existing contract: what it runs, and its instance storage. *)
Definition world := list Z -> option (executable * (scval -> option scval)).
Definition wset (w : world) (id : list Z) (v : executable * (scval -> option scval)) : world :=
  fun i => if zlist_eq_dec i id then Some v else w i.

(* The contracts of a ledger. *)
Definition contracts (m : store) : world := fun id =>
  match m (instance_key (AContract id)) with
  | Some (EData (SContractInstance ex st), _) =>
      Some (ex, iget (match st with Some l => l | None => [] end))
  | _ => None
  end.
Definition same_world (w w' : world) : Prop :=
  forall id,
    match w id, w' id with
    | Some (ex, f), Some (ex', f') => ex = ex' /\ forall k, f k = f' k
    | None, None => True
    | _, _ => False
    end.

Definition kset (f : scval -> option scval) (k : scval) (v : option scval) : scval -> option scval :=
  fun k' => if scval_eq_dec k' k then v else f k'.
(* The answer of an instance storage access, and the map afterwards. *)
Definition inst_answer (i : iop) (f : scval -> option scval) : res scval :=
  match i with
  | IGet k => match f k with Some v => Ok v | None => Err (ESys TStorage CMissingValue) end
  | IHas k => Ok (SBool (match f k with Some _ => true | None => false end))
  | IPut _ _ | IDel _ => Ok SVoid
  end.
Definition inst_after (i : iop) (f : scval -> option scval) : scval -> option scval :=
  match i with
  | IGet _ | IHas _ => f
  | IPut k v => kset f k (Some v)
  | IDel k => kset f k None
  end.

(* The trees of events of contract [cur] are explained from world w, and lead to
   w': accesses answer from the contract's own map, a failed call changes
   nothing, a contract is created only where there is none. *)
Inductive explained : option (list Z) -> world -> list tree -> world -> Prop :=
| ex_nil cur w : explained cur w [] w
| ex_event cur w e ts w' : explained cur w ts w' -> explained cur w (TEvent e :: ts) w'
| ex_draw cur w o r ts w' : explained cur w ts w' -> explained cur w (TDraw o r :: ts) w'
| ex_inst id w i ex f ts w' :
    w id = Some (ex, f) ->
    explained (Some id) (wset w id (ex, inst_after i f)) ts w' ->
    explained (Some id) w (TInst i (inst_answer i f) :: ts) w'
| ex_update id w new ex f ts w' :
    w id = Some (ex, f) ->
    explained (Some id) (wset w id (new, f)) ts w' ->
    explained (Some id) w (TUpdate new :: ts) w'
| ex_created cur w id ex ts w' :
    w id = None ->
    explained cur (wset w id (ex, fun _ => None)) ts w' ->
    explained cur w (TCreated id ex :: ts) w'
| ex_call cur w f r l w1 ts w' :
    (forall i, who_id f = Some i -> w i <> None) ->
    explained (who_id f) w l w1 ->
    explained cur (match r with Ok _ => w1 | Err _ => w end) ts w' ->
    explained cur w (TFrame f r l :: ts) w'.

(* ---------------------------------------------------------------- executables *)

(* The executable can be run: its code, or the entry that names it, exists. *)
Definition runnable (m : store) (ex : executable) : Prop :=
  match ex with
  | ExWasm h => m (LKCode h) <> None
  | ExExternalRef o t => m (exe_ref_key o t) <> None
  | ExStellarAsset => True
  end.

(* An executable reference holds the hash of existing code. *)
Definition ref_valid (m : store) (v : option lentry) : Prop :=
  exists b l, v = Some (EData (SBytes b), l) /\ length b = 32%nat /\ m (LKCode b) <> None.

Definition same_entry (v v' : option lentry) : Prop := option_map fst v' = option_map fst v.

(* ---------------------------------------------------------------- constructors *)

(* Constructor frames occur only right after the contract was created. *)
Fixpoint ctors_ok (fresh : option (list Z)) (ts : list tree) : Prop :=
  match ts with
  | [] => True
  | t :: ts' =>
      match t with
      | TFrame (Some (KCtor, id, fn, _)) r l => fresh = Some id /\ fn = s_constructor
      | _ => True
      end
      /\ ctors_ok (match t with TCreated id _ => Some id | _ => None end) ts'
  end.
Inductive everywhere (Q : list tree -> Prop) : list tree -> Prop :=
| ev_intro ts : Q ts -> (forall w r l, In (TFrame w r l) ts -> everywhere Q l) -> everywhere Q ts.

(* ---------------------------------------------------------------- random numbers *)

Section Prng.
  Context {P : Type}.
  Variable E : env P.

  (* One draw from a generator. *)
  Definition drawn (o : pop) (p : P) : P * res scval :=
    match o with PReseed s => (reseed E s, Ok SVoid) | _ => draw E o p end.

  (* The draws of one frame, from the generator it currently has (None before its
     first draw), and the state of the base generator that new frames are seeded
     from: every frame has its own generator, seeded from the base at its first
     draw; nothing gives a seed back, not even a failed call. *)
  Inductive draws : P * option P -> list tree -> P * option P -> Prop :=
  | dr_nil s : draws s [] s
  | dr_old b p o ts s' :
      draws (b, Some (fst (drawn o p))) ts s' ->
      draws (b, Some p) (TDraw o (snd (drawn o p)) :: ts) s'
  | dr_new b o ts s' :
      draws (snd (sub_prng E b), Some (fst (drawn o (fst (sub_prng E b))))) ts s' ->
      draws (b, None) (TDraw o (snd (drawn o (fst (sub_prng E b)))) :: ts) s'
  | dr_call b p w r l b1 q ts s' :
      draws (b, None) l (b1, q) ->
      draws (b1, p) ts s' ->
      draws (b, p) (TFrame w r l :: ts) s'
  | dr_other s t ts s' :
      match t with TDraw _ _ | TFrame _ _ _ => False | _ => True end ->
      draws s ts s' -> draws s (t :: ts) s'.

  (* The generators handed out one after another by the base generator, and the
     base generator after k of them. *)
  Fixpoint advance (k : nat) (b : P) : P := match k with O => b | S k' => snd (sub_prng E (advance k' b)) end.
  Definition generator (b : P) (k : nat) : P := fst (sub_prng E (advance k b)).
  (* What a generator answers to a list of requests. *)
  Fixpoint stream (p : P) (l : list pop) : list (res scval) :=
    match l with [] => [] | o :: l' => snd (drawn o p) :: stream (fst (drawn o p)) l' end.

  Definition of_gen (j : nat) (l : list (nat * pop * res scval)) : list (nat * pop * res scval) :=
    filter (fun e => Nat.eqb (fst (fst e)) j) l.
  Definition requests (l : list (nat * pop * res scval)) : list pop := map (fun e => snd (fst e)) l.
  Definition answers (l : list (nat * pop * res scval)) : list (res scval) := map snd l.
End Prng.

(* The draws of a run in order, each with the number of the generator it comes
   from: a frame gets the next number at its first draw and keeps it.  [k]: the
   numbers used so far; [own]: the number of the current frame. *)
Fixpoint label_tree (t : tree) (k : nat) (own : option nat) : nat * option nat * list (nat * pop * res scval) :=
  match t with
  | TDraw o r => match own with Some j => (k, own, [(j, o, r)]) | None => (S k, Some k, [(k, o, r)]) end
  | TFrame _ _ l =>
      let '(k1, _, es) :=
        (fix go (l : list tree) (k : nat) (own : option nat) : nat * option nat * list (nat * pop * res scval) :=
           match l with
           | [] => (k, own, [])
           | t :: l' => let '(k1, o1, e1) := label_tree t k own in
                        let '(k2, o2, e2) := go l' k1 o1 in (k2, o2, e1 ++ e2)
           end) l k None in
      (k1, own, es)
  | _ => (k, own, [])
  end.
Fixpoint label (l : list tree) (k : nat) (own : option nat) : nat * option nat * list (nat * pop * res scval) :=
  match l with
  | [] => (k, own, [])
  | t :: l' => let '(k1, o1, e1) := label_tree t k own in
               let '(k2, o2, e2) := label l' k1 o1 in (k2, o2, e1 ++ e2)
  end.
