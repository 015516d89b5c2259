(** Model of the lookups of one B-tree that visit many keys, while other calls change the same tree:
    internal/datastructures/btree, threadsafe_find.go (Find for every kind of key, FindNotEqual, FindLessThan,
    FindLessThanOrEqual, FindGreaterThan, FindGreaterThanOrEqual), on top of BTreeSync.v (Create, CreateOrFind,
    Delete, exact-key Find with their locks).  No proofs in this file.

    A lookup read-locks btree.lock, then the root, then goes down: at a node it locks every child it needs and
    then releases the node; the children that are not yet visited stay locked.  A read lock held by a lookup has
    a name, an odd number, that stands among the readers of its node; the calls of BTreeSync.v have even
    numbers here.  A writer that needs a node waits for its readers, so for these locks too.

    What one step is.  "Call back for the wanted entries of a node, lock the children it needs, release the node"
    is one step: the node's read lock keeps writers away from its children, so a child that was free when its
    lock was taken is the same as at the end of the step.
    Left out: callbacks that stop the lookup (BTreeFind.v; C11, C13) or panic, and what BTreeSync.v leaves out. *)
From Verif Require Import Datatypes BTree BTreeFind SpecFind BTreeSync.
Local Open Scope nat_scope.

Section Iter.
  Context {V : Type}.
  Variable n : nat.                (* btree.nodeSize *)
  Variable ops : nat -> cop V.     (* what call number [c] (even) does *)
  (** What lookup number [j] asks: the method, its key, its type restrictions *)
  Variable lks : nat -> lookup * EV * TypeRestrictions.

  (** Odd numbers are names of read locks: they do nothing by themselves. *)
  Definition bops (c : nat) : cop V := if Nat.odd c then KDelete Any (fun _ _ => false) else ops c.

  (** One way down the tree: visit what [cls] wants and [keep] lets through (threadsafe_find.go:122-180, :281-346,
      :405-483, :522-587, :626-705; [keep]: :206-213), or look up one key (:87-120). *)
  Inductive descent :=
  | DScan (cls : EV -> verdict) (keep : EV -> bool)
  | DMatch (key : EV).

  Definition all_keys (k : EV) : bool := true.
  (** threadsafe_find.go:207: not the key of FindNotEqual *)
  Definition other_key (key k : EV) : bool := negb (negb (lmt key k) && negb (lmt k key)).

  (** The ways down of a lookup, in order, when there is a root.  Several: btree.lock is kept until the last
      one holds the root's lock.  None: nothing is locked and btree.lock is never released. *)
  Definition descents (l : lookup * EV * TypeRestrictions) : list descent :=
    let '(w, key, tr) := l in
    let any := if Z.eqb (tr_max tr) T_any then [DMatch Any] else [] in
    let less cls := (if negb (Z.ltb (ev_type key) (tr_min tr)) then [DScan cls all_keys] else []) ++ any in
    let greater cls := if negb (Z.ltb (tr_max tr) (ev_type key)) then [DScan cls all_keys] else [] in
    match w with
    | LkFind =>                                                                            (* :40-78 *)
        if GeneralDataTypes (ev_type key) then
          (if negb (Z.ltb (ev_type key) (tr_min tr)) && negb (Z.ltb (tr_max tr) (ev_type key)) then [DMatch key] else []) ++ any
        else if AnyDataType (ev_type key) then [DScan (cls_iterate tr) all_keys]
        else []
    | LkNotEqual => [DScan (cls_iterate tr) (other_key key)]                               (* :202-213 *)
    | LkLess => less (cls_lt key tr)                                                       (* :247-273 *)
    | LkLessEq => less (cls_le key tr)                                                     (* :371-397 *)
    | LkGreater => greater (cls_gt key tr)                                                 (* :508-514 *)
    | LkGreaterEq => greater (cls_ge key tr)                                               (* :612-618 *)
    end.

  (** A callback that records and never stops *)
  Definition record_all (seen : list (entry V)) (k : EV) (v : V) : list (entry V) * bool := (seen ++ [(k, v)], true).

  (** What a descent does in one node: the entries handed to the callback and the children it locks, in order *)
  Definition node_plan (d : descent) (vs : list (entry V)) (leaf : bool) : list (entry V) * list nat :=
    match d with
    | DScan cls keep =>
        let '(seen, e, js, _) := scan_vals record_all cls [] leaf vs 0 [] [] in
        (filter (fun x => keep (fst x)) seen,
         js ++ (if leaf then [] else match e with EndedAt i => [i] | Stopped => [] end))
    | DMatch key =>
        match (if leaf then leaf_match vs key else found_at vs (search vs key) key) with
        | Some (_, v) => ([(key, v)], [])
        | None => ([], if leaf then [] else [search vs key])
        end
    end.

  (** Read-lock the children [js] (RLock waits for a writer); [ys] are the names of the locks *)
  Fixpoint lock_kids (js ys : list nat) (ks : list (atree V)) : option (list (atree V)) :=
    match js, ys with
    | [], [] => Some ks
    | j :: js', y :: ys' =>
        match nth_error ks j with
        | Some (ANode MFree rs cv ck) => lock_kids js' ys' (set_nth j (ANode MFree (y :: rs) cv ck) ks)
        | _ => None
        end
    | _, _ => None
    end.

  (** The node whose read lock is [x] is visited: [vis] is handed to the callback, its children get the locks [ys] *)
  Inductive vstep (d : descent) (x : nat) (ys : list nat) : atree V -> list (entry V) -> atree V -> Prop :=
  | V_here r1 r2 vs ks vis js ks' :
      node_plan d vs (match ks with [] => true | _ => false end) = (vis, js) -> lock_kids js ys ks = Some ks' ->
      vstep d x ys (ANode MFree (r1 ++ x :: r2) vs ks) vis (ANode MFree (r1 ++ r2) vs ks')
  | V_kid m rs vs l1 t vis t' l2 :
      vstep d x ys t vis t' ->
      vstep d x ys (ANode m rs vs (l1 ++ t :: l2)) vis (ANode m rs vs (l1 ++ t' :: l2)).

  (** A lookup: not made; wants btree.lock; holds it with these ways down to go; is on a way down (with the ways
      after it, the locks it holds, the next one first); knows everything; has returned.  [acc]: what the callback
      was given.  [leak]: it still holds btree.lock. *)
  Inductive iphase :=
  | INew
  | IWant
  | IHold (rest : list descent) (acc : list (entry V))
  | IDown (d : descent) (rest : list descent) (held : list nat) (acc : list (entry V))
  | IDone (leak : bool) (acc : list (entry V))
  | IRet (leak : bool) (acc : list (entry V)).
  Definition holds_tree (p : iphase) : bool :=
    match p with
    | IHold _ _ => true
    | IDown _ rest _ _ => match rest with [] => false | _ => true end
    | IDone b _ => b
    | IRet b _ => b
    | _ => false
    end.
  Definition held_of (p : iphase) : list nat := match p with IDown _ _ held _ => held | _ => [] end.

  Record xstate := mkX { xs : state V; xi : nat -> iphase }.
  Definition set_xi (f : nat -> iphase) (j : nat) (p : iphase) : nat -> iphase := fun i => if Nat.eqb i j then p else f i.

  (** The read locks of a tree's nodes *)
  Fixpoint tokens (t : atree V) : list nat := match t with ANode _ rs _ ks => rs ++ flat_map tokens ks end.
  (** New names for read locks *)
  Definition new_name (s : xstate) (x : nat) : Prop :=
    Nat.odd x = true /\ (forall t, root (xs s) = Some t -> ~ In x (tokens t)) /\ (forall j, ~ In x (held_of (xi s j))).

  Inductive xevent := EB (e : event V) | ELCall (j : nat) | ELRet (j : nat) (l : list (entry V)).

  Definition with_root (s : state V) (r : option (atree V)) : state V := mkState (top s) (trs s) r (ph s).

  Inductive xstep : xstate -> option xevent -> xstate -> Prop :=
  (** the other calls; btree.lock.Lock() waits for the lookups that hold btree.lock *)
  | X_base s e s' :
      step n bops (xs s) e s' -> (forall c, e = Some (ECall c) -> Nat.odd c = false) ->
      (forall j c, holds_tree (xi s j) = true -> top s' <> TWait c) ->
      xstep s (option_map EB e) (mkX s' (xi s))
  (** a lookup is called *)
  | X_call s j :
      xi s j = INew -> xstep s (Some (ELCall j)) (mkX (xs s) (set_xi (xi s) j IWant))
  (** threadsafe_find.go:38, :200, :243, :367, :504, :608: btree.lock.RLock() *)
  | X_rlock s j :
      xi s j = IWant -> top (xs s) = TFree ->
      xstep s None (mkX (xs s) (set_xi (xi s) j (IHold (descents (lks j)) [])))
  (** :80, :217, :275, :399, :516, :620: no root *)
  | X_nil s j rest acc :
      xi s j = IHold rest acc -> root (xs s) = None ->
      xstep s None (mkX (xs s) (set_xi (xi s) j (IDone false acc)))
  (** btree.root.lock.RLock(), and btree.lock.RUnlock() when it is the last way down *)
  | X_root s j d rest acc rs vs ks x :
      xi s j = IHold (d :: rest) acc -> root (xs s) = Some (ANode MFree rs vs ks) -> new_name s x ->
      xstep s None (mkX (with_root (xs s) (Some (ANode MFree (x :: rs) vs ks))) (set_xi (xi s) j (IDown d rest [x] acc)))
  (** no way down at all: btree.lock stays locked (:508, :612, and :48 with :61) *)
  | X_leak s j acc :
      xi s j = IHold [] acc -> root (xs s) <> None ->
      xstep s None (mkX (xs s) (set_xi (xi s) j (IDone true acc)))
  (** visit the next node *)
  | X_visit s j d rest x held acc t vis t' ys :
      xi s j = IDown d rest (x :: held) acc -> root (xs s) = Some t -> vstep d x ys t vis t' ->
      NoDup ys -> Forall (new_name s) ys ->
      xstep s None (mkX (with_root (xs s) (Some t')) (set_xi (xi s) j (IDown d rest (ys ++ held) (acc ++ vis))))
  (** this way down is finished *)
  | X_next s j d r rest acc :
      xi s j = IDown d (r :: rest) [] acc ->
      xstep s None (mkX (xs s) (set_xi (xi s) j (IHold (r :: rest) acc)))
  | X_end s j d acc :
      xi s j = IDown d [] [] acc ->
      xstep s None (mkX (xs s) (set_xi (xi s) j (IDone false acc)))
  | X_return s j b acc :
      xi s j = IDone b acc ->
      xstep s (Some (ELRet j acc)) (mkX (xs s) (set_xi (xi s) j (IRet b acc))).

  (** A tree without root, nothing called *)
  Definition xstart : xstate := mkX start (fun _ => INew).

  (** Executions, with the calls and returns in order *)
  Inductive xexec : list xevent -> xstate -> Prop :=
  | XX_start : xexec [] xstart
  | XX_step tr s e s' :
      xexec tr s -> xstep s e s' -> xexec (match e with Some x => tr ++ [x] | None => tr end) s'.
End Iter.

Arguments iphase V : clear implicits.
Arguments xstate V : clear implicits.
Arguments xevent V : clear implicits.
