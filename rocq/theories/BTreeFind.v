(** Model of internal/datastructures/btree/threadsafe_find.go, with the lock operations it performs.
    Callbacks carry a state [S]: [cb s key value = (s', continue?)].  A lookup runs alone here (no other
    goroutine changes the tree while it holds its locks).  No proofs in this file. *)
From Verif Require Import Datatypes BTree.
Local Open Scope nat_scope.

(** Locks: the tree's own and one per node, named by its position (child indices from the root). *)
Inductive lockid := LTree | LNode (path : list nat).
Inductive lockop := RLk (l : lockid) | RUn (l : lockid).

(** What the loop over a node's key/values does with one entry: [continue] without touching anything; leave
    the loop; lock the child to its left and call back; call back only; call back and leave the loop. *)
Inductive verdict := Skip | Break | VisitChild | VisitOnly | VisitBreak.

Section Find.
  Context {V S : Type}.
  Variable cb : S -> EV -> V -> S * bool.

  (** Outcome of the loop over the entries of a node: the callback asked to stop, or the loop ended at this
      index. *)
  Inductive loop_end := Stopped | EndedAt (i : nat).

  (** The loop over key/values (threadsafe_find.go:126-155, :285-320, :409-459, :528-563, :632-682).  [js] are
      the child indices locked so far ([children] in Go). *)
  Fixpoint scan_vals (cls : EV -> verdict) (p : list nat) (leaf : bool)
      (vs : list (entry V)) (i : nat) (s : S) (js : list nat) : S * loop_end * list nat * list lockop :=
    match vs with
    | [] => (s, EndedAt i, js, [])
    | (k, v) :: r =>
        match cls k with
        | Skip => scan_vals cls p leaf r (i + 1) s js
        | Break => (s, EndedAt i, js, [])
        | VisitChild =>
            let js' := if leaf then js else js ++ [i] in
            let lk := if leaf then [] else [RLk (LNode (p ++ [i]))] in
            let '(s', go) := cb s k v in
            if go then
              let '(s2, e, js2, ev) := scan_vals cls p leaf r (i + 1) s' js' in (s2, e, js2, lk ++ ev)
            else (s', Stopped, js', lk)
        | VisitOnly =>
            let '(s', go) := cb s k v in
            if go then scan_vals cls p leaf r (i + 1) s' js else (s', Stopped, js, [])
        | VisitBreak =>
            let '(s', go) := cb s k v in
            if go then (s', EndedAt i, js, []) else (s', Stopped, js, [])
        end
    end.

  Definition unlock_children (p : list nat) (js : list nat) : list lockop :=
    map (fun j => RUn (LNode (p ++ [j]))) js.

  (** iterate / findLessThan / findLessThanOrEqual / findGreaterThan / findGreaterThanOrEqual on a node whose
      lock is held.  When a child's scan stops at position [x] of [children], the remaining children are
      unlocked: [children[x+1..]] (threadsafe_find.go:336-338, :474-476, :578-580, :697-699), except that
      iterate unlocks [bn.children[x+1..len(children)-1]] (:170-172): [wrong_unlock].
      [None]: index out of range / nil pointer. *)
  Fixpoint scan (wrong_unlock : bool) (cls : EV -> verdict) (t : node V) (p : list nat) (s : S)
    : option (S * bool * list lockop) :=
    match t with
    | Node vs ks =>
        let leaf := match ks with [] => true | _ => false end in
        let '(s1, e, js, ev) := scan_vals cls p leaf vs 0 s [] in
        match e with
        | Stopped => Some (s1, false, ev ++ unlock_children p js ++ [RUn (LNode p)])
        | EndedAt i =>
            let js' := if leaf then js else js ++ [i] in
            let ev' := ev ++ (if leaf then [] else [RLk (LNode (p ++ [i]))]) ++ [RUn (LNode p)] in
            let fix children (rest : list nat) (x : nat) (s : S) {struct rest} : option (S * bool * list lockop) :=
              match rest with
              | [] => Some (s, true, [])
              | j :: rest' =>
                  match on_nth (fun c => scan wrong_unlock cls c (p ++ [j]) s) ks j with
                  | Some (Some (s', true, ev1)) =>
                      match children rest' (x + 1) s' with
                      | Some (s2, go, ev2) => Some (s2, go, ev1 ++ ev2)
                      | None => None
                      end
                  | Some (Some (s', false, ev1)) =>
                      let tounlock := if wrong_unlock then seq (x + 1) (length js' - (x + 1)) else rest' in
                      Some (s', false, ev1 ++ unlock_children p tounlock)
                  | _ => None
                  end
              end in
            match children js' 0 s1 with
            | Some (s2, go, ev2) => Some (s2, go, ev' ++ ev2)
            | None => None
            end
        end
    end.

  (** threadsafe_find.go:87-120 [findMatchType]: the loop of a leaf node looks at every key *)
  Fixpoint leaf_match (vs : list (entry V)) (key : EV) : option (entry V) :=
    match vs with
    | [] => None
    | (k, v) :: r => if negb (lmt k key) && negb (lmt key k) then Some (k, v) else leaf_match r key
    end.
  Fixpoint findMatchType (t : node V) (p : list nat) (key : EV) : option (option (entry V) * list lockop) :=
    match t with
    | Node vs [] => Some (leaf_match vs key, [RUn (LNode p)])
    | Node vs ks =>
        let index := search vs key in
        match found_at vs index key with
        | Some e => Some (Some e, [RUn (LNode p)])
        | None =>
            match on_nth (fun c => findMatchType c (p ++ [index]) key) ks index with
            | Some (Some (r, ev)) => Some (r, [RLk (LNode (p ++ [index])); RUn (LNode p)] ++ ev)
            | _ => None
            end
        end
    end.

  (** Per-entry decisions.  iterate: threadsafe_find.go:128-146 *)
  Definition cls_iterate (tr : TypeRestrictions) (k : EV) : verdict :=
    if Z.ltb (ev_type k) (tr_min tr) then Skip
    else if Z.ltb (tr_max tr) (ev_type k) then Break
    else VisitChild.
  (** findLessThan: :289-319 *)
  Definition cls_lt (key : EV) (tr : TypeRestrictions) (k : EV) : verdict :=
    if Z.ltb (ev_type k) (tr_min tr) then Skip
    else if Z.ltb (ev_type key) (ev_type k) then Break
    else if lmt k key then VisitChild else Break.
  (** findLessThanOrEqual: :413-458 *)
  Definition cls_le (key : EV) (tr : TypeRestrictions) (k : EV) : verdict :=
    if Z.ltb (ev_type k) (tr_min tr) then Skip
    else if Z.ltb (ev_type key) (ev_type k) then Break
    else if lmt k key then VisitChild
    else if negb (lmt key k) then VisitBreak else Break.
  (** findGreaterThan: :532-562 *)
  Definition cls_gt (key : EV) (tr : TypeRestrictions) (k : EV) : verdict :=
    if Z.ltb (tr_max tr) (ev_type k) then Break
    else if lmt k key then Skip
    else if lmt key k then VisitChild else Skip.
  (** findGreaterThanOrEqual: :636-681 *)
  Definition cls_ge (key : EV) (tr : TypeRestrictions) (k : EV) : verdict :=
    if Z.ltb (tr_max tr) (ev_type k) then Break
    else if lmt k key then Skip
    else if lmt key k then VisitChild else VisitOnly.

  (** Result of an exported lookup: parameter error, crash, or the callback state and lock trace. *)
  Inductive fres := FErr | FPanic | FOk (s : S) (ev : list lockop).

  Definition L0 := RLk LTree.
  Definition U0 := RUn LTree.
  Definition Lroot := RLk (LNode []).

  (** The tail shared by Find, FindLessThan and FindLessThanOrEqual (:61-71, :263-273, :387-397): look up the
      Any key when the restrictions allow it and the callback has not stopped. *)
  Definition then_any (root : node V) (tr : TypeRestrictions) (s : S) (go : bool) (ev : list lockop) : fres :=
    if Z.eqb (tr_max tr) T_any then
      if go then
        match findMatchType root [] Any with
        | Some (Some (_, v), ev2) => FOk (fst (cb s Any v)) (ev ++ [Lroot; U0] ++ ev2)
        | Some (None, ev2) => FOk s (ev ++ [Lroot; U0] ++ ev2)
        | None => FPanic
        end
      else FOk s (ev ++ [U0])
    else FOk s ev.

  (** :18-85 [Find] (after the destroy check). *)
  Definition Find (root : option (node V)) (key : EV) (tr : TypeRestrictions) (s : S) : fres :=
    if negb (ev_validate key MinDataType MaxDataType && tr_validate tr) then FErr
    else match root with
    | None => FOk s [L0; U0]
    | Some t =>
        if GeneralDataTypes (ev_type key) then
          if negb (Z.ltb (ev_type key) (tr_min tr)) && negb (Z.ltb (tr_max tr) (ev_type key)) then
            let ev := [L0; Lroot] ++ (if Z.ltb (tr_max tr) T_any then [U0] else []) in
            match findMatchType t [] key with
            | Some (Some (_, v), ev1) => let '(s', go) := cb s key v in then_any t tr s' go (ev ++ ev1)
            | Some (None, ev1) => then_any t tr s true (ev ++ ev1)
            | None => FPanic
            end
          else then_any t tr s true [L0]
        else if AnyDataType (ev_type key) then
          match scan true (cls_iterate tr) t [] s with
          | Some (s', _, ev) => FOk s' ([L0; Lroot; U0] ++ ev)
          | None => FPanic
          end
        else FOk s [L0] (* unreachable after Validate *)
    end.

  (** :225-279 [FindLessThan] and :349-403 [FindLessThanOrEqual] *)
  Definition find_less (cls : EV -> TypeRestrictions -> EV -> verdict)
      (root : option (node V)) (key : EV) (tr : TypeRestrictions) (s : S) : fres :=
    if negb (ev_validate key MinDataType MaxWithoutAnyDataType && tr_validate tr) then FErr
    else match root with
    | None => FOk s [L0; U0]
    | Some t =>
        if negb (Z.ltb (ev_type key) (tr_min tr)) then
          match scan false (cls key tr) t [] s with
          | Some (s', go, ev1) =>
              then_any t tr s' go ([L0; Lroot] ++ (if Z.ltb (tr_max tr) T_any then [U0] else []) ++ ev1)
          | None => FPanic
          end
        else then_any t tr s true [L0]
    end.
  Definition FindLessThan := find_less cls_lt.
  Definition FindLessThanOrEqual := find_less cls_le.

  (** :486-520 [FindGreaterThan] and :590-624 [FindGreaterThanOrEqual] *)
  Definition find_greater (cls : EV -> TypeRestrictions -> EV -> verdict)
      (root : option (node V)) (key : EV) (tr : TypeRestrictions) (s : S) : fres :=
    if negb (ev_validate key MinDataType MaxWithoutAnyDataType && tr_validate tr) then FErr
    else match root with
    | None => FOk s [L0; U0]
    | Some t =>
        if negb (Z.ltb (tr_max tr) (ev_type key)) then
          match scan false (cls key tr) t [] s with
          | Some (s', _, ev1) => FOk s' ([L0; Lroot; U0] ++ ev1)
          | None => FPanic
          end
        else FOk s [L0]
    end.
  Definition FindGreaterThan := find_greater cls_gt.
  Definition FindGreaterThanOrEqual := find_greater cls_ge.
End Find.

(** :182-222 [FindNotEqual]: iterate with a callback that passes over the key *)
Definition FindNotEqual {V S} (cb : S -> EV -> V -> S * bool)
    (root : option (node V)) (key : EV) (tr : TypeRestrictions) (s : S) : fres :=
  if negb (ev_validate key MinDataType MaxWithoutAnyDataType && tr_validate tr) then FErr
  else match root with
  | None => FOk s [L0; U0]
  | Some t =>
      let cb' s k v := if negb (lmt key k) && negb (lmt k key) then (s, true) else cb s k v in
      match scan cb' true (cls_iterate tr) t [] s with
      | Some (s', _, ev) => FOk s' ([L0; Lroot; U0] ++ ev)
      | None => FPanic
      end
  end.

(** Create's "full read find first" in CreateOrFind (threadsafe_create.go:189-205) followed by createOrFind:
    the same result as [tree_create], since nothing runs in between here. *)
