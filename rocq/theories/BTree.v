(** Model of internal/datastructures/btree: nodes, create, createOrFind, delete.
    Node arrays [keyValues]/[children] with their counters are lists (the first [numberOfValues] /
    [numberOfChildren] slots); per-node locks are not in this file (see BTreeLocks.v): operations are
    modelled as atomic.  Pointers to nodes are trees: in a B-tree each node has one parent.
    No proofs in this file. *)
From Verif Require Import Datatypes.
Local Open Scope nat_scope.

(** ** Array helpers *)
Definition set_nth {A} (i : nat) (x : A) (l : list A) : list A :=
  firstn i l ++ match skipn i l with [] => [] | _ :: r => x :: r end.
Definition ins_nth {A} (i : nat) (x : A) (l : list A) : list A := firstn i l ++ x :: skipn i l.
Definition del_nth {A} (i : nat) (l : list A) : list A := firstn i l ++ skipn (S i) l.
(** [f children[i]]; [None] = index out of range / nil pointer *)
Definition on_nth {A B} (f : A -> B) : list A -> nat -> option B :=
  fix on_nth (l : list A) (i : nat) {struct l} : option B :=
    match l, i with
    | [], _ => None
    | x :: _, O => Some (f x)
    | _ :: r, S i' => on_nth r i'
    end.

Section BTree.
  Context {V : Type}.

  (** threadsafe_b_tree.go: [keyValue] and [threadSafeBNode] *)
  Definition entry := (EV * V)%type.
  Inductive node := Node (vals : list entry) (kids : list node).
  Definition vals_of (t : node) : list entry := let 'Node vs _ := t in vs.
  Definition kids_of (t : node) : list node := let 'Node _ ks := t in ks.

  (** threadsafe_b_tree.go [minChildren] = (cap(keyValues)+1)/2 with cap = nodeSize+1, [minValues],
      [maxValues] *)
  Definition minValues (n : nat) : nat := (n + 2) / 2 - 1.
  Definition maxValues (n : nat) : nat := n.

  (** The search loop shared by create, createOrFind, createTreeItem, remove and findMatchType
      (threadsafe_create.go:117-129, :302-318; threadsafe_delete.go:120-145; threadsafe_find.go:89-105):
      first index whose key is not less than [key]; [numberOfValues] if there is none. *)
  Fixpoint search (vs : list entry) (key : EV) : nat :=
    match vs with
    | [] => 0
    | (k, _) :: r => if negb (lmt k key) then 0 else S (search r key)
    end.
  (** ... and whether the key at that index is equal ([!key.LessMatchType(keyValue.key)]) *)
  Definition found_at (vs : list entry) (i : nat) (key : EV) : option entry :=
    match nth_error vs i with
    | Some (k, v) => if negb (lmt key k) then Some (k, v) else None
    | None => None
    end.

  (** ** Create *)

  (** Result of create on a node: the key exists (with the stored value), an index panic, the node mutated
      in place, or a new parent returned by a split. *)
  Inductive cres :=
  | CExists (v : V)
  | CPanic
  | CSame (t : node)
  | CSplit (p : node).

  (** threadsafe_create.go:300-326 [createTreeItem] / :333-358 [createOrFindTreeItem].  [nv] is the result
      of onCreate, [None] for nil.  NOTE the Go code shifts the values before calling onCreate and does not
      shift back when it returns nil: slot [index] is then duplicated and the last value falls beyond
      [numberOfValues]. *)
  Definition createTreeItem (vs : list entry) (key : EV) (nv : option V) : V + list entry :=
    let index := search vs key in
    match found_at vs index key with
    | Some (_, v) => inl v
    | None =>
        let shifted := (* array contents after the shift loop :312-314 *)
          match nth_error vs index with
          | Some e => firstn index vs ++ e :: skipn index vs
          | None => vs
          end in
        match nv with
        | Some v => inr (firstn index vs ++ (key, v) :: skipn index vs)
        | None => inr (firstn (length vs) shifted)
        end
    end.

  (** threadsafe_create.go:378-399 [splitLeaf] *)
  Definition splitLeaf (n : nat) (vs : list entry) : option node :=
    let pivot := maxValues n / 2 in
    match nth_error vs pivot with
    | Some p => Some (Node [p] [Node (firstn pivot vs) []; Node (skipn (pivot + 1) vs) []])
    | None => None
    end.

  (** threadsafe_create.go:402-436 [insertNode]; uses [Less], not [LessMatchType] *)
  Fixpoint insert_index (vs : list entry) (key : EV) : nat :=
    match vs with
    | [] => 0
    | (k, _) :: r => if less key k then 0 else S (insert_index r key)
    end.
  Definition insertNode (vs : list entry) (ks : list node) (nd : node) : option (list entry * list node) :=
    match nd with
    | Node (kv :: _) (l :: r :: _) =>
        let index := insert_index vs (fst kv) in
        Some (ins_nth index kv vs, firstn index ks ++ l :: r :: skipn (S index) ks)
    | _ => None
    end.

  (** threadsafe_create.go:447-477 [splitNode] *)
  Definition splitNode (n : nat) (vs : list entry) (ks : list node) : option node :=
    let pivot := maxValues n / 2 in
    match nth_error vs pivot with
    | Some p => Some (Node [p] [Node (firstn pivot vs) (firstn (pivot + 1) ks);
                                Node (skipn (pivot + 1) vs) (skipn (pivot + 1) ks)])
    | None => None
    end.

  (** threadsafe_create.go:85-148 [create] and :236-293 [createOrFind] (same control flow; the latter calls
      onFind with the stored value where the former returns ErrorKeyAlreadyExists). *)
  Fixpoint create (n : nat) (t : node) (key : EV) (nv : option V) : cres :=
    match t with
    | Node vs [] =>
        match createTreeItem vs key nv with
        | inl v => CExists v
        | inr vs' =>
            if Nat.ltb (maxValues n) (length vs') then
              match splitLeaf n vs' with Some p => CSplit p | None => CPanic end
            else CSame (Node vs' [])
        end
    | Node vs ks =>
        let index := search vs key in
        match found_at vs index key with
        | Some (_, v) => CExists v
        | None =>
            match on_nth (fun c => create n c key nv) ks index with
            | Some (CSame c') => CSame (Node vs (set_nth index c' ks))
            | Some (CSplit p) =>
                match insertNode vs ks p with
                | Some (vs', ks') =>
                    if Nat.ltb (maxValues n) (length vs') then
                      match splitNode n vs' ks' with Some p' => CSplit p' | None => CPanic end
                    else CSame (Node vs' ks')
                | None => CPanic
                end
            | Some r => r
            | None => CPanic
            end
        end
    end.

  (** ** Delete *)

  (** threadsafe_delete.go:348-379 [rotateLeft] on children [i], [i+1] *)
  Definition rotateLeft (vs : list entry) (ks : list node) (i : nat) : option (list entry * list node) :=
    match nth_error ks i, nth_error ks (S i), nth_error vs i with
    | Some (Node cv ck), Some (Node (r0 :: rv) rk), Some v =>
        let ck' := match rk with [] => ck | rk0 :: _ => match ck with [] => [] | _ => ck ++ [rk0] end end in
        let child := Node (cv ++ [v]) ck' in
        let right := Node rv (tl rk) in
        Some (set_nth i r0 vs, set_nth (S i) right (set_nth i child ks))
    | _, _, _ => None
    end.

  (** threadsafe_delete.go:395-415 [rotateRight]: child [i] receives, child [i-1] gives; uses
      [lastValue]/[lastChild]/[dropGreatest] of threadsafe_b_tree.go *)
  Definition rotateRight (vs : list entry) (ks : list node) (i : nat) : option (list entry * list node) :=
    match i with
    | O => None
    | S j =>
        match nth_error ks i, nth_error ks j, nth_error vs j with
        | Some (Node cv ck), Some (Node lv lk), Some v =>
            match rev lv with
            | [] => None
            | g :: _ =>
                let ck' := match rev lk with [] => ck | gk :: _ => gk :: ck end in
                let child := Node (v :: cv) ck' in
                let left := Node (removelast lv) (removelast lk) in
                Some (set_nth j g vs, set_nth i child (set_nth j left ks))
            end
        | _, _, _ => None
        end
    end.

  (** threadsafe_delete.go:418-499 [mergeDown] *)
  Definition mergeDown (vs : list entry) (ks : list node) (i : nat) : option (list entry * list node) :=
    let j := match i with O => O | S j => j end in
    match nth_error ks j, nth_error ks (S j), nth_error vs j with
    | Some (Node cv ck), Some (Node rv rk), Some v =>
        Some (del_nth j vs, del_nth (S j) (set_nth j (Node (cv ++ v :: rv) (ck ++ rk)) ks))
    | _, _, _ => None
    end.

  Definition nvals (t : node) : nat := length (vals_of t).

  (** threadsafe_delete.go:270-334 [rebalance]: the rebalanced node and whether it is now underfull *)
  Definition rebalance (n : nat) (vs : list entry) (ks : list node) (i : nat) : option (node * bool) :=
    let merge :=
      match mergeDown vs ks i with
      | Some (vs', ks') => Some (Node vs' ks', Nat.ltb (length vs') (minValues n))
      | None => None
      end in
    let big j := match nth_error ks j with Some s => Some (Nat.ltb (minValues n) (nvals s)) | None => None end in
    let rotL := match rotateLeft vs ks i with Some (vs', ks') => Some (Node vs' ks', false) | None => None end in
    let rotR := match rotateRight vs ks i with Some (vs', ks') => Some (Node vs' ks', false) | None => None end in
    if Nat.eqb i 0 then
      match big 1 with Some true => rotL | Some false => merge | None => None end
    else if Nat.eqb i (length ks - 1) then
      match big (i - 1) with Some true => rotR | Some false => merge | None => None end
    else
      match big (i + 1) with
      | Some true => rotL
      | Some false => match big (i - 1) with Some true => rotR | Some false => merge | None => None end
      | None => None
      end.

  (** threadsafe_delete.go:169-187 [removeLeafItem] without the canDelete check *)
  Definition removeLeafItem (n : nat) (vs : list entry) (i : nat) : node * bool :=
    let vs' := del_nth i vs in
    (Node vs' [], Nat.ltb (length vs') (minValues n)).

  (** threadsafe_delete.go:213-267 [swap]: takes the closest entry out of this subtree; returns the new
      subtree, the entry, and whether the subtree is underfull.  [sk] is
      [swapNode.keyValues[swapIndex].key]. *)
  Fixpoint swap (n : nat) (t : node) (sk : EV) : option (node * entry * bool) :=
    match t with
    | Node vs ks =>
        match vs with
        | [] => None (* keyValues[0] is nil: panic *)
        | e0 :: _ =>
            let first := negb (less (fst e0) sk) in
            match ks with
            | [] =>
                let i := if first then 0 else length vs - 1 in
                match nth_error vs i with
                | Some e => let '(t', u) := removeLeafItem n vs i in Some (t', e, u)
                | None => None
                end
            | _ =>
                let ci := if first then 0 else length ks - 1 in
                match on_nth (fun c => swap n c sk) ks ci with
                | Some (Some (c', e, true)) =>
                    match rebalance n vs (set_nth ci c' ks) ci with
                    | Some (t', u) => Some (t', e, u)
                    | None => None
                    end
                | Some (Some (c', e, false)) => Some (Node vs (set_nth ci c' ks), e, false)
                | _ => None
                end
            end
        end
    end.

  (** threadsafe_delete.go:193-209 [removeNodeItem]: the node after the swap and the "rebalance" flag *)
  Definition removeNodeItem (n : nat) (vs : list entry) (ks : list node) (i : nat)
    : option (list entry * list node * bool) :=
    match nth_error ks i, nth_error ks (S i), nth_error vs i with
    | Some l, Some r, Some (sk, _) =>
        let c := if Nat.ltb (nvals l) (nvals r) then S i else i in
        match nth_error ks c with
        | Some child =>
            match swap n child sk with
            | Some (child', e, u) => Some (set_nth i e vs, set_nth c child' ks, u)
            | None => None
            end
        | None => None
        end
    | _, _, _ => None
    end.

  (** Result of remove: index panic, or the new node, the "needs rebalance" flag, and the entry the
      canDelete callback was asked about (if it was). *)
  Inductive dres :=
  | DPanic
  | DRes (t : node) (under : bool) (asked : option entry).

  (** threadsafe_delete.go:98-165 [remove].  [can] is the canDelete callback (always true for nil). *)
  Fixpoint remove (n : nat) (t : node) (key : EV) (can : EV -> V -> bool) : dres :=
    match t with
    | Node vs ks =>
        let index := search vs key in
        match found_at vs index key with
        | Some (k, v) =>
            match ks with
            | [] =>
                if can k v then let '(t', u) := removeLeafItem n vs index in DRes t' u (Some (k, v))
                else DRes t false (Some (k, v))
            | _ =>
                if can k v then
                  match removeNodeItem n vs ks index with
                  | Some (vs', ks', true) =>
                      match rebalance n vs' ks' index with
                      | Some (t', u) => DRes t' u (Some (k, v))
                      | None => DPanic
                      end
                  | Some (vs', ks', false) => DRes (Node vs' ks') false (Some (k, v))
                  | None => DPanic
                  end
                else DRes t false (Some (k, v))
            end
        | None =>
            match ks with
            | [] => DRes t false None
            | _ =>
                match on_nth (fun c => remove n c key can) ks index with
                | Some (DRes c' true a) =>
                    match rebalance n vs (set_nth index c' ks) index with
                    | Some (t', u) => DRes t' u a
                    | None => DPanic
                    end
                | Some (DRes c' false a) => DRes (Node vs (set_nth index c' ks)) false a
                | _ => DPanic
                end
            end
        end
    end.

  (** ** The tree *)

  (** threadsafe_create.go:44-64 (after the parameter and destroy checks), root handling of Create *)
  Inductive tcres :=
  | TExists (v : V) (r : option node)
  | TPanic
  | TOk (r : option node).
  Definition tree_create (n : nat) (root : option node) (key : EV) (nv : option V) : tcres :=
    let t := match root with Some t => t | None => Node [] [] end in
    match create n t key nv with
    | CExists v => TExists v (Some t)
    | CPanic => TPanic
    | CSame t' => TOk (Some t')
    | CSplit p => TOk (Some p)
    end.

  (** threadsafe_delete.go:76-95 [delete] *)
  Inductive tdres :=
  | TDPanic
  | TDOk (r : option node) (asked : option entry).
  Definition tree_delete (n : nat) (root : option node) (key : EV) (can : EV -> V -> bool) : tdres :=
    match root with
    | None => TDOk None None
    | Some t =>
        match remove n t key can with
        | DPanic => TDPanic
        | DRes t' true a =>
            match t' with
            | Node [] ks => TDOk (match ks with [] => None | c :: _ => Some c end) a
            | _ => TDOk (Some t') a
            end
        | DRes t' false a => TDOk (Some t') a
        end
    end.

  (** In-order contents (used by specifications, not by the Go code) *)
  Fixpoint weave (vs : list entry) (kss : list (list entry)) {struct kss} : list entry :=
    match kss with
    | [] => vs
    | l :: kss' => l ++ match vs with [] => [] | v :: vs' => v :: weave vs' kss' end
    end.
  Fixpoint flat (t : node) : list entry :=
    match t with Node vs ks => weave vs (map flat ks) end.
  Definition contents (root : option node) : list entry :=
    match root with Some t => flat t | None => [] end.
End BTree.

Arguments node V : clear implicits.
Arguments entry V : clear implicits.
Arguments cres V : clear implicits.
Arguments dres V : clear implicits.
Arguments tcres V : clear implicits.
Arguments tdres V : clear implicits.
