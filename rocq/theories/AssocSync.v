(** Model of concurrent calls of one associated tree (internal/datastructures/btree_associated): Create, CreateOrFind, the exact query
    (QueryAction with all the key-values), Delete, DeleteByAssociatedID and DestroyByAssociatedID, any number of goroutines, every goroutine
    arbitrarily slow.  No proofs in this file.  ([Assoc.v] models the same calls one at a time, with every query.)

    A key with its value is a pair of numbers: only their equality and the order of the keys matter.  The keys and values B-trees together are
    the map [w_index] from pairs to id nodes, with atomic calls, callbacks included (C06-C10); the B-tree associatedIDs is the
    map [w_items], with the keys being destroyed [w_dying].  Locks of id nodes are modelled; a reader of an id node
    (threadsafe_query.go:168-198) is one step while nobody has the lock.  A B-tree removes an item while it holds the node of the
    item and possibly more (btree/threadsafe_delete.go:76-165), also during the callback: of the calls of associatedIDs only Destroy has a callback that
    waits for something, so these are the ones that matter ([w_held], [passable]).  A call that waits for an id node holds nodes of the keys and values trees too; the
    others these keep waiting are not modelled (they wait until the id node is released).  Destroying the whole tree excludes all other
    calls (C26) and is not modelled. *)
From Coq Require Import List Bool Arith Permutation.
Import ListNotations.

Definition pair := (nat * nat)%type.
Definition kvs := list pair.
(** Key-values as SortedKeys gives them: the keys are different; not empty (key_values.go Validate) *)
Fixpoint increasing (l : list nat) : Prop := match l with [] => True | x :: r => (forall y, In y r -> x < y) /\ increasing r end.
Definition kv_ok (kv : kvs) : Prop := kv <> [] /\ increasing (map fst kv).

(** threadsafe_associated.go:35-45 threadsafeIDNode: [nd_ids] has the ids by number of key-values; [nd_lock]: the goroutine that
    has the write lock; [nd_pair] is the pair it was made for (not in the code) *)
Record node := mkNode { nd_pair : pair; nd_ids : list (list nat); nd_creating : nat; nd_lock : option nat }.
(** [w_made]: the key-values for which ids have been generated; the ids are the positions (the generator, a uuid, never
    repeats one).  [w_known]: the ids of items that have been stored some time; nobody outside knows other ids.
    [w_held]: the items whose Destroy is in its callback, in btree.delete (btree/threadsafe_destroy.go:56) *)
Record world := mkWorld { w_heap : list node; w_index : pair -> option nat; w_items : nat -> option kvs; w_dying : nat -> bool; w_made : list kvs;
  w_held : list nat; w_known : list nat }.
Definition empty_world : world := mkWorld [] (fun _ => None) (fun _ => None) (fun _ => false) [] [] [].

Definition pair_eqb (p q : pair) : bool := Nat.eqb (fst p) (fst q) && Nat.eqb (snd p) (snd q).
Definition set_index (f : pair -> option nat) (p : pair) (a : option nat) : pair -> option nat := fun q => if pair_eqb q p then a else f q.
Definition set_item {X} (f : nat -> X) (x : nat) (v : X) : nat -> X := fun y => if Nat.eqb y x then v else f y.
Fixpoint set_nth {A} (l : list A) (i : nat) (x : A) : list A :=
  match l, i with [] , _ => [] | _ :: r, O => x :: r | y :: r, S i => y :: set_nth r i x end.

Definition with_node (w : world) (a : nat) (nd : node) : world := mkWorld (set_nth (w_heap w) a nd) (w_index w) (w_items w) (w_dying w) (w_made w) (w_held w) (w_known w).
Definition with_heap (w : world) (h : list node) : world := mkWorld h (w_index w) (w_items w) (w_dying w) (w_made w) (w_held w) (w_known w).
Definition with_index (w : world) (p : pair) (a : option nat) : world :=
  mkWorld (w_heap w) (set_index (w_index w) p a) (w_items w) (w_dying w) (w_made w) (w_held w) (w_known w).
Definition with_item (w : world) (x : nat) (v : option kvs) : world :=
  mkWorld (w_heap w) (w_index w) (set_item (w_items w) x v) (w_dying w) (w_made w) (w_held w) (w_known w).
Definition with_dying (w : world) (x : nat) (b : bool) : world := mkWorld (w_heap w) (w_index w) (w_items w) (set_item (w_dying w) x b) (w_made w) (w_held w) (w_known w).
Definition with_id (w : world) (kv : kvs) : world := mkWorld (w_heap w) (w_index w) (w_items w) (w_dying w) (w_made w ++ [kv]) (w_held w) (w_known w).
Definition with_held (w : world) (l : list nat) : world := mkWorld (w_heap w) (w_index w) (w_items w) (w_dying w) (w_made w) l (w_known w).
Definition with_known (w : world) (x : nat) : world := mkWorld (w_heap w) (w_index w) (w_items w) (w_dying w) (w_made w) (w_held w) (x :: w_known w).
Definition release (w : world) (x : nat) : world := with_held w (filter (fun y => negb (Nat.eqb y x)) (w_held w)).
(** A call of associatedIDs about x gets through: nobody holds the node of x, and either no node is held or the tree has more than
    one node (a node has up to two items: threadsafe_associated.go:48, btree/threadsafe_b_tree.go:126-135, :194-196).  Simplification: with more nodes
    a call may wait as well, namely for a held node on its path *)
Definition large (w : world) : Prop := exists l, NoDup l /\ 2 < length l /\ forall x, In x l -> w_items w x <> None.
Definition passable (w : world) (x : nat) : Prop := ~ In x (w_held w) /\ (w_held w = [] \/ large w).

(** ids[n-1], for n key-values *)
Definition level (n : nat) (ids : list (list nat)) : list nat := nth (n - 1) ids [].
(** threadsafe_create.go:103-107 *)
Definition grow (n : nat) (ids : list (list nat)) : list (list nat) := ids ++ repeat [] (n - length ids).
Fixpoint at_level (f : list nat -> list nat) (k : nat) (ids : list (list nat)) : list (list nat) :=
  match ids, k with [], _ => [] | l :: r, O => f l :: r | l :: r, S k => l :: at_level f k r end.
(** threadsafe_create.go:139, :306 *)
Definition add_id (n x : nat) (ids : list (list nat)) : list (list nat) := at_level (fun l => l ++ [x]) (n - 1) ids.
(** threadsafe_delete.go:127-134: the order of the ids does not matter here (Assoc.v models it) *)
Definition del_id (n x : nat) (ids : list (list nat)) : list (list nat) := at_level (filter (fun y => negb (Nat.eqb y x))) (n - 1) ids.
(** threadsafe_delete.go:137-144: empty levels at the end are removed *)
Fixpoint truncate (ids : list (list nat)) : list (list nat) :=
  match ids with
  | [] => []
  | l :: r => match l, truncate r with [], [] => [] | _, r' => l :: r' end
  end.
(** idSet: none yet, or what the nodes seen so far have in common (a node that is too short has nothing) *)
Definition meet (acc : option (list nat)) (l : list nat) : list nat :=
  match acc with None => l | Some s => filter (fun x => existsb (Nat.eqb x) l) s end.

(** The calls; [asks]: with a canDelete callback.  Their answers: created, with the new id; the item x was given to onFind (or
    canDelete, which accepted or refused it); Create finds that the key-values exist; onCreate returned nil; no callback was
    called (CreateOrFind: with an id and no error); nothing to find or delete; ErrorTreeItemDestroying *)
Inductive call := CCreate | CFindCreate | CFind | CDelete (asks : bool) | CDeleteId (asks : bool) (x : nat) | CDestroy (x : nat).
Inductive result := RCreated (x : nat) | RFound (x : nat) | RExists | RNil | RNeither | RDeleted (x : nat) | RRefused (x : nat) | RNone | RBusy.

(** Where a call is, with the id nodes it has collected (in the order of the keys) and locked.
    Queries: reading the nodes of the remaining pairs; looking up the ids found (checked: x is not being destroyed, it is looked up now).  Creations: creating++ on the
    nodes of the remaining pairs; locking them; onFind for x; onCreate runs, for id x; unlocking.  Deletions: the lookup of the id; collecting nodes; locking; the item is
    removed; unlocking; cleaning up the index.  Destroy: the key is marked; it is looked up; canDelete runs; removing the id; the mark is removed *)
Inductive pc :=
| PQuery (todo : kvs) (acc : option (list nat))
| PLook (xs : list nat) | PLookUp (x : nat) (xs : list nat)
| PPin (todo : kvs) (nodes : list nat)
| PLock (todo locked : list nat) (acc : option (list nat))
| PFound (locked : list nat) (x : nat)
| PCall (locked : list nat) (x : nat)
| PUnlock (todo : list nat) (r : result)
| DStart | DLookUp
| DFind (todo : kvs) (nodes : list nat)
| DLock (todo locked : list nat) (acc : option (list nat))
| DItem (locked : list nat) (x : nat)
| DUnlock (todo : list nat) (r : result) (clean : bool)
| DClean (todo : kvs) (r : result)
| YMark | YFind | YAsk (kv : kvs) | YDel (kv todo : kvs) | YClear (r : result)
| PDone (r : result).
Definition start (c : call) (kv : kvs) : pc :=
  match c with CCreate => PPin kv [] | CFindCreate => PQuery kv None | CFind => PQuery kv None | CDelete _ => DFind kv [] | CDeleteId _ _ => DStart | CDestroy _ => YMark end.
(** After a query without result: threadsafe_create.go:233-244; a query is at its end *)
Definition missed (c : call) (kv : kvs) : pc := match c with CFind => PDone RNone | _ => PPin kv [] end.
(** A deletion that cleans up after a creation without item (threadsafe_create.go:175, :342) has no answer of its own *)
Definition verdict (c : call) (r : result) : result := match c with CDelete _ | CDeleteId _ _ => r | _ => RNil end.
Definition asking (c : call) : bool := match c with CDelete b | CDeleteId b _ => b | _ => false end.

Definition node_at (w : world) (a : nat) (nd : node) : Prop := nth_error (w_heap w) a = Some nd.
Definition unlocked (w : world) (a : nat) (nd : node) : Prop := node_at w a nd /\ nd_lock nd = None.
(** The ids of several nodes *)
Fixpoint map_nodes (f : node -> node) (h : list node) (l : list nat) : list node :=
  match l with
  | [] => h
  | a :: l => map_nodes f (match nth_error h a with Some nd => set_nth h a (f nd) | None => h end) l
  end.
Definition on_ids (f : list (list nat) -> list (list nat)) (nd : node) : node := mkNode (nd_pair nd) (f (nd_ids nd)) (nd_creating nd) (nd_lock nd).

(** One step of goroutine i, in a call c with key-values kv; [nils]: onCreate may return nil *)
Inductive tstep (nils : bool) (i : nat) (c : call) (kv : kvs) : world -> pc -> world -> pc -> Prop :=
(* threadsafe_create.go:224-232 and threadsafe_query.go:168-198, :212-225, :301-303: the exact query *)
| S_query_none w p todo acc : w_index w p = None -> tstep nils i c kv w (PQuery (p :: todo) acc) w (missed c kv)
| S_query w p todo acc a nd : w_index w p = Some a -> unlocked w a nd ->
    tstep nils i c kv w (PQuery (p :: todo) acc) w
      (match meet acc (level (length kv) (nd_ids nd)) with [] => missed c kv | l => PQuery todo (Some l) end)
| S_query_end w l : tstep nils i c kv w (PQuery [] (Some l)) w (PLook l)
(* threadsafe_query.go:58-78, btree/threadsafe_find.go:34-58, threadsafe_create.go:225-235: onFind is called *)
| S_look w x xs : w_dying w x = false -> tstep nils i c kv w (PLook (x :: xs)) w (PLookUp x xs)
| S_look_dying w x xs : w_dying w x = true -> tstep nils i c kv w (PLook (x :: xs)) w (PLook xs)
| S_look_end w : tstep nils i c kv w (PLook []) w (missed c kv)
| S_look_found w x xs kv' : passable w x -> w_items w x = Some kv' -> tstep nils i c kv w (PLookUp x xs) w (PDone (RFound x))
| S_look_not w x xs : passable w x -> w_items w x = None -> tstep nils i c kv w (PLookUp x xs) w (PLook xs)
(* threadsafe_create.go:14-55, :93-97, :242-244 *)
| S_pin w p todo nodes a nd : w_index w p = Some a -> unlocked w a nd ->
    tstep nils i c kv w (PPin (p :: todo) nodes)
      (with_node w a (mkNode (nd_pair nd) (nd_ids nd) (S (nd_creating nd)) None)) (PPin todo (nodes ++ [a]))
| S_pin_new w p todo nodes : w_index w p = None ->
    tstep nils i c kv w (PPin (p :: todo) nodes)
      (with_index (with_heap w (w_heap w ++ [mkNode p [] 1 None])) p (Some (length (w_heap w)))) (PPin todo (nodes ++ [length (w_heap w)]))
| S_pin_end w nodes : tstep nils i c kv w (PPin [] nodes) w (PLock nodes [] None)
(* :99-123, :246-270 *)
| S_lock w a todo locked acc nd : unlocked w a nd ->
    tstep nils i c kv w (PLock (a :: todo) locked acc)
      (with_node w a (mkNode (nd_pair nd) (grow (length kv) (nd_ids nd)) (nd_creating nd) (Some i)))
      (PLock todo (locked ++ [a]) (Some (meet acc (level (length kv) (grow (length kv) (nd_ids nd))))))
(* :126-134 *)
| S_exists w locked x : c = CCreate -> tstep nils i c kv w (PLock [] locked (Some [x])) w (PUnlock locked RExists)
(* :273-301 *)
| S_check w locked x : c = CFindCreate -> w_dying w x = false -> tstep nils i c kv w (PLock [] locked (Some [x])) w (PFound locked x)
| S_busy w locked x : c = CFindCreate -> w_dying w x = true -> tstep nils i c kv w (PLock [] locked (Some [x])) w (PUnlock locked RBusy)
| S_found w locked x kv' : passable w x -> w_items w x = Some kv' -> tstep nils i c kv w (PFound locked x) w (PUnlock locked (RFound x))
| S_neither w locked x : passable w x -> w_items w x = None -> tstep nils i c kv w (PFound locked x) w (PUnlock locked RNeither)
(* :136-140, :303-307 *)
| S_new w locked acc : (forall x, acc <> Some [x]) ->
    tstep nils i c kv w (PLock [] locked acc)
      (with_heap (with_id w kv) (map_nodes (on_ids (add_id (length kv) (length (w_made w)))) (w_heap w) locked)) (PCall locked (length (w_made w)))
(* :142-158, :309-325 *)
| S_created w locked x : passable w x -> tstep nils i c kv w (PCall locked x) (with_known (with_item w x (Some kv)) x) (PUnlock locked (RCreated x))
(* :165-172, :332-339 *)
| S_nil w locked x : nils = true -> tstep nils i c kv w (PCall locked x) w (PUnlock locked RNil)
| S_unlock w a todo r nd : node_at w a nd ->
    tstep nils i c kv w (PUnlock (a :: todo) r) (with_node w a (mkNode (nd_pair nd) (nd_ids nd) (nd_creating nd - 1) None)) (PUnlock todo r)
(* :175, :342 *)
| S_unlock_end w r : tstep nils i c kv w (PUnlock [] r) w (match r with RNil => DFind kv [] | _ => PDone r end)
(* DeleteByAssociatedID, threadsafe_delete.go:212-233; threadsafe_query.go:135-166 *)
| D_id w asks x : c = CDeleteId asks x -> w_dying w x = false -> tstep nils i c kv w DStart w DLookUp
| D_id_dying w asks x : c = CDeleteId asks x -> w_dying w x = true -> tstep nils i c kv w DStart w (PDone RNone)
| D_id_found w asks x : c = CDeleteId asks x -> passable w x -> w_items w x = Some kv -> tstep nils i c kv w DLookUp w (DFind kv [])
| D_id_none w asks x : c = CDeleteId asks x -> passable w x -> w_items w x = None -> tstep nils i c kv w DLookUp w (PDone RNone)
(* threadsafe_delete.go:45-73 *)
| D_find w p todo nodes a : w_index w p = Some a -> tstep nils i c kv w (DFind (p :: todo) nodes) w (DFind todo (nodes ++ [a]))
| D_find_none w p todo nodes : w_index w p = None -> tstep nils i c kv w (DFind (p :: todo) nodes) w (DFind todo nodes)
| D_all w nodes : length nodes = length kv -> tstep nils i c kv w (DFind [] nodes) w (DLock nodes [] None)
| D_missing w nodes : length nodes <> length kv -> tstep nils i c kv w (DFind [] nodes) w (DClean kv (verdict c RNone))
(* :74-97 *)
| D_lock w a todo locked acc nd : unlocked w a nd -> length kv <= length (nd_ids nd) ->
    tstep nils i c kv w (DLock (a :: todo) locked acc)
      (with_node w a (mkNode (nd_pair nd) (nd_ids nd) (nd_creating nd) (Some i)))
      (DLock todo (locked ++ [a]) (Some (meet acc (level (length kv) (nd_ids nd)))))
| D_short w a todo locked acc nd : unlocked w a nd -> length (nd_ids nd) < length kv ->
    tstep nils i c kv w (DLock (a :: todo) locked acc)
      (with_node w a (mkNode (nd_pair nd) (nd_ids nd) (nd_creating nd) (Some i))) (DUnlock (locked ++ [a]) (verdict c RNone) false)
(* :99-121; btree/threadsafe_delete.go:68-72.  When the key is being destroyed the locks stay *)
| D_check w locked x : w_dying w x = false -> tstep nils i c kv w (DLock [] locked (Some [x])) w (DItem locked x)
| D_busy w locked x : w_dying w x = true -> tstep nils i c kv w (DLock [] locked (Some [x])) w (PDone (verdict c RBusy))
(* :104-147 *)
| D_delete w locked x kv' : passable w x -> w_items w x = Some kv' ->
    tstep nils i c kv w (DItem locked x)
      (with_item (with_heap w (map_nodes (on_ids (fun ids => truncate (del_id (length kv) x ids))) (w_heap w) locked)) x None)
      (DUnlock locked (verdict c (RDeleted x)) true)
| D_refuse w locked x kv' : asking c = true -> passable w x -> w_items w x = Some kv' ->
    tstep nils i c kv w (DItem locked x) w (DUnlock locked (RRefused x) true)
| D_ghost w locked x : passable w x -> w_items w x = None ->
    tstep nils i c kv w (DItem locked x)
      (with_heap w (map_nodes (on_ids (fun ids => truncate (del_id (length kv) x ids))) (w_heap w) locked)) (DUnlock locked (verdict c RNone) true)
| D_none w locked acc : (forall x, acc <> Some [x]) -> tstep nils i c kv w (DLock [] locked acc) w (DUnlock locked (verdict c RNone) true)
(* :149-152, :82-88 *)
| D_unlock w a todo r clean nd : node_at w a nd ->
    tstep nils i c kv w (DUnlock (a :: todo) r clean) (with_node w a (mkNode (nd_pair nd) (nd_ids nd) (nd_creating nd) None)) (DUnlock todo r clean)
| D_unlock_end w r clean : tstep nils i c kv w (DUnlock [] r clean) w (if clean then DClean kv r else PDone r)
(* :155-185 *)
| D_clean_none w p todo r : w_index w p = None -> tstep nils i c kv w (DClean (p :: todo) r) w (DClean todo r)
| D_clean_keep w p todo r a nd : w_index w p = Some a -> unlocked w a nd -> nd_ids nd <> [] \/ nd_creating nd <> 0 ->
    tstep nils i c kv w (DClean (p :: todo) r) w (DClean todo r)
| D_clean_drop w p todo r a nd : w_index w p = Some a -> unlocked w a nd -> nd_ids nd = [] -> nd_creating nd = 0 ->
    tstep nils i c kv w (DClean (p :: todo) r) (with_index w p None) (DClean todo r)
| D_clean_end w r : tstep nils i c kv w (DClean [] r) w (PDone r)
(* threadsafe_destroy.go:15-55, btree/threadsafe_destroy.go:31-40 *)
| Y_busy w x : c = CDestroy x -> w_dying w x = true -> tstep nils i c kv w YMark w (PDone RBusy)
| Y_mark w x : c = CDestroy x -> w_dying w x = false -> tstep nils i c kv w YMark (with_dying w x true) YFind
(* btree/threadsafe_destroy.go:56, btree/threadsafe_delete.go:76-145, :169-175; threadsafe_destroy.go:28-42 *)
| Y_none w x : c = CDestroy x -> passable w x -> w_items w x = None -> tstep nils i c kv w YFind w (YClear RNone)
| Y_hold w x kv' : c = CDestroy x -> passable w x -> w_items w x = Some kv' -> tstep nils i c kv w YFind (with_held w (x :: w_held w)) (YAsk kv')
| Y_refuse w x kv' : c = CDestroy x -> tstep nils i c kv w (YAsk kv') (release w x) (YClear (RRefused x))
(* threadsafe_destroy.go:95-141: the keys come in any order *)
| Y_agree w kv' todo : Permutation kv' todo -> tstep nils i c kv w (YAsk kv') w (YDel kv' todo)
| Y_del_none w kv' p todo : w_index w p = None -> tstep nils i c kv w (YDel kv' (p :: todo)) w (YDel kv' todo)
| Y_del w x kv' p todo a nd : c = CDestroy x -> w_index w p = Some a -> unlocked w a nd ->
    tstep nils i c kv w (YDel kv' (p :: todo))
      (let ids := truncate (del_id (length kv') x (nd_ids nd)) in
       let w' := with_node w a (mkNode (nd_pair nd) ids (nd_creating nd) None) in
       match ids, nd_creating nd with [], 0 => with_index w' p None | _, _ => w' end) (YDel kv' todo)
| Y_end w x kv' : c = CDestroy x -> tstep nils i c kv w (YDel kv' []) (release (with_item w x None) x) (YClear (RDeleted x))
(* btree/threadsafe_destroy.go:43-53 *)
| Y_clear w x r : c = CDestroy x -> tstep nils i c kv w (YClear r) (with_dying w x false) (PDone r).

Record thread := mkThread { th_call : call; th_kv : kvs; th_pc : pc }.
Record state := mkState { st_world : world; st_threads : list thread }.
Definition set_thread (l : list thread) (i : nat) (th : thread) : list thread := set_nth l i th.
(** Calls begin, and take steps.  [nils]: onCreate may return nil; [destroys]: DestroyByAssociatedID is used.  A caller knows an id from a
    creation or a query; the key-values of a call by id are those of the id *)
Definition allowed (destroys : bool) (w : world) (c : call) (kv : kvs) : Prop :=
  kv_ok kv /\ match c with CDestroy x => destroys = true /\ In x (w_known w) | CDeleteId _ x => In x (w_known w) /\ nth_error (w_made w) x = Some kv | _ => True end.
Inductive step (nils destroys : bool) : state -> state -> Prop :=
| ST_call w ts c kv : allowed destroys w c kv -> step nils destroys (mkState w ts) (mkState w (ts ++ [mkThread c kv (start c kv)]))
| ST_step w ts i c kv p w' p' : nth_error ts i = Some (mkThread c kv p) -> tstep nils i c kv w p w' p' ->
    step nils destroys (mkState w ts) (mkState w' (set_thread ts i (mkThread c kv p'))).
(** Executions: the states gone through, newest first *)
Inductive exec (nils destroys : bool) : list state -> Prop :=
| EX_new : exec nils destroys [mkState empty_world []]
| EX_step s s' tr : exec nils destroys (s :: tr) -> step nils destroys s s' -> exec nils destroys (s' :: s :: tr).
