(** Model of concurrent calls of one B-tree: internal/datastructures/btree, threadsafe_create.go,
    threadsafe_delete.go and the exact-key lookup of threadsafe_find.go with their per-node locks
    (lock coupling, early release of the ancestors, split, rotation, merge and swap while other calls are inside
    the same tree).  A state is the tree itself with, on every node, who holds its lock and for what, and the
    readers that hold it.  No proofs in this file.

    What one step is.  A goroutine works on nodes whose locks it holds, so everything it does between two
    lock operations is one step.  Three groups of lock operations are merged into one step; in all of them the
    goroutine holds the write lock of the parent of the nodes it waits for, so nobody can newly enter them, a
    node that is free stays free, and waiting for them one after the other or for all at once is the same:
    - the short locks taken on siblings and grandchildren by insertNode, rebalance, rotateLeft, rotateRight,
      mergeDown (threadsafe_create.go:414-419, threadsafe_delete.go:270-334, :362-364, :449-460, :470-493,
      :556-562, threadsafe_b_tree.go:146-152);
    - the two children locked by removeNodeItem and the way down of swap (threadsafe_delete.go:193-267);
    - "lock the child, unlock the node" of a lookup (threadsafe_find.go:107-113).
    A node that returned a split or "rebalance" to its caller is unlocked by the deferred unlock before the
    caller goes on; here it keeps the mark of the call until the caller (who holds the parent's write lock) takes
    it over.  The release of the ancestors (releaseParentLock) is a separate step that can happen as soon as
    the code has decided on it or any time later.
    Left out: destroying (readWriteWG, destroyingKeys; see BTreeDestroy.v), parameter checks, constructors that
    return nil, lookups other than by one concrete key (threadsafe_find.go:124-), and the writer preference of
    sync.RWMutex (a goroutine that waits for a node's write lock holds its parent's write lock, so no reader
    can be about to enter that node). *)
From Verif Require Import Datatypes BTree BTreeFind.
Local Open Scope nat_scope.

(** The calls: threadsafe_create.go:26 [Create] and :173 [CreateOrFind] with the value their constructor yields,
    threadsafe_delete.go:58 [Delete] with its canDelete callback, threadsafe_find.go:18 [Find] for one concrete
    key (not [Any], restrictions that include its type and exclude [Any]). *)
Inductive cop (V : Type) :=
| KCreate (k : EV) (v : V)
| KDelete (k : EV) (can : EV -> V -> bool)
| KFind (k : EV)
| KCreateOrFind (k : EV) (v : V).
Arguments KCreate {V}. Arguments KDelete {V}. Arguments KFind {V}. Arguments KCreateOrFind {V}.

(** What a caller learns: the value was stored; the key exists with this value (ErrorKeyAlreadyExists, onFind);
    the entry canDelete was asked about, if it was; what the lookup found. *)
Inductive ans (V : Type) :=
| ACreated
| AExists (v : V)
| AAsked (e : option (EV * V))
| AFound (r : option V).
Arguments ACreated {V}. Arguments AExists {V}. Arguments AAsked {V}. Arguments AFound {V}.

(** The write lock of a node: free; held by a call that has just locked it; held while the call works in child
    [i] ([b] is the child index it will pass to rebalance); the call overfilled the node and hands a split to
    its caller; the call returns "rebalance" to its caller. *)
Inductive mark :=
| MFree
| MAt (c : nat)
| MIn (c i b : nat)
| MOver (c : nat)
| MUnder (c : nat).

(** A report from inside the tree: a creation, an existing key, a deletion's question, a lookup's result. *)
Inductive out (V : Type) :=
| OCreated
| OExists (v : V)
| OAsked (e : option (EV * V))
| ORead (r : option V).
Arguments OCreated {V}. Arguments OExists {V}. Arguments OAsked {V}. Arguments ORead {V}.

Section Sync.
  Context {V : Type}.
  Variable n : nat.                (* btree.nodeSize *)
  Variable ops : nat -> cop V.     (* what call number [c] does *)

  (** threadsafe_b_tree.go [threadSafeBNode]: lock, key/values, children *)
  Inductive atree := ANode (m : mark) (rs : list nat) (vs : list (entry V)) (ks : list atree).
  Definition avals (t : atree) := let 'ANode _ _ vs _ := t in vs.
  Definition akids (t : atree) := let 'ANode _ _ _ ks := t in ks.

  (** A write lock on the node can be had now *)
  Definition afree (t : atree) : bool := match t with ANode MFree [] _ _ => true | _ => false end.
  Definition guard {A} (b : bool) (o : option A) : option A := if b then o else None.

  (** threadsafe_create.go:378-399 [splitLeaf] and :447-477 [splitNode]: key/value that goes up, two new nodes *)
  Definition asplit (vs : list (entry V)) (ks : list atree) : option (entry V * atree * atree) :=
    let pivot := maxValues n / 2 in
    match nth_error vs pivot with
    | Some p => Some (p, ANode MFree [] (firstn pivot vs) (firstn (pivot + 1) ks),
                      ANode MFree [] (skipn (pivot + 1) vs) (skipn (pivot + 1) ks))
    | None => None
    end.

  (** threadsafe_delete.go:348-379 [rotateLeft], with the locks of :362-364 and shiftNodeLeft (:556-562): every
      child of the right sibling *)
  Definition arotateLeft (vs : list (entry V)) (ks : list atree) (i : nat) : option (list (entry V) * list atree) :=
    match nth_error ks i, nth_error ks (S i), nth_error vs i with
    | Some (ANode _ _ cv ck), Some (ANode _ _ (r0 :: rv) rk), Some v =>
        let ck' := match rk with [] => ck | rk0 :: _ => match ck with [] => [] | _ => ck ++ [rk0] end end in
        guard (forallb afree rk)
          (Some (set_nth i r0 vs,
                 set_nth (S i) (ANode MFree [] rv (tl rk)) (set_nth i (ANode MFree [] (cv ++ [v]) ck') ks)))
    | _, _, _ => None
    end.

  (** threadsafe_delete.go:395-415 [rotateRight], with the lock of dropGreatest (threadsafe_b_tree.go:146): the
      last child of the left sibling *)
  Definition arotateRight (vs : list (entry V)) (ks : list atree) (i : nat) : option (list (entry V) * list atree) :=
    match i with
    | O => None
    | S j =>
        match nth_error ks i, nth_error ks j, nth_error vs j with
        | Some (ANode _ _ cv ck), Some (ANode _ _ lv lk), Some v =>
            match rev lv with
            | [] => None
            | g :: _ =>
                let ck' := match rev lk with [] => ck | gk :: _ => gk :: ck end in
                guard (match rev lk with [] => true | gk :: _ => afree gk end)
                  (Some (set_nth j g vs,
                         set_nth i (ANode MFree [] (v :: cv) ck')
                           (set_nth j (ANode MFree [] (removelast lv) (removelast lk)) ks)))
            end
        | _, _, _ => None
        end
    end.

  (** threadsafe_delete.go:418-499 [mergeDown], with its locks: the children of the right node (:449-460) and
      the children to the right of the merged pair (:470-493) *)
  Definition amergeDown (vs : list (entry V)) (ks : list atree) (i : nat) : option (list (entry V) * list atree) :=
    let j := match i with O => O | S j => j end in
    match nth_error ks j, nth_error ks (S j), nth_error vs j with
    | Some (ANode _ _ cv ck), Some (ANode _ _ rv rk), Some v =>
        guard (forallb afree rk && forallb afree (skipn (S (S j)) ks))
          (Some (del_nth j vs, del_nth (S j) (set_nth j (ANode MFree [] (cv ++ v :: rv) (ck ++ rk)) ks)))
    | _, _, _ => None
    end.

  (** threadsafe_delete.go:270-334 [rebalance] for child [i], whose lock nobody else can have; its siblings'
      locks must be had before their sizes are looked at.  [None]: wait (or an index panic). *)
  Definition arebalance (vs : list (entry V)) (ks : list atree) (i : nat)
    : option (list (entry V) * list atree * bool) :=
    let merge :=
      match amergeDown vs ks i with
      | Some (vs', ks') => Some (vs', ks', Nat.ltb (length vs') (minValues n))
      | None => None
      end in
    let big j :=
      match nth_error ks j with
      | Some s => guard (afree s) (Some (Nat.ltb (minValues n) (length (avals s))))
      | None => None
      end in
    let rotL := match arotateLeft vs ks i with Some (vs', ks') => Some (vs', ks', false) | None => None end in
    let rotR := match arotateRight vs ks i with Some (vs', ks') => Some (vs', ks', false) | None => None end in
    if Nat.eqb i 0 then
      match big 1 with Some true => rotL | Some false => merge | None => None end
    else if Nat.eqb i (length ks - 1) then
      match big (i - 1) with Some true => rotR | Some false => merge | None => None end
    else
      match big (i + 1), big (i - 1) with
      | Some true, Some _ => rotL
      | Some false, Some true => rotR
      | Some false, Some false => merge
      | _, _ => None
      end.

  (** threadsafe_delete.go:213-267 [swap] on the way down to the leaf: every node of the way must be free; the
      leaf loses its first or last entry (removeLeafItem :169-187); the nodes of the way stay locked while
      the call returns through them.  [sk] is the key that is being deleted. *)
  Fixpoint atake (c : nat) (sk : EV) (t : atree) : option (atree * entry V) :=
    match t with
    | ANode m rs vs ks =>
        match vs with
        | [] => None
        | e0 :: _ =>
            let first := negb (less (fst e0) sk) in
            guard (afree t)
              match ks with
              | [] =>
                  let i := if first then 0 else length vs - 1 in
                  match nth_error vs i with
                  | Some e =>
                      let vs' := del_nth i vs in
                      Some (ANode (if Nat.ltb (length vs') (minValues n) then MUnder c else MFree) [] vs' [], e)
                  | None => None
                  end
              | _ =>
                  let ci := if first then 0 else length ks - 1 in
                  match on_nth (atake c sk) ks ci with
                  | Some (Some (t', e)) => Some (ANode (MIn c ci ci) [] vs (set_nth ci t' ks), e)
                  | _ => None
                  end
              end
        end
    end.

  (** The key a call goes down with; [None] for a lookup *)
  Definition wkey (c : nat) : option EV :=
    match ops c with KCreate k _ => Some k | KCreateOrFind k _ => Some k | KDelete k _ => Some k | KFind _ => None end.
  (** The key a call looks up (threadsafe_create.go:201-212: CreateOrFind looks the key up first) *)
  Definition rkey (c : nat) : option EV :=
    match ops c with KFind k => Some k | KCreateOrFind k _ => Some k | _ => None end.
  (** What a call stores *)
  Definition stores (c : nat) : option (EV * V) :=
    match ops c with KCreate k v => Some (k, v) | KCreateOrFind k v => Some (k, v) | _ => None end.

  (** The tests that let a call release its ancestors: threadsafe_create.go:98-100 (:249-251) and
      threadsafe_delete.go:113-116 *)
  Definition room (c : nat) (vs : list (entry V)) : bool :=
    match ops c with
    | KCreate _ _ | KCreateOrFind _ _ => Nat.leb (length vs + 1) (maxValues n)
    | KDelete _ _ => Nat.leb (minValues n + 1) (length vs)
    | KFind _ => false
    end.

  (** releaseParentLock of call [c] has been called below this node, or the call has left it: the call is no
      longer in it, or is in it with room, or has gone down and this holds below. *)
  Fixpoint settled (c : nat) (t : atree) : bool :=
    match t with
    | ANode m _ vs ks =>
        match m with
        | MFree => true
        | MAt d => negb (Nat.eqb d c) || room c vs
        | MIn d i _ => negb (Nat.eqb d c) || room c vs || match on_nth (settled c) ks i with Some b => b | None => false end
        | MOver d => negb (Nat.eqb d c)
        | MUnder d => negb (Nat.eqb d c)
        end
    end.

  (** ** Steps inside the tree *)
  Inductive lstep : atree -> option (nat * out V) -> atree -> Prop :=
  (** threadsafe_create.go:121-124, :303-306 (and :272-275, :339-342): the key is in this node *)
  | L_exists c vs ks k v k0 v0 :
      stores c = Some (k, v) -> found_at vs (search vs k) k = Some (k0, v0) ->
      lstep (ANode (MAt c) [] vs ks) (Some (c, OExists v0)) (ANode MFree [] vs ks)
  (** threadsafe_create.go:104-113, :300-326: a leaf takes the new entry and returns a split when it is overfull *)
  | L_insert c vs k v vs' :
      stores c = Some (k, v) -> createTreeItem vs k (Some v) = inr vs' ->
      lstep (ANode (MAt c) [] vs []) (Some (c, OCreated))
            (ANode (if Nat.ltb (maxValues n) (length vs') then MOver c else MFree) [] vs' [])
  (** threadsafe_create.go:132-133, threadsafe_delete.go:156-157: lock the child, call it *)
  | L_down c vs k l1 cv ck l2 :
      wkey c = Some k -> found_at vs (search vs k) k = None -> length l1 = search vs k ->
      lstep (ANode (MAt c) [] vs (l1 ++ ANode MFree [] cv ck :: l2)) None
            (ANode (MIn c (length l1) (length l1)) [] vs (l1 ++ ANode (MAt c) [] cv ck :: l2))
  (** threadsafe_create.go:138-144: a child returned a split; insertNode (:402-436) locks the children it moves *)
  | L_split c i b vs l1 cv ck l2 p L R :
      length l1 = i -> asplit cv ck = Some (p, L, R) ->
      let index := insert_index vs (fst p) in
      let ks := l1 ++ ANode (MOver c) [] cv ck :: l2 in
      forallb afree (skipn (S index) ks) = true ->
      let vs' := ins_nth index p vs in
      lstep (ANode (MIn c i b) [] vs ks) None
            (ANode (if Nat.ltb (maxValues n) (length vs') then MOver c else MFree) [] vs'
                   (firstn index ks ++ L :: R :: skipn (S index) ks))
  (** threadsafe_delete.go:150-152: not in this leaf *)
  | L_absent c vs k can :
      ops c = KDelete k can -> found_at vs (search vs k) k = None ->
      lstep (ANode (MAt c) [] vs []) (Some (c, OAsked None)) (ANode MFree [] vs [])
  (** threadsafe_delete.go:132, :171-175: canDelete says no *)
  | L_veto c vs ks k can k0 v0 :
      ops c = KDelete k can -> found_at vs (search vs k) k = Some (k0, v0) -> can k0 v0 = false ->
      lstep (ANode (MAt c) [] vs ks) (Some (c, OAsked (Some (k0, v0)))) (ANode MFree [] vs ks)
  (** threadsafe_delete.go:127-129, :169-187: remove from a leaf *)
  | L_remove c vs k can k0 v0 :
      ops c = KDelete k can -> found_at vs (search vs k) k = Some (k0, v0) -> can k0 v0 = true ->
      let vs' := del_nth (search vs k) vs in
      lstep (ANode (MAt c) [] vs []) (Some (c, OAsked (Some (k0, v0))))
            (ANode (if Nat.ltb (length vs') (minValues n) then MUnder c else MFree) [] vs' [])
  (** threadsafe_delete.go:132-135, :193-209: delete from an inner node by taking the next entry out of one of the
      two children beside it *)
  | L_swap c vs ks k can k0 v0 l r child t' e :
      let i := search vs k in
      ops c = KDelete k can -> found_at vs i k = Some (k0, v0) -> can k0 v0 = true ->
      nth_error ks i = Some l -> nth_error ks (S i) = Some r -> afree l = true -> afree r = true ->
      let ch := if Nat.ltb (length (avals l)) (length (avals r)) then S i else i in
      nth_error ks ch = Some child -> atake c k0 child = Some (t', e) ->
      lstep (ANode (MAt c) [] vs ks) (Some (c, OAsked (Some (k0, v0))))
            (ANode (MIn c ch i) [] (set_nth i e vs) (set_nth ch t' ks))
  (** threadsafe_delete.go:133-135, :158-160, :257-260: a child returned "rebalance" *)
  | L_rebalance c i b vs ks cv ck vs' ks' u :
      nth_error ks i = Some (ANode (MUnder c) [] cv ck) -> arebalance vs ks b = Some (vs', ks', u) ->
      lstep (ANode (MIn c i b) [] vs ks) None (ANode (if u then MUnder c else MFree) [] vs' ks')
  (** releaseParentLock, the deferred unlock: threadsafe_create.go:88-96, threadsafe_delete.go:101-117 *)
  | L_release c i b vs ks ch :
      nth_error ks i = Some ch -> settled c ch = true ->
      lstep (ANode (MIn c i b) [] vs ks) None (ANode MFree [] vs ks)
  (** threadsafe_find.go:87-120 [findMatchType] *)
  | L_hit c r1 r2 vs ks k k0 v0 :
      rkey c = Some k ->
      (match ks with [] => leaf_match vs k | _ => found_at vs (search vs k) k end) = Some (k0, v0) ->
      lstep (ANode MFree (r1 ++ c :: r2) vs ks) (Some (c, ORead (Some v0))) (ANode MFree (r1 ++ r2) vs ks)
  | L_miss c r1 r2 vs k :
      rkey c = Some k -> leaf_match vs k = None ->
      lstep (ANode MFree (r1 ++ c :: r2) vs []) (Some (c, ORead None)) (ANode MFree (r1 ++ r2) vs [])
  | L_rdown c r1 r2 vs k l1 rs cv ck l2 :
      rkey c = Some k -> found_at vs (search vs k) k = None -> length l1 = search vs k ->
      lstep (ANode MFree (r1 ++ c :: r2) vs (l1 ++ ANode MFree rs cv ck :: l2)) None
            (ANode MFree (r1 ++ r2) vs (l1 ++ ANode MFree (c :: rs) cv ck :: l2))
  (** ... somewhere below *)
  | L_kid m rs vs l1 t t' l2 o :
      lstep t o t' -> lstep (ANode m rs vs (l1 ++ t :: l2)) o (ANode m rs vs (l1 ++ t' :: l2)).

  (** ** The tree and the calls *)

  (** The write side of btree.lock: free; held by a call that waits for the root's lock; held by a call inside *)
  Inductive tmark := TFree | TWait (c : nat) | TIn (c : nat).
  (** A call: not made; wants to look up; holds btree.lock for reading; is inside as a reader; wants to write;
      holds btree.lock; is inside as a writer; knows its answer; has returned. *)
  Inductive phase :=
  | PNew | PRead | PRWait | PReading | PWrite | PWWait | PWriting | PDone (a : ans V) | PRet (a : ans V).
  Record state := mkState {
    top : tmark;
    trs : list nat;           (* readers of btree.lock *)
    root : option atree;
    ph : nat -> phase
  }.
  Definition set_ph (f : nat -> phase) (c : nat) (p : phase) : nat -> phase :=
    fun d => if Nat.eqb d c then p else f d.

  (** How a call goes on after a report: CreateOrFind that found nothing goes on to create
      (threadsafe_create.go:209-212) *)
  Definition fin (c : nat) (o : out V) : option (ans V) :=
    match o with
    | OCreated => Some ACreated
    | OExists v => Some (AExists v)
    | OAsked e => Some (AAsked e)
    | ORead r =>
        match ops c, r with
        | KCreateOrFind _ _, Some v => Some (AExists v)
        | KCreateOrFind _ _, None => None
        | _, _ => Some (AFound r)
        end
    end.
  Definition after (c : nat) (o : out V) : phase := match fin c o with Some a => PDone a | None => PWrite end.
  Definition report (f : nat -> phase) (r : option (nat * out V)) : nat -> phase :=
    match r with Some (c, o) => set_ph f c (after c o) | None => f end.

  (** The locks a call holds *)
  Definition mark_of (m : mark) (c : nat) : bool :=
    match m with MFree => false | MAt d => Nat.eqb d c | MIn d _ _ => Nat.eqb d c | MOver d => Nat.eqb d c | MUnder d => Nat.eqb d c end.
  Fixpoint holds (c : nat) (t : atree) : bool :=
    match t with ANode m rs _ ks => mark_of m c || existsb (Nat.eqb c) rs || existsb (holds c) ks end.
  Definition holding (c : nat) (s : state) : bool :=
    match top s with TFree => false | TWait d => Nat.eqb d c | TIn d => Nat.eqb d c end
    || existsb (Nat.eqb c) (trs s)
    || match root s with Some t => holds c t | None => false end.

  Inductive event := ECall (c : nat) | EReturn (c : nat) (a : ans V).

  Inductive step : state -> option event -> state -> Prop :=
  (** a call is made *)
  | T_call s c :
      ph s c = PNew ->
      step s (Some (ECall c))
        (mkState (top s) (trs s) (root s)
           (set_ph (ph s) c (match ops c with KFind _ | KCreateOrFind _ _ => PRead | _ => PWrite end)))
  (** threadsafe_create.go:48, :216, threadsafe_delete.go:76: btree.lock.Lock() *)
  | T_lock s c :
      ph s c = PWrite -> top s = TFree -> trs s = [] ->
      step s None (mkState (TWait c) [] (root s) (set_ph (ph s) c PWWait))
  (** threadsafe_delete.go:82: there is no root *)
  | T_nothing s c k can :
      top s = TWait c -> root s = None -> ops c = KDelete k can ->
      step s None (mkState TFree (trs s) None (set_ph (ph s) c (PDone (AAsked None))))
  (** threadsafe_create.go:54-59 (:222-227), threadsafe_delete.go:83: make a root if there is none, lock it *)
  | T_new s c k v :
      top s = TWait c -> root s = None -> stores c = Some (k, v) ->
      step s None (mkState (TIn c) (trs s) (Some (ANode (MAt c) [] [] [])) (set_ph (ph s) c PWriting))
  | T_root s c vs ks :
      top s = TWait c -> root s = Some (ANode MFree [] vs ks) ->
      step s None (mkState (TIn c) (trs s) (Some (ANode (MAt c) [] vs ks)) (set_ph (ph s) c PWriting))
  (** the [unlock] handed down as releaseParentLock; the deferred one *)
  | T_release s c t :
      top s = TIn c -> root s = Some t -> settled c t = true ->
      step s None (mkState TFree (trs s) (Some t) (ph s))
  (** threadsafe_create.go:62-64: the root was split *)
  | T_grow s c vs ks p L R :
      top s = TIn c -> root s = Some (ANode (MOver c) [] vs ks) -> asplit vs ks = Some (p, L, R) ->
      step s None (mkState TFree (trs s) (Some (ANode MFree [] [p] [L; R])) (ph s))
  (** threadsafe_delete.go:84-90: an empty root is replaced by its first child *)
  | T_shrink s c vs ks :
      top s = TIn c -> root s = Some (ANode (MUnder c) [] vs ks) ->
      step s None (mkState TFree (trs s)
                     (match vs, ks with
                      | [], [] => None
                      | [], t :: _ => Some t
                      | _, _ => Some (ANode MFree [] vs ks)
                      end) (ph s))
  (** threadsafe_find.go:38: btree.lock.RLock() *)
  | T_rlock s c :
      ph s c = PRead -> top s = TFree ->
      step s None (mkState TFree (c :: trs s) (root s) (set_ph (ph s) c PRWait))
  (** :80: no root *)
  | T_rnothing s c r1 r2 :
      trs s = r1 ++ c :: r2 -> root s = None ->
      step s None (mkState (top s) (r1 ++ r2) None (set_ph (ph s) c (after c (ORead None))))
  (** :48-53: lock the root, release btree.lock *)
  | T_rroot s c r1 r2 rs vs ks :
      trs s = r1 ++ c :: r2 -> root s = Some (ANode MFree rs vs ks) ->
      step s None (mkState (top s) (r1 ++ r2) (Some (ANode MFree (c :: rs) vs ks)) (set_ph (ph s) c PReading))
  | T_local s t o t' :
      root s = Some t -> lstep t o t' ->
      step s None (mkState (top s) (trs s) (Some t') (report (ph s) o))
  (** the call returns; its deferred unlocks have run *)
  | T_return s c a :
      ph s c = PDone a -> holding c s = false ->
      step s (Some (EReturn c a)) (mkState (top s) (trs s) (root s) (set_ph (ph s) c (PRet a))).

  (** A tree without root, no call made (threadsafe_b_tree.go:64-84) *)
  Definition start : state := mkState TFree [] None (fun _ => PNew).

  (** Executions, with the calls and returns in order *)
  Inductive exec : list event -> state -> Prop :=
  | X_start : exec [] start
  | X_step tr s e s' :
      exec tr s -> step s e s' -> exec (match e with Some x => tr ++ [x] | None => tr end) s'.

  (** The stored tree without its locks *)
  Fixpoint erase (t : atree) : node V := match t with ANode _ _ vs ks => Node vs (map erase ks) end.
  Definition tree_of (s : state) : option (node V) := option_map erase (root s).
End Sync.

Arguments atree V : clear implicits.
Arguments phase V : clear implicits.
Arguments state V : clear implicits.
Arguments event V : clear implicits.
