(** Model of a query of an associated tree (internal/datastructures/btree_associated/threadsafe_query.go) that overlaps other calls.
    No proofs in this file.  ([Assoc.v] models the same query alone: the functions used here are defined there.)

    [h n] is the tree at moment n, as the readers of id nodes see it.  A creation locks the id nodes of all its key-values before it adds its id to
    them and unlocks them after the item is stored (threadsafe_create.go:99-158, :246-329), and a deletion does likewise
    (threadsafe_delete.go:74-152), so that a reader sees such a change of the nodes as one change; a destruction counts from the moment the id is marked
    (btree/threadsafe_destroy.go:35-50), since from then on lookups of the id fail (threadsafe_query.go:64-71); a refused destruction is not
    modelled.  [readable n k v]: the node of (k, v) is not locked at moment n.
    The query reads every id node at a moment of its own (threadsafe_query.go:168-198: only the node that is read is locked), the keys of a
    selection one after the other.  An iteration of a B-tree meets every node that is there all the time (btree/threadsafe_find.go:112-166: children are
    locked before their parent is released); one that comes or goes may be met or not, which is a choice of the moment. *)
From Verif Require Import Datatypes SpecValues Collections Query Assoc.
Local Open Scope nat_scope.

Section Run.
  Context {A : Type} (h : nat -> atree A) (readable : nat -> string -> EV -> Prop).

  (** threadsafe_query.go:168-198 *)
  Definition node_ids (t : atree A) (s : Selection) (k : string) (v : EV) : list string :=
    match node_of (a_index t) k v with Some lv => level_ids (s_min s) (s_max s) 0 lv | None => [] end.
  (** Which lookup of the values tree a comparison uses (:212-296) *)
  Definition lookup_of (c : comparison) : lookup_kind :=
    match c with CLess => LLess | CLessEq => LLessEq | CGreater => LGreater | CGreaterEq => LGreaterEq | _ => LFind end.

  (** The ids collected for one key between two moments; the values stored in a tree are well typed and not NaN ([good]) *)
  Definition key_read (from to : nat) (s : Selection) (k : string) (q : ValueQuery) (ids : list string) : Prop :=
    exists moment : EV -> nat,
      (forall v, good v -> visitb (lookup_of (vq_cmp q)) (vq_value q) (vq_tr q) v = true -> from <= moment v <= to /\ readable (moment v) k v) /\
      forall x, In x ids <-> exists v, good v /\ visitb (lookup_of (vq_cmp q)) (vq_value q) (vq_tr q) v = true /\ In x (node_ids (h (moment v)) s k v).
  (** :305-313: all nodes *)
  Definition all_read (from to : nat) (s : Selection) (ids : list string) : Prop :=
    exists moment : string -> EV -> nat,
      (forall k v, good v -> from <= moment k v <= to /\ readable (moment k v) k v) /\
      forall x, In x ids <-> exists k v, good v /\ In x (node_ids (h (moment k v)) s k v).

  (** :200-303, as [sel_loop] in Assoc.v *)
  Inductive sel_run (s : Selection) : nat -> list (string * ValueQuery) -> bool -> bool -> sset -> sset -> nat -> scan_res -> Prop :=
  | SR_end n va ia valid invalid : sel_run s n [] va ia valid invalid n (SDone va valid invalid)
  | SR_none n m k q r va ia valid invalid ids : vq_cmp q <> CNotEquals -> vq_cmp q <> CUnknown -> key_read n m s k q ids ->
      n <= m -> set_size (combine_ids va valid ids) = 0 -> sel_run s n ((k, q) :: r) va ia valid invalid m (SEarly (combine_ids va valid ids))
  | SR_some n m k q r va ia valid invalid ids to res : vq_cmp q <> CNotEquals -> vq_cmp q <> CUnknown -> key_read n m s k q ids ->
      n <= m -> set_size (combine_ids va valid ids) <> 0 -> sel_run s m r true ia (combine_ids va valid ids) invalid to res ->
      sel_run s n ((k, q) :: r) va ia valid invalid to res
  | SR_not n m k q r va ia valid invalid ids to res : vq_cmp q = CNotEquals -> key_read n m s k q ids ->
      n <= m -> va && Nat.eqb (set_size valid) 0 = false -> sel_run s m r va true valid (combine_ids ia invalid ids) to res ->
      sel_run s n ((k, q) :: r) va ia valid invalid to res
  | SR_not_none n m k q r va ia valid invalid ids : vq_cmp q = CNotEquals -> key_read n m s k q ids ->
      n <= m -> va && Nat.eqb (set_size valid) 0 = true -> sel_run s n ((k, q) :: r) va ia valid invalid m (SEarly valid).

  (** :136-164, every id looked up at a moment of its own, as [by_ids] *)
  Fixpoint by_ids_at (moment : string -> nat) (s : Selection) (ids : list string) (acc : sset) : option sset :=
    match ids with
    | [] => Some acc
    | id :: r =>
        match find_item (a_items (h (moment id))) id with
        | None => by_ids_at moment s r acc
        | Some it =>
            match MatchKeyValues s (it_kv it) with
            | None => None
            | Some b => by_ids_at moment s r (if b then set_add acc id else acc)
            end
        end
    end.

  (** :135-323, as [findIDs] *)
  Inductive find_run (s : Selection) : nat -> nat -> sset -> Prop :=
  | FR_ids n m moment r : s_ids s <> [] -> n <= m -> (forall x, n <= moment x <= m) -> by_ids_at moment s (s_ids s) [] = Some r -> find_run s n m r
  | FR_early n m r : s_ids s = [] -> sel_run s n (sorted_sel (s_kvs s)) false false [] [] m (SEarly r) -> find_run s n m r
  | FR_keys n m valid invalid : s_ids s = [] -> sel_run s n (sorted_sel (s_kvs s)) false false [] [] m (SDone true valid invalid) ->
      find_run s n m (fold_left set_remove (set_values invalid) valid)
  | FR_all n m m' valid invalid ids : s_ids s = [] -> sel_run s n (sorted_sel (s_kvs s)) false false [] [] m (SDone false valid invalid) ->
      m <= m' -> all_read m m' s ids -> find_run s n m' (fold_left set_remove (set_values invalid) (set_add_bulk valid ids)).

  (** :87-133, as [query]; the set may be nil (no part at all).  Panics (the use of a nil set) have no run. *)
  Inductive query_run : nat -> Query -> nat -> option sset -> Prop :=
  | QR sel ors ands n n1 n2 n3 cur0 cur1 cur2 :
      start_run n sel n1 cur0 -> and_run n1 (elems ands) cur0 n2 cur1 -> or_run n2 (elems ors) cur1 n3 cur2 ->
      query_run n (Q sel ors ands) n3 (match cur2 with Some s => s | None => None end)
  with start_run : nat -> option Selection -> nat -> option (option sset) -> Prop :=
  | ST_none n : start_run n None n None
  | ST_some n m s r : find_run s n m r -> start_run n (Some s) m (Some (Some r))
  with and_run : nat -> list Query -> option (option sset) -> nat -> option (option sset) -> Prop :=
  | AN_end n cur : and_run n [] cur n cur
  | AN_first n m to c r s out : query_run n c m s -> and_run m r (Some s) to out -> and_run n (c :: r) None to out
  | AN_stop n c r s : set_size s = 0 -> and_run n (c :: r) (Some (Some s)) n (Some (Some s))
  | AN_next n m to c r s s' out : set_size s <> 0 -> query_run n c m (Some s') ->
      and_run m r (Some (Some (set_intersection s (set_values s')))) to out -> and_run n (c :: r) (Some (Some s)) to out
  with or_run : nat -> list Query -> option (option sset) -> nat -> option (option sset) -> Prop :=
  | OR_end n cur : or_run n [] cur n cur
  | OR_first n m to c r s out : query_run n c m s -> or_run m r (Some s) to out -> or_run n (c :: r) None to out
  | OR_next n m to c r s s' out : query_run n c m (Some s') ->
      or_run m r (Some (Some (set_add_bulk s (set_values s')))) to out -> or_run n (c :: r) (Some (Some s)) to out.

  (** :26-81 QueryAction, validated: the items offered to the callback if that never stops the query *)
  Inductive action_run (from : nat) (q : Query) (to : nat) : list (item A) -> Prop :=
  (* :43-53: the items themselves are iterated *)
  | AR_all moment its : q = Q None None None -> from <= to -> (forall x, from <= moment x <= to) -> NoDup (map it_id its) ->
      (forall it, In it its <-> In it (a_items (h (moment (it_id it))))) -> action_run from q to its
  (* :55-81 *)
  | AR_some mid ids moment : q <> Q None None None -> query_run from q mid (Some ids) -> mid <= to -> (forall x, mid <= moment x <= to) ->
      action_run from q to (flat_map (fun x => match find_item (a_items (h (moment x))) x with Some it => [it] | None => [] end) (set_values ids)).
End Run.
