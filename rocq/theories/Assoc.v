(** Model of internal/datastructures/btree_associated, one call at a time.  No proofs in this file.

    The B-trees inside (associatedIDs, keys and the values trees of the keys) are modelled as finite maps; that the
    B-tree code is such a map is what C06-C10 prove about its own model ([AssocBridge.v] states the link).  The
    id-node locks and the [creating] counters, which only matter between overlapping calls, are not modelled.
    Where Go ranges over a map or a set the order is arbitrary; the model picks one and no theorem depends on it. *)
From Verif Require Import Datatypes Collections Query.
Local Open Scope nat_scope.

(** * Finite maps with a decidable key equality, standing for a B-tree *)
Section AMap.
  Context {K X : Type}.
  Variable eqb : K -> K -> bool.
  Fixpoint aget (k : K) (m : list (K * X)) : option X :=
    match m with
    | [] => None
    | (k', x) :: r => if eqb k k' then Some x else aget k r
    end.
  (** store under [k], replacing what is there *)
  Fixpoint aset (k : K) (x : X) (m : list (K * X)) : list (K * X) :=
    match m with
    | [] => [(k, x)]
    | (k', x') :: r => if eqb k k' then (k', x) :: r else (k', x') :: aset k x r
    end.
  Fixpoint adel (k : K) (m : list (K * X)) : list (K * X) :=
    match m with
    | [] => []
    | (k', x') :: r => if eqb k k' then r else (k', x') :: adel k r
    end.
End AMap.

(** The B-tree's key equality: neither is less (threadsafe_create.go and threadsafe_find.go of btree) *)
Definition veq (a b : EV) : bool := negb (lmt a b) && negb (lmt b a).

(** threadsafe_associated.go:27-44: an id node is its [ids]; a values node is the tree of them *)
Definition levels := list (list string).
Definition values := list (EV * levels).
Definition index := list (string * values).

(** threadsafe_associated_values.go *)
Record item (A : Type) := mkItem { it_id : string; it_kv : KeyValues; it_val : A }.
Arguments mkItem {A}. Arguments it_id {A}. Arguments it_kv {A}. Arguments it_val {A}.
(** threadsafe_associated.go:11-25 *)
Record atree (A : Type) := mkTree { a_items : list (item A); a_index : index }.
Arguments mkTree {A}. Arguments a_items {A}. Arguments a_index {A}.

(** keyValues.SortedKeys() with keyValues[key] *)
Fixpoint kv_insert (p : string * EV) (l : KeyValues) : KeyValues :=
  match l with
  | [] => [p]
  | q :: r => if str_ltb (fst q) (fst p) then q :: kv_insert p r else p :: l
  end.
Definition sorted_kv (kv : KeyValues) : KeyValues := fold_right kv_insert [] kv.

(** ** Index nodes *)
Definition node_of (ix : index) (k : string) (v : EV) : option levels :=
  match aget String.eqb k ix with Some vs => aget veq v vs | None => None end.
Definition set_node (ix : index) (k : string) (v : EV) (lv : levels) : index :=
  aset String.eqb k (aset veq v lv (match aget String.eqb k ix with Some vs => vs | None => [] end)) ix.
(** change an existing node *)
Definition upd_node (f : levels -> levels) (ix : index) (p : string * EV) : index :=
  match node_of ix (fst p) (snd p) with Some lv => set_node ix (fst p) (snd p) (f lv) | None => ix end.

(** threadsafe_create.go:13-55: [keys.CreateOrFind] with [values.CreateOrFind] inside *)
Definition ensure_node (ix : index) (p : string * EV) : index :=
  match node_of ix (fst p) (snd p) with Some _ => ix | None => set_node ix (fst p) (snd p) [] end.
(** threadsafe_create.go:103-106 and :248-251, growing [ids] *)
Definition extend (n : nat) (lv : levels) : levels := lv ++ repeat [] (n - length lv).
Definition level (n : nat) (lv : levels) : list string := nth (n - 1) lv [].
Fixpoint set_level (i : nat) (l : list string) (lv : levels) : levels :=
  match lv, i with
  | [], _ => []
  | _ :: r, 0 => l :: r
  | x :: r, Datatypes.S i' => x :: set_level i' l r
  end.
(** threadsafe_create.go:140-142 and :303-305 *)
Definition add_id (n : nat) (id : string) (lv : levels) : levels := set_level (n - 1) (level n lv ++ [id]) lv.
(** threadsafe_create.go:98-125 and :243-270: the set of candidate ids, over the nodes in key order *)
Definition scan_step (n : nat) (acc : option sset) (lv : levels) : option sset :=
  if Nat.ltb (length lv) n then Some []
  else match acc with
       | None => Some (set_new (level n lv))
       | Some s => Some (set_intersection s (level n lv))
       end.
Definition found_nodes (ix : index) (kv : KeyValues) : list levels :=
  flat_map (fun p => match node_of ix (fst p) (snd p) with Some lv => [lv] | None => [] end) kv.
Definition scan (n : nat) (nodes : list levels) : option sset := fold_left (scan_step n) nodes None.

(** threadsafe_delete.go:133-141 (also :262-270 and threadsafe_destroy.go:104-112): overwrite the id with the last
    one and pop.  The Go loop continues after the first hit; the ids of a level are distinct, so it finds no more. *)
Fixpoint replace_first (id last : string) (l : list string) : list string :=
  match l with
  | [] => []
  | x :: r => if String.eqb x id then last :: r else x :: replace_first id last r
  end.
Definition swap_pop (id : string) (l : list string) : list string :=
  if mem id l then removelast (replace_first id (last l EmptyString) l) else l.
(** threadsafe_delete.go:144-151: cut the empty levels off the end *)
Fixpoint truncate (lv : levels) : levels :=
  match lv with
  | [] => []
  | l :: r => match truncate r, l with [], [] => [] | r', _ => l :: r' end
  end.
Definition remove_id (n : nat) (id : string) (lv : levels) : levels :=
  truncate (set_level (n - 1) (swap_pop id (level n lv)) lv).
(** threadsafe_delete.go:163-190: delete the value if its node is empty, and the key if it has no values left *)
Definition cleanup_node (ix : index) (p : string * EV) : index :=
  match aget String.eqb (fst p) ix with
  | None => ix
  | Some vs =>
      let vs' := match aget veq (snd p) vs with Some [] => adel veq (snd p) vs | _ => vs end in
      match vs' with
      | [] => adel String.eqb (fst p) ix
      | _ => aset String.eqb (fst p) vs' ix
      end
  end.

(** ** The operations *)
Inductive result (A : Type) :=
| RId (id : string)                 (* the id of a created item; CreateOrFind also for a nil constructor *)
| RFound (it : item A)              (* CreateOrFind called onFind *)
| REmpty                            (* Create returned "", nil: the constructor returned nil *)
| RExists                           (* ErrorKeyValuesAlreadyExists *)
| RInvalid                          (* parameter error *)
| ROk                               (* nil error *)
| RPanic.
Arguments RId {A}. Arguments RFound {A}. Arguments REmpty {A}. Arguments RExists {A}.
Arguments RInvalid {A}. Arguments ROk {A}. Arguments RPanic {A}.

Definition find_item {A} (items : list (item A)) (id : string) : option (item A) :=
  find (fun i => String.eqb (it_id i) id) items.
Definition remove_item {A} (items : list (item A)) (id : string) : list (item A) :=
  filter (fun i => negb (String.eqb (it_id i) id)) items.

(** A callback given an item holds a pointer to its value and may change it in place (as counters, rules, overrides
    and queue channels do): the item with this id gets the value [f v]. *)
Definition update_value {A} (t : atree A) (id : string) (f : A -> A) : atree A :=
  mkTree (map (fun i => if String.eqb (it_id i) id then mkItem (it_id i) (it_kv i) (f (it_val i)) else i) (a_items t)) (a_index t).

(** threadsafe_delete.go:26-186 [Delete]; [can] = canDelete (nil: always true) *)
Definition Delete {A} (t : atree A) (kv : KeyValues) (can : item A -> bool) : atree A * result A :=
  if negb (kv_validate kv MinDataType MaxDataType) then (t, RInvalid)
  else
    let skv := sorted_kv kv in
    let n := length kv in
    let nodes := found_nodes (a_index t) skv in
    let finish (items : list (item A)) (ix : index) := (mkTree items (fold_left cleanup_node skv ix), ROk) in
    if Nat.eqb (length nodes) n then
      if existsb (fun lv => Nat.ltb (length lv) n) nodes then (t, ROk)
      else
        match scan n nodes with
        | Some [id] =>
            let deleted := match find_item (a_items t) id with Some it => can it | None => true end in
            if deleted then finish (remove_item (a_items t) id) (fold_left (upd_node (remove_id n id)) skv (a_index t))
            else finish (a_items t) (a_index t)
        | _ => finish (a_items t) (a_index t)
        end
    else finish (a_items t) (a_index t).

(** The item [Delete] offers to canDelete, if any: the same search *)
Definition delete_target {A} (t : atree A) (kv : KeyValues) : option (item A) :=
  if negb (kv_validate kv MinDataType MaxDataType) then None
  else
    let n := length kv in
    let nodes := found_nodes (a_index t) (sorted_kv kv) in
    if Nat.eqb (length nodes) n then
      if existsb (fun lv => Nat.ltb (length lv) n) nodes then None
      else match scan n nodes with Some [id] => find_item (a_items t) id | _ => None end
    else None.

(** The part shared by Create and CreateOrFind, threadsafe_create.go:90-125 and :235-270: the nodes are there and
    long enough, and the candidate ids *)
Definition prepare (ix : index) (kv : KeyValues) : index * option sset :=
  let skv := sorted_kv kv in
  let n := length kv in
  let ix1 := fold_left ensure_node skv ix in
  (fold_left (upd_node (extend n)) skv ix1, scan n (found_nodes ix1 skv)).

(** threadsafe_create.go:138-181 and :301-345: store the new id, call onCreate, store the item or clean up.
    [id] is the generated id, [mk] the result of onCreate ([None] = nil) *)
Definition store {A} (t : atree A) (ix : index) (kv : KeyValues) (id : string) (mk : option A) (failed : result A)
  : atree A * result A :=
  let n := length kv in
  let ix' := fold_left (upd_node (add_id n id)) (sorted_kv kv) ix in
  match mk with
  | Some a =>
      match find_item (a_items t) id with
      | Some _ => (mkTree (a_items t) ix', RPanic)
      | None => (mkTree (a_items t ++ [mkItem id kv a]) ix', RId id)
      end
  | None => (fst (Delete (mkTree (a_items t) ix') kv (fun _ => true)), failed)
  end.

(** threadsafe_create.go:74-184 [Create] *)
Definition Create {A} (t : atree A) (kv : KeyValues) (id : string) (mk : option A) : atree A * result A :=
  if negb (kv_validate kv MinDataType MaxDataType) then (t, RInvalid)
  else
    let '(ix, ids) := prepare (a_index t) kv in
    match ids with
    | Some [_] => (mkTree (a_items t) ix, RExists)
    | _ => store t ix kv id mk REmpty
    end.

(** ** Queries *)
(** Which stored values a lookup of a values tree visits (C09, C10) *)
Inductive lookup_kind := LFind | LLess | LLessEq | LGreater | LGreaterEq.
Definition visitb (w : lookup_kind) (key : EV) (tr : TypeRestrictions) (k : EV) : bool :=
  let any_too := Z.eqb (ev_type k) T_any && Z.eqb (tr_max tr) T_any in
  match w with
  | LFind =>
      if Z.eqb (ev_type key) T_any then tr_within tr (ev_type k)
      else (tr_within tr (ev_type key) && veq key k) || any_too
  | LLess => (Z.leb (tr_min tr) (ev_type k) && lmt k key) || any_too
  | LLessEq => (Z.leb (tr_min tr) (ev_type k) && negb (lmt key k)) || any_too
  | LGreater => Z.leb (ev_type k) (tr_max tr) && lmt key k
  | LGreaterEq => Z.leb (ev_type k) (tr_max tr) && negb (lmt k key)
  end.
Definition lookup_values (w : lookup_kind) (key : EV) (tr : TypeRestrictions) (vs : values) : list levels :=
  map snd (filter (fun p => visitb w key tr (fst p)) vs).

(** threadsafe_query.go:168-198 [getAllIDs]: the ids of the levels within the bounds *)
Fixpoint level_ids (mn mx : option Z) (i : nat) (lv : levels) : list string :=
  match lv with
  | [] => []
  | l :: r =>
      if under_min (Datatypes.S i) mn then level_ids mn mx (Datatypes.S i) r
      else if over_max (Datatypes.S i) mx then []
      else l ++ level_ids mn mx (Datatypes.S i) r
  end.
(** threadsafe_query.go:214-219 and the same pattern below it *)
Definition key_ids (ix : index) (s : Selection) (w : lookup_kind) (k : string) (q : ValueQuery) : list string :=
  match aget String.eqb k ix with
  | None => []
  | Some vs => flat_map (level_ids (s_min s) (s_max s) 0) (lookup_values w (vq_value q) (vq_tr q) vs)
  end.
Definition everything : TypeRestrictions := mkTR MinDataType MaxDataType.
(** threadsafe_query.go:305-313 *)
Definition all_ids (ix : index) (s : Selection) : list string :=
  flat_map (fun e => flat_map (level_ids (s_min s) (s_max s) 0) (lookup_values LFind Any everything (snd e))) ix.

Definition combine_ids (added : bool) (acc : sset) (ids : list string) : sset :=
  if added then set_intersection acc ids else set_add_bulk acc ids.

(** threadsafe_query.go:200-303, the loop over the sorted keys; the result is (validAdded, validIDs, invalidIDs),
    or an early return; [None] = panic *)
Inductive scan_res := SDone (va : bool) (valid : sset) (invalid : sset) | SEarly (s : sset) | SPanic.
Fixpoint sel_loop (ix : index) (s : Selection) (keys : list (string * ValueQuery)) (va ia : bool) (valid invalid : sset)
  : scan_res :=
  match keys with
  | [] => SDone va valid invalid
  | (k, q) :: r =>
      let positive w :=
        let valid' := combine_ids va valid (key_ids ix s w k q) in
        if Nat.eqb (set_size valid') 0 then SEarly valid' else sel_loop ix s r true ia valid' invalid in
      match vq_cmp q with
      | CEquals => positive LFind
      | CNotEquals =>
          let invalid' := combine_ids ia invalid (key_ids ix s LFind k q) in
          if va && Nat.eqb (set_size valid) 0 then SEarly valid else sel_loop ix s r va true valid invalid'
      | CLess => positive LLess
      | CLessEq => positive LLessEq
      | CGreater => positive LGreater
      | CGreaterEq => positive LGreaterEq
      | CUnknown => SPanic
      end
  end.
(** selection.go:64-79 [SortedKeys] *)
Fixpoint sq_insert (p : string * ValueQuery) (l : list (string * ValueQuery)) : list (string * ValueQuery) :=
  match l with
  | [] => [p]
  | q :: r => if str_ltb (fst q) (fst p) then q :: sq_insert p r else p :: l
  end.
Definition sorted_sel (kvs : list (string * ValueQuery)) := fold_right sq_insert [] kvs.

(** threadsafe_query.go:136-164, the branch for given ids *)
Fixpoint by_ids {A} (items : list (item A)) (s : Selection) (ids : list string) (acc : sset) : option sset :=
  match ids with
  | [] => Some acc
  | id :: r =>
      match find_item items id with
      | None => by_ids items s r acc
      | Some it =>
          match MatchKeyValues s (it_kv it) with
          | None => None
          | Some b => by_ids items s r (if b then set_add acc id else acc)
          end
      end
  end.
(** threadsafe_query.go:135-323 [findIDs]; [None] = panic *)
Definition findIDs {A} (t : atree A) (s : Selection) : option sset :=
  match s_ids s with
  | [] =>
      match sel_loop (a_index t) s (sorted_sel (s_kvs s)) false false [] [] with
      | SPanic => None
      | SEarly v => Some v
      | SDone va valid invalid =>
          let valid := if va then valid else set_add_bulk valid (all_ids (a_index t) s) in
          Some (fold_left set_remove (set_values invalid) valid)
      end
  | ids => by_ids (a_items t) s ids []
  end.

(** threadsafe_query.go:87-133 [query].  Outer [None] = panic; [Some None] = the nil set (no part at all), whose
    use panics in the caller. *)
Fixpoint query {A} (t : atree A) (q : Query) : option (option sset) :=
  match q with
  | QNil => None
  | Q sel ors ands =>
      let fix and_loop (l : list Query) (cur : option (option sset)) : option (option (option sset)) :=
        (* cur: [None] = validCounter 0; [Some s] = counter 1 with validIDs = s (nil or a set) *)
        match l with
        | [] => Some cur
        | c :: r =>
            match cur with
            | None => match query t c with None => None | Some s => and_loop r (Some s) end
            | Some None => None
            | Some (Some s) =>
                if Nat.eqb (set_size s) 0 then Some cur
                else match query t c with
                     | Some (Some s') => and_loop r (Some (Some (set_intersection s (set_values s'))))
                     | _ => None
                     end
            end
        end in
      let fix or_loop (l : list Query) (cur : option (option sset)) : option (option (option sset)) :=
        match l with
        | [] => Some cur
        | c :: r =>
            match query t c with
            | None => None
            | Some s' =>
                match cur, s' with
                | None, _ => or_loop r (Some s')
                | Some (Some s), Some s' => or_loop r (Some (Some (set_add_bulk s (set_values s'))))
                | _, _ => None
                end
            end
        end in
      let start := match sel with
                   | Some s => match findIDs t s with Some v => Some (Some (Some v)) | None => None end
                   | None => Some None
                   end in
      match start with
      | None => None
      | Some cur =>
          match (match ands with Some l => and_loop l cur | None => Some cur end) with
          | None => None
          | Some cur =>
              match (match ors with Some l => or_loop l cur | None => Some cur end) with
              | None => None
              | Some None => Some None
              | Some (Some s) => Some s
              end
          end
      end
  end.

(** Offering items to an iteration callback until it declines; the callback's state [S] collects what it saw *)
Fixpoint iterate {A S} (cb : S -> item A -> S * bool) (s : S) (l : list (item A)) : S :=
  match l with
  | [] => s
  | i :: r => let '(s', go) := cb s i in if go then iterate cb s' r else s'
  end.
(** the items of a list of ids; an id without item is skipped *)
Definition items_of {A} (t : atree A) (ids : list string) : list (item A) :=
  flat_map (fun id => match find_item (a_items t) id with Some i => [i] | None => [] end) ids.

(** threadsafe_query.go:26-81 [QueryAction]: the items offered to the callback, in order; [None] = panic,
    [Some None] = error *)
Definition query_items {A} (t : atree A) (q : Query) : option (option (list (item A))) :=
  if negb (q_validate q) then Some None
  else match q with
       | QNil => None
       | Q None None None => Some (Some (a_items t))
       | _ => match query t q with
              | Some (Some ids) => Some (Some (items_of t (set_values ids)))
              | _ => None
              end
       end.
Definition QueryAction {A S} (t : atree A) (q : Query) (cb : S -> item A -> S * bool) (s : S) : option (option S) :=
  match query_items t q with
  | None => None
  | Some None => Some None
  | Some (Some l) => Some (Some (iterate cb s l))
  end.

(** threadsafe_create.go:206-346 [CreateOrFind]; the onFind callback of the exact query stops at the first item *)
Definition CreateOrFind {A} (t : atree A) (kv : KeyValues) (id : string) (mk : option A) : atree A * result A :=
  if negb (kv_validate kv MinDataType MaxDataType) then (t, RInvalid)
  else
    match QueryAction t (ExactQuery kv) (fun (_ : option (item A)) i => (Some i, false)) None with
    | None => (t, RPanic)
    | Some None => (t, RInvalid)
    | Some (Some (Some i)) => (t, RFound i)
    | Some (Some None) =>
        let '(ix, ids) := prepare (a_index t) kv in
        match ids with
        | Some [id'] =>
            (mkTree (a_items t) ix,
             match find_item (a_items t) id' with Some i => RFound i | None => RId id' end)
        | _ => store t ix kv id mk (RId id)
        end
    end.

(** threadsafe_delete.go:200-234 [DeleteByAssociatedID] *)
Definition DeleteByAssociatedID {A} (t : atree A) (id : string) (can : item A -> bool) : atree A * result A :=
  if String.eqb id EmptyString then (t, RInvalid)
  else
    match QueryAction t (StringToQuery id) (fun (_ : option (item A)) i => (Some i, false)) None with
    | None => (t, RPanic)
    | Some None => (t, RInvalid)
    | Some (Some None) => (t, ROk)
    | Some (Some (Some i)) => Delete t (it_kv i) can
    end.

(** threadsafe_destroy.go:95-142 [destroyKeyValues] and threadsafe_delete.go:244-304 [deleteKeyValues]: for every key
    remove the id from the value's node, drop the node if it is empty, and the key if it has no values.
    [None] = index out of range *)
Definition drop_node (n : nat) (id : string) (ix : option index) (p : string * EV) : option index :=
  match ix with
  | None => None
  | Some ix =>
      match aget String.eqb (fst p) ix with
      | None => Some ix
      | Some vs =>
          match aget veq (snd p) vs with
          | None => Some (match vs with [] => adel String.eqb (fst p) ix | _ => ix end)
          | Some lv =>
              if Nat.ltb (length lv) n then None
              else
                let lv' := remove_id n id lv in
                let vs' := match lv' with [] => adel veq (snd p) vs | _ => aset veq (snd p) lv' vs end in
                Some (match vs' with [] => adel String.eqb (fst p) ix | _ => aset String.eqb (fst p) vs' ix end)
          end
      end
  end.
Definition drop_kv (ix : index) (id : string) (kv : KeyValues) : option index :=
  fold_left (drop_node (length kv) id) (sorted_kv kv) (Some ix).

(** threadsafe_destroy.go:15-55 [DestroyByAssociatedID] *)
Definition DestroyByAssociatedID {A} (t : atree A) (id : string) (can : item A -> bool) : atree A * result A :=
  if String.eqb id EmptyString then (t, RInvalid)
  else
    match find_item (a_items t) id with
    | None => (t, ROk)
    | Some it =>
        if can it then
          match drop_kv (a_index t) id (it_kv it) with
          | Some ix => (mkTree (remove_item (a_items t) id) ix, ROk)
          | None => (t, RPanic)
          end
        else (t, ROk)
    end.

(** threadsafe_destroy.go:63-93 [DestroyTree]: item by item until one refuses (the loop of the B-tree's DestroyAll,
    C15); the items offered *)
Fixpoint destroy_items {A} (t : atree A) (its : list (item A)) (can : item A -> bool) : atree A * result A :=
  match its with
  | [] => (t, ROk)
  | it :: r =>
      if can it then
        match drop_kv (a_index t) (it_id it) (it_kv it) with
        | Some ix => destroy_items (mkTree (remove_item (a_items t) (it_id it)) ix) r can
        | None => (t, RPanic)
        end
      else (t, ROk)
  end.
Definition DestroyTree {A} (t : atree A) (can : item A -> bool) : atree A * result A := destroy_items t (a_items t) can.

(** ** Matching *)
(** threadsafe_match.go:52-84: the ids found for one key, per level *)
Fixpoint merge_levels (mn mx : option Z) (i : nat) (acc lv : levels) : levels :=
  (* [acc] is keyIDs[key]; [lv] what is left of the node's ids from index i *)
  match lv with
  | [] => acc
  | l :: r =>
      if under_min (Datatypes.S i) mn then merge_levels mn mx (Datatypes.S i) (acc ++ [[]]) r
      else if over_max (Datatypes.S i) mx then acc
      else
        let acc' := if Nat.leb (Datatypes.S i) (length acc) then set_level i (nth i acc [] ++ l) acc
                    else set_level i (nth i (acc ++ [[]]) [] ++ l) (acc ++ [[]]) in
        merge_levels mn mx (Datatypes.S i) acc' r
  end.
Definition match_key (ix : index) (mq : MatchQuery) (k : string) (v : MatchValue) : option levels :=
  match aget String.eqb k ix with
  | None => None
  | Some vs =>
      let merged := fold_left (merge_levels (mq_min mq) (mq_max mq) 0) (lookup_values LFind (mv_value v) (mv_tr v) vs) [] in
      match merged with [] => None | _ => Some merged end
  end.
(** threadsafe_match.go:48-93: the map keyIDs (keys with no entry are absent) *)
Definition key_levels (ix : index) (mq : MatchQuery) : list (string * levels) :=
  flat_map (fun p => match match_key ix mq (fst p) (snd p) with Some lv => [(fst p, lv)] | None => [] end) (mq_kvs mq).
(** threadsafe_match.go:116-133 *)
Fixpoint group_ids (kl : list (string * levels)) (size : nat) (grouping : list string) (first : bool) (acc : sset) : sset :=
  match grouping with
  | [] => acc
  | k :: r =>
      match aget String.eqb k kl with
      | None => []
      | Some lv =>
          if Nat.ltb (length lv) size then []
          else group_ids kl size r false (if first then set_add_bulk acc (level size lv) else set_intersection acc (level size lv))
      end
  end.
(** threadsafe_match.go:30-153 [MatchAction]: the ids looked up, in order; [None] = panic, [Some None] = error *)
Definition match_ids (ix : index) (mq : MatchQuery) : option (option (list string)) :=
  if negb (mq_validate mq) then Some None
  else
    let kl := key_levels ix mq in
    match GenerateStringPermutations (map fst kl)
            (match mq_min mq with Some m => m | None => 0%Z end) (match mq_max mq with Some m => m | None => (-1)%Z end) with
    | None => None
    | Some groups => Some (Some (flat_map (fun g => set_values (group_ids kl (length g) g true [])) groups))
    end.
(** :135-147: the loop over the ids; an id without item ends it *)
Fixpoint match_loop_items {A S} (t : atree A) (cb : S -> item A -> S * bool) (s : S) (ids : list string) : S :=
  match ids with
  | [] => s
  | id :: r =>
      match find_item (a_items t) id with
      | None => s
      | Some i => let '(s', go) := cb s i in if go then match_loop_items t cb s' r else s'
      end
  end.
Definition MatchAction {A S} (t : atree A) (mq : MatchQuery) (cb : S -> item A -> S * bool) (s : S) : option (option S) :=
  match match_ids (a_index t) mq with
  | None => None
  | Some None => Some None
  | Some (Some ids) => Some (Some (match_loop_items t cb s ids))
  end.
