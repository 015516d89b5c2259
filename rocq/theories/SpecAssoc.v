(** Specification vocabulary for the associated tree: sets of key-values, histories, what the index holds. *)
From Verif Require Import Datatypes SpecValues Query SpecQuery Assoc.
Local Open Scope nat_scope.

(** Two sets of key-values are the same set. *)
Definition kv_same (a b : KeyValues) : Prop :=
  forall k, match kv_get a k, kv_get b k with
            | Some x, Some y => same_value x y
            | None, None => True
            | _, _ => False
            end.
(** What a Go map of key-values without NaN is, valid or not: distinct keys, no NaN. *)
Definition kv_arg (kv : KeyValues) : Prop :=
  NoDup (kv_keys kv) /\ forall k v, In (k, v) kv -> ~ is_nan (ev_data v).
(** Validity: at least one pair and every value well typed. *)
Definition kv_valid (kv : KeyValues) : Prop :=
  kv <> [] /\ forall k v, In (k, v) kv -> well_typed (ev_type v) (ev_data v).

(** A match query and the key-values of an item: the number of keys is within the bounds, and every key of the item is
    supplied with an equal value, the stored value being of a permitted type. *)
Definition match_holds (mq : MatchQuery) (kv : KeyValues) : Prop :=
  size_holds (mq_min mq) (mq_max mq) (length kv) /\
  forall k m, kv_get kv k = Some m ->
    exists v, In (k, v) (mq_kvs mq) /\ type_permitted (mv_tr v) m /\ equal_values m (mv_value v).
(** What a Go match query without NaN is. *)
Definition match_arg (mq : MatchQuery) : Prop :=
  NoDup (map fst (mq_kvs mq)) /\ forall k v, In (k, v) (mq_kvs mq) -> ~ is_nan (ev_data (mv_value v)).

(** The queries the index answers exactly. *)
(** the restriction does not cut into the range on the side the lookup ignores (C10) *)
Definition range_covered (q : ValueQuery) : Prop :=
  match vq_cmp q with
  | CLess | CLessEq => (ev_type (vq_value q) <= tr_max (vq_tr q))%Z
  | CGreater | CGreaterEq => (tr_min (vq_tr q) <= ev_type (vq_value q))%Z
  | _ => True
  end.
(** at most one [!=] in a selection *)
Definition few_negatives (s : Selection) : Prop :=
  forall p p', In p (s_kvs s) -> In p' (s_kvs s) -> vq_cmp (snd p) = CNotEquals -> vq_cmp (snd p') = CNotEquals -> p = p'.
(** either ids are given (then each item is checked directly), or the above *)
Definition sel_simple (s : Selection) : Prop :=
  s_ids s <> [] \/ (few_negatives s /\ forall k q, In (k, q) (s_kvs s) -> range_covered q).
(** at every node: at least one part, and a simple selection *)
Definition node_simple (sel : option Selection) (ors ands : list Query) : Prop :=
  (sel <> None \/ ors <> [] \/ ands <> []) /\ forall s, sel = Some s -> sel_simple s.

Section Spec.
  Context {A : Type}.
  Definition holds_kv (t : atree A) (kv : KeyValues) : Prop := exists it, In it (a_items t) /\ kv_same (it_kv it) kv.

  (** The calls that change a tree. *)
  Inductive aop :=
  | ACreate (kv : KeyValues) (id : string) (mk : option A)
  | ACreateOrFind (kv : KeyValues) (id : string) (mk : option A)
  | ADelete (kv : KeyValues) (can : item A -> bool)
  | ADeleteByID (id : string) (can : item A -> bool)
  | ADestroyByID (id : string) (can : item A -> bool)
  | ADestroyTree (can : item A -> bool)
  | AUpdate (id : string) (f : A -> A)  (* a callback changes the value of an item in place *).
  Definition arun (t : atree A) (o : aop) : atree A * result A :=
    match o with
    | ACreate kv id mk => Create t kv id mk
    | ACreateOrFind kv id mk => CreateOrFind t kv id mk
    | ADelete kv can => Delete t kv can
    | ADeleteByID id can => DeleteByAssociatedID t id can
    | ADestroyByID id can => DestroyByAssociatedID t id can
    | ADestroyTree can => DestroyTree t can
    | AUpdate id f => (update_value t id f, ROk)
    end.
  (** the id a call draws from the generator *)
  Definition op_id (o : aop) : option string :=
    match o with ACreate _ id _ | ACreateOrFind _ id _ => Some id | _ => None end.
  Definition op_arg (o : aop) : Prop :=
    match o with ACreate kv _ _ | ACreateOrFind kv _ _ | ADelete kv _ => kv_arg kv | _ => True end.

  (** All histories of calls, the generator never repeating an id ([used]) nor producing "". *)
  Inductive areach : atree A -> list string -> Prop :=
  | AR_new : areach (mkTree [] []) []
  | AR_step t used o : areach t used -> op_arg o ->
      (forall id, op_id o = Some id -> ~ In id used /\ id <> EmptyString) ->
      areach (fst (arun t o)) (match op_id o with Some id => id :: used | None => used end).

  (** Nothing empty is left in the index: no key without values, no value without ids. *)
  Definition no_leftovers (t : atree A) : Prop :=
    forall k vs, In (k, vs) (a_index t) -> vs <> [] /\ forall v lv, In (v, lv) vs -> lv <> [] /\ last lv [] <> [].
  (** [id] is recorded somewhere in the index. *)
  Definition indexed (t : atree A) (id : string) : Prop :=
    exists k vs v lv l, In (k, vs) (a_index t) /\ In (v, lv) vs /\ In l lv /\ In id l.
End Spec.
Arguments aop : clear implicits.
