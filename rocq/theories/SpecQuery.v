(** What a query means, independently of how it is evaluated. *)
From Verif Require Import Datatypes SpecValues Query.
Local Open Scope nat_scope.

(** The comparison itself, between the value found for a key and the value in the query.  An Any value (stored or
    asked for) equals everything; the other comparisons use the order "type first, then value", except that a
    stored Any satisfies all of them. *)
Definition equal_values (found asked : EV) : Prop := found = Any \/ asked = Any \/ same_value found asked.
Definition compares (c : comparison) (found asked : EV) : Prop :=
  match c with
  | CEquals => equal_values found asked
  | CNotEquals => ~ equal_values found asked
  | CLess => found = Any \/ value_lt found asked
  | CLessEq => found = Any \/ value_lt found asked \/ same_value found asked
  | CGreater => found = Any \/ value_lt asked found
  | CGreaterEq => found = Any \/ value_lt asked found \/ same_value found asked
  | CUnknown => False
  end.
Definition type_permitted (tr : TypeRestrictions) (v : EV) : Prop := (tr_min tr <= ev_type v <= tr_max tr)%Z.

(** One key of a selection: present, of a permitted type, and in the relation; for [!=]: absent, or of a type the
    restriction does not cover, or different. *)
Definition key_holds (q : ValueQuery) (mv : option EV) : Prop :=
  match vq_cmp q with
  | CNotEquals => forall m, mv = Some m -> type_permitted (vq_tr q) m -> ~ equal_values m (vq_value q)
  | c => exists m, mv = Some m /\ type_permitted (vq_tr q) m /\ compares c m (vq_value q)
  end.
Definition size_holds (mn mx : option Z) (n : nat) : Prop :=
  (forall a, mn = Some a -> (a <= Z.of_nat n)%Z) /\ (forall b, mx = Some b -> (Z.of_nat n <= b)%Z).
Definition tags_hold (s : Selection) (tags : KeyValues) : Prop :=
  size_holds (s_min s) (s_max s) (length tags) /\
  forall k q, In (k, q) (s_kvs s) -> key_holds q (kv_get tags k).
(** A selection, for an item with an id. *)
Definition sel_holds (s : Selection) (id : string) (tags : KeyValues) : Prop :=
  (s_ids s = [] \/ In id (s_ids s)) /\ tags_hold s tags.

(** A whole query: (the selection and every And) or some Or; no part at all selects everything. *)
Section Meaning.
  Variable holds : Selection -> Prop.
  Fixpoint q_holds (q : Query) : Prop :=
    match q with
    | QNil => True
    | Q sel ors ands =>
        (match sel with Some s => holds s | None => True end /\
         match ands with
         | Some l => (fix all (l : list Query) : Prop := match l with [] => True | c :: r => q_holds c /\ all r end) l
         | None => True end /\
         (sel <> None \/ elems ands <> [] \/ elems ors = [])) \/
        match ors with
        | Some l => (fix any (l : list Query) : Prop := match l with [] => False | c :: r => q_holds c \/ any r end) l
        | None => False end
    end.
End Meaning.
Definition query_holds_tags (q : Query) (tags : KeyValues) : Prop := q_holds (fun s => tags_hold s tags) q.
Definition query_holds (q : Query) (id : string) (tags : KeyValues) : Prop := q_holds (fun s => sel_holds s id tags) q.

(** Something holds of every node of a query. *)
Fixpoint every_node (P : option Selection -> list Query -> list Query -> Prop) (q : Query) : Prop :=
  match q with
  | QNil => False
  | Q sel ors ands =>
      P sel (elems ors) (elems ands) /\
      match ands with
      | Some l => (fix all (l : list Query) : Prop := match l with [] => True | c :: r => every_node P c /\ all r end) l
      | None => True end /\
      match ors with
      | Some l => (fix all (l : list Query) : Prop := match l with [] => True | c :: r => every_node P c /\ all r end) l
      | None => True end
  end.

(** Well-formed selections, in words: bounds in order, known comparisons, legal values (Any only for = and !=),
    legal restrictions; at least one criterion. *)
Definition value_query_ok (q : ValueQuery) : Prop :=
  vq_cmp q <> CUnknown /\ well_typed (ev_type (vq_value q)) (ev_data (vq_value q)) /\
  (ev_type (vq_value q) = T_any -> vq_cmp q = CEquals \/ vq_cmp q = CNotEquals) /\
  known_tag (tr_min (vq_tr q)) /\ known_tag (tr_max (vq_tr q)) /\ (tr_min (vq_tr q) <= tr_max (vq_tr q))%Z.
Definition selection_ok (s : Selection) : Prop :=
  (s_ids s <> [] \/ s_kvs s <> [] \/ s_min s <> None \/ s_max s <> None) /\
  (forall k q, In (k, q) (s_kvs s) -> value_query_ok q) /\
  (forall a b, s_min s = Some a -> s_max s = Some b -> (a <= b)%Z).
Definition query_ok (q : Query) : Prop :=
  q = QNil \/ every_node (fun sel _ _ => forall s, sel = Some s -> selection_ok s) q.

(** No NaN anywhere in a query. *)
Definition query_no_nan (q : Query) : Prop :=
  every_node (fun sel _ _ => forall s k v, sel = Some s -> In (k, v) (s_kvs s) -> ~ is_nan (ev_data (vq_value v))) q.
(** Key-values as they pass validation, without NaN. *)
Definition kvs_good (tags : KeyValues) : Prop := forall k v, kv_get tags k = Some v -> good v.
