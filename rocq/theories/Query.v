(** Model of the query language: pkg/models/api/common/v1/data_comparison.go,
    pkg/models/api/common/v1/query_associated_action/*.go and query_match_action/*.go.  No proofs in this file.
    Go maps are association lists without duplicate keys. *)
From Verif Require Import Datatypes.
Local Open Scope nat_scope.

(** data_comparison.go:9-30; a DataComparison is a string, [CUnknown] is any other string *)
Inductive comparison := CEquals | CNotEquals | CLess | CLessEq | CGreater | CGreaterEq | CUnknown.

(** value_query.go:9-23 *)
Record ValueQuery := mkVQ { vq_value : EV; vq_cmp : comparison; vq_tr : TypeRestrictions }.
(** selection.go:31-41; optional ints are pointers *)
Record Selection := mkSel { s_ids : list string; s_kvs : list (string * ValueQuery); s_min : option Z; s_max : option Z }.
(** associated_action_query.go:18-23; [QNil] is a nil pointer, [None] a nil slice *)
Inductive Query := QNil | Q (sel : option Selection) (ors ands : option (list Query)).
Definition elems (o : option (list Query)) : list Query := match o with Some l => l | None => [] end.

(** value_query.go:25-46 [Validate] *)
Definition vq_validate (q : ValueQuery) : bool :=
  match vq_cmp q with
  | CUnknown => false
  | CEquals | CNotEquals => ev_validate (vq_value q) MinDataType MaxDataType && tr_validate (vq_tr q)
  | _ => ev_validate (vq_value q) MinDataType MaxWithoutAnyDataType && tr_validate (vq_tr q)
  end.

(** selection.go:43-62 [Validate] *)
Definition sel_validate (s : Selection) : bool :=
  match s_ids s, s_kvs s, s_min s, s_max s with
  | [], [], None, None => false
  | _, _, _, _ =>
      forallb (fun p => vq_validate (snd p)) (s_kvs s) &&
      match s_min s, s_max s with Some a, Some b => negb (Z.ltb b a) | _, _ => true end
  end.

(** associated_action_query.go:29-65 [Validate] *)
Fixpoint q_validate (q : Query) : bool :=
  match q with
  | QNil => true
  | Q sel ors ands =>
      let child c := match c with QNil => false | _ => q_validate c end in
      match sel with Some s => sel_validate s | None => true end &&
      match ors with Some l => forallb child l | None => true end &&
      match ands with Some l => forallb child l | None => true end
  end.

(** associated_action_query.go:67-73 *)
Definition StringToQuery (id : string) : Query := Q (Some (mkSel [id] [] None None)) None None.
(** :75-96 *)
Definition ExactQuery (kv : KeyValues) : Query :=
  Q (Some (mkSel [] (map (fun p => (fst p, mkVQ (snd p) CEquals (mkTR (ev_type (snd p)) (ev_type (snd p))))) kv)
            (Some (Z.of_nat (length kv))) (Some (Z.of_nat (length kv))))) None None.

(** selection.go:99-245: the check of one key of the query; [mv] is the value the key-values have for it.
    [None] = the panic of the default case. *)
Definition key_matches (q : ValueQuery) (mv : option EV) : option bool :=
  let value := vq_value q in
  let tr := vq_tr q in
  (* the inner switch on the upper bound of LessThan...GreaterThanOrEqual (:130-146 etc.) *)
  let bounded (m : EV) (test : bool) :=
    if GeneralDataTypes (tr_max tr) then test
    else if AnyDataType (tr_max tr) then (if Z.eqb (ev_type m) T_any then true else test)
    else true in
  match vq_cmp q with
  | CEquals => Some match mv with
      | Some m => tr_within tr (ev_type m) && (negb (less m value) && negb (less value m))
      | None => false end
  | CNotEquals => Some match mv with
      | Some m => if tr_within tr (ev_type m) then negb (negb (less m value) && negb (less value m)) else true
      | None => true end
  | CLess => Some match mv with
      | Some m => tr_within tr (ev_type m) && bounded m (lmt m value)
      | None => false end
  | CLessEq => Some match mv with
      | Some m => tr_within tr (ev_type m) && bounded m (if negb (lmt m value) then negb (less value m) else true)
      | None => false end
  | CGreater => Some match mv with
      | Some m => tr_within tr (ev_type m) && bounded m (lmt value m)
      | None => false end
  | CGreaterEq => Some match mv with
      | Some m => tr_within tr (ev_type m) && bounded m (if negb (lmt value m) then negb (less m value) else true)
      | None => false end
  | CUnknown => None
  end.

(** selection.go:98-246, the loop over the keys of the query *)
Fixpoint match_loop (kvs : list (string * ValueQuery)) (tags : KeyValues) : option bool :=
  match kvs with
  | [] => Some true
  | (k, q) :: r =>
      match key_matches q (kv_get tags k) with
      | None => None
      | Some false => Some false
      | Some true => match_loop r tags
      end
  end.

Definition under_min (n : nat) (b : option Z) : bool := match b with Some m => Z.ltb (Z.of_nat n) m | None => false end.
Definition over_max (n : nat) (b : option Z) : bool := match b with Some m => Z.ltb m (Z.of_nat n) | None => false end.

(** selection.go:82-249 [MatchKeyValues] *)
Definition MatchKeyValues (s : Selection) (tags : KeyValues) : option bool :=
  if under_min (length tags) (s_min s) then Some false
  else if over_max (length tags) (s_max s) then Some false
  else match_loop (s_kvs s) tags.

(** associated_action_query.go:99-133 [MatchTags]; [None] = panic (nil pointer or unknown comparison) *)
Fixpoint MatchTags (q : Query) (tags : KeyValues) : option bool :=
  match q with
  | QNil => None
  | Q sel ors ands =>
      let fix all (l : list Query) : option bool :=
        match l with
        | [] => Some true
        | c :: r => match MatchTags c tags with Some true => all r | x => x end
        end in
      let fix any (l : list Query) : option bool :=
        match l with
        | [] => Some false
        | c :: r => match MatchTags c tags with Some false => any r | x => x end
        end in
      let matched := match sel with Some s => MatchKeyValues s tags | None => Some true end in
      let matched := match matched with
                     | Some true => match ands with Some l => all l | None => Some true end
                     | x => x end in
      match matched with
      | Some false => match ors with Some l => any l | None => Some false end
      | x => x
      end
  end.

(** query_match_action/match_key_values.go:41-57 *)
Record MatchValue := mkMV { mv_value : EV; mv_tr : TypeRestrictions }.
(** match_query.go:14-22 *)
Record MatchQuery := mkMQ { mq_kvs : list (string * MatchValue); mq_min : option Z; mq_max : option Z }.
(** match_query.go:28-38, match_key_values.go:31-39, :47-57 *)
Definition mq_validate (q : MatchQuery) : bool :=
  match mq_kvs q with
  | [] => false
  | _ => forallb (fun p => tr_validate (mv_tr (snd p)) && ev_validate (mv_value (snd p)) MinDataType MaxDataType) (mq_kvs q)
  end.
(** match_query.go:40-56 *)
Definition AnyMatchQuery (kv : KeyValues) : MatchQuery :=
  mkMQ (map (fun p => (fst p, mkMV (snd p) (mkTR (ev_type (snd p)) T_any))) kv) None None.
