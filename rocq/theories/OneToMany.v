(** Model of internal/datastructures/btree_one_to_many, one call at a time.  No proofs in this file.
    The B-tree [oneKeys] is a finite map (C06-C10); the associated tree of an owner is that of [Assoc.v].  Overlapping
    calls (ErrorOneIDDestroying and the like) are not modelled. *)
From Coq Require Import Ascii.
From Verif Require Import Datatypes Collections Query Assoc.
Local Open Scope nat_scope.

(** one_to_many_item.go:20-28 *)
Record many (A : Type) := mkMany { m_val : A; m_one : string; m_id : string; m_kv : KeyValues }.
Arguments mkMany {A}. Arguments m_val {A}. Arguments m_one {A}. Arguments m_id {A}. Arguments m_kv {A}.
(** one_to_many.go:9-17 *)
Definition otm (A : Type) := list (string * atree (many A)).
Definition otm_get {A} (m : otm A) (o : string) : option (atree (many A)) := aget String.eqb o m.
Definition otm_set {A} (m : otm A) (o : string) (t : atree (many A)) : otm A := aset String.eqb o t m.
Definition otm_del {A} (m : otm A) (o : string) : otm A := adel String.eqb o m.

(** btree_one_to_many.go:175-182 [hasResevedKeys] *)
Definition ReservedID : string := "_associated_id".
Definition hasReservedKeys (kv : KeyValues) : bool := existsb (fun p => String.eqb (fst p) ReservedID) kv.

(** threadsafe_create.go:27-117 [CreateOrFind]; [id] is the generated id and [mk] what onCreate returns ([None] = nil).
    A new owner is stored even if its item is not (:100-105). *)
Definition OtmCreateOrFind {A} (m : otm A) (o : string) (kv : KeyValues) (id : string) (mk : option A)
  : otm A * result (many A) :=
  if String.eqb o EmptyString then (m, RInvalid)
  else if negb (kv_validate kv MinDataType MaxDataType) then (m, RInvalid)
  else if hasReservedKeys kv then (m, RInvalid)
  else
    let t := match otm_get m o with Some t => t | None => mkTree [] [] end in
    let '(t', r) := CreateOrFind t kv id (option_map (fun a => mkMany a o id kv) mk) in
    (otm_set m o t', r).

(** threadsafe_query.go:23-60 [QueryAction] and threadsafe_match.go:19-56 [MatchAction]: [None] = panic, [Some None] = error *)
Definition OtmQueryAction {A S} (m : otm A) (o : string) (q : Query) (cb : S -> many A -> S * bool) (s : S) : option (option S) :=
  if negb (q_validate q) then Some None
  else if String.eqb o EmptyString then Some None
  else match otm_get m o with
       | None => Some (Some s)
       | Some t => match QueryAction t q (fun s i => cb s (it_val i)) s with Some (Some s) => Some (Some s) | _ => None end
       end.
Definition OtmMatchAction {A S} (m : otm A) (o : string) (mq : MatchQuery) (cb : S -> many A -> S * bool) (s : S) : option (option S) :=
  if String.eqb o EmptyString then Some None
  else if negb (mq_validate mq) then Some None
  else match otm_get m o with
       | None => Some (Some s)
       | Some t => match MatchAction t mq (fun s i => cb s (it_val i)) s with Some (Some s) => Some (Some s) | _ => None end
       end.

(** threadsafe_delete.go:23-69 [DeleteOneOfManyByKeyValues] *)
Definition OtmDelete {A} (m : otm A) (o : string) (kv : KeyValues) (can : many A -> bool) : otm A * result (many A) :=
  if String.eqb o EmptyString then (m, RInvalid)
  else if negb (kv_validate kv MinDataType MaxDataType) then (m, RInvalid)
  else match otm_get m o with
       | None => (m, ROk)
       | Some t => let '(t', r) := Delete t kv (fun i => can (it_val i)) in (otm_set m o t', r)
       end.

(** threadsafe_destroy.go:74-120 [DestroyOneOfManyByID] *)
Definition OtmDestroyByID {A} (m : otm A) (o id : string) (can : many A -> bool) : otm A * result (many A) :=
  if String.eqb o EmptyString then (m, RInvalid)
  else if String.eqb id EmptyString then (m, RInvalid)
  else match otm_get m o with
       | None => (m, ROk)
       | Some t => let '(t', r) := DestroyByAssociatedID t id (fun i => can (it_val i)) in (otm_set m o t', r)
       end.

(** threadsafe_destroy.go:23-59 [DestroyOne]: [deleted] is the last answer of canDelete; the destruction of the items
    stops at the first refusal, so it is false iff an item refuses *)
Definition OtmDestroyOne {A} (m : otm A) (o : string) (can : many A -> bool) : otm A * result (many A) :=
  if String.eqb o EmptyString then (m, RInvalid)
  else match otm_get m o with
       | None => (m, ROk)
       | Some t =>
           let '(t', r) := DestroyTree t (fun i => can (it_val i)) in
           let deleted := forallb (fun i => can (it_val i)) (a_items t) in
           (if deleted then otm_del m o else otm_set m o t', r)
       end.
(** A callback changes the value of an item of [o] in place *)
Definition otm_update {A} (m : otm A) (o id : string) (f : A -> A) : otm A :=
  match otm_get m o with
  | None => m
  | Some t => otm_set m o (update_value t id (fun x => mkMany (f (m_val x)) (m_one x) (m_id x) (m_kv x)))
  end.
