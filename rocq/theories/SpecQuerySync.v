(** Vocabulary for queries that overlap other calls. *)
From Verif Require Import Datatypes SpecValues Query SpecQuery Assoc SpecAssoc.
Local Open Scope nat_scope.

Section Spec.
  Context {A : Type}.
  (** The tree at successive moments: at every moment nothing happens, or one call takes effect; ids are never drawn twice. *)
  Definition history (h : nat -> atree A) : Prop := exists used : nat -> list string,
    areach (h 0) (used 0) /\
    forall n, (h (Datatypes.S n) = h n /\ used (Datatypes.S n) = used n) \/
      exists o, op_arg o /\ (forall id, op_id o = Some id -> ~ In id (used n) /\ id <> EmptyString) /\
        h (Datatypes.S n) = fst (arun (h n) o) /\ used (Datatypes.S n) = match op_id o with Some id => id :: used n | None => used n end.
  (** An item with this id and these key-values is stored at moment n. *)
  Definition stored_at (h : nat -> atree A) (n : nat) (x : string) (kv : KeyValues) : Prop :=
    exists it, In it (a_items (h n)) /\ it_id it = x /\ it_kv it = kv.
End Spec.
(** No [!=], except in selections that give the ids. *)
Definition no_not_equals (q : Query) : Prop :=
  every_node (fun sel _ _ => forall s k v, sel = Some s -> s_ids s = [] -> In (k, v) (s_kvs s) -> vq_cmp v <> CNotEquals) q.
