(** Vocabulary for waiting dequeues. *)
From Verif Require Import Datatypes SpecValues Query SpecQuery Assoc SpecAssoc QuerySync SpecQuerySync Dequeue.
Local Open Scope nat_scope.

(** The queries which the index (C22) and the direct comparison with key-values (C19) answer exactly: at every node a selection without ids or an And part,
    at most one [!=] per selection, no restriction that cuts into a range. *)
Definition plain_query (q : Query) : Prop :=
  q_validate q = true /\ query_no_nan q /\
  every_node (fun sel ors ands => node_simple sel ors ands /\ (forall s, sel = Some s -> s_ids s = []) /\ (sel <> None \/ ands <> [])) q.
(** There is a channel with this id and these key-values, stored or just being created, at moment n. *)
Definition channel_at (ex : nat -> dstate) (n : nat) (q x : string) (kv : KeyValues) : Prop :=
  stored_at (fun i => d_tree (ex i) q) n x kv \/ exists told, In (mkMaking q x kv told) (d_new (ex n)).
(** Every node of the query has a selection, an And or an Or. *)
Definition has_parts (q : Query) : Prop := every_node (fun sel ors ands => sel <> None \/ ors <> [] \/ ands <> []) q.
