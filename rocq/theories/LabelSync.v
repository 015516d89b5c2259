(** Model of the items of one relation of a one-to-many tree (internal/datastructures/btree_one_to_many) under calls that overlap: what the callbacks of
    queries, matches and deletions are shown (one_to_many_item.go:8-49).  No proofs in this file.

    The tree of an owner that is there is an associated tree with concurrent calls, as in [AssocSync.v]: CreateOrFind of an owner that is there looks it up under
    a shared lock (btree/threadsafe_create.go:189-203), like all the other calls (btree/threadsafe_find.go:21-76), so they all overlap.  The first item of a new
    owner is created under an exclusive lock (threadsafe_create.go:100-107; one of the executions below), and the owner is only removed under one
    (threadsafe_destroy.go:23-59, not modelled).  OneID() and ManyKeyValues() are set when the item is made (threadsafe_create.go:66-70); ManyID() when
    the CreateOrFind of the owner's tree has returned (:76, :93-96). *)
From Coq Require Import List Bool Arith.
Import ListNotations.
From Verif Require Import AssocSync SpecAssocSync.

(** What a callback is shown of the item x: ManyID(), if that is not empty, and ManyKeyValues() *)
Record shown := mkShown { sh_item : nat; sh_many : option nat; sh_kv : kvs }.
(** The owner's tree; manyID of every item (one_to_many_item.go:27); the calls that have returned from the one-to-many tree; what was shown so far *)
Record rel := mkRel { rl_tree : state; rl_many : nat -> option nat; rl_back : list nat; rl_shown : list shown }.
Definition rel0 : rel := mkRel (mkState empty_world []) (fun _ => None) [] [].
(** The calls of the one-to-many tree: threadsafe_create.go:76, threadsafe_delete.go:49, threadsafe_destroy.go:99 *)
Definition offered (c : call) : Prop := c = CFindCreate \/ (exists b, c = CDelete b) \/ exists x, c = CDestroy x.

Inductive rel_step (nils : bool) : rel -> rel -> Prop :=
| R_tree t t' many back seen : step nils true t t' -> (forall th, In th (st_threads t') -> offered (th_call th)) -> rel_step nils (mkRel t many back seen) (mkRel t' many back seen)
(* threadsafe_create.go:93-96 *)
| R_created t many back seen i kv x : answered i CFindCreate kv (RCreated x) t -> ~ In i back ->
    rel_step nils (mkRel t many back seen) (mkRel t (set_item many x (Some x)) (i :: back) seen)
| R_back t many back seen i c kv r : answered i c kv r t -> (forall x, r <> RCreated x) -> rel_step nils (mkRel t many back seen) (mkRel t many (i :: back) seen)
(* threadsafe_query.go:37-47, threadsafe_match.go:33-43: the callback runs while the item is read-locked (btree/threadsafe_find.go:85-110) *)
| R_show t many back seen x kv : passable (st_world t) x -> w_items (st_world t) x = Some kv ->
    rel_step nils (mkRel t many back seen) (mkRel t many back (seen ++ [mkShown x (many x) kv])).
(** Executions: the states gone through, newest first.  [nils]: onCreate may return nil *)
Inductive rel_exec (nils : bool) : list rel -> Prop :=
| RX_new : rel_exec nils [rel0]
| RX_step s s' tr : rel_exec nils (s :: tr) -> rel_step nils s s' -> rel_exec nils (s' :: s :: tr).
