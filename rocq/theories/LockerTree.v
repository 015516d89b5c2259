(** The lock manager with its tree of locks (exclusive_locker.go:38, :51): the steps of [Locker], each with the call it makes
    to the tree of [Assoc].  No proofs in this file. *)
From Coq Require Import List Bool Arith String.
From Verif Require Import Datatypes SpecValues Query Assoc SpecAssoc DestroySync Locker.
Import ListNotations.
Local Open Scope nat_scope.
Local Open Scope list_scope.

Section Tree.
Variable key_dec : forall a b : KeyValues, {a = b} + {a <> b}.
(** the id that the tree draws for a lock *)
Variable name : nat -> string.

(** What the callback of Delete answers (exclusive_lock.go:120-125, :203-209, :247-254): true when no client is left, which
    is when [drop_client] takes the lock out of [lm_cur] *)
Definition says (st' : locker KeyValues) (k : KeyValues) : bool := match lm_cur _ st' k with None => true | Some _ => false end.
(** ObtainLock (exclusive_locker.go:93); the Deletes of a lost client (:103), a release (:211, which finds the key-values of
    the id and deletes by them) and a timeout (:229), at the moment of their callbacks.  A refused release takes nothing out;
    heartbeats and LocksQuery only read. *)
Definition tree_after (st : locker KeyValues) (tree : atree nat) (e : option (lk_event KeyValues)) (st' : locker KeyValues) : atree nat :=
  match e with
  | Some (LJoin _ _ k) => fst (CreateOrFind tree k (name (lm_next _ st)) (Some (lm_next _ st)))
  | Some (LLost _ _ k) | Some (LRelease _ k _ _ true) | Some (LHandOn _ k) => fst (Delete tree k (fun _ => says st' k))
  | _ => tree
  end.
(** Key-values of a request: a Go map without NaN, validated by the handler.  [Locker] tells key-values apart by their
    spelling: a client is taken to spell those of a stored lock as the lock does. *)
Definition spelled (st : locker KeyValues) (e : option (lk_event KeyValues)) : Prop :=
  forall i k, e = Some (LJoin _ i k) -> kv_arg k /\ kv_valid k /\ forall k', lm_cur _ st k' <> None -> kv_same k' k -> k' = k.

(** Histories of the manager with its tree, newest event first *)
Inductive tree_exec (k0 : KeyValues) : list (nat * lk_event KeyValues) -> locker KeyValues -> atree nat -> Prop :=
| TE_init : tree_exec k0 [] (lm_init _ k0) (mkTree [] [])
| TE_step tr st tree e st' : tree_exec k0 tr st tree -> spelled st e -> lk_step _ key_dec st e st' ->
    tree_exec k0 (push (match e with Some e => Some (lm_now _ st, e) | None => None end) tr) st' (tree_after st tree e st').
End Tree.
(** somebody has asked for the lock of these key-values *)
Definition joined (tr : list (nat * lk_event KeyValues)) (k : KeyValues) : Prop := exists t i, In (t, LJoin _ i k) tr.
