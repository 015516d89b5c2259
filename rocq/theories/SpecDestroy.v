(** Specification vocabulary for destroying keys and whole trees. *)
From Coq Require Import Permutation.
From Verif Require Import Datatypes SpecValues BTree SpecBTree BTreeDestroy.
Local Open Scope nat_scope.

Section Spec.
  Context {V : Type}.
  Definition call_good (c : call V) : Prop := forall k, check_key c = Some k -> good k.

  (** All executions of any number of calls, interleaved in any way. *)
  Inductive reachable (n : nat) : dstate V -> Prop :=
  | R_init : reachable n initial
  | R_step s l s' : reachable n s -> step n s l s' -> Forall (fun t => call_good (t_call t)) (d_threads s') -> reachable n s'.

  (** [t] is a Destroy of [k] that has begun (recorded its key) and not ended. *)
  Definition destroying_key (t : thread V) (k : EV) : Prop :=
    exists can, t_call t = KDestroy k can /\ (t_phase t = PReady \/ t_phase t = PApplied).
  (** [t] is a DestroyAll at work on the tree. *)
  Definition destroying_all (t : thread V) : Prop :=
    exists can, t_call t = KDestroyAll can /\ (t_phase t = PReady \/ t_phase t = PApplied).
End Spec.

(** Any number of steps, with what they showed. *)
Inductive steps {V} (n : nat) : dstate V -> list label -> dstate V -> Prop :=
| St_nil s : steps n s [] s
| St_cons s l s1 tr s2 : step n s l s1 -> Forall (fun t => call_good (t_call t)) (d_threads s1) ->
    steps n s1 tr s2 -> steps n s (l :: tr) s2.

(** What a call may do to the set of entries. *)
Definition call_means {V} (c : call V) (before after : list (EV * V)) : Prop :=
  match c with
  | KCreate k v | KCreateOrFind k v => map_step before (OCreate k v) after
  | KFind _ | KLookup => after = before
  | KDelete k can | KDestroy k can => map_step before (ODelete k can) after
  | KDestroyAll can => exists removed,
      Forall (fun e => can (fst e) (snd e) = true) removed /\ Permutation before (removed ++ after) /\
      (after = [] \/ exists k v, In (k, v) after /\ can k v = false)
  end.
