(** What concurrent calls of one tree should look like from outside: a map from keys to values that serves the
    calls one at a time.  Independent of the tree's algorithms. *)
From Coq Require Import Permutation.
From Verif Require Import Datatypes SpecValues SpecBTree BTreeSync.
Local Open Scope nat_scope.

(** One call on the map: the call, its answer, the map before and after *)
Inductive call_step {V} : list (EV * V) -> cop V -> ans V -> list (EV * V) -> Prop :=
| CS_create c c' k v : not_stored c k -> Permutation c' ((k, v) :: c) -> call_step c (KCreate k v) ACreated c'
| CS_exists c k v v0 : stored c k v0 -> call_step c (KCreate k v) (AExists v0) c
| CS_make c c' k v : not_stored c k -> Permutation c' ((k, v) :: c) -> call_step c (KCreateOrFind k v) ACreated c'
| CS_use c k v v0 : stored c k v0 -> call_step c (KCreateOrFind k v) (AExists v0) c
| CS_absent c k can : not_stored c k -> call_step c (KDelete k can) (AAsked None) c
| CS_veto c k k' v can : same_value k k' -> In (k', v) c -> can k' v = false ->
    call_step c (KDelete k can) (AAsked (Some (k', v))) c
| CS_delete c c' k k' v can : same_value k k' -> can k' v = true -> Permutation c ((k', v) :: c') ->
    call_step c (KDelete k can) (AAsked (Some (k', v))) c'
| CS_found c k v : stored c k v -> call_step c (KFind k) (AFound (Some v)) c
| CS_missing c k : not_stored c k -> call_step c (KFind k) (AFound None) c.

Inductive call_run {V} : list (EV * V) -> list (cop V * ans V) -> list (EV * V) -> Prop :=
| CR_nil c : call_run c [] c
| CR_cons c c' c'' o a l : call_step c o a c' -> call_run c' l c'' -> call_run c ((o, a) :: l) c''.

Section Lin.
  Context {V : Type}.
  Variable ops : nat -> cop V.

  (** [x] stands before [y] in [l] *)
  Definition before {A} (x y : A) (l : list A) : Prop := exists l1 l2 l3, l = l1 ++ x :: l2 ++ y :: l3.

  (** [order] is a sequential explanation of the calls and returns [tr], which leaves the map [final]: it has
      every call at most once, only calls that were made, every call that returned with the answer it returned
      with, a call that returned before another was made stands before it, and serving the calls in this order
      on a map that is empty at first gives exactly these answers. *)
  Definition explains (tr : list (event V)) (order : list (nat * ans V)) (final : list (EV * V)) : Prop :=
    NoDup (map fst order) /\
    (forall c a, In (c, a) order -> In (ECall c) tr) /\
    (forall c a, In (EReturn c a) tr -> In (c, a) order) /\
    (forall tr1 tr2 c a d b, tr = tr1 ++ ECall d :: tr2 -> In (EReturn c a) tr1 -> In (d, b) order ->
       before (c, a) (d, b) order) /\
    call_run [] (map (fun x => (ops (fst x), snd x)) order) final.

  (** Every call that was made has returned. *)
  Definition all_returned (tr : list (event V)) : Prop :=
    forall c, In (ECall c) tr -> exists a, In (EReturn c a) tr.

  (** The keys of the calls are legal values that are not NaN. *)
  Definition good_calls : Prop :=
    forall c, good (match ops c with KCreate k _ => k | KDelete k _ => k | KFind k => k | KCreateOrFind k _ => k end).
End Lin.

(** ** Progress *)
Section Live.
  Context {V : Type}.
  Variable n : nat.
  Variable ops : nat -> cop V.

  (** Any step but a new call *)
  Definition goes_on (s s' : state V) : Prop := exists e, step n ops s e s' /\ forall c, e <> Some (ECall c).
  (** Every call that was made has returned. *)
  Definition all_back (s : state V) : Prop := forall c, ph s c = PNew \/ exists a, ph s c = PRet a.
  (** However the calls in progress are scheduled: somebody can always go on until [Q], and [Q] comes after
      finitely many steps. *)
  Inductive inevitably (Q : state V -> Prop) : state V -> Prop :=
  | inevitably_now s : Q s -> inevitably Q s
  | inevitably_later s : (exists s', goes_on s s') -> (forall s', goes_on s s' -> inevitably Q s') -> inevitably Q s.
End Live.
