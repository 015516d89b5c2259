(** Specification vocabulary for concurrent increments. *)
From Verif Require Import Datatypes SpecValues Query SpecQuery Assoc SpecAssoc OneToMany SpecOneToMany Limiter SpecLimiter LimiterLocks.
Local Open Scope Z_scope.

(** All executions. *)
Inductive creach : cstate -> Prop :=
| CR_new : creach (mkC empty_limiter [] [])
| CR_step st l st' : creach st -> cstep st l st' -> creach st'.

Definition finished (th : thread) : Prop := exists a, th_at th = PDone a.
(** thread [i] waits for a lock that thread [j] holds *)
Definition waits_for (st : cstate) (i j : nat) : Prop :=
  exists thi thj limits k todo, nth_error (c_threads st) i = Some thi /\ nth_error (c_threads st) j = Some thj /\ i <> j /\
    th_at thi = PLock limits (k :: todo) /\ locks thj (th_kv thi) k.

(** Executions in which every increment of a group is at most [most], finds the group's limit when it reads the limits,
    no lock is lost, no sum overflows when it is checked, and other requests do not raise the group's counters. *)
Inductive crun (g kv : KeyValues) (limit most : Z) : cstate -> Prop :=
| CRN_start s used : lreach s used ->
    (forall i, In i (a_items (l_counts s)) -> in_group g kv (it_kv i) -> 0 < it_val i) ->
    (forall total, group_total s g kv total -> total <= limit + most - 1) -> crun g kv limit most (mkC s used [])
| CRN_step st l st' : crun g kv limit most st -> cstep st l st' ->
    (forall kv' n, l = CArrive kv' n -> in_group g kv kv' -> n <= most) ->
    (forall i k, l <> CLose i k) ->
    (forall i id th, l = CThread i id -> nth_error (c_threads st) i = Some th -> in_group g kv (th_kv th) -> th_at th = PStart -> governs (c_lim st) (th_kv th) g limit) ->
    (forall i id th limits, l = CThread i id -> nth_error (c_threads st) i = Some th -> in_group g kv (th_kv th) -> th_at th = PCheck limits -> counts_fit (c_lim st)) ->
    (forall kv' n id, l = CEnv (LSet kv' n id) -> ~ in_group g kv kv') ->
    crun g kv limit most st'.

(** [n] steps of threads, no increment arriving and no other request or loss of a lock in between. *)
Inductive thread_steps : nat -> cstate -> cstate -> Prop :=
| TH_none st : thread_steps 0 st st
| TH_step n st st1 st2 i id : thread_steps n st st1 -> cstep st1 (CThread i id) st2 -> thread_steps (S n) st st2.
