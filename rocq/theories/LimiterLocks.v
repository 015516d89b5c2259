(** Model of concurrent increments (internal/limiter/counters/counter_client_local.go:75-231) and of the locks they take
    from the locker service.  No proofs in this file.  Simplifications: reading the limits, each check of a limit and
    the final update of the counters are single steps (each is one call on a tree); a lock of the locker service
    is exclusive per key and value until released or lost (C27-C29); requests of other kinds ([CEnv]) are single steps. *)
From Verif Require Import Datatypes Collections Query Assoc OneToMany Limiter SpecValues SpecLimiter.
Local Open Scope Z_scope.

(** Where an increment is: before step 1; obtaining the locks of the remaining keys; checking the remaining limits;
    before step 7; the deferred releases; finished. *)
Inductive progress :=
| PStart
| PLock (limits : list (list string * Z)) (todo : list string)
| PCheck (limits : list (list string * Z))
| PAdd
| PRelease (a : lanswer)
| PDone (a : lanswer).
(** [th_held]: the keys locked; [th_lost]: a lock was lost *)
Record thread := mkThread { th_kv : KeyValues; th_n : Z; th_at : progress; th_held : list string; th_lost : bool }.
Definition moved (th : thread) (p : progress) : thread := mkThread (th_kv th) (th_n th) p (th_held th) (th_lost th).
Record cstate := mkC { c_lim : limiter; c_used : list string; c_threads : list thread }.

(** the lock for a key and the value [kv] has for it is held by [th] *)
Definition locks (th : thread) (kv : KeyValues) (k : string) : Prop := In k (th_held th) /\ same_value (value_of (th_kv th) k) (value_of kv k).
(** the lock can be obtained by thread number [i] *)
Definition lock_free (threads : list thread) (i : nat) (kv : KeyValues) (k : string) : Prop :=
  forall j th, nth_error threads j = Some th -> j <> i -> ~ locks th kv k.

(** counter_client_local.go:79-118, steps 1 to 4 *)
Definition begin_at (s : limiter) (kv : KeyValues) : progress :=
  match FindLimits s kv with
  | None => PDone LFailed
  | Some [] => PAdd
  | Some rules =>
      if last_is_zero rules then PDone LConflict
      else if all_unlimited rules then PAdd
      else PLock (flat_map limits_of rules) (sorted_keys kv)
  end.
(** counter_client_local.go:199-227, step 6, one limit *)
Definition check_one (counts : atree Z) (kv : KeyValues) (limits : list (list string * Z)) : progress :=
  match limits with
  | [] => PAdd
  | (keys, limit) :: r =>
      if limit =? -1 then PCheck r
      else match checkCounters counts keys kv limit with
           | Some true => PCheck r
           | Some false => PRelease LConflict
           | None => PRelease LFailed
           end
  end.

(** One step of thread number [i], which draws the id [id] if it adds a counter *)
Inductive tstep (s : limiter) (threads : list thread) (i : nat) (id : string) (th : thread) : limiter -> thread -> Prop :=
| TS_start : th_at th = PStart -> tstep s threads i id th s (moved th (begin_at s (th_kv th)))
(* counter_client_local.go:130-167: the locks one after the other; a lost lock is noticed here, or by 169-190 *)
| TS_lock limits k todo : th_at th = PLock limits (k :: todo) -> th_lost th = false -> lock_free threads i (th_kv th) k ->
    tstep s threads i id th s (mkThread (th_kv th) (th_n th) (PLock limits todo) (k :: th_held th) (th_lost th))
| TS_locked limits : th_at th = PLock limits [] -> th_lost th = false -> tstep s threads i id th s (moved th (PCheck limits))
| TS_lost limits todo : th_at th = PLock limits todo -> th_lost th = true -> tstep s threads i id th s (moved th (PRelease LFailed))
| TS_check limits : th_at th = PCheck limits -> tstep s threads i id th s (moved th (check_one (l_counts s) (th_kv th) limits))
(* counter_client_local.go:230-246, step 7 *)
| TS_add : th_at th = PAdd ->
    tstep s threads i id th (with_counts s (fst (add_count (l_counts s) (th_kv th) (th_n th) id)))
      (moved th (PRelease (snd (add_count (l_counts s) (th_kv th) (th_n th) id))))
(* counter_client_local.go:121-128: the locks are released one after the other *)
| TS_release a k r : th_at th = PRelease a -> th_held th = k :: r ->
    tstep s threads i id th s (mkThread (th_kv th) (th_n th) (PRelease a) r (th_lost th))
| TS_end a : th_at th = PRelease a -> th_held th = [] -> tstep s threads i id th s (moved th (PDone a)).

Definition set_thread (threads : list thread) (i : nat) (th : thread) : list thread := firstn i threads ++ th :: skipn (S i) threads.

(** Steps of the whole: an increment arrives (validated by the handler), a thread moves, another request is served,
    or a thread loses a lock. *)
Inductive clabel := CArrive (kv : KeyValues) (n : Z) | CThread (i : nat) (id : string) | CEnv (x : lop) | CLose (i : nat) (k : string).
Definition fresh (used : list string) (id : string) : Prop := ~ In id used /\ id <> EmptyString.
Inductive cstep : cstate -> clabel -> cstate -> Prop :=
| CS_arrive s used ts kv n : counter_kv kv -> int64 n -> 0 < n ->
    cstep (mkC s used ts) (CArrive kv n) (mkC s used (ts ++ [mkThread kv n PStart [] false]))
| CS_thread s used ts i id th s' th' : nth_error ts i = Some th -> fresh used id -> tstep s ts i id th s' th' ->
    cstep (mkC s used ts) (CThread i id) (mkC s' (id :: used) (set_thread ts i th'))
(* increments arrive as threads *)
| CS_env s used ts x : lop_arg x -> (forall id, lop_id x = Some id -> fresh used id) ->
    (forall kv n id locked, x = LUpsert kv n id locked -> n <= 0) ->
    cstep (mkC s used ts) (CEnv x) (mkC (fst (lrun s x)) (match lop_id x with Some id => id :: used | None => used end) ts)
| CS_lose s used ts i k th : nth_error ts i = Some th -> In k (th_held th) ->
    cstep (mkC s used ts) (CLose i k) (mkC s used (set_thread ts i (mkThread (th_kv th) (th_n th) (th_at th) (remove string_dec k (th_held th)) true))).
