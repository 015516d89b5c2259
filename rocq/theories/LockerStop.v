(** Model of the lock manager that is told to stop (exclusive_locker.go:53-59, :69-87, exclusive_lock.go:138-157): the
    steps of [Locker], and those that the cancelled context adds.  No proofs in this file.

    The task manager (github.com/DanLavine/goasync) is not in the repository.  What is assumed of it: it cancels the
    context of every Execute when it is told to stop, and it may refuse new tasks from some moment after that on. *)
From Coq Require Import List Bool Arith String.
From Verif Require Import DestroySync Locker.
Import ListNotations.
Local Open Scope nat_scope.
Local Open Scope list_scope.

Section Stop.
Variable key : Type.
Variable key_dec : forall a b : key, {a = b} + {a <> b}.

(** Where an Execute is that [phase] has no word for; its phase is then [LStuck].
    [MRefused]: AddExecuteTask failed, but onCreate returned the lock to the tree all the same (exclusive_locker.go:75-86):
    its Execute never runs.  [MWait b]: the Execute has chosen ctx.Done() while a timeout was being processed and takes
    part in nothing but that timeout (exclusive_lock.go:143-145); [b] as in [LTimingOut] *)
Inductive mode := MNone | MRefused | MWait (begun : bool).
Record stopping := mkStop {
  s_lm : locker key;
  s_stop : bool;               (* the context is cancelled *)
  s_closed : bool;             (* the task manager refuses tasks *)
  s_mode : nat -> mode }.

Inductive st_event :=
| SEv (e : lk_event key)
| SStop                                   (* the locker is told to stop *)
| SAway (i : nat) (k : key).              (* ObtainLock of client i returns nil, the handler answers 503: try again *)

Definition st_init (k0 : key) : stopping := mkStop (lm_init key k0) false false (fun _ => MNone).
Definition with_lm (st : stopping) (l : locker key) : stopping := mkStop l (s_stop st) (s_closed st) (s_mode st).
Definition with_mode (st : stopping) (j : nat) (m : mode) : stopping :=
  mkStop (s_lm st) (s_stop st) (s_closed st) (upd_nat (s_mode st) j m).
(** onCreate with a refused task (exclusive_locker.go:69-87): nobody called GetClaimChannel *)
Definition with_refused (l : locker key) (k : key) : locker key :=
  mkLm key (lm_now key l) (S (lm_next key l)) (upd_nat (lm_lock key l) (lm_next key l) (mkLock key k LStuck 0))
       (upd_key key key_dec (lm_cur key l) k (Some (lm_next key l))) (lm_busy key l) (lm_beats key l) (lm_client key l) (lm_sess key l).
(** ObtainLock creates a lock: CreateOrFind calls onCreate *)
Definition creates (l : locker key) (e : option (lk_event key)) : Prop :=
  exists i k, e = Some (LJoin key i k) /\ lm_cur key l k = None.

Inductive st_step : stopping -> option st_event -> stopping -> Prop :=
| S_run st e l : lk_step key key_dec (s_lm st) e l -> (s_closed st = true -> ~ creates (s_lm st) e) ->
    st_step st (option_map SEv e) (with_lm st l)
| S_stop st : st_step st (Some SStop) (mkStop (s_lm st) true (s_closed st) (s_mode st))
| S_close st : s_stop st = true -> st_step st None (mkStop (s_lm st) true true (s_mode st))
(* exclusive_lock.go:140, :153, :156 with the deferred :100-104; the lock stays in the tree; the session id that
   LocksQuery reports for it from then on is not modelled *)
| S_end st j s d next tick : s_stop st = true -> l_ph key (lm_lock key (s_lm st) j) = LHeld s d next tick ->
    st_step st None (with_lm st (with_lock key (s_lm st) j (set_ph key LDone (lm_lock key (s_lm st) j))))
(* :140, :143 *)
| S_drain st j tick b : s_stop st = true -> l_ph key (lm_lock key (s_lm st) j) = LTimingOut tick b ->
    st_step st None (with_mode (with_lm st (with_lock key (s_lm st) j (set_ph key LStuck (lm_lock key (s_lm st) j)))) j (MWait b))
(* exclusive_locker.go:229 in the goroutine of exclusive_lock.go:238 *)
| S_drain_begin st j j' k : s_mode st j = MWait false -> k = l_key key (lm_lock key (s_lm st) j) ->
    lm_busy key (s_lm st) k = None -> lm_beats key (s_lm st) k = [] -> lm_cur key (s_lm st) k = Some j' ->
    st_step st None (with_mode (with_lm st (with_busy key key_dec (s_lm st) k (Some (DTime j')))) j (MWait true))
(* exclusive_locker.go:233 with exclusive_lock.go:145-152, :156 *)
| S_drain_done st j b k : lm_busy key (s_lm st) k = Some (DTime j) -> s_mode st j = MWait b ->
    st_step st (Some (SEv (LHandOn key k))) (with_mode (with_lm st (drop_client key key_dec (s_lm st) k j LDone)) j MNone)
(* exclusive_locker.go:75-86 and :108-113: the channel the client was given is closed *)
| S_refused st i k : s_closed st = true -> lm_client key (s_lm st) i = CNew -> lm_busy key (s_lm st) k = None ->
    lm_cur key (s_lm st) k = None ->
    st_step st (Some (SAway i k))
      (with_mode (with_lm st (with_client key (with_refused (s_lm st) k) i CEnd)) (lm_next key (s_lm st)) MRefused)
(* :108-113, the claim channel was closed at exclusive_lock.go:102 *)
| S_away st i j d : lm_client key (s_lm st) i = CWait j d -> l_ph key (lm_lock key (s_lm st) j) = LDone ->
    st_step st (Some (SAway i (l_key key (lm_lock key (s_lm st) j)))) (with_lm st (with_client key (s_lm st) i CEnd)).

(** What can happen from a state on, with the time of each event, newest first *)
Inductive st_run (st0 : stopping) : list (nat * st_event) -> stopping -> Prop :=
| SR_init : st_run st0 [] st0
| SR_step tr st e st' : st_run st0 tr st -> st_step st e st' ->
    st_run st0 (push (match e with Some e => Some (lm_now key (s_lm st), e) | None => None end) tr) st'.
Definition st_exec (k0 : key) : list (nat * st_event) -> stopping -> Prop := st_run (st_init k0).
End Stop.
