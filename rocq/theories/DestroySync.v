(** Model of pkg/async/destroy.go: DestroySync over sync.RWMutex and atomic.Bool, for any number of goroutines.
    No proofs in this file.

    sync.RWMutex (Go standard library) is modelled by its documented behaviour: TryRLock succeeds unless a writer holds
    or awaits the lock; Lock first announces itself, then waits for the readers there are.  A thread of the model is one
    call: a goroutine that guards twice (DeleteByAssociatedID does) counts as two.  Threads clear only what they were
    admitted to, as the interface demands; anything else panics in Go and is not modelled. *)
From Coq Require Import List Bool Arith.
Import ListNotations.

(** What is observable: a call's return, in the order they happen *)
Inductive sync_event :=
| EvGuard (i : nat) (ok : bool)     (* GuardOperation returned ok *)
| EvClear (i : nat)                 (* ClearOperation *)
| EvBegin (i : nat)                 (* WaitDestroy won the flag; it has not returned *)
| EvWait (i : nat) (ok : bool)      (* WaitDestroy returned ok *)
| EvRelease (i : nat)               (* ClearDestroy released the lock; it has not returned *)
| EvCleared (i : nat).              (* ClearDestroy returned *)

Inductive sync_thread := SIdle | SOp | SWon | SPending | SDestroying | SReleased.
Inductive sync_writer := WNone | WPending | WHeld.
(** destroy.go:28-31; the RWMutex is its number of readers and its writer *)
Record sync_state := mkSync { sy_readers : nat; sy_writer : sync_writer; sy_flag : bool; sy_thread : nat -> sync_thread }.

Definition sync_init : sync_state := mkSync 0 WNone false (fun _ => SIdle).
Definition set_thread (f : nat -> sync_thread) (i : nat) (x : sync_thread) : nat -> sync_thread :=
  fun j => if Nat.eqb j i then x else f j.

Inductive sync_step : sync_state -> option sync_event -> sync_state -> Prop :=
(* :40-42 GuardOperation *)
| Y_guard_ok r fl th i : th i = SIdle ->
    sync_step (mkSync r WNone fl th) (Some (EvGuard i true)) (mkSync (S r) WNone fl (set_thread th i SOp))
| Y_guard_no r w fl th i : th i = SIdle -> w <> WNone ->
    sync_step (mkSync r w fl th) (Some (EvGuard i false)) (mkSync r w fl th)
(* :44-46 ClearOperation *)
| Y_clear r w fl th i : th i = SOp ->
    sync_step (mkSync r w fl th) (Some (EvClear i)) (mkSync (r - 1) w fl (set_thread th i SIdle))
(* :48-51 the compare-and-swap of WaitDestroy *)
| Y_cas_no r w th i : th i = SIdle ->
    sync_step (mkSync r w true th) (Some (EvWait i false)) (mkSync r w true th)
| Y_cas_ok r w th i : th i = SIdle ->
    sync_step (mkSync r w false th) (Some (EvBegin i)) (mkSync r w true (set_thread th i SWon))
(* :53 Lock announces itself ... *)
| Y_announce r fl th i : th i = SWon ->
    sync_step (mkSync r WNone fl th) None (mkSync r WPending fl (set_thread th i SPending))
(* ... and gets the lock when there are no readers; :55 *)
| Y_acquire w fl th i : th i = SPending ->
    sync_step (mkSync 0 w fl th) (Some (EvWait i true)) (mkSync 0 WHeld fl (set_thread th i SDestroying))
(* :58-59 ClearDestroy *)
| Y_unlock r w fl th i : th i = SDestroying ->
    sync_step (mkSync r w fl th) (Some (EvRelease i)) (mkSync r WNone fl (set_thread th i SReleased))
(* :60-61 *)
| Y_store r w fl th i : th i = SReleased ->
    sync_step (mkSync r w fl th) (Some (EvCleared i)) (mkSync r w false (set_thread th i SIdle)).

(** Histories, newest event first *)
Definition push {E} (e : option E) (tr : list E) : list E := match e with Some e => e :: tr | None => tr end.
Inductive sync_exec : list sync_event -> sync_state -> Prop :=
| YE_init : sync_exec [] sync_init
| YE_step tr st e st' : sync_exec tr st -> sync_step st e st' -> sync_exec (push e tr) st'.
