(** Model of internal/heartbeater/heartbeater.go: one Execute goroutine, any number of concurrent calls, and time.
    No proofs in this file.

    Time is a number of nanoseconds; it passes between steps as it likes, so every goroutine may be arbitrarily slow.
    time.Ticker is that of go 1.22 (go.mod): the channel buffers one tick and Reset does not drain it.  The timeout is
    positive (NewTicker panics otherwise).  lastHeartbeat, which only GetLastHeartbeat reads, is not modelled. *)
From Coq Require Import List Bool Arith.
From Verif Require Import DestroySync.
Import ListNotations.

Inductive hb_event :=
| HAsk (i : nat)                 (* Start called for the first time *)
| HStart (i : nat) (ok : bool)   (* Start returned ok *)
| HStop (i : nat) (ok : bool)    (* Stop returned ok *)
| HBeat (i : nat) (ok : bool)    (* Heartbeat returned ok *)
| HTimeout                       (* Execute calls onTimeout *)
| HShutdown.                     (* Execute calls onShutdown *)

(** where Execute is: before :81, in the loop :90 (next tick due, a tick is buffered), returned but the deferred close
    of doneChan (:78) has not run, done *)
Inductive hb_phase := HInit | HRun (next : nat) (tick : bool) | HRet | HDone.
Inductive hb_call := NoCall | PStart | PStop | PBeat.
Record hb_state := mkHb { hb_now : nat; hb_ph : hb_phase; hb_started : bool; hb_down : bool; hb_calls : nat -> hb_call }.
Definition set_call (f : nat -> hb_call) (i : nat) (x : hb_call) : nat -> hb_call := fun j => if Nat.eqb j i then x else f j.
(** :57-74 New *)
Definition hb_init : hb_state := mkHb 0 HInit false false (fun _ => NoCall).

Section Heartbeater.
Variable timeout : nat.
Inductive hb_step : hb_state -> option hb_event -> hb_state -> Prop :=
| B_time n d ph s w c : hb_step (mkHb n ph s w c) None (mkHb (n + d) ph s w c)
(* the context of Execute is cancelled *)
| B_cancel n ph s w c : hb_step (mkHb n ph s w c) None (mkHb n ph s true c)
(* the runtime's ticker *)
| B_fire n next tick s w c : next <= n ->
    hb_step (mkHb n (HRun next tick) s w c) None (mkHb n (HRun (next + timeout) true) s w c)
(* :135-146 Start *)
| B_start_call n ph w c i : c i = NoCall ->
    hb_step (mkHb n ph false w c) (Some (HAsk i)) (mkHb n ph true w (set_call c i PStart))
| B_start_again n ph w c i : c i = NoCall ->
    hb_step (mkHb n ph true w c) (Some (HStart i false)) (mkHb n ph true w c)
| B_start_done n s w c i : c i = PStart ->
    hb_step (mkHb n HDone s w c) (Some (HStart i false)) (mkHb n HDone s w (set_call c i NoCall))
(* :81-88 with :138 *)
| B_start n s w c i : c i = PStart ->
    hb_step (mkHb n HInit s w c) (Some (HStart i true)) (mkHb n (HRun (n + timeout) false) s w (set_call c i NoCall))
(* :123-132 Stop *)
| B_stop_call n ph s w c i : c i = NoCall -> hb_step (mkHb n ph s w c) None (mkHb n ph s w (set_call c i PStop))
| B_stop_done n s w c i : c i = PStop ->
    hb_step (mkHb n HDone s w c) (Some (HStop i false)) (mkHb n HDone s w (set_call c i NoCall))
(* :83-84 and :99-101 with :125 *)
| B_stop_init n s w c i : c i = PStop ->
    hb_step (mkHb n HInit s w c) (Some (HStop i true)) (mkHb n HRet s w (set_call c i NoCall))
| B_stop_run n next tick s w c i : c i = PStop ->
    hb_step (mkHb n (HRun next tick) s w c) (Some (HStop i true)) (mkHb n HRet s w (set_call c i NoCall))
(* :152-161 Heartbeat *)
| B_beat_call n ph s w c i : c i = NoCall -> hb_step (mkHb n ph s w c) None (mkHb n ph s w (set_call c i PBeat))
| B_beat_done n s w c i : c i = PBeat ->
    hb_step (mkHb n HDone s w c) (Some (HBeat i false)) (mkHb n HDone s w (set_call c i NoCall))
(* :107-110 with :154: the ticker restarts; a buffered tick stays *)
| B_beat n next tick s w c i : c i = PBeat ->
    hb_step (mkHb n (HRun next tick) s w c) (Some (HBeat i true)) (mkHb n (HRun (n + timeout) tick) s w (set_call c i NoCall))
(* :92-98 *)
| B_shutdown n next tick s c :
    hb_step (mkHb n (HRun next tick) s true c) (Some HShutdown) (mkHb n HRet s true c)
(* :102-106 *)
| B_timeout n next s w c :
    hb_step (mkHb n (HRun next true) s w c) (Some HTimeout) (mkHb n HRet s w c)
(* :78 *)
| B_close n s w c : hb_step (mkHb n HRet s w c) None (mkHb n HDone s w c).

(** Histories with the time of each event, newest first *)
Inductive hb_exec : list (nat * hb_event) -> hb_state -> Prop :=
| BE_init : hb_exec [] hb_init
| BE_step tr st e st' : hb_exec tr st -> hb_step st e st' ->
    hb_exec (push (match e with Some e => Some (hb_now st, e) | None => None end) tr) st'.
End Heartbeater.
