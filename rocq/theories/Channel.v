(** Model of one queue channel: internal/willow/brokers/queue_channels/memory/memory_queue_channel.go (here "mqc") and
    memory_queue_channel_item.go (here "item").  No proofs in this file.

    The channel is used by any number of goroutines: requests (enqueue, ack, heartbeat), the forwarder (Execute), the
    client being served (dequeue and its two callbacks), one heartbeater per item handed out, and deletion.  A step of
    the model is one critical section of one of them; [qstep c o = None] says that the section cannot be entered now.
    A call that blocks for ever while it owns locks is kept in [held].

    Simplifications:
    - item ids are numbers; the generator (a uuid) never repeats one.
    - the limiter is reduced to its two counters for this channel: an increment is granted or refused as the operation
      says, a decrement below one removes the counter (Limiter.v, DecrementCounters).  Limiter errors on a decrement,
      on which the code panics, are not modelled.
    - the B-tree of items is a finite map (C06-C09) whose per-key operations exclude each other by item; in the code
      neighbouring items share a lock, so the code allows fewer interleavings.
    - the heartbeater of an item is reduced to its phase (Heartbeater.v). *)
From Coq Require Import String List Bool Arith NArith ZArith.
Import ListNotations.

Definition id := nat.
(** pkg/models/api/willow/v1/item.go:127-137 RetryPosition *)
Inductive position := Front | Back.
(** pkg/models/api/willow/v1/item.go:96-112 ItemProperties, all present after Validate (:114-145) *)
Record props := mkProps { p_data : string; p_upd : bool; p_max : N; p_pos : position; p_timeout : Z }.
(** item:22 heartbeatProcess: nil; created but not started (heartbeater.go:81); in its loop (:90); its timer went off and
    onTimeout is running (:104); ended by shutdown (:92-98) *)
Inductive phase := HbNone | HbCreated | HbRunning | HbFired | HbEnded.
(** item:10-23 *)
Record item := mkItem { it_props : props; it_count : N; it_hb : phase }.
(** item:25-38 newItem *)
Definition newItem (p : props) : item := mkItem p 0 HbNone.

(** Where the forwarder (mqc:143-338) and the dequeue call it waits for (mqc:590-746) are: waiting for the notifier
    (:163); offering to dequeue (:175); a client called dequeue (:594); the running counter was incremented (:606); the
    first waiting id was removed (:609); the item was given to the client and no callback has run (:663); the same for an
    item without contents, which the handler cannot send (item_handler.go:56-58, pkg/models/api/server.go:91-98), so that
    only the failure callback runs; the failure callback has decremented the counter (:704); waiting for the limit
    (:182-327); stopped (:329) *)
Inductive flight :=
| FIdle | FReady | FAsk | FTake | FTaken (i : id) | FSent (i : id) | FBlank (i : id) | FBack (i : id) | FLimited | FStopped.
(** Calls that are blocked for ever while they own the item's lock: ack (mqc:436), failed ack (mqc:490, which also owns
    itemsLock), heartbeat (mqc:756) *)
Inductive call := CAck | CFail | CBeat.
(** How far ForceDelete (mqc:110-139) is: not called; :114 done; :119; :123; DestroyAll entered (:137); done, or Delete
    (mqc:96-106) succeeded *)
Inductive removal := RNo | RClosed | REnq | RRun | RDestroying | RGone.

(** mqc:29-60; [wait] is itemIDsEnqueued, [tokens] the notifier's count, [enq] and [run] the limiter's two counters,
    [down]: the server is shutting down, [used]: ids generated so far *)
Record channel := mkChan {
  items : list (id * item); wait : list id; tokens : nat; fl : flight; enq : nat; run : nat;
  held : list (id * call); rem : removal; down : bool; dead : bool; used : list id }.

(** mqc:62-93 New, when the limiter's counters for these key-values stand at e and r *)
Definition newChannel (e r : nat) : channel := mkChan [] [] 0 FIdle e r [] RNo false false [].

Fixpoint get (i : id) (l : list (id * item)) : option item :=
  match l with [] => None | (j, x) :: t => if Nat.eqb i j then Some x else get i t end.
Fixpoint del (i : id) (l : list (id * item)) : list (id * item) :=
  match l with [] => [] | (j, x) :: t => if Nat.eqb i j then t else (j, x) :: del i t end.
Fixpoint put (i : id) (x : item) (l : list (id * item)) : list (id * item) :=
  match l with [] => [(i, x)] | (j, y) :: t => if Nat.eqb i j then (j, x) :: t else (j, y) :: put i x t end.
(** the id at the end of itemIDsEnqueued, and all but it *)
Definition last_id (l : list id) : option id := match rev l with [] => None | i :: _ => Some i end.

Definition set_items c x := mkChan x (wait c) (tokens c) (fl c) (enq c) (run c) (held c) (rem c) (down c) (dead c) (used c).
Definition set_wait c w n := mkChan (items c) w n (fl c) (enq c) (run c) (held c) (rem c) (down c) (dead c) (used c).
Definition set_fl c f := mkChan (items c) (wait c) (tokens c) f (enq c) (run c) (held c) (rem c) (down c) (dead c) (used c).
Definition set_enq c e := mkChan (items c) (wait c) (tokens c) (fl c) e (run c) (held c) (rem c) (down c) (dead c) (used c).
Definition set_run c r := mkChan (items c) (wait c) (tokens c) (fl c) (enq c) r (held c) (rem c) (down c) (dead c) (used c).
Definition set_held c h := mkChan (items c) (wait c) (tokens c) (fl c) (enq c) (run c) h (rem c) (down c) (dead c) (used c).
Definition set_rem c r := mkChan (items c) (wait c) (tokens c) (fl c) (enq c) (run c) (held c) r (down c) (dead c) (used c).
Definition set_down c := mkChan (items c) (wait c) (tokens c) (fl c) (enq c) (run c) (held c) (rem c) true (dead c) (used c).
Definition set_used c u := mkChan (items c) (wait c) (tokens c) (fl c) (enq c) (run c) (held c) (rem c) (down c) (dead c) u.
Definition crash c := mkChan (items c) (wait c) (tokens c) (fl c) (enq c) (run c) (held c) (rem c) (down c) true (used c).
Definition set_hb (x : item) (h : phase) : item := mkItem (it_props x) (it_count x) h.

(** The item's entry is not owned by a blocked call *)
Definition free (i : id) (c : channel) : bool := negb (existsb (fun h => Nat.eqb i (fst h)) (held c)).
(** itemsLock is not owned by a blocked call *)
Definition lockable (c : channel) : bool :=
  negb (existsb (fun h => match snd h with CFail => true | _ => false end) (held c)).
(** The channel is in the index of channels, not being removed: requests reach it.  They run under a read lock on its
    index entry, removal under the write lock (queue_channels_client_local.go:186, :296, :335, :96, :120, :307) *)
Definition indexed (c : channel) : bool := match rem c with RNo => true | _ => false end.
(** Operations on the tree of items fail, and their callers panic (btree/threadsafe_destroy.go:77) *)
Definition destroying (c : channel) : bool := match rem c with RDestroying => true | _ => false end.

(** What became of the item of a failed ack, a timeout or a failed delivery: no retries left; waiting again; thrown
    away for what is waiting; waiting in the place of item j; it was not being processed *)
Inductive fate := Dropped | Requeued | Superseded | Replaced (j : id) | Untouched.
Inductive qans :=
| AUnit
| AStored (i : id) | AUpdated (i : id) | AFull      (* enqueue: 201, 201, 409 *)
| AItem (i : id) (p : props) | ABlank | ALimited    (* dequeue: item i; an item without contents; try again *)
| AAcked | AFailed (f : fate) | ANotFound           (* ack: 200, 200, 404; AFailed also answers a timeout *)
| ABeat (ok : bool)                                 (* heartbeat: 200 or 404 *)
| ABack (i : id) (f : fate)                                (* failed delivery *)
| AWait                                             (* the call blocks and keeps its locks *)
| ACrash.                                           (* panic outside a request: the process ends *)

Inductive qop :=
| OEnqueue (p : props) (i : id) (ok : bool)  (* ok: the limiter grants the increment, if asked *)
| OReady | OAsk | ORun (ok : bool) | OTake | OCreate (added : bool) | OSuccess | OFailRun | OFailBack | ORecheck | OStop
| OAck (i : id) | ONack (i : id) | OBeat (i : id)
| OFire (i : id) | OTimeout (i : id) | OEnd (i : id)
| ODelete | OClose | OZeroEnq | OZeroRun | ODestroy | OWipe
| OShutdown.

(** mqc:363-367: an update keeps the timeout *)
Definition overwrite (x : item) (p : props) : item :=
  mkItem (mkProps (p_data p) (p_upd p) (p_max p) (p_pos p) (p_timeout (it_props x))) 0 (it_hb x).

(** mqc:341-413 Enqueue *)
Definition enqueue (c : channel) (p : props) (i : id) (ok : bool) : channel * qans :=
  let add :=
    (* :386-388 *)
    if negb ok then (c, AFull) else
    (* :391-410 *)
    (set_used (set_wait (set_items (set_enq c (S (enq c))) (put i (newItem p) (items c)))
                        (wait c ++ [i]) (S (tokens c))) (i :: used c), AStored i) in
  (* :350-381 *)
  match last_id (wait c) with
  | None => add
  | Some j =>
    match get j (items c) with
    | None => add
    | Some x => if p_upd (it_props x) then (set_items c (put j (overwrite x p) (items c)), AUpdated j) else add
    end
  end.

(** uint64 increment *)
Definition incr64 (n : N) : N := N.modulo (n + 1) (2 ^ 64).

(** mqc:471-573 failItem, once the heartbeater was stopped or has timed out: x is the item of i *)
Definition fail_item (c : channel) (i : id) (x : item) : channel * fate :=
  let c := set_run c (pred (run c)) in                                             (* :492-495 *)
  let x := mkItem (it_props x) (incr64 (it_count x)) HbNone in                     (* :501 *)
  if N.ltb (p_max (it_props x)) (it_count x) then                                  (* :504-512 *)
    (set_items (set_enq c (pred (enq c))) (del i (items c)), Dropped)
  else
    let c := set_items c (put i x (items c)) in
    match p_pos (it_props x) with
    | Front =>                                                                     (* :516-528 *)
      match wait c with
      | _ :: _ =>
        if p_upd (it_props x) then (set_items c (del i (items c)), Superseded)
        else (set_wait c (i :: wait c) (S (tokens c)), Requeued)
      | [] => (set_wait c [i] (S (tokens c)), Requeued)
      end
    | Back =>                                                                      (* :529-536, :547-570 *)
      match last_id (wait c) with
      | None => (set_wait c (wait c ++ [i]) (S (tokens c)), Requeued)
      | Some j =>
        match get j (items c) with
        | None => (c, Untouched)   (* items.Delete calls nothing back *)
        | Some y =>
          if p_upd (it_props y)
          then (set_items (set_wait c (removelast (wait c) ++ [i]) (tokens c)) (del j (items c)), Replaced j)
          else (set_wait c (wait c ++ [i]) (S (tokens c)), Requeued)
        end
      end
    end.

(** mqc:430-461 ACK of a processed item.  item:77-88 StopHeartbeater blocks while onTimeout runs *)
Definition ack (c : channel) (i : id) : channel * qans :=
  match get i (items c) with
  | None => (c, ANotFound)
  | Some x =>
    match it_hb x with
    | HbNone => (c, ANotFound)
    | HbEnded => (set_items c (put i (set_hb x HbNone) (items c)), ANotFound)
    | HbFired => (set_held c ((i, CAck) :: held c), AWait)
    | _ => (set_items (set_enq (set_run c (pred (run c))) (pred (enq c))) (del i (items c)), AAcked)
    end
  end.

(** mqc:462-466 ACK of a failed item, failItem with timedOut = false *)
Definition nack (c : channel) (i : id) : channel * qans :=
  match get i (items c) with
  | None => (c, ANotFound)
  | Some x =>
    match it_hb x with
    | HbNone => (c, AFailed Untouched)
    | HbEnded => (set_items c (put i (set_hb x HbNone) (items c)), AFailed Untouched)
    | HbFired => (set_held c ((i, CFail) :: held c), AWait)
    | _ => let (c, f) := fail_item c i x in (c, AFailed f)
    end
  end.

(** mqc:749-769 Heartbeat; item:90-99 and heartbeater.go:152-161 *)
Definition beat (c : channel) (i : id) : channel * qans :=
  match get i (items c) with
  | None => (c, ABeat false)
  | Some x =>
    match it_hb x with
    | HbNone | HbEnded => (c, ABeat false)
    | HbRunning => (c, ABeat true)
    | HbCreated | HbFired => (set_held c ((i, CBeat) :: held c), AWait)
    end
  end.

(** mqc:612-663 of dequeue, for the id that was taken; item:41-56 CreateHeartbeater panics if there is a heartbeater *)
Definition create (c : channel) (i : id) (added : bool) : channel * qans :=
  if destroying c then (crash c, ACrash) else
  match get i (items c) with
  | None => (set_fl c (FBlank i), ABlank)
  | Some x =>
    match it_hb x with
    | HbNone => (set_fl (set_items c (put i (set_hb x (if added then HbCreated else HbNone)) (items c))) (FSent i),
                 AItem i (it_props x))
    | _ => (crash c, ACrash)
    end
  end.

(** mqc:667-692 successfulDequeue; item:66-75 StartHeartbeater; heartbeater.go:87: NewTicker panics on a duration that
    is not positive *)
Definition success (c : channel) (i : id) : channel * qans :=
  if destroying c then (crash c, ACrash) else
  match get i (items c) with
  | Some x =>
    match it_hb x with
    | HbCreated => if Z.leb (p_timeout (it_props x)) 0 then (crash c, ACrash)
                   else (set_fl (set_items c (put i (set_hb x HbRunning) (items c))) FIdle, AUnit)
    | _ => (set_fl c FIdle, AUnit)
    end
  | None => (set_fl c FIdle, AUnit)
  end.

(** mqc:704-745 of failedDequeue *)
Definition fail_back (c : channel) (i : id) : channel * qans :=
  if destroying c then (crash c, ACrash) else
  match get i (items c) with
  | None => (set_fl c FIdle, ABack i Untouched)
  | Some x =>
    match it_hb x with
    | HbNone => (set_fl c FIdle, ABack i Untouched)
    | HbEnded => (set_fl (set_items c (put i (set_hb x HbNone) (items c))) FIdle, ABack i Untouched)
    | HbFired => (set_held c ((i, CFail) :: held c), AWait)
    | _ =>
      let c := set_fl c FIdle in
      let requeue := (set_wait (set_items c (put i (set_hb x HbNone) (items c))) (i :: wait c) (S (tokens c)), ABack i Requeued) in
      if p_upd (it_props x) then
        match wait c with
        | _ :: _ => (set_items (set_enq c (pred (enq c))) (del i (items c)), ABack i Superseded)
        | [] => requeue
        end
      else requeue
    end
  end.

(** the tail of onTimeout (mqc:643-648): failItem with timedOut = true *)
Definition time_out (c : channel) (i : id) : channel * qans :=
  if destroying c then (crash c, ACrash) else
  match get i (items c) with
  | None => (c, ANotFound)
  | Some x => let (c, f) := fail_item c i x in (c, AFailed f)
  end.

Definition guard (b : bool) (r : channel * qans) : option (channel * qans) := if b then Some r else None.
Definition is_phase (c : channel) (i : id) (h : phase) : bool :=
  match get i (items c) with
  | Some x => match it_hb x, h with
              | HbRunning, HbRunning | HbFired, HbFired => true
              | _, _ => false end
  | None => false
  end.

Definition qstep (c : channel) (o : qop) : option (channel * qans) :=
  if dead c then None else
  match o with
  | OEnqueue p i ok => guard (indexed c && lockable c && negb (existsb (Nat.eqb i) (used c))) (enqueue c p i ok)
  (* mqc:154-165 *)
  | OReady => match fl c, tokens c with
              | FIdle, S n => Some (set_fl (set_wait c (wait c) n) FReady, AUnit)
              | _, _ => None end
  (* mqc:167-175 *)
  | OAsk => match fl c with FReady => Some (set_fl c FAsk, AUnit) | _ => None end
  (* mqc:594-603 *)
  | ORun ok => match fl c with
               | FAsk => Some (if ok then (set_fl (set_run c (S (run c))) FTake, AUnit)
                               else (set_fl (set_wait c (wait c) (S (tokens c))) FLimited, ALimited))
               | _ => None end
  (* mqc:606-609: indexing an empty slice panics *)
  | OTake => match fl c with
             | FTake => guard (lockable c) (match wait c with
                                            | [] => (crash c, ACrash)
                                            | i :: w => (set_fl (set_wait c w (tokens c)) (FTaken i), AUnit) end)
             | _ => None end
  (* adding a task is refused only when shutting down *)
  | OCreate added => match fl c with FTaken i => guard (free i c && (added || down c)) (create c i added) | _ => None end
  | OSuccess => match fl c with FSent i => guard (free i c) (success c i) | _ => None end
  (* mqc:700-702 *)
  | OFailRun => match fl c with
                | FSent i | FBlank i => Some (set_fl (set_run c (pred (run c))) (FBack i), AUnit)
                | _ => None end
  | OFailBack => match fl c with FBack i => guard (lockable c && free i c) (fail_back c i) | _ => None end
  (* mqc:182-312 *)
  | ORecheck => match fl c with FLimited => Some (set_fl c FIdle, AUnit) | _ => None end
  (* mqc:155-162, :168-174, :314-326, :329-338 *)
  | OStop => match fl c with
             | FIdle | FReady | FLimited => guard (down c || negb (indexed c)) (set_fl c FStopped, AUnit)
             | _ => None end
  | OAck i => guard (indexed c && free i c) (ack c i)
  | ONack i => guard (indexed c && lockable c && free i c) (nack c i)
  | OBeat i => guard (indexed c && free i c) (beat c i)
  (* heartbeater.go:102-104 *)
  | OFire i => guard (is_phase c i HbRunning)
                 (match get i (items c) with
                  | Some x => (set_items c (put i (set_hb x HbFired) (items c)), AUnit) | None => (c, AUnit) end)
  | OTimeout i => guard (is_phase c i HbFired && lockable c && free i c) (time_out c i)
  (* heartbeater.go:92-98: the heartbeaters' context ends with the server's, or once the forwarder has stopped *)
  | OEnd i => guard (is_phase c i HbRunning && (down c || match fl c with FStopped => true | _ => false end))
                (match get i (items c) with
                 | Some x => (set_items c (put i (set_hb x HbEnded) (items c)), AUnit) | None => (c, AUnit) end)
  (* mqc:96-106 *)
  | ODelete => guard (indexed c && match held c with [] => true | _ => false end)
                 (match items c with [] => (set_rem c RGone, AUnit) | _ => (c, ANotFound) end)
  (* mqc:110-139 *)
  | OClose => guard (indexed c && match held c with [] => true | _ => false end) (set_rem c RClosed, AUnit)
  | OZeroEnq => match rem c with RClosed => Some (set_enq (set_rem c REnq) 0, AUnit) | _ => None end
  | OZeroRun => match rem c with REnq => Some (set_run (set_rem c RRun) 0, AUnit) | _ => None end
  | ODestroy => match rem c with RRun => Some (set_rem c RDestroying, AUnit) | _ => None end
  (* StopHeartbeater waits for a running onTimeout *)
  | OWipe => match rem c with
             | RDestroying => guard (forallb (fun e => match it_hb (snd e) with HbFired => false | _ => true end) (items c))
                                (set_items (set_rem c RGone) [], AUnit)
             | _ => None end
  | OShutdown => Some (set_down c, AUnit)
  end.

(** Histories from a new channel, newest first, with what each step answered *)
Inductive qexec (c0 : channel) : list (qop * qans) -> channel -> Prop :=
| QE_init : qexec c0 [] c0
| QE_step tr c o a c' : qexec c0 tr c -> qstep c o = Some (c', a) -> qexec c0 ((o, a) :: tr) c'.
