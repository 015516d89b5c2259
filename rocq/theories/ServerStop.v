(** Model of a server process from the moment its tasks run to its end: what
    /repo/cmd/willow/main.go:38-41 and :88-119, cmd/limiter/main.go:35-38 and :99-111, cmd/locker/main.go:28-53 set going,
    the Execute of /repo/internal/willow/api/willow_tcp.go:80-140 (internal/limiter/api/limiter_tcp.go:81-140 and
    internal/locker/api/locker_server_tcp.go:79-140 have the same text but for names),
    /repo/internal/willow/brokers/queue_channels/queue_channels_client_local.go:65-83 and
    /repo/internal/locker/lock_manager/exclusive_locker.go:53-59.

    Not in the repository, and assumed here:
    - os/signal: NotifyContext cancels its context at the first SIGINT; until its stop function is called (main.go:41, a defer)
      later ones are swallowed too.
    - net/http: while the listener works, connections are opened; on an idle one a request may begin, and its handler runs until it
      returns. Shutdown closes the listener, so ListenAndServe returns ErrServerClosed, closes idle connections, and returns when
      there is none left; it has no deadline here (context.Background()). A connection that has answered a request once Shutdown has
      begun is closed.
    - goasync, with StrictConfig: the context of the tasks is cancelled at the signal and when a task has returned; Run returns
      when all tasks have, and with the errors they returned. AddExecuteTask is refused once the context is cancelled.

    Simplifications: what a handler does is not modelled (the other models do that), only of which of three sorts it is: it ends by
    itself, it waits for something (an item, a lock) and for the word that the server stops, or it never ends. HTTP/2 is taken as
    one request at a time on each connection. *)
From Coq Require Import List Bool Arith.
Import ListNotations.
Local Open Scope list_scope.

(** The three programs: cmd/willow, cmd/limiter and cmd/locker *)
Inductive server := Willow | Limiter | Locker.

(** What a handler is doing. [Works]: it ends by itself.  [Waits]: a dequeue that waits for an item
    (queue_channels_client_local.go:254-277), a client that waits for a lock (exclusive_locker.go:98-112), an increment that waits
    for the locker (internal/limiter/api/v1/handlers/counters_handler.go:45-48).  [Stuck]: it never ends, as in C47, C48 and C92;
    a client that waits for a lock may be stuck at the stop too (C86). *)
Inductive doing := Works | Waits | Stuck.

(** A connection: idle, or with request [r] on it *)
Inductive conn := Idle | Busy (r : nat) (d : doing).

(** The listener inside ListenAndServe: works, has failed, or was closed by Shutdown *)
Inductive listener := LOpen | LFailed | LClosed.

(** The goroutine of willow_tcp.go:92-95: waits for the context, is inside Shutdown, holds its result (with an error or not) and
    waits for somebody to take it (shutdownErr has no buffer, :91), has handed it over *)
Inductive shutter := HWaits | HDrains (err : bool) | HHolds (err : bool) | HDone.

(** Execute itself, willow_tcp.go:80-140: inside ListenAndServe (:99, :115), at [<-shutdownErr] (:133), returned (with nil or not) *)
Inductive execute := XListens | XWaits | XReturned (nil : bool).

(** The other task: the queue channels client or the lock manager. Waiting for the context (queue_channels_client_local.go:75), has
    told those who wait (:78) and waits for its own tasks (:81), waits for one that never ends (a lock: C86; a queue channel that
    waits for the limiter, memory_queue_channel.go:183-325), returned *)
Inductive component := KWaits | KTells | KJammed | KReturned.

(** What can be seen of the process *)
Inductive event :=
| Asked                       (* a SIGINT *)
| Opened (c : nat)            (* a client connects *)
| Begun (r c : nat)           (* a request begins *)
| Answered (r : nat)          (* its handler has returned *)
| Left (r : nat)              (* its client has gone away and so it ends *)
| Closing                     (* the listener is closed: nobody can connect any more *)
| Broken                      (* accepting connections, or closing the listener, fails *)
| Ended (clean : bool).       (* the process ends: "Successfully shutdown" (main.go:119), or log.Fatal (:116) *)

Record process := mk {
  cancelled : bool;                       (* the context of the tasks *)
  conns : list (nat * conn);
  lis : listener;
  shut : shutter;
  exec : execute;
  comp : component;
  tasks : nat;                            (* the tasks of the component: queue channels, or locks *)
  ended : bool;
  hist : list event                       (* newest first *)
}.

(** main.go:90-115: everything has just been started. The limiter has one task only. *)
Definition start (v : server) : process :=
  mk false [] LOpen HWaits XListens (match v with Limiter => KReturned | _ => KWaits end) 0 false [].

(** Those who wait are told: by shutdownCancel in willow (queue_channels_client_local.go:78 and :224), by the locks, which end with
    the context (exclusive_locker.go:57, exclusive_lock.go:141), and in the limiter by the context itself (counters_handler.go:45) *)
Definition told (v : server) (s : process) : bool :=
  match v with Limiter => cancelled s | _ => match comp s with KWaits => false | _ => true end end.

(** willow_tcp.go:99-113 (and :115-129): what becomes of Execute when ListenAndServe returns. [closed]: the error is
    ErrServerClosed. *)
Definition after_listen (cancelled closed : bool) : execute :=
  if cancelled then if closed then XWaits else XReturned false else XReturned false.

Definition set_conns (s : process) (l : list (nat * conn)) (h : list event) : process :=
  mk (cancelled s) l (lis s) (shut s) (exec s) (comp s) (tasks s) (ended s) (h ++ hist s).

(** the connection after an answer: net/http keeps it unless Shutdown has begun *)
Definition after_answer (s : process) (c : nat) : list (nat * conn) :=
  match shut s with HWaits => [(c, Idle)] | _ => [] end.

(** Who moves: the process itself, the world around it, or somebody who sends SIGINT *)
Inductive mover := Server | World | Signal.

Inductive step (v : server) : mover -> process -> process -> Prop :=
| st_signal : forall s, ended s = false ->
    step v Signal s (mk true (conns s) (lis s) (shut s) (exec s) (comp s) (tasks s) (ended s) (Asked :: hist s))
| st_open : forall s c, ended s = false -> lis s = LOpen -> ~ In (Opened c) (hist s) ->
    step v World s (set_conns s ((c, Idle) :: conns s) [Opened c])
| st_begin : forall s l1 l2 c r d, ended s = false -> conns s = l1 ++ (c, Idle) :: l2 -> d <> Stuck ->
    (forall c', ~ In (Begun r c') (hist s)) ->
    step v World s (set_conns s (l1 ++ (c, Busy r d) :: l2) [Begun r c])
| st_hang_up : forall s l1 l2 c, ended s = false -> conns s = l1 ++ (c, Idle) :: l2 ->
    step v World s (set_conns s (l1 ++ l2) [])
(* the handler of a request that waits sees r.Context() done *)
| st_leave : forall s l1 l2 c r, ended s = false -> conns s = l1 ++ (c, Busy r Waits) :: l2 ->
    step v World s (set_conns s (l1 ++ l2) [Left r])
| st_answer : forall s l1 l2 c r, ended s = false -> conns s = l1 ++ (c, Busy r Works) :: l2 ->
    step v Server s (set_conns s (l1 ++ after_answer s c ++ l2) [Answered r])
(* there is an item, or the lock is free *)
| st_served : forall s l1 l2 c r, ended s = false -> conns s = l1 ++ (c, Busy r Waits) :: l2 ->
    step v World s (set_conns s (l1 ++ after_answer s c ++ l2) [Answered r])
(* queue_channels_client_local.go:269-277, exclusive_locker.go:111-112 *)
| st_told : forall s l1 l2 c r, ended s = false -> conns s = l1 ++ (c, Busy r Waits) :: l2 -> told v s = true ->
    step v Server s (set_conns s (l1 ++ after_answer s c ++ l2) [Answered r])
| st_stick : forall s l1 l2 c r d, ended s = false -> conns s = l1 ++ (c, Busy r d) :: l2 -> d <> Stuck ->
    step v World s (set_conns s (l1 ++ (c, Busy r Stuck) :: l2) [])
| st_break : forall s, ended s = false -> lis s = LOpen ->
    step v World s (mk (cancelled s) (conns s) LFailed (shut s) (exec s) (comp s) (tasks s) (ended s) (Broken :: hist s))
(* willow_tcp.go:93-94: Shutdown is called; if the listener cannot be closed it says so at the end *)
| st_shutdown : forall s, ended s = false -> cancelled s = true -> shut s = HWaits ->
    step v Server s (mk (cancelled s) (conns s) (match lis s with LFailed => LFailed | _ => LClosed end) (HDrains false) (exec s)
                   (comp s) (tasks s) (ended s) (Closing :: hist s))
| st_shutdown_error : forall s, ended s = false -> cancelled s = true -> shut s = HWaits ->
    step v World s (mk (cancelled s) (conns s) (match lis s with LFailed => LFailed | _ => LClosed end) (HDrains true) (exec s)
                   (comp s) (tasks s) (ended s) (Broken :: Closing :: hist s))
| st_close_idle : forall s l1 l2 c e, ended s = false -> shut s = HDrains e -> conns s = l1 ++ (c, Idle) :: l2 ->
    step v Server s (set_conns s (l1 ++ l2) [])
| st_drained : forall s e, ended s = false -> shut s = HDrains e -> conns s = [] ->
    step v Server s (mk (cancelled s) (conns s) (lis s) (HHolds e) (exec s) (comp s) (tasks s) (ended s) (hist s))
| st_listen : forall s, ended s = false -> exec s = XListens -> lis s <> LOpen ->
    step v Server s (mk (cancelled s) (conns s) (lis s) (shut s)
                   (after_listen (cancelled s) (match lis s with LClosed => true | _ => false end))
                   (comp s) (tasks s) (ended s) (hist s))
(* willow_tcp.go:133-139 *)
| st_receive : forall s e, ended s = false -> exec s = XWaits -> shut s = HHolds e ->
    step v Server s (mk (cancelled s) (conns s) (lis s) HDone (XReturned (negb e)) (comp s) (tasks s) (ended s) (hist s))
(* StrictConfig: a task that has returned cancels the others *)
| st_strict : forall s b, ended s = false -> exec s = XReturned b -> cancelled s = false ->
    step v Server s (mk true (conns s) (lis s) (shut s) (exec s) (comp s) (tasks s) (ended s) (hist s))
(* queue_channels_client_local.go:75-78 *)
| st_tell : forall s, ended s = false -> cancelled s = true -> comp s = KWaits ->
    step v Server s (mk (cancelled s) (conns s) (lis s) (shut s) (exec s) KTells (tasks s) (ended s) (hist s))
| st_jam : forall s, ended s = false -> comp s = KTells ->
    step v World s (mk (cancelled s) (conns s) (lis s) (shut s) (exec s) KJammed (tasks s) (ended s) (hist s))
(* a queue channel or a lock is made by a request, and ends *)
| st_task_new : forall s, ended s = false -> cancelled s = false -> comp s <> KReturned ->
    step v World s (mk (cancelled s) (conns s) (lis s) (shut s) (exec s) (comp s) (S (tasks s)) (ended s) (hist s))
| st_task_end : forall s n, ended s = false -> tasks s = S n ->
    step v Server s (mk (cancelled s) (conns s) (lis s) (shut s) (exec s) (comp s) n (ended s) (hist s))
(* queue_channels_client_local.go:81-83 *)
| st_comp_return : forall s, ended s = false -> comp s = KTells -> tasks s = 0 ->
    step v Server s (mk (cancelled s) (conns s) (lis s) (shut s) (exec s) KReturned (tasks s) (ended s) (hist s))
(* main.go:115-119: Run returns when both tasks have; without an error the process ends in order *)
| st_end : forall s b, ended s = false -> exec s = XReturned b -> comp s = KReturned ->
    step v Server s (mk (cancelled s) (conns s) (lis s) (shut s) (exec s) (comp s) (tasks s) true (Ended b :: hist s)).

(** from one state to another in [n] steps, signals not counted *)
Inductive path (v : server) : nat -> process -> process -> Prop :=
| path_nil : forall s, path v 0 s s
| path_signal : forall n s1 s2 s3, path v n s1 s2 -> step v Signal s2 s3 -> path v n s1 s3
| path_step : forall n s1 s2 s3 w, path v n s1 s2 -> w <> Signal -> step v w s2 s3 -> path v (S n) s1 s3.
(** from one state to another *)
Definition runs (v : server) (s s' : process) : Prop := exists n, path v n s s'.
