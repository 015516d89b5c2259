(** What C93 talks about, read off a history of a server process (newest event first). *)
From Coq Require Import List Bool Arith.
From Verif Require Import ServerStop.
Import ListNotations.
Local Open Scope list_scope.

(** request [r] has begun *)
Definition begun (h : list event) (r : nat) : Prop := exists c, In (Begun r c) h.
(** request [r] is over: its handler has returned, or its client is gone and it has ended with it *)
Definition over (h : list event) (r : nat) : Prop := In (Answered r) h \/ In (Left r) h.
(** the handler of request [r] never returns *)
Definition stuck (s : process) (r : nat) : Prop := exists c, In (c, Busy r Stuck) (conns s).
(** a queue channel or a lock never ends *)
Definition jammed (s : process) : Prop := comp s = KJammed.
(** nothing is to happen but signals *)
Definition at_rest (v : server) (s : process) : Prop := forall w s', step v w s s' -> w = Signal.
