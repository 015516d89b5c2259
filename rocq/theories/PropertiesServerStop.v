(** * C93 - A server that is told to stop answers what it has begun, and then ends *)
From Coq Require Import List Bool Arith.
From Verif Require Import ServerStop SpecServerStop ServerStopProps.
Import ListNotations.
Local Open Scope list_scope.

(** A process that ends in order was asked to, nothing broke, and every request that had begun is over. *)
Theorem C93_in_order : forall v s, runs v (start v) s -> In (Ended true) (hist s) ->
  In Asked (hist s) /\ ~ In Broken (hist s) /\ forall r, begun (hist s) r -> over (hist s) r.
Proof. exact ends_clean. Qed.
Print Assumptions C93_in_order.

(** It ends otherwise only when the listener broke. *)
Theorem C93_not_in_order : forall v s, runs v (start v) s -> In (Ended false) (hist s) -> In Broken (hist s).
Proof. exact ends_failed. Qed.
Print Assumptions C93_not_in_order.

(** In order or not, it ends after its component and all the component's tasks (queue channels, locks). *)
Theorem C93_tasks : forall v s b, runs v (start v) s -> In (Ended b) (hist s) -> comp s = KReturned /\ tasks s = 0.
Proof. exact ends_settled. Qed.
Print Assumptions C93_tasks.

(** Its end is the last that is seen of it. *)
Theorem C93_last : forall v s b l1 l2, runs v (start v) s -> hist s = l1 ++ Ended b :: l2 ->
  l1 = [] /\ forall w s', ~ step v w s s'.
Proof. exact ends_last. Qed.
Print Assumptions C93_last.

(** Once asked, it can always do something by itself until it has ended, unless a handler or a task never ends. Dequeues and clients of locks
    that wait are no hindrance: nobody has to serve them, and they need not leave. *)
Theorem C93_goes_on_partial : forall v s, runs v (start v) s -> In Asked (hist s) -> (forall b, ~ In (Ended b) (hist s)) ->
  (forall r, ~ stuck s r) -> ~ jammed s -> exists s', step v Server s s'.
Proof. exact goes_on_seen. Qed.
Print Assumptions C93_goes_on_partial.

(** Once the listener is closed there is a bound on what can happen, other than signals, and when nothing more does the process has
    ended, or a handler or a task never ends. *)
Theorem C93_ends_partial : forall v s, runs v (start v) s -> In Closing (hist s) ->
  exists bound, forall n s', path v n s s' -> n <= bound /\
    (at_rest v s' -> (exists b, In (Ended b) (hist s')) \/ (exists r, stuck s' r) \/ jammed s').
Proof. exact stops. Qed.
Print Assumptions C93_ends_partial.

(** If a handler never ends and the listener did not break, the process never ends, however often it is asked. *)
Theorem C93_hangs : forall v s s' r, runs v (start v) s -> stuck s r -> In Closing (hist s) -> ~ In Broken (hist s) ->
  runs v s s' -> (forall b, ~ In (Ended b) (hist s')) /\ stuck s' r.
Proof. exact hangs. Qed.
Print Assumptions C93_hangs.

(** The same for a component one of whose tasks does not take the signal to stop *)
Theorem C93_jammed : forall v s s', runs v (start v) s -> jammed s -> runs v s s' -> forall b, ~ In (Ended b) (hist s').
Proof. exact jams. Qed.
Print Assumptions C93_jammed.

(** Refuted: "a process that ends has answered what it had begun". A listener that fails ends the process around its requests. *)
Theorem C93_answered_refuted : forall v, exists s r, runs v (start v) s /\ In (Ended false) (hist s) /\
  begun (hist s) r /\ ~ over (hist s) r.
Proof. exact broken_case. Qed.
Print Assumptions C93_answered_refuted.

(** Refuted: "a process that is asked to stop ends". *)
Theorem C93_ends_refuted : forall v, exists s r, runs v (start v) s /\ In Asked (hist s) /\ ~ In Broken (hist s) /\ begun (hist s) r /\
  forall s', runs v s s' -> (forall b, ~ In (Ended b) (hist s')).
Proof. exact hang_case. Qed.
Print Assumptions C93_ends_refuted.
