(** Properties C73-C75: an item at the client that dequeued it.  The statements use [SpecItemClient.v]; the model is [ItemClient.v]. *)
From Coq Require Import String List Bool Arith.
Import ListNotations.
From Verif Require Import Heartbeater SpecHeartbeater ItemClient SpecItemClient ItemClientProofs ItemClientExamples.
Local Open Scope nat_scope.

(** C73, what the code does instead: no heartbeat of a client ever reaches the heartbeater of its item, and none is answered 200 (the
    requests carry no Content-Type). *)
Theorem C73_rejected : forall timeout ok tr w, i_exec timeout ok tr w ->
  (forall n accepted, ~ happened tr (IServer (HBeat (3 * n) accepted))) /\ ~ happened tr (IAnswer 200).
Proof. exact never_accepted. Qed.
(** So a prompt service ends every delivery one timeout after it began, unless somebody else (not this client) sends heartbeats. *)
Theorem C73_lost : forall timeout tr w s i, i_exec timeout server_prompt tr w -> In (s, IServer (HStart i true)) tr -> s + timeout < now w ->
  delivery_over tr \/ exists k, (forall n, k <> 3 * n) /\ happened tr (IServer (HBeat k true)).
Proof. exact lost. Qed.
(** And a prompt client has closed Done() by then or soon after, counted from the start of its goroutine. *)
Theorem C73_given_up : forall timeout D tr w s, i_exec timeout (client_prompt D) tr w -> In (s, IStarted) tr ->
  s + give_up_after timeout + Nat.max (beat_every timeout) D < now w -> happened tr IDone.
Proof. exact given_up. Qed.
(** C73 as stated is false: though client, service and network do everything at once, nothing fails and nobody acks, the service
    takes the item away. *)
Theorem C73_kept_refuted : ~ (forall timeout tr w, i_exec timeout all_prompt tr w -> happened tr (IServer HTimeout) ->
  some_ack tr \/ happened tr IFailed \/ happened tr ICrash).
Proof. exact not_kept. Qed.
(** Such a history with its times: heartbeats at 9 and 18, Done() at 27, the timeout of the service (30) after it *)
Theorem C73_nonvacuous :
  (exists tr w, i_exec 30 all_prompt tr w /\ happened tr (IServer HTimeout) /\ (forall r, ~ happened tr (IAck r)) /\ ~ happened tr IFailed /\
    ~ happened tr ICrash /\ In (18, ISent) tr /\ In (27, IDone) tr) /\
  (exists tr w, i_exec 30 server_prompt tr w /\ In (0, IServer (HStart 2 true)) tr /\ 0 + 30 < now w).
Proof. exact (conj kept_history service_history). Qed.

(** C74: Done() is closed only after an ACK was called, or the last heartbeat answered 200 (or the start) is nine tenths of the timeout ago. *)
Theorem C74_reason : forall timeout ok t tr w, i_exec timeout ok ((t, IDone) :: tr) w ->
  some_ack tr \/ exists c, renewed tr = Some c /\ c + (timeout - timeout / 10) <= t.
Proof. exact done_reason. Qed.
(** C74, for prompt clients whose requests end within D and whose callback returns at once (it does not set the callback).  The full
    statement, without these conditions, is refuted below. *)
Theorem C74_bounded_partial : forall timeout D tr w c, i_exec timeout (client_prompt D) tr w -> ~ happened tr IDone -> renewed tr = Some c ->
  now w <= c + give_up_after timeout + Nat.max (beat_every timeout) D.
Proof. exact done_bounded. Qed.
(** C74: no heartbeat is sent once Done() is closed, unless ACK was called.  The full statement, without that case, is refuted below. *)
Theorem C74_quiet_partial : forall timeout ok t tr w, i_exec timeout ok ((t, ISent) :: tr) w -> happened tr IDone -> some_ack tr.
Proof. exact quiet. Qed.
(** Without a bound on requests there is none for Done(): a request that is never answered keeps it open, however long the service has
    given the item away. *)
Theorem C74_hung_refuted : ~ (forall timeout, exists D, forall tr w t, i_exec timeout any_time tr w -> In (t, IServer HTimeout) tr -> t + D < now w -> happened tr IDone).
Proof. exact hung. Qed.
(** A callback that calls SetHeartbeatErrorCallback never returns; from then on Done() stays open whatever happens, but for an ACK. *)
Theorem C74_callback_refuted : ~ (forall timeout tr w, i_exec timeout any_time tr w -> exists tr' w', i_run timeout any_time w tr' w' /\
  (happened tr IDone \/ happened tr' IDone) /\ forall r, ~ happened tr' (IAck r)).
Proof. exact callback_blocks. Qed.
(** A heartbeat may be sent after Done() was closed (by ACK). *)
Theorem C74_quiet_refuted : ~ (forall timeout tr w t, i_exec timeout any_time ((t, ISent) :: tr) w -> ~ happened tr IDone).
Proof. exact not_quiet. Qed.
(** A prompt client (D = 5) at 23 with Done() open; Done() closed by the goroutine (kept_history) *)
Theorem C74_nonvacuous :
  (exists tr w, i_exec 30 (client_prompt 5) tr w /\ ~ happened tr IDone /\ renewed tr = Some 0 /\ now w = 23) /\
  (exists tr w, i_exec 30 any_time ((9, ISent) :: tr) w /\ happened tr IDone).
Proof. exact (conj client_history after_history). Qed.

(** C75: an ACK that returns nil was answered 200, and the delivery has ended at the service -- or it was answered with a status that the
    client does not know; one that returns an error was not answered 200.  The full statement, without the second case, is refuted below. *)
Theorem C75_ack_partial : forall timeout ok t r nil tr w, i_exec timeout ok ((t, IAckReturn r nil) :: tr) w ->
  if nil then exists st, happened tr (IAckAnswer r st) /\ (st = 200 /\ delivery_over tr \/ odd_answer st)
  else ~ happened tr (IAckAnswer r 200).
Proof. exact ack_returns. Qed.
(** C75: the process of the client ends only by an ACK that is called while a heartbeat is under way whose request fails. *)
Theorem C75_crash_partial : forall timeout ok t tr w, i_exec timeout ok ((t, ICrash) :: tr) w -> some_ack tr /\ beating tr.
Proof. exact crash_reason. Qed.
(** An ACK may return nil though the service knows nothing of it and still counts the item as being processed. *)
Theorem C75_nil_refuted : ~ (forall timeout tr w t r, i_exec timeout any_time ((t, IAckReturn r true) :: tr) w -> delivery_over tr).
Proof. exact nil_unknown. Qed.
(** An ACK may end the process of the client. *)
Theorem C75_crash_refuted : ~ (forall timeout tr w, i_exec timeout any_time tr w -> ~ happened tr ICrash).
Proof. exact crashes. Qed.
(** A heartbeat that is rejected, then an ACK that the service accepts *)
Theorem C75_nonvacuous : exists tr w, i_exec 30 all_prompt ((9, IAckReturn 0 true) :: tr) w /\ In (9, IAckAnswer 0 200) tr /\ In (9, IServer (HStop 1 true)) tr /\
  In (9, IAnswer 400) tr /\ happened tr IDone.
Proof. exact plain_history. Qed.

Print Assumptions C73_rejected.
Print Assumptions C73_lost.
Print Assumptions C73_given_up.
Print Assumptions C73_kept_refuted.
Print Assumptions C73_nonvacuous.
Print Assumptions C74_reason.
Print Assumptions C74_bounded_partial.
Print Assumptions C74_quiet_partial.
Print Assumptions C74_hung_refuted.
Print Assumptions C74_callback_refuted.
Print Assumptions C74_quiet_refuted.
Print Assumptions C74_nonvacuous.
Print Assumptions C75_ack_partial.
Print Assumptions C75_crash_partial.
Print Assumptions C75_nil_refuted.
Print Assumptions C75_crash_refuted.
Print Assumptions C75_nonvacuous.
