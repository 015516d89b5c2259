(** What C73-C75 talk about. *)
From Coq Require Import String List Bool Arith.
From Verif Require Import Heartbeater SpecHeartbeater ItemClient.
Import ListNotations.
Local Open Scope nat_scope.

(** Time may pass in any way *)
Definition any_time (w : iworld) (d : nat) : Prop := True.
(** The service is prompt: its heartbeater takes a tick at once and ends at once, its ticker is on time *)
Definition server_prompt (w : iworld) (d : nat) : Prop :=
  match hb_ph (i_hb w) with
  | HRun next tick => tick = false /\ now w + d <= next
  | HRet => False
  | HInit | HDone => True
  end.
(** The client is prompt: its goroutine does at once what it can do, its callback returns at once, its ticker is on time, and
    every heartbeat request is over, one way or the other, [D] after it was sent *)
Definition client_prompt (D : nat) (w : iworld) (d : nat) : Prop :=
  match i_loop w with
  | LSelect => i_tick w = false /\ i_done w = false /\ now w + d <= i_next w
  | LSent t | LReply t _ => now w + d <= t + D /\ now w + d <= i_next w
  | LEnded | LCrash => True
  | _ => False
  end.
(** Both are, and requests are handled while no time passes *)
Definition all_prompt (w : iworld) (d : nat) : Prop :=
  client_prompt 0 w d /\ server_prompt w d /\ (forall i, hb_calls (i_hb w) i = NoCall) /\ hb_ph (i_hb w) <> HInit.

(** an event after which the item's goroutine counts anew: its start or a heartbeat answered 200 *)
Definition renews (e : i_event) : bool := match e with IStarted => true | IAnswer st => Nat.eqb st 200 | _ => false end.
(** the time of the newest of these *)
Fixpoint renewed (tr : list (nat * i_event)) : option nat :=
  match tr with [] => None | (t, e) :: r => if renews e then Some t else renewed r end.
Definition happened (tr : list (nat * i_event)) (e : i_event) : Prop := exists t, In (t, e) tr.
(** the delivery was ended at the service: by a timeout, an ack (of whomever) or the shutdown *)
Definition delivery_over (tr : list (nat * i_event)) : Prop :=
  happened tr (IServer HTimeout) \/ happened tr (IServer HShutdown) \/ exists k, happened tr (IServer (HStop k true)).
(** a heartbeat of the client is under way *)
Definition beating (tr : list (nat * i_event)) : Prop :=
  exists later t earlier, tr = later ++ (t, ISent) :: earlier /\
    forall e, happened later e -> (forall st, e <> IAnswer st) /\ e <> IFailed.
(** ACK was called *)
Definition some_ack (tr : list (nat * i_event)) : Prop := exists r, happened tr (IAck r).
(** an answer to an ACK that the client does not know *)
Definition odd_answer (st : status) : Prop := st <> 200 /\ st <> 400 /\ st <> 404 /\ st <> 409 /\ st <> 500.
