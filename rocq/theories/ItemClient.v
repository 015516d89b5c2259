(** Model of an item that a client dequeued (pkg/clients/willow_client/item.go, here "item"): the goroutine that sends its
    heartbeats, any number of ACK and SetHeartbeatErrorCallback calls, the callback, the network, and at the service the
    check of the headers (internal/middleware/encoder.go) and the heartbeater of the delivery (Heartbeater.v).
    No proofs in this file.

    Every goroutine and every message is arbitrarily slow; a request may fail at any time, before or after the service has
    handled it; between client and service there may be something that answers by itself (never with 200).  Time is that of
    Heartbeater.v, shared by client and service.
    Simplifications: the tree of items, the channel and the queue between the handler and the heartbeater (Channel.v,
    Willow.v) are left out: while the delivery lasts, a request about the item reaches its heartbeater; afterwards an ack
    may be answered 200 or 404, for what became of the item is not modelled here (C41).  Encoding and http.NewRequest do
    not fail (the item was validated when it was decoded).  An interval for which time.NewTicker panics is C64's. *)
From Coq Require Import String List Bool Arith.
From Verif Require Import DestroySync Heartbeater.
Import ListNotations.
Local Open Scope nat_scope.
Local Open Scope list_scope.

Definition status := nat.
(** internal/middleware/encoder.go:10-32 ValidateReqHeaders: the answer without the handler, if any, to a request whose
    Content-Type header is [ct]; r.Header.Get is the empty string for a header that is not there.  All routes of items go
    through it (internal/willow/api/v1/router/willow_url_router.go:50-53) *)
Definition validate_headers (ct : string) : option status := if String.eqb ct "" then Some 400 else None.
(** item:91-101: the headers of the heartbeat request are those of http.NewRequest, which sets no Content-Type; neither does
    http.Client.Do *)
Definition heartbeat_headers : string := "".
(** pkg/clients/http_request.go:18-37 AddHeadersFromContext, used by ACK (item:189); the Content-Type in the context, if
    there is one *)
Definition ack_headers (ctx : option string) : string := match ctx with Some ct => ct | None => "application/json" end.

(** item:68 *)
Definition give_up_after (timeout : nat) : nat := timeout - timeout / 10.
(** item:69 *)
Definition beat_every (timeout : nat) : nat := give_up_after timeout / 3.

(** Where the goroutine (item:63-141) is *)
Inductive iloop :=
| LStart                                  (* :67 *)
| LTicker                                 (* :69 *)
| LSelect                                 (* :72 *)
| LSent (t : nat)                         (* :101, sent at time t *)
| LReply (t : nat) (st : status)          (* the same; the answer is on its way *)
| LForward                                (* :203, before the read lock *)
| LCallback                               (* :208, the callback runs *)
| LNested                                 (* the callback has called SetHeartbeatErrorCallback: :149 *)
| LQuit                                   (* :64 *)
| LEnded
| LCrash.                                 (* the process has ended: :114 with resp nil *)
(** Where a call of ACK (item:164-216) is *)
Inductive aphase :=
| AUnused
| ACalled                                 (* :165 *)
| AStopped                                (* :168 *)
| ASent                                   (* :191 *)
| AReply (st : status)                    (* the same; the answer is on its way *)
| AGot (st : status)                      (* :197 *)
| AForward | ACallback | ANested          (* :212, as above *)
| ANil                                    (* returned nil *)
| AErr.                                   (* returned an error *)
(** [a_ct]: the Content-Type of the request *)
Record acall := mkAck { a_ph : aphase; a_ct : string }.
(** item:30-44 with the state of the goroutine and its ticker; [i_cb]: a callback is set; [i_set k]: call k of
    SetHeartbeatErrorCallback (item:147-152) waits for the write lock *)
Record iworld := mkI {
  i_hb : hb_state; i_loop : iloop; i_last : nat; i_next : nat; i_tick : bool; i_done : bool; i_acks : nat -> acall;
  i_cb : bool; i_set : nat -> bool }.

Inductive i_event :=
| IServer (e : hb_event)                  (* at the heartbeater of the delivery *)
| IStarted                                (* the goroutine has begun *)
| ISent                                   (* a heartbeat is sent *)
| IAnswer (st : status)                   (* its answer is received *)
| IFailed                                 (* its request fails *)
| IAck (r : nat)                          (* ACK is called *)
| IAckAnswer (r : nat) (st : status)      (* the answer to its request is received *)
| IAckReturn (r : nat) (nil : bool)       (* it returns nil, or an error *)
| IDone                                   (* the channel Done() is closed *)
| ICrash.                                 (* the process of the client ends *)

(** item:46-61; the delivery's heartbeater as it is made (Heartbeater.v) *)
Definition i_init : iworld := mkI hb_init LStart 0 0 false false (fun _ => mkAck AUnused "") false (fun _ => false).

Definition now (w : iworld) : nat := hb_now (i_hb w).
Definition set_hb w h := mkI h (i_loop w) (i_last w) (i_next w) (i_tick w) (i_done w) (i_acks w) (i_cb w) (i_set w).
Definition set_loop w l := mkI (i_hb w) l (i_last w) (i_next w) (i_tick w) (i_done w) (i_acks w) (i_cb w) (i_set w).
Definition set_last w t := mkI (i_hb w) (i_loop w) t (i_next w) (i_tick w) (i_done w) (i_acks w) (i_cb w) (i_set w).
Definition set_ticker w n b := mkI (i_hb w) (i_loop w) (i_last w) n b (i_done w) (i_acks w) (i_cb w) (i_set w).
Definition close_done w := mkI (i_hb w) (i_loop w) (i_last w) (i_next w) (i_tick w) true (i_acks w) (i_cb w) (i_set w).
Definition set_ack w r p :=
  mkI (i_hb w) (i_loop w) (i_last w) (i_next w) (i_tick w) (i_done w)
      (fun k => if Nat.eqb k r then p else i_acks w k) (i_cb w) (i_set w).
Definition set_callback w := mkI (i_hb w) (i_loop w) (i_last w) (i_next w) (i_tick w) (i_done w) (i_acks w) true (i_set w).
Definition set_waiting w k b :=
  mkI (i_hb w) (i_loop w) (i_last w) (i_next w) (i_tick w) (i_done w) (i_acks w) (i_cb w)
      (fun j => if Nat.eqb j k then b else i_set w j).

(** the process of the client runs *)
Definition alive (w : iworld) : Prop := i_loop w <> LCrash.
(** the delivery has ended at the service *)
Definition over (h : hb_state) : Prop := hb_ph h = HRet \/ hb_ph h = HDone.
(** nobody holds the read lock of heartbeatErrorLock *)
Definition no_reader (w : iworld) : Prop :=
  i_loop w <> LCallback /\ i_loop w <> LNested /\ forall r, a_ph (i_acks w r) <> ACallback /\ a_ph (i_acks w r) <> ANested.
(** no writer waits for it: neither a call of SetHeartbeatErrorCallback nor one from inside a callback *)
Definition no_writer (w : iworld) : Prop :=
  (forall k, i_set w k = false) /\ i_loop w <> LNested /\ forall r, a_ph (i_acks w r) <> ANested.
(** the request of ACK r was sent *)
Definition ack_sent (a : acall) : Prop := match a_ph a with AUnused | ACalled | AStopped => False | _ => True end.
(** Calls of the delivery's heartbeater: 3n is for a heartbeat of this client, 3r+1 for its ACK r, 3n+2 for the requests of
    others about this item.  The heartbeater is asked by requests that were sent and passed the check of the headers.
    Start (the handler that delivers the item, item_handler.go:60) is among the others. *)
Definition begun (w : iworld) (h : hb_state) : Prop :=
  (forall n, hb_calls h (3 * n) <> NoCall -> hb_calls (i_hb w) (3 * n) <> NoCall \/
     (hb_calls h (3 * n) = PBeat /\ (exists t, i_loop w = LSent t) /\ validate_headers heartbeat_headers = None)) /\
  (forall r, hb_calls h (3 * r + 1) <> NoCall -> hb_calls (i_hb w) (3 * r + 1) <> NoCall \/
     (hb_calls h (3 * r + 1) = PStop /\ ack_sent (i_acks w r) /\ validate_headers (a_ct (i_acks w r)) = None)).
(** the answers that item:116-137 and item:197-213 know besides 200 *)
Definition known (st : status) : bool := existsb (Nat.eqb st) [400; 409; 500].
Definition known_ack (st : status) : bool := existsb (Nat.eqb st) [400; 404; 409; 500].

Section ItemClient.
Variable timeout : nat.

Inductive i_step : iworld -> option i_event -> iworld -> Prop :=
(* time passes for both sides *)
| I_time w d n ph s b c : i_hb w = mkHb n ph s b c -> i_step w None (set_hb w (mkHb (n + d) ph s b c))
(* the heartbeater at the service *)
| I_server w e h : hb_step timeout (i_hb w) e h -> hb_now h = hb_now (i_hb w) -> begun w h ->
    i_step w (match e with Some e => Some (IServer e) | None => None end) (set_hb w h)
(* the runtime's ticker *)
| I_fire w : i_loop w <> LStart -> i_loop w <> LTicker -> i_next w <= now w ->
    i_step w None (set_ticker w (i_next w + beat_every timeout) true)
(* :67 *)
| I_start w : i_loop w = LStart -> i_step w (Some IStarted) (set_loop (set_last w (now w)) LTicker)
(* :69 *)
| I_ticker w : i_loop w = LTicker -> i_step w None (set_loop (set_ticker w (now w + beat_every timeout) false) LSelect)
(* :73-75 *)
| I_see_done w : i_loop w = LSelect -> i_done w = true -> i_step w None (set_loop w LQuit)
(* :76-80 *)
| I_give_up w : i_loop w = LSelect -> i_tick w = true -> i_last w + give_up_after timeout <= now w ->
    i_step w None (set_loop (set_ticker w (i_next w) false) LQuit)
(* :76-101 *)
| I_send w : i_loop w = LSelect -> i_tick w = true -> now w < i_last w + give_up_after timeout ->
    i_step w (Some ISent) (set_loop (set_ticker w (i_next w) false) (LSent (now w)))
(* the service answers without the handler *)
| I_rejected w t st : i_loop w = LSent t -> validate_headers heartbeat_headers = Some st ->
    i_step w None (set_loop w (LReply t st))
(* the handler answers what the heartbeater said *)
| I_beat w t n ok h : i_loop w = LSent t -> hb_step timeout (i_hb w) (Some (HBeat (3 * n) ok)) h ->
    hb_now h = hb_now (i_hb w) ->
    i_step w (Some (IServer (HBeat (3 * n) ok))) (set_loop (set_hb w h) (LReply t (if ok then 200 else 404)))
(* the same when the delivery has ended; the item may be with another client meanwhile *)
| I_beat_late w t st : i_loop w = LSent t -> validate_headers heartbeat_headers = None -> over (i_hb w) ->
    st = 200 \/ st = 404 \/ st = 409 -> i_step w None (set_loop w (LReply t st))
(* an answer from in between *)
| I_between w t st : i_loop w = LSent t -> st <> 200 -> i_step w None (set_loop w (LReply t st))
(* :103-111, :114: resp is nil *)
| I_fail w t : i_loop w = LSent t -> i_done w = false -> i_step w (Some IFailed) (set_loop w LForward)
| I_fail_done w t : i_loop w = LSent t -> i_done w = true -> i_step w (Some ICrash) (set_loop w LCrash)
(* :115-117 *)
| I_ok w t : i_loop w = LReply t 200 -> i_step w (Some (IAnswer 200)) (set_loop (set_last w (now w)) LSelect)
(* :118-135 *)
| I_known w t st : i_loop w = LReply t st -> known st = true -> i_done w = false ->
    i_step w (Some (IAnswer st)) (set_loop w LForward)
| I_known_done w t st : i_loop w = LReply t st -> known st = true -> i_done w = true ->
    i_step w (Some (IAnswer st)) (set_loop w LSelect)
(* :136-137 *)
| I_unknown w t st : i_loop w = LReply t st -> known st = false -> st <> 200 -> i_step w (Some (IAnswer st)) (set_loop w LForward)
(* :203-210 forwardError in the goroutine *)
| I_no_callback w : i_loop w = LForward -> no_writer w -> i_cb w = false -> i_step w None (set_loop w LSelect)
| I_callback w : i_loop w = LForward -> no_writer w -> i_cb w = true -> i_step w None (set_loop w LCallback)
| I_callback_ends w : i_loop w = LCallback -> i_step w None (set_loop w LSelect)
| I_nested w : i_loop w = LCallback -> i_step w None (set_loop w LNested)
(* :64 with :218-222 *)
| I_stop w : i_loop w = LQuit -> i_done w = false -> i_step w (Some IDone) (set_loop (close_done w) LEnded)
| I_stopped w : i_loop w = LQuit -> i_done w = true -> i_step w None (set_loop w LEnded)
(* :164 ACK *)
| I_ack w r ctx : alive w -> a_ph (i_acks w r) = AUnused ->
    i_step w (Some (IAck r)) (set_ack w r (mkAck ACalled (ack_headers ctx)))
(* :165 *)
| I_ack_stop w r ct : alive w -> i_acks w r = mkAck ACalled ct -> i_done w = false ->
    i_step w (Some IDone) (set_ack (close_done w) r (mkAck AStopped ct))
| I_ack_stopped w r ct : alive w -> i_acks w r = mkAck ACalled ct -> i_done w = true ->
    i_step w None (set_ack w r (mkAck AStopped ct))
(* :168-191 *)
| I_ack_send w r ct : alive w -> i_acks w r = mkAck AStopped ct -> i_step w None (set_ack w r (mkAck ASent ct))
(* the service answers: without the handler; what the heartbeater said; when the delivery has ended *)
| I_ack_rejected w r ct st : i_acks w r = mkAck ASent ct -> validate_headers ct = Some st ->
    i_step w None (set_ack w r (mkAck (AReply st) ct))
| I_ack_handled w r ct ok h : i_acks w r = mkAck ASent ct -> hb_step timeout (i_hb w) (Some (HStop (3 * r + 1) ok)) h ->
    hb_now h = hb_now (i_hb w) ->
    i_step w (Some (IServer (HStop (3 * r + 1) ok))) (set_ack (set_hb w h) r (mkAck (AReply (if ok then 200 else 404)) ct))
| I_ack_late w r ct st : i_acks w r = mkAck ASent ct -> validate_headers ct = None -> over (i_hb w) ->
    st = 200 \/ st = 404 \/ st = 409 -> i_step w None (set_ack w r (mkAck (AReply st) ct))
(* an answer from in between *)
| I_ack_between w r ct st : i_acks w r = mkAck ASent ct -> st <> 200 -> i_step w None (set_ack w r (mkAck (AReply st) ct))
(* :192-194 *)
| I_ack_fail w r ct : alive w -> i_acks w r = mkAck ASent ct -> i_step w (Some (IAckReturn r false)) (set_ack w r (mkAck AErr ct))
(* :191 *)
| I_ack_receive w r ct st : alive w -> i_acks w r = mkAck (AReply st) ct ->
    i_step w (Some (IAckAnswer r st)) (set_ack w r (mkAck (AGot st) ct))
(* :198-200 *)
| I_ack_ok w r ct : alive w -> i_acks w r = mkAck (AGot 200) ct ->
    i_step w (Some (IAckReturn r true)) (set_ack w r (mkAck ANil ct))
(* :201-209 *)
| I_ack_known w r ct st : alive w -> i_acks w r = mkAck (AGot st) ct -> known_ack st = true ->
    i_step w (Some (IAckReturn r false)) (set_ack w r (mkAck AErr ct))
(* :210-212 *)
| I_ack_unknown w r ct st : alive w -> i_acks w r = mkAck (AGot st) ct -> known_ack st = false -> st <> 200 ->
    i_step w None (set_ack w r (mkAck AForward ct))
(* forwardError in ACK *)
| I_ack_no_callback w r ct : alive w -> i_acks w r = mkAck AForward ct -> no_writer w -> i_cb w = false ->
    i_step w (Some (IAckReturn r true)) (set_ack w r (mkAck ANil ct))
| I_ack_callback w r ct : alive w -> i_acks w r = mkAck AForward ct -> no_writer w -> i_cb w = true ->
    i_step w None (set_ack w r (mkAck ACallback ct))
| I_ack_callback_ends w r ct : alive w -> i_acks w r = mkAck ACallback ct ->
    i_step w (Some (IAckReturn r true)) (set_ack w r (mkAck ANil ct))
| I_ack_nested w r ct : alive w -> i_acks w r = mkAck ACallback ct -> i_step w None (set_ack w r (mkAck ANested ct))
(* :147-152 SetHeartbeatErrorCallback, not from a callback *)
| I_set w k : alive w -> i_set w k = false -> i_step w None (set_waiting w k true)
| I_set_done w k : alive w -> i_set w k = true -> no_reader w -> i_step w None (set_waiting (set_callback w) k false).

(** Histories with the time of each event, newest first, of what happens from [w0] on if time passes only as [ok] allows *)
Inductive i_run (ok : iworld -> nat -> Prop) (w0 : iworld) : list (nat * i_event) -> iworld -> Prop :=
| IR_start : i_run ok w0 [] w0
| IR_step tr w e w' : i_run ok w0 tr w -> i_step w e w' -> (now w' = now w \/ ok w (now w' - now w)) ->
    i_run ok w0 (push (match e with Some e => Some (now w, e) | None => None end) tr) w'.
Definition i_exec (ok : iworld -> nat -> Prop) : list (nat * i_event) -> iworld -> Prop := i_run ok i_init.
End ItemClient.
