(** Model of the locker client (pkg/clients/locker_client/locker_client.go, lock.go): any number of lock clients in any
    number of processes, any number of ObtainLock and Release calls, together with the locker service of Locker.v and the
    network between them.  No proofs in this file.

    Every goroutine and every message is arbitrarily slow and every request may fail at any time, before or after the
    service has handled it.  Time is that of Locker.v.  Tickers are those of go 1.22: one buffered tick, which Reset does
    not drain.
    Simplifications: a client's tree of locks (C20, C21, C54-C59) is the map [w_tree]; of its locking, the rule that
    matters is that the id nodes of every key-value pair of a call stay locked while its onCreate runs
    (btree_associated/threadsafe_create.go:247-340), so that neither another onCreate nor a Delete for key-values with a
    common pair (threadsafe_delete.go:74-101) can go on meanwhile; Delete and the lookup of CreateOrFind are single steps.
    (Other calls on the same tree may have to wait as well, C59; in the model they need not.)
    All requests to the service come from these clients (a service in use by others as well: their calls are calls of
    other lock clients).  Not modelled: the restart of the service with its 503 answers, the heartbeatErrorCallback (it
    is assumed to return), responses other than those of the service, and intervals that make time.NewTicker panic
    (LockTimeouts.v). *)
From Coq Require Import List Bool Arith String.
From Verif Require Import DestroySync Locker.
Import ListNotations.
Local Open Scope nat_scope.
Local Open Scope list_scope.

(** lock.go:88-90: the interval between heartbeats for a lock timeout of [d] *)
Definition beat_interval (d : nat) : nat := (d - d / 10) / 3.

(** What the service answers to a heartbeat (exclusive_locker.go:183-204): 404 if the lock id is not stored, 409 if the
    session is not the present one *)
Inductive reply := R200 | R404 | R409.
(** Where the goroutine of a lock is (lock.go:81-152) *)
Inductive loop :=
| HStart                        (* :81, before the tickers are made *)
| HSelect                       (* :94 *)
| HSent (n : nat)               (* :117 waits for the answer to the heartbeat number n *)
| HReply (n : nat) (r : reply)  (* the same; the answer is on its way *)
| HQuit                         (* :83, in stop *)
| HStopped                      (* :84 *)
| HFlagged                      (* :85 *)
| HEnded.                       (* the channel heartbeating is closed *)
(** Who runs the function of doneOnce *)
Inductive runner := ByLoop | ByRelease (r : nat).
(** lock.go:220-228: doneOnce not used; before releaseLockCallback has deleted; before close(done); done closed *)
Inductive once := ONew | ORun (b : runner) | ODeleted (b : runner) | ODone.

Section LockClient.
Variable key : Type.
Variable key_dec : forall a b : key, {a = b} + {a <> b}.
(** the two key-values have a key with the same value in common *)
Variable shares : key -> key -> Prop.

(** lock.go:36-61, with the client and the key-values of releaseLockCallback, the call of ObtainLock that made it and the
    state of its goroutine: when the next ticks of ticker and timeoutTicker are due, whether one is buffered, and how many
    heartbeats were sent *)
Record lobj := mkObj {
  o_call : nat; o_client : nat; o_key : key; o_lock : nat; o_sess : string; o_time : nat;
  o_loop : loop; o_next : nat; o_tick : bool; o_outn : nat; o_out : bool; o_sent : nat;
  o_once : once; o_released : bool }.
(** Where a call of ObtainLock is (locker_client.go:123-220) *)
Inductive ocall :=
| CUnused
| CCalled (a : nat) (k : key)                              (* :217 *)
| CPosted (a : nat) (k : key)                              (* :147 in onCreate *)
| CAnswered (a : nat) (k : key) (j : nat) (s : string) (d : nat)   (* the same; the answer 200 is on its way *)
| CStoring (a : nat) (k : key) (o : nat)                   (* :190, onCreate has made lock o *)
| CGotLock (a : nat) (k : key) (o : nat)                   (* ObtainLock has returned lock o *)
| CNoLock (a : nat) (k : key) (sent : bool).               (* ObtainLock has returned no lock; it had sent a request *)
(** Where a call of Release is (lock.go:165-212) *)
Inductive rcall :=
| RUnused
| RCalled (o : nat)                                        (* :167 *)
| RStop (o : nat)                                          (* :169 *)
| RWait (o : nat)                                          (* :172 *)
| RSent (o : nat)                                          (* :187 *)
| RNil (o : nat)                                           (* returned nil *)
| RFailed (o : nat)                                        (* returned an error of the request *)
| RAlready (o : nat).                                      (* returned "already released the lock" *)

Record world := mkW {
  w_srv : locker key;
  w_n : nat;                                               (* locks made so far *)
  w_obj : nat -> option lobj;
  w_tree : nat -> key -> option nat;                       (* the tree of each client *)
  w_call : nat -> ocall;                                   (* the calls; the service knows call i as its client i *)
  w_grant : nat -> option (nat * string * nat);            (* what the handler of the service has to answer to call i *)
  w_rel : nat -> rcall;
  w_beats : list (nat * nat);                              (* heartbeats on their way: lock and number *)
  w_dels : list (key * nat * string) }.                    (* DELETE requests on their way: key-values of the lock id,
                                                              lock id, session *)
Inductive w_event :=
| EServer (e : lk_event key)                               (* something happens at the service *)
| EObtain (i a : nat) (k : key)                            (* ObtainLock is called *)
| EObtained (i o : nat)                                    (* it returns lock o *)
| ENoLock (i : nat)                                        (* it returns no lock *)
| ESent (o n : nat)                                        (* heartbeat number n of lock o is sent *)
| EConfirmed (o n : nat)                                   (* its answer 200 is received *)
| EStarted (o : nat)                                       (* its goroutine has made its tickers *)
| EDone (o : nat)                                          (* the channel Done() of lock o is closed *)
| EEnded (o : nat)                                         (* its goroutine has ended *)
| ERelease (r o : nat)                                     (* Release of lock o is called *)
| EDelete (o : nat)                                        (* the DELETE request for lock o is sent *)
| EReturn (r : nat) (nil : bool).                          (* Release returns nil, or an error *)

Definition w_init (k0 : key) : world :=
  mkW (lm_init key k0) 0 (fun _ => None) (fun _ _ => None) (fun _ => CUnused) (fun _ => None) (fun _ => RUnused) [] [].

Definition with_srv (w : world) (s : locker key) : world :=
  mkW s (w_n w) (w_obj w) (w_tree w) (w_call w) (w_grant w) (w_rel w) (w_beats w) (w_dels w).
Definition with_obj (w : world) (o : nat) (x : lobj) : world :=
  mkW (w_srv w) (w_n w) (upd_nat (w_obj w) o (Some x)) (w_tree w) (w_call w) (w_grant w) (w_rel w) (w_beats w) (w_dels w).
Definition with_newobj (w : world) (x : lobj) : world :=
  mkW (w_srv w) (S (w_n w)) (upd_nat (w_obj w) (w_n w) (Some x)) (w_tree w) (w_call w) (w_grant w) (w_rel w) (w_beats w) (w_dels w).
Definition with_tree (w : world) (a : nat) (k : key) (v : option nat) : world :=
  mkW (w_srv w) (w_n w) (w_obj w) (upd_nat (w_tree w) a (upd_key key key_dec (w_tree w a) k v)) (w_call w) (w_grant w)
      (w_rel w) (w_beats w) (w_dels w).
Definition with_call (w : world) (i : nat) (c : ocall) : world :=
  mkW (w_srv w) (w_n w) (w_obj w) (w_tree w) (upd_nat (w_call w) i c) (w_grant w) (w_rel w) (w_beats w) (w_dels w).
Definition with_grant (w : world) (i : nat) (g : option (nat * string * nat)) : world :=
  mkW (w_srv w) (w_n w) (w_obj w) (w_tree w) (w_call w) (upd_nat (w_grant w) i g) (w_rel w) (w_beats w) (w_dels w).
Definition with_rel (w : world) (r : nat) (c : rcall) : world :=
  mkW (w_srv w) (w_n w) (w_obj w) (w_tree w) (w_call w) (w_grant w) (upd_nat (w_rel w) r c) (w_beats w) (w_dels w).
Definition with_msgs (w : world) (b : list (nat * nat)) (d : list (key * nat * string)) : world :=
  mkW (w_srv w) (w_n w) (w_obj w) (w_tree w) (w_call w) (w_grant w) (w_rel w) b d.

Definition set_loop (x : lobj) (l : loop) : lobj :=
  mkObj (o_call x) (o_client x) (o_key x) (o_lock x) (o_sess x) (o_time x) l (o_next x) (o_tick x) (o_outn x) (o_out x)
        (o_sent x) (o_once x) (o_released x).
Definition set_ticker (x : lobj) (n : nat) (b : bool) : lobj :=
  mkObj (o_call x) (o_client x) (o_key x) (o_lock x) (o_sess x) (o_time x) (o_loop x) n b (o_outn x) (o_out x) (o_sent x)
        (o_once x) (o_released x).
Definition set_timeout (x : lobj) (n : nat) (b : bool) : lobj :=
  mkObj (o_call x) (o_client x) (o_key x) (o_lock x) (o_sess x) (o_time x) (o_loop x) (o_next x) (o_tick x) n b (o_sent x)
        (o_once x) (o_released x).
Definition set_sent (x : lobj) (n : nat) : lobj :=
  mkObj (o_call x) (o_client x) (o_key x) (o_lock x) (o_sess x) (o_time x) (o_loop x) (o_next x) (o_tick x) (o_outn x)
        (o_out x) n (o_once x) (o_released x).
Definition set_once (x : lobj) (c : once) : lobj :=
  mkObj (o_call x) (o_client x) (o_key x) (o_lock x) (o_sess x) (o_time x) (o_loop x) (o_next x) (o_tick x) (o_outn x)
        (o_out x) (o_sent x) c (o_released x).
Definition set_released (x : lobj) : lobj :=
  mkObj (o_call x) (o_client x) (o_key x) (o_lock x) (o_sess x) (o_time x) (o_loop x) (o_next x) (o_tick x) (o_outn x)
        (o_out x) (o_sent x) (o_once x) true.

(** lock.go:63-79 *)
Definition new_lock (i a : nat) (k : key) (j : nat) (s : string) (d : nat) : lobj :=
  mkObj i a k j s d HStart 0 false 0 false 0 ONew false.

(** an onCreate of client [a] for key-values [k'] is running *)
Definition creating (c : ocall) (a : nat) (k' : key) : Prop :=
  match c with
  | CPosted b k | CAnswered b k _ _ _ | CStoring b k _ => b = a /\ k = k'
  | _ => False
  end.
(** the id nodes of a pair of [k] are locked by an onCreate of client [a] *)
Definition blocked (w : world) (a : nat) (k : key) : Prop :=
  exists i k', creating (w_call w i) a k' /\ (k' = k \/ shares k' k).

(** the answer to heartbeat [n] reaches the goroutine if it still waits for it *)
Definition answer (x : lobj) (n : nat) (r : reply) : lobj :=
  match o_loop x with
  | HSent m => if Nat.eqb m n then set_loop x (HReply n r) else x
  | _ => x
  end.

(** What the service begins to handle was sent: Release (exclusive_locker.go:206) and Heartbeat (:178).  A request may be
    begun more than once in the model, it is answered at most once. *)
Definition begun_sent (w : world) (srv' : locker key) : Prop :=
  (forall k j r s, lm_busy key srv' k = Some (DRel j r s) -> lm_busy key (w_srv w) k <> Some (DRel j r s) -> In (k, r, s) (w_dels w)) /\
  (forall k j s, In (j, s) (lm_beats key srv' k) -> ~ In (j, s) (lm_beats key (w_srv w) k) ->
     exists o n x, In (o, n) (w_beats w) /\ w_obj w o = Some x /\ o_key x = k /\ o_lock x = j /\ o_sess x = s).

Inductive w_step : world -> option w_event -> world -> Prop :=
(* the service, time included, where no request of a client is concerned *)
| W_server w srv' : lk_step key key_dec (w_srv w) None srv' -> begun_sent w srv' -> w_step w None (with_srv w srv')
| W_server_other w e srv' : lk_step key key_dec (w_srv w) (Some e) srv' ->
    (match e with LExpire _ _ _ | LHandOn _ _ | LLost _ _ _ => True | _ => False end) ->
    w_step w (Some (EServer e)) (with_srv w srv')
(* a POST arrives; the client may have given up meanwhile *)
| W_server_join w i k srv' a : lk_step key key_dec (w_srv w) (Some (LJoin key i k)) srv' ->
    w_call w i = CPosted a k \/ w_call w i = CNoLock a k true ->
    w_step w (Some (EServer (LJoin key i k))) (with_srv w srv')
(* ObtainLock of the service returns (exclusive_locker.go:118-129), its handler answers *)
| W_server_grant w i k j s d srv' a : lk_step key key_dec (w_srv w) (Some (LGrant key i k j s d)) srv' -> w_call w i = CPosted a k ->
    w_step w (Some (EServer (LGrant key i k j s d))) (with_call (with_srv w srv') i (CAnswered a k j s d))
| W_server_grant_late w i k j s d srv' : lk_step key key_dec (w_srv w) (Some (LGrant key i k j s d)) srv' ->
    (forall a, w_call w i <> CPosted a k) ->
    w_step w (Some (EServer (LGrant key i k j s d))) (with_grant (with_srv w srv') i (Some (j, s, d)))
(* a heartbeat is answered *)
| W_server_beat w k j s ok srv' o n x b1 b2 r : lk_step key key_dec (w_srv w) (Some (LBeat key k j s ok)) srv' ->
    w_beats w = b1 ++ (o, n) :: b2 -> w_obj w o = Some x -> o_key x = k -> o_lock x = j -> o_sess x = s ->
    (match r with
     | R200 => ok = true
     | R404 => ok = false /\ lm_cur key (w_srv w) k <> Some j
     | R409 => ok = false /\ lm_cur key (w_srv w) k = Some j
     end) ->
    w_step w (Some (EServer (LBeat key k j s ok))) (with_obj (with_msgs (with_srv w srv') (b1 ++ b2) (w_dels w)) o (answer x n r))
(* a DELETE is handled *)
| W_server_release w k r s ok srv' d1 d2 : lk_step key key_dec (w_srv w) (Some (LRelease key k r s ok)) srv' ->
    w_dels w = d1 ++ (k, r, s) :: d2 ->
    w_step w (Some (EServer (LRelease key k r s ok))) (with_msgs (with_srv w srv') (w_beats w) (d1 ++ d2))
(* internal/locker/api/v1/handlers/locker_handler.go:62-72: the answer could not be written, so the handler releases *)
| W_give_back w i a k j s d : w_call w i = CNoLock a k true -> w_grant w i = Some (j, s, d) ->
    w_step w None (with_msgs (with_grant w i None) (w_beats w) ((k, j, s) :: w_dels w))

(* locker_client.go:123 *)
| W_call_obtain w i a k : w_call w i = CUnused -> w_step w (Some (EObtain i a k)) (with_call w i (CCalled a k))
(* :211-214 onFind *)
| W_find w i a k o : w_call w i = CCalled a k -> w_tree w a k = Some o ->
    w_step w (Some (EObtained i o)) (with_call w i (CGotLock a k o))
(* :128-147 onCreate *)
| W_post w i a k : w_call w i = CCalled a k -> w_tree w a k = None -> ~ blocked w a k ->
    w_step w None (with_call w i (CPosted a k))
(* :131-158, :191-206: every way to return without a lock; also CreateOrFind may call neither callback (C57) *)
| W_no_lock w i a k : w_call w i = CCalled a k -> w_step w (Some (ENoLock i)) (with_call w i (CNoLock a k false))
| W_failed w i a k : w_call w i = CPosted a k -> w_step w (Some (ENoLock i)) (with_call w i (CNoLock a k true))
(* ... and the answer of the service is lost *)
| W_lost_answer w i a k j s d : w_call w i = CAnswered a k j s d ->
    w_step w (Some (ENoLock i)) (with_grant (with_call w i (CNoLock a k true)) i (Some (j, s, d)))
(* :162-190 *)
| W_receive w i a k j s d : w_call w i = CAnswered a k j s d ->
    w_step w None (with_call (with_newobj w (new_lock i a k j s d)) i (CStoring a k (w_n w)))
(* threadsafe_create.go:309-332, locker_client.go:219 *)
| W_store w i a k o : w_call w i = CStoring a k o ->
    w_step w (Some (EObtained i o)) (with_call (with_tree w a k (Some o)) i (CGotLock a k o))

(* lock.go:88-91 *)
| W_start w o x : w_obj w o = Some x -> o_loop x = HStart ->
    w_step w (Some (EStarted o)) (with_obj w o (set_timeout (set_ticker (set_loop x HSelect)
      (lm_now key (w_srv w) + beat_interval (o_time x)) false) (lm_now key (w_srv w) + o_time x) false))
(* the runtime's tickers; they are never stopped *)
| W_tick w o x : w_obj w o = Some x -> o_loop x <> HStart -> o_next x <= lm_now key (w_srv w) ->
    w_step w None (with_obj w o (set_ticker x (o_next x + beat_interval (o_time x)) true))
| W_tick_out w o x : w_obj w o = Some x -> o_loop x <> HStart -> o_outn x <= lm_now key (w_srv w) ->
    w_step w None (with_obj w o (set_timeout x (o_outn x + o_time x) true))
(* :95 *)
| W_see_done w o x : w_obj w o = Some x -> o_loop x = HSelect -> o_once x = ODone ->
    w_step w None (with_obj w o (set_loop x HQuit))
(* :98 *)
| W_timed_out w o x : w_obj w o = Some x -> o_loop x = HSelect -> o_out x = true ->
    w_step w None (with_obj w o (set_loop (set_timeout x (o_outn x) false) HQuit))
(* :101-117 *)
| W_send w o x : w_obj w o = Some x -> o_loop x = HSelect -> o_tick x = true ->
    w_step w (Some (ESent o (S (o_sent x))))
      (with_msgs (with_obj w o (set_sent (set_loop (set_ticker x (o_next x) false) (HSent (S (o_sent x)))) (S (o_sent x))))
                 ((o, S (o_sent x)) :: w_beats w) (w_dels w))
(* :118-124: the request may have been handled, or may be later *)
| W_beat_error w o x n : w_obj w o = Some x -> (o_loop x = HSent n \/ exists r, o_loop x = HReply n r) ->
    w_step w None (with_obj w o (set_loop x HSelect))
(* :127-129 *)
| W_confirmed w o x n : w_obj w o = Some x -> o_loop x = HReply n R200 ->
    w_step w (Some (EConfirmed o n)) (with_obj w o (set_timeout (set_loop x HSelect) (lm_now key (w_srv w) + o_time x) (o_out x)))
(* :130-144 *)
| W_refused w o x n : w_obj w o = Some x -> o_loop x = HReply n R409 ->
    w_step w None (with_obj w o (set_loop x HQuit))
(* :145-149 *)
| W_unexpected w o x n : w_obj w o = Some x -> o_loop x = HReply n R404 ->
    w_step w None (with_obj w o (set_loop x HSelect))
(* :82-86, stop :220-228 *)
| W_stop_loop w o x : w_obj w o = Some x -> o_loop x = HQuit -> o_once x = ONew ->
    w_step w None (with_obj w o (set_once x (ORun ByLoop)))
(* locker_client.go:171-179 *)
| W_forget w o x b : w_obj w o = Some x -> o_once x = ORun b -> ~ blocked w (o_client x) (o_key x) ->
    w_step w None (with_tree (with_obj w o (set_once x (ODeleted b))) (o_client x) (o_key x) None)
(* lock.go:225-227 *)
| W_close w o x b : w_obj w o = Some x -> o_once x = ODeleted b ->
    w_step w (Some (EDone o)) (with_obj w o (set_once x ODone))
| W_stopped w o x : w_obj w o = Some x -> o_loop x = HQuit -> o_once x = ODone ->
    w_step w None (with_obj w o (set_loop x HStopped))
| W_flag w o x : w_obj w o = Some x -> o_loop x = HStopped ->
    w_step w None (with_obj w o (set_loop (set_released x) HFlagged))
| W_end w o x : w_obj w o = Some x -> o_loop x = HFlagged ->
    w_step w (Some (EEnded o)) (with_obj w o (set_loop x HEnded))

(* lock.go:165; a lock can be released by whoever was given it *)
| W_call_release w r o i a k : w_rel w r = RUnused -> w_call w i = CGotLock a k o ->
    w_step w (Some (ERelease r o)) (with_rel w r (RCalled o))
(* :167 *)
| W_cas w r o x : w_rel w r = RCalled o -> w_obj w o = Some x -> o_released x = false ->
    w_step w None (with_rel (with_obj w o (set_released x)) r (RStop o))
| W_cas_fails w r o x : w_rel w r = RCalled o -> w_obj w o = Some x -> o_released x = true ->
    w_step w (Some (EReturn r false)) (with_rel w r (RAlready o))
(* :169 *)
| W_stop_release w r o x : w_rel w r = RStop o -> w_obj w o = Some x -> o_once x = ONew ->
    w_step w None (with_obj w o (set_once x (ORun (ByRelease r))))
| W_release_stopped w r o x : w_rel w r = RStop o -> w_obj w o = Some x -> o_once x = ODone ->
    w_step w None (with_rel w r (RWait o))
(* :172-187 *)
| W_delete w r o x : w_rel w r = RWait o -> w_obj w o = Some x -> o_loop x = HEnded ->
    w_step w (Some (EDelete o)) (with_msgs (with_rel w r (RSent o)) (w_beats w) ((o_key x, o_lock x, o_sess x) :: w_dels w))
(* :194-196; the handler answers 204 whatever comes of it (locker_handler.go:128-152) *)
| W_return_nil w r o x : w_rel w r = RSent o -> w_obj w o = Some x -> ~ In (o_key x, o_lock x, o_sess x) (w_dels w) ->
    w_step w (Some (EReturn r true)) (with_rel w r (RNil o))
(* :188-190 *)
| W_return_error w r o : w_rel w r = RSent o -> w_step w (Some (EReturn r false)) (with_rel w r (RFailed o)).

(** Histories, with the time of each event, newest first *)
Inductive w_exec (k0 : key) : list (nat * w_event) -> world -> Prop :=
| WE_init : w_exec k0 [] (w_init k0)
| WE_step h w e w' : w_exec k0 h w -> w_step w e w' ->
    w_exec k0 (push (match e with Some e => Some (lm_now key (w_srv w), e) | None => None end) h) w'.
End LockClient.
