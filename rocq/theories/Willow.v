(** Model of the willow service: the directory of queues (internal/willow/brokers/queues, here "queues"), the index of
    channels (internal/willow/brokers/queue_channels/queue_channels_client_local.go, here "qccl"), the channels
    (Channel.v) and the limiter service they call (Limiter.v).  No proofs in this file.

    A step is one request, or one critical section of the background work of a channel.  Simplifications:
    - a request is one step, except that DeleteChannel and DeleteQueue, which call ForceDelete, are sequences of steps
      (Channel.v), between which everything else can go on.
    - which waiting client a channel serves is not modelled: a channel can be asked for an item at any time.
    - calls of the limiter service arrive once and are answered; several calls of one step are not interleaved with
      other calls of the limiter.
    - shutting down is not modelled.
    - after a request that panics, the locks it leaves behind are not modelled. *)
From Coq Require Import String List Bool Arith NArith ZArith.
Import ListNotations.
From Verif Require Import Datatypes Collections Query BTree BTreeFind Assoc OneToMany Limiter SpecLimiter Channel.
From Verif Require AssocProofs.
Local Open Scope Z_scope.

(** queues/memory/memory_queue.go:20-29 *)
Record queue := mkQueue { q_name : string; q_limit : Z }.
(** [w_queues]: queues_client_local.go:25-36, the tree of pointers to queues; [w_objs] are the queues they point to;
    [w_busy]: the keys the tree is destroying; [w_chans]: qccl:33-49; [w_old]: channels that are no longer in the index,
    whose goroutines and callbacks may still run; [w_up]: the process is running *)
Record willow := mkWillow {
  w_up : bool; w_lim : limiter; w_rule : string; w_queues : option (node nat); w_objs : list queue; w_busy : list string;
  w_chans : otm channel; w_old : list (string * KeyValues * channel) }.
Definition set_lim w x := mkWillow (w_up w) x (w_rule w) (w_queues w) (w_objs w) (w_busy w) (w_chans w) (w_old w).
Definition set_queues w t l := mkWillow (w_up w) (w_lim w) (w_rule w) t l (w_busy w) (w_chans w) (w_old w).
Definition set_busy w b := mkWillow (w_up w) (w_lim w) (w_rule w) (w_queues w) (w_objs w) b (w_chans w) (w_old w).
Definition set_chans w m := mkWillow (w_up w) (w_lim w) (w_rule w) (w_queues w) (w_objs w) (w_busy w) m (w_old w).
Definition set_old w l := mkWillow (w_up w) (w_lim w) (w_rule w) (w_queues w) (w_objs w) (w_busy w) (w_chans w) l.
Definition set_down w := mkWillow false (w_lim w) (w_rule w) (w_queues w) (w_objs w) (w_busy w) (w_chans w) (w_old w).

Definition QueueKey : string := "_willow_queue_name".
Definition EnqueuedKey : string := "_willow_enqueued".
Definition RunningKey : string := "_willow_running".
(** cmd/willow/main.go:74-77 *)
Definition rule_kv : KeyValues := [(QueueKey, Any); (EnqueuedKey, Any)].
(** memory_queue.go:41-44 *)
Definition queue_kv (q : string) : KeyValues := [(QueueKey, Str q); (EnqueuedKey, Str "true")].
(** Assigning to the keys of a Go map, in a loop over the key-values of a channel *)
Definition assign (base : KeyValues) (rename : string -> string) (kv : KeyValues) : KeyValues :=
  fold_left (fun m p => aset String.eqb (rename (fst p)) (snd p) m) kv base.
(** mqc:775-781, :839-845: the counter of the items stored in the channel kv of queue q *)
Definition enqueued_kv (q : string) (kv : KeyValues) : KeyValues := assign (queue_kv q) (fun k => append "_willow_" k) kv.
(** mqc:808-814, :869-875: the counter of the items of the channel that are being processed *)
Definition running_kv (q : string) (kv : KeyValues) : KeyValues := assign [(QueueKey, Str q); (RunningKey, Str "true")] (fun k => k) kv.

(** What happens outside in a step: two ids the generators may draw, and whether the limiter gets the locks it asks for *)
Record env := mkEnv { e_id : string; e_id2 : string; e_locked : bool }.

(** ** A step of a channel *)
Inductive counter := CEnqueued | CRunning.
Definition counter_of (x : counter) (q : string) (kv : KeyValues) : KeyValues :=
  match x with CEnqueued => enqueued_kv q kv | CRunning => running_kv q kv end.
(** The step with the limiter's answer *)
Definition granted (o : qop) (b : bool) : qop :=
  match o with OEnqueue p i _ => OEnqueue p i b | ORun _ => ORun b | _ => o end.
(** The counter the step increments before it goes on: mqc:386 and :594 *)
Definition wanted (o : qop) (a : qans) : option counter :=
  match o, a with
  | OEnqueue _ _ _, AStored _ => Some CEnqueued
  | ORun _, _ => Some CRunning
  | _, _ => None
  end.
Inductive lcall := Less (x : counter) | Zero (x : counter).
(** The other calls of the limiter that a step makes: mqc:439-447 (ack), :493 and :506 (a failed ack of an item being
    processed, or a timeout), :700, :724, :119, :123 *)
Definition calls (c : channel) (o : qop) (a : qans) : list lcall :=
  match o, a with
  | OAck _, AAcked => [Less CRunning; Less CEnqueued]
  | ONack i, AFailed f =>
      match get i (items c) with
      | Some x => match it_hb x with
                  | HbCreated | HbRunning => Less CRunning :: match f with Dropped => [Less CEnqueued] | _ => [] end
                  | _ => []
                  end
      | None => []
      end
  | OTimeout _, AFailed f => Less CRunning :: match f with Dropped => [Less CEnqueued] | _ => [] end
  | OFailRun, _ => [Less CRunning]
  | OFailBack, ABack _ Superseded => [Less CEnqueued]
  | OZeroEnq, _ => [Zero CEnqueued]
  | OZeroRun, _ => [Zero CRunning]
  | _, _ => []
  end.
Definition lcall_op (q : string) (kv : KeyValues) (x : lcall) (id : string) (e : env) : lop :=
  match x with
  | Less y => LUpsert (counter_of y q kv) (-1) id (e_locked e)
  | Zero y => LSet (counter_of y q kv) 0 id
  end.
(** [None]: the limiter answered with an error, on which the code panics or exits *)
Fixpoint run_calls (s : limiter) (q : string) (kv : KeyValues) (l : list lcall) (ids : list string) (e : env) : option limiter :=
  match l, ids with
  | [], _ => Some s
  | x :: l, i :: ids =>
      match lrun s (lcall_op q kv x i e) with
      | (s', LDone) => run_calls s' q kv l ids e
      | _ => None
      end
  | _ :: _, [] => None
  end.
(** Operation o of the channel kv of queue q; [None]: not possible now *)
Definition perform (s : limiter) (q : string) (kv : KeyValues) (c : channel) (o : qop) (e : env) : option (limiter * channel * qans) :=
  match qstep c (granted o true) with
  | None => None
  | Some (c', a) =>
      match wanted o a with
      | Some x =>
          match lrun s (LUpsert (counter_of x q kv) 1 (e_id e) (e_locked e)) with
          | (s', LDone) => Some (s', c', a)
          | (s', _) => match qstep c (granted o false) with Some (c', a) => Some (s', c', a) | None => None end
          end
      | None =>
          match run_calls s q kv (calls c o a) [e_id e; e_id2 e] e with
          | Some s' => Some (s', c', a)
          | None => Some (s, crash c', ACrash)
          end
      end
  end.

(** ** Answers *)
(** HTTP 201; 200 or 204; 409; 400; 404; 500; the request panicked; the process ended; what a channel answered (Channel.v);
    what the limiter answered *)
Inductive wans := XCreated | XOk | XConflict | XBad | XMissing | XFailed | XPanic | XCrash | XChan (a : qans) | XLimiter (a : lanswer).

(** ** Queues *)
(** The limiter's QueryOverrides, rules_client_local.go:313-341 and overrides_client_local.go:119-152: the ids found;
    [None] = error *)
Definition QueryOverrides (s : limiter) (rid : string) (q : Query) : option (list string) :=
  match find_rule s rid with
  | Some (Some _) =>
      match OtmQueryAction (l_over s) rid q (fun acc i => (acc ++ [m_id i], true)) [] with
      | Some (Some l) => Some l
      | _ => None
      end
  | _ => None
  end.
(** memory_queue.go:72-96 and :118-141: the queries of Update, with the number of keys, and of Destroy, without *)
Definition override_query (name : string) (n : option Z) : Query :=
  Q (Some (mkSel [] [(QueueKey, mkVQ (Str name) CEquals (mkTR T_string T_string));
                     (EnqueuedKey, mkVQ (Str "true") CEquals (mkTR T_string T_string))] n n)) None None.

(** queues_client_local.go:50-60 NewLocalQueueClient: btree.NewThreadSafe(2) *)
Definition order : nat := 2.
(** The lookup shared by all requests for a queue (e.g. queues_client_local.go:147): the pointer; [None] = not there.
    An error or a panic of the tree does not occur for a string key (C09). *)
Definition find_queue (t : option (node nat)) (name : string) : option nat :=
  match Find (fun (_ : option nat) _ p => (Some p, false)) t (Str name) (mkTR T_string T_string) None with
  | FOk r _ => r
  | _ => None
  end.
Definition busy (w : willow) (name : string) : bool := existsb (String.eqb name) (w_busy w).
Definition set_limit (l : list queue) (p : nat) (x : Z) : list queue :=
  match nth_error l p with Some q => set_nth p (mkQueue (q_name q) x) l | None => l end.

(** queues_client_local.go:116-154 GetQueue: the configured limit *)
Definition GetQueue (w : willow) (name : string) : option Z * wans :=
  if busy w name then (None, XConflict)
  else match find_queue (w_queues w) name with
       | Some p => match nth_error (w_objs w) p with Some q => (Some (q_limit q), XOk) | None => (None, XPanic) end
       | None => (None, XMissing)
       end.
(** queues_client_local.go:83-114 ListQueues: the names and configured limits *)
Definition ListQueues (w : willow) : option (list (string * Z)) :=
  match Find (fun acc k p => (acc ++ [(k, p)], true)) (w_queues w) Any (mkTR MinDataType MaxDataType) [] with
  | FOk l _ =>
      Some (flat_map (fun e => match ev_data (fst e), nth_error (w_objs w) (snd e) with
                               | PString s, Some q => [(s, q_limit q)]
                               | _, _ => []
                               end) l)
  | _ => None
  end.

(** queue_handler.go:17-38, queues_client_local.go:53-81 CreateQueue, memory_queue.go:31-62 New.  [max] is
    Spec.Properties.MaxItems; without Properties, New dereferences a nil pointer.  Where the override is refused, onCreate
    returns nil; a panic of onCreate leaves the tree in the same state (threadsafe_create.go:87-90 unlocks the nodes). *)
Definition CreateQueue (w : willow) (name : string) (max : option Z) (e : env) : willow * wans :=
  if String.eqb name EmptyString then (w, XBad)
  else if busy w name then (w, XConflict)
  else
    let refused s a :=
      match tree_create order (w_queues w) (Str name) None with
      | TOk t => (set_queues (set_lim w s) t (w_objs w), a)
      | _ => (w, XPanic)
      end in
    match tree_create order (w_queues w) (Str name) (Some (length (w_objs w))) with
    | TExists _ _ => (w, XConflict)
    | TPanic => (w, XPanic)
    | TOk t =>
        match max with
        | None => refused (w_lim w) XPanic
        | Some m =>
            match lrun (w_lim w) (LCreateOverride (w_rule w) (queue_kv name) (e_id e) m) with
            | (s, LCreated _) => (set_queues (set_lim w s) t (w_objs w ++ [mkQueue name m]), XCreated)
            | (s, _) => refused s XFailed
            end
        end
    end.
(** queues_client_local.go:156-176 UpdateQueue, memory_queue.go:66-110: the limit is stored first *)
Definition UpdateQueue (w : willow) (name : string) (max : Z) : willow * wans :=
  if busy w name then (w, XConflict)
  else match find_queue (w_queues w) name with
       | None => (w, XMissing)
       | Some p =>
           let w := set_queues w (w_queues w) (set_limit (w_objs w) p max) in
           match QueryOverrides (w_lim w) (w_rule w) (override_query name (Some 2)) with
           | Some [oid] =>
               let '(s, a) := lrun (w_lim w) (LUpdateOverride (w_rule w) oid max) in
               (set_lim w s, match a with LDone => XOk | _ => XFailed end)
           | _ => (w, XPanic)
           end
       end.
(** queues_client_local.go:178-207 DeleteQueue, up to the call of DestroyChannelsForQueue; an unknown queue is no error *)
Definition DeleteQueue (w : willow) (name : string) : willow * wans :=
  if busy w name then (w, XConflict)
  else match find_queue (w_queues w) name with
       | None => (w, XOk)
       | Some _ => (set_busy w (name :: w_busy w), XOk)
       end.
Definition not_busy (w : willow) (name : string) : willow := set_busy w (filter (fun x => negb (String.eqb name x)) (w_busy w)).
(** ... once the channels are gone (qccl:87-110): memory_queue.go:112-156 Destroy, and the removal of the queue *)
Definition DropQueue (w : willow) (name : string) : option (willow * wans) :=
  if busy w name && match otm_get (w_chans w) name with Some t => match a_items t with [] => true | _ => false end | None => true end
  then
    let w := set_chans w (fst (OtmDestroyOne (w_chans w) name (fun _ => true))) in
    match QueryOverrides (w_lim w) (w_rule w) (override_query name None) with
    | Some [oid] =>
        match lrun (w_lim w) (LDeleteOverride (w_rule w) oid) with
        | (s, LDone) =>
            match tree_delete order (w_queues w) (Str name) (fun _ _ => true) with
            | TDOk t _ => Some (not_busy (set_queues (set_lim w s) t (w_objs w)) name, XOk)
            | TDPanic => Some (not_busy (set_lim w s) name, XPanic)
            end
        | (s, _) => Some (not_busy (set_lim w s) name, XFailed)
        end
    | _ => Some (not_busy w name, XPanic)
    end
  else None.

(** ** Channels *)
(** The counters' values when a channel is made.  The channel never reads them: they only tell what its own counting
    (enq and run of Channel.v) starts from. *)
Definition count_of (s : limiter) (kv : KeyValues) : nat :=
  match find (fun i => AssocProofs.kv_sameb (it_kv i) kv) (a_items (l_counts s)) with Some i => Z.to_nat (it_val i) | None => O end.
(** The end of the process, if the answer says so *)
Definition outcome (w : willow) (a : qans) : willow * wans :=
  match a with ACrash => (set_down w, XCrash) | _ => (w, XChan a) end.

(** item_handler.go:15-35, queues_client_local.go:232-249 Enqueue, qccl:151-195 EnqueueQueueItem.  [i]: the id the item
    may get; e_id2 is the id of the channel, if it is new.  A refused item of a new channel: onCreate returns nil. *)
Definition Enqueue (w : willow) (name : string) (kv : KeyValues) (p : props) (i : id) (e : env) : option (willow * wans) :=
  if negb (kv_validate kv MinDataType MaxWithoutAnyDataType) then Some (w, XBad)
  else if busy w name then Some (w, XFailed)
  else match find_queue (w_queues w) name with
       | None => Some (w, XMissing)
       | Some _ =>
           let c0 := newChannel (count_of (w_lim w) (enqueued_kv name kv)) (count_of (w_lim w) (running_kv name kv)) in
           let made := perform (w_lim w) name kv c0 (OEnqueue p i true) e in
           let mk := match made with Some (_, c, AStored _) => Some c | _ => None end in
           match OtmCreateOrFind (w_chans w) name kv (e_id2 e) mk with
           | (_, RFound it) =>
               let ch := it_val it in
               match perform (w_lim w) name (m_kv ch) (m_val ch) (OEnqueue p i true) e with
               | Some (s, c, a) => Some (outcome (set_chans (set_lim w s) (otm_update (w_chans w) name (m_id ch) (fun _ => c))) a)
               | None => None
               end
           | (_, RInvalid) => Some (w, XFailed)
           | (m, _) =>
               match made with
               | Some (s, _, a) => Some (outcome (set_chans (set_lim w s) m) a)
               | None => None
               end
           end
       end.

(** The channel with exactly these key-values, found through the index: qccl:285 and :335.  [None] = panic *)
Definition find_channel (m : otm channel) (name : string) (kv : KeyValues) : option (option (many channel)) :=
  match OtmQueryAction m name (ExactQuery kv) (fun (_ : option (many channel)) x => (Some x, false)) None with
  | Some (Some r) => Some r
  | _ => None
  end.
(** queues_client_local.go:288-311 Ack and :313-336 Heartbeat, qccl:270-343; [o] is the operation of the channel.  The
    attempt to delete the channel after an ack (qccl:299-316) is [Expire]. *)
Definition ItemRequest (w : willow) (name : string) (kv : KeyValues) (o : qop) (e : env) : option (willow * wans) :=
  if negb (kv_validate kv MinDataType MaxWithoutAnyDataType) then Some (w, XBad)
  else if busy w name then Some (w, XConflict)
  else match find_queue (w_queues w) name with
       | None => Some (w, XMissing)
       | Some _ =>
           match find_channel (w_chans w) name kv with
           | Some (Some ch) =>
               match perform (w_lim w) name (m_kv ch) (m_val ch) o e with
               | Some (s, c, a) => Some (outcome (set_chans (set_lim w s) (otm_update (w_chans w) name (m_id ch) (fun _ => c))) a)
               | None => None
               end
           | Some None => Some (w, XMissing)
           | None => Some (w, XPanic)
           end
       end.
(** The item of the index with these key-values: DeleteOneOfManyByKeyValues (threadsafe_delete.go:23-69) calls back with
    it; the callback can take several steps, the item being locked all the time *)
Definition indexed_channel (m : otm channel) (name : string) (kv : KeyValues) : option (many channel) :=
  match otm_get m name with
  | Some t => option_map it_val (delete_target t kv)
  | None => None
  end.
(** channel_handler.go:42-65: the key-values are decoded and validated, and the request goes on whatever the outcome
    (a body that cannot be decoded leaves any of the key-values that it has, Models.v left_behind); queues_client_local.go:270-286, qccl:112-131: an error of the index ends the
    process *)
Definition DeleteChannel (w : willow) (name : string) (kv : KeyValues) : option (willow * wans) :=
  if busy w name then Some (w, XFailed)
  else match find_queue (w_queues w) name with
       | None => Some (w, XMissing)
       | Some _ =>
           if negb (kv_validate kv MinDataType MaxDataType) then Some (set_down w, XCrash)
           else match indexed_channel (w_chans w) name kv with
                | None => Some (w, XOk)
                | Some ch =>
                    match qstep (m_val ch) OClose with
                    | Some (c, _) => Some (set_chans w (otm_update (w_chans w) name (m_id ch) (fun _ => c)), XOk)
                    | None => None
                    end
                end
       end.
(** A channel leaves the index *)
Definition remove_channel (w : willow) (name : string) (ch : many channel) (c : channel) : willow :=
  set_old (set_chans w (fst (OtmDelete (w_chans w) name (m_kv ch) (fun x => String.eqb (m_id x) (m_id ch)))))
          ((name, m_kv ch, c) :: w_old w).
(** qccl:133-149 attemptDeleteChannel and qccl:299-316: an empty channel is removed *)
Definition Expire (w : willow) (name : string) (kv : KeyValues) : option (willow * wans) :=
  match indexed_channel (w_chans w) name kv with
  | None => None
  | Some ch =>
      match qstep (m_val ch) ODelete with
      | Some (c, AUnit) => Some (remove_channel w name ch c, XOk)
      | _ => None
      end
  end.

(** ** Background *)
(** Operations of a channel that are no request *)
Definition background (o : qop) : bool :=
  match o with OEnqueue _ _ _ | OAck _ | ONack _ | OBeat _ | ODelete | OClose | OShutdown => false | _ => true end.
Definition channel_by_id (m : otm channel) (name cid : string) : option (many channel) :=
  match otm_get m name with
  | Some t => option_map it_val (find_item (a_items t) cid)
  | None => None
  end.
(** A background step of a channel in the index; the end of ForceDelete removes it *)
Definition Tick (w : willow) (name cid : string) (o : qop) (e : env) : option (willow * wans) :=
  if negb (background o) then None
  else match channel_by_id (w_chans w) name cid with
       | None => None
       | Some ch =>
           match perform (w_lim w) name (m_kv ch) (m_val ch) o e with
           | None => None
           | Some (s, c, a) =>
               let w := set_lim w s in
               match o with
               | OWipe => Some (remove_channel w name ch c, XChan a)
               | _ => Some (outcome (set_chans w (otm_update (w_chans w) name (m_id ch) (fun _ => c))) a)
               end
           end
       end.
(** qccl:90-96: DeleteQueue reaches the channel *)
Definition CloseForQueue (w : willow) (name cid : string) : option (willow * wans) :=
  if negb (busy w name) then None
  else match channel_by_id (w_chans w) name cid with
       | None => None
       | Some ch =>
           match qstep (m_val ch) OClose with
           | Some (c, a) => Some (set_chans w (otm_update (w_chans w) name (m_id ch) (fun _ => c)), XOk)
           | None => None
           end
       end.
(** A step of a channel that has left the index *)
Definition TickOld (w : willow) (n : nat) (o : qop) (e : env) : option (willow * wans) :=
  if negb (background o) then None
  else match nth_error (w_old w) n with
       | None => None
       | Some (name, kv, c) =>
           match perform (w_lim w) name kv c o e with
           | None => None
           | Some (s, c', a) => Some (outcome (set_old (set_lim w s) (set_nth n (name, kv, c') (w_old w))) a)
           end
       end.

(** ** The service *)
Inductive wop :=
| WCreateQueue (name : string) (max : option Z)
| WUpdateQueue (name : string) (max : Z)
| WDeleteQueue (name : string)
| WDropQueue (name : string)
| WEnqueue (name : string) (kv : KeyValues) (p : props) (i : id)
| WAck (name : string) (kv : KeyValues) (i : id) (passed : bool)
| WBeat (name : string) (kv : KeyValues) (i : id)
| WDeleteChannel (name : string) (kv : KeyValues)
| WExpire (name : string) (kv : KeyValues)
| WTick (name cid : string) (o : qop)
| WClose (name cid : string)
| WOld (n : nat) (o : qop)
| WLimiter (x : lop). (* another client of the limiter *)
Definition wstep (w : willow) (o : wop) (e : env) : option (willow * wans) :=
  if negb (w_up w) then None
  else match o with
       | WCreateQueue name max => Some (CreateQueue w name max e)
       | WUpdateQueue name max => Some (UpdateQueue w name max)
       | WDeleteQueue name => Some (DeleteQueue w name)
       | WDropQueue name => DropQueue w name
       | WEnqueue name kv p i => Enqueue w name kv p i e
       | WAck name kv i passed => ItemRequest w name kv (if passed then OAck i else ONack i) e
       | WBeat name kv i => ItemRequest w name kv (OBeat i) e
       | WDeleteChannel name kv => DeleteChannel w name kv
       | WExpire name kv => Expire w name kv
       | WTick name cid o => Tick w name cid o e
       | WClose name cid => CloseForQueue w name cid
       | WOld n o => TickOld w n o e
       | WLimiter x => let '(s, a) := lrun (w_lim w) x in Some (set_lim w s, XLimiter a)
       end.
(** cmd/willow/main.go:70-104: [None]: the limiter refuses the rule, and the process ends *)
Definition start (s : limiter) (id : string) : option willow :=
  match lrun s (LCreateRule rule_kv id 0) with
  | (s', LCreated rid) => Some (mkWillow true s' rid None [] [] [] [])
  | _ => None
  end.
