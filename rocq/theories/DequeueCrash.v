(** Model of when the background search of a dequeue ends the service: internal/willow/brokers/queue_channels/queue_channels_client_local.go
    (DequeueQueueItem :213-279), internal/willow/brokers/queues/queues_client_local.go (Dequeue :252-271, DeleteQueue :182-209) and
    internal/datastructures/btree_one_to_many (QueryAction, threadsafe_query.go:24-60; DestroyOne, threadsafe_destroy.go:23-59), for one queue.
    No proofs in this file.  A panic in a handler is caught by net/http; the search runs in a goroutine of its own (:230-253), where a panic ends
    the process.  Simplified: a search is one step (that it may overlap other calls is in QuerySync.v; whether it panics depends on the query only). *)
From Verif Require Import Datatypes SpecValues Query SpecQuery Assoc SpecAssoc.
Local Open Scope nat_scope.

(** A dequeue: [dq_waits]: its handler is still inside DequeueQueueItem; [dq_searches]: its search has not ended *)
Record dequeue := mkDq { dq_query : Query; dq_waits : bool; dq_searches : bool }.
(** DeleteQueue: the queue's key is marked and locked ([Deleting], btree/threadsafe_destroy.go:28-40), then the key of its channels as well ([Wiping],
    btree_one_to_many/threadsafe_destroy.go:48) *)
Inductive phase := Serving | Deleting | Wiping | Gone.
(** [sv_chans]: the associated tree of the queue's channels, there since the first enqueue; [sv_used]: the ids drawn for it *)
Record service := mkSv { sv_phase : phase; sv_chans : option (atree unit); sv_used : list string; sv_dqs : list dequeue; sv_up : bool }.

Inductive sstep : service -> service -> Prop :=
(* queues_client_local.go:252-268: the queue's node is read-locked until the call ends; the handler has validated the query
   (api/v1/handlers: DequeueQueueItem) *)
| S_dequeue s q : sv_up s = true -> sv_phase s = Serving -> q_validate q = true -> query_no_nan q ->
    sstep s (mkSv Serving (sv_chans s) (sv_used s) (sv_dqs s ++ [mkDq q true true]) true)
(* :257-278: an item is found (maybe in a channel created meanwhile, :373-385), or the client has gone; nothing waits for the search *)
| S_return s l q b r : sv_up s = true -> sv_dqs s = l ++ mkDq q true b :: r ->
    sstep s (mkSv (sv_phase s) (sv_chans s) (sv_used s) (l ++ mkDq q false b :: r) true)
(* channels come and go with enqueues, acks and expired items *)
| S_channel s o : sv_up s = true -> sv_phase s = Serving -> op_arg o -> (forall id, op_id o = Some id -> ~ In id (sv_used s) /\ id <> EmptyString) ->
    sstep s (mkSv Serving (Some (fst (arun (match sv_chans s with Some t => t | None => mkTree [] [] end) o)))
      (match op_id o with Some id => id :: sv_used s | None => sv_used s end) (sv_dqs s) true)
(* :244 the search: nothing to search before the first enqueue, or after the deletion *)
| S_search s l q b r : sv_up s = true -> sv_dqs s = l ++ mkDq q b true :: r -> sv_phase s <> Wiping ->
    (sv_chans s = None \/ exists t its, sv_chans s = Some t /\ query_items t q = Some (Some its)) ->
    sstep s (mkSv (sv_phase s) (sv_chans s) (sv_used s) (l ++ mkDq q b false :: r) true)
(* threadsafe_query.go:56-58 of btree_associated: the use of a nil set *)
| S_panics s l q b r t : sv_up s = true -> sv_dqs s = l ++ mkDq q b true :: r -> sv_phase s <> Wiping ->
    sv_chans s = Some t -> query_items t q = None ->
    sstep s (mkSv (sv_phase s) (sv_chans s) (sv_used s) (sv_dqs s) false)
(* :246-250: the tree answers ErrorOneIDDestroying, which is panicked with *)
| S_busy s l q b r : sv_up s = true -> sv_dqs s = l ++ mkDq q b true :: r -> sv_phase s = Wiping ->
    sstep s (mkSv (sv_phase s) (sv_chans s) (sv_used s) (sv_dqs s) false)
(* queues_client_local.go:182-197: the callback of Destroy runs once the node is write-locked, when no dequeue waits *)
| S_delete s : sv_up s = true -> sv_phase s = Serving -> (forall d, In d (sv_dqs s) -> dq_waits d = false) ->
    sstep s (mkSv Deleting (sv_chans s) (sv_used s) (sv_dqs s) true)
| S_wipe s : sv_up s = true -> sv_phase s = Deleting -> sstep s (mkSv Wiping (sv_chans s) (sv_used s) (sv_dqs s) true)
| S_gone s : sv_up s = true -> sv_phase s = Wiping -> sstep s (mkSv Gone None [] (sv_dqs s) true)
(* the queue is created again *)
| S_again s : sv_up s = true -> sv_phase s = Gone -> sstep s (mkSv Serving None [] (sv_dqs s) true).

Inductive sreach : service -> Prop :=
| SR_start : sreach (mkSv Serving None [] [] true)
| SR_step s s' : sreach s -> sstep s s' -> sreach s'.
