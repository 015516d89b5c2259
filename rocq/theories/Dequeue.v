(** Model of how a waiting dequeue finds its channels: internal/willow/brokers/queue_channels/queue_channels_client_local.go (EnqueueQueueItem :151-193,
    DequeueQueueItem :213-279, addClientWaiting, removeClientWaiting, updateClientsWaiting :340-385).  No proofs in this file.

    Time is the number of steps.  A channel is named by the id its tree gives it.  What a client is offered is the set of channels merged into its
    reader; reading from them (which channel is served, when) is left to github.com/DanLavine/channelops, which is not part of the repository:
    a merged channel stays merged until the call ends.  The items of the channels are in Channel.v.  Not modelled: server shutdown. *)
From Verif Require Import Datatypes SpecValues Query SpecQuery Assoc SpecAssoc QuerySync.
Local Open Scope nat_scope.

(** A creation whose id nodes are locked (btree_associated/threadsafe_create.go:246-308), until it is stored and they are unlocked (:325-333).
    [m_told]: updateClientsWaiting is done; it runs inside the creation callback (queue_channels_client_local.go:173-178), before the item is stored *)
Record making := mkMaking { m_queue : string; m_id : string; m_kv : KeyValues; m_told : bool }.
(** clientWaiting, queue_channels_client_local.go:27-40: [c_since] is the moment it was added (:226), [c_scanned] that the background query
    (:230-253) has visited all its channels, [c_got] the merged channels *)
Record client := mkClient { c_no : nat; c_queue : string; c_query : Query; c_since : nat; c_scanned : bool; c_got : list string }.
(** the channels of every queue (one_to_many.go: a tree of associated trees), the ids drawn in it, the creations under way, the waiting clients *)
Record dstate := mkD { d_tree : string -> atree unit; d_used : string -> list string; d_new : list making; d_clients : list client }.

Definition upd {X} (f : string -> X) (q : string) (x : X) : string -> X := fun q' => if String.eqb q' q then x else f q'.

(** updateClientsWaiting :373-385, for one client; MatchTags does not change anything if it does not return true *)
Definition tell (q x : string) (kv : KeyValues) (c : client) : client :=
  if String.eqb (c_queue c) q
  then match MatchTags (c_query c) kv with
       | Some true => mkClient (c_no c) (c_queue c) (c_query c) (c_since c) (c_scanned c) (c_got c ++ [x])
       | _ => c
       end
  else c.

(** The node of (k, v) of queue q is locked by a creation *)
Definition locked (d : dstate) (q k : string) (v : EV) : Prop :=
  exists m mv, In m (d_new d) /\ m_queue m = q /\ kv_get (m_kv m) k = Some mv /\ veq mv v = true.

(** One step of everything, at moment n; [ex] are the states up to now, which the background queries have been reading *)
Inductive dstep (ex : nat -> dstate) (n : nat) : dstate -> dstate -> Prop :=
| D_nothing d : dstep ex n d d
(* the id nodes are locked and nothing is stored under these key-values: the creation callback starts *)
| D_begin d q x kv : kv_arg kv -> kv_valid kv -> x <> EmptyString -> ~ In x (d_used d q) -> (forall m, In m (d_new d) -> m_queue m = q -> m_id m <> x) ->
    ~ holds_kv (d_tree d q) kv -> (forall k v, kv_get kv k = Some v -> ~ locked d q k v) ->
    dstep ex n d (mkD (d_tree d) (d_used d) (mkMaking q x kv false :: d_new d) (d_clients d))
(* :173-178, with clientsWaitingLock held throughout *)
| D_tell d l q x kv r : d_new d = l ++ mkMaking q x kv false :: r ->
    dstep ex n d (mkD (d_tree d) (d_used d) (l ++ mkMaking q x kv true :: r) (map (tell q x kv) (d_clients d)))
(* the new channel is stored *)
| D_store d l q x kv r : d_new d = l ++ mkMaking q x kv true :: r ->
    dstep ex n d (mkD (upd (d_tree d) q (fst (arun (d_tree d q) (ACreate kv x (Some tt))))) (upd (d_used d) q (x :: d_used d q)) (l ++ r) (d_clients d))
(* :166-169: the first item was refused, nothing is stored *)
| D_fail d l q x kv r : d_new d = l ++ mkMaking q x kv false :: r -> dstep ex n d (mkD (d_tree d) (d_used d) (l ++ r) (d_clients d))
(* channels are deleted *)
| D_delete d q o : op_arg o -> op_id o = None -> dstep ex n d (mkD (upd (d_tree d) q (fst (arun (d_tree d q) o))) (d_used d) (d_new d) (d_clients d))
(* :225-226 *)
| D_wait d no q query : (forall c, In c (d_clients d) -> c_no c <> no) -> q_validate query = true ->
    dstep ex n d (mkD (d_tree d) (d_used d) (d_new d) (d_clients d ++ [mkClient no q query (Datatypes.S n) false []]))
(* :230-253: the background query of a client ran from [from] to now; [cut] of its channels are merged (fewer than all if the call has got an item) *)
| D_scan d l no q query since got r from its cut : d_clients d = l ++ mkClient no q query since false got :: r -> since <= from ->
    action_run (fun i => d_tree (ex i) q) (fun i k v => ~ locked (ex i) q k v) from query n its ->
    dstep ex n d (mkD (d_tree d) (d_used d) (d_new d)
      (l ++ mkClient no q query since (Nat.leb (length its) cut) (got ++ map it_id (firstn cut its)) :: r))
(* :227: the call has ended *)
| D_end d l c r : d_clients d = l ++ c :: r -> dstep ex n d (mkD (d_tree d) (d_used d) (d_new d) (l ++ r)).

Definition empty_service : dstate := mkD (fun _ => mkTree [] []) (fun _ => []) [] [].
Definition execution (ex : nat -> dstate) : Prop := ex 0 = empty_service /\ forall n, dstep ex n (ex n) (ex (Datatypes.S n)).
