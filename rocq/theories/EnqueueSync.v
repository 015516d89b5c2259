(** Model of concurrent enqueues of one queue: internal/willow/brokers/queue_channels/queue_channels_client_local.go:152-197
    [EnqueueQueueItem], over the concurrent calls of [AssocSync.v].  No proofs in this file.
    The channels of a queue are the items of an associated tree (btree_one_to_many/threadsafe_create.go:46-98); an enqueue is a
    CreateOrFind.  The onCreate callback makes a channel and puts the item in it; it returns nil when that is refused
    (queue_channels_client_local.go:157-178; [nils] of [AssocSync.v]: some such enqueue is refused).  The onFind callback puts the item in the channel
    found, which may refuse it too ([took]).  The first channel of a queue is created with the tree, under a lock of its own
    (threadsafe_create.go:100-107); this is not modelled. *)
From Verif Require Import AssocSync.

(** What the client is told: 201; the error of the channel; 500 *)
Inductive reply := Accepted | Refused | Failed.
(** queue_channels_client_local.go:154, :163, :183, :186-196 and threadsafe_create.go:76-92: the variable enqueueError is nil at first and set by the
    callbacks; an error of the tree is answered with 500 *)
Definition enqueue_reply (took : bool) (r : result) : option reply :=
  match r with
  | RCreated _ => Some Accepted
  | RFound _ => Some (if took then Accepted else Refused)
  | RNil => Some Refused
  | RNeither => Some Accepted
  | RBusy => Some Failed
  | _ => None
  end.
(** The channel the item was put in, if any *)
Definition put_in (took : bool) (r : result) (x : nat) : Prop := r = RCreated x \/ (r = RFound x /\ took = true).
