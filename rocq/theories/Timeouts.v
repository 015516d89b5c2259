(** Model of the timeouts of locks and queue items, from a request to the tickers that are made with them: the locker
    service, the willow service and their clients.  Durations are int64 nanoseconds.  No proofs in this file. *)
From Coq Require Import ZArith Bool.
Local Open Scope Z_scope.

Definition int64 (z : Z) : Prop := - 2 ^ 63 <= z < 2 ^ 63.
(** time.NewTicker (go 1.22): "The duration d must be greater than zero; if not, NewTicker will panic" *)
Definition ticker_panics (d : Z) : bool := d <=? 0.

(** pkg/models/api/locker/v1/lock.go:119-127 LockProperties.Validate; the timeout is optional (nil) *)
Definition lock_accepted (t : option Z) : bool := match t with Some d => negb (d =? 0) | None => true end.
(** internal/config/locker_config.go:159-161 *)
Definition default_accepted (d : Z) : bool := negb (d <=? 0).
(** lock.go:24-33 SetDefaultProperties *)
Definition lock_timeout (default : Z) (t : option Z) : Z := match t with Some d => d | None => default end.
(** internal/locker/lock_manager/exclusive_lock.go:130-134: the goroutine of the lock makes a ticker with the timeout of the
    client that claims it; nothing recovers a panic there, so it ends the service *)
Definition locker_ends (default : Z) (t : option Z) : bool := lock_accepted t && ticker_panics (lock_timeout default t).
(** pkg/clients/locker_client/locker_client.go:131-141 validates like the service (ObjectEncodeRequest); lock.go:88-91: the
    heartbeat goroutine of a lock, whose timeout is that of the answer *)
Definition beat_every (d : Z) : Z := Z.quot (d - Z.quot d 10) 3.
Definition lock_client_ends (default : Z) (t : option Z) : bool :=
  lock_accepted t && (ticker_panics (beat_every (lock_timeout default t)) || ticker_panics (lock_timeout default t)).

(** pkg/models/api/willow/v1/item.go:140-142: the timeout must be given *)
Definition item_accepted (t : option Z) : bool := match t with Some _ => true | None => false end.
(** internal/heartbeater/heartbeater.go:86, in the goroutine of an item that a client dequeued *)
Definition willow_ends (t : option Z) : bool := match t with Some d => item_accepted t && ticker_panics d | None => false end.
(** pkg/clients/willow_client/item.go:67-69 *)
Definition item_client_ends (t : option Z) : bool := match t with Some d => item_accepted t && ticker_panics (beat_every d) | None => false end.
