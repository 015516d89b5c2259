(** Model of internal/locker/lock_manager (exclusive_locker.go, exclusive_lock.go): any number of clients, keys and lock
    objects, every goroutine arbitrarily slow, and time.  No proofs in this file.

    Modelled: ObtainLock, Heartbeat, Release, timeout, LocksQuery and the Execute loop of every lock, with their channel
    handshakes.  A send and its receive on an unbuffered channel are one step, and so is the answer that follows without
    another choice in between.  The tree (C20-C24) is the map [lm_cur] from key-values to the stored lock; what matters
    of its locking is that a canDelete callback runs alone on its key (threadsafe_delete.go of btree_associated :74-152
    holds the id nodes and the B-tree node) and that Heartbeat's callback excludes it ([lm_busy], [lm_beats]).  The B-tree
    locks also make calls on different keys wait for each other; that is not modelled.
    Not modelled here: server shutdown (the cancelled context; see LockerStop.v), logging, and the values of lastHeartbeat.
    time.Ticker is that of go 1.22 (go.mod): one buffered tick, drained by neither Reset nor Stop. *)
From Coq Require Import List Bool Arith String.
From Verif Require Import DestroySync.
Import ListNotations.
Local Open Scope nat_scope.
Local Open Scope list_scope.

Section Locker.
Variable key : Type.
Variable key_dec : forall a b : key, {a = b} + {a <> b}.

(** Where the Execute of a lock is, with the session it holds (exclusive_lock.go:99-259) *)
Inductive phase :=
| LIdle                                                        (* :107 *)
| LClaimed (i d : nat)                                         (* :130, client i has the claim function, :131 waits *)
| LHeld (s : string) (d next : nat) (tick : bool)              (* :138, next tick due, a tick is buffered *)
| LFired (s : string) (d next : nat) (tick : bool)             (* :217 took the tick, :218 has not stopped the ticker *)
| LTimingOut (tick begun : bool)                               (* :138 again, session cleared, blockDone full; [begun]:
                                                                  the goroutine of :238 is inside the canDelete of :229 *)
| LStuck                                                       (* :236 or :245 blocks for ever *)
| LDone                                                        (* returned *)
| LPanic.                                                      (* :161 *)
Record lock := mkLock { l_key : key; l_ph : phase; l_cnt : nat }.
(** Where the ObtainLock of a client is (exclusive_locker.go:61-133); [j] is the lock whose claim channel it has *)
Inductive client :=
| CNew | CWait (j d : nat) | CClaim (j : nat) | CGone (j : nat) | CLeaving (j : nat) | CGot (s : string) | CEnd.
(** A canDelete callback that is running: for a lost client, for Release(r, s), for the timeout; [j] is the stored lock *)
Inductive deletion := DLost (i j : nat) | DRel (j r : nat) (s : string) | DTime (j : nat).
Record locker := mkLm {
  lm_now : nat;
  lm_next : nat;                          (* locks made so far *)
  lm_lock : nat -> lock;
  lm_cur : key -> option nat;             (* the tree: the stored lock *)
  lm_busy : key -> option deletion;
  lm_beats : key -> list (nat * string);  (* heartbeats inside the tree's callback *)
  lm_client : nat -> client;
  lm_sess : list string }.                (* session ids generated so far *)

Inductive lk_event :=
| LJoin (i : nat) (k : key)               (* ObtainLock of client i registered *)
| LGrant (i : nat) (k : key) (j : nat) (s : string) (d : nat)   (* ObtainLock returns lock id j, session s; timeout d *)
| LBeat (k : key) (j : nat) (s : string) (ok : bool)            (* Heartbeat(lock id j, session s) returns *)
| LRelease (k : key) (j : nat) (s : string) (ok : bool)
| LExpire (k : key) (s : string)          (* the session is cleared because of the timeout *)
| LHandOn (k : key)                       (* the timeout has been processed *)
| LLost (i : nat) (k : key).              (* a disconnected client deregistered *)

Definition lm_init (k0 : key) : locker :=
  mkLm 0 0 (fun _ => mkLock k0 LDone 0) (fun _ => None) (fun _ => None) (fun _ => []) (fun _ => CNew) [].

Definition upd_nat {X} (f : nat -> X) (i : nat) (x : X) : nat -> X := fun j => if Nat.eqb j i then x else f j.
Definition upd_key {X} (f : key -> X) (k : key) (x : X) : key -> X := fun k' => if key_dec k' k then x else f k'.

(** the sessionID field *)
Definition session_of (p : phase) : string := match p with LHeld s _ _ _ | LFired s _ _ _ => s | _ => EmptyString end.
Definition set_ph (p : phase) (l : lock) : lock := mkLock (l_key l) p (l_cnt l).
Definition set_cnt (n : nat) (l : lock) : lock := mkLock (l_key l) (l_ph l) n.

Definition with_time (st : locker) (d : nat) : locker :=
  mkLm (lm_now st + d) (lm_next st) (lm_lock st) (lm_cur st) (lm_busy st) (lm_beats st) (lm_client st) (lm_sess st).
Definition with_lock (st : locker) (j : nat) (l : lock) : locker :=
  mkLm (lm_now st) (lm_next st) (upd_nat (lm_lock st) j l) (lm_cur st) (lm_busy st) (lm_beats st) (lm_client st) (lm_sess st).
Definition with_client (st : locker) (i : nat) (c : client) : locker :=
  mkLm (lm_now st) (lm_next st) (lm_lock st) (lm_cur st) (lm_busy st) (lm_beats st) (upd_nat (lm_client st) i c) (lm_sess st).
Definition with_busy (st : locker) (k : key) (b : option deletion) : locker :=
  mkLm (lm_now st) (lm_next st) (lm_lock st) (lm_cur st) (upd_key (lm_busy st) k b) (lm_beats st) (lm_client st) (lm_sess st).
Definition with_cur (st : locker) (k : key) (c : option nat) : locker :=
  mkLm (lm_now st) (lm_next st) (lm_lock st) (upd_key (lm_cur st) k c) (lm_busy st) (lm_beats st) (lm_client st) (lm_sess st).
Definition with_beats (st : locker) (k : key) (b : list (nat * string)) : locker :=
  mkLm (lm_now st) (lm_next st) (lm_lock st) (lm_cur st) (lm_busy st) (upd_key (lm_beats st) k b) (lm_client st) (lm_sess st).
Definition with_session (st : locker) (s : string) : locker :=
  mkLm (lm_now st) (lm_next st) (lm_lock st) (lm_cur st) (lm_busy st) (lm_beats st) (lm_client st) (s :: lm_sess st).
(** exclusive_locker.go:69-87 onCreate, with newExclusiveLock and GetClaimChannel (exclusive_lock.go:64-95, :296-299) *)
Definition with_new (st : locker) (k : key) : locker :=
  mkLm (lm_now st) (S (lm_next st)) (upd_nat (lm_lock st) (lm_next st) (mkLock k LIdle 1))
       (upd_key (lm_cur st) k (Some (lm_next st))) (lm_busy st) (lm_beats st) (lm_client st) (lm_sess st).

(** clientsWaitingForClaim.Add(^uint64(0)) and what follows it at :120-125, :203-209, :247-254: with no client left the
    Execute returns and the tree removes the lock, else the lock goes on in phase [p]; the callback is over *)
Definition drop_client (st : locker) (k : key) (j : nat) (p : phase) : locker :=
  let l := lm_lock st j in
  let n := l_cnt l - 1 in
  match n with
  | 0 => with_busy (with_cur (with_lock st j (mkLock (l_key l) LDone 0)) k None) k None
  | _ => with_busy (with_lock st j (mkLock (l_key l) p n)) k None
  end.

Inductive lk_step : locker -> option lk_event -> locker -> Prop :=
| K_time st d : lk_step st None (with_time st d)
(* the runtime's ticker; it runs until it is stopped *)
| K_fire st j s d next tick : l_ph (lm_lock st j) = LHeld s d next tick -> next <= lm_now st ->
    lk_step st None (with_lock st j (set_ph (LHeld s d (next + d) true) (lm_lock st j)))
| K_fire_again st j s d next tick : l_ph (lm_lock st j) = LFired s d next tick -> next <= lm_now st ->
    lk_step st None (with_lock st j (set_ph (LFired s d (next + d) true) (lm_lock st j)))
(* exclusive_locker.go:93 CreateOrFind: no lock for the key *)
| K_join_new st i k d : lm_client st i = CNew -> lm_busy st k = None -> lm_cur st k = None ->
    lk_step st (Some (LJoin i k)) (with_client (with_new st k) i (CWait (lm_next st) d))
(* :89-91 onFind, exclusive_lock.go:296-299 *)
| K_join st i k j d : lm_client st i = CNew -> lm_busy st k = None -> lm_cur st k = Some j ->
    lk_step st (Some (LJoin i k))
      (with_client (with_lock st j (set_cnt (S (l_cnt (lm_lock st j))) (lm_lock st j))) i (CWait j d))
(* exclusive_locker.go:108 with exclusive_lock.go:130 *)
| K_claim st i j d : lm_client st i = CWait j d -> l_ph (lm_lock st j) = LIdle ->
    lk_step st None (with_client (with_lock st j (set_ph (LClaimed i d) (lm_lock st j))) i (CClaim j))
(* exclusive_locker.go:118-128, exclusive_lock.go:268-289, :131-134; the id generator never repeats (uuid) *)
| K_grant st i j d s : l_ph (lm_lock st j) = LClaimed i d -> ~ In s (lm_sess st) -> s <> EmptyString ->
    lk_step st (Some (LGrant i (l_key (lm_lock st j)) j s d))
      (with_session (with_client (with_lock st j (set_ph (LHeld s d (lm_now st + d) false) (lm_lock st j))) i (CGot s)) s)
(* exclusive_locker.go:100 *)
| K_gone st i j d : lm_client st i = CWait j d -> lk_step st None (with_client st i (CGone j))
(* :103 Delete finds the lock of the key *)
| K_lost_begin st i j j' k : lm_client st i = CGone j -> k = l_key (lm_lock st j) -> lm_busy st k = None -> lm_beats st k = [] ->
    lm_cur st k = Some j' -> lk_step st None (with_busy (with_client st i (CLeaving j)) k (Some (DLost i j')))
(* ... or nothing *)
| K_lost_none st i j k : lm_client st i = CGone j -> k = l_key (lm_lock st j) -> lm_busy st k = None -> lm_cur st k = None ->
    lk_step st None (with_client st i CEnd)
(* :104 LostClient with exclusive_lock.go:119-125 *)
| K_lost_idle st i j k : lm_busy st k = Some (DLost i j) -> l_ph (lm_lock st j) = LIdle ->
    lk_step st (Some (LLost i k)) (with_client (drop_client st k j LIdle) i CEnd)
(* ... with :159-163 *)
| K_lost_held st i j k p : lm_busy st k = Some (DLost i j) -> l_ph (lm_lock st j) = p ->
    (match p with LHeld _ _ _ _ | LTimingOut _ _ => True | _ => False end) ->
    lk_step st (Some (LLost i k))
      (match l_cnt (lm_lock st j) - 1 with
       | 0 => with_lock st j (mkLock (l_key (lm_lock st j)) LPanic 0)
       | n => with_client (with_busy (with_lock st j (set_cnt n (lm_lock st j))) k None) i CEnd
       end)
(* ... with a lock that has returned: the channel is closed, LostClient returns false *)
| K_lost_done st i j k : lm_busy st k = Some (DLost i j) -> l_ph (lm_lock st j) = LDone ->
    lk_step st (Some (LLost i k)) (with_client (with_busy st k None) i CEnd)
(* exclusive_locker.go:211 Release: the lock id is not in the tree.  A lock has its own id, and the key of the id is the
   key of the lock; LockClaim.Validate refuses the empty session id *)
| K_rel_none st k r s : s <> EmptyString -> lm_busy st k = None -> lm_cur st k <> Some r ->
    lk_step st (Some (LRelease k r s false)) st
(* DeleteByAssociatedID finds the key-values of the id and then deletes by key-values, so the lock may be a later one *)
| K_rel_begin st k r s j : s <> EmptyString -> lm_busy st k = None -> lm_beats st k = [] -> lm_cur st k = Some j ->
    lk_step st None (with_busy st k (Some (DRel j r s)))
(* :214 ReleaseLock with exclusive_lock.go:182-210 *)
| K_rel_ok st k j r s d next tick : lm_busy st k = Some (DRel j r s) -> l_ph (lm_lock st j) = LHeld s d next tick ->
    lk_step st (Some (LRelease k r s true)) (drop_client st k j LIdle)
(* ... with :212-214; after a timeout the session id is empty *)
| K_rel_fail st k j r s p : lm_busy st k = Some (DRel j r s) -> l_ph (lm_lock st j) = p ->
    (match p with LHeld s' _ _ _ => s' <> s | LTimingOut _ _ => True | LDone => True | _ => False end) ->
    lk_step st (Some (LRelease k r s false)) (with_busy st k None)
(* exclusive_locker.go:190 Heartbeat *)
| K_beat_none st k j s : s <> EmptyString -> lm_busy st k = None -> lm_cur st k <> Some j ->
    lk_step st (Some (LBeat k j s false)) st
| K_beat_begin st k s j : s <> EmptyString -> lm_busy st k = None -> lm_cur st k = Some j ->
    lk_step st None (with_beats st k (lm_beats st k ++ [(j, s)]))
(* exclusive_lock.go:166-176: the ticker restarts; a buffered tick stays *)
| K_beat_ok st k j s d next tick b1 b2 : lm_beats st k = b1 ++ (j, s) :: b2 -> l_ph (lm_lock st j) = LHeld s d next tick ->
    lk_step st (Some (LBeat k j s true))
      (with_beats (with_lock st j (set_ph (LHeld s d (lm_now st + d) tick) (lm_lock st j))) k (b1 ++ b2))
(* :177-179 *)
| K_beat_fail st k j s p b1 b2 : lm_beats st k = b1 ++ (j, s) :: b2 -> l_ph (lm_lock st j) = p ->
    (match p with LHeld s' _ _ _ => s' <> s | LTimingOut _ _ => True | LDone => True | _ => False end) ->
    lk_step st (Some (LBeat k j s false)) (with_beats st k (b1 ++ b2))
(* :217 *)
| K_take st j s d next : l_ph (lm_lock st j) = LHeld s d next true ->
    lk_step st None (with_lock st j (set_ph (LFired s d next false) (lm_lock st j)))
(* :218-240 *)
| K_expire st j s d next tick : l_ph (lm_lock st j) = LFired s d next tick ->
    lk_step st (Some (LExpire (l_key (lm_lock st j)) s)) (with_lock st j (set_ph (LTimingOut tick false) (lm_lock st j)))
(* :217-236 a second time: blockDone is full *)
| K_take_again st j b : l_ph (lm_lock st j) = LTimingOut true b ->
    lk_step st None (with_lock st j (set_ph LStuck (lm_lock st j)))
(* exclusive_locker.go:229 in the goroutine of exclusive_lock.go:238 *)
| K_time_begin st j j' tick k : l_ph (lm_lock st j) = LTimingOut tick false -> k = l_key (lm_lock st j) ->
    lm_busy st k = None -> lm_beats st k = [] -> lm_cur st k = Some j' ->
    lk_step st None (with_busy (with_lock st j (set_ph (LTimingOut tick true) (lm_lock st j))) k (Some (DTime j')))
(* :233 TimeOut with exclusive_lock.go:243-254 *)
| K_time_done st j tick b k : lm_busy st k = Some (DTime j) -> l_ph (lm_lock st j) = LTimingOut tick b ->
    lk_step st (Some (LHandOn k)) (drop_client st k j LIdle)
(* ... in a lock that is held by another session: :245 blocks *)
| K_time_wrong st j s d next tick k : lm_busy st k = Some (DTime j) -> l_ph (lm_lock st j) = LHeld s d next tick ->
    lk_step st None (with_lock st j (set_ph LStuck (lm_lock st j))).

(** What can happen from a state on, with the time of each event, newest first *)
Inductive lk_run (st0 : locker) : list (nat * lk_event) -> locker -> Prop :=
| KR_init : lk_run st0 [] st0
| KR_step tr st e st' : lk_run st0 tr st -> lk_step st e st' ->
    lk_run st0 (push (match e with Some e => Some (lm_now st, e) | None => None end) tr) st'.
(** Histories of the locker *)
Definition lk_exec (k0 : key) : list (nat * lk_event) -> locker -> Prop := lk_run (lm_init k0).

(** LocksQuery (exclusive_locker.go:136-176): whether a key is listed, with its SessionID and LocksHeldOrWaiting *)
Definition locks_query (st : locker) (k : key) : option (string * nat) :=
  match lm_cur st k with
  | Some j => Some (session_of (l_ph (lm_lock st j)), l_cnt (lm_lock st j))
  | None => None
  end.
End Locker.
