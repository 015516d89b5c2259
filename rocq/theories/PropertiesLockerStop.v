(** C86: the lock manager when it is told to stop, at any moment of any history of concurrent requests, lost clients,
    timeouts and time.  Histories list the newest event first, with its time. *)
From Coq Require Import String List Bool Arith Lia ZArith.
From Verif Require Import DestroySync Locker SpecLocker LockerProofs LockerStop SpecLockerStop LockerStopProofs LockerStopClaims LockerStopLive LockerStopWitness.
Import ListNotations.
Local Open Scope nat_scope.
Local Open Scope list_scope.
Local Open Scope string_scope.

(** Before, during and after the stop a session is granted on a key only when no other session holds it, *)
Theorem C86_mutual_exclusion key (dec : forall a b : key, {a = b} + {a <> b}) k0 t i k j s d tr st :
  st_exec key dec k0 ((t, SEv key (LGrant key i k j s d)) :: tr) st -> holder dec (lock_events tr) k = None.
Proof. exact (c86_exclusive dec k0 t i k j s d tr st). Qed.
Print Assumptions C86_mutual_exclusion.
(** with a session id that was never granted before. *)
Theorem C86_session_fresh key (dec : forall a b : key, {a = b} + {a <> b}) k0 t i k j s d tr st :
  st_exec key dec k0 ((t, SEv key (LGrant key i k j s d)) :: tr) st -> ~ In s (sessions (lock_events tr)).
Proof. exact (c86_fresh dec k0 t i k j s d tr st). Qed.
Print Assumptions C86_session_fresh.
(** Heartbeats and releases are accepted from the holder only. *)
Theorem C86_heartbeat key (dec : forall a b : key, {a = b} + {a <> b}) k0 t k j s tr st :
  st_exec key dec k0 ((t, SEv key (LBeat key k j s true)) :: tr) st -> holder dec (lock_events tr) k = Some (j, s).
Proof. exact (c86_beat dec k0 t k j s tr st). Qed.
Print Assumptions C86_heartbeat.
Theorem C86_release key (dec : forall a b : key, {a = b} + {a <> b}) k0 t k j s tr st :
  st_exec key dec k0 ((t, SEv key (LRelease key k j s true)) :: tr) st -> exists j', holder dec (lock_events tr) k = Some (j', s).
Proof. exact (c86_release dec k0 t k j s tr st). Qed.
Print Assumptions C86_release.
(** A session expires only while it holds the key and after it was silent for the timeout it was granted. *)
Theorem C86_expiry key (dec : forall a b : key, {a = b} + {a <> b}) k0 t k s tr st :
  st_exec key dec k0 ((t, SEv key (LExpire key k s)) :: tr) st ->
  (exists j, holder dec (lock_events tr) k = Some (j, s)) /\
  exists d, (exists t' i j, In (t', LGrant key i k j s d) (lock_events tr)) /\ was_silent s d (on_key dec k (lock_events tr)) t.
Proof. exact (c86_silent dec k0 t k s tr st). Qed.
Print Assumptions C86_expiry.
(** The count of a key whose lock has not ended is right. *)
Theorem C86_count key (dec : forall a b : key, {a = b} + {a <> b}) k0 tr st k : st_exec key dec k0 tr st -> ~ ended st k ->
  (0 <= waiting_for dec (lock_events tr) k)%Z /\ (holding dec (lock_events tr) k = 0 \/ holding dec (lock_events tr) k = 1)%Z /\
  match locks_query _ (s_lm _ st) k with
  | Some (s, n) => (waiting_for dec (lock_events tr) k + holding dec (lock_events tr) k = Z.of_nat n)%Z /\ 0 < n /\
                   s = match holder dec (lock_events tr) k with Some (_, s) => s | None => EmptyString end
  | None => (waiting_for dec (lock_events tr) k + holding dec (lock_events tr) k = 0)%Z
  end.
Proof. exact (c86_count dec k0 tr st k). Qed.
Print Assumptions C86_count.

(** Once the lock of a key has ended, the key is never granted, kept, released, expired or handed on again: whoever held it
    when the lock ended is the last to have held it. *)
Theorem C86_ended_for_good key (dec : forall a b : key, {a = b} + {a <> b}) k0 tr st k tr' st' :
  st_exec key dec k0 tr st -> ended st k -> st_run key dec st tr' st' ->
  ended st' k /\ forall t e, In (t, SEv key e) tr' -> event_key e = k -> effect e = false.
Proof. exact (ended_run dec k0 tr st k tr' st'). Qed.
Print Assumptions C86_ended_for_good.

(** When an Execute has returned, its waiting clients can all be sent away, and heartbeats, releases and lost clients that
    are inside the lock can be answered. *)
Theorem C86_answered key (dec : forall a b : key, {a = b} + {a <> b}) k0 tr st k j :
  st_exec key dec k0 tr st -> lm_cur _ (s_lm _ st) k = Some j -> l_ph _ (lm_lock _ (s_lm _ st) j) = LDone ->
  (forall i d, lm_client _ (s_lm _ st) i = CWait j d ->
     exists st', st_step key dec st (Some (SAway _ i k)) st' /\ lm_client _ (s_lm _ st') i = CEnd) /\
  (forall s, In (j, s) (lm_beats _ (s_lm _ st) k) -> exists st', st_step key dec st (Some (SEv _ (LBeat _ k j s false))) st') /\
  (forall d, lm_busy _ (s_lm _ st) k = Some d -> lock_of d = j ->
     exists e st', st_step key dec st (Some (SEv _ e)) st' /\ event_key e = k /\ lm_busy _ (s_lm _ st') k = None).
Proof. exact (c86_answers dec k0 tr st k j). Qed.
Print Assumptions C86_answered.

(** The Execute of a lock that is held can return, that of a lock that clients wait for after a claim, and that of a lock
    whose session has expired if no other request is inside the lock.  Missing: that it does return (see the refutations
    below), and an idle lock whose clients are all gone. *)
Theorem C86_can_end_partial key (dec : forall a b : key, {a = b} + {a <> b}) k0 tr st k j :
  st_exec key dec k0 tr st -> s_stop _ st = true -> lm_cur _ (s_lm _ st) k = Some j ->
  match l_ph _ (lm_lock _ (s_lm _ st) j) with
  | LHeld _ _ _ _ | LClaimed _ _ => True
  | LIdle => exists i d, lm_client _ (s_lm _ st) i = CWait j d
  | LFired _ _ _ _ | LTimingOut _ false => lm_busy _ (s_lm _ st) k = None /\ lm_beats _ (s_lm _ st) k = []
  | LTimingOut _ true => True
  | _ => False
  end -> exists tr' st', st_run key dec st tr' st' /\ l_ph _ (lm_lock _ (s_lm _ st') j) = LDone.
Proof. exact (c86_returns dec k0 tr st k j). Qed.
Print Assumptions C86_can_end_partial.

(** Not every request is answered: when the task manager refuses the new lock of client 1, the lock is in the tree all the
    same; client 2, who asks for the same key-values, is never answered, whatever happens, and the server waits for its
    request. *)
Theorem C86_refused_refuted : exists st,
  st_exec nat Nat.eq_dec 0 [(0, SEv nat (LJoin nat 2 7)); (0, SAway nat 1 7); (0, SStop nat)] st /\
  forall tr' st', st_run nat Nat.eq_dec st tr' st' -> forall t e, In (t, e) tr' -> answered 2 e = false.
Proof.
  destruct refused_history as (st & H & M & C & W). exists st. split; [exact H|]. intros tr' st' HR. exact (refused_silent _ _ _ _ _ _ _ _ _ H M C W HR).
Qed.
Print Assumptions C86_refused_refuted.
(** Not every Execute returns: a session has expired, and a heartbeat, or a release, came before the expiry was handed on;
    if the Execute then sees the stop first, it waits for the expiry, which waits for the request, which waits for the
    Execute. *)
Theorem C86_drain_refuted : exists st st1,
  st_exec nat Nat.eq_dec 0 [(5, SStop nat); (5, SEv nat (LExpire nat 7 "s")); (0, SEv nat (LGrant nat 0 7 0 "s" 5)); (0, SEv nat (LJoin nat 0 7))] st /\
  st_exec nat Nat.eq_dec 0 [(5, SStop nat); (5, SEv nat (LExpire nat 7 "s")); (0, SEv nat (LGrant nat 0 7 0 "s" 5)); (0, SEv nat (LJoin nat 0 7))] st1 /\
  lm_beats _ (s_lm _ st) 7 = [(0, "s")] /\ lm_busy _ (s_lm _ st1) 7 = Some (DRel 0 0 "s") /\
  forall s tr' s', s = st \/ s = st1 -> st_run nat Nat.eq_dec s tr' s' ->
    l_ph _ (lm_lock _ (s_lm _ s') 0) <> LDone /\ forall t e, In (t, e) tr' -> ~ settled 7 0 e.
Proof.
  destruct jam_beat_history as (st & H & B & J). destruct jam_release_history as (st1 & H1 & J1). exists st, st1. split; [exact H|]. split; [exact H1|].
  split; [exact B|]. split; [apply J1|]. intros s tr' s' [-> | ->] HR; [exact (jam_for_ever _ _ _ _ _ _ _ _ _ H J HR)|exact (jam_for_ever _ _ _ _ _ _ _ _ _ H1 J1 HR)].
Qed.
Print Assumptions C86_drain_refuted.

(** The hypotheses are met: a lock that is kept, stopped and refuses everything, one that is just told to stop, one that
    has ended with requests inside, one whose expiry is drained. *)
Example C86_stopped : exists st, st_exec nat Nat.eq_dec 0
  [(3, SAway nat 2 7); (3, SEv nat (LJoin nat 2 7)); (3, SEv nat (LRelease nat 7 0 "s" false)); (3, SEv nat (LBeat nat 7 0 "s" false)); (3, SAway nat 1 7); (2, SStop nat);
   (2, SEv nat (LBeat nat 7 0 "s" true)); (1, SEv nat (LJoin nat 1 7)); (0, SEv nat (LGrant nat 0 7 0 "s" 5)); (0, SEv nat (LJoin nat 0 7))] st /\
  ended st 7 /\ s_stop _ st = true.
Proof. exact stop_history. Qed.
Example C86_told : exists st, st_exec nat Nat.eq_dec 0
  [(1, SStop nat); (1, SEv nat (LJoin nat 1 7)); (0, SEv nat (LGrant nat 0 7 0 "s" 5)); (0, SEv nat (LJoin nat 0 7))] st /\
  s_stop _ st = true /\ lm_cur _ (s_lm _ st) 7 = Some 0 /\ lm_client _ (s_lm _ st) 1 = CWait 0 9 /\
  (exists s d nx t, l_ph _ (lm_lock _ (s_lm _ st) 0) = LHeld s d nx t) /\ ~ ended st 7.
Proof. exact told_history. Qed.
Example C86_inside : exists tr st, st_exec nat Nat.eq_dec 0 tr st /\ lm_cur _ (s_lm _ st) 7 = Some 0 /\ l_ph _ (lm_lock _ (s_lm _ st) 0) = LDone /\
  lm_client _ (s_lm _ st) 1 = CWait 0 9 /\ lm_beats _ (s_lm _ st) 7 = [(0, "s")].
Proof. exact answer_history. Qed.
Example C86_drained : exists st, st_exec nat Nat.eq_dec 0
  [(5, SEv nat (LHandOn nat 7)); (5, SStop nat); (5, SEv nat (LExpire nat 7 "s")); (1, SEv nat (LJoin nat 1 7)); (0, SEv nat (LGrant nat 0 7 0 "s" 5)); (0, SEv nat (LJoin nat 0 7))] st /\
  ended st 7.
Proof. exact drain_history. Qed.
