(** C27-C30, C46: the lock manager (internal/locker/lock_manager), over all histories of concurrent requests, lost
    clients, timeouts and time, for any type of key-values.  Histories list the newest event first, with its time. *)
From Coq Require Import String List Bool Arith Lia ZArith.
From Verif Require Import DestroySync Locker SpecLocker LockerProofs LockerTrace LockerLive LockerWitness.
Import ListNotations.
Local Open Scope nat_scope.
Local Open Scope list_scope.

(** C27: a session is granted on key [k] only when no other session holds it. *)
Theorem C27_mutual_exclusion key (dec : forall a b : key, {a = b} + {a <> b}) k0 t i k j s d tr st :
  lk_exec key dec k0 ((t, LGrant key i k j s d) :: tr) st -> holder dec tr k = None.
Proof. exact (c27 dec k0 t i k j s d tr st). Qed.
Print Assumptions C27_mutual_exclusion.

(** C28: a heartbeat is accepted exactly if it carries the lock id and the session id of the present holder. *)
Theorem C28_heartbeat key (dec : forall a b : key, {a = b} + {a <> b}) k0 t k j s ok tr st :
  lk_exec key dec k0 ((t, LBeat key k j s ok) :: tr) st -> (ok = true <-> holder dec tr k = Some (j, s)).
Proof. exact (c28_beat dec k0 t k j s ok tr st). Qed.
Print Assumptions C28_heartbeat.
(** A release succeeds only with the session id of the present holder, and always with the holder's ids. *)
Theorem C28_release key (dec : forall a b : key, {a = b} + {a <> b}) k0 t k j s ok tr st :
  lk_exec key dec k0 ((t, LRelease key k j s ok) :: tr) st ->
  (ok = true -> exists j', holder dec tr k = Some (j', s)) /\ (holder dec tr k = Some (j, s) -> ok = true).
Proof. exact (c28_release dec k0 t k j s ok tr st). Qed.
Print Assumptions C28_release.
(** Refused ones leave every lock, the set of locks and every query result as they were. *)
Theorem C28_refused_no_effect key (dec : forall a b : key, {a = b} + {a <> b}) st e st' k j s :
  lk_step key dec st (Some e) st' -> e = LBeat key k j s false \/ e = LRelease key k j s false ->
  lm_lock _ st' = lm_lock _ st /\ lm_cur _ st' = lm_cur _ st /\ forall k', locks_query _ st' k' = locks_query _ st k'.
Proof. exact (c28_refused dec st e st' k j s). Qed.
Print Assumptions C28_refused_no_effect.
(** The session id of a grant was never granted before. *)
Theorem C28_session_fresh key (dec : forall a b : key, {a = b} + {a <> b}) k0 t i k j s d tr st :
  lk_exec key dec k0 ((t, LGrant key i k j s d) :: tr) st -> ~ In s (sessions tr).
Proof. exact (c28_fresh dec k0 t i k j s d tr st). Qed.
Print Assumptions C28_session_fresh.

(** C29: a key is listed exactly while clients wait for it or a claim on it is unsettled; the listed count is their
    number, at most one claim is unsettled, and the listed session is the holder's. *)
Theorem C29_count key (dec : forall a b : key, {a = b} + {a <> b}) k0 tr st k : lk_exec key dec k0 tr st ->
  (0 <= waiting_for dec tr k)%Z /\ (holding dec tr k = 0 \/ holding dec tr k = 1)%Z /\
  match locks_query _ st k with
  | Some (s, n) => (waiting_for dec tr k + holding dec tr k = Z.of_nat n)%Z /\ 0 < n /\
                   s = match holder dec tr k with Some (_, s) => s | None => EmptyString end
  | None => (waiting_for dec tr k + holding dec tr k = 0)%Z
  end.
Proof. exact (c29 dec k0 tr st k). Qed.
Print Assumptions C29_count.
(** The panic "lost client is at 0 while a lock is held" is never reached. *)
Theorem C29_no_panic key (dec : forall a b : key, {a = b} + {a <> b}) k0 tr st j :
  lk_exec key dec k0 tr st -> l_ph _ (lm_lock _ st j) <> LPanic.
Proof. exact (c29_panic dec k0 tr st j). Qed.
Print Assumptions C29_no_panic.

(** C30: a session expires only while it holds the key and after it was silent for the timeout it was granted. *)
Theorem C30_expiry_needs_silence key (dec : forall a b : key, {a = b} + {a <> b}) k0 t k s tr st :
  lk_exec key dec k0 ((t, LExpire key k s) :: tr) st ->
  (exists j, holder dec tr k = Some (j, s)) /\
  exists d, (exists t' i j, In (t', LGrant key i k j s d) tr) /\ was_silent s d tr t.
Proof. exact (c30_silent dec k0 t k s tr st). Qed.
Print Assumptions C30_expiry_needs_silence.
(** If the holder was silent for its timeout, every client that is waiting can be the next to be granted the lock. *)
Theorem C30_handed_on_partial key (dec : forall a b : key, {a = b} + {a <> b}) k0 tr st k j s i d :
  lk_exec key dec k0 tr st ->
  holder dec tr k = Some (j, s) -> lm_client _ st i = CWait j d ->
  (forall t e dd, In e tr -> resets s e = true -> (exists i', In (t, LGrant key i' k j s dd) tr) -> fst e + dd <= lm_now _ st) ->
  exists tr' st' t s', lk_run key dec st tr' st' /\ In (t, LGrant key i k j s' d) tr'.
Proof. exact (c30_handed_on dec k0 tr st k j s i d). Qed.
Print Assumptions C30_handed_on_partial.
(** But it need not be handed on: after a silent timeout the lock may be stuck, with a client waiting for ever. *)
Theorem C30_always_handed_on_refuted : exists tr st,
  lk_exec nat Nat.eq_dec 0 tr st /\ lm_client _ st 1 = CWait 0 9 /\
  (exists t, In (t, LExpire nat 7 "s"%string) tr) /\
  forall tr' st', lk_run nat Nat.eq_dec st tr' st' -> forall t i j s d, ~ In (t, LGrant nat i 7 j s d) tr'.
Proof.
  exact (match stuck_history with ex_intro _ st (conj H (conj H1 (conj H2 H3))) =>
    ex_intro _ _ (ex_intro _ st (conj H (conj H1 (conj (ex_intro _ 3 (or_introl eq_refl))
      (fun tr' st' HR => stuck_run Nat.eq_dec st tr' st' 7 0 (exec_inv _ _ _ _ H) H2 H3 HR))))) end).
Qed.
Print Assumptions C30_always_handed_on_refuted.
(** And an accepted heartbeat does not always give another full timeout. *)
Theorem C30_heartbeat_restarts_refuted : ~ (forall t t' k j s i d t0 tr st,
  lk_exec nat Nat.eq_dec 0 ((t', LExpire nat k s) :: (t, LBeat nat k j s true) :: tr) st ->
  In (t0, LGrant nat i k j s d) tr -> t + d <= t').
Proof.
  exact (fun C => match late_history with ex_intro _ st H =>
    Nat.nle_succ_0 4 (proj2 (Nat.add_le_mono_l 5 0 5) (C _ _ _ _ _ 0 5 0 _ st H (or_intror (or_introl eq_refl)))) end).
Qed.
Print Assumptions C30_heartbeat_restarts_refuted.

(** C46: a lock can become unusable for ever: from the state [st] on nothing is ever answered about key 7, not even a new
    client (2) is registered, and the client that has disconnected (1) never returns. *)
Theorem C46_never_wedged_refuted : exists tr st,
  lk_exec nat Nat.eq_dec 0 tr st /\ lm_client _ st 1 = CGone 0 /\ lm_client _ st 2 = CNew /\
  forall tr' st', lk_run nat Nat.eq_dec st tr' st' -> forall t e, In (t, e) tr' -> ~ about 7 e.
Proof.
  exact (match wedge_history with ex_intro _ st (conj H (conj H1 (conj H2 H3))) =>
    ex_intro _ _ (ex_intro _ st (conj H (conj H2 (conj H3
      (fun tr' st' HR => proj2 (wedged_run Nat.eq_dec st tr' st' 7 0 (exec_inv _ _ _ _ H) H1 HR)))))) end).
Qed.
Print Assumptions C46_never_wedged_refuted.
(** As long as the lock is idle, every client that is waiting can be granted it. *)
Theorem C46_idle_partial key (dec : forall a b : key, {a = b} + {a <> b}) st k i j d :
  l_key _ (lm_lock _ st j) = k -> lm_client _ st i = CWait j d -> l_ph _ (lm_lock _ st j) = LIdle ->
  exists tr' st' t s', lk_run key dec st tr' st' /\ In (t, LGrant key i k j s' d) tr'.
Proof. exact (can_idle dec st i k j d). Qed.
Print Assumptions C46_idle_partial.

(** Non-vacuity: a history with grants, a timeout, stale requests and a release; the state [C30_handed_on_partial] starts from. *)
Example C27_nonvacuous : exists st, lk_exec nat Nat.eq_dec 0
  [(6, LRelease nat 7 0 "u" true); (5, LBeat nat 7 0 "u" true); (5, LRelease nat 7 0 "s" false); (5, LBeat nat 7 0 "s" false);
   (5, LGrant nat 1 7 0 "u" 9); (5, LHandOn nat 7); (5, LExpire nat 7 "s");
   (1, LJoin nat 1 7); (0, LGrant nat 0 7 0 "s" 5); (0, LJoin nat 0 7)]%string st /\ locks_query _ st 7 = None.
Proof. exact handed_history. Qed.
Print Assumptions C27_nonvacuous.
Example C30_nonvacuous : exists tr st, lk_exec nat Nat.eq_dec 0 tr st /\ holder Nat.eq_dec tr 7 = Some (0, "s"%string) /\ lm_client _ st 1 = CWait 0 9 /\
  (forall t e dd, In e tr -> resets "s" e = true -> (exists i', In (t, LGrant nat i' 7 0 "s"%string dd) tr) -> fst e + dd <= lm_now _ st).
Proof.
  destruct due_history as (st & H1 & H2 & H3). eexists. exists st. split; [exact H1|]. split; [reflexivity|]. split; [exact H2|].
  rewrite H3. intros t e dd HE HR (i' & HG). destruct HE as [<- | [<- | [<- | []]]]; try discriminate. destruct HG as [HG | [HG | [HG | []]]]; try discriminate.
  injection HG as _ _ <-. cbn. lia.
Qed.
Print Assumptions C30_nonvacuous.
