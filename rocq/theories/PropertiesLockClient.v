(** C60-C63: lock clients and the locker service.  The theorems are proved in LockClientHist.v, LockClientValid.v,
    LockClientDone.v and LockClientJam.v; every hypothesis is met by a history of LockClientWitness.v (LockClientExamples.v). *)
From Coq Require Import String List Bool Arith Lia.
From Verif Require Import DestroySync Locker SpecLocker LockClient SpecLockClient LockClientInv LockClientHist LockClientValid LockClientDone LockClientJam LockClientWitness LockClientExamples.
Import ListNotations.
Local Open Scope nat_scope.
Local Open Scope list_scope.

(** ** C60: the life of a lock *)
(** ObtainLock returns a lock for the key-values it was called with, made by the same client *)
Theorem C60_obtained key (dec : forall a b : key, {a = b} + {a <> b}) shares k0 h w i o a k : w_exec key dec shares k0 h w ->
  happened (EObtained _ i o) h -> happened (EObtain _ i a k) h -> exists x, w_obj _ w o = Some x /\ o_client _ x = a /\ o_key _ x = k.
Proof. exact (obtained_key _ _ _ _ _ _ _ _ _). Qed.
(** a call made after Done() of a lock was closed never returns that lock *)
Theorem C60_not_done key (dec : forall a b : key, {a = b} + {a <> b}) shares k0 h w i a k o : w_exec key dec shares k0 h w ->
  forall newer t older, h = newer ++ (t, EObtain _ i a k) :: older -> happened (EDone _ o) older -> ~ happened (EObtained _ i o) h.
Proof. exact (released_not_returned _ _ _ _ _ _ _ _ _). Qed.
(** Done() is closed at most once; at most one DELETE is sent, after Done() was closed and the heartbeats have ended *)
Theorem C60_done_once key (dec : forall a b : key, {a = b} + {a <> b}) shares k0 h w o : w_exec key dec shares k0 h w -> never_after (EDone _ o) (EDone _ o) h.
Proof. exact (done_once _ _ _ _ _ _). Qed.
Theorem C60_delete_once key (dec : forall a b : key, {a = b} + {a <> b}) shares k0 h w o : w_exec key dec shares k0 h w -> never_after (EDelete _ o) (EDelete _ o) h.
Proof. exact (one_delete _ _ _ _ _ _). Qed.
Theorem C60_delete_last key (dec : forall a b : key, {a = b} + {a <> b}) shares k0 h w o n : w_exec key dec shares k0 h w ->
  after (EDone _ o) (EDelete _ o) h /\ after (EEnded _ o) (EDelete _ o) h /\ never_after (EEnded _ o) (ESent _ o n) h /\ never_after (EDelete _ o) (ESent _ o n) h.
Proof. intros H. exact (conj (delete_after_done _ _ _ _ _ _ H) (conj (delete_after_end _ _ _ _ _ _ H) (conj (no_beat_after_end _ _ _ _ _ _ _ H) (no_beat_after_delete _ _ _ _ _ _ _ H)))). Qed.
(** at most one Release of a lock returns nil, and then the service does not have the session any more, ever *)
Theorem C60_one_nil key (dec : forall a b : key, {a = b} + {a <> b}) shares k0 h w o r r' : w_exec key dec shares k0 h w ->
  happened (ERelease _ r o) h -> happened (ERelease _ r' o) h -> happened (EReturn _ r true) h -> happened (EReturn _ r' true) h -> r = r'.
Proof. exact (one_nil _ _ _ _ _ _ _ _). Qed.
Theorem C60_released key (dec : forall a b : key, {a = b} + {a <> b}) shares k0 h w r o x : w_exec key dec shares k0 h w ->
  happened (ERelease _ r o) h -> happened (EReturn _ r true) h -> w_obj _ w o = Some x -> holder dec (server_history h) (o_key _ x) <> Some (o_lock _ x, o_sess _ x).
Proof. exact (nil_gone _ _ _ _ _ _ _ _). Qed.
(** a Release that is called after the heartbeats have ended does not return nil, and if nobody called Release before, no
    DELETE is ever sent (so a lock that was given up by mistake, C62_false_alarm_refuted, stays held until it expires) *)
Theorem C60_late_release key (dec : forall a b : key, {a = b} + {a <> b}) shares k0 h w r o : w_exec key dec shares k0 h w ->
  forall newer t older, h = newer ++ (t, ERelease _ r o) :: older -> happened (EEnded _ o) older -> ~ happened (EReturn _ r true) h.
Proof. exact (late_release _ _ _ _ _ _ _). Qed.
Theorem C60_late_no_delete key (dec : forall a b : key, {a = b} + {a <> b}) shares k0 h w o : w_exec key dec shares k0 h w ->
  forall newer t older, h = newer ++ (t, EEnded _ o) :: older -> (forall r, ~ happened (ERelease _ r o) older) -> ~ happened (EDelete _ o) h.
Proof. exact (late_no_delete _ _ _ _ _ _). Qed.

(** ** C61: exclusion *)
(** until its validity is over, and while no DELETE for it was sent, the service holds the lock for this client *)
Theorem C61_valid_holds key (dec : forall a b : key, {a = b} + {a <> b}) shares k0 h w o x u : w_exec key dec shares k0 h w -> w_obj _ w o = Some x ->
  ~ happened (EDelete _ o) h -> valid_until h o (o_sess _ x) (o_time _ x) = Some u -> lm_now _ (w_srv _ w) < u ->
  holder dec (server_history h) (o_key _ x) = Some (o_lock _ x, o_sess _ x).
Proof. exact (valid_holds _ _ _ _ _ _ _ _). Qed.
(** Partial: two locks of the same key-values are not valid together.  (Missing: validity is not what Done() shows.) *)
Theorem C61_exclusive_partial key (dec : forall a b : key, {a = b} + {a <> b}) shares k0 h w o1 x1 u1 o2 x2 u2 : w_exec key dec shares k0 h w ->
  w_obj _ w o1 = Some x1 -> w_obj _ w o2 = Some x2 -> o_key _ x1 = o_key _ x2 -> ~ happened (EDelete _ o1) h -> ~ happened (EDelete _ o2) h ->
  valid_until h o1 (o_sess _ x1) (o_time _ x1) = Some u1 -> lm_now _ (w_srv _ w) < u1 ->
  valid_until h o2 (o_sess _ x2) (o_time _ x2) = Some u2 -> lm_now _ (w_srv _ w) < u2 -> o1 = o2.
Proof. exact (valid_exclusive _ _ _ _ _ _ _ _ _ _ _). Qed.
(** Refuted: of two clients that obtained the same key-values, at least one has its Done() closed *)
Theorem C61_done_open_refuted : ~ (forall h w i1 o1 a1 i2 o2 a2 k, w_exec nat kd common 0 h w -> a1 <> a2 ->
  happened (EObtain _ i1 a1 k) h -> happened (EObtained _ i1 o1) h -> happened (EObtain _ i2 a2 k) h -> happened (EObtained _ i2 o2) h ->
  happened (EDone _ o1) h \/ happened (EDone _ o2) h).
Proof. exact done_open. Qed.
(** Refuted: of two calls of one client for the same key-values, only one has a lock that nobody released *)
Theorem C61_same_client_refuted : ~ (forall h w i1 o1 i2 o2 a k, w_exec nat kd common 0 h w ->
  happened (EObtain _ i1 a k) h -> happened (EObtained _ i1 o1) h -> happened (EObtain _ i2 a k) h -> happened (EObtained _ i2 o2) h ->
  i1 = i2 \/ happened (EDone _ o1) h \/ happened (EDone _ o2) h).
Proof. exact same_client. Qed.

(** ** C62: Done() tells of the loss of a lock *)
(** Done() is closed only if Release was called, the timeout passed without a confirmation, or a heartbeat was refused *)
Theorem C62_done_reason key (dec : forall a b : key, {a = b} + {a <> b}) shares k0 h w o : w_exec key dec shares k0 h w -> happened (EDone _ o) h ->
  exists x, w_obj _ w o = Some x /\ ((exists r, happened (ERelease _ r o) h) \/ unconfirmed h o (o_time _ x) (lm_now _ (w_srv _ w)) \/
    exists t, In (t, LBeat key (o_key _ x) (o_lock _ x) (o_sess _ x) false) (server_history h)).
Proof. exact (done_reason _ _ _ _ _ _). Qed.
(** Partial: when the timeout has passed since the last confirmation, no heartbeat is unanswered and no ObtainLock of the
    client for key-values with a common pair is under way, Done() can be closed at once.  (Missing: that it will be; the
    select may take other cases first, and the two hypotheses, see below.) *)
Theorem C62_noticed_partial key (dec : forall a b : key, {a = b} + {a <> b}) shares k0 h w o x t : w_exec key dec shares k0 h w -> w_obj _ w o = Some x ->
  last_word h o = Some t -> t + o_time _ x <= lm_now _ (w_srv _ w) -> ~ happened (EDone _ o) h ->
  (forall n, o_loop _ x <> HSent n) -> (forall n r, o_loop _ x <> HReply n r) ->
  (forall i k', happened (EObtain _ i (o_client _ x) k') h -> k' = o_key _ x \/ shares k' (o_key _ x) -> obtained i h) ->
  exists h' w', w_run dec shares w h' w' /\ w_srv _ w' = w_srv _ w /\ happened (EDone _ o) h'.
Proof. intros HX X L T ND N1 N2 NB. exact (noticed _ _ _ _ _ _ _ _ HX X L T ND N1 N2 (not_blocked _ _ _ _ _ _ _ HX NB)). Qed.
(** Refuted: Done() is closed within some time of the expiry.  A heartbeat without an answer keeps it open for ever ... *)
Theorem C62_hung_heartbeat_refuted : forall D, exists h w o x t s i, w_exec nat kd common 0 h w /\ w_obj _ w o = Some x /\ happened (EObtained _ i o) h /\
  In (t, LExpire nat (o_key _ x) (o_sess _ x)) (server_history h) /\ holder kd (server_history h) (o_key _ x) = Some (o_lock _ x, s) /\ s <> o_sess _ x /\
  t + D <= lm_now _ (w_srv _ w) /\ o_loop _ x = HSent 1 /\ ~ happened (EDone _ o) h.
Proof. exact hung. Qed.
(** ... and so does an ObtainLock of the same client that waits for other key-values with a common pair *)
Theorem C62_blocked_refuted : forall D, exists h w o x t s i, w_exec nat kd common 0 h w /\ w_obj _ w o = Some x /\ happened (EObtained _ i o) h /\
  In (t, LExpire nat (o_key _ x) (o_sess _ x)) (server_history h) /\ holder kd (server_history h) (o_key _ x) = Some (o_lock _ x, s) /\ s <> o_sess _ x /\
  t + D <= lm_now _ (w_srv _ w) /\ o_loop _ x = HQuit /\ ~ happened (EDone _ o) h /\ w_call _ w 2 = CPosted _ (o_client _ x) 8.
Proof. exact blocked_done. Qed.
(** Refuted: Done() is closed only if Release was called or the service does not hold the lock for the client *)
Theorem C62_false_alarm_refuted : ~ (forall h w o x, w_exec nat kd common 0 h w -> happened (EDone _ o) h -> w_obj _ w o = Some x ->
  (exists r, happened (ERelease _ r o) h) \/ holder kd (server_history h) (o_key _ x) <> Some (o_lock _ x, o_sess _ x)).
Proof. exact false_alarm. Qed.

(** ** C63: Release comes to an end *)
(** Partial: it can, at once, when no ObtainLock of the client for key-values with a common pair is under way.  (Missing:
    requests without an answer, and that hypothesis.) *)
Theorem C63_release_partial key (dec : forall a b : key, {a = b} + {a <> b}) shares k0 h w r o x : w_exec key dec shares k0 h w -> happened (ERelease _ r o) h -> w_obj _ w o = Some x ->
  (forall i k', happened (EObtain _ i (o_client _ x) k') h -> k' = o_key _ x \/ shares k' (o_key _ x) -> obtained i h) ->
  exists h' w', w_run dec shares w h' w' /\ w_srv _ w' = w_srv _ w /\ returned r (h' ++ h).
Proof. intros HX HR X NB. exact (release_ends _ _ _ _ _ _ _ _ HX HR X (not_blocked _ _ _ _ _ _ _ HX NB)). Qed.
(** Such a call, once the service knows of it, keeps Done() open and every Release from returning nil until it returns *)
Theorem C63_waits_for_obtain key (dec : forall a b : key, {a = b} + {a <> b}) shares k0 h w t i k' o x : w_exec key dec shares k0 h w -> w_obj _ w o = Some x ->
  In (t, LJoin key i k') (server_history h) -> happened (EObtain _ i (o_client _ x) k') h -> ~ obtained i h -> (k' = o_key _ x \/ shares k' (o_key _ x)) ->
  (forall r, ~ happened (ERelease _ r o) h) -> ~ unconfirmed h o (o_time _ x) (lm_now _ (w_srv _ w)) ->
  ~ (exists t, In (t, LBeat key (o_key _ x) (o_lock _ x) (o_sess _ x) false) (server_history h)) ->
  forall h' w', w_run dec shares w h' w' -> ~ obtained i (h' ++ h) ->
  ~ happened (EDone _ o) (h' ++ h) /\ ~ happened (EDelete _ o) (h' ++ h) /\ forall r, happened (ERelease _ r o) (h' ++ h) -> ~ happened (EReturn _ r true) (h' ++ h).
Proof. intros HX X HJ HO NO SH N1 N2 N3. exact (release_blocked _ _ _ _ _ _ _ _ _ _ _ HX X HJ HO NO eq_refl SH N1 N2 N3). Qed.
(** Refuted: a Release that was called returns.  Two clients release their locks while each of them waits for the lock of
    the other: as long as their heartbeats keep the locks from expiring and their ObtainLocks do not fail, neither returns *)
Theorem C63_deadlock_refuted : exists h w o1 o2, w_exec nat kd common 0 h w /\ o1 <> o2 /\ happened (ERelease _ 0 o1) h /\ happened (ERelease _ 1 o2) h /\
  forall h' w', w_run kd common w h' w' -> (forall t k s, ~ In (t, EServer _ (LExpire nat k s)) h') -> (forall i, ~ happened (ENoLock _ i) h') ->
  ~ returned 0 (h' ++ h) /\ ~ returned 1 (h' ++ h).
Proof. exact deadlocked. Qed.

Print Assumptions C60_obtained.
Print Assumptions C60_not_done.
Print Assumptions C60_done_once.
Print Assumptions C60_delete_once.
Print Assumptions C60_delete_last.
Print Assumptions C60_one_nil.
Print Assumptions C60_released.
Print Assumptions C60_late_release.
Print Assumptions C60_late_no_delete.
Print Assumptions C61_valid_holds.
Print Assumptions C61_exclusive_partial.
Print Assumptions C61_done_open_refuted.
Print Assumptions C61_same_client_refuted.
Print Assumptions C62_done_reason.
Print Assumptions C62_noticed_partial.
Print Assumptions C62_hung_heartbeat_refuted.
Print Assumptions C62_blocked_refuted.
Print Assumptions C62_false_alarm_refuted.
Print Assumptions C63_release_partial.
Print Assumptions C63_waits_for_obtain.
Print Assumptions C63_deadlock_refuted.
