(** C31: a heartbeater ends exactly once (internal/heartbeater/heartbeater.go), over all histories of concurrent calls,
    cancellation and time.  Histories list the newest event first, with the time at which it happened. *)
From Coq Require Import List Bool Arith Lia.
From Verif Require Import DestroySync Heartbeater SpecHeartbeater HeartbeaterProofs.
Import ListNotations.

(** At most one of: a Stop that returned true, the timeout callback, the shutdown callback; and at most one Start
    returned true. *)
Theorem C31_ends_once d tr st : hb_exec d tr st -> length (filter is_end tr) <= 1 /\ length (filter is_started tr) <= 1.
Proof. exact (c31_once d tr st). Qed.
Print Assumptions C31_ends_once.

(** A heartbeat is accepted only by a started heartbeater that has not ended, and refused only by one that has; Stop
    returns false only if it has ended; Start succeeds only before the end and fails only after it or after another Start. *)
Theorem C31_answers d tr st t i :
  (hb_exec d ((t, HBeat i true) :: tr) st -> ended tr = false /\ exists t' j, In (t', HStart j true) tr) /\
  (hb_exec d ((t, HBeat i false) :: tr) st -> ended tr = true) /\
  (hb_exec d ((t, HStop i false) :: tr) st -> ended tr = true) /\
  (hb_exec d ((t, HStart i true) :: tr) st -> ended tr = false) /\
  (hb_exec d ((t, HStart i false) :: tr) st -> ended tr = true \/ exists t' j, In (t', HAsk j) tr).
Proof. exact (c31_answers d tr st t i). Qed.
Print Assumptions C31_answers.

(** No call is left hanging: before the end a Stop can succeed, after it every call in progress returns false. *)
Theorem C31_calls_return d tr st i : hb_exec d tr st ->
  (ended tr = false -> hb_calls st i = PStop -> exists st', hb_exec d ((hb_now st, HStop i true) :: tr) st') /\
  (ended tr = true -> hb_calls st i <> NoCall ->
     exists st' e, hb_exec d ((hb_now st, e) :: tr) st' /\
       e = match hb_calls st i with PStart => HStart i false | PStop => HStop i false | _ => HBeat i false end).
Proof. exact (fun H => conj (c31_stop d tr st i H) (c31_returns d tr st i H)). Qed.
Print Assumptions C31_calls_return.

(** The timeout callback is called only after the holder was silent for a full timeout following its start or an
    accepted heartbeat. *)
Theorem C31_timeout_needs_silence d t tr st : hb_exec d ((t, HTimeout) :: tr) st -> silent_for d tr t.
Proof. exact (c31_timeout d t tr st). Qed.
Print Assumptions C31_timeout_needs_silence.

(** The shutdown callback is called only when the context is cancelled, after the start and before any other end; and then it
    can be called. *)
Theorem C31_shutdown d tr st : hb_exec d tr st ->
  (forall st', hb_step d st (Some HShutdown) st' -> hb_down st = true /\ ended tr = false /\ exists t i, In (t, HStart i true) tr) /\
  (forall t i, In (t, HStart i true) tr -> ended tr = false -> hb_down st = true -> exists st', hb_step d st (Some HShutdown) st').
Proof. exact (fun H => conj (fun st' => c31_shutdown d tr st st' H) (fun t i => c31_can_shutdown d tr st t i H)). Qed.
Print Assumptions C31_shutdown.

(** But not necessarily after the last one: a heartbeat may be accepted and the timeout callback follow at once (the tick
    was already in the ticker's channel, which Reset does not drain).  So "an accepted heartbeat gives another full
    timeout" is false. *)
Theorem C31_accepted_heartbeat_refuted d : 0 < d -> ~ (forall t i t' tr st,
  hb_exec d ((t', HTimeout) :: (t, HBeat i true) :: tr) st -> t + d <= t').
Proof. exact (fun HD C => let (st, H) := c31_late d in Nat.lt_irrefl d (Nat.lt_le_trans _ _ _ (Nat.lt_add_pos_r d d HD) (C _ _ _ _ _ H))). Qed.
Print Assumptions C31_accepted_heartbeat_refuted.

(** Non-vacuity: a history with a start, a heartbeat, a second start that fails, a timeout and a failing stop. *)
Example C31_nonvacuous : exists st, hb_exec 5 [(12, HStop 3 false); (9, HTimeout); (7, HStart 2 false); (4, HBeat 1 true); (0, HStart 0 true); (0, HAsk 0)] st.
Proof.
  pose proof (BE_init 5) as H. unfold hb_init in H.
  apply (fun h => BE_step 5 _ _ _ _ h (B_start_call 5 _ _ _ _ 0 eq_refl)) in H.
  apply (fun h => BE_step 5 _ _ _ _ h (B_start 5 _ _ _ _ 0 eq_refl)) in H.
  apply (fun h => BE_step 5 _ _ _ _ h (B_time 5 _ 4 _ _ _ _)) in H.
  apply (fun h => BE_step 5 _ _ _ _ h (B_beat_call 5 _ _ _ _ _ 1 eq_refl)) in H.
  apply (fun h => BE_step 5 _ _ _ _ h (B_beat 5 _ _ _ _ _ _ 1 eq_refl)) in H.
  apply (fun h => BE_step 5 _ _ _ _ h (B_time 5 _ 3 _ _ _ _)) in H.
  apply (fun h => BE_step 5 _ _ _ _ h (B_start_again 5 _ _ _ _ 2 eq_refl)) in H.
  apply (fun h => BE_step 5 _ _ _ _ h (B_time 5 _ 2 _ _ _ _)) in H.
  apply (fun h => BE_step 5 _ _ _ _ h (B_fire 5 _ _ _ _ _ _ (le_n 9))) in H.
  apply (fun h => BE_step 5 _ _ _ _ h (B_timeout 5 _ _ _ _ _)) in H.
  apply (fun h => BE_step 5 _ _ _ _ h (B_stop_call 5 _ _ _ _ _ 3 eq_refl)) in H.
  apply (fun h => BE_step 5 _ _ _ _ h (B_close 5 _ _ _ _)) in H.
  apply (fun h => BE_step 5 _ _ _ _ h (B_time 5 _ 3 _ _ _ _)) in H.
  apply (fun h => BE_step 5 _ _ _ _ h (B_stop_done 5 _ _ _ _ 3 eq_refl)) in H.
  eexists. exact H.
Qed.
Print Assumptions C31_nonvacuous.
