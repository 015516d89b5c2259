(** C26: destroying and ordinary operations exclude each other (pkg/async/destroy.go), over all histories of any number
    of concurrent calls.  Histories list the newest event first. *)
From Coq Require Import List Bool Arith.
From Verif Require Import DestroySync SpecDestroySync DestroySyncProofs.
Import ListNotations.

(** While an admitted destroy has not been cleared, no ordinary operation is running, none is admitted, and no other
    destroy is admitted. *)
Theorem C26_exclusive tr st : sync_exec tr st ->
  (forall i, destroyer tr = Some i -> forall j, running tr j = false) /\
  (forall i tr', tr = EvGuard i true :: tr' -> destroyer tr' = None) /\
  (forall i tr', tr = EvWait i true :: tr' -> destroyer tr' = None /\ forall j, running tr' j = false).
Proof.
  exact (fun H => conj (fun i E j => c26_excl tr st i j H E)
    (conj (fun i tr' E => c26_admitted i tr' st (eq_ind tr (fun t => sync_exec t st) H _ E))
      (fun i tr' E => let (a, b) := c26_waits i tr' st (eq_ind tr (fun t => sync_exec t st) H _ E) in conj b a))).
Qed.
Print Assumptions C26_exclusive.

(** Of concurrent destroys exactly one goes ahead: a destroy (or an operation) is refused only while another call is
    between winning WaitDestroy and the end of its ClearDestroy, and never are two calls in there. *)
Theorem C26_one_destroy tr st : sync_exec tr st ->
  (forall i tr', tr = EvWait i false :: tr' \/ tr = EvGuard i false :: tr' -> exists j, j <> i /\ in_destroy tr' j = true) /\
  (forall i j, in_destroy tr i = true -> in_destroy tr j = true -> i = j).
Proof. exact (c26_refused tr st). Qed.
Print Assumptions C26_one_destroy.

(** The winner is admitted: as soon as no operation is running its WaitDestroy can return, without any other call. *)
Theorem C26_admitted tr st i : sync_exec tr st -> waiting tr i = true -> (forall j, running tr j = false) ->
  exists st', sync_exec (EvWait i true :: tr) st'.
Proof. exact (c26_progress tr st i). Qed.
Print Assumptions C26_admitted.

(** Non-vacuity: an operation runs, a destroy wins and waits, a second operation and a second destroy are refused, the
    operation ends and the destroy is admitted, then cleared, and operations are admitted again. *)
Definition C26_history : list sync_event :=
  [EvGuard 4 true; EvCleared 2; EvRelease 2; EvGuard 1 false; EvWait 2 true; EvClear 1; EvGuard 4 false; EvWait 3 false; EvBegin 2; EvGuard 1 true].
Example C26_nonvacuous : exists st, sync_exec C26_history st.
Proof.
  pose proof YE_init as H. unfold sync_init in H.
  apply (fun h => YE_step _ _ _ _ h (Y_guard_ok _ _ _ 1 eq_refl)) in H.
  apply (fun h => YE_step _ _ _ _ h (Y_cas_ok _ _ _ 2 eq_refl)) in H.
  apply (fun h => YE_step _ _ _ _ h (Y_announce _ _ _ 2 eq_refl)) in H.
  apply (fun h => YE_step _ _ _ _ h (Y_cas_no _ _ _ 3 eq_refl)) in H.
  apply (fun h => YE_step _ _ _ _ h (Y_guard_no _ WPending _ _ 4 eq_refl ltac:(discriminate))) in H.
  apply (fun h => YE_step _ _ _ _ h (Y_clear _ _ _ _ 1 eq_refl)) in H.
  apply (fun h => YE_step _ _ _ _ h (Y_acquire _ _ _ 2 eq_refl)) in H.
  apply (fun h => YE_step _ _ _ _ h (Y_guard_no _ WHeld _ _ 1 eq_refl ltac:(discriminate))) in H.
  apply (fun h => YE_step _ _ _ _ h (Y_unlock _ _ _ _ 2 eq_refl)) in H.
  apply (fun h => YE_step _ _ _ _ h (Y_store _ _ _ _ 2 eq_refl)) in H.
  apply (fun h => YE_step _ _ _ _ h (Y_guard_ok _ _ _ 4 eq_refl)) in H.
  eexists. exact H.
Qed.
Print Assumptions C26_nonvacuous.
