(** C64: a timeout that is accepted does not end a service or a client *)
From Coq Require Import ZArith Bool Lia.
From Verif Require Import Timeouts TimeoutsProofs.
Local Open Scope Z_scope.

(** Partial: exactly the accepted timeouts that are not negative are harmless to the locker service ... *)
Theorem C64_locker_partial default t : default_accepted default = true -> lock_accepted t = true ->
  (locker_ends default t = false <-> forall d, t = Some d -> 0 < d).
Proof. exact (locker_survives _ _). Qed.
(** ... those of at least three nanoseconds to its clients ... *)
Theorem C64_lock_client_partial default t : lock_accepted t = true -> (lock_client_ends default t = false <-> 3 <= lock_timeout default t).
Proof. exact (lock_client_survives _ _). Qed.
(** ... and likewise, zero excluded, for the items of willow *)
Theorem C64_willow_partial d : (willow_ends (Some d) = false <-> 0 < d) /\ (item_client_ends (Some d) = false <-> 3 <= d).
Proof. exact (willow_survives _). Qed.
(** Heartbeats: the computation does not overflow, and three of them fit into nine tenths of the timeout *)
Theorem C64_no_overflow d : int64 d -> int64 (d - Z.quot d 10) /\ int64 (beat_every d).
Proof. exact (quot_int64 _). Qed.
Theorem C64_three_beats d : 3 <= d -> 0 < beat_every d /\ 3 * beat_every d <= d - d / 10 /\ d - d / 10 <= d.
Proof. intros H. split; [apply beat_pos; exact H|exact (three_beats _ H)]. Qed.
(** Refuted: one request ends the locker service, and one item the willow service; default timeout of five seconds *)
Theorem C64_locker_refuted : ~ (forall t, (forall d, t = Some d -> int64 d) -> lock_accepted t = true -> locker_ends 5000000000 t = false).
Proof. intros C. specialize (C (Some (-1))). cbn in C. discriminate C; [intros d [= <-]; unfold int64; lia|reflexivity]. Qed.
Theorem C64_willow_refuted : ~ (forall t, (forall d, t = Some d -> int64 d) -> item_accepted t = true -> willow_ends t = false).
Proof. intros C. specialize (C (Some 0)). cbn in C. discriminate C; [intros d [= <-]; unfold int64; lia|reflexivity]. Qed.
(** Refuted: a lock that the service grants does not end its client *)
Theorem C64_client_refuted : ~ (forall t, (forall d, t = Some d -> int64 d) -> lock_accepted t = true -> locker_ends 5000000000 t = false -> lock_client_ends 5000000000 t = false).
Proof. intros C. specialize (C (Some 2)). cbn in C. discriminate C; [intros d [= <-]; unfold int64; lia|reflexivity|reflexivity]. Qed.
(** the hypotheses: the default configuration, a request without a timeout, one with a second *)
Example C64_nonvacuous : default_accepted 5000000000 = true /\ lock_accepted None = true /\ locker_ends 5000000000 None = false /\ lock_client_ends 5000000000 None = false /\
  lock_accepted (Some 1000000000) = true /\ beat_every 1000000000 = 300000000 /\ int64 1000000000.
Proof. repeat split; try reflexivity; unfold int64; lia. Qed.

Print Assumptions C64_locker_partial.
Print Assumptions C64_lock_client_partial.
Print Assumptions C64_willow_partial.
Print Assumptions C64_no_overflow.
Print Assumptions C64_three_beats.
Print Assumptions C64_locker_refuted.
Print Assumptions C64_willow_refuted.
Print Assumptions C64_client_refuted.
