(** Property C72: what concurrent enqueues are told.  The statements use [SpecAssocSync.v]; the model is [EnqueueSync.v] over [AssocSync.v]. *)
From Coq Require Import List Bool Arith.
Import ListNotations.
From Verif Require Import AssocSync SpecAssocSync AssocSyncExamples EnqueueSync EnqueueSyncProofs.

(** Every enqueue that ends is told something. *)
Theorem C72_replies : forall nils destroys s tr i kv r, exec nils destroys (s :: tr) -> answered i CFindCreate kv r s -> forall took, exists a, enqueue_reply took r = Some a.
Proof. exact c72_replies. Qed.
(** C72: an enqueue that is accepted has put its item in a channel with its key-values, which is one of the queue's at a moment -- but for one
    case: another enqueue for the same channel is refused (all it can ever answer is RNil).  The full statement, without that case, is refuted below *)
Theorem C72_stored_partial : forall nils destroys s tr i kv r took, exec nils destroys (s :: tr) -> answered i CFindCreate kv r s -> enqueue_reply took r = Some Accepted ->
  (exists x s', put_in took r x /\ In s' (s :: tr) /\ stored kv x s') \/
  (exists j c, j <> i /\ (c = CCreate \/ c = CFindCreate) /\ call_is j c kv s /\
     forall tr' s' r', exec nils destroys (tr' ++ s :: tr) -> In s' (tr' ++ [s]) -> answered j c kv r' s' -> r' = RNil).
Proof. exact c72_accepted. Qed.
(** C72: if no enqueue that would create its channel is refused, there is no such case *)
Theorem C72_unrefused_partial : forall destroys s tr i kv r took, exec false destroys (s :: tr) -> answered i CFindCreate kv r s -> enqueue_reply took r = Some Accepted ->
  exists x s', put_in took r x /\ In s' (s :: tr) /\ stored kv x s'.
Proof. exact c72_stored. Qed.
(** C72: and the channel stays one of the queue's until a deletion of it runs.  Missing: executions with refused enqueues *)
Theorem C72_kept_partial : forall destroys tr1 s tr2 s' kv x, exec false destroys (tr1 ++ s :: tr2) -> stored kv x s -> In s' (tr1 ++ [s]) -> ~ stored kv x s' ->
  exists j c kv' t, In t (tr1 ++ [s]) /\ call_is j c kv' t /\ running j t /\ (kv' = kv /\ (exists b, c = CDelete b \/ exists y, c = CDeleteId b y) \/ c = CDestroy x).
Proof. exact c72_kept. Qed.
(** Two enqueues of the same channel, the second waits for the first; then the channel is deleted *)
Theorem C72_nonvacuous : exists s tr, exec false false (s :: tr) /\ answered 0 CFindCreate [(1, 1)] (RCreated 0) s /\ answered 1 CFindCreate [(1, 1)] (RFound 0) s /\ answered 2 (CDelete true) [(1, 1)] (RDeleted 0) s /\ absent 0 s /\
  exists s', In s' tr /\ stored [(1, 1)] 0 s'.
Proof. exact enqueues. Qed.
(** With refused enqueues the full statement is false: an enqueue that comes before a refused one has cleaned up is accepted, and its
    item is nowhere: the queue never has a channel. *)
Theorem C72_stored_refuted : ~ (forall s tr i kv r took, exec true false (s :: tr) -> answered i CFindCreate kv r s -> enqueue_reply took r = Some Accepted ->
  exists x s', In s' (s :: tr) /\ stored kv x s').
Proof.
  intros H. destruct enqueue_neither as (s & tr & E & A & N). destruct (H s tr 1 [(1, 1)] RNeither true E A eq_refl) as (x & s' & I & S). pose proof (N s' x I) as AB.
  unfold stored, absent in *. rewrite AB in S. discriminate.
Qed.
(** And a refused enqueue removes the channel of an accepted one, which no deletion was told of. *)
Theorem C72_kept_refuted : ~ (forall s tr i kv x, exec true false (s :: tr) -> (forall j, ~ running j s) -> answered i CFindCreate kv (RCreated x) s ->
  stored kv x s \/ exists j c kv', answered j c kv' (RDeleted x) s).
Proof.
  intros H. destruct enqueue_lost as (s & tr & E & A0 & A1 & A2 & L & AB). unfold answered in *.
  assert (ONLY : forall j th, nth_error (st_threads s) j = Some th -> th_pc th = PDone RNil \/ th_pc th = PDone RNone \/ th_pc th = PDone (RCreated 1)).
  { intros j th N. destruct j as [|[|[|j]]]; [rewrite A0 in N|rewrite A1 in N|rewrite A2 in N|]; try (injection N as <-; cbn; auto). exfalso. assert (Z : nth_error (st_threads s) (S (S (S j))) = None) by (apply nth_error_None; rewrite L; repeat apply le_n_S; apply Nat.le_0_l). congruence. }
  destruct (H s tr 2 [(1, 1)] 1 E) as [S | (j & c & kv' & D)].
  - intros j (th & N & R). destruct (ONLY j th N) as [D | [D | D]]; exact (R _ D).
  - exact A2.
  - unfold stored, absent in *. congruence.
  - destruct (ONLY j _ D) as [D' | [D' | D']]; discriminate.
Qed.
Print Assumptions C72_replies.
Print Assumptions C72_stored_partial.
Print Assumptions C72_unrefused_partial.
Print Assumptions C72_kept_partial.
Print Assumptions C72_nonvacuous.
Print Assumptions C72_stored_refuted.
Print Assumptions C72_kept_refuted.
