(** Concurrent calls of an associated tree: C54-C59 of properties.jsonl.  The statements use [SpecAssocSync.v]; the model is [AssocSync.v]. *)
From Coq Require Import List Bool Arith.
Import ListNotations.
From Verif Require Import AssocSync SpecAssocSync AssocSyncAnswers AssocSyncChanges AssocSyncLive AssocSyncExamples AssocSyncMarks.

(** C54: at most one item has given key-values, at any time; items being destroyed do not count *)
Theorem C54_one_item : forall nils destroys s tr kv x y, exec nils destroys (s :: tr) -> stored kv x s -> stored kv y s -> ~ destroyed_now x s -> ~ destroyed_now y s -> x = y.
Proof. exact one_item. Qed.
Theorem C54_created_once : forall nils destroys s tr i j c kv c' kv' x, exec nils destroys (s :: tr) -> answered i c kv (RCreated x) s -> answered j c' kv' (RCreated x) s -> i = j.
Proof. exact created_once. Qed.
Theorem C54_deleted_once : forall nils destroys s tr i j c kv c' kv' x, exec nils destroys (s :: tr) -> answered i c kv (RDeleted x) s -> answered j c' kv' (RDeleted x) s -> i = j.
Proof. exact deleted_once. Qed.
(** With a Destroy running two may be stored: the old one goes, the new one is there already *)
Theorem C54_nonvacuous : exists s tr, exec false true (s :: tr) /\ answered 4 (CDestroy 3) [(1, 1); (2, 5)] (RDeleted 3) s /\ answered 5 CFindCreate [(1, 1); (2, 5)] RBusy s /\ answered 6 CCreate [(1, 1); (2, 5)] (RCreated 4) s /\
  (exists s', In s' tr /\ stored [(1, 1); (2, 5)] 3 s' /\ stored [(1, 1); (2, 5)] 4 s').
Proof. exact destroying_now. Qed.

(** C55: every answer is right at a moment of the call *)
Theorem C55_answers : forall destroys s tr i c kv r, exec false destroys (s :: tr) -> answered i c kv r s -> right false (s :: tr) i c kv r.
Proof. exact (answers false). Qed.
(** C55: a call that finds, deletes or is refused an item, has a moment when the item was not marked by a destruction: none that overlaps
    the marked time only does *)
Theorem C55_not_destroyed : forall nils destroys s tr i c kv r x, exec nils destroys (s :: tr) -> answered i c kv r s -> r = RFound x \/ r = RRefused x \/ r = RDeleted x ->
  moment (s :: tr) i (fun s => ~ marked_now x s).
Proof. exact not_marked. Qed.
Theorem C55_nonvacuous : exists s tr, exec false false (s :: tr) /\ answered 0 CCreate [(1, 1); (2, 5)] (RCreated 0) s /\ answered 1 CFindCreate [(1, 1); (2, 5)] (RFound 0) s /\ answered 2 CFind [(1, 1)] RNone s /\
  answered 3 CFind [(1, 1); (2, 5)] RNone s /\ answered 4 (CDelete true) [(1, 1); (2, 5)] (RRefused 0) s /\ stored [(1, 1); (2, 5)] 0 s.
Proof. exact overlapping. Qed.

(** C56: items come and go only with the calls that answer so *)
Theorem C56_appears : forall nils destroys tr1 s' s tr2 x kv, exec nils destroys (tr1 ++ s' :: s :: tr2) -> ~ stored kv x s -> stored kv x s' ->
  absent x s /\ gone kv s /\ exists i c, (c = CCreate \/ c = CFindCreate) /\ call_is i c kv s /\ running i s /\ acts i s s' /\
    forall s'' c' kv' r, In s'' (tr1 ++ [s']) -> answered i c' kv' r s'' -> r = RCreated x.
Proof. exact appears. Qed.
Theorem C56_leaves : forall destroys tr1 s' s tr2 x kv, exec false destroys (tr1 ++ s' :: s :: tr2) -> stored kv x s -> ~ stored kv x s' ->
  absent x s' /\ exists i c kv', (kv' = kv /\ (exists b, c = CDelete b \/ exists y, c = CDeleteId b y) \/ c = CDestroy x) /\ call_is i c kv' s /\ running i s /\ acts i s s' /\
    forall s'' c' kv'' r, In s'' (tr1 ++ [s']) -> answered i c' kv'' r s'' -> r = RDeleted x.
Proof. exact leaves. Qed.
Theorem C56_keeps : forall nils destroys tr1 s tr2 s' x kv kv', exec nils destroys (tr1 ++ s :: tr2) -> In s' (tr1 ++ [s]) -> stored kv x s -> stored kv' x s' -> kv' = kv.
Proof. exact keeps. Qed.
Theorem C56_never_back : forall nils destroys tr1 s tr2 s1 s2 x kv, exec nils destroys (tr1 ++ s :: tr2) -> stored kv x s ->
  forall tr1a tr1b, tr1 = tr1a ++ s1 :: tr1b -> absent x s1 -> In s2 (tr1a ++ [s1]) -> absent x s2.
Proof. exact never_back. Qed.
Theorem C56_nonvacuous : exists s tr, exec false false (s :: tr) /\ answered 0 CCreate [(1, 1)] (RCreated 0) s /\ answered 2 (CDelete false) [(1, 1)] (RDeleted 0) s /\ answered 3 CCreate [(1, 1)] (RCreated 1) s /\
  answered 1 (CDeleteId false 0) [(1, 1)] (RDeleted 1) s.
Proof. exact delete_other. Qed.
(** C57: a creation whose callback returns nil leaves nothing behind.  Missing: a creation whose callback returns nil removes what it meets when it cleans up *)
Theorem C57_nil_partial : forall destroys s tr i c kv r, exec true destroys (s :: tr) -> answered i c kv r s -> right true (s :: tr) i c kv r.
Proof. exact (answers true). Qed.
Theorem C57_leaves_partial : forall destroys tr1 s' s tr2 x kv, exec true destroys (tr1 ++ s' :: s :: tr2) -> stored kv x s -> ~ stored kv x s' ->
  absent x s' /\ exists i c kv', (kv' = kv /\ c <> CFind \/ c = CDestroy x) /\ call_is i c kv' s /\ running i s /\ acts i s s'.
Proof. exact (leaves_nil true). Qed.
Theorem C57_exists_refuted : ~ (forall s tr i kv, exec true false (s :: tr) -> answered i CCreate kv RExists s -> exists s' x, In s' (s :: tr) /\ stored kv x s').
Proof.
  intros H. destruct nil_exists as (s & tr & E & A & N). destruct (H s tr 1 [(1, 1)] E A) as (s' & x & I & S). pose proof (N s' x I) as AB. unfold stored, absent in *. rewrite AB in S. discriminate.
Qed.
Theorem C57_neither_refuted : ~ (forall s tr i kv r, exec true false (s :: tr) -> answered i CFindCreate kv r s -> r = RNil \/ exists s' x, In s' (s :: tr) /\ stored kv x s').
Proof.
  intros H. destruct nil_neither as (s & tr & E & A & N). destruct (H s tr 1 [(1, 1)] RNeither E A) as [D | (s' & x & I & S)]; [discriminate|]. pose proof (N s' x I) as AB. unfold stored, absent in *. rewrite AB in S. discriminate.
Qed.
Theorem C57_deletes_refuted : ~ (forall s tr i kv x, exec true false (s :: tr) -> (forall j, ~ running j s) -> answered i CCreate kv (RCreated x) s -> stored kv x s \/ exists j c kv', answered j c kv' (RDeleted x) s).
Proof.
  intros H. destruct nil_deletes as (s & tr & E & A0 & A1 & A2 & L & AB). unfold answered in *.
  assert (ONLY : forall j th, nth_error (st_threads s) j = Some th -> th_pc th = PDone RNil \/ th_pc th = PDone RNone \/ th_pc th = PDone (RCreated 1)).
  { intros j th N. destruct j as [|[|[|j]]]; [rewrite A0 in N|rewrite A1 in N|rewrite A2 in N|]; try (injection N as <-; cbn; auto). exfalso. assert (Z : nth_error (st_threads s) (S (S (S j))) = None) by (apply nth_error_None; rewrite L; repeat apply le_n_S; apply Nat.le_0_l). congruence. }
  destruct (H s tr 2 [(1, 1)] 1 E) as [S | (j & c & kv' & D)].
  - intros j (th & N & R). destruct (ONLY j th N) as [D | [D | D]]; exact (R _ D).
  - exact A2.
  - unfold stored, absent in *. congruence.
  - destruct (ONLY j _ D) as [D' | [D' | D']]; discriminate.
Qed.

(** C58: a deletion by id deletes that item.  Missing: another one with the same key-values may have taken its place *)
Theorem C58_same_partial : forall nils destroys s tr i b y kv x, exec nils destroys (s :: tr) -> answered i (CDeleteId b y) kv (RDeleted x) s ->
  change (s :: tr) i (fun s s' => stored kv x s /\ absent x s') /\ exists s', In s' (s :: tr) /\ stored kv y s'.
Proof. exact delete_id_same. Qed.
Theorem C58_own_partial : forall nils s tr i b y kv x, exec nils false (s :: tr) -> answered i (CDeleteId b y) kv (RDeleted x) s -> (forall s', In s' tr -> running i s' -> stored kv y s') -> x = y.
Proof. exact delete_id_own. Qed.
Theorem C58_other_refuted : ~ (forall s tr i b y kv x, exec false false (s :: tr) -> answered i (CDeleteId b y) kv (RDeleted x) s -> x = y).
Proof. intros H. destruct delete_other as (s & tr & E & _ & _ & _ & A). specialize (H s tr 1 false 0 _ 1 E A). discriminate. Qed.

(** C59: calls come to an end, whatever the schedule.  Missing: when items are destroyed *)
Theorem C59_end_partial : forall nils s tr, exec nils false (s :: tr) -> inevitably nils all_answered s.
Proof. exact all_end. Qed.
Theorem C59_no_endless : forall nils (f : nat -> state), ~ (forall n, exists i, moves nils i (f n) (f (S n))).
Proof. exact no_endless. Qed.
Theorem C59_busy_refuted : exists s tr, exec false true (s :: tr) /\ length (st_threads s) = 3 /\ answered 0 CCreate [(1, 1)] (RCreated 0) s /\ answered 2 (CDelete false) [(1, 1)] RBusy s /\
  call_is 1 (CDestroy 0) [(1, 1)] s /\ stuck false true 1 s /\ frozen false true s.
Proof. exact busy_hangs. Qed.
Theorem C59_destroy_refuted : exists s tr, exec false true (s :: tr) /\ length (st_threads s) = 3 /\ answered 0 CCreate [(1, 1)] (RCreated 0) s /\ call_is 1 (CDestroy 0) [(1, 1)] s /\ call_is 2 CCreate [(1, 1); (2, 2)] s /\
  stuck false true 1 s /\ stuck false true 2 s /\ frozen false true s.
Proof. exact destroy_hangs. Qed.

Print Assumptions C54_one_item.
Print Assumptions C54_created_once.
Print Assumptions C54_deleted_once.
Print Assumptions C54_nonvacuous.
Print Assumptions C55_answers.
Print Assumptions C55_not_destroyed.
Print Assumptions C55_nonvacuous.
Print Assumptions C56_appears.
Print Assumptions C56_leaves.
Print Assumptions C56_keeps.
Print Assumptions C56_never_back.
Print Assumptions C56_nonvacuous.
Print Assumptions C57_nil_partial.
Print Assumptions C57_leaves_partial.
Print Assumptions C57_exists_refuted.
Print Assumptions C57_neither_refuted.
Print Assumptions C57_deletes_refuted.
Print Assumptions C58_same_partial.
Print Assumptions C58_own_partial.
Print Assumptions C58_other_refuted.
Print Assumptions C59_end_partial.
Print Assumptions C59_no_endless.
Print Assumptions C59_busy_refuted.
Print Assumptions C59_destroy_refuted.
