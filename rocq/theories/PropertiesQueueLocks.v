(** C48: requests about queues and a waiting dequeue.  Statements only; the proofs are in [QueueLocksProofs.v].

    The executions are those of [QueueLocks.v]: any number of requests about queues arrive at any time and take, at any speed,
    the locks on the way to their queue.  [r_done r] says that request [r] has been answered. *)
From Coq Require Import List Bool Arith Lia.
Import ListNotations.
From Verif Require Import QueueLocks QueueLocksProofs.

(** C48, the part that holds.  While no request that creates or deletes a queue has begun to take locks, however many dequeues wait,
    every lookup (enqueue, ack, heartbeat, dequeue, get, update, list of channels) that is not answered has a step it can make at
    once; and with every step it makes it comes nearer to its answer *)
Theorem C48_lookups_partial : forall parent rs i r, qlreach parent rs ->
  (forall j rj, nth_error rs j = Some rj -> r_write rj = true -> r_held rj = [] /\ r_asked rj = false) ->
  nth_error rs i = Some r -> r_write r = false -> r_done r = false ->
  (exists rs', qlstep parent rs (LReq i) rs') /\ (forall rs' r', qlstep parent rs (LReq i) rs' -> nth_error rs' i = Some r' -> left r' < left r).
Proof.
  intros parent rs i r R NW E W D. split.
  - destruct (lookup_step parent rs i r R E W D NW) as (r' & S). exists (set_req rs i r'). eapply QL_step; eauto.
  - intros rs' r' S E'. inversion S as [|? ? r0 r1 E0 S0]; subst. rewrite nth_set in E' by (eapply nth_lt; eauto). rewrite Nat.eqb_refl in E'. rewrite E in E0. injection E0 as <-. injection E' as <-. eapply rstep_less; eauto.
Qed.
Print Assumptions C48_lookups_partial.

(** C48, no deadlock.  In every tree (a node has a larger number than the node above), as long as some request is not answered, some
    request can make a step, which may be the end of a wait.  No infinite execution without new requests exists: [total]
    decreases with every step of a request.  So if every wait ends, every request is answered *)
Theorem C48_no_deadlock_partial : forall parent, (forall m, m <> 0 -> parent m < m) -> forall rs, qlreach parent rs ->
  (forall i r, nth_error rs i = Some r -> r_done r = false -> exists j rs', qlstep parent rs (LReq j) rs') /\
  (forall j rs', qlstep parent rs (LReq j) rs' -> total rs' < total rs).
Proof.
  intros parent DOWN rs R. split.
  - intros i r E D. exact (no_deadlock parent DOWN rs i r R E D).
  - intros j rs' S. exact (total_less parent rs j rs' S).
Qed.
Print Assumptions C48_no_deadlock_partial.

(** C48 refuted.  Request [i] waits, say for an item, in the queue at node [n]; request [j], which creates or deletes any queue whose
    way goes through [n], has announced itself there and holds the node above.  However long the others run and whatever they
    do, until request [i] makes a step request [j] is not answered, nor is any request [k] that still has to pass the node above,
    whatever queue it is about *)
Theorem C48_blocked_refuted : forall parent rs rs' i j n todo held, i <> j ->
  nth_error rs i = Some (mkReq false [] [n] false false) ->
  nth_error rs j = Some (mkReq true (n :: todo) held true false) -> In (parent n) held ->
  without parent i rs rs' ->
  nth_error rs' j = Some (mkReq true (n :: todo) held true false) /\
  forall k r, nth_error rs k = Some r -> In (parent n) (r_todo r) -> r_done r = false ->
    exists r', nth_error rs' k = Some r' /\ r_done r' = false.
Proof.
  intros parent rs rs' i j n todo held NE EI EJ HP W.
  assert (X : nth_error rs' j = Some (mkReq true (n :: todo) held true false) /\ nth_error rs' i = Some (mkReq false [] [n] false false) /\
    forall k r, nth_error rs k = Some r -> In (parent n) (r_todo r) -> exists r', nth_error rs' k = Some r' /\ In (parent n) (r_todo r') /\ r_done r' = r_done r).
  { revert EI EJ. induction W as [rs|rs rs1 l rs2 W0 IH NL S]; intros EI EJ; [split; [exact EJ|split; [exact EI|intros k r E HI; exists r; auto]]|].
    destruct (IH EI EJ) as (J1 & I1 & K1).
    assert (ST : stuck parent i j n rs1) by (constructor; eauto). destruct (stuck_step parent i j n rs1 l rs2 ST NL S) as [[_ I2 _] K2].
    split; [|split; [exact I2|]].
    - inversion S as [rs0 w p WY | rs0 k0 r0 r' Er S']; subst; [rewrite nth_error_app1 by (eapply nth_lt; eauto); exact J1|].
      rewrite nth_set by (eapply nth_lt; eauto). destruct (Nat.eqb_spec j k0) as [<-|]; [|exact J1]. exfalso. rewrite J1 in Er. injection Er as <-. inversion S'; subst.
      match goal with H : nobody _ _ _ |- _ => apply (H i _ I1 NE) end. left. reflexivity.
    - intros k r E HI. destruct (K1 k r E HI) as (r1 & E1 & HI1 & D1). destruct (K2 k r1 E1 HI1) as (r2 & E2 & HI2 & D2). exists r2. split; [exact E2|]. split; [exact HI2|congruence]. }
  destruct X as (J & _ & K). split; [exact J|]. intros k r E HI D. destruct (K k r E HI) as (r' & E' & _ & D'). exists r'. split; [exact E'|congruence].
Qed.
Print Assumptions C48_blocked_refuted.

(** When the queue is in the root (which holds the first queues of the broker), that is every request: none that arrives later is
    answered, whatever queue it is about and whether it creates, deletes or looks up *)
Theorem C48_all_refuted : forall parent rs rs' i j todo held, qlreach parent rs -> parent 1 = 0 -> i <> j ->
  nth_error rs i = Some (mkReq false [] [1] false false) ->
  nth_error rs j = Some (mkReq true (1 :: todo) held true false) -> In 0 held ->
  without parent i rs rs' ->
  forall k r, nth_error rs' k = Some r -> length rs <= k -> r_done r = false.
Proof.
  intros parent rs rs' i j todo held R P1 NE EI EJ HP W k r E L.
  assert (ST : stuck parent i j 1 rs) by (constructor; [exact NE|exact EI|exists todo, held; split; [exact EJ|rewrite P1; exact HP]]).
  destruct (stuck_new parent i j rs rs' P1 W ST R) as [_ K]. exact (proj2 (K k r E L)).
Qed.
Print Assumptions C48_all_refuted.

(** *** The hypotheses are met: a dequeue of a queue in the root waits; a request creates another queue there; later requests come *)
Definition up (m : nat) : nat := match m with 2 => 1 | 3 => 1 | _ => 0 end.
Definition waiting_dequeue := mkReq false [] [1] false false.
Definition creation := mkReq true [1; 2] [0] true false.
Definition late := mkReq false [0; 1; 3] [] false false.
Ltac qgo i := eapply QR_step; [|eapply (QL_step _ _ i); [cbn; reflexivity|]].
Ltac free := intros [|[|[|[|]]]] r E; cbn in E; try discriminate; injection E as <-; cbn; intuition (try discriminate; try congruence; auto).
Lemma way_up p : p = [1] \/ p = [1; 2] \/ p = [1; 3] -> way up 0 p.
Proof. intros [-> | [-> | ->]]; repeat (apply W_down; [discriminate|reflexivity|]); apply W_here. Qed.
Example C48_reached : qlreach up [waiting_dequeue; creation; late].
Proof.
  apply (QR_step up [waiting_dequeue; creation] LArrive); [|exact (QL_arrive up [waiting_dequeue; creation] false [1; 3] (way_up [1; 3] ltac:(auto)))].
  change [waiting_dequeue; creation] with (set_req [waiting_dequeue; mkReq true [1; 2] [0] false false] 1 creation). qgo 1; [|apply W_ask; free].
  change [waiting_dequeue; mkReq true [1; 2] [0] false false] with (set_req [waiting_dequeue; mkReq true [0; 1; 2] [] true false] 1 (mkReq true [1; 2] [0] false false)). qgo 1; [|apply W_take; free].
  change [waiting_dequeue; mkReq true [0; 1; 2] [] true false] with (set_req [waiting_dequeue; mkReq true [0; 1; 2] [] false false] 1 (mkReq true [0; 1; 2] [] true false)). qgo 1; [|apply W_ask; free].
  apply (QR_step up [waiting_dequeue] LArrive); [|exact (QL_arrive up [waiting_dequeue] true [1; 2] (way_up [1; 2] ltac:(auto)))].
  change [waiting_dequeue] with (set_req [mkReq false [] [1; 0] false false] 0 waiting_dequeue). qgo 0; [|apply R_drop].
  change [mkReq false [] [1; 0] false false] with (set_req [mkReq false [1] [0] false false] 0 (mkReq false [] [1; 0] false false)). qgo 0; [|apply R_take; [cbn; lia|free]].
  change [mkReq false [1] [0] false false] with (set_req [mkReq false [0; 1] [] false false] 0 (mkReq false [1] [0] false false)). qgo 0; [|apply R_take; [cbn; lia|free]].
  apply (QR_step up [] LArrive); [apply QR_new|exact (QL_arrive up [] false [1] (way_up [1] ltac:(auto)))].
Qed.
Example C48_reached_down : forall m, m <> 0 -> up m < m.
Proof. intros [|[|[|[|m]]]] N; cbn; lia. Qed.
(** The late request never gets an answer while the dequeue waits, and neither do requests that come still later; once the dequeue
    ends, the creation goes on *)
Example C48_late_blocked : forall rs', without up 0 [waiting_dequeue; creation; late] rs' -> exists r, nth_error rs' 2 = Some r /\ r_done r = false.
Proof.
  intros rs' W. destruct (C48_blocked_refuted up [waiting_dequeue; creation; late] rs' 0 1 1 [2] [0] ltac:(discriminate) eq_refl eq_refl ltac:(left; reflexivity) W) as [_ K].
  exact (K 2 late eq_refl ltac:(left; reflexivity) eq_refl).
Qed.
Example C48_later_blocked : forall rs' k r, without up 0 [waiting_dequeue; creation; late] rs' -> nth_error rs' k = Some r -> 3 <= k -> r_done r = false.
Proof.
  intros rs' k r W E L. eapply (C48_all_refuted up _ rs' 0 1 [2] [0] C48_reached eq_refl ltac:(discriminate) eq_refl eq_refl ltac:(left; reflexivity) W); eauto.
Qed.
Example C48_then : exists rs', qlstep up [mkReq false [] [] false true; creation; late] (LReq 1) rs'.
Proof. eexists. eapply QL_step; [reflexivity|]. apply W_take. free. Qed.
