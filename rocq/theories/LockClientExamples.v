(** The refutations of C61-C63, and cases that meet the hypotheses of the theorems. *)
From Coq Require Import String List Bool Arith Lia.
From Verif Require Import DestroySync Locker SpecLocker LockerProofs LockerTrace LockClient SpecLockClient LockClientInv LockClientHist LockClientValid LockClientDone LockClientJam LockClientWitness.
Import ListNotations.
Local Open Scope nat_scope.
Local Open Scope list_scope.
Local Open Scope string_scope.

Ltac yes := solve [eexists; cbn; repeat (first [left; reflexivity | right])].
Ltac no := solve [let t := fresh in let H := fresh in intros (t & H); cbn in H; repeat (destruct H as [H|H]; [discriminate|]); destruct H].
Lemma done_open : ~ (forall h w i1 o1 a1 i2 o2 a2 k, w_exec nat kd common 0 h w -> a1 <> a2 ->
  happened (EObtain _ i1 a1 k) h -> happened (EObtained _ i1 o1) h -> happened (EObtain _ i2 a2 k) h -> happened (EObtained _ i2 o2) h ->
  happened (EDone _ o1) h \/ happened (EDone _ o2) h).
Proof.
  intros C. destruct (two_history 0) as (w & x & y & H & _). destruct (C _ _ 0 0 0 1 1 1 7 H) as [Z|Z]; try yes; [discriminate| |]; revert Z; no.
Qed.
Lemma same_client : ~ (forall h w i1 o1 i2 o2 a k, w_exec nat kd common 0 h w ->
  happened (EObtain _ i1 a k) h -> happened (EObtained _ i1 o1) h -> happened (EObtain _ i2 a k) h -> happened (EObtained _ i2 o2) h ->
  i1 = i2 \/ happened (EDone _ o1) h \/ happened (EDone _ o2) h).
Proof.
  intros C. destruct shared_history as (w & H). destruct (C _ _ 0 0 1 0 0 7 H) as [Z|[Z|Z]]; try yes; [discriminate| |]; revert Z; no.
Qed.
Lemma hung : forall D, exists h w o x t s i, w_exec nat kd common 0 h w /\ w_obj _ w o = Some x /\ happened (EObtained _ i o) h /\
  In (t, LExpire nat (o_key _ x) (o_sess _ x)) (server_history h) /\ holder kd (server_history h) (o_key _ x) = Some (o_lock _ x, s) /\ s <> o_sess _ x /\
  t + D <= lm_now _ (w_srv _ w) /\ o_loop _ x = HSent 1 /\ ~ happened (EDone _ o) h.
Proof.
  intros D. destruct (two_history D) as (w & x & y & H & T & X & Y & K1 & K2 & K3 & K4 & L). eexists. exists w, 0, x, 30, "u", 0. split; [exact H|].
  rewrite K1, K3, K4, T, L. split; [exact X|]. split; [yes|]. split; [cbn; auto 9|]. split; [reflexivity|]. split; [discriminate|]. split; [lia|]. split; [reflexivity|no].
Qed.
Lemma blocked_done : forall D, exists h w o x t s i, w_exec nat kd common 0 h w /\ w_obj _ w o = Some x /\ happened (EObtained _ i o) h /\
  In (t, LExpire nat (o_key _ x) (o_sess _ x)) (server_history h) /\ holder kd (server_history h) (o_key _ x) = Some (o_lock _ x, s) /\ s <> o_sess _ x /\
  t + D <= lm_now _ (w_srv _ w) /\ o_loop _ x = HQuit /\ ~ happened (EDone _ o) h /\ w_call _ w 2 = CPosted _ (o_client _ x) 8.
Proof.
  intros D. destruct (blocked_history D) as (w & x & H & T & X & K1 & K2 & K3 & K4 & L1 & L2 & L3). eexists. exists w, 0, x, 30, "v", 0. split; [exact H|].
  rewrite K1, K2, K3, K4, T, L1, L3. split; [exact X|]. split; [yes|]. split; [cbn; auto 9|]. split; [reflexivity|]. split; [discriminate|]. split; [lia|]. split; [reflexivity|]. split; [no|reflexivity].
Qed.
Lemma false_alarm : ~ (forall h w o x, w_exec nat kd common 0 h w -> happened (EDone _ o) h -> w_obj _ w o = Some x ->
  (exists r, happened (ERelease _ r o) h) \/ holder kd (server_history h) (o_key _ x) <> Some (o_lock _ x, o_sess _ x)).
Proof.
  intros C. destruct alarm_history as (w & x & H & T & X & K1 & K2 & K3 & K4). destruct (C _ _ 0 x H) as [(r & Z)|Z]; [yes|exact X|revert Z; no|]. apply Z. rewrite K1, K2, K3. reflexivity.
Qed.
Lemma deadlocked : exists h w o1 o2, w_exec nat kd common 0 h w /\ o1 <> o2 /\ happened (ERelease _ 0 o1) h /\ happened (ERelease _ 1 o2) h /\
  forall h' w', w_run kd common w h' w' -> (forall t k s, ~ In (t, EServer _ (LExpire nat k s)) h') -> (forall i, ~ happened (ENoLock _ i) h') ->
  ~ returned 0 (h' ++ h) /\ ~ returned 1 (h' ++ h).
Proof.
  destruct jam_history as (w & x1 & x2 & H & J1 & J2). eexists. exists w, 0, 1. split; [exact H|]. split; [discriminate|]. split; [yes|]. split; [yes|].
  intros h' w' R NE NL. destruct (deadlock _ _ _ _ _ _ _ _ _ _ _ _ _ H J1 J2 Logic.I Logic.I _ _ R NE (NL _) (NL _)) as [L1 L2].
  pose proof (exec_run _ _ _ _ _ _ _ H R) as HX. split; eapply jam_no_return; eauto.
Qed.
(** ** Hypotheses *)
(** C60: a lock is obtained, heartbeated, released; afterwards the key is free *)
Example plain_life : exists w x, w_exec nat kd common 0 plain_events w /\ w_obj _ w 0 = Some x /\ happened (EObtained _ 0 0) plain_events /\ happened (EObtain _ 0 0 7) plain_events /\
  happened (EDone _ 0) plain_events /\ happened (EDelete _ 0) plain_events /\ happened (EEnded _ 0) plain_events /\ happened (ERelease _ 0 0) plain_events /\ happened (EReturn _ 0 true) plain_events /\
  holder kd (server_history plain_events) 7 = None.
Proof. destruct plain_history as (w & x & H & X & _). exists w, x. split; [exact H|]. split; [exact X|]. repeat split; yes. Qed.
(** C60_late_*: after a false alarm the goroutine has ended; then Release is called, and the service keeps the lock *)
Example late_case : exists w newer older, w_exec nat kd common 0 late_events w /\ late_events = (newer ++ (31, ERelease _ 0 0) :: older)%list /\ happened (EEnded _ 0) older /\
  (forall r, ~ happened (ERelease _ r 0) older) /\ holder kd (server_history late_events) 7 = Some (0, "s").
Proof.
  destruct late_history as (w & H). exists w, [(31, EReturn _ 0 false)]. eexists. split; [exact H|]. split; [reflexivity|]. split; [yes|]. split; [intros r; no|reflexivity].
Qed.
(** C61: at time 15 the lock granted at 0 is valid until 40 *)
Example valid_case : exists w x, w_exec nat kd common 0 (skipn 6 plain_events) w /\ w_obj _ w 0 = Some x /\ ~ happened (EDelete _ 0) (skipn 6 plain_events) /\
  valid_until (skipn 6 plain_events) 0 (o_sess _ x) (o_time _ x) = Some 40 /\ lm_now _ (w_srv _ w) < 40.
Proof. destruct held_history as (w & x & H & T & X & K1 & K2 & K3 & K4). exists w, x. rewrite K3, K4, T. split; [exact H|]. split; [exact X|]. split; [no|]. split; [reflexivity|lia]. Qed.
(** C62, C63: the timeout has passed (D units ago) *)
Example due_case D : exists h w x, w_exec nat kd common 0 h w /\ w_obj _ w 0 = Some x /\ last_word h 0 = Some 13 /\ 13 + o_time _ x <= lm_now _ (w_srv _ w) /\ ~ happened (EDone _ 0) h /\
  o_loop _ x = HSelect /\ (forall i k', happened (EObtain _ i (o_client _ x) k') h -> k' = o_key _ x \/ common k' (o_key _ x) -> obtained i h) /\ 43 + D = lm_now _ (w_srv _ w).
Proof.
  held. srv (K_time nat kd _ 28). srv (K_time nat kd _ D). eexists. do 2 eexists. split; [exact H|]. split; [reflexivity|]. split; [reflexivity|]. split; [cbn; lia|]. split; [no|]. split; [reflexivity|]. split; [|reflexivity].
  intros i k' (t & HI) _. cbn in HI. repeat (destruct HI as [HI|HI]; [try discriminate HI|]); [|destruct HI]. injection HI as <- <- <-. left. exists 0. yes.
Qed.
(** C63_waits_for_obtain: client 0 has key 7 and waits for key 8 *)
Example waiting_case : exists w x, w_exec nat kd common 0 crossed_events w /\ w_obj _ w 0 = Some x /\ In (0, LJoin nat 2 8) (server_history crossed_events) /\
  happened (EObtain _ 2 (o_client _ x) 8) crossed_events /\ ~ obtained 2 crossed_events /\ common 8 (o_key _ x) /\ (forall r, ~ happened (ERelease _ r 0) crossed_events) /\
  ~ unconfirmed crossed_events 0 (o_time _ x) (lm_now _ (w_srv _ w)) /\ ~ (exists t, In (t, LBeat nat (o_key _ x) (o_lock _ x) (o_sess _ x) false) (server_history crossed_events)).
Proof.
  crossed. do 2 eexists. split; [exact H|]. split; [reflexivity|]. split; [cbn; auto 9|]. split; [yes|]. split; [|split; [exact Logic.I|]].
  - intros [(o & Z)|Z]; revert Z; no.
  - split; [intros r; no|]. split; [|intros (t & HI); cbn in HI; repeat (destruct HI as [HI|HI]; [discriminate HI|]); destruct HI].
    intros (a & t & e & b & E & R & L & _). cbn in L. lia.
Qed.
