(** Concrete histories of the locker, with numbers for key-values: used to refute claims and to show that hypotheses of
    theorems are met. *)
From Coq Require Import String List Bool Arith Lia ZArith.
From Verif Require Import DestroySync Locker SpecLocker LockerProofs LockerTrace LockerLive.
Import ListNotations.
Local Open Scope nat_scope.
Local Open Scope list_scope.
Local Open Scope string_scope.

Notation kd := Nat.eq_dec.
Notation exec := (lk_exec nat kd 0).
Lemma fun_run tr st e st' : exec tr st -> lk_step nat kd st e st' ->
  exec (push (match e with Some e => Some (lm_now _ st, e) | None => None end) tr) st'.
Proof. intros H HS. exact (KR_step _ _ _ _ _ _ _ H HS). Qed.
Lemma start_exec : exec [] (lm_init nat 0). Proof. constructor. Qed.
Ltac side := first [reflexivity | discriminate | exact I | cbn; lia | cbn; intuition discriminate].
Tactic Notation "go" uconstr(c) := match goal with H : exec ?tr ?st |- _ => let X := fresh in
  eassert (X : lk_step nat kd st _ _) by (eapply c; side); apply (fun_run _ _ _ _ H) in X; clear H; rename X into H; cbn [push] in H end.

(** client 0 is granted key 7 for 5 units, is heartbeated late and expires at once; client 1 waits for the key *)
Lemma late_history : exists st, exec
  [(5, LExpire nat 7 "s"); (5, LBeat nat 7 0 "s" true); (1, LJoin nat 1 7); (0, LGrant nat 0 7 0 "s" 5); (0, LJoin nat 0 7)] st.
Proof.
  pose proof start_exec as H.
  go (K_join_new nat kd _ 0 7 5).
  go (K_claim nat kd _ 0 0 5).
  go (K_grant nat kd _ 0 0 5 "s").
  go (K_time nat kd _ 1).
  go (K_join nat kd _ 1 7 0 9).
  go (K_time nat kd _ 4).
  go (K_fire nat kd _ 0 "s" 5 5 false).
  go (K_beat_begin nat kd _ 7 "s" 0).
  go (K_beat_ok nat kd _ 7 0 "s" 5 10 true [] []).
  go (K_take nat kd _ 0 "s" 5 10).
  go (K_expire nat kd _ 0 "s" 5 10 false).
  eexists. exact H.
Qed.
(** the same without a heartbeat, handed on to client 1, released, with stale requests of client 0 in between *)
Lemma handed_history : exists st, exec
  [(6, LRelease nat 7 0 "u" true); (5, LBeat nat 7 0 "u" true); (5, LRelease nat 7 0 "s" false); (5, LBeat nat 7 0 "s" false); (5, LGrant nat 1 7 0 "u" 9); (5, LHandOn nat 7); (5, LExpire nat 7 "s");
   (1, LJoin nat 1 7); (0, LGrant nat 0 7 0 "s" 5); (0, LJoin nat 0 7)] st /\ locks_query _ st 7 = None.
Proof.
  pose proof start_exec as H.
  go (K_join_new nat kd _ 0 7 5).
  go (K_claim nat kd _ 0 0 5).
  go (K_grant nat kd _ 0 0 5 "s").
  go (K_time nat kd _ 1).
  go (K_join nat kd _ 1 7 0 9).
  go (K_time nat kd _ 4).
  go (K_fire nat kd _ 0 "s" 5 5 false).
  go (K_take nat kd _ 0 "s" 5 10).
  go (K_expire nat kd _ 0 "s" 5 10 false).
  go (K_time_begin nat kd _ 0 0 false 7).
  go (K_time_done nat kd _ 0 false true 7).
  go (K_claim nat kd _ 1 0 9).
  go (K_grant nat kd _ 1 0 9 "u").
  go (K_beat_begin nat kd _ 7 "s" 0).
  go (K_beat_fail nat kd _ 7 0 "s" (LHeld "u" 9 14 false) [] []).
  go (K_rel_begin nat kd _ 7 0 "s" 0).
  go (K_rel_fail nat kd _ 7 0 0 "s" (LHeld "u" 9 14 false)).
  go (K_beat_begin nat kd _ 7 "u" 0).
  go (K_beat_ok nat kd _ 7 0 "u" 9 14 false [] []).
  go (K_time nat kd _ 1).
  go (K_rel_begin nat kd _ 7 0 "u" 0).
  go (K_rel_ok nat kd _ 7 0 0 "u" 9 14 false).
  eexists. split; [exact H|reflexivity].
Qed.
(** client 0 holds key 7 past its timeout, client 1 waits: the state from which the lock is handed on *)
Lemma due_history : exists st, exec [(1, LJoin nat 1 7); (0, LGrant nat 0 7 0 "s" 5); (0, LJoin nat 0 7)] st /\
  lm_client _ st 1 = CWait 0 9 /\ lm_now _ st = 6.
Proof.
  pose proof start_exec as H.
  go (K_join_new nat kd _ 0 7 5).
  go (K_claim nat kd _ 0 0 5).
  go (K_grant nat kd _ 0 0 5 "s").
  go (K_time nat kd _ 1).
  go (K_join nat kd _ 1 7 0 9).
  go (K_time nat kd _ 5).
  eexists. split; [exact H|]. split; reflexivity.
Qed.
(** the ticker fires a second time before it is stopped: Execute blocks on the full blockDone *)
Lemma stuck_history : exists st, exec [(3, LExpire nat 7 "s"); (0, LJoin nat 1 7); (0, LGrant nat 0 7 0 "s" 1); (0, LJoin nat 0 7)] st /\
  lm_client _ st 1 = CWait 0 9 /\ lm_cur _ st 7 = Some 0 /\ l_ph _ (lm_lock _ st 0) = LStuck.
Proof.
  pose proof start_exec as H.
  go (K_join_new nat kd _ 0 7 1).
  go (K_claim nat kd _ 0 0 1).
  go (K_grant nat kd _ 0 0 1 "s").
  go (K_join nat kd _ 1 7 0 9).
  go (K_time nat kd _ 1).
  go (K_fire nat kd _ 0 "s" 1 1 false).
  go (K_take nat kd _ 0 "s" 1 2).
  go (K_time nat kd _ 2).
  go (K_fire_again nat kd _ 0 "s" 1 2 false).
  go (K_expire nat kd _ 0 "s" 1 3 true).
  go (K_take_again nat kd _ 0 false).
  eexists. split; [exact H|]. split; [|split]; reflexivity.
Qed.
(** client 0 released, its second release is waiting inside the tree; client 1, the only one left, has disconnected *)
Lemma wedge_history : exists st, exec [(0, LRelease nat 7 0 "s" true); (0, LJoin nat 1 7); (0, LGrant nat 0 7 0 "s" 1); (0, LJoin nat 0 7)] st /\
  wedged st 7 0 /\ lm_client _ st 1 = CGone 0 /\ lm_client _ st 2 = CNew.
Proof.
  pose proof start_exec as H.
  go (K_join_new nat kd _ 0 7 1).
  go (K_claim nat kd _ 0 0 1).
  go (K_grant nat kd _ 0 0 1 "s").
  go (K_join nat kd _ 1 7 0 9).
  go (K_rel_begin nat kd _ 7 0 "s" 0).
  go (K_rel_ok nat kd _ 7 0 0 "s" 1 1 false).
  go (K_rel_begin nat kd _ 7 0 "s" 0).
  go (K_gone nat kd _ 1 0 9).
  eexists. split; [exact H|]. split; [|split; reflexivity]. unfold wedged. split; [reflexivity|]. split; [reflexivity|]. split; [eexists; eexists; reflexivity|].
  intros i d. cbn. unfold upd_nat. destruct (Nat.eqb i 1); [discriminate|]. destruct (Nat.eqb i 0); discriminate.
Qed.
