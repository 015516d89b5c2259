(** Concrete histories of lock clients, with numbers for key-values that all have a pair in common. *)
From Coq Require Import String List Bool Arith Lia.
From Verif Require Import DestroySync Locker SpecLocker LockerProofs LockerTrace LockClient SpecLockClient LockClientInv LockClientHist LockClientValid LockClientDone LockClientJam.
Import ListNotations.
Local Open Scope nat_scope.
Local Open Scope list_scope.
Local Open Scope string_scope.

Lemma eqb_yes a b : Nat.eqb a b = true -> a = b. Proof. apply Nat.eqb_eq. Qed.
Lemma eqb_no a b : Nat.eqb a b <> true -> a <> b. Proof. intros H ->. apply H, Nat.eqb_refl. Qed.
Definition kd (a b : nat) : {a = b} + {a <> b} := match bool_dec (Nat.eqb a b) true with left e => left (eqb_yes a b e) | right n => right (eqb_no a b n) end.
Definition common (a b : nat) : Prop := True.
Notation wx := (w_exec nat kd common 0).
Notation WS := (w_step nat kd common).
Lemma wx_step h w e w' : wx h w -> WS w e w' -> wx (push (match e with Some e => Some (lm_now nat (w_srv _ w), e) | None => None end) h) w'.
Proof. intros H HS. exact (WE_step _ _ _ _ _ _ _ _ H HS). Qed.
Lemma wx_start : wx [] (w_init nat 0). Proof. constructor. Qed.
Ltac nb := let i := fresh in let k := fresh in let C := fresh in intros (i & k & C & _); cbn in C;
  repeat (match type of C with context [match ?z with _ => _ end] => destruct z end; cbn in C); intuition (discriminate || lia).
Ltac side := first [reflexivity | discriminate | exact Logic.I | cbn; lia | cbn; intuition discriminate | nb ].
Ltac splits A := repeat (match type of A with context [match ?z with _ => _ end] => destruct z end; cbn in A).
Ltac begun := split; [intros ? ? ? ? HA HB; cbn in HA, HB; unfold upd_key, upd_nat in HA, HB; cbn in HA, HB; first [congruence | splits HA; first [congruence | inversion HA; subst; cbn; tauto]]
  | intros ? ? ? HA HB; cbn in HA, HB; unfold upd_key, upd_nat in HA, HB; cbn in HA, HB; first [contradiction | tauto | splits HA; first [contradiction | tauto | idtac]]].
Tactic Notation "fin" constr(X) := match goal with H : wx ?h ?w |- _ => apply (wx_step _ _ _ _ H) in X; clear H; rename X into H; match type of H with wx ?h1 ?w1 => let h2 := eval vm_compute in h1 in let w2 := eval vm_compute in w1 in change (wx h2 w2) in H end end.
Tactic Notation "go" uconstr(c) := match goal with H : wx ?h ?w |- _ => let X := fresh in
  eassert (X : WS w _ _) by (eapply c; side); fin X end.
Tactic Notation "srv" uconstr(c) := match goal with H : wx ?h ?w |- _ => let X := fresh in
  eassert (X : WS w None _) by (eapply W_server; [eapply c; side|begun]); fin X end.
(* the service begins to handle heartbeat n of lock o *)
Tactic Notation "beat" uconstr(c) constr(o) constr(n) := match goal with H : wx ?h ?w |- _ => let X := fresh in
  eassert (X : WS w None _) by (eapply W_server; [eapply c; side|split; [intros ? ? ? ? HA HB; cbn in HA, HB; unfold upd_key, upd_nat in HA, HB; cbn in HA, HB; first [congruence | splits HA; congruence]
   | intros ? ? ? HA HB; cbn in HA, HB; unfold upd_key, upd_nat in HA, HB; cbn in HA, HB;
     match type of HA with context [kd ?a ?b] => destruct (kd a b) end; [subst; destruct HA as [HA|[]]; inversion HA; subst; exists o, n; eexists; cbn; intuition reflexivity | contradiction]]]); fin X end.
Tactic Notation "sev" uconstr(r) uconstr(c) := match goal with H : wx ?h ?w |- _ => let X := fresh in
  eassert (X : WS w _ _) by (eapply r; [eapply c; side|side ..]); fin X end.

(** lock client 0 gets the lock of key 7 with timeout 30, client 1 asks for it, the heartbeat of client 0 hangs *)
Lemma two_history D : exists w x y, wx
  [(30, EObtained _ 1 1); (30, EServer _ (LGrant nat 1 7 0 "u" 30)); (30, EServer _ (LHandOn nat 7)); (30, EServer _ (LExpire nat 7 "s")); (9, ESent _ 0 1); (0, EServer _ (LJoin nat 1 7)); (0, EObtain _ 1 1 7);
   (0, EStarted _ 0); (0, EObtained _ 0 0); (0, EServer _ (LGrant nat 0 7 0 "s" 30)); (0, EServer _ (LJoin nat 0 7)); (0, EObtain _ 0 0 7)] w /\
  lm_now _ (w_srv _ w) = 30 + D /\ w_obj _ w 0 = Some x /\ w_obj _ w 1 = Some y /\ o_key _ x = 7 /\ o_key _ y = 7 /\ o_lock _ x = 0 /\ o_sess _ x = "s" /\ o_loop _ x = HSent 1.
Proof.
  pose proof wx_start as H.
  go (W_call_obtain nat kd common _ 0 0 7).
  go (W_post nat kd common _ 0 0 7).
  sev (W_server_join nat kd common _ 0 7 _ 0) (K_join_new nat kd _ 0 7 30). 
  srv (K_claim nat kd _ 0 0 30).
  sev (W_server_grant nat kd common _ 0 _ 0 "s" 30 _ 0) (K_grant nat kd _ 0 0 30 "s").
  go (W_receive nat kd common _ 0 0 7 0 "s" 30).
  go (W_store nat kd common _ 0 0 7 0).
  go (W_start nat kd common _ 0).
  go (W_call_obtain nat kd common _ 1 1 7).
  go (W_post nat kd common _ 1 1 7).
  sev (W_server_join nat kd common _ 1 7 _ 1) (K_join nat kd _ 1 7 0 30). 
  srv (K_time nat kd _ 9).
  go (W_tick nat kd common _ 0).
  go (W_send nat kd common _ 0).
  srv (K_time nat kd _ 21).
  srv (K_fire nat kd _ 0 "s" 30 30 false).
  srv (K_take nat kd _ 0 "s" 30 60).
  sev (W_server_other nat kd common) (K_expire nat kd _ 0 "s" 30 60 false).
  srv (K_time_begin nat kd _ 0 0 false 7).
  sev (W_server_other nat kd common) (K_time_done nat kd _ 0 false true 7).
  srv (K_claim nat kd _ 1 0 30).
  sev (W_server_grant nat kd common _ 1 _ 0 "u" 30 _ 1) (K_grant nat kd _ 1 0 30 "u").
  go (W_receive nat kd common _ 1 1 7 0 "u" 30).
  go (W_store nat kd common _ 1 1 7 1).
  srv (K_time nat kd _ D).
  do 3 eexists. split; [exact H|]. repeat split; reflexivity.
Qed.
(** a lock client gets a lock, has a heartbeat confirmed and releases it; then the service has no lock *)
Definition plain_events : list (nat * w_event nat) :=
  [(15, EReturn _ 0 true); (15, EServer _ (LRelease nat 7 0 "s" true)); (15, EDelete _ 0); (15, EEnded _ 0); (15, EDone _ 0); (15, ERelease _ 0 0);
   (13, EConfirmed _ 0 1); (11, EServer _ (LBeat nat 7 0 "s" true)); (10, ESent _ 0 1); (1, EStarted _ 0); (0, EObtained _ 0 0);
   (0, EServer _ (LGrant nat 0 7 0 "s" 30)); (0, EServer _ (LJoin nat 0 7)); (0, EObtain _ 0 0 7)].
Ltac obtain i a k j s d := go (W_call_obtain nat kd common _ i a k); go (W_post nat kd common _ i a k);
  sev (W_server_join nat kd common _ i k _ a) (K_join_new nat kd _ i k d); srv (K_claim nat kd _ i j d);
  sev (W_server_grant nat kd common _ i _ j s d _ a) (K_grant nat kd _ i j d s);
  go (W_receive nat kd common _ i a k j s d); go (W_store nat kd common _ i a k j).
Ltac held := pose proof wx_start as H; obtain 0 0 7 0 "s" 30;
  srv (K_time nat kd _ 1); go (W_start nat kd common _ 0); srv (K_time nat kd _ 9); go (W_tick nat kd common _ 0); go (W_send nat kd common _ 0);
  srv (K_time nat kd _ 1); beat (K_beat_begin nat kd _ 7 "s" 0) 0 1;
  sev (W_server_beat nat kd common _ _ _ _ _ _ 0 1 _ [] [] R200) (K_beat_ok nat kd _ 7 0 "s" 30 30 false [] []);
  srv (K_time nat kd _ 2); go (W_confirmed nat kd common _ 0); srv (K_time nat kd _ 2).
Lemma held_history : exists w x, wx (skipn 6 plain_events) w /\ lm_now _ (w_srv _ w) = 15 /\ w_obj _ w 0 = Some x /\ o_key _ x = 7 /\ o_lock _ x = 0 /\ o_sess _ x = "s" /\ o_time _ x = 30.
Proof. held. do 2 eexists. split; [exact H|]. repeat split; reflexivity. Qed.
Lemma plain_history : exists w x, wx plain_events w /\ w_obj _ w 0 = Some x /\ o_key _ x = 7 /\ o_lock _ x = 0 /\ o_sess _ x = "s".
Proof.
  held.
  go (W_call_release nat kd common _ 0 0 0 0 7).
  go (W_cas nat kd common _ 0 0).
  go (W_stop_release nat kd common _ 0 0).
  go (W_forget nat kd common _ 0).
  go (W_close nat kd common _ 0).
  go (W_see_done nat kd common _ 0).
  go (W_release_stopped nat kd common _ 0 0).
  go (W_stopped nat kd common _ 0).
  go (W_flag nat kd common _ 0).
  go (W_end nat kd common _ 0).
  go (W_delete nat kd common _ 0 0).
  srv (K_rel_begin nat kd _ 7 0 "s" 0).
  sev (W_server_release nat kd common _ _ _ _ _ _ [] []) (K_rel_ok nat kd _ 7 0 0 "s" 30 41 false).
  go (W_return_nil nat kd common _ 0 0).
  do 2 eexists. split; [exact H|]. repeat split; reflexivity.
Qed.
(** two calls of the same client get the same lock *)
Lemma shared_history : exists w, wx
  [(0, EObtained _ 1 0); (0, EObtain _ 1 0 7); (0, EObtained _ 0 0); (0, EServer _ (LGrant nat 0 7 0 "s" 30)); (0, EServer _ (LJoin nat 0 7)); (0, EObtain _ 0 0 7)] w.
Proof.
  pose proof wx_start as H. obtain 0 0 7 0 "s" 30. go (W_call_obtain nat kd common _ 1 0 7). go (W_find nat kd common _ 1 0 7 0). eexists. exact H.
Qed.
(** the confirmation of a heartbeat comes just after a tick of the timeout: Done() is closed although the service has the lock for its client *)
Lemma alarm_history : exists w x, wx
  [(31, EDone _ 0); (31, EConfirmed _ 0 1); (29, EServer _ (LBeat nat 7 0 "s" true)); (9, ESent _ 0 1); (0, EStarted _ 0); (0, EObtained _ 0 0);
   (0, EServer _ (LGrant nat 0 7 0 "s" 30)); (0, EServer _ (LJoin nat 0 7)); (0, EObtain _ 0 0 7)] w /\ lm_now _ (w_srv _ w) = 31 /\ w_obj _ w 0 = Some x /\ o_key _ x = 7 /\ o_lock _ x = 0 /\ o_sess _ x = "s" /\ o_time _ x = 30.
Proof.
  pose proof wx_start as H. obtain 0 0 7 0 "s" 30.
  go (W_start nat kd common _ 0). srv (K_time nat kd _ 9). go (W_tick nat kd common _ 0). go (W_send nat kd common _ 0).
  srv (K_time nat kd _ 20). beat (K_beat_begin nat kd _ 7 "s" 0) 0 1.
  sev (W_server_beat nat kd common _ _ _ _ _ _ 0 1 _ [] [] R200) (K_beat_ok nat kd _ 7 0 "s" 30 30 false [] []).
  srv (K_time nat kd _ 2). go (W_tick_out nat kd common _ 0).
  go (W_confirmed nat kd common _ 0). go (W_timed_out nat kd common _ 0). go (W_stop_loop nat kd common _ 0). go (W_forget nat kd common _ 0). go (W_close nat kd common _ 0).
  do 2 eexists. split; [exact H|]. repeat split; reflexivity.
Qed.
(** the same; the goroutine ends, then the lock is released *)
Definition late_events : list (nat * w_event nat) :=
  [(31, EReturn _ 0 false); (31, ERelease _ 0 0); (31, EEnded _ 0);
   (31, EDone _ 0); (31, EConfirmed _ 0 1); (29, EServer _ (LBeat nat 7 0 "s" true)); (9, ESent _ 0 1); (0, EStarted _ 0); (0, EObtained _ 0 0);
   (0, EServer _ (LGrant nat 0 7 0 "s" 30)); (0, EServer _ (LJoin nat 0 7)); (0, EObtain _ 0 0 7)].
Lemma late_history : exists w, wx late_events w.
Proof.
  pose proof wx_start as H. obtain 0 0 7 0 "s" 30.
  go (W_start nat kd common _ 0). srv (K_time nat kd _ 9). go (W_tick nat kd common _ 0). go (W_send nat kd common _ 0).
  srv (K_time nat kd _ 20). beat (K_beat_begin nat kd _ 7 "s" 0) 0 1.
  sev (W_server_beat nat kd common _ _ _ _ _ _ 0 1 _ [] [] R200) (K_beat_ok nat kd _ 7 0 "s" 30 30 false [] []).
  srv (K_time nat kd _ 2). go (W_tick_out nat kd common _ 0).
  go (W_confirmed nat kd common _ 0). go (W_timed_out nat kd common _ 0). go (W_stop_loop nat kd common _ 0). go (W_forget nat kd common _ 0). go (W_close nat kd common _ 0).
  go (W_stopped nat kd common _ 0). go (W_flag nat kd common _ 0). go (W_end nat kd common _ 0).
  go (W_call_release nat kd common _ 0 0 0 0 7). go (W_cas_fails nat kd common _ 0 0).
  eexists. exact H.
Qed.
(** client 0 has key 7 and waits for key 8, client 1 has key 8 and waits for key 7 *)
Ltac crossed := pose proof wx_start as H; obtain 0 0 7 0 "s" 30; obtain 1 1 8 1 "u" 30;
  go (W_start nat kd common _ 0); go (W_start nat kd common _ 1);
  go (W_call_obtain nat kd common _ 2 0 8); go (W_post nat kd common _ 2 0 8); sev (W_server_join nat kd common _ 2 8 _ 0) (K_join nat kd _ 2 8 1 30);
  go (W_call_obtain nat kd common _ 3 1 7); go (W_post nat kd common _ 3 1 7); sev (W_server_join nat kd common _ 3 7 _ 1) (K_join nat kd _ 3 7 0 30).
Definition crossed_events : list (nat * w_event nat) :=
  [(0, EServer _ (LJoin nat 3 7)); (0, EObtain _ 3 1 7); (0, EServer _ (LJoin nat 2 8)); (0, EObtain _ 2 0 8); (0, EStarted _ 1); (0, EStarted _ 0);
   (0, EObtained _ 1 1); (0, EServer _ (LGrant nat 1 8 1 "u" 30)); (0, EServer _ (LJoin nat 1 8)); (0, EObtain _ 1 1 8);
   (0, EObtained _ 0 0); (0, EServer _ (LGrant nat 0 7 0 "s" 30)); (0, EServer _ (LJoin nat 0 7)); (0, EObtain _ 0 0 7)].
Lemma jam_history : exists w x1 x2, let h := (0, ERelease _ 1 1) :: (0, ERelease _ 0 0) :: crossed_events in
  wx h w /\ jam kd h w 0 0 2 x1 x2 /\ jam kd h w 1 1 3 x2 x1.
Proof.
  crossed.
  go (W_call_release nat kd common _ 0 0 0 0 7). go (W_call_release nat kd common _ 1 1 1 1 8).
  go (W_cas nat kd common _ 0 0). go (W_cas nat kd common _ 1 1). go (W_stop_release nat kd common _ 0 0). go (W_stop_release nat kd common _ 1 1).
  eexists. exists (new_lock nat 0 0 7 0 "s" 30), (new_lock nat 1 1 8 1 "u" 30). split; [exact H|]. split; constructor; try reflexivity; (eexists; split; [reflexivity|split; [repeat split|exact Logic.I]]).
Qed.
(** the timeout of the lock of key 7 has come but its stop waits for the ObtainLock of key 8; the service has given the lock to client 1 *)
Lemma blocked_history D : exists w x, wx
  ([(30, EServer _ (LGrant nat 3 7 0 "v" 30)); (30, EServer _ (LHandOn nat 7)); (30, EServer _ (LExpire nat 7 "s"))] ++ crossed_events) w /\
  lm_now _ (w_srv _ w) = 30 + D /\ w_obj _ w 0 = Some x /\ o_key _ x = 7 /\ o_client _ x = 0 /\ o_lock _ x = 0 /\ o_sess _ x = "s" /\ o_loop _ x = HQuit /\ o_once _ x = ORun ByLoop /\ w_call _ w 2 = CPosted _ 0 8.
Proof.
  crossed.
  srv (K_time nat kd _ 30). go (W_tick_out nat kd common _ 0). go (W_timed_out nat kd common _ 0). go (W_stop_loop nat kd common _ 0).
  srv (K_fire nat kd _ 0 "s" 30 30 false).
  srv (K_take nat kd _ 0 "s" 30 60).
  sev (W_server_other nat kd common) (K_expire nat kd _ 0 "s" 30 60 false).
  srv (K_time_begin nat kd _ 0 0 false 7).
  sev (W_server_other nat kd common) (K_time_done nat kd _ 0 false true 7).
  srv (K_claim nat kd _ 3 0 30).
  sev (W_server_grant nat kd common _ 3 _ 0 "v" 30 _ 1) (K_grant nat kd _ 3 0 30 "v").
  srv (K_time nat kd _ D).
  do 2 eexists. split; [exact H|]. repeat split; reflexivity.
Qed.
