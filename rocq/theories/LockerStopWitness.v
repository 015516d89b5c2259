(** Concrete histories of a locker that is told to stop, with numbers for key-values. *)
From Coq Require Import String List Bool Arith Lia ZArith.
From Verif Require Import DestroySync Locker SpecLocker LockerProofs LockerStop SpecLockerStop LockerStopProofs LockerStopClaims LockerStopLive.
Import ListNotations.
Local Open Scope nat_scope.
Local Open Scope list_scope.
Local Open Scope string_scope.

Notation kd := Nat.eq_dec.
Notation exec := (st_exec nat kd 0).
Lemma st_more tr st e st' : exec tr st -> st_step nat kd st e st' ->
  exec (push (match e with Some e => Some (lm_now _ (s_lm _ st), e) | None => None end) tr) st'.
Proof. intros H HS. exact (SR_step _ _ _ _ _ _ _ H HS). Qed.
Lemma st_start : exec [] (st_init nat 0). Proof. constructor. Qed.
Notation pushed l x tr := (push (match x with Some y => Some (lm_now _ l, y) | None => None end) tr).
Lemma r_run tr l a c m e l' : exec tr (mkStop nat l a c m) -> lk_step nat kd l e l' -> (c = true -> ~ creates _ l e) ->
  exec (pushed l (option_map (SEv nat) e) tr) (mkStop nat l' a c m).
Proof. intros H S N. exact (st_more _ _ _ _ H (S_run _ _ (mkStop nat l a c m) e l' S N)). Qed.
Lemma r_stop tr l a c m : exec tr (mkStop nat l a c m) -> exec ((lm_now _ l, SStop _) :: tr) (mkStop nat l true c m).
Proof. intros H. exact (st_more _ _ _ _ H (S_stop _ _ _)). Qed.
Lemma r_close tr l c m : exec tr (mkStop nat l true c m) -> exec tr (mkStop nat l true true m).
Proof. intros H. exact (st_more _ _ _ _ H (S_close _ _ (mkStop nat l true c m) eq_refl)). Qed.
Lemma r_end j s d nx t tr l c m : exec tr (mkStop nat l true c m) -> l_ph _ (lm_lock _ l j) = LHeld s d nx t ->
  exec tr (mkStop nat (with_lock _ l j (set_ph _ LDone (lm_lock _ l j))) true c m).
Proof. intros H P. exact (st_more _ _ _ _ H (S_end _ _ (mkStop nat l true c m) j s d nx t eq_refl P)). Qed.
Lemma r_away i j d tr l a c m : exec tr (mkStop nat l a c m) -> lm_client _ l i = CWait j d -> l_ph _ (lm_lock _ l j) = LDone ->
  exec ((lm_now _ l, SAway _ i (l_key _ (lm_lock _ l j))) :: tr) (mkStop nat (with_client _ l i CEnd) a c m).
Proof. intros H C P. exact (st_more _ _ _ _ H (S_away _ _ (mkStop nat l a c m) i j d C P)). Qed.
Lemma r_drain j t b tr l c m : exec tr (mkStop nat l true c m) -> l_ph _ (lm_lock _ l j) = LTimingOut t b ->
  exec tr (mkStop nat (with_lock _ l j (set_ph _ LStuck (lm_lock _ l j))) true c (upd_nat m j (MWait b))).
Proof. intros H P. exact (st_more _ _ _ _ H (S_drain _ _ (mkStop nat l true c m) j t b eq_refl P)). Qed.
Lemma r_drain_begin j j' k tr l a c m : exec tr (mkStop nat l a c m) -> m j = MWait false -> k = l_key _ (lm_lock _ l j) -> lm_busy _ l k = None ->
  lm_beats _ l k = [] -> lm_cur _ l k = Some j' -> exec tr (mkStop nat (with_busy _ kd l k (Some (DTime j'))) a c (upd_nat m j (MWait true))).
Proof. intros H M K B T C. exact (st_more _ _ _ _ H (S_drain_begin _ _ (mkStop nat l a c m) j j' k M K B T C)). Qed.
Lemma r_drain_done j b k tr l a c m : exec tr (mkStop nat l a c m) -> lm_busy _ l k = Some (DTime j) -> m j = MWait b ->
  exec ((lm_now _ l, SEv _ (LHandOn nat k)) :: tr) (mkStop nat (drop_client _ kd l k j LDone) a c (upd_nat m j MNone)).
Proof. intros H B M. exact (st_more _ _ _ _ H (S_drain_done _ _ (mkStop nat l a c m) j b k B M)). Qed.
Lemma r_refused i k tr l a m : exec tr (mkStop nat l a true m) -> lm_client _ l i = CNew -> lm_busy _ l k = None -> lm_cur _ l k = None ->
  exec ((lm_now _ l, SAway _ i k) :: tr) (mkStop nat (with_client _ (with_refused _ kd l k) i CEnd) a true (upd_nat m (lm_next _ l) MRefused)).
Proof. intros H C B U. exact (st_more _ _ _ _ H (S_refused _ _ (mkStop nat l a true m) i k eq_refl C B U)). Qed.
Lemma begin : exec [] (mkStop nat (lm_init nat 0) false false (fun _ => MNone)). Proof. exact st_start. Qed.
Ltac side := first [reflexivity | discriminate | exact I | cbn; lia | cbn; intuition discriminate].
(** a step of the lock manager; one that comes with the stop *)
Tactic Notation "go" uconstr(c) := match goal with H : exec ?tr (mkStop _ ?l _ _ _) |- _ => let Y := fresh in
  eassert (Y : lk_step nat kd l _ _) by (eapply c; side);
  apply (r_run _ _ _ _ _ _ _ H) in Y; [|first [solve [intros [=]] | solve [intros _ (? & ? & [=] & _)] | solve [intros _ (? & ? & [= <- <-] & X); vm_compute in X; discriminate X]]];
  clear H; rename Y into H; cbn [push option_map] in H end.
Tactic Notation "sgo" uconstr(c) := match goal with H : exec ?tr (mkStop _ ?l _ _ _) |- _ => let X := fresh in
  eassert (X : exec _ _) by (eapply c; [exact H|side..]); clear H; rename X into H end.

(** client 0 holds key 7 and client 1 waits for it when the locker stops: the lock ends, client 1 is sent away, client 0's
    heartbeat and release are refused, and client 2, who comes then, is sent away as well *)
Lemma stop_history : exists st, exec
  [(3, SAway nat 2 7); (3, SEv nat (LJoin nat 2 7)); (3, SEv nat (LRelease nat 7 0 "s" false)); (3, SEv nat (LBeat nat 7 0 "s" false)); (3, SAway nat 1 7); (2, SStop nat);
   (2, SEv nat (LBeat nat 7 0 "s" true)); (1, SEv nat (LJoin nat 1 7)); (0, SEv nat (LGrant nat 0 7 0 "s" 5)); (0, SEv nat (LJoin nat 0 7))] st /\
  ended st 7 /\ s_stop _ st = true.
Proof.
  pose proof begin as H.
  go (K_join_new nat kd _ 0 7 5).
  go (K_claim nat kd _ 0 0 5).
  go (K_grant nat kd _ 0 0 5 "s").
  go (K_time nat kd _ 1).
  go (K_join nat kd _ 1 7 0 9).
  go (K_time nat kd _ 1).
  go (K_beat_begin nat kd _ 7 "s" 0).
  go (K_beat_ok nat kd _ 7 0 "s" 5 5 false [] []).
  sgo r_stop.
  go (K_time nat kd _ 1).
  sgo (r_end 0 "s" 5 7 false).
  sgo (r_away 1 0 9).
  go (K_beat_begin nat kd _ 7 "s" 0).
  go (K_beat_fail nat kd _ 7 0 "s" LDone [] []).
  go (K_rel_begin nat kd _ 7 0 "s" 0).
  go (K_rel_fail nat kd _ 7 0 0 "s" LDone).
  go (K_join nat kd _ 2 7 0 9).
  sgo (r_away 2 0 9).
  eexists. split; [exact H|]. split; [|reflexivity]. exists 0. split; [reflexivity|left; reflexivity].
Qed.
(** ... and when it has just been told to stop *)
Lemma told_history : exists st, exec
  [(1, SStop nat); (1, SEv nat (LJoin nat 1 7)); (0, SEv nat (LGrant nat 0 7 0 "s" 5)); (0, SEv nat (LJoin nat 0 7))] st /\
  s_stop _ st = true /\ lm_cur _ (s_lm _ st) 7 = Some 0 /\ lm_client _ (s_lm _ st) 1 = CWait 0 9 /\
  (exists s d nx t, ph (s_lm _ st) 0 = LHeld s d nx t) /\ ~ ended st 7.
Proof.
  pose proof begin as H.
  go (K_join_new nat kd _ 0 7 5).
  go (K_claim nat kd _ 0 0 5).
  go (K_grant nat kd _ 0 0 5 "s").
  go (K_time nat kd _ 1).
  go (K_join nat kd _ 1 7 0 9).
  sgo r_stop.
  eexists. split; [exact H|]. repeat (split; [reflexivity|]). split; [repeat eexists|].
  intros (j & [= <-] & [C | C]); discriminate C.
Qed.
(** the lock is ended while client 1 waits and a heartbeat and a release are on their way *)
Lemma answer_history : exists tr st, exec tr st /\ lm_cur _ (s_lm _ st) 7 = Some 0 /\ ph (s_lm _ st) 0 = LDone /\
  lm_client _ (s_lm _ st) 1 = CWait 0 9 /\ lm_beats _ (s_lm _ st) 7 = [(0, "s")].
Proof.
  pose proof begin as H.
  go (K_join_new nat kd _ 0 7 5).
  go (K_claim nat kd _ 0 0 5).
  go (K_grant nat kd _ 0 0 5 "s").
  go (K_join nat kd _ 1 7 0 9).
  sgo r_stop.
  go (K_beat_begin nat kd _ 7 "s" 0).
  sgo (r_end 0 "s" 5 5 false).
  eexists. eexists. split; [exact H|]. repeat split.
Qed.
(** an expiry that began before the stop is handed on after it: the lock ends with it *)
Lemma drain_history : exists st, exec
  [(5, SEv nat (LHandOn nat 7)); (5, SStop nat); (5, SEv nat (LExpire nat 7 "s")); (1, SEv nat (LJoin nat 1 7)); (0, SEv nat (LGrant nat 0 7 0 "s" 5)); (0, SEv nat (LJoin nat 0 7))] st /\
  ended st 7.
Proof.
  pose proof begin as H.
  go (K_join_new nat kd _ 0 7 5).
  go (K_claim nat kd _ 0 0 5).
  go (K_grant nat kd _ 0 0 5 "s").
  go (K_time nat kd _ 1).
  go (K_join nat kd _ 1 7 0 9).
  go (K_time nat kd _ 4).
  go (K_fire nat kd _ 0 "s" 5 5 false).
  go (K_take nat kd _ 0 "s" 5 10).
  go (K_expire nat kd _ 0 "s" 5 10 false).
  sgo r_stop.
  sgo (r_drain 0 false false).
  sgo (r_drain_begin 0 0 7).
  sgo (r_drain_done 0 true 7).
  eexists. split; [exact H|]. exists 0. split; [reflexivity|left; reflexivity].
Qed.
(** the task manager refuses the lock of client 1, client 2 asks for the same key-values *)
Lemma refused_history : exists st, exec [(0, SEv nat (LJoin nat 2 7)); (0, SAway nat 1 7); (0, SStop nat)] st /\
  s_mode _ st 0 = MRefused /\ lm_cur _ (s_lm _ st) 7 = Some 0 /\ waits (lm_client _ (s_lm _ st) 2) 0.
Proof.
  pose proof begin as H.
  sgo r_stop.
  sgo r_close.
  sgo (r_refused 1 7).
  go (K_join nat kd _ 2 7 0 9).
  eexists. split; [exact H|]. repeat split.
Qed.
(** the session expires, a request is inside the tree, the locker stops *)
Lemma jam_beat_history : exists st, exec [(5, SStop nat); (5, SEv nat (LExpire nat 7 "s")); (0, SEv nat (LGrant nat 0 7 0 "s" 5)); (0, SEv nat (LJoin nat 0 7))] st /\
  lm_beats _ (s_lm _ st) 7 = [(0, "s")] /\ jam st 7 0 (inl (0, "s")).
Proof.
  pose proof begin as H.
  go (K_join_new nat kd _ 0 7 5).
  go (K_claim nat kd _ 0 0 5).
  go (K_grant nat kd _ 0 0 5 "s").
  go (K_time nat kd _ 5).
  go (K_fire nat kd _ 0 "s" 5 5 false).
  go (K_take nat kd _ 0 "s" 5 10).
  go (K_expire nat kd _ 0 "s" 5 10 false).
  go (K_beat_begin nat kd _ 7 "s" 0).
  sgo r_stop.
  sgo (r_drain 0 false false).
  eexists. split; [exact H|]. split; [reflexivity|]. split; [reflexivity|]. split; [reflexivity|left; reflexivity].
Qed.
Lemma jam_release_history : exists st, exec [(5, SStop nat); (5, SEv nat (LExpire nat 7 "s")); (0, SEv nat (LGrant nat 0 7 0 "s" 5)); (0, SEv nat (LJoin nat 0 7))] st /\
  jam st 7 0 (inr (DRel 0 0 "s")).
Proof.
  pose proof begin as H.
  go (K_join_new nat kd _ 0 7 5).
  go (K_claim nat kd _ 0 0 5).
  go (K_grant nat kd _ 0 0 5 "s").
  go (K_time nat kd _ 5).
  go (K_fire nat kd _ 0 "s" 5 5 false).
  go (K_take nat kd _ 0 "s" 5 10).
  go (K_expire nat kd _ 0 "s" 5 10 false).
  go (K_rel_begin nat kd _ 7 0 "s" 0).
  sgo r_stop.
  sgo (r_drain 0 false false).
  eexists. split; [exact H|]. split; [reflexivity|]. split; [reflexivity|]. split; [reflexivity|exact I].
Qed.
