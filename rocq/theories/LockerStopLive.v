(** The Execute of every lock of a stopping locker can return, as long as no other request is inside the lock. *)
From Coq Require Import String List Bool Arith Lia ZArith.
From Verif Require Import DestroySync Locker SpecLocker LockerProofs LockerTrace LockerLive LockerStop SpecLockerStop LockerStopProofs LockerStopClaims.
Import ListNotations.
Local Open Scope nat_scope.
Local Open Scope list_scope.

Section Live.
Context {key : Type}.
Variable key_dec : forall a b : key, {a = b} + {a <> b}.
Notation locker := (locker key).
Notation stopping := (stopping key).

Ltac upds := unfold with_lm, with_mode, with_time, with_lock, with_client, with_busy, with_cur, with_beats, with_session, with_new, with_refused, drop_client, set_ph, set_cnt, ph, cnt, keyof, upd_nat, upd_key in *;
  cbn [s_lm s_stop s_closed s_mode lm_now lm_next lm_lock lm_cur lm_busy lm_beats lm_client lm_sess l_key l_ph l_cnt lock_of] in *.
Ltac eqs := repeat (match goal with
  | H : context [Nat.eqb ?a ?b] |- _ => destruct (Nat.eqb_spec a b); [try subst a|]
  | |- context [Nat.eqb ?a ?b] => destruct (Nat.eqb_spec a b); [try subst a|]
  | H : context [key_dec ?a ?b] |- _ => destruct (key_dec a b); [try subst a|]
  | |- context [key_dec ?a ?b] => destruct (key_dec a b); [try subst a|]
  end; cbn [lm_now lm_next lm_lock lm_cur lm_busy lm_beats lm_client lm_sess l_key l_ph l_cnt] in * ).
Ltac cases0 := unfold drop_client in *; repeat match goal with
  | H : context [match ?x with 0 => _ | S _ => _ end] |- _ => destruct x eqn:?
  | |- context [match ?x with 0 => _ | S _ => _ end] => destruct x eqn:?
  end.

Definition can_return (st : stopping) (j : nat) : Prop := exists tr st', st_run _ key_dec st tr st' /\ ph (s_lm _ st') j = LDone.
Lemma return_step st e st' j : st_step _ key_dec st e st' -> can_return st' j -> can_return st j.
Proof.
  intros HS (tr & s & HR & HP). exists (tr ++ push (match e with Some e => Some (lm_now _ (s_lm _ st), e) | None => None end) []), s. split; [|exact HP].
  eapply run_app; [|exact HR]. eapply SR_step; [constructor|exact HS].
Qed.
Lemma return_lk st e l j : lk_step _ key_dec (s_lm _ st) e l -> (forall i k, e <> Some (LJoin _ i k)) -> can_return (with_lm _ st l) j -> can_return st j.
Proof. intros HS N. eapply return_step. apply S_run; [exact HS|]. intros _ (i & k & C & _). exact (N _ _ C). Qed.
Lemma return_now st j : ph (s_lm _ st) j = LDone -> can_return st j.
Proof. intros E. exists [], st. split; [constructor|exact E]. Qed.
Lemma return_held st j s d nx t : s_stop _ st = true -> ph (s_lm _ st) j = LHeld s d nx t -> can_return st j.
Proof.
  intros S E. eapply return_step; [eapply S_end; eassumption|]. apply return_now. upds. rewrite Nat.eqb_refl. reflexivity.
Qed.
Lemma return_claimed st j i d : s_stop _ st = true -> ph (s_lm _ st) j = LClaimed i d -> can_return st j.
Proof.
  intros S E. destruct (fresh_string (lm_sess _ (s_lm _ st))) as (s & F1 & F2).
  eapply return_lk; [exact (K_grant _ key_dec (s_lm _ st) i j d s E F1 F2)|discriminate|].
  eapply return_held; [exact S|]. upds. rewrite Nat.eqb_refl. reflexivity.
Qed.
Lemma return_waiting st j i d : s_stop _ st = true -> ph (s_lm _ st) j = LIdle -> lm_client _ (s_lm _ st) i = CWait j d -> can_return st j.
Proof.
  intros S E C. eapply return_lk; [exact (K_claim _ key_dec (s_lm _ st) i j d C E)|discriminate|].
  eapply return_claimed; [exact S|]. upds. rewrite Nat.eqb_refl. reflexivity.
Qed.

Lemma drained st j b k : lm_busy _ (s_lm _ st) k = Some (DTime j) -> s_mode _ st j = MWait b -> can_return st j.
Proof.
  intros B M. eapply return_step; [eapply S_drain_done; eassumption|]. apply return_now. unfold drop_client.
  destruct (_ - 1); upds; rewrite Nat.eqb_refl; reflexivity.
Qed.
Lemma return_timing st j k t b : e_inv st -> s_stop _ st = true -> ph (s_lm _ st) j = LTimingOut t b -> lm_cur _ (s_lm _ st) k = Some j ->
  match lm_busy _ (s_lm _ st) k with None => b = false /\ lm_beats _ (s_lm _ st) k = [] | Some d => d = DTime j end -> can_return st j.
Proof.
  intros E S P C Q. destruct (e_cur _ E _ _ C) as [K _].
  eapply return_step; [eapply S_drain; [exact S|exact P]|]. destruct (lm_busy _ (s_lm _ st) k) as [d|] eqn:B.
  - subst d. eapply drained; [exact B|]. cbn. apply upd_same.
  - destruct Q as [-> Q]. eapply return_step.
    + eapply (S_drain_begin _ _ _ j j k); cbn; auto; [apply upd_same|]. rewrite upd_same. cbn. congruence.
    + eapply drained; [cbn; apply key_same|cbn; apply upd_same].
Qed.
Lemma c86_returns k0 tr st k j : st_exec _ key_dec k0 tr st -> s_stop _ st = true -> lm_cur _ (s_lm _ st) k = Some j ->
  match ph (s_lm _ st) j with
  | LHeld _ _ _ _ | LClaimed _ _ => True
  | LIdle => exists i d, lm_client _ (s_lm _ st) i = CWait j d
  | LFired _ _ _ _ | LTimingOut _ false => lm_busy _ (s_lm _ st) k = None /\ lm_beats _ (s_lm _ st) k = []
  | LTimingOut _ true => True
  | _ => False
  end -> can_return st j.
Proof.
  intros H S C Q. pose proof (e_exec _ _ _ _ H) as E. destruct (ph (s_lm _ st) j) as [|i d|s d nx t|s d nx t|t b| | |] eqn:P; try contradiction.
  - destruct Q as (i & d & Q). eapply return_waiting; eassumption.
  - eapply return_claimed; eassumption.
  - eapply return_held; eassumption.
  - destruct Q as [Q1 Q2]. pose proof (K_expire _ key_dec (s_lm _ st) j s d nx t P) as HS.
    assert (HS' : st_step _ key_dec st _ _) by (eapply S_run; [exact HS|intros _ (? & ? & [=] & _)]).
    eapply return_step; [exact HS'|]. pose proof (e_step _ _ _ _ E HS') as E'.
    eapply (return_timing _ _ k t false E'); [exact S|upds; rewrite Nat.eqb_refl; reflexivity|exact C|]. cbn. rewrite Q1. auto.
  - eapply return_timing; eauto. destruct b.
    + destruct (exec_sim _ _ _ _ H) as (fz & trb & b & HB & SM). pose proof (exec_inv _ _ _ _ HB) as HI.
      destruct (sim_live _ _ _ _ _ _ j SM) as (F & L & M); [unfold ph in P; rewrite P; exact Logic.I|].
      assert (X : ph b j = LTimingOut t true) by (unfold ph in *; congruence). apply (i_begun _ HI) in X.
      destruct (g_cur _ _ _ _ _ _ SM _ _ C) as [K _]. rewrite K in *. destruct (g_at _ _ _ _ _ _ SM _ F) as (_ & A2 & _). rewrite A2, X. reflexivity.
    + destruct Q as [Q1 Q2]. rewrite Q1. auto.
Qed.

(** ** Who is never answered *)
Lemma answered_step st e st' i j : st_step _ key_dec st (Some e) st' -> answered i e = true -> ~ waits (lm_client _ (s_lm _ st') i) j.
Proof.
  intros HS A W. inversion HS; subst; cbn in A; try discriminate.
  - match goal with X : option_map _ ?o = Some _ |- _ => destruct o as [e0|]; [injection X as <-|discriminate] end. destruct e0; cbn in A; try discriminate.
    apply Nat.eqb_eq in A. subst. match goal with X : lk_step _ _ _ _ _ |- _ => inversion X; subst end. cbn in W. rewrite upd_same in W. exact W.
  - apply Nat.eqb_eq in A. subst. cbn in W. rewrite upd_same in W. exact W.
  - apply Nat.eqb_eq in A. subst. cbn in W. rewrite upd_same in W. exact W.
Qed.
Lemma refused_silent k0 tr st tr' st' i j k : st_exec _ key_dec k0 tr st -> s_mode _ st j = MRefused -> lm_cur _ (s_lm _ st) k = Some j ->
  waits (lm_client _ (s_lm _ st) i) j -> st_run _ key_dec st tr' st' -> forall t e, In (t, e) tr' -> answered i e = false.
Proof.
  intros H M C W HR. induction HR as [|tr1 s e s' HR IH HS]; [intros ? ? []|]. intros t ev HI. destruct e as [e|]; cbn [push] in HI; [|eauto].
  destruct HI as [[= _ <-] | HI]; [|eauto]. destruct (answered i e) eqn:A; [|reflexivity]. exfalso.
  pose proof (SR_step _ _ _ _ _ _ _ HR HS) as HR'. destruct (refused_run key_dec _ _ _ _ _ _ _ _ H HR' M C W) as (_ & _ & W'). exact (answered_step _ _ _ _ _ HS A W').
Qed.
Lemma jam_quiet st e st' k j x : e_inv st -> jam st k j x -> st_step _ key_dec st (Some e) st' -> ~ settled k j e.
Proof.
  intros E (M & C & X) HS A. pose proof (e_mode _ E j) as LS. rewrite M in LS. specialize (LS ltac:(discriminate)).
  inversion HS; subst; cbn in A; try contradiction.
  match goal with Y : option_map _ ?o = Some _ |- _ => destruct o as [e0|]; [injection Y as <-|discriminate] end.
  match goal with Y : lk_step _ _ _ _ _ |- _ => inversion Y; subst end; cbn in A; try contradiction; destruct A as [-> ->]; try congruence;
  try (match goal with Y : lm_busy _ _ k = Some _ |- _ => pose proof (e_busy _ E _ _ Y) as BC; cbn in BC; rewrite C in BC; injection BC as <- end);
  rewrite LS in *; try discriminate; contradiction.
Qed.
Lemma jam_for_ever k0 tr st tr' st' k j x : st_exec _ key_dec k0 tr st -> jam st k j x -> st_run _ key_dec st tr' st' ->
  ph (s_lm _ st') j <> LDone /\ forall t e, In (t, e) tr' -> ~ settled k j e.
Proof.
  intros H J HR. split.
  - destruct (jam_run _ _ _ _ _ _ _ _ _ H HR J) as (M & _ & _). pose proof (e_mode _ (e_exec _ _ _ _ (run_app _ _ _ _ _ _ H HR)) j) as LS.
    rewrite M in LS. unfold ph. rewrite LS by discriminate. discriminate.
  - induction HR as [|tr1 s e s' HR IH HS]; [intros ? ? []|]. intros t ev HI. destruct e as [e|]; cbn [push] in HI; [|eauto].
    destruct HI as [[= _ <-] | HI]; [|eauto]. eapply jam_quiet; [| |exact HS].
    + eapply e_exec. exact (run_app _ _ _ _ _ _ H HR).
    + exact (jam_run _ _ _ _ _ _ _ _ _ H HR J).
Qed.
End Live.
