(** What follows for a locker that is told to stop. *)
From Coq Require Import String List Bool Arith Lia ZArith.
From Verif Require Import DestroySync Locker SpecLocker LockerProofs LockerTrace LockerStop SpecLockerStop LockerStopProofs.
Import ListNotations.
Local Open Scope nat_scope.
Local Open Scope list_scope.

Section Claims.
Context {key : Type}.
Variable key_dec : forall a b : key, {a = b} + {a <> b}.
Notation locker := (locker key).
Notation stopping := (stopping key).

Lemma holder_on k tr : holder key_dec (on_key key_dec k tr) k = holder key_dec tr k.
Proof.
  induction tr as [|[t e] r IH]; [reflexivity|]. rewrite on_key_push. destruct (key_dec (event_key e) k) as [E|N].
  - destruct e; cbn [event_key] in E; subst; cbn [holder]; try (destruct ok); rewrite ?IH; reflexivity.
  - rewrite IH. destruct e; cbn [event_key] in N; cbn [holder]; try (destruct ok); unfold same_key; try (destruct (key_dec _ k); [congruence|]); reflexivity.
Qed.
Lemma holder_eq k tr tr' : on_key key_dec k tr = on_key key_dec k tr' -> holder key_dec tr k = holder key_dec tr' k.
Proof. intros E. rewrite <- (holder_on k tr), <- (holder_on k tr'), E. reflexivity. Qed.
Lemma waiting_on k tr : waiting_for key_dec (on_key key_dec k tr) k = waiting_for key_dec tr k.
Proof.
  induction tr as [|[t e] r IH]; [reflexivity|]. rewrite on_key_push. destruct (key_dec (event_key e) k) as [E|N].
  - destruct e; cbn [event_key] in E; subst; cbn [waiting_for]; rewrite ?IH; reflexivity.
  - rewrite IH. destruct e; cbn [event_key] in N; cbn [waiting_for]; unfold same_key; try (destruct (key_dec _ k); [congruence|]); reflexivity.
Qed.
Lemma holding_on k tr : holding key_dec (on_key key_dec k tr) k = holding key_dec tr k.
Proof.
  induction tr as [|[t e] r IH]; [reflexivity|]. rewrite on_key_push. destruct (key_dec (event_key e) k) as [E|N].
  - destruct e; cbn [event_key] in E; subst; cbn [holding]; try (destruct ok); rewrite ?IH; reflexivity.
  - rewrite IH. destruct e; cbn [event_key] in N; cbn [holding]; try (destruct ok); unfold same_key; try (destruct (key_dec _ k); [congruence|]); reflexivity.
Qed.

Lemma st_last k0 t e tr st : st_exec _ key_dec k0 ((t, e) :: tr) st ->
  exists st0 st1, st_exec _ key_dec k0 tr st0 /\ st_step _ key_dec st0 (Some e) st1 /\ t = lm_now _ (s_lm _ st0) /\ st_run _ key_dec st1 [] st.
Proof.
  intros H. unfold st_exec in H. remember ((t, e) :: tr) as tr' eqn:ET. revert t e tr ET. induction H as [|tr0 s o s' H IH HS]; intros t e tr ET; [discriminate|].
  destruct o as [e'|]; cbn in ET.
  - injection ET as <- <- <-. exists s, s'. repeat split; auto. constructor.
  - destruct (IH _ _ _ ET) as (st0 & st1 & H1 & H2 & H3 & H4). exists st0, st1. repeat split; auto.
    exact (SR_step _ _ _ _ _ None _ H4 HS).
Qed.

(** ** Effects happen as in a locker that goes on *)
Lemma effect_live fz tre st trb b e st' : sim key_dec fz tre st trb b -> st_step _ key_dec st (Some (SEv _ e)) st' -> effect e = true -> fz (event_key e) = false.
Proof.
  intros H HS HE. inversion HS; subst.
  - match goal with X : option_map _ ?o = Some _ |- _ => destruct o as [e0|]; [injection X as ->|discriminate] end.
    match goal with X : lk_step _ _ _ _ _ |- _ => inversion X; subst end; try discriminate; cbn [event_key];
    try (match goal with X : l_ph _ (lm_lock _ (s_lm _ st) ?j) = _ |- _ => destruct (sim_live _ _ _ _ _ _ j H) as (F & L & M); [rewrite X; exact Logic.I|] end).
    + rewrite L. exact F.
    + match goal with X : lm_busy _ _ _ = Some _ |- _ => destruct (g_busy _ _ _ _ _ _ H _ _ X) as [K _] end. cbn in K. congruence.
    + match goal with X : lm_beats _ _ ?k = ?b1 ++ (?j, ?s) :: _ |- _ => destruct (g_beats _ _ _ _ _ _ H k j s) as [K _]; [rewrite X; apply in_elt|] end. congruence.
    + rewrite L. exact F.
    + match goal with X : lm_busy _ _ _ = Some _ |- _ => destruct (g_busy _ _ _ _ _ _ H _ _ X) as [K _] end. cbn in K. congruence.
  - cbn [event_key]. match goal with X : lm_busy _ _ _ = Some _ |- _ => destruct (g_busy _ _ _ _ _ _ H _ _ X) as [K _] end. cbn in K. subst k.
    destruct (fz (keyof b j)) eqn:F; [|reflexivity]. apply (g_off _ _ _ _ _ _ H) in F. match goal with X : s_mode _ _ _ = _ |- _ => rewrite X in F end. contradiction.
Qed.
Lemma transfer k0 t e tr st : st_exec _ key_dec k0 ((t, SEv _ e) :: tr) st -> effect e = true ->
  exists trb b, lk_exec _ key_dec k0 ((t, e) :: trb) b /\ on_key key_dec (event_key e) trb = on_key key_dec (event_key e) (lock_events tr).
Proof.
  intros H HE. apply st_last in H as (st0 & st1 & H & HS & -> & _). destruct (exec_sim _ _ _ _ H) as (fz & trb & b & HB & SM).
  pose proof (effect_live _ _ _ _ _ _ _ SM HS HE) as F.
  destruct (step_follows _ _ _ _ _ _ _ _ SM (exec_inv _ _ _ _ HB) HS) as (fz' & trb' & b' & ST & _ & _ & EV). specialize (EV e eq_refl F). subst trb'.
  rewrite (g_now _ _ _ _ _ _ SM). exists trb, b'. split; [|apply (g_tr _ _ _ _ _ _ SM); exact F].
  destruct ST as [[C _] | (eb & ST & EE)].
  - exfalso. apply (f_equal (@List.length _)) in C. cbn in C. lia.
  - rewrite EE. eapply KR_step; eassumption.
Qed.

Lemma c86_exclusive k0 t i k j s d tr st : st_exec _ key_dec k0 ((t, SEv _ (LGrant key i k j s d)) :: tr) st -> holder key_dec (lock_events tr) k = None.
Proof. intros H. apply transfer in H as (trb & b & H & E); [|reflexivity]. cbn [event_key] in E. rewrite <- (holder_eq _ _ _ E). eapply c27. exact H. Qed.
Lemma c86_beat k0 t k j s tr st : st_exec _ key_dec k0 ((t, SEv _ (LBeat key k j s true)) :: tr) st -> holder key_dec (lock_events tr) k = Some (j, s).
Proof. intros H. apply transfer in H as (trb & b & H & E); [|reflexivity]. cbn [event_key] in E. rewrite <- (holder_eq _ _ _ E). apply (c28_beat _ _ _ _ _ _ _ _ _ H). reflexivity. Qed.
Lemma c86_release k0 t k j s tr st : st_exec _ key_dec k0 ((t, SEv _ (LRelease key k j s true)) :: tr) st -> exists j', holder key_dec (lock_events tr) k = Some (j', s).
Proof. intros H. apply transfer in H as (trb & b & H & E); [|reflexivity]. cbn [event_key] in E. rewrite <- (holder_eq _ _ _ E). apply (c28_release _ _ _ _ _ _ _ _ _ H). reflexivity. Qed.

(** the key of a session *)
Lemma resets_key k0 tr st : lk_exec _ key_dec k0 tr st -> forall x s k t i j d, In x tr -> resets s x = true -> In (t, LGrant key i k j s d) tr -> event_key (snd x) = k.
Proof.
  assert (S1 : forall t i k j s d tr0, In (t, LGrant key i k j s d) tr0 -> In s (sessions tr0)).
  { intros t i k j s d tr0. induction tr0 as [|[t' e] r IH]; [intros []|]. intros [[= -> ->] | HI]; [left; reflexivity|]. apply IH in HI. destruct e; cbn; auto. }
  assert (HG : forall tr0 k j s, holder key_dec tr0 k = Some (j, s) -> exists t i d, In (t, LGrant key i k j s d) tr0).
  { intros tr0 k j s. induction tr0 as [|[t' e] r IH]; [discriminate|]. cbn [holder].
    assert (IH' : holder key_dec r k = Some (j, s) -> exists t i d, In (t, LGrant key i k j s d) ((t', e) :: r)) by (intros X; destruct (IH X) as (a & b & c & Y); exists a, b, c; right; exact Y).
    destruct e; try exact IH'; try (destruct ok; [|exact IH']); unfold same_key; destruct (key_dec _ k) as [-> | N]; try exact IH'; try discriminate.
    intros [= -> ->]. eexists _, _, _. left. reflexivity. }
  assert (HR : forall tr0 st0 s x, lk_exec _ key_dec k0 tr0 st0 -> In x tr0 -> resets s x = true -> exists t i j d, In (t, LGrant key i (event_key (snd x)) j s d) tr0).
  { intros tr0 st0 s x HX HI HR. revert x HI HR. unfold lk_exec in HX. induction HX as [|tr1 st1 e st2 HX IH HS]; [intros ? []|]. intros x HI HR.
    destruct e as [e|]; cbn [push] in *; [|eauto]. destruct HI as [<- | HI]; [|destruct (IH _ HI HR) as (a & b & c & d & X); eexists a, b, c, d; right; exact X].
    apply resets_grant in HR as [(t & i & k & j & d & [= -> ->]) | (t & k & j & [= -> ->])]; [eexists _, _, _, _; left; reflexivity|].
    assert (X := KR_step _ _ _ _ _ _ _ HX HS). apply (c28_beat key_dec k0) in X. apply (proj1 X) in eq_refl as Y || (destruct X as [X _]; specialize (X eq_refl); rename X into Y).
    destruct (HG _ _ _ _ Y) as (t1 & i1 & d1 & Z). exists t1, i1, j, d1. right. exact Z. }
  intros HX x s k t i j d HI HR1 HGr. destruct (HR _ _ _ _ HX HI HR1) as (t1 & i1 & j1 & d1 & HG1). clear HI HR1. unfold lk_exec in HX.
  induction HX as [|tr1 st1 e st2 HX IH HS]; [destruct HGr|]. pose proof (exec_tr _ k0 _ _ HX) as T. destruct e as [e|]; cbn [push] in *; [|eauto].
  destruct HGr as [HGr|HGr], HG1 as [HG1|HG1]; try (congruence); eauto.
  - inversion HGr; subst; clear HGr. exfalso. apply S1 in HG1. apply (t_sess _ _ _ T) in HG1. inversion HS; subst. contradiction.
  - inversion HG1; subst; clear HG1. exfalso. apply S1 in HGr. apply (t_sess _ _ _ T) in HGr. inversion HS; subst. contradiction.
Qed.
Lemma silent_on k s d tr now : (forall x, In x tr -> resets s x = true -> event_key (snd x) = k) -> was_silent s d tr now -> was_silent s d (on_key key_dec k tr) now.
Proof.
  intros HK (a & x & b & -> & H2 & H3 & H4). exists (on_key key_dec k a), x, (on_key key_dec k b). split; [|split; [exact H2|split; [exact H3|]]].
  - unfold on_key. rewrite filter_app. cbn [filter]. rewrite (HK x); [|apply in_elt|exact H2]. unfold same_key. destruct (key_dec k k); [reflexivity|congruence].
  - intros e' HI. apply filter_In in HI as [HI _]. auto.
Qed.
Lemma c86_silent k0 t k s tr st : st_exec _ key_dec k0 ((t, SEv _ (LExpire key k s)) :: tr) st ->
  (exists j, holder key_dec (lock_events tr) k = Some (j, s)) /\
  exists d, (exists t' i j, In (t', LGrant key i k j s d) (lock_events tr)) /\ was_silent s d (on_key key_dec k (lock_events tr)) t.
Proof.
  intros H. apply transfer in H as (trb & b & H & E); [|reflexivity]. cbn [event_key] in E. rewrite <- (holder_eq _ _ _ E), <- E.
  destruct (c30_silent _ _ _ _ _ _ _ H) as (H1 & d & (t' & i & j & H2) & H3). split; [exact H1|]. exists d. split.
  - exists t', i, j. assert (X : In (t', LGrant key i k j s d) (on_key key_dec k trb)) by (apply filter_In; split; [exact H2|cbn; unfold same_key; destruct (key_dec k k); congruence]).
    rewrite E in X. apply filter_In in X. apply X.
  - apply silent_on; [|exact H3]. apply lk_last in H as (s0 & s1 & H & _). intros x HI HR. eapply resets_key; eassumption.
Qed.


Lemma st_sess k0 tr st : st_exec _ key_dec k0 tr st -> forall s, In s (sessions (lock_events tr)) -> In s (lm_sess _ (s_lm _ st)).
Proof.
  unfold st_exec. induction 1 as [|tr st e st' HX IH HS]; [intros ? []|]. intros s0 HI. inversion HS; subst; cbn [push lock_events] in HI.
  - assert (X := step_sess' key_dec _ _ _ (lock_events tr) H IH s0). destruct e0; cbn [option_map push lock_events] in *; auto.
  - cbn. auto.
  - cbn. auto.
  - cbn. auto.
  - cbn. auto.
  - cbn. auto.
  - cbn. unfold drop_client. destruct (_ - 1); cbn; auto.
  - cbn. auto.
  - cbn. auto.
Qed.
Lemma c86_fresh k0 t i k j s d tr st : st_exec _ key_dec k0 ((t, SEv _ (LGrant key i k j s d)) :: tr) st -> ~ In s (sessions (lock_events tr)).
Proof.
  intros H. apply st_last in H as (s0 & s1 & H & HS & -> & _). intros C. apply (st_sess _ _ _ H) in C. inversion HS; subst.
  match goal with X : option_map _ ?o = Some _ |- _ => destruct o as [e0|]; [injection X as ->|discriminate] end.
  match goal with X : lk_step _ _ _ _ _ |- _ => inversion X; subst end. contradiction.
Qed.

(** ** What the locker says about a lock that has not ended *)
Lemma not_frozen fz tre st trb b k : sim key_dec fz tre st trb b -> ~ ended st k -> fz k = false.
Proof.
  intros H N. destruct (fz k) eqn:F; [|reflexivity]. exfalso. apply N. destruct (lm_cur _ (s_lm _ st) k) as [j|] eqn:EC; [|destruct (g_frz _ _ _ _ _ _ H _ F EC)].
  exists j. split; [exact EC|]. destruct (g_cur _ _ _ _ _ _ H _ _ EC) as [K _]. rewrite <- K in F. apply (g_off _ _ _ _ _ _ H) in F. destruct (s_mode _ st j); [auto|auto|contradiction].
Qed.
Lemma c86_count k0 tr st k : st_exec _ key_dec k0 tr st -> ~ ended st k ->
  (0 <= waiting_for key_dec (lock_events tr) k)%Z /\ (holding key_dec (lock_events tr) k = 0 \/ holding key_dec (lock_events tr) k = 1)%Z /\
  match locks_query _ (s_lm _ st) k with
  | Some (s, n) => (waiting_for key_dec (lock_events tr) k + holding key_dec (lock_events tr) k = Z.of_nat n)%Z /\ 0 < n /\
                   s = match holder key_dec (lock_events tr) k with Some (_, s) => s | None => EmptyString end
  | None => (waiting_for key_dec (lock_events tr) k + holding key_dec (lock_events tr) k = 0)%Z
  end.
Proof.
  intros H N. destruct (exec_sim _ _ _ _ H) as (fz & trb & b & HB & SM). pose proof (not_frozen _ _ _ _ _ _ SM N) as F.
  pose proof (g_tr _ _ _ _ _ _ SM _ F) as E. pose proof (c29 key_dec k0 trb b k HB) as C.
  rewrite <- (holder_on k (lock_events tr)), <- (waiting_on k (lock_events tr)), <- (holding_on k (lock_events tr)), <- E, holder_on, waiting_on, holding_on.
  replace (locks_query _ (s_lm _ st) k) with (locks_query _ b k); [exact C|]. destruct (g_at _ _ _ _ _ _ SM _ F) as (A1 & _ & _). unfold locks_query. rewrite A1.
  destruct (lm_cur _ b k) as [j|] eqn:EC; [|reflexivity]. destruct (i_cur _ (exec_inv _ _ _ _ HB) _ _ EC) as (K & _ & _). rewrite <- K in F.
  pose proof (g_lock _ _ _ _ _ _ SM _ F) as G. destruct (s_mode _ st j); [rewrite G; reflexivity|contradiction|]. destruct G as (t & G1 & G2). rewrite G1. cbn. unfold ph in G2. rewrite G2. reflexivity.
Qed.

(** ** A lock that has ended *)
Lemma run_app st0 tr1 st1 tr2 st2 : st_run _ key_dec st0 tr1 st1 -> st_run _ key_dec st1 tr2 st2 -> st_run _ key_dec st0 (tr2 ++ tr1) st2.
Proof.
  intros H1 H2. induction H2 as [|tr s e s' H2 IH HS]; [exact H1|].
  replace (push (match e with Some e => Some (lm_now _ (s_lm _ s), e) | None => None end) tr ++ tr1)
    with (push (match e with Some e => Some (lm_now _ (s_lm _ s), e) | None => None end) (tr ++ tr1)) by (destruct e; reflexivity).
  eapply SR_step; eassumption.
Qed.
Lemma frozen_ended fz tre st trb b k : sim key_dec fz tre st trb b -> fz k = true -> ended st k.
Proof.
  intros H F. destruct (lm_cur _ (s_lm _ st) k) as [j|] eqn:EC; [|destruct (g_frz _ _ _ _ _ _ H _ F EC)].
  exists j. split; [exact EC|]. destruct (g_cur _ _ _ _ _ _ H _ _ EC) as [K _]. rewrite <- K in F. apply (g_off _ _ _ _ _ _ H) in F. destruct (s_mode _ st j); [auto|auto|contradiction].
Qed.
Lemma ended_frozen fz tre st trb b k : sim key_dec fz tre st trb b -> lk_inv b -> ended st k -> fz k = true.
Proof.
  intros SM HI (j & EC & EP). destruct (g_cur _ _ _ _ _ _ SM _ _ EC) as [K LT].
  destruct (fz k) eqn:F; [reflexivity|]. exfalso. rewrite <- K in F. pose proof (g_lock _ _ _ _ _ _ SM _ F) as G. destruct (g_at _ _ _ _ _ _ SM _ F) as (A1 & _ & _).
  rewrite K, EC in A1. symmetry in A1. destruct (i_cur _ HI _ _ A1) as (_ & D & _). destruct (s_mode _ st j) eqn:M.
  - destruct EP as [EP|EP]; [|discriminate]. unfold ph in *. rewrite G in EP. contradiction.
  - contradiction.
  - destruct EP as [EP|EP]; [|discriminate]. destruct G as (t & G & _). unfold ph in EP. rewrite G in EP. discriminate.
Qed.
Lemma ended_step k0 tr st e st' k : st_exec _ key_dec k0 tr st -> st_step _ key_dec st e st' -> ended st k ->
  ended st' k /\ (forall ev, e = Some (SEv _ ev) -> event_key ev = k -> effect ev = false).
Proof.
  intros H HS EP. destruct (exec_sim _ _ _ _ H) as (fz & trb & b & HB & SM). pose proof (exec_inv _ _ _ _ HB) as HI.
  pose proof (ended_frozen _ _ _ _ _ _ SM HI EP) as F. split.
  - destruct (step_follows _ _ _ _ _ _ _ _ SM HI HS) as (fz' & trb' & b' & _ & SM' & MO & _). eapply frozen_ended; [exact SM'|]. apply MO. exact F.
  - intros ev -> EK. destruct (effect ev) eqn:EE; [|reflexivity]. pose proof (effect_live _ _ _ _ _ _ _ SM HS EE). congruence.
Qed.
Lemma ended_run k0 tr st k tr' st' : st_exec _ key_dec k0 tr st -> ended st k -> st_run _ key_dec st tr' st' ->
  ended st' k /\ forall t ev, In (t, SEv _ ev) tr' -> event_key ev = k -> effect ev = false.
Proof.
  intros H EP HR. induction HR as [|tr1 s e s' HR [IH1 IH2] HS]; [split; [exact EP|intros ? ? []]|].
  destruct (ended_step _ _ _ _ _ _ (run_app _ _ _ _ _ H HR) HS IH1) as [E1 E2]. split; [exact E1|].
  intros t ev HI EK. destruct e as [e|]; cbn [push] in HI; [|eauto]. destruct HI as [[= _ ->] | HI]; [apply E2; auto|eauto].
Qed.
(** whoever has to do with a lock whose Execute has returned can be answered *)
Lemma c86_answers k0 tr st k j : st_exec _ key_dec k0 tr st -> lm_cur _ (s_lm _ st) k = Some j -> ph (s_lm _ st) j = LDone ->
  (forall i d, lm_client _ (s_lm _ st) i = CWait j d -> exists st', st_step _ key_dec st (Some (SAway _ i k)) st' /\ lm_client _ (s_lm _ st') i = CEnd) /\
  (forall s, In (j, s) (lm_beats _ (s_lm _ st) k) -> exists st', st_step _ key_dec st (Some (SEv _ (LBeat _ k j s false))) st') /\
  (forall d, lm_busy _ (s_lm _ st) k = Some d -> lock_of d = j -> exists e st', st_step _ key_dec st (Some (SEv _ e)) st' /\ event_key e = k /\ lm_busy _ (s_lm _ st') k = None).
Proof.
  intros H EC EP. destruct (exec_sim _ _ _ _ H) as (fz & trb & b & HB & SM). pose proof (exec_inv _ _ _ _ HB) as HI.
  destruct (g_cur _ _ _ _ _ _ SM _ _ EC) as [K LT]. pose proof (ended_frozen _ _ _ _ _ _ SM HI (ex_intro _ j (conj EC (or_introl EP)))) as F. unfold ph in EP.
  assert (NC : forall x : lk_event key, (forall i k', x <> LJoin _ i k') -> s_closed _ st = true -> ~ creates _ (s_lm _ st) (Some x)) by (intros x N _ (i & k' & [= C] & _); exact (N _ _ C)).
  split; [|split].
  - intros i d E. eexists. split.
    + replace k with (l_key _ (lm_lock _ (s_lm _ st) j)) by (pose proof (g_key _ _ _ _ _ _ SM j) as GK; unfold keyof in *; congruence). eapply S_away; eassumption.
    + cbn. apply upd_same.
  - intros s HIn. apply in_split in HIn as (b1 & b2 & E). eexists. change (@Some (st_event key) (SEv _ (LBeat _ k j s false))) with (option_map (SEv key) (Some (LBeat _ k j s false))).
    eapply S_run; [eapply (K_beat_fail _ _ _ k j s LDone b1 b2); [exact E|exact EP|exact Logic.I]|apply NC; discriminate].
  - intros d EB EJ. destruct d as [i x|x r s|x]; cbn in EJ; subst x.
    + exists (LLost _ i k). eexists. split; [|split; [reflexivity|]].
      * change (@Some (st_event key) (SEv _ (LLost _ i k))) with (option_map (SEv key) (Some (LLost _ i k))). eapply S_run; [eapply (K_lost_done _ _ _ i j k); eassumption|apply NC; discriminate].
      * cbn. apply key_same.
    + exists (LRelease _ k r s false). eexists. split; [|split; [reflexivity|]].
      * change (@Some (st_event key) (SEv _ (LRelease _ k r s false))) with (option_map (SEv key) (Some (LRelease _ k r s false))). eapply S_run; [eapply (K_rel_fail _ _ _ k j r s LDone); [eassumption|eassumption|exact Logic.I]|apply NC; discriminate].
      * cbn. apply key_same.
    + destruct (g_notime _ _ _ _ _ _ SM _ j F EB).
Qed.

(** ** What the clients and the callbacks of a stopping locker know *)
Record e_inv (st : stopping) : Prop := {
  e_claim : forall i j d, l_ph _ (lm_lock _ (s_lm _ st) j) = LClaimed i d -> lm_client _ (s_lm _ st) i = CClaim j;
  e_lost : forall k i j, lm_busy _ (s_lm _ st) k = Some (DLost i j) -> exists j0, lm_client _ (s_lm _ st) i = CLeaving j0 /\ l_key _ (lm_lock _ (s_lm _ st) j0) = k /\ j0 < lm_next _ (s_lm _ st);
  e_waits : forall i j, waits (lm_client _ (s_lm _ st) i) j -> j < lm_next _ (s_lm _ st);
  e_cur : forall k j, lm_cur _ (s_lm _ st) k = Some j -> l_key _ (lm_lock _ (s_lm _ st) j) = k /\ j < lm_next _ (s_lm _ st);
  e_busy : forall k d, lm_busy _ (s_lm _ st) k = Some d -> lm_cur _ (s_lm _ st) k = Some (lock_of d);
  e_fresh : forall j, lm_next _ (s_lm _ st) <= j -> l_ph _ (lm_lock _ (s_lm _ st) j) = LDone /\ s_mode _ st j = MNone;
  e_mode : forall j, s_mode _ st j <> MNone -> l_ph _ (lm_lock _ (s_lm _ st) j) = LStuck;
  e_beats : forall k j s, In (j, s) (lm_beats _ (s_lm _ st) k) -> lm_cur _ (s_lm _ st) k = Some j;
  e_alone : forall k d, lm_busy _ (s_lm _ st) k = Some d -> lm_beats _ (s_lm _ st) k = [] }.

Ltac upds := unfold with_lm, with_mode, with_time, with_lock, with_client, with_busy, with_cur, with_beats, with_session, with_new, with_refused, drop_client, set_ph, set_cnt, upd_nat, upd_key in *;
  cbn [s_lm s_stop s_closed s_mode lm_now lm_next lm_lock lm_cur lm_busy lm_beats lm_client lm_sess l_key l_ph l_cnt lock_of] in *.
Ltac eqs := repeat (match goal with
  | H : context [Nat.eqb ?a ?b] |- _ => destruct (Nat.eqb_spec a b); [try subst a|]
  | |- context [Nat.eqb ?a ?b] => destruct (Nat.eqb_spec a b); [try subst a|]
  | H : context [key_dec ?a ?b] |- _ => destruct (key_dec a b); [try subst a|]
  | |- context [key_dec ?a ?b] => destruct (key_dec a b); [try subst a|]
  end; cbn [lm_now lm_next lm_lock lm_cur lm_busy lm_beats lm_client lm_sess l_key l_ph l_cnt] in * ).
Ltac cases0 := unfold drop_client in *; repeat match goal with
  | H : context [match ?x with 0 => _ | S _ => _ end] |- _ => destruct x eqn:?
  | |- context [match ?x with 0 => _ | S _ => _ end] => destruct x eqn:?
  end.
Ltac es H := pose proof (e_claim _ H) as Ecl; pose proof (e_lost _ H) as Elo; pose proof (e_waits _ H) as Ewa; pose proof (e_cur _ H) as Ecu;
  pose proof (e_busy _ H) as Ebu; pose proof (e_fresh _ H) as Efr; pose proof (e_mode _ H) as Emo; pose proof (e_beats _ H) as Ebe; pose proof (e_alone _ H) as Eal.

Ltac wl := match goal with
  | Elo : (forall k i j, lm_busy _ ?l k = Some (DLost i j) -> _), B : lm_busy _ ?l _ = Some (DLost ?i ?j) |- exists _, _ =>
     let z := fresh "z" in destruct (Elo _ _ _ B) as (z & ? & ? & ?); exists z; eqs; repeat split; auto; try congruence; try lia end.
Ltac wr := match goal with
  | Efr : (forall j, lm_next _ ?l <= j -> _), B : lm_next _ ?l <= ?j |- _ => destruct (Efr _ B); congruence
  | Emo : (forall j, ?md j <> MNone -> _), B : ?md ?j <> MNone |- _ => pose proof (Emo _ B); congruence
  | Efr : (forall j, lm_next _ ?l <= j -> _), B : S (lm_next _ ?l) <= ?j |- _ => apply Efr; lia
  end.
Ltac ww := match goal with
  | Ewa : (forall i j, waits (lm_client _ ?l i) j -> _), C : lm_client _ ?l ?i = _ |- ?j < lm_next _ ?l => apply (Ewa i); rewrite C; cbn in *; congruence
  | Ewa : (forall i j, waits (lm_client _ ?l i) j -> _), W : waits (lm_client _ ?l ?i) ?j |- ?j < S _ => apply Ewa in W; lia
  | W : waits _ ?j |- ?j < _ => cbn in W; try contradiction; subst; auto
  end.
Ltac wc := match goal with
  | Ecl : (forall i j d, l_ph _ (lm_lock _ ?l j) = LClaimed i d -> _), P : l_ph _ (lm_lock _ ?l ?j) = LClaimed ?i ?d |- _ =>
     let X := fresh "X" in pose proof (Ecl _ _ _ P) as X; clear P; first [congruence | idtac] end.
Ltac wu := match goal with
  | Ecu : (forall k j, lm_cur _ ?l k = Some j -> _), C : lm_cur _ ?l ?k = Some ?j |- _ => destruct (Ecu _ _ C); first [congruence | lia | split; [congruence|lia]] end.
Lemma e_step st e st' : e_inv st -> st_step _ key_dec st e st' -> e_inv st'.
Proof.
  intros H HS. es H. destruct st as [l stp clo md]. cbn [s_lm s_mode s_stop s_closed] in *.
  inversion HS; subst; clear HS; cbn [s_lm s_mode s_stop s_closed with_lm] in *.
  - match goal with X : lk_step _ _ _ _ _ |- _ => destruct X end;
    try match goal with B : lm_busy _ _ _ = Some (DLost _ _) |- _ => destruct (Elo _ _ _ B) as (z0 & LC & LK & LN) end;
    try match goal with B : lm_busy _ _ _ = Some ?d |- _ => pose proof (Ebu _ _ B) as BC; pose proof (Eal _ _ B) as BA; cbn in BC end;
    try match goal with B : l_ph _ _ = LClaimed _ _ |- _ => pose proof (Ecl _ _ _ B) as CC end;
    constructor; cases0; upds; intros; eqs; auto; try congruence; try discriminate.
    all: try solve [eauto].
    all: try solve [wr].
    all: try solve [eauto]; try solve [wl].
    all: try solve [ww].
    all: try solve [wc].
    all: try solve [wu].
    all: try solve [match goal with X : Some _ = Some ?d |- _ = Some (lock_of ?d) => injection X as <-; assumption end].
    all: try solve [match goal with X : In _ (_ ++ [_]) |- _ => apply in_app_iff in X as [X | [[= <- <-] | []]]; eauto end].
    all: try solve [match goal with X : In ?p (?b1 ++ ?b2), Y : lm_beats _ _ _ = ?b1 ++ ?q :: ?b2 |- _ => eapply Ebe; rewrite Y; apply in_app_iff in X; apply in_app_iff; destruct X; [left|right; right]; eassumption end].
    all: try solve [match goal with X : lm_busy _ _ _ = Some _, Y : lm_beats _ _ _ = ?b1 ++ ?q :: ?b2 |- _ => rewrite (Eal _ _ X) in Y; destruct b1; discriminate end].
    all: try solve [match goal with X : In _ (lm_beats _ _ _), BA : lm_beats _ _ _ = [] |- _ => rewrite BA in X; destruct X end].
    + lia.
    + exfalso. match goal with X : md _ <> MNone |- _ => apply X end. apply Efr. lia.
    + exfalso. match goal with X : In _ _ |- _ => apply Ebe in X; congruence end.
    + exists j. split; [reflexivity|]. split; [congruence|]. apply (Ewa i). match goal with X : lm_client _ _ _ = _ |- _ => rewrite X end. reflexivity.
    + exfalso. match goal with X : md _ <> MNone |- _ => apply Emo in X; rewrite X in * end. subst. contradiction.
  - constructor; cbn; auto.
  - constructor; cbn; auto.
  - constructor; upds; intros; eqs; auto; try congruence; try solve [wr]; try solve [eauto]; try solve [wl].
  - constructor; upds; intros; eqs; auto; try congruence; try solve [wr]; try solve [eauto]; try solve [wl].
  - constructor; upds; intros; eqs; auto; try congruence; try solve [wr]; try solve [eauto]; try solve [wl].
    + match goal with X : Some _ = Some _ |- _ => injection X as <- end. assumption.
    + apply Emo. congruence.
  - pose proof (Ebu _ _ H0) as BC; pose proof (Eal _ _ H0) as BA; cbn in BC.
    constructor; cases0; upds; intros; eqs; auto; try congruence; try solve [wr]; try solve [eauto]; try solve [wl].
    rewrite BA in H2. destruct H2.
  - constructor; upds; intros; eqs; auto; try congruence; try solve [wr]; try solve [eauto]; try solve [wl]; try solve [ww].
    + apply Ecl in H4. congruence.
    + exfalso. wu.
    + destruct (Ecu _ _ H4). split; [assumption|lia].
    + lia.
    + apply Ebe in H4. congruence.
  - constructor; upds; intros; eqs; auto; try congruence; try solve [wr]; try solve [eauto]; try solve [wl]; try solve [ww].
    apply Ecl in H2. congruence.
Qed.
Lemma e_exec k0 tr st : st_exec _ key_dec k0 tr st -> e_inv st.
Proof.
  unfold st_exec. induction 1 as [|tr st e st' HX IH HS]; [|eapply e_step; eassumption].
  constructor; cbn; intros; auto; try discriminate; contradiction.
Qed.

(** ** A lock that was never to be executed *)
Lemma refused_step st e st' i j k : e_inv st -> st_step _ key_dec st e st' -> s_mode _ st j = MRefused -> lm_cur _ (s_lm _ st) k = Some j -> waits (lm_client _ (s_lm _ st) i) j ->
  s_mode _ st' j = MRefused /\ lm_cur _ (s_lm _ st') k = Some j /\ waits (lm_client _ (s_lm _ st') i) j.
Proof.
  intros H HS M EC W. es H. assert (LS : l_ph _ (lm_lock _ (s_lm _ st) j) = LStuck) by (apply Emo; congruence).
  assert (LT := Ewa _ _ W). destruct (Ecu _ _ EC) as [KJ _].
  destruct st as [l stp clo md]. cbn [s_lm s_mode s_stop s_closed] in *.
  inversion HS; subst; clear HS; cbn [s_lm s_mode s_stop s_closed with_lm with_mode] in *.
  - split; [exact M|]. match goal with X : lk_step _ _ _ _ _ |- _ => destruct X end;
    try match goal with B : lm_busy _ _ _ = Some (DLost _ _) |- _ => destruct (Elo _ _ _ B) as (z0 & LC & LK & LN) end;
    try match goal with B : lm_busy _ _ _ = Some ?d |- _ => pose proof (Ebu _ _ B) as BC; cbn in BC end;
    try match goal with B : l_ph _ _ = LClaimed _ _ |- _ => pose proof (Ecl _ _ _ B) as CC end;
    cases0; upds; (split; eqs; auto; try congruence).
    all: try (match goal with C : lm_client _ _ ?i = _, W : waits (lm_client _ _ ?i) _ |- _ => rewrite C in W; cbn in W; try contradiction; subst end; try congruence).
    all: try solve [cbn; congruence].
    all: assert (j0 = j) by congruence; subst j0; rewrite LS in *; contradiction.
  - auto.
  - auto.
  - auto.
  - split; [|split; [exact EC|exact W]]. unfold upd_nat. destruct (Nat.eqb_spec j j0); [subst; congruence|exact M].
  - split; [|split; [exact EC|exact W]]. unfold upd_nat. destruct (Nat.eqb_spec j j0); [subst; congruence|exact M].
  - pose proof (Ebu _ _ H0) as BC. cbn in BC. split; [|unfold drop_client; destruct (_ - 1); cbn; (split; [|exact W])].
    + unfold upd_nat. destruct (Nat.eqb_spec j j0); [subst; congruence|exact M].
    + unfold upd_key. destruct (key_dec _ _); [|exact EC]. subst. congruence.
    + exact EC.
  - split; [unfold upd_nat; destruct (Nat.eqb_spec j (lm_next _ l)); [lia|exact M]|]. cbn. split.
    + unfold upd_key. destruct (key_dec _ _); [|exact EC]. subst. congruence.
    + unfold upd_nat. destruct (Nat.eqb_spec i i0); [subst|exact W]. match goal with X : lm_client _ _ _ = CNew |- _ => rewrite X in W end. contradiction.
  - split; [exact M|]. split; [exact EC|]. cbn. unfold upd_nat. destruct (Nat.eqb_spec i i0); [subst|exact W].
    match goal with X : lm_client _ _ _ = CWait _ _ |- _ => rewrite X in W end. cbn in W. congruence.
Qed.
Lemma refused_run k0 tr st tr' st' i j k : st_exec _ key_dec k0 tr st -> st_run _ key_dec st tr' st' -> s_mode _ st j = MRefused -> lm_cur _ (s_lm _ st) k = Some j ->
  waits (lm_client _ (s_lm _ st) i) j -> s_mode _ st' j = MRefused /\ lm_cur _ (s_lm _ st') k = Some j /\ waits (lm_client _ (s_lm _ st') i) j.
Proof.
  intros H HR M EC W. induction HR as [|tr1 s e s' HR (I1 & I2 & I3) HS]; [auto|]. eapply refused_step; eauto. eapply e_exec. exact (run_app _ _ _ _ _ H HR).
Qed.

(** ** An Execute that waits for a timeout that waits for a request that waits for the Execute *)
Definition jam (st : stopping) (k : key) (j : nat) (x : (nat * string) + deletion) : Prop :=
  s_mode _ st j = MWait false /\ lm_cur _ (s_lm _ st) k = Some j /\
  match x with
  | inl (j', s) => In (j', s) (lm_beats _ (s_lm _ st) k)
  | inr d => lm_busy _ (s_lm _ st) k = Some d /\ match d with DTime _ => False | _ => True end
  end.
Lemma jam_step st e st' k j x : e_inv st -> st_step _ key_dec st e st' -> jam st k j x -> jam st' k j x.
Proof.
  intros H HS (M & EC & X). es H. assert (LS : l_ph _ (lm_lock _ (s_lm _ st) j) = LStuck) by (apply Emo; congruence).
  destruct (Ecu _ _ EC) as [KJ LT].
  assert (NB : forall d, x = inl d -> lm_busy _ (s_lm _ st) k = None).
  { intros [a c] ->. destruct (lm_busy _ (s_lm _ st) k) eqn:B; [|reflexivity]. apply Eal in B. rewrite B in X. destruct X. }
  assert (NX : lm_busy _ (s_lm _ st) k = None -> lm_beats _ (s_lm _ st) k = [] -> False).
  { intros B1 B2. destruct x as [[a c] | d]; [rewrite B2 in X; destruct X|destruct X; congruence]. }
  assert (NT : forall z, lm_busy _ (s_lm _ st) k <> Some (DTime z)).
  { intros z B. destruct x as [d | d]; [rewrite (NB _ eq_refl) in B; discriminate|]. destruct X as [X1 X2]. rewrite X1 in B. injection B as ->. exact X2. }
  assert (BJ : forall a c, In (a, c) (lm_beats _ (s_lm _ st) k) -> a = j) by (intros a c HI; apply Ebe in HI; congruence).
  unfold jam. destruct st as [l stp clo md]. cbn [s_lm s_mode s_stop s_closed] in *.
  inversion HS; subst; clear HS; cbn [s_lm s_mode s_stop s_closed with_lm with_mode] in *.
  - split; [exact M|]. match goal with X : lk_step _ _ _ _ _ |- _ => destruct X end;
    try match goal with B : lm_busy _ _ _ = Some ?d |- _ => pose proof (Ebu _ _ B) as BC; cbn in BC end;
    cases0; upds; (split; [|destruct x as [[a c] | dd]]); eqs; auto; try congruence.
    all: subst; try congruence.
    all: try (destruct (NX ltac:(assumption) ltac:(assumption))).
    all: try (destruct X as [X1 X2]; congruence).
    all: try (assert (j0 = j) by congruence; subst j0; rewrite LS in *; contradiction).
    all: try (apply in_app_iff; left; assumption).
    all: match goal with Y : lm_beats _ _ _ = _ ++ (?z, ?w) :: _ |- _ => assert (z = j) by (eapply (BJ z w); rewrite Y; apply in_elt); subst z; try congruence; rewrite LS in *; contradiction end.
  - auto.
  - auto.
  - auto.
  - split; [|split; [exact EC|exact X]]. unfold upd_nat. destruct (Nat.eqb_spec j j0); [subst; congruence|exact M].
  - assert (N : l_key _ (lm_lock _ l j0) <> l_key _ (lm_lock _ l j)) by (intros E; rewrite E in *; exact (NX ltac:(assumption) ltac:(assumption))).
    split; [unfold upd_nat; destruct (Nat.eqb_spec j j0); [subst; congruence|exact M]|]. split; [exact EC|]. cbn. rewrite key_other by congruence. exact X.
  - pose proof (Ebu _ _ H0) as BC. cbn in BC. assert (N : k0 <> l_key _ (lm_lock _ l j)) by (intros ->; exact (NT _ H0)).
    assert (NJ : j0 <> j) by (intros ->; apply Ecu in BC as [BC _]; congruence).
    split; [unfold upd_nat; destruct (Nat.eqb_spec j j0); [congruence|exact M]|]. unfold drop_client. destruct (_ - 1); cbn; rewrite ?key_other by congruence; auto.
  - assert (N : k0 <> l_key _ (lm_lock _ l j)) by congruence.
    split; [unfold upd_nat; destruct (Nat.eqb_spec j (lm_next _ l)); [lia|exact M]|]. cbn. rewrite ?key_other by congruence. auto.
  - auto.
Qed.
Lemma jam_run k0 tr st tr' st' k j x : st_exec _ key_dec k0 tr st -> st_run _ key_dec st tr' st' -> jam st k j x -> jam st' k j x.
Proof.
  intros H HR J. induction HR as [|tr1 s e s' HR IH HS]; [exact J|]. eapply jam_step; eauto. eapply e_exec. exact (run_app _ _ _ _ _ H HR).
Qed.
End Claims.
