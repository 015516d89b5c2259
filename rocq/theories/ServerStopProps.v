(** What holds of every state of ServerStop.v, and what can still happen. *)
From Coq Require Import List Bool Arith Lia.
From Verif Require Import ServerStop SpecServerStop.
Import ListNotations.
Local Open Scope list_scope.

Lemma in_mid : forall {A} (x y : A) l1 l2, In x (l1 ++ y :: l2) <-> x = y \/ In x (l1 ++ l2).
Proof. intros. rewrite !in_app_iff. cbn. intuition congruence. Qed.

(** every request that has begun is over or still on a connection *)
Definition kept (s : process) : Prop :=
  forall r c, In (Begun r c) (hist s) -> over (hist s) r \/ exists c' d, In (c', Busy r d) (conns s).

Lemma over_more : forall h h' r, over h r -> over (h' ++ h) r.
Proof. intros h h' r [O|O]; [left|right]; apply in_or_app; now right. Qed.

Lemma kept_same : forall s s', kept s -> conns s' = conns s ->
  (forall e, In e (hist s) -> In e (hist s')) ->
  (forall r c, In (Begun r c) (hist s') -> In (Begun r c) (hist s)) -> kept s'.
Proof.
  intros s s' K C M N r c B. destruct (K r c (N r c B)) as [[O|O]|[c' [d J]]].
  - left. left. now apply M.
  - left. right. now apply M.
  - right. exists c', d. now rewrite C.
Qed.

Lemma kept_step : forall v w s s', step v w s s' -> kept s -> kept s'.
Proof.
  intros v w s s' ST K; destruct ST;
    try (eapply kept_same; [exact K|reflexivity|cbn; tauto|cbn; intros ? ? Q; intuition congruence]); unfold set_conns; intros r0 c0 B; cbn in B |- *.
  - (* open *)
    destruct B as [B|B]; [discriminate|]. destruct (K r0 c0 B) as [O|[c' [d J]]].
    + left. exact (over_more _ [Opened c] _ O).
    + right. exists c', d. now right.
  - (* begin *)
    destruct B as [B|B].
    + injection B as E1 E2. subst r0 c0. right. exists c, d. apply in_mid. now left.
    + destruct (K r0 c0 B) as [O|[c' [d' J]]].
      * left. exact (over_more _ [Begun r c] _ O).
      * right. exists c', d'. rewrite H0 in J. apply in_mid in J. destruct J as [J|J]; [discriminate|].
        apply in_mid. now right.
  - (* hang up *)
    destruct (K r0 c0 B) as [O|[c' [d' J]]]; [left; exact O|].
    right. exists c', d'. rewrite H0 in J. apply in_mid in J. destruct J as [J|J]; [discriminate|exact J].
  - (* leave *)
    destruct B as [B|B]; [discriminate|]. destruct (K r0 c0 B) as [O|[c' [d' J]]].
    + left. exact (over_more _ [Left r] _ O).
    + rewrite H0 in J. apply in_mid in J. destruct J as [J|J].
      * injection J as E1 E2 E3. subst r0. left. right. now left.
      * right. exists c', d'. exact J.
  - (* answer *)
    destruct B as [B|B]; [discriminate|]. destruct (K r0 c0 B) as [O|[c' [d' J]]].
    + left. exact (over_more _ [Answered r] _ O).
    + rewrite H0 in J. apply in_mid in J. destruct J as [J|J].
      * injection J as E1 E2 E3. subst r0. left. left. now left.
      * right. exists c', d'. apply in_app_iff in J. rewrite !in_app_iff. tauto.
  - (* served *)
    destruct B as [B|B]; [discriminate|]. destruct (K r0 c0 B) as [O|[c' [d' J]]].
    + left. exact (over_more _ [Answered r] _ O).
    + rewrite H0 in J. apply in_mid in J. destruct J as [J|J].
      * injection J as E1 E2 E3. subst r0. left. left. now left.
      * right. exists c', d'. apply in_app_iff in J. rewrite !in_app_iff. tauto.
  - (* told *)
    destruct B as [B|B]; [discriminate|]. destruct (K r0 c0 B) as [O|[c' [d' J]]].
    + left. exact (over_more _ [Answered r] _ O).
    + rewrite H0 in J. apply in_mid in J. destruct J as [J|J].
      * injection J as E1 E2 E3. subst r0. left. left. now left.
      * right. exists c', d'. apply in_app_iff in J. rewrite !in_app_iff. tauto.
  - (* stick *)
    destruct (K r0 c0 B) as [O|[c' [d' J]]]; [left; exact O|].
    right. rewrite H0 in J. apply in_mid in J. destruct J as [J|J].
    + injection J as E1 E2 E3. subst r0. exists c, Stuck. apply in_mid. now left.
    + exists c', d'. apply in_mid. now right.
  - (* close idle *)
    destruct (K r0 c0 B) as [O|[c' [d' J]]]; [left; exact O|].
    right. exists c', d'. rewrite H1 in J. apply in_mid in J. destruct J as [J|J]; [discriminate|exact J].
Qed.

(** the phases of the parts, and what has been seen *)
Record fits (s : process) : Prop := {
  f_closing : In Closing (hist s) <-> shut s <> HWaits;
  f_shut_cancelled : shut s <> HWaits -> cancelled s = true;
  f_shut_lis : shut s <> HWaits -> lis s <> LOpen;
  f_closed : lis s = LClosed -> shut s <> HWaits;
  f_empty : (exists e, shut s = HHolds e) \/ shut s = HDone -> conns s = [];
  f_failed : lis s = LFailed -> In Broken (hist s);
  f_error : shut s = HDrains true \/ shut s = HHolds true -> In Broken (hist s);
  f_broken : In Broken (hist s) -> lis s = LFailed \/ shut s = HDrains true \/ shut s = HHolds true \/ exec s = XReturned false;
  f_waits : exec s = XWaits -> lis s = LClosed /\ shut s <> HDone;
  f_listens : exec s = XListens -> shut s <> HDone;
  f_nil : exec s = XReturned true -> shut s = HDone /\ lis s = LClosed;
  f_not_nil : exec s = XReturned false -> In Broken (hist s);
  f_cancelled : cancelled s = true -> In Asked (hist s) \/ In Broken (hist s);
  f_asked : In Asked (hist s) -> cancelled s = true;
  f_ended : forall b, In (Ended b) (hist s) -> ended s = true /\ exec s = XReturned b;
  f_end : ended s = true -> exists b h, hist s = Ended b :: h /\ (forall b', ~ In (Ended b') h)
}.

Ltac tidy := cbn in *; intuition (try congruence; try discriminate; eauto).

Lemma fits_start : forall v, fits (start v).
Proof. intros v. constructor; try solve [tidy]. Qed.

Lemma no_end : forall s, fits s -> ended s = false -> forall b, ~ In (Ended b) (hist s).
Proof. intros s F E b J. destruct (f_ended s F b J). congruence. Qed.

(** events that the phases do not depend on *)
Definition plain (e : event) : Prop :=
  match e with Closing | Broken | Asked | Ended _ => False | _ => True end.

Lemma fits_conns : forall s l h, fits s -> ended s = false -> (forall e, In e h -> plain e) ->
  ((exists e, shut s = HHolds e) \/ shut s = HDone -> l = []) -> fits (set_conns s l h).
Proof.
  intros s l h F NE P E.
  assert (Q : forall e, ~ plain e -> In e (h ++ hist s) <-> In e (hist s)).
  { intros e N. rewrite in_app_iff. split; [intros [J|J]; [destruct (N (P _ J))|exact J]|now right]. }
  pose proof (no_end s F NE) as NO. destruct F.
  unfold set_conns; constructor; cbn [cancelled conns lis shut exec comp tasks ended hist]; try assumption;
    rewrite ?(Q Closing), ?(Q Broken), ?(Q Asked) by (cbn; tauto); try assumption.
  - intros b J. apply Q in J; [destruct (NO _ J)|cbn; tauto].
  - congruence.
Qed.

Lemma in_skip_iff : forall {A} (x y : A) h, y <> x -> In x (y :: h) <-> In x h.
Proof. intros. cbn. tauto. Qed.

Lemma fits_step : forall v w s s', step v w s s' -> fits s -> fits s'.
Proof.
  intros v w s s' ST F.
  assert (NE : ended s = false) by (destruct ST; assumption).
  pose proof (no_end s F NE) as NO.
  destruct ST;
    try (apply fits_conns; [exact F|exact NE|cbn; intros e0 J; destruct J as [J|J]; [subst; exact Logic.I|destruct J]|
         try (intros Z; pose proof (f_empty s F Z) as Y; rewrite H0 in Y; destruct l1; discriminate)]);
    try (apply fits_conns; [exact F|exact NE|cbn; intros e0 J; destruct J|
         try (intros Z; pose proof (f_empty s F Z) as Y; rewrite ?H0, ?H1 in Y; destruct l1; discriminate)]);
    destruct F as [F1 F2 F3 F4 F5 F6 F7 F8 F9 Fl F10 F11 F12 F13 F14 F15].
  - (* signal *)
    constructor; cbn [cancelled conns lis shut exec comp tasks ended hist]; rewrite ?in_skip_iff by discriminate; try assumption; try reflexivity; try (intros; reflexivity); cbn; try tauto.
    + intros b [J|J]; [discriminate|destruct (NO _ J)].
    + congruence.
  - (* open *)
    intros [[e Z]|Z]; exfalso; apply F3; congruence.
  - (* break *)
    constructor; cbn [cancelled conns lis shut exec comp tasks ended hist]; rewrite ?in_skip_iff by discriminate; try assumption; try (intros; discriminate); cbn; try tauto.
    + intros b [J|J]; [discriminate|destruct (NO _ J)].
    + congruence.
  - (* shutdown *)
    constructor; cbn [cancelled conns lis shut exec comp tasks ended hist]; rewrite ?(in_skip_iff Broken), ?(in_skip_iff Asked) by discriminate; try assumption.
    + cbn. split; [intros _; discriminate|auto].
    + intros _. exact H0.
    + intros _. destruct (lis s); discriminate.
    + intros _. discriminate.
    + intros [[e Z]|Z]; discriminate.
    + destruct (lis s); intros; try discriminate. auto.
    + intros [Z|Z]; discriminate.
    + intros B. destruct (F8 B) as [Z|[Z|[Z|Z]]]; try congruence; [left; now rewrite Z|auto].
    + intros X. destruct (F9 X) as [Z _]. rewrite Z. split; [reflexivity|discriminate].
    + intros X. discriminate.
    + intros X. destruct (F10 X) as [Z _]. congruence.
    + intros b [J|J]; [discriminate|destruct (NO _ J)].
    + congruence.
  - (* shutdown with an error *)
    constructor; cbn [cancelled conns lis shut exec comp tasks ended hist].
    + cbn. split; [intros _; discriminate|auto].
    + intros _. exact H0.
    + intros _. destruct (lis s); discriminate.
    + intros _. discriminate.
    + intros [[e Z]|Z]; discriminate.
    + intros _. now left.
    + intros _. now left.
    + auto.
    + intros X. destruct (F9 X) as [Z _]. rewrite Z. split; [reflexivity|discriminate].
    + intros X. discriminate.
    + intros X. destruct (F10 X) as [Z _]. congruence.
    + intros _. now left.
    + intros _. right. now left.
    + intros _. exact H0.
    + intros b [J|[J|J]]; try discriminate. destruct (NO _ J).
    + congruence.
  - (* drained *)
    constructor; cbn [cancelled conns lis shut exec comp tasks ended hist]; try assumption.
    + split; [discriminate|]. intros _. apply F1. congruence.
    + intros _. apply F2. congruence.
    + intros _. apply F3. congruence.
    + discriminate.
    + intros _. exact H1.
    + intros [Z|Z]; [discriminate|]. injection Z as ->. apply F7. now left.
    + intros B. destruct (F8 B) as [Z|[Z|[Z|Z]]]; try (now auto); [|congruence]. rewrite H0 in Z. injection Z as ->. auto.
    + intros X. destruct (F9 X). split; [assumption|discriminate].
    + discriminate.
    + intros X. destruct (F10 X). congruence.
  - (* ListenAndServe returns *)
    constructor; cbn [cancelled conns lis shut exec comp tasks ended hist]; try assumption.
    + intros B. destruct (F8 B) as [Z|[Z|[Z|Z]]]; auto. congruence.
    + unfold after_listen. destruct (cancelled s), (lis s); try discriminate. intros _. split; [reflexivity|auto].
    + unfold after_listen. destruct (cancelled s), (lis s); discriminate.
    + unfold after_listen. destruct (cancelled s), (lis s); discriminate.
    + intros X. destruct (lis s) eqn:L; [congruence|auto|]. pose proof (F2 (F4 eq_refl)) as Z. rewrite Z in X. discriminate.
    + intros b J. destruct (NO _ J).
  - (* the result is received *)
    destruct (F9 H0) as [LC _].
    constructor; cbn [cancelled conns lis shut exec comp tasks ended hist]; try assumption.
    + split; [discriminate|]. intros _. apply F1. congruence.
    + intros _. apply F2. congruence.
    + intros _. apply F3. congruence.
    + discriminate.
    + intros _. apply F5. left. now exists e.
    + intros [Z|Z]; discriminate.
    + intros B. destruct (F8 B) as [Z|[Z|[Z|Z]]]; try congruence. rewrite H1 in Z. injection Z as ->. auto.
    + discriminate.
    + discriminate.
    + intros _. now split.
    + intros X. destruct e; [|discriminate]. apply F7. now right.
    + intros b J. destruct (NO _ J).
  - (* strict *)
    constructor; cbn [cancelled conns lis shut exec comp tasks ended hist]; try assumption; try (intros; reflexivity).
    + intros _. right. destruct b; [|now apply F11]. destruct (F10 H0) as [Z _].
      assert (Y : cancelled s = true) by (apply F2; congruence). congruence.
  - constructor; cbn [cancelled conns lis shut exec comp tasks ended hist]; assumption.
  - constructor; cbn [cancelled conns lis shut exec comp tasks ended hist]; assumption.
  - constructor; cbn [cancelled conns lis shut exec comp tasks ended hist]; assumption.
  - constructor; cbn [cancelled conns lis shut exec comp tasks ended hist]; assumption.
  - constructor; cbn [cancelled conns lis shut exec comp tasks ended hist]; assumption.
  - (* the end *)
    constructor; cbn [cancelled conns lis shut exec comp tasks ended hist]; rewrite ?in_skip_iff by discriminate; try assumption.
    + intros b0 [J|J]; [injection J as <-; auto|destruct (NO _ J)].
    + intros _. exists b, (hist s). auto.
Qed.

Lemma runs_inv : forall v (P : process -> Prop), P (start v) -> (forall w s s', step v w s s' -> P s -> P s') ->
  forall s, runs v (start v) s -> P s.
Proof.
  intros v P P0 PS s [n R]. remember (start v) as s0 eqn:E. revert E. induction R; intros E.
  - now subst.
  - exact (PS _ _ _ H (IHR P0 E)).
  - exact (PS _ _ _ H0 (IHR P0 E)).
Qed.

Lemma reach_fits : forall v s, runs v (start v) s -> fits s.
Proof. intros v. apply runs_inv; [apply fits_start|apply fits_step]. Qed.
Lemma reach_kept : forall v s, runs v (start v) s -> kept s.
Proof. intros v. apply runs_inv; [intros r c []|intros w s s' ST K; exact (kept_step _ _ _ _ ST K)]. Qed.

(** the component returns after its tasks *)
Record settled (s : process) : Prop := {
  g_tasks : comp s = KReturned -> tasks s = 0;
  g_end : forall b, In (Ended b) (hist s) -> comp s = KReturned
}.
Lemma settled_step : forall v w s s', step v w s s' -> settled s -> settled s'.
Proof.
  intros v w s s' ST [G1 G2].
  assert (NE : comp s <> KReturned -> forall b, ~ In (Ended b) (hist s)) by (intros X b J; exact (X (G2 b J))).
  destruct ST; unfold set_conns; constructor; cbn [comp tasks hist app In]; try assumption;
    try solve [intros Q0; first [congruence|pose proof (G1 Q0); congruence]];
    try solve [intros b0 [J|J]; [discriminate|eauto]];
    try solve [intros b0 [J|[J|J]]; [discriminate|discriminate|eauto]];
    try solve [intros b0 J; exfalso; apply (NE ltac:(congruence) b0 J)];
    try solve [intros b0 J; reflexivity].
Qed.
Lemma reach_settled : forall v s, runs v (start v) s -> settled s.
Proof. intros v. apply runs_inv; [constructor; [intros; reflexivity|intros b []]|apply settled_step]. Qed.
Lemma ends_settled : forall v s b, runs v (start v) s -> In (Ended b) (hist s) -> comp s = KReturned /\ tasks s = 0.
Proof. intros v s b R J. destruct (reach_settled v s R) as [G1 G2]. pose proof (G2 b J) as Q. split; [exact Q|exact (G1 Q)]. Qed.

(** the process ends in order: somebody asked, nothing broke, every request is over *)
Lemma ends_clean : forall v s, runs v (start v) s -> In (Ended true) (hist s) ->
  In Asked (hist s) /\ ~ In Broken (hist s) /\ forall r, begun (hist s) r -> over (hist s) r.
Proof.
  intros v s R J. pose proof (reach_fits v s R) as F. pose proof (reach_kept v s R) as K.
  destruct (f_ended s F _ J) as [E X]. destruct (f_nil s F X) as [D L].
  assert (NB : ~ In Broken (hist s)).
  { intros B. destruct (f_broken s F B) as [Z|[Z|[Z|Z]]]; congruence. }
  split; [|split; [exact NB|]].
  - destruct (f_cancelled s F) as [A|B]; [apply (f_shut_cancelled s F); congruence|exact A|destruct (NB B)].
  - intros r [c B]. destruct (K r c B) as [O|[c' [d C]]]; [exact O|].
    rewrite (f_empty s F (or_intror D)) in C. destruct C.
Qed.

Lemma ends_failed : forall v s, runs v (start v) s -> In (Ended false) (hist s) -> In Broken (hist s).
Proof.
  intros v s R J. pose proof (reach_fits v s R) as F. destruct (f_ended s F _ J) as [_ X]. exact (f_not_nil s F X).
Qed.

Lemma ends_last : forall v s b l1 l2, runs v (start v) s -> hist s = l1 ++ Ended b :: l2 -> l1 = [] /\ forall w s', ~ step v w s s'.
Proof.
  intros v s b l1 l2 R H. pose proof (reach_fits v s R) as F.
  assert (J : In (Ended b) (hist s)) by (rewrite H; apply in_mid; now left).
  destruct (f_ended s F b J) as [E _]. split.
  - destruct (f_end s F E) as [b' [h [HE NI]]]. destruct l1 as [|e l1]; [reflexivity|].
    rewrite HE in H. injection H as _ H2. destruct (NI b). rewrite H2. apply in_mid. now left.
  - intros w s' ST. destruct ST; congruence.
Qed.

(** ** It can always go on *)

Definition stuck_any (s : process) : Prop := exists r, stuck s r.

(** a connection that the server can do something about: not one whose handler never ends *)
Lemma conns_cases : forall l : list (nat * conn), l = [] \/ (exists c r, In (c, Busy r Stuck) l) \/
  exists (l1 : list (nat * conn)) (c : nat) (k : conn) l2, l = l1 ++ (c, k) :: l2 /\ match k with Busy _ Stuck => False | _ => True end.
Proof.
  intros [|[c k] l]; [now left|right]. destruct k as [|r [| |]].
  - right. now exists [], c, Idle, l.
  - right. now exists [], c, (Busy r Works), l.
  - right. now exists [], c, (Busy r Waits), l.
  - left. exists c, r. now left.
Qed.

Lemma goes_on : forall v s, runs v (start v) s -> cancelled s = true -> ended s = false ->
  (forall r, ~ stuck s r) -> ~ jammed s -> exists s', step v Server s s'.
Proof.
  intros v s R C E NS NJ. unfold jammed in NJ. pose proof (reach_fits v s R) as F.
  destruct (shut s) as [|e|e|] eqn:SH.
  - eexists. now apply st_shutdown.
  - destruct (comp s) eqn:CO.
    + eexists. now apply st_tell.
    + destruct (conns_cases (conns s)) as [Z|[[c [r Z]]|[l1 [c [k [l2 [Z K]]]]]]].
      * eexists. eapply st_drained; eassumption.
      * destruct (NS r). now exists c.
      * destruct k as [|r [| |]]; [| | |destruct K].
        -- eexists. eapply st_close_idle; eassumption.
        -- eexists. eapply st_answer; eassumption.
        -- eexists. eapply st_told; try eassumption. unfold told. rewrite CO. destruct v; auto.
    + now destruct NJ.
    + destruct (conns_cases (conns s)) as [Z|[[c [r Z]]|[l1 [c [k [l2 [Z K]]]]]]].
      * eexists. eapply st_drained; eassumption.
      * destruct (NS r). now exists c.
      * destruct k as [|r [| |]]; [| | |destruct K].
        -- eexists. eapply st_close_idle; eassumption.
        -- eexists. eapply st_answer; eassumption.
        -- eexists. eapply st_told; try eassumption. unfold told. rewrite CO. destruct v; auto.
  - destruct (exec s) eqn:X.
    + eexists. apply st_listen; [assumption|assumption|]. apply (f_shut_lis s F). congruence.
    + eexists. eapply st_receive; eassumption.
    + destruct (comp s) eqn:CO.
      * eexists. now apply st_tell.
      * destruct (tasks s) eqn:T; eexists; [now apply st_comp_return|eapply st_task_end; eassumption].
      * now destruct NJ.
      * eexists. eapply st_end; eassumption.
  - destruct (exec s) eqn:X.
    + destruct (f_listens s F X SH).
    + destruct (f_waits s F X). congruence.
    + destruct (comp s) eqn:CO.
      * eexists. now apply st_tell.
      * destruct (tasks s) eqn:T; eexists; [now apply st_comp_return|eapply st_task_end; eassumption].
      * now destruct NJ.
      * eexists. eapply st_end; eassumption.
Qed.

(** ** And not for ever *)

Definition weight (k : conn) : nat :=
  match k with Idle => 3 | Busy _ Works => 2 | Busy _ Waits => 1 | Busy _ Stuck => 0 end.
Fixpoint weights (l : list (nat * conn)) : nat :=
  match l with [] => 0 | (_, k) :: l => weight k + weights l end.
Lemma weights_app : forall l1 l2, weights (l1 ++ l2) = weights l1 + weights l2.
Proof. induction l1 as [|[c k] l1 IH]; intros l2; cbn; [reflexivity|rewrite IH; lia]. Qed.

(** the steps that can still be taken once Shutdown has begun, other than signals *)
Definition left_to_do (s : process) : nat :=
  weights (conns s) + tasks s +
  match shut s with HWaits => 3 | HDrains _ => 2 | HHolds _ => 1 | HDone => 0 end +
  match exec s with XListens => 2 | XWaits => 1 | XReturned _ => 0 end +
  match comp s with KWaits => 2 | KTells => 1 | KJammed | KReturned => 0 end +
  (if ended s then 0 else 1).

Lemma less_to_do : forall v w s s', step v w s s' -> w <> Signal -> fits s -> In Closing (hist s) ->
  left_to_do s' < left_to_do s.
Proof.
  intros v w s s' ST W F CL. pose proof (proj1 (f_closing s F) CL) as SH.
  pose proof (f_shut_lis s F SH) as LI. pose proof (f_shut_cancelled s F SH) as CA.
  destruct ST; try congruence; unfold left_to_do, set_conns, after_answer; cbn [cancelled conns lis shut exec comp tasks ended hist];
    try (rewrite H0); try (rewrite H1); rewrite ?weights_app; cbn [weights weight];
    repeat match goal with |- context [match ?x with HWaits => [(_, Idle)] | _ => _ end] => destruct x; try congruence end;
    rewrite ?H, ?weights_app; cbn [weights weight app]; try lia.
  - destruct d; try congruence; cbn; lia.
  - destruct d; try congruence; cbn; lia.
  - rewrite CA. unfold after_listen. destruct (lis s); try congruence; lia.
Qed.

Lemma closing_stays : forall v w s s', step v w s s' -> In Closing (hist s) -> In Closing (hist s').
Proof. intros v w s s' ST C. destruct ST; unfold set_conns; cbn; auto. Qed.

Lemma soon : forall v n s s', path v n s s' -> fits s -> In Closing (hist s) ->
  n + left_to_do s' <= left_to_do s /\ fits s' /\ In Closing (hist s').
Proof.
  intros v n s s' P F C. induction P.
  - auto.
  - destruct (IHP F C) as [L [F2 C2]]. split; [|split; [exact (fits_step _ _ _ _ H F2)|exact (closing_stays _ _ _ _ H C2)]].
    enough (left_to_do s3 <= left_to_do s2) by lia.
    inversion H; subst; unfold left_to_do; cbn; lia.
  - destruct (IHP F C) as [L [F2 C2]]. split; [|split; [exact (fits_step _ _ _ _ H0 F2)|exact (closing_stays _ _ _ _ H0 C2)]].
    pose proof (less_to_do _ _ _ _ H0 H F2 C2). lia.
Qed.

Lemma stops_soon : forall v s, runs v (start v) s -> In Closing (hist s) ->
  exists bound, forall n s', path v n s s' -> n <= bound.
Proof.
  intros v s R C. exists (left_to_do s). intros n s' P.
  destruct (soon v n s s' P (reach_fits v s R) C) as [L _]. lia.
Qed.

(** ** A handler that never ends keeps it from ending *)

Lemma stuck_stays : forall v w s s' r, step v w s s' -> stuck s r -> stuck s' r.
Proof.
  intros v w s s' r ST [c J].
  destruct ST; unfold stuck, set_conns; cbn [conns]; try (exists c; exact J); exists c;
    try (now right);
    try (rewrite H0 in J; apply in_mid in J; destruct J as [J|J]; [congruence|]);
    try (rewrite H1 in J; apply in_mid in J; destruct J as [J|J]; [congruence|]);
    try (apply in_mid; now right); try exact J;
    apply in_app_iff in J; rewrite !in_app_iff; tauto.
Qed.

Record held (s : process) (r : nat) : Prop := {
  h_stuck : stuck s r;
  h_lis : lis s = LClosed;
  h_exec : exec s = XListens \/ exec s = XWaits;
  h_shut : exists e, shut s = HDrains e;
  h_cancelled : cancelled s = true;
  h_ended : ended s = false
}.

Lemma held_step : forall v w s s' r, step v w s s' -> held s r -> held s' r.
Proof.
  intros v w s s' r ST H. pose proof (stuck_stays _ _ _ _ _ ST (h_stuck _ _ H)) as SS.
  destruct H as [S L X [e D] C E].
  assert (NC : conns s <> []) by (destruct S as [c J]; intros Z; rewrite Z in J; destruct J).
  destruct ST; try congruence; try (destruct X; congruence);
    (constructor; cbn [cancelled lis shut exec ended set_conns]; [exact SS|assumption|try assumption|try (now exists e)|try assumption|try assumption]);
    try reflexivity.
  rewrite C, L. cbn. now right.
Qed.

Lemma held_runs : forall v s s' r, runs v s s' -> held s r -> held s' r.
Proof. intros v s s' r [n P] H. induction P; eauto using held_step. Qed.

Lemma hangs : forall v s s' r, runs v (start v) s -> stuck s r -> In Closing (hist s) -> ~ In Broken (hist s) ->
  runs v s s' -> (forall b, ~ In (Ended b) (hist s')) /\ stuck s' r.
Proof.
  intros v s s' r R S C NB R2. pose proof (reach_fits v s R) as F.
  pose proof (proj1 (f_closing s F) C) as SH. pose proof (f_shut_lis s F SH) as LO.
  assert (NC : conns s <> []) by (destruct S as [c J]; intros Z; rewrite Z in J; destruct J).
  assert (D : exists e, shut s = HDrains e).
  { destruct (shut s) as [|e|e|] eqn:Q; [congruence|now exists e| |]; destruct NC; apply (f_empty s F); [left; now exists e|now right]. }
  assert (L : lis s = LClosed).
  { destruct (lis s) eqn:Q; [congruence| |reflexivity]. destruct (NB (f_failed s F Q)). }
  assert (X : exec s = XListens \/ exec s = XWaits).
  { destruct (exec s) as [| |b] eqn:Q; auto. destruct D as [e D]. destruct b; [destruct (f_nil s F Q); congruence|].
    destruct (NB (f_not_nil s F Q)). }
  assert (E : ended s = false).
  { destruct (ended s) eqn:Q; [|reflexivity]. destruct (f_end s F Q) as [b [h [HE _]]].
    destruct (f_ended s F b) as [_ Y]; [rewrite HE; now left|]. destruct X; congruence. }
  assert (H : held s r).
  { constructor; auto. now apply (f_shut_cancelled s F). }
  pose proof (held_runs v s s' r R2 H) as H2. split; [|exact (h_stuck _ _ H2)].
  assert (F2 : fits s').
  { destruct R2 as [n P]. exact (proj1 (proj2 (soon v n s s' P F C))). }
  intros b J. destruct (f_ended s' F2 b J) as [Y _]. rewrite (h_ended _ _ H2) in Y. discriminate.
Qed.

Lemma runs_snoc : forall v w s1 s2 s3, runs v s1 s2 -> step v w s2 s3 -> runs v s1 s3.
Proof.
  intros v w s1 s2 s3 [n P] ST. destruct w; [exists (S n)|exists (S n)|exists n].
  - apply path_step with (s2 := s2) (w := Server); [exact P|discriminate|exact ST].
  - apply path_step with (s2 := s2) (w := World); [exact P|discriminate|exact ST].
  - eapply path_signal; [exact P|exact ST].
Qed.

Lemma stuck_dec : forall s, (exists r, stuck s r) \/ forall r, ~ stuck s r.
Proof.
  intros s. unfold stuck. induction (conns s) as [|[c k] l IH].
  - right. intros r [c []].
  - destruct IH as [[r [c' J]]|N]; [left; exists r, c'; now right|].
    destruct k as [|r [| |]]; try (right; intros r' [c' [J|J]]; [discriminate|destruct (N r'); now exists c']).
    left. exists r, c. now left.
Qed.

Lemma goes_on_seen : forall v s, runs v (start v) s -> In Asked (hist s) -> (forall b, ~ In (Ended b) (hist s)) ->
  (forall r, ~ stuck s r) -> ~ jammed s -> exists s', step v Server s s'.
Proof.
  intros v s R A NE NS NJ. pose proof (reach_fits v s R) as F. apply goes_on; auto.
  - exact (f_asked s F A).
  - destruct (ended s) eqn:E; [|reflexivity]. destruct (f_end s F E) as [b [h [HE _]]]. destruct (NE b). rewrite HE. now left.
Qed.

Lemma path_app : forall v n m s1 s2 s3, path v n s1 s2 -> path v m s2 s3 -> path v (m + n) s1 s3.
Proof. intros v n m s1 s2 s3 P Q. induction Q; cbn; eauto using path. Qed.

Lemma stops : forall v s, runs v (start v) s -> In Closing (hist s) ->
  exists bound, forall n s', path v n s s' -> n <= bound /\
    (at_rest v s' -> (exists b, In (Ended b) (hist s')) \/ (exists r, stuck s' r) \/ jammed s').
Proof.
  intros v s R C. pose proof (reach_fits v s R) as F. exists (left_to_do s). intros n s' P.
  destruct (soon v n s s' P F C) as [L [F' C']]. split; [lia|]. intros AR.
  destruct (stuck_dec s') as [Z|NS]; [right; now left|].
  assert (D : jammed s' \/ ~ jammed s') by (unfold jammed; destruct (comp s'); [right|right|now left|right]; discriminate).
  destruct D as [D|D]; [right; now right|left].
  destruct (ended s') eqn:E.
  - destruct (f_end s' F' E) as [b [h [HE _]]]. exists b. rewrite HE. now left.
  - exfalso. destruct (goes_on v s') as [s2 ST]; auto.
    + destruct R as [m R]. exists (n + m). exact (path_app _ _ _ _ _ _ R P).
    + apply (f_shut_cancelled s' F'). now apply (f_closing s' F').
    + pose proof (AR _ _ ST). discriminate.
Qed.

(** a component whose stop signal is not taken keeps it from ending *)
Lemma jammed_runs : forall v s s', runs v s s' -> jammed s -> jammed s'.
Proof.
  unfold jammed. intros v s s' [n P] J. induction P; [assumption| |]; specialize (IHP J);
    match goal with H : step _ _ _ _ |- _ => destruct H end; cbn [comp set_conns] in *; congruence.
Qed.

Lemma jams : forall v s s', runs v (start v) s -> jammed s -> runs v s s' -> forall b, ~ In (Ended b) (hist s').
Proof.
  intros v s s' [m R] J [n P] b E.
  assert (R2 : runs v (start v) s') by (exists (n + m); exact (path_app _ _ _ _ _ _ R P)).
  destruct (ends_settled v s' b R2 E) as [K _]. pose proof (jammed_runs v s s' (ex_intro _ n P) J) as X.
  unfold jammed in X. congruence.
Qed.

(** ** A process that breaks leaves requests without an answer; a request that hangs keeps the process *)

Ltac go := eapply runs_snoc.

Ltac fields := cbn [cancelled conns lis shut exec comp tasks ended hist set_conns after_answer app told after_listen].

Lemma broken_case : forall v, exists s r, runs v (start v) s /\ In (Ended false) (hist s) /\ begun (hist s) r /\ ~ over (hist s) r.
Proof.
  intros v. unfold begun, over.
  assert (P4 : runs v (start v) (mk true [(0, Busy 0 Works)] LFailed HWaits (XReturned false)
                (match v with Limiter => KReturned | _ => KWaits end) 0 false [Broken; Begun 0 0; Opened 0])).
  { go; [|apply (st_strict v (mk false [(0, Busy 0 Works)] LFailed HWaits (XReturned false)
            (match v with Limiter => KReturned | _ => KWaits end) 0 false [Broken; Begun 0 0; Opened 0]) false); reflexivity].
    go; [|apply (st_listen v (mk false [(0, Busy 0 Works)] LFailed HWaits XListens
            (match v with Limiter => KReturned | _ => KWaits end) 0 false [Broken; Begun 0 0; Opened 0])); [reflexivity|reflexivity|discriminate]].
    go; [|apply (st_break v (mk false [(0, Busy 0 Works)] LOpen HWaits XListens
            (match v with Limiter => KReturned | _ => KWaits end) 0 false [Begun 0 0; Opened 0])); reflexivity].
    go; [|apply (st_begin v (set_conns (start v) [(0, Idle)] [Opened 0]) [] [] 0 0 Works); [reflexivity|reflexivity|discriminate|]].
    2:{ cbn. intros c [J|[]]. discriminate. }
    go; [|apply (st_open v (start v) 0); [reflexivity|reflexivity|]]; [exists 0; apply path_nil|cbn; tauto]. }
  rename P4 into P.
  assert (P5 : runs v (start v) (mk true [(0, Busy 0 Works)] LFailed HWaits (XReturned false) KReturned 0 false
                 [Broken; Begun 0 0; Opened 0])).
  { destruct v; cbn in P |- *; try exact P;
      (go; [go; [exact P|]|]; [apply st_tell; reflexivity|apply st_comp_return; reflexivity]). }
  rename P5 into Q.
  eexists. exists 0. split; [|split; [|split]].
  - go; [exact Q|]. apply st_end with (b := false); reflexivity.
  - fields. now left.
  - fields. exists 0. cbn. tauto.
  - fields. cbn. intros [J|J]; intuition congruence.
Qed.

Lemma hang_case : forall v, exists s r, runs v (start v) s /\ In Asked (hist s) /\ ~ In Broken (hist s) /\ begun (hist s) r /\
  forall s', runs v s s' -> (forall b, ~ In (Ended b) (hist s')).
Proof.
  intros v.
  assert (P : runs v (start v) (mk true [(0, Busy 0 Stuck)] LClosed (HDrains false) XListens
                (match v with Limiter => KReturned | _ => KWaits end) 0 false [Closing; Asked; Begun 0 0; Opened 0])).
  { go; [|apply (st_shutdown v (mk true [(0, Busy 0 Stuck)] LOpen HWaits XListens
                (match v with Limiter => KReturned | _ => KWaits end) 0 false [Asked; Begun 0 0; Opened 0])); reflexivity].
    go; [|apply (st_signal v (mk false [(0, Busy 0 Stuck)] LOpen HWaits XListens
                (match v with Limiter => KReturned | _ => KWaits end) 0 false [Begun 0 0; Opened 0])); reflexivity].
    go; [|apply (st_stick v (mk false [(0, Busy 0 Works)] LOpen HWaits XListens
            (match v with Limiter => KReturned | _ => KWaits end) 0 false [Begun 0 0; Opened 0]) [] [] 0 0 Works); [reflexivity|reflexivity|discriminate]].
    go; [|apply (st_begin v (set_conns (start v) [(0, Idle)] [Opened 0]) [] [] 0 0 Works); [reflexivity|reflexivity|discriminate|]].
    2:{ cbn. intros c [J|[]]. discriminate. }
    go; [|apply (st_open v (start v) 0); [reflexivity|reflexivity|]]; [exists 0; apply path_nil|cbn; tauto]. }
  eexists. exists 0. split; [exact P|]. split; [cbn; tauto|]. split; [cbn; intuition congruence|].
  split; [exists 0; cbn; tauto|]. intros s' R.
  refine (proj1 (hangs v _ s' 0 P _ _ _ R)); cbn; [|tauto|intuition congruence].
  exists 0. now left.
Qed.
