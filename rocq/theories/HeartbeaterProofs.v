(** Proofs about the heartbeater (C31). *)
From Coq Require Import List Bool Arith Lia.
From Verif Require Import DestroySync Heartbeater SpecHeartbeater.
Import ListNotations.

Section Proofs.
Variable timeout : nat.

Lemma call_same f i x : set_call f i x i = x. Proof. unfold set_call. rewrite Nat.eqb_refl. reflexivity. Qed.
Lemma call_other f i x j : j <> i -> set_call f i x j = f j.
Proof. intros H. unfold set_call. apply Nat.eqb_neq in H. rewrite H. reflexivity. Qed.

Record hb_inv (tr : list (nat * hb_event)) (st : hb_state) : Prop := {
  hi_times : forall e, In e tr -> fst e <= hb_now st;
  hi_live : ended tr = false <-> (match hb_ph st with HInit | HRun _ _ => True | _ => False end);
  hi_once : length (filter is_end tr) <= 1;
  hi_starts : length (filter is_started tr) <= (if hb_started st then 1 else 0);
  hi_init : hb_ph st = HInit -> filter is_started tr = [];
  hi_asked : hb_started st = true -> exists t j, In (t, HAsk j) tr;
  hi_pstart : forall i, hb_calls st i = PStart -> filter is_started tr = [] /\ hb_started st = true;
  hi_pone : forall i j, hb_calls st i = PStart -> hb_calls st j = PStart -> i = j;
  hi_run : forall next tick, hb_ph st = HRun next tick ->
     (exists after e before, tr = after ++ e :: before /\ is_reset e = true /\ (fst e + timeout <= next /\ (tick = false -> next = fst e + timeout)) /\
        forall e', In e' after -> is_reset e' = false) /\
     (exists t j, In (t, HStart j true) tr) /\
     (tick = true -> silent_for timeout tr (hb_now st)) }.

Lemma filter_cons_one {A} (f : A -> bool) x l : f x = true -> filter f l = [] -> length (filter f (x :: l)) <= 1.
Proof. cbn. intros -> ->. cbn. lia. Qed.
Lemma ended_none tr : ended tr = false -> filter is_end tr = [].
Proof. unfold ended. induction tr as [|e r IH]; cbn; [reflexivity|]. destruct (is_end e); cbn; [discriminate|exact IH]. Qed.

Lemma silent_later d tr n n' : silent_for d tr n -> n <= n' -> silent_for d tr n'.
Proof. intros (a & e & b & H1 & H2 & H3 & H4) HL. exists a, e, b. repeat split; auto. lia. Qed.
Lemma silent_push d tr n e : silent_for d tr n -> (is_reset e = true -> n <= fst e) -> silent_for d (e :: tr) n.
Proof.
  intros (a & x & b & -> & H2 & H3 & H4) HL. exists (e :: a), x, b. split; [reflexivity|]. split; [exact H2|]. split; [exact H3|].
  intros e' [<- | HI] HR; [|auto]. specialize (HL HR). lia.
Qed.

Lemma hb_exec_inv tr st : hb_exec timeout tr st -> hb_inv tr st.
Proof.
  induction 1 as [|tr st e st' _ IH HS].
  - split; cbn; try tauto; try discriminate; auto.
  - destruct IH as [I1 I2 I3 I4 I5 I6 I7 I8 I9].
    assert (PU : forall e', e = Some e' -> is_reset (hb_now st, e') = false -> forall nx tk,
      ((exists after x before, tr = after ++ x :: before /\ is_reset x = true /\ (fst x + timeout <= nx /\ (tk = false -> nx = fst x + timeout)) /\
        forall e', In e' after -> is_reset e' = false) /\
     (exists t j, In (t, HStart j true) tr) /\ (tk = true -> silent_for timeout tr (hb_now st))) ->
      ((exists after x before, (hb_now st, e') :: tr = after ++ x :: before /\ is_reset x = true /\ (fst x + timeout <= nx /\ (tk = false -> nx = fst x + timeout)) /\
        forall e', In e' after -> is_reset e' = false) /\
     (exists t j, In (t, HStart j true) ((hb_now st, e') :: tr)) /\ (tk = true -> silent_for timeout ((hb_now st, e') :: tr) (hb_now st)))).
    { intros e' _ NR nx tk ((a & x & b & -> & H2 & H3 & H4) & (t & j & H5) & H6). split; [|split].
      - exists ((hb_now st, e') :: a), x, b. split; [reflexivity|]. split; [exact H2|]. split; [exact H3|]. intros y [<- | Hy]; auto.
      - exists t, j. right. exact H5.
      - intros HT. apply silent_push; [apply H6; exact HT|]. intros C. congruence. }
    assert (AT : forall e', e = Some e' -> forall x, In x ((hb_now st, e') :: tr) -> fst x <= hb_now st).
    { intros e' _ x [<- | Hx]; cbn; auto. }
    destruct HS; cbn [hb_now hb_ph hb_started hb_down hb_calls push] in *.
    + (* time *) split; cbn [hb_now hb_ph hb_started hb_down hb_calls]; auto.
      * intros x Hx. specialize (I1 x Hx). lia.
      * intros nx tk E. destruct (I9 nx tk E) as (H1 & H2 & H3). split; [exact H1|]. split; [exact H2|]. intros HT. eapply silent_later; [apply H3; exact HT|lia].
    + (* cancel *) split; cbn [hb_now hb_ph hb_started hb_down hb_calls]; auto.
    + (* fire *) split; cbn [hb_now hb_ph hb_started hb_down hb_calls]; auto; try discriminate.
      * intros nx tk [= <- <-]. destruct (I9 next tick eq_refl) as ((a & x & b & H1 & H2 & (H3 & H3') & H4) & H5 & H6). split; [|split].
        -- exists a, x, b. split; [exact H1|]. split; [exact H2|]. split; [split; [lia|discriminate]|]. exact H4.
        -- exact H5.
        -- intros _. exists a, x, b. split; [exact H1|]. split; [exact H2|]. split; [lia|]. intros y Hy HR. rewrite (H4 y Hy) in HR. discriminate.
    + (* start called *)
      split; cbn [hb_now hb_ph hb_started hb_down hb_calls]; try (apply (AT _ eq_refl)).
      * exact I2.
      * exact I3.
      * cbn. cbn in I4. lia.
      * exact I5.
      * intros _. exists n, i. left. reflexivity.
      * intros j Hj. cbn. split; [|reflexivity]. cbn in I4. destruct (filter is_started tr); [reflexivity|cbn in I4; lia].
      * intros a b Ha Hb. destruct (Nat.eq_dec a i) as [->|NA]; destruct (Nat.eq_dec b i) as [->|NB]; auto;
          rewrite ?call_same, ?call_other in * by auto; exfalso.
        -- destruct (I7 b Hb). discriminate.
        -- destruct (I7 a Ha). discriminate.
        -- destruct (I7 a Ha). discriminate.
      * intros nx tk E. apply (PU _ eq_refl eq_refl). apply I9. exact E.
    + (* start called again *)
      split; cbn [hb_now hb_ph hb_started hb_down hb_calls]; try (apply (AT _ eq_refl)); auto.
      * intros _. destruct (I6 eq_refl) as (t & j & H6). exists t, j. right. exact H6.
    + (* start after the end *)
      split; cbn [hb_now hb_ph hb_started hb_down hb_calls]; try (apply (AT _ eq_refl)); auto.
      * intros E. destruct (I6 E) as (t & j & H6). exists t, j. right. exact H6.
      * intros j Hj. destruct (Nat.eq_dec j i) as [->|NJ]; rewrite ?call_same, ?call_other in Hj by auto; [discriminate|]. apply (I7 j Hj).
      * intros a b Ha Hb. destruct (Nat.eq_dec a i) as [->|NA]; destruct (Nat.eq_dec b i) as [->|NB]; rewrite ?call_same, ?call_other in * by auto; auto; discriminate.
    + (* started *)
      destruct (I7 i H) as [NS ->].
      split; cbn [hb_now hb_ph hb_started hb_down hb_calls]; try (apply (AT _ eq_refl)); auto.
      * cbn. rewrite NS. cbn. lia.
      * discriminate.
      * intros E. destruct (I6 E) as (t & j & H6). exists t, j. right. exact H6.
      * intros j Hj. exfalso. destruct (Nat.eq_dec j i) as [->|NJ]; rewrite ?call_same, ?call_other in Hj by auto; [discriminate|]. apply NJ. apply I8; auto.
      * intros a b Ha Hb. destruct (Nat.eq_dec a i) as [->|NA]; destruct (Nat.eq_dec b i) as [->|NB]; rewrite ?call_same, ?call_other in * by auto; auto; discriminate.
      * intros nx tk [= <- <-]. split; [|split].
        -- exists [], (n, HStart i true), tr. split; [reflexivity|]. split; [reflexivity|]. split; [split; [cbn; lia|reflexivity]|]. intros ? [].
        -- exists n, i. left. reflexivity.
        -- discriminate.
    + (* stop called *)
      split; cbn [hb_now hb_ph hb_started hb_down hb_calls]; auto.
      * intros j Hj. destruct (Nat.eq_dec j i) as [->|NJ]; rewrite ?call_same, ?call_other in Hj by auto; [discriminate|]. apply (I7 j Hj).
      * intros a b Ha Hb. destruct (Nat.eq_dec a i) as [->|NA]; destruct (Nat.eq_dec b i) as [->|NB]; rewrite ?call_same, ?call_other in * by auto; auto; discriminate.
    + (* stop after the end *)
      split; cbn [hb_now hb_ph hb_started hb_down hb_calls]; try (apply (AT _ eq_refl)); auto.
      * intros E. destruct (I6 E) as (t & j & H6). exists t, j. right. exact H6.
      * intros j Hj. destruct (Nat.eq_dec j i) as [->|NJ]; rewrite ?call_same, ?call_other in Hj by auto; [discriminate|]. apply (I7 j Hj).
      * intros a b Ha Hb. destruct (Nat.eq_dec a i) as [->|NA]; destruct (Nat.eq_dec b i) as [->|NB]; rewrite ?call_same, ?call_other in * by auto; auto; discriminate.
    + (* stopped before the start *)
      assert (NE : ended tr = false) by (apply I2; exact I).
      split; cbn [hb_now hb_ph hb_started hb_down hb_calls]; try (apply (AT _ eq_refl)); auto; try discriminate.
      * cbn. split; [discriminate|tauto].
      * apply filter_cons_one; [reflexivity|apply ended_none; exact NE].
      * intros E. destruct (I6 E) as (t & j & H6). exists t, j. right. exact H6.
      * intros j Hj. destruct (Nat.eq_dec j i) as [->|NJ]; rewrite ?call_same, ?call_other in Hj by auto; [discriminate|]. apply (I7 j Hj).
      * intros a b Ha Hb. destruct (Nat.eq_dec a i) as [->|NA]; destruct (Nat.eq_dec b i) as [->|NB]; rewrite ?call_same, ?call_other in * by auto; auto; discriminate.
    + (* stopped *)
      assert (NE : ended tr = false) by (apply I2; exact I).
      split; cbn [hb_now hb_ph hb_started hb_down hb_calls]; try (apply (AT _ eq_refl)); auto; try discriminate.
      * cbn. split; [discriminate|tauto].
      * apply filter_cons_one; [reflexivity|apply ended_none; exact NE].
      * intros E. destruct (I6 E) as (t & j & H6). exists t, j. right. exact H6.
      * intros j Hj. destruct (Nat.eq_dec j i) as [->|NJ]; rewrite ?call_same, ?call_other in Hj by auto; [discriminate|]. apply (I7 j Hj).
      * intros a b Ha Hb. destruct (Nat.eq_dec a i) as [->|NA]; destruct (Nat.eq_dec b i) as [->|NB]; rewrite ?call_same, ?call_other in * by auto; auto; discriminate.
    + (* heartbeat called *)
      split; cbn [hb_now hb_ph hb_started hb_down hb_calls]; auto.
      * intros j Hj. destruct (Nat.eq_dec j i) as [->|NJ]; rewrite ?call_same, ?call_other in Hj by auto; [discriminate|]. apply (I7 j Hj).
      * intros a b Ha Hb. destruct (Nat.eq_dec a i) as [->|NA]; destruct (Nat.eq_dec b i) as [->|NB]; rewrite ?call_same, ?call_other in * by auto; auto; discriminate.
    + (* heartbeat after the end *)
      split; cbn [hb_now hb_ph hb_started hb_down hb_calls]; try (apply (AT _ eq_refl)); auto; try discriminate.
      * intros E. destruct (I6 E) as (t & j & H6). exists t, j. right. exact H6.
      * intros j Hj. destruct (Nat.eq_dec j i) as [->|NJ]; rewrite ?call_same, ?call_other in Hj by auto; [discriminate|]. apply (I7 j Hj).
      * intros a b Ha Hb. destruct (Nat.eq_dec a i) as [->|NA]; destruct (Nat.eq_dec b i) as [->|NB]; rewrite ?call_same, ?call_other in * by auto; auto; discriminate.
    + (* heartbeat *)
      destruct (I9 next tick eq_refl) as (_ & (t & k & HK) & HT).
      split; cbn [hb_now hb_ph hb_started hb_down hb_calls]; try (apply (AT _ eq_refl)); auto; try discriminate.
      * intros E. destruct (I6 E) as (t' & j & H6). exists t', j. right. exact H6.
      * intros j Hj. destruct (Nat.eq_dec j i) as [->|NJ]; rewrite ?call_same, ?call_other in Hj by auto; [discriminate|]. apply (I7 j Hj).
      * intros a b Ha Hb. destruct (Nat.eq_dec a i) as [->|NA]; destruct (Nat.eq_dec b i) as [->|NB]; rewrite ?call_same, ?call_other in * by auto; auto; discriminate.
      * intros nx tk [= <- <-]. split; [|split].
        -- exists [], (n, HBeat i true), tr. split; [reflexivity|]. split; [reflexivity|]. split; [split; [cbn; lia|reflexivity]|]. intros ? [].
        -- exists t, k. right. exact HK.
        -- intros ET. apply silent_push; [apply HT; exact ET|]. cbn. lia.
    + (* shutdown *)
      assert (NE : ended tr = false) by (apply I2; exact I).
      split; cbn [hb_now hb_ph hb_started hb_down hb_calls]; try (apply (AT _ eq_refl)); auto; try discriminate.
      * cbn. split; [discriminate|tauto].
      * apply filter_cons_one; [reflexivity|apply ended_none; exact NE].
      * intros E. destruct (I6 E) as (t & j & H6). exists t, j. right. exact H6.
    + (* timeout *)
      assert (NE : ended tr = false) by (apply I2; exact I).
      split; cbn [hb_now hb_ph hb_started hb_down hb_calls]; try (apply (AT _ eq_refl)); auto; try discriminate.
      * cbn. split; [discriminate|tauto].
      * apply filter_cons_one; [reflexivity|apply ended_none; exact NE].
      * intros E. destruct (I6 E) as (t & j & H6). exists t, j. right. exact H6.
    + (* close *)
      split; cbn [hb_now hb_ph hb_started hb_down hb_calls]; auto; try discriminate.
Qed.

Lemma hb_last t e tr st : hb_exec timeout ((t, e) :: tr) st ->
  exists st0 st1, hb_exec timeout tr st0 /\ hb_step timeout st0 (Some e) st1 /\ t = hb_now st0.
Proof.
  intros H. remember ((t, e) :: tr) as tr' eqn:ET. revert t e tr ET. induction H as [|tr0 s o s' H IH HS]; intros t e tr ET; [discriminate|].
  destruct o as [e'|]; cbn in ET; [|eauto]. injection ET as <- <- <-. eauto 6.
Qed.

Lemma c31_once tr st : hb_exec timeout tr st -> length (filter is_end tr) <= 1 /\ length (filter is_started tr) <= 1.
Proof. intros H. apply hb_exec_inv in H. split; [apply (hi_once _ _ H)|]. pose proof (hi_starts _ _ H). destruct (hb_started st); lia. Qed.

Lemma c31_answers tr st t i : 
  (hb_exec timeout ((t, HBeat i true) :: tr) st -> ended tr = false /\ exists t' j, In (t', HStart j true) tr) /\
  (hb_exec timeout ((t, HBeat i false) :: tr) st -> ended tr = true) /\
  (hb_exec timeout ((t, HStop i false) :: tr) st -> ended tr = true) /\
  (hb_exec timeout ((t, HStart i true) :: tr) st -> ended tr = false) /\
  (hb_exec timeout ((t, HStart i false) :: tr) st -> ended tr = true \/ exists t' j, In (t', HAsk j) tr).
Proof.
  refine (conj _ (conj _ (conj _ (conj _ _)))); intros H; [split| | | |]; apply hb_last in H as (s0 & s1 & H & HS & _); apply hb_exec_inv in H; inversion HS; subst;
    try (apply (hi_live _ _ H); exact I);
    try (destruct (hi_run _ _ H _ _ eq_refl) as (_ & X & _); exact X);
    try (destruct (ended tr) eqn:EE; [reflexivity|]; apply (hi_live _ _ H) in EE; destruct EE).
  - right. apply (hi_asked _ _ H). reflexivity.
  - left. destruct (ended tr) eqn:EE; [reflexivity|]. apply (hi_live _ _ H) in EE. destruct EE.
Qed.

Lemma c31_timeout t tr st : hb_exec timeout ((t, HTimeout) :: tr) st -> silent_for timeout tr t.
Proof.
  intros H. apply hb_last in H as (s0 & s1 & H & HS & ->). apply hb_exec_inv in H. inversion HS; subst.
  destruct (hi_run _ _ H _ _ eq_refl) as (_ & _ & X). apply X. reflexivity.
Qed.

(** No call hangs: while it has not ended it can be stopped, and afterwards every call returns false. *)
Lemma c31_stop tr st i : hb_exec timeout tr st -> ended tr = false -> hb_calls st i = PStop ->
  exists st', hb_exec timeout ((hb_now st, HStop i true) :: tr) st'.
Proof.
  intros H E C. pose proof (hb_exec_inv _ _ H) as HI. apply (hi_live _ _ HI) in E. destruct st as [n ph s w c]. cbn in *.
  destruct ph; try contradiction; eexists; apply (BE_step timeout tr _ (Some (HStop i true)) _ H); constructor; exact C.
Qed.
Lemma c31_returns tr st i : hb_exec timeout tr st -> ended tr = true -> hb_calls st i <> NoCall ->
  exists st' e, hb_exec timeout ((hb_now st, e) :: tr) st' /\
    e = match hb_calls st i with PStart => HStart i false | PStop => HStop i false | _ => HBeat i false end.
Proof.
  intros H E C. pose proof (hb_exec_inv _ _ H) as HI.
  assert (X : exists s w, hb_exec timeout tr (mkHb (hb_now st) HDone s w (hb_calls st))).
  { destruct st as [n ph s w c]. cbn in *. destruct ph.
    - assert (ended tr = false) by (apply (hi_live _ _ HI); exact I). congruence.
    - assert (ended tr = false) by (apply (hi_live _ _ HI); exact I). congruence.
    - exists s, w. apply (BE_step timeout tr _ None _ H). constructor.
    - exists s, w. exact H. }
  destruct X as (s & w & X). clear H HI. destruct (hb_calls st i) eqn:EC; [congruence| | |]; eexists; eexists; (split; [|reflexivity]).
  - apply (BE_step timeout tr _ (Some (HStart i false)) _ X). apply B_start_done. exact EC.
  - apply (BE_step timeout tr _ (Some (HStop i false)) _ X). apply B_stop_done. exact EC.
  - apply (BE_step timeout tr _ (Some (HBeat i false)) _ X). apply B_beat_done. exact EC.
Qed.

(** A heartbeat accepted after the tick was buffered does not save the holder *)
Lemma c31_late : exists st, hb_exec timeout [(timeout, HTimeout); (timeout, HBeat 1 true); (0, HStart 0 true); (0, HAsk 0)] st.
Proof.
  pose proof (BE_init timeout) as H. unfold hb_init in H.
  apply (fun h => BE_step timeout _ _ _ _ h (B_start_call timeout _ _ _ _ 0 eq_refl)) in H.
  apply (fun h => BE_step timeout _ _ _ _ h (B_start timeout _ _ _ _ 0 eq_refl)) in H.
  apply (fun h => BE_step timeout _ _ _ _ h (B_time timeout _ timeout _ _ _ _)) in H.
  apply (fun h => BE_step timeout _ _ _ _ h (B_fire timeout _ _ _ _ _ _ (le_n (0 + timeout)))) in H.
  apply (fun h => BE_step timeout _ _ _ _ h (B_beat_call timeout _ _ _ _ _ 1 eq_refl)) in H.
  apply (fun h => BE_step timeout _ _ _ _ h (B_beat timeout _ _ _ _ _ _ 1 eq_refl)) in H.
  apply (fun h => BE_step timeout _ _ _ _ h (B_timeout timeout _ _ _ _ _)) in H.
  eexists. exact H.
Qed.

(** The shutdown callback needs a cancelled context, and with one it can come *)
Lemma c31_shutdown tr st st' : hb_exec timeout tr st -> hb_step timeout st (Some HShutdown) st' ->
  hb_down st = true /\ ended tr = false /\ exists t i, In (t, HStart i true) tr.
Proof.
  intros H ST. pose proof (hb_exec_inv _ _ H) as HI.
  assert (X : exists next tick, hb_ph st = HRun next tick) by (inversion ST; subst; cbn; eauto).
  split; [inversion ST; subst; reflexivity|]. destruct X as (next & tick & X). split.
  - apply (hi_live _ _ HI). now rewrite X.
  - exact (proj1 (proj2 (hi_run _ _ HI _ _ X))).
Qed.

Lemma c31_can_shutdown tr st t i : hb_exec timeout tr st -> In (t, HStart i true) tr -> ended tr = false -> hb_down st = true ->
  exists st', hb_step timeout st (Some HShutdown) st'.
Proof.
  intros H J E D. pose proof (hb_exec_inv _ _ H) as HI. destruct st as [n ph s w c]. cbn in D. subst w.
  assert (X : exists next tick, ph = HRun next tick).
  { pose proof (proj1 (hi_live _ _ HI) E) as L. cbn in L. destruct ph as [|next tick| |]; try tauto; [|eauto].
    pose proof (hi_init _ _ HI eq_refl) as F. assert (Z : In (t, HStart i true) (filter is_started tr)) by (apply filter_In; auto).
    rewrite F in Z. destruct Z. }
  destruct X as (next & tick & ->). eexists. apply B_shutdown.
Qed.
End Proofs.
