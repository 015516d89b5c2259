(** Proofs about DestroySync (C26). *)
From Coq Require Import List Bool Arith Lia.
From Verif Require Import DestroySync SpecDestroySync.
Import ListNotations.

Definition winner (x : sync_thread) : Prop := match x with SWon | SPending | SDestroying | SReleased => True | _ => False end.

Record sync_inv (tr : list sync_event) (st : sync_state) : Prop := {
  si_readers : exists L, NoDup L /\ length L = sy_readers st /\ forall j, In j L <-> sy_thread st j = SOp;
  si_running : forall j, running tr j = true <-> sy_thread st j = SOp;
  si_in : forall j, in_destroy tr j = true <-> winner (sy_thread st j);
  si_unique : forall i j, winner (sy_thread st i) -> winner (sy_thread st j) -> i = j;
  si_flag : sy_flag st = true <-> exists j, winner (sy_thread st j);
  si_pending : sy_writer st = WPending <-> exists j, sy_thread st j = SPending;
  si_held : sy_writer st = WHeld <-> exists j, sy_thread st j = SDestroying;
  si_excl : sy_writer st = WHeld -> sy_readers st = 0;
  si_destroyer : forall i, destroyer tr = Some i <-> sy_thread st i = SDestroying;
  si_waiting : forall j, waiting tr j = true <-> sy_thread st j = SWon \/ sy_thread st j = SPending }.

Lemma set_same f i x : set_thread f i x i = x. Proof. unfold set_thread. rewrite Nat.eqb_refl. reflexivity. Qed.
Lemma set_other f i x j : j <> i -> set_thread f i x j = f j.
Proof. intros H. unfold set_thread. apply Nat.eqb_neq in H. rewrite H. reflexivity. Qed.

Ltac thread j i := destruct (Nat.eq_dec j i) as [-> | ?]; [rewrite ?set_same | rewrite ?set_other by assumption].

Lemma sync_exec_inv tr st : sync_exec tr st -> sync_inv tr st.
Proof.
  induction 1 as [|tr st e st' _ IH HS].
  - split; cbn; try (intros; split; intros; try discriminate; try contradiction; fail); try (intros; contradiction).
    + exists []. split; [constructor|]. split; [reflexivity|]. intros; split; [intros [] | discriminate].
    + split; [discriminate | intros [j []]].
    + split; [discriminate | intros [j C]; discriminate].
    + split; [discriminate | intros [j C]; discriminate].
    + intros j. split; [discriminate|intros [C|C]; discriminate].
  - destruct IH as [R1 R2 R3 R4 R5 R6 R7 R8 R9 R10].
    destruct HS as [r fl th i E | r w fl th i E NW | r w fl th i E | r w th i E | r w th i E | r fl th i E | w fl th i E | r w fl th i E | r w fl th i E];
      cbn [sy_readers sy_writer sy_flag sy_thread push running in_destroy destroyer waiting] in *.
    + (* guard ok *)
      assert (K : forall x, (exists j, set_thread th i SOp j = x) -> x <> SOp -> exists j, th j = x).
      { intros x [j Hj] NE. exists j. revert Hj. thread j i; congruence. }
      assert (K' : forall x, (exists j, th j = x) -> x <> SIdle -> exists j, set_thread th i SOp j = x).
      { intros x [j Hj] NE. exists j. thread j i; congruence. }
      split; cbn [sy_readers sy_writer sy_flag sy_thread running in_destroy destroyer waiting].
      * destruct R1 as (L & ND & HL & HI). exists (i :: L). split; [constructor; [rewrite HI; congruence|exact ND]|].
        split; [cbn; congruence|]. intros j. thread j i.
        -- split; [auto | left; reflexivity].
        -- rewrite <- HI. split; [intros [C | C]; [congruence|exact C] | right; assumption].
      * intros j. thread j i; [rewrite Nat.eqb_refl; tauto|]. destruct (Nat.eqb_spec i j); [congruence|]. apply R2.
      * intros j. rewrite R3. thread j i; [rewrite E; cbn; tauto|tauto].
      * intros a b. thread a i; thread b i; cbn; try tauto. apply R4.
      * rewrite R5. split; intros [j Hj].
        -- exists j. thread j i; [rewrite E in Hj; destruct Hj|exact Hj].
        -- exists j. revert Hj. thread j i; [intros []|auto].
      * split; [discriminate|]. intros HX. apply K in HX; [|discriminate]. apply R6 in HX. discriminate.
      * split; [discriminate|]. intros HX. apply K in HX; [|discriminate]. apply R7 in HX. discriminate.
      * discriminate.
      * intros j. rewrite R9. thread j i; [rewrite E; split; discriminate|tauto].
      * intros j. pose proof (R10 j) as HW. thread j i; rewrite ?Nat.eqb_refl; repeat match goal with |- context [Nat.eqb ?a ?b] => destruct (Nat.eqb_spec a b); [congruence|] end; try tauto; rewrite E in HW; intuition congruence.
    + (* guard refused *) split; cbn [sy_readers sy_writer sy_flag sy_thread running in_destroy destroyer waiting]; auto.
    + (* clear *)
      assert (K : forall x, x <> SOp -> x <> SIdle -> (exists j, set_thread th i SIdle j = x) <-> exists j, th j = x).
      { intros x N1 N2. split; intros [j Hj]; exists j; revert Hj; thread j i; congruence. }
      split; cbn [sy_readers sy_writer sy_flag sy_thread running in_destroy destroyer waiting].
      * destruct R1 as (L & ND & HL & HI). exists (remove Nat.eq_dec i L).
        assert (HI' : In i L) by (apply HI; exact E).
        split; [|split].
        -- clear - ND. induction ND as [|x l Hx ND IH]; cbn; [constructor|]. destruct (Nat.eq_dec i x); [exact IH|].
           constructor; [|exact IH]. intros C. apply in_remove in C as [C _]. contradiction.
        -- rewrite <- HL. clear - ND HI'. induction ND as [|x l Hx ND IH]; cbn; [destruct HI'|]. destruct (Nat.eq_dec i x) as [-> | NE].
           ++ rewrite notin_remove by exact Hx. lia.
           ++ destruct HI' as [-> | HI']; [congruence|]. cbn. rewrite IH by exact HI'. destruct l; [destruct HI'|cbn; lia].
        -- intros j. thread j i.
           ++ split; [intros C; exfalso; revert C; apply remove_In | discriminate].
           ++ rewrite <- HI. split; [intros C; apply in_remove in C; tauto | intros C; apply in_in_remove; auto].
      * intros j. thread j i; [rewrite Nat.eqb_refl; split; discriminate|]. destruct (Nat.eqb_spec i j); [congruence|]. apply R2.
      * intros j. rewrite R3. thread j i; [rewrite E; cbn; tauto|tauto].
      * intros a b. thread a i; thread b i; cbn; try tauto. apply R4.
      * rewrite R5. split; intros [j Hj].
        -- exists j. thread j i; [rewrite E in Hj; destruct Hj|exact Hj].
        -- exists j. revert Hj. thread j i; [intros []|auto].
      * rewrite K by discriminate. exact R6.
      * rewrite K by discriminate. exact R7.
      * intros HX. rewrite (R8 HX). reflexivity.
      * intros j. rewrite R9. thread j i; [rewrite E; split; discriminate|tauto].
      * intros j. pose proof (R10 j) as HW. thread j i; rewrite ?Nat.eqb_refl; repeat match goal with |- context [Nat.eqb ?a ?b] => destruct (Nat.eqb_spec a b); [congruence|] end; try tauto; rewrite E in HW; intuition congruence.
    + (* flag taken *) split; cbn [sy_readers sy_writer sy_flag sy_thread running in_destroy destroyer waiting]; auto.
    + (* flag won *)
      assert (NW : forall j, ~ winner (th j)) by (intros j C; assert (false = true) by (apply R5; eauto); discriminate).
      assert (K : forall x, x <> SWon -> x <> SIdle -> (exists j, set_thread th i SWon j = x) <-> exists j, th j = x).
      { intros x N1 N2. split; intros [j Hj]; exists j; revert Hj; thread j i; congruence. }
      split; cbn [sy_readers sy_writer sy_flag sy_thread running in_destroy destroyer waiting].
      * destruct R1 as (L & ND & HL & HI). exists L. split; [exact ND|]. split; [exact HL|]. intros j. rewrite HI. thread j i; [rewrite E; split; discriminate|tauto].
      * intros j. rewrite R2. thread j i; [rewrite E; split; discriminate|tauto].
      * intros j. thread j i; [rewrite Nat.eqb_refl; cbn; tauto|]. destruct (Nat.eqb_spec i j); [congruence|]. apply R3.
      * intros a b. thread a i; thread b i; cbn; auto; intros HA HB; exfalso; try (eapply NW; eassumption).
      * split; [|reflexivity]. intros _. exists i. rewrite set_same. exact I.
      * rewrite K by discriminate. exact R6.
      * rewrite K by discriminate. exact R7.
      * exact R8.
      * intros j. rewrite R9. thread j i; [rewrite E; split; discriminate|tauto].
      * intros j. pose proof (R10 j) as HW. thread j i; rewrite ?Nat.eqb_refl; repeat match goal with |- context [Nat.eqb ?a ?b] => destruct (Nat.eqb_spec a b); [congruence|] end; try tauto; rewrite E in HW; intuition congruence.
    + (* announce *)
      assert (UQ : forall j, winner (th j) -> j = i) by (intros j C; apply R4; [exact C|rewrite E; exact I]).
      split; cbn [sy_readers sy_writer sy_flag sy_thread].
      * destruct R1 as (L & ND & HL & HI). exists L. split; [exact ND|]. split; [exact HL|]. intros j. rewrite HI. thread j i; [rewrite E; split; discriminate|tauto].
      * intros j. rewrite R2. thread j i; [rewrite E; split; discriminate|tauto].
      * intros j. rewrite R3. thread j i; [rewrite E; cbn; tauto|tauto].
      * intros a b. thread a i; thread b i; cbn; intros HA HB; first [reflexivity | symmetry; apply UQ; assumption | apply UQ; assumption | apply R4; assumption].
      * rewrite R5. split; intros [j Hj]; exists j; revert Hj; thread j i; rewrite ?E; cbn; auto.
      * split; [|reflexivity]. intros _. exists i. apply set_same.
      * split; [discriminate|]. intros [j Hj]. revert Hj. thread j i; [discriminate|]. intros C. exfalso. apply n. apply UQ. rewrite C. exact I.
      * discriminate.
      * intros j. rewrite R9. thread j i; [rewrite E; split; discriminate|tauto].
      * intros j. pose proof (R10 j) as HW. thread j i; rewrite ?Nat.eqb_refl; repeat match goal with |- context [Nat.eqb ?a ?b] => destruct (Nat.eqb_spec a b); [congruence|] end; try tauto; rewrite E in HW; intuition congruence.
    + (* acquire *)
      assert (UQ : forall j, winner (th j) -> j = i) by (intros j C; apply R4; [exact C|rewrite E; exact I]).
      split; cbn [sy_readers sy_writer sy_flag sy_thread running in_destroy destroyer waiting].
      * destruct R1 as (L & ND & HL & HI). exists L. split; [exact ND|]. split; [exact HL|]. intros j. rewrite HI. thread j i; [rewrite E; split; discriminate|tauto].
      * intros j. rewrite R2. thread j i; [rewrite E; split; discriminate|tauto].
      * intros j. rewrite R3. thread j i; [rewrite E; cbn; tauto|tauto].
      * intros a b. thread a i; thread b i; cbn; intros HA HB; first [reflexivity | symmetry; apply UQ; assumption | apply UQ; assumption | apply R4; assumption].
      * rewrite R5. split; intros [j Hj]; exists j; revert Hj; thread j i; rewrite ?E; cbn; auto.
      * split; [discriminate|]. intros [j Hj]. revert Hj. thread j i; [discriminate|]. intros C. exfalso. apply n. apply UQ. rewrite C. exact I.
      * split; [|reflexivity]. intros _. exists i. apply set_same.
      * reflexivity.
      * intros j. thread j i; [tauto|]. split; [congruence|]. intros C. exfalso. apply n. apply UQ. rewrite C. exact I.
      * intros j. pose proof (R10 j) as HW. thread j i; rewrite ?Nat.eqb_refl; repeat match goal with |- context [Nat.eqb ?a ?b] => destruct (Nat.eqb_spec a b); [congruence|] end; try tauto; rewrite E in HW; intuition congruence.
    + (* unlock *)
      assert (UQ : forall j, winner (th j) -> j = i) by (intros j C; apply R4; [exact C|rewrite E; exact I]).
      split; cbn [sy_readers sy_writer sy_flag sy_thread running in_destroy destroyer waiting].
      * destruct R1 as (L & ND & HL & HI). exists L. split; [exact ND|]. split; [exact HL|]. intros j. rewrite HI. thread j i; [rewrite E; split; discriminate|tauto].
      * intros j. rewrite R2. thread j i; [rewrite E; split; discriminate|tauto].
      * intros j. rewrite R3. thread j i; [rewrite E; cbn; tauto|tauto].
      * intros a b. thread a i; thread b i; cbn; intros HA HB; first [reflexivity | symmetry; apply UQ; assumption | apply UQ; assumption | apply R4; assumption].
      * rewrite R5. split; intros [j Hj]; exists j; revert Hj; thread j i; rewrite ?E; cbn; auto.
      * split; [discriminate|]. intros [j Hj]. revert Hj. thread j i; [discriminate|]. intros C. exfalso. apply n. apply UQ. rewrite C. exact I.
      * split; [discriminate|]. intros [j Hj]. revert Hj. thread j i; [discriminate|]. intros C. exfalso. apply n. apply UQ. rewrite C. exact I.
      * discriminate.
      * intros j. split; [discriminate|]. thread j i; [discriminate|]. intros C. exfalso. apply n. apply UQ. rewrite C. exact I.
      * intros j. pose proof (R10 j) as HW. thread j i; rewrite ?Nat.eqb_refl; repeat match goal with |- context [Nat.eqb ?a ?b] => destruct (Nat.eqb_spec a b); [congruence|] end; try tauto; rewrite E in HW; intuition congruence.
    + (* store *)
      assert (UQ : forall j, winner (th j) -> j = i) by (intros j C; apply R4; [exact C|rewrite E; exact I]).
      assert (K : forall x, winner x -> x <> SReleased -> (exists j, set_thread th i SIdle j = x) <-> exists j, th j = x).
      { intros x N1 N2. split; intros [j Hj]; exists j; revert Hj; thread j i; try congruence. intros <-. destruct N1. }
      split; cbn [sy_readers sy_writer sy_flag sy_thread running in_destroy destroyer waiting].
      * destruct R1 as (L & ND & HL & HI). exists L. split; [exact ND|]. split; [exact HL|]. intros j. rewrite HI. thread j i; [rewrite E; split; discriminate|tauto].
      * intros j. rewrite R2. thread j i; [rewrite E; split; discriminate|tauto].
      * intros j. thread j i; [rewrite Nat.eqb_refl; cbn; split; [discriminate|tauto]|]. destruct (Nat.eqb_spec i j); [congruence|]. apply R3.
      * intros a b. thread a i; thread b i; cbn; try tauto. apply R4.
      * split; [discriminate|]. intros [j Hj]. revert Hj. thread j i; [intros []|]. intros C. exfalso. apply n. apply UQ. exact C.
      * rewrite K by (cbn; auto; discriminate). exact R6.
      * rewrite K by (cbn; auto; discriminate). exact R7.
      * exact R8.
      * intros j. rewrite R9. thread j i; [rewrite E; split; discriminate|tauto].
      * intros j. pose proof (R10 j) as HW. thread j i; rewrite ?Nat.eqb_refl; repeat match goal with |- context [Nat.eqb ?a ?b] => destruct (Nat.eqb_spec a b); [congruence|] end; try tauto; rewrite E in HW; intuition congruence.
Qed.

(** Every history's last step *)
Lemma sync_last e tr st : sync_exec (e :: tr) st ->
  exists st0 st1, sync_exec tr st0 /\ sync_step st0 (Some e) st1.
Proof.
  intros H. remember (e :: tr) as tr' eqn:ET. revert e tr ET. induction H as [|tr0 s o s' H IH HS]; intros e tr ET; [discriminate|].
  destruct o as [e'|]; cbn in ET; [|eauto]. injection ET as -> ->. eauto.
Qed.

Lemma c26_admitted i tr st : sync_exec (EvGuard i true :: tr) st -> destroyer tr = None.
Proof.
  intros H. apply sync_last in H as (s0 & s1 & H & HS). apply sync_exec_inv in H. inversion HS; subst.
  destruct (destroyer tr) as [j|] eqn:ED; [|reflexivity]. apply (si_destroyer _ _ H) in ED.
  assert (X : WNone = WHeld) by (apply (si_held _ _ H); eauto). discriminate.
Qed.
Lemma c26_excl tr st i j : sync_exec tr st -> destroyer tr = Some i -> running tr j = false.
Proof.
  intros H ED. apply sync_exec_inv in H. apply (si_destroyer _ _ H) in ED. destruct (running tr j) eqn:ER; [|reflexivity].
  apply (si_running _ _ H) in ER. assert (X : sy_writer st = WHeld) by (apply (si_held _ _ H); eauto). apply (si_excl _ _ H) in X.
  destruct (si_readers _ _ H) as (L & _ & HL & HI). rewrite X in HL. apply HI in ER. destruct L; [destruct ER|discriminate].
Qed.
Lemma c26_waits i tr st : sync_exec (EvWait i true :: tr) st -> (forall j, running tr j = false) /\ destroyer tr = None.
Proof.
  intros H. apply sync_last in H as (s0 & s1 & H & HS). apply sync_exec_inv in H. inversion HS; subst. split.
  - intros j. destruct (running tr j) eqn:ER; [|reflexivity]. apply (si_running _ _ H) in ER. destruct (si_readers _ _ H) as (L & _ & HL & HI).
    cbn in *. apply HI in ER. destruct L; [destruct ER|discriminate].
  - destruct (destroyer tr) as [j|] eqn:ED; [|reflexivity]. apply (si_destroyer _ _ H) in ED. cbn in ED.
    assert (j = i) by (apply (si_unique _ _ H); cbn; [rewrite ED; exact I|rewrite H2; exact I]). congruence.
Qed.
Lemma c26_refused tr st : sync_exec tr st ->
  (forall i tr', tr = EvWait i false :: tr' \/ tr = EvGuard i false :: tr' -> exists j, j <> i /\ in_destroy tr' j = true) /\
  (forall i j, in_destroy tr i = true -> in_destroy tr j = true -> i = j).
Proof.
  intros H. split.
  - intros i tr' ET. assert (H' : sync_exec tr st) by exact H. destruct ET as [-> | ->]; apply sync_last in H as (s0 & s1 & H & HS); apply sync_exec_inv in H; inversion HS; subst; cbn [sy_thread sy_flag sy_writer] in *.
    + destruct (proj1 (si_flag _ _ H)) as [j Hj]; [reflexivity|]. cbn in Hj. exists j. split; [intros ->; rewrite H2 in Hj; exact Hj|]. apply (si_in _ _ H). exact Hj.
    + assert (X : exists j, winner (th j)).
      { destruct w; [congruence| |].
        - destruct (proj1 (si_pending _ _ H)) as [j Hj]; [reflexivity|]. exists j. cbn in Hj. rewrite Hj. exact I.
        - destruct (proj1 (si_held _ _ H)) as [j Hj]; [reflexivity|]. exists j. cbn in Hj. rewrite Hj. exact I. }
      destruct X as [j Hj]. exists j. split; [intros ->|].
      * match goal with E : th i = SIdle |- _ => rewrite E in Hj end. exact Hj.
      * apply (si_in _ _ H). exact Hj.
  - intros i j Hi Hj. apply sync_exec_inv in H. apply (si_unique _ _ H); apply (si_in _ _ H); assumption.
Qed.
(** A winner that has not been admitted yet is admitted as soon as no operation is running *)
Lemma c26_progress tr st i : sync_exec tr st -> waiting tr i = true -> (forall j, running tr j = false) ->
  exists st', sync_exec (EvWait i true :: tr) st'.
Proof.
  intros HX HD HR. pose proof (sync_exec_inv _ _ HX) as H. apply (si_waiting _ _ H) in HD.
  assert (R0 : sy_readers st = 0).
  { destruct (si_readers _ _ H) as (L & _ & HL & HI). destruct L as [|x L]; [auto|]. assert (C : running tr x = true).
    { apply (si_running _ _ H). apply HI. left. reflexivity. }
    rewrite HR in C. discriminate. }
  destruct st as [r w fl th]. cbn in *. subst r.
  assert (P : forall w' th' tr0, sync_exec tr0 (mkSync 0 w' fl th') -> th' i = SPending -> exists st', sync_exec (EvWait i true :: tr0) st').
  { intros w' th' tr0 HE HP. eexists. apply (YE_step tr0 _ (Some (EvWait i true)) _ HE). constructor. exact HP. }
  destruct HD as [ET | ET].
  - assert (w = WNone) as ->.
    { destruct w; [reflexivity| |].
      - destruct (proj1 (si_pending _ _ H)) as [j Hj]; [reflexivity|]. cbn in Hj. assert (j = i) by (apply (si_unique _ _ H); cbn; [rewrite Hj|rewrite ET]; exact I). congruence.
      - destruct (proj1 (si_held _ _ H)) as [j Hj]; [reflexivity|]. cbn in Hj. assert (j = i) by (apply (si_unique _ _ H); cbn; [rewrite Hj|rewrite ET]; exact I). congruence. }
    eapply (P _ _ tr); [apply (YE_step tr _ None _ HX); apply Y_announce; exact ET|apply set_same].
  - eapply P; eauto.
Qed.
