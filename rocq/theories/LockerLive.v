(** What can still happen to a lock from a state on, and where nothing can. *)
From Coq Require Import String Ascii List Bool Arith Lia ZArith.
From Verif Require Import DestroySync Locker SpecLocker LockerProofs LockerTrace.
Import ListNotations.
Local Open Scope nat_scope.
Local Open Scope list_scope.

(** ** There is always a new session id *)
Fixpoint a_string (n : nat) : string := match n with 0 => EmptyString | S n => String "a"%char (a_string n) end.
Lemma a_length n : String.length (a_string n) = n. Proof. induction n; cbn; congruence. Qed.
Lemma fresh_string (L : list string) : exists s, ~ In s L /\ s <> EmptyString.
Proof.
  set (m := list_max (map String.length L)). exists (a_string (S m)). split; [|discriminate].
  intros C. apply (in_map String.length) in C. rewrite a_length in C.
  assert (S m <= m); [|lia]. unfold m. pose proof (proj1 (list_max_le (map String.length L) m) (le_n _)) as F.
  rewrite Forall_forall in F. apply F. exact C.
Qed.

Section Live.
Context {key : Type}.
Variable key_dec : forall a b : key, {a = b} + {a <> b}.
Notation locker := (locker key).
Implicit Type st : locker.
Notation history := (list (nat * lk_event key)).

Lemma run_trans st0 tr1 st1 tr2 st2 : lk_run _ key_dec st0 tr1 st1 -> lk_run _ key_dec st1 tr2 st2 -> lk_run _ key_dec st0 (tr2 ++ tr1) st2.
Proof.
  intros H1 H2. induction H2 as [|tr st e st' H2 IH HS]; [exact H1|]. destruct e as [e|]; cbn [push app].
  - exact (KR_step _ _ _ _ _ (Some e) _ IH HS).
  - exact (KR_step _ _ _ _ _ None _ IH HS).
Qed.
Lemma run_one st e st' : lk_step _ key_dec st e st' -> lk_run _ key_dec st (push (match e with Some e => Some (lm_now _ st, e) | None => None end) []) st'.
Proof. intros HS. apply (KR_step _ _ _ [] st); [constructor|exact HS]. Qed.

(** client [i] is granted lock [j] on key [k] in some continuation *)
Definition can_get st (i : nat) (k : key) (j d : nat) : Prop :=
  exists tr st' t s, lk_run _ key_dec st tr st' /\ In (t, LGrant key i k j s d) tr.
Lemma can_step st e st' i k j d : lk_step _ key_dec st e st' -> can_get st' i k j d -> can_get st i k j d.
Proof.
  intros HS (tr & s2 & t & s & H1 & H2). exists (tr ++ push (match e with Some e => Some (lm_now _ st, e) | None => None end) []), s2, t, s.
  split; [exact (run_trans _ _ _ _ _ (run_one _ _ _ HS) H1)|]. apply in_app_iff. left. exact H2.
Qed.
Ltac upds := unfold with_time, with_lock, with_client, with_busy, with_cur, with_beats, with_session, with_new, drop_client, lock_holder, lock_holds, lock_cnt, same_key, set_ph, set_cnt, ph, cnt, keyof, upd_nat, upd_key in *;
  cbn [lm_now lm_next lm_lock lm_cur lm_busy lm_beats lm_client lm_sess l_key l_ph l_cnt] in *.
Ltac eqs := repeat (match goal with
  | H : context [Nat.eqb ?a ?b] |- _ => destruct (Nat.eqb_spec a b); [try subst a|]
  | |- context [Nat.eqb ?a ?b] => destruct (Nat.eqb_spec a b); [try subst a|]
  | H : context [key_dec ?a ?b] |- _ => destruct (key_dec a b); [try subst a|]
  | |- context [key_dec ?a ?b] => destruct (key_dec a b); [try subst a|]
  end; cbn [lm_now lm_next lm_lock lm_cur lm_busy lm_beats lm_client lm_sess l_key l_ph l_cnt] in * ).


Ltac cases0 := unfold drop_client in *; repeat match goal with
  | H : context [match ?x with 0 => _ | S _ => _ end] |- _ => destruct x eqn:?
  | |- context [match ?x with 0 => _ | S _ => _ end] => destruct x eqn:?
  end.

Lemma can_idle st i k j d : keyof st j = k -> lm_client _ st i = CWait j d -> ph st j = LIdle -> can_get st i k j d.
Proof.
  intros HK HC HP. eapply can_step; [exact (K_claim _ key_dec st i j d HC HP)|].
  set (st1 := with_client _ _ i (CClaim j)). destruct (fresh_string (lm_sess _ st1)) as (s & F1 & F2).
  assert (E : l_ph _ (lm_lock _ st1 j) = LClaimed i d) by (subst st1; upds; rewrite Nat.eqb_refl; reflexivity).
  pose proof (K_grant _ key_dec st1 i j d s E F1 F2) as HS. apply run_one in HS. cbn [push] in HS.
  exists [(lm_now _ st1, LGrant key i (l_key _ (lm_lock _ st1 j)) j s d)]. eexists. exists (lm_now _ st1), s. split; [exact HS|].
  left. subst st1. upds. rewrite Nat.eqb_refl. cbn. rewrite HK. reflexivity.
Qed.
Lemma two_clients st i j d : lk_inv st -> lm_client _ st i = CWait j d -> holds (ph st j) = 1 -> exists n, cnt st j - 1 = S n.
Proof.
  intros H HC HH. destruct (i_count _ H j) as (n & C1 & C2 & C3). assert (N : ph st j <> LDone) by (intros C; rewrite C in HH; discriminate).
  destruct (C2 N) as [C4 _]. destruct n as [|n]; [exfalso; apply (counts_zero _ i) in C1; apply C1; rewrite HC; reflexivity|]. exists n. lia.
Qed.
Lemma can_time_done st i k j d t b : lk_inv st -> keyof st j = k -> lm_client _ st i = CWait j d -> ph st j = LTimingOut t b ->
  lm_busy _ st k = Some (DTime j) -> can_get st i k j d.
Proof.
  intros H HK HC HP HB. destruct (two_clients st i j d H HC) as [n E]; [rewrite HP; reflexivity|].
  eapply can_step; [exact (K_time_done _ key_dec st j t b k HB HP)|]. unfold drop_client. unfold cnt in E. rewrite E.
  apply can_idle; upds; rewrite ?Nat.eqb_refl; auto.
Qed.
Lemma can_time_begin st i k j d t : lk_inv st -> keyof st j = k -> lm_client _ st i = CWait j d -> ph st j = LTimingOut t false ->
  lm_busy _ st k = None -> lm_beats _ st k = [] -> can_get st i k j d.
Proof.
  intros H HK HC HP HB HT. assert (EC : lm_cur _ st k = Some j) by (rewrite <- HK; apply (i_live _ H); rewrite HP; discriminate).
  pose proof (K_time_begin _ key_dec st j j t k HP (eq_sym HK) HB HT EC) as HS. pose proof (step_inv _ _ _ _ H HS) as H'.
  eapply can_step; [exact HS|]. eapply (can_time_done _ i k j d t true H'); upds; rewrite ?Nat.eqb_refl; auto. destruct (key_dec k k); congruence.
Qed.
Lemma can_beats st i k j d t : lk_inv st -> keyof st j = k -> lm_client _ st i = CWait j d -> ph st j = LTimingOut t false ->
  lm_busy _ st k = None -> can_get st i k j d.
Proof.
  remember (length (lm_beats _ st k)) as n eqn:EN. revert st EN. induction n as [|n IH]; intros st EN H HK HC HP HB.
  - destruct (lm_beats key st k) eqn:EB; [|discriminate]. eapply can_time_begin; eauto.
  - destruct (lm_beats key st k) as [|[j' s] r] eqn:EB; [discriminate|].
    assert (j' = j) as ->.
    { assert (EC : lm_cur _ st k = Some j) by (rewrite <- HK; apply (i_live _ H); rewrite HP; discriminate).
      destruct (i_beats _ H k j' s) as [X _]; [rewrite EB; left; reflexivity|congruence]. }
    assert (HS : lk_step _ key_dec st (Some (LBeat key k j s false)) (with_beats _ key_dec st k ([] ++ r))).
    { eapply (K_beat_fail _ key_dec st k j s _ [] r EB HP). exact I. }
    eapply can_step; [exact HS|]. apply IH; upds; auto; [destruct (key_dec k k); [|congruence]; cbn in EN |- *; lia|]. exact (step_inv _ _ _ _ H HS).
Qed.
Lemma can_timing st i k j d t b : lk_inv st -> keyof st j = k -> lm_client _ st i = CWait j d -> ph st j = LTimingOut t b -> can_get st i k j d.
Proof.
  intros H HK HC HP. destruct b.
  { eapply can_time_done; eauto. rewrite <- HK. eapply (i_begun _ H). exact HP. }
  assert (EC : lm_cur _ st k = Some j) by (rewrite <- HK; apply (i_live _ H); rewrite HP; discriminate).
  destruct (lm_busy _ st k) as [b|] eqn:EB; [|eapply can_beats; eauto].
  destruct (i_busy _ H _ _ EB) as [_ B]. destruct b as [i' j'|j' r s|j'].
  - destruct B as [B1 B2]. assert (j' = j) as -> by congruence.
    assert (HS := K_lost_held _ key_dec st i' j k _ EB HP I). pose proof (lost_cnt _ _ _ _ _ H EB HP I) as NE.
    destruct (l_cnt key (lm_lock key st j) - 1) as [|m] eqn:EM; [congruence|].
    eapply can_step; [exact HS|]. eapply (can_beats _ i k j d t); [exact (step_inv _ _ _ _ H HS)|..]; upds; rewrite ?Nat.eqb_refl; auto.
    + destruct (Nat.eqb_spec i i') as [-> |]; [congruence|exact HC].
    + destruct (key_dec k k); congruence.
  - destruct B as [B1 B2]. assert (j' = j) as -> by congruence.
    assert (HS := K_rel_fail _ key_dec st k j r s _ EB HP I). eapply can_step; [exact HS|].
    eapply (can_beats _ i k j d t); [exact (step_inv _ _ _ _ H HS)|..]; upds; auto. destruct (key_dec k k); congruence.
  - destruct B as [B1 [t' B2]]. assert (j' = j) as -> by congruence. destruct B2; congruence.
Qed.
Lemma can_fired st i k j d s dd nx t : lk_inv st -> keyof st j = k -> lm_client _ st i = CWait j d -> ph st j = LFired s dd nx t -> can_get st i k j d.
Proof.
  intros H HK HC HP. assert (HS := K_expire _ key_dec st j s dd nx t HP). eapply can_step; [exact HS|].
  eapply (can_timing _ i k j d t false (step_inv _ _ _ _ H HS)); upds; rewrite ?Nat.eqb_refl; auto.
Qed.
Lemma can_tick st i k j d s dd nx : lk_inv st -> keyof st j = k -> lm_client _ st i = CWait j d -> ph st j = LHeld s dd nx true -> can_get st i k j d.
Proof.
  intros H HK HC HP. assert (HS := K_take _ key_dec st j s dd nx HP). eapply can_step; [exact HS|].
  eapply (can_fired _ i k j d s dd nx false (step_inv _ _ _ _ H HS)); upds; rewrite ?Nat.eqb_refl; auto.
Qed.
Lemma can_due st i k j d s dd nx t : lk_inv st -> keyof st j = k -> lm_client _ st i = CWait j d -> ph st j = LHeld s dd nx t -> nx <= lm_now _ st -> can_get st i k j d.
Proof.
  intros H HK HC HP HN. assert (HS := K_fire _ key_dec st j s dd nx t HP HN). eapply can_step; [exact HS|].
  eapply (can_tick _ i k j d s dd (nx + dd) (step_inv _ _ _ _ H HS)); upds; rewrite ?Nat.eqb_refl; auto.
Qed.

(** when no tick is buffered the next one is due a timeout after a reset *)
Lemma due_inv k0 tr st : lk_exec _ key_dec k0 tr st -> forall j s d nx, ph st j = LHeld s d nx false -> exists e, In e tr /\ resets s e = true /\ nx = fst e + d.
Proof.
  unfold lk_exec. induction 1 as [|tr st e st' HX IH HS]; [discriminate|].
  assert (PU : forall s d nx, (exists x, In x tr /\ resets s x = true /\ nx = fst x + d) ->
     exists x, In x (push (match e with Some e => Some (lm_now _ st, e) | None => None end) tr) /\ resets s x = true /\ nx = fst x + d).
  { intros s d nx (x & X1 & X2). exists x. split; [|exact X2]. destruct e; cbn; auto. }
  intros j1 s1 d1 n1. destruct HS; cases0; upds; eqs; auto; cbn [push] in *; intros E; try discriminate; try solve [apply PU; eauto].
  - injection E as <- <- <-. eexists. split; [left; reflexivity|]. split; [unfold resets; cbn; apply String.eqb_refl|reflexivity].
  - injection E as <- <- <- ->. eexists. split; [left; reflexivity|]. split; [unfold resets; cbn; apply String.eqb_refl|reflexivity].
Qed.

Lemma c30_handed_on k0 tr st k j s i d : lk_exec _ key_dec k0 tr st ->
  holder key_dec tr k = Some (j, s) -> lm_client _ st i = CWait j d ->
  (forall t e dd, In e tr -> resets s e = true -> (exists i', In (t, LGrant key i' k j s dd) tr) -> fst e + dd <= lm_now _ st) ->
  exists tr' st' t s', lk_run _ key_dec st tr' st' /\ In (t, LGrant key i k j s' d) tr'.
Proof.
  intros H HH HC HS. change (can_get st i k j d). pose proof (exec_inv _ _ _ _ H) as HI. pose proof (exec_tr _ _ _ _ H) as T.
  rewrite (t_holder _ _ _ T) in HH. unfold lock_holder in HH. destruct (lm_cur _ st k) as [j'|] eqn:EC; [|discriminate].
  destruct (i_cur _ HI _ _ EC) as (HK & _ & _).
  destruct (ph st j') eqn:EP; try discriminate; injection HH as -> ->.
  - destruct tick; [eapply can_tick; eauto|]. eapply can_due; eauto. destruct (due_inv _ _ _ H j s d0 next EP) as (x & X1 & X2 & ->).
    destruct (t_run _ _ _ T j s d0 (fst x + d0) false) as ((tg & i' & R) & _); [rewrite EP; reflexivity|]. rewrite HK in R. eapply HS; eauto.
  - eapply can_fired; eauto.
Qed.

(** ** Where nothing happens any more *)
Lemma stuck_step st e st' k j : lk_inv st -> lk_step _ key_dec st e st' -> lm_cur _ st k = Some j -> ph st j = LStuck ->
  lm_cur _ st' k = Some j /\ ph st' j = LStuck /\ (forall i j' s d, e <> Some (LGrant key i k j' s d)).
Proof.
  intros H HS EC EP. pose proof (i_cur _ H) as HC. pose proof (i_live _ H) as HL. pose proof (i_busy _ H) as HB. destruct (HC _ _ EC) as (KJ & _ & _).
  destruct HS; try match goal with X : lm_busy _ _ _ = Some _ |- _ => pose proof (HB _ _ X) as [BE [BC BX]] end;
    cases0; upds; (split; [|split]); try (intros; discriminate); eqs; auto; try congruence.
  all: try (exfalso; destruct (HC _ _ EC) as (_ & _ & ?); pose proof (fresh_done _ H) as F; unfold ph in F; congruence).
  all: try (exfalso; rewrite EC in *; congruence).
  all: try (match goal with X : l_ph _ _ = ?p |- _ => rewrite EP in X; subst p; contradiction end).
  intros i1 j1 s1 d1 [= -> EK <- -> ->]. assert (lm_cur _ st k = Some j0); [rewrite <- EK; apply HL|]; congruence.
Qed.
Lemma stuck_run st tr st' k j : lk_inv st -> lm_cur _ st k = Some j -> ph st j = LStuck -> lk_run _ key_dec st tr st' ->
  forall t i j' s d, ~ In (t, LGrant key i k j' s d) tr.
Proof.
  intros H EC EP HR.
  assert (X : lk_inv st' /\ lm_cur _ st' k = Some j /\ ph st' j = LStuck /\ forall t i j' s d, ~ In (t, LGrant key i k j' s d) tr); [|apply X].
  induction HR as [|tr st1 e st2 HR IH HS]; [split; [exact H|]; split; [exact EC|]; split; [exact EP|]; intros ? ? ? ? ? []|]. destruct IH as (I1 & I2 & I3 & I4).
  destruct (stuck_step _ _ _ _ _ I1 HS I2 I3) as (S1 & S2 & S3). split; [exact (step_inv _ _ _ _ I1 HS)|]. split; [exact S1|]. split; [exact S2|].
  intros t i j' s d C. destruct e as [e|]; cbn in C; [|eapply I4; exact C]. destruct C as [C|C]; [|eapply I4; exact C]. inversion C; subst. eapply S3. reflexivity.
Qed.

(** a stale release waits for an idle lock nobody is going to claim *)
Definition wedged st k j := lm_cur _ st k = Some j /\ ph st j = LIdle /\ (exists r s, lm_busy _ st k = Some (DRel j r s)) /\ (forall i d, lm_client _ st i <> CWait j d).
Definition about (k : key) (e : lk_event key) : Prop :=
  match e with
  | LJoin _ _ k' | LGrant _ _ k' _ _ _ | LBeat _ k' _ _ _ | LRelease _ k' _ _ _ | LExpire _ k' _ | LHandOn _ k' | LLost _ _ k' => k' = k
  end.
Lemma wedged_step st e st' k j : lk_inv st -> lk_step _ key_dec st e st' -> wedged st k j ->
  wedged st' k j /\ (forall e', e = Some e' -> ~ about k e').
Proof.
  intros H HS (EC & EP & (r & s & EB) & NW). pose proof (i_cur _ H) as HC. pose proof (i_live _ H) as HL. pose proof (i_busy _ H) as HB. destruct (HC _ _ EC) as (KJ & ND & LT).
  destruct (HB _ _ EB) as [BE0 _]. unfold wedged.
  assert (HJ : forall k', lm_cur _ st k' = Some j -> k' = k) by (intros k' E'; destruct (HC _ _ E') as (<- & _); exact KJ).
  assert (HD : forall k' b, lm_busy _ st k' = Some b -> lm_cur _ st k' = Some (match b with DLost _ x | DRel x _ _ | DTime x => x end))
    by (intros k' b E'; destruct (HB _ _ E') as [_ X]; destruct b; apply X).
  destruct HS; try match goal with X : lm_busy _ _ _ = Some _, Y : lm_busy _ _ _ = Some _ |- _ => assert_fails (constr_eq X Y); pose proof (HD _ _ X) as BC; cbn in BC end;
    cases0; upds; (split; [split; [|split; [|split]]|]); try discriminate; eqs; auto; try congruence; eauto.
  all: try (intros i1 d1; eqs; auto; try discriminate; congruence).
  all: try (intros e1 [= <-]; cbn; intros ->; congruence).
  - intros i1 d1; eqs; [intros [= E _]; lia|auto].
  - intros i1 d1; eqs; [|auto]. intros [= -> _]. match goal with X : lm_cur _ _ ?q = Some j, Y : lm_busy _ _ ?q = None |- _ => apply HJ in X; subst q; congruence end.
  - exfalso. match goal with X : lm_client _ _ _ = CWait _ _ |- _ => destruct (NW _ _ X) end.
  - intros e1 [= <-]. cbn. intros EK. assert (lm_cur _ st k = Some j0); [rewrite <- EK; apply HL; congruence|]. congruence.
  - exfalso. match goal with X : lm_busy _ _ ?q = Some (DLost _ _) |- _ => pose proof (HJ _ BC); subst q; congruence end.
  - exfalso. match goal with X : lm_busy _ _ ?q = Some (DLost _ _) |- _ => pose proof (HJ _ BC); subst q; congruence end.
  - exfalso. assert (EQ : Some (DRel j0 r0 s0) = Some (DRel j r s)) by congruence. injection EQ as -> -> ->. subst p. rewrite EP in *. contradiction.
  - intros e1 [= <-]. cbn. intros ->. assert (EQ : Some (DRel j0 r0 s0) = Some (DRel j r s)) by congruence. injection EQ as -> -> ->. subst p. rewrite EP in *. contradiction.
  - intros e1 [= <-]. cbn. intros ->. rewrite BE0 in *. destruct b1; discriminate.
  - intros e1 [= <-]. cbn. intros ->. rewrite BE0 in *. destruct b1; discriminate.
  - intros e1 [= <-]. cbn. intros EK. assert (lm_cur _ st k = Some j0); [rewrite <- EK; apply HL; congruence|]. congruence.
Qed.
Lemma wedged_run st tr st' k j : lk_inv st -> wedged st k j -> lk_run _ key_dec st tr st' ->
  wedged st' k j /\ forall t e, In (t, e) tr -> ~ about k e.
Proof.
  intros H HW HR.
  assert (X : lk_inv st' /\ wedged st' k j /\ forall t e, In (t, e) tr -> ~ about k e); [|apply X].
  induction HR as [|tr st1 e st2 HR IH HS]; [split; [exact H|]; split; [exact HW|]; intros ? ? []|]. destruct IH as (I1 & I2 & I3).
  destruct (wedged_step _ _ _ _ _ I1 HS I2) as (S1 & S2). split; [exact (step_inv _ _ _ _ I1 HS)|]. split; [exact S1|].
  intros t e1 C. destruct e as [e|]; cbn in C; [|eapply I3; exact C]. destruct C as [C|C]; [|eapply I3; exact C]. inversion C; subst. eapply S2. reflexivity.
Qed.
End Live.
