(** Histories of the locker: what they say about its state. *)
From Coq Require Import String List Bool Arith Lia ZArith.
From Verif Require Import DestroySync Locker SpecLocker LockerProofs.
Import ListNotations.
Local Open Scope nat_scope.
Local Open Scope list_scope.

Section Trace.
Context {key : Type}.
Variable key_dec : forall a b : key, {a = b} + {a <> b}.
Notation locker := (locker key).
Implicit Type st : locker.
Notation history := (list (nat * lk_event key)).

Definition phase_holder (j : nat) (p : phase) : option (nat * string) :=
  match p with LHeld s _ _ _ | LFired s _ _ _ => Some (j, s) | _ => None end.
Definition lock_holder st k := match lm_cur _ st k with Some j => phase_holder j (ph st j) | None => None end.
Definition lock_holds st k := match lm_cur _ st k with Some j => holds (ph st j) | None => 0 end.
Definition lock_cnt st k := match lm_cur _ st k with Some j => cnt st j | None => 0 end.

(** the session [s] of lock [j] with timeout [d]: granted; last reset at most [nx - d]; [q]: was silent *)
Definition run_ok (tr : history) (now : nat) (k : key) (j : nat) (s : string) (d nx : nat) (q : bool) : Prop :=
  (exists tg i, In (tg, LGrant key i k j s d) tr) /\
  (exists a e b, tr = a ++ e :: b /\ resets s e = true /\ fst e + d <= nx /\ forall e', In e' a -> resets s e' = false) /\
  (q = true -> was_silent s d tr now).

Lemma silent_later s d (tr : history) n n' : was_silent s d tr n -> n <= n' -> was_silent s d tr n'.
Proof. intros (a & e & b & H1 & H2 & H3 & H4) HL. exists a, e, b. repeat split; auto. lia. Qed.
Lemma silent_push s d (tr : history) n e : was_silent s d tr n -> (resets s e = true -> n <= fst e) -> was_silent s d (e :: tr) n.
Proof.
  intros (a & x & b & -> & H2 & H3 & H4) HL. exists (e :: a), x, b. split; [reflexivity|]. split; [exact H2|]. split; [exact H3|].
  intros e' [<- | HI] HR; [|auto]. specialize (HL HR). lia.
Qed.
Lemma run_push tr now k j s d nx q e : run_ok tr now k j s d nx q -> resets s e = false -> run_ok (e :: tr) now k j s d nx q.
Proof.
  intros ((tg & i & H1) & (a & x & b & -> & H2 & H3 & H4) & H5) HE. split; [|split].
  - exists tg, i. right. exact H1.
  - exists (e :: a), x, b. split; [reflexivity|]. split; [exact H2|]. split; [exact H3|]. intros y [<- | Hy]; auto.
  - intros HQ. apply silent_push; [auto|congruence].
Qed.
Lemma run_time tr now now' k j s d nx q : run_ok tr now k j s d nx q -> now <= now' -> run_ok tr now' k j s d nx q.
Proof. intros (H1 & H2 & H3) HL. split; [exact H1|]. split; [exact H2|]. intros HQ. eapply silent_later; [apply H3; exact HQ|exact HL]. Qed.
Lemma run_fire tr now k j s d nx q : run_ok tr now k j s d nx q -> nx <= now -> run_ok tr now k j s d (nx + d) true.
Proof.
  intros (H1 & (a & x & b & H2 & H3 & H4 & H5) & H6) HL. split; [exact H1|]. split.
  - exists a, x, b. repeat split; auto. lia.
  - intros _. exists a, x, b. repeat split; auto; [lia|]. intros e' HI HR. rewrite (H5 e' HI) in HR. discriminate.
Qed.

Definition phase_run (p : phase) : option (string * nat * nat * bool) :=
  match p with LHeld s d nx t => Some (s, d, nx, t) | LFired s d nx _ => Some (s, d, nx, true) | _ => None end.

Record tr_inv (tr : history) st : Prop := {
  t_times : forall e, In e tr -> fst e <= lm_now _ st;
  t_holder : forall k, holder key_dec tr k = lock_holder st k;
  t_sess : forall s, In s (sessions tr) -> In s (lm_sess _ st);
  t_hold : forall k, holding key_dec tr k = Z.of_nat (lock_holds st k);
  t_wait : forall k, (waiting_for key_dec tr k + holding key_dec tr k = Z.of_nat (lock_cnt st k))%Z;
  t_run : forall j s d nx q, phase_run (ph st j) = Some (s, d, nx, q) -> run_ok tr (lm_now _ st) (keyof st j) j s d nx q;
  t_uniq : forall j j' s s' d d' nx nx' q q', phase_run (ph st j) = Some (s, d, nx, q) -> phase_run (ph st j') = Some (s', d', nx', q') -> s = s' -> j = j' }.

Lemma resets_grant s e : resets s e = true -> (exists t i k j d, e = (t, LGrant key i k j s d)) \/ exists t k j, e = (t, LBeat key k j s true).
Proof.
  destruct e as [t e]. unfold resets. cbn. destruct e; try discriminate; [|destruct ok; [|discriminate]]; intros H; apply String.eqb_eq in H; subst; eauto 9.
Qed.
Ltac upds := unfold with_time, with_lock, with_client, with_busy, with_cur, with_beats, with_session, with_new, drop_client, lock_holder, lock_holds, lock_cnt, same_key, set_ph, set_cnt, ph, cnt, keyof, upd_nat, upd_key in *;
  cbn [lm_now lm_next lm_lock lm_cur lm_busy lm_beats lm_client lm_sess l_key l_ph l_cnt] in *.
Ltac eqs := repeat (match goal with
  | H : context [Nat.eqb ?a ?b] |- _ => destruct (Nat.eqb_spec a b); [try subst a|]
  | |- context [Nat.eqb ?a ?b] => destruct (Nat.eqb_spec a b); [try subst a|]
  | H : context [key_dec ?a ?b] |- _ => destruct (key_dec a b); [try subst a|]
  | |- context [key_dec ?a ?b] => destruct (key_dec a b); [try subst a|]
  end; cbn [lm_now lm_next lm_lock lm_cur lm_busy lm_beats lm_client lm_sess l_key l_ph l_cnt] in * ).


Ltac cases0 := unfold drop_client in *; repeat match goal with
  | H : context [match ?x with 0 => _ | S _ => _ end] |- _ => destruct x eqn:?
  | |- context [match ?x with 0 => _ | S _ => _ end] => destruct x eqn:?
  end.
Ltac start H HS := pose proof (fresh_done _ H) as NXT; pose proof (i_cur _ H) as HC; pose proof (i_live _ H) as HL; pose proof (i_busy _ H) as HB;
  pose proof (i_claim _ H) as HM; pose proof (i_begun _ H) as HG; pose proof (i_beats _ H) as HT; pose proof (i_sess _ H) as HE;
  pose proof (i_panic _ H) as HP; destruct HS;
  try match goal with X : lm_busy _ _ _ = Some (DLost _ _), Y : l_ph _ _ = ?p, Z : match ?p with _ => _ end |- _ => pose proof (lost_cnt _ _ _ _ _ H X Y Z) as CN end;
  try match goal with X : l_ph _ (lm_lock _ _ ?j) = LClaimed ?i ?d |- _ => pose proof (proj1 (HM i j) d X) as CL end;
  try match goal with X : lm_busy _ _ _ = Some _ |- _ => pose proof (HB _ _ X) as [BE [BC BX]]; pose proof (HC _ _ BC) as (BK & BD & BN) end;
  try match goal with X : lm_cur _ _ _ = Some _, Y : lm_client _ _ _ = CNew |- _ => pose proof (HC _ _ X) as (JK & JD & JN) end;
  try match goal with X : lm_client _ ?st ?i = CGone ?j |- _ =>
    let W := fresh "GD" in assert (W : ph st j <> LDone) by (apply (i_waits st i j H); rewrite X; reflexivity); pose proof (HL _ W) as GC end.


Lemma start_live st k j : lk_inv st -> lm_cur _ st k = Some j -> keyof st j = k. Proof. intros H E. apply (i_cur _ H _ _ E). Qed.
Ltac live HL := repeat match goal with
  | X : l_ph _ (lm_lock _ ?st ?j) = ?p |- _ => match p with LDone => fail 1 | _ =>
     lazymatch goal with Y : lm_cur _ st (l_key _ (lm_lock _ st j)) = Some j |- _ => fail | _ => idtac end;
     assert (lm_cur _ st (l_key _ (lm_lock _ st j)) = Some j) by (apply HL; congruence) end
  end.
Ltac fin := repeat match goal with
  | H : l_ph _ ?l = _ |- context [l_ph _ ?l] => rewrite H
  | H : lm_cur _ ?s ?k = _ |- context [lm_cur _ ?s ?k] => rewrite H
  end; cbn; try reflexivity; try congruence.
Lemma step_holder st e st' tr : lk_inv st -> (forall k, holder key_dec tr k = lock_holder st k) -> lk_step _ key_dec st e st' ->
  forall k, holder key_dec (push (match e with Some e => Some (lm_now _ st, e) | None => None end) tr) k = lock_holder st' k.
Proof.
  intros H IH HS. start H HS; intros kk; specialize (IH kk); cbn [push holder holding]; cases0; upds; eqs; auto.
  all: try (rewrite IH; clear IH).
  all: try (match goal with |- context [lm_cur _ ?st ?k] => destruct (lm_cur _ st k) as [jj|] eqn:EJ end); try reflexivity.
  all: try (destruct (HC _ _ EJ) as (KJ & DJ & LJ)).
  all: eqs; fin.
  all: try live HL; try congruence.
  all: try (injection BC as ->; fin).
  all: try (destruct BX as [tt [BX|BX]]; congruence).
Qed.
Lemma step_hold st e st' tr : lk_inv st -> (forall k, holding key_dec tr k = Z.of_nat (lock_holds st k)) -> lk_step _ key_dec st e st' ->
  forall k, holding key_dec (push (match e with Some e => Some (lm_now _ st, e) | None => None end) tr) k = Z.of_nat (lock_holds st' k).
Proof.
  intros H IH HS. start H HS; intros kk; specialize (IH kk); cbn [push holder holding]; cases0; upds; eqs; auto.
  all: try (rewrite IH; clear IH).
  all: try (match goal with |- context [lm_cur _ ?st ?k] => destruct (lm_cur _ st k) as [jj|] eqn:EJ end); try reflexivity.
  all: try (destruct (HC _ _ EJ) as (KJ & DJ & LJ)).
  all: eqs; fin.
  all: try live HL; try congruence.
  all: try (injection BC as ->; fin).
  all: try (destruct BX as [tt [BX|BX]]; congruence).
Qed.
Lemma step_wait st e st' tr : lk_inv st -> (forall k, (waiting_for key_dec tr k + holding key_dec tr k = Z.of_nat (lock_cnt st k))%Z) -> lk_step _ key_dec st e st' ->
  forall k, (waiting_for key_dec (push (match e with Some e => Some (lm_now _ st, e) | None => None end) tr) k
     + holding key_dec (push (match e with Some e => Some (lm_now _ st, e) | None => None end) tr) k = Z.of_nat (lock_cnt st' k))%Z.
Proof.
  intros H IH HS. pose proof (i_count st H) as HN. start H HS; intros kk; specialize (IH kk); cbn [push waiting_for holding].
  all: try (match goal with X : lm_busy _ _ _ = Some ?b, BD : _ <> LDone, BC : lm_cur _ _ _ = Some ?j |- _ =>
     destruct (HN j) as (nn & N1 & N2 & _); destruct (N2 BD) as [N2' N3]; clear N2 end).
  all: cases0; upds; eqs; auto.
  all: try (match type of IH with context [lm_cur _ ?st ?k] => destruct (lm_cur _ st k) as [jj|] eqn:EJ end); try lia.
  all: try (destruct (HC _ _ EJ) as (KJ & DJ & LJ)).
  all: eqs; fin; try lia.
  all: try live HL; try congruence; try lia.
  all: try (injection BC as ->; fin); try lia; try congruence.
Qed.
Lemma step_uniq st e st' : lk_inv st -> lk_step _ key_dec st e st' ->
  (forall j j' s s' d d' nx nx' q q', phase_run (ph st j) = Some (s, d, nx, q) -> phase_run (ph st j') = Some (s', d', nx', q') -> s = s' -> j = j') ->
  forall j j' s s' d d' nx nx' q q', phase_run (ph st' j) = Some (s, d, nx, q) -> phase_run (ph st' j') = Some (s', d', nx', q') -> s = s' -> j = j'.
Proof.
  intros H HS IH.
  assert (IN : forall j s d nx q, phase_run (ph st j) = Some (s, d, nx, q) -> In s (lm_sess _ st)).
  { intros j s d nx q E. destruct (ph st j) eqn:EP; try discriminate; injection E as <- <- <- <-; eapply (i_sess _ H j); rewrite EP; eauto. }
  start H HS; intros j1 j2 s1 s2 d1 d2 n1 n2 q1 q2; cases0; upds; eqs; auto; cbn [phase_run]; intros E1 E2 E3; try discriminate; eauto.
  all: try (injection E1 as <- <- <- <-); try (injection E2 as <- <- <- <-).
  all: try (match goal with X : l_ph _ (lm_lock _ _ ?j) = _ |- _ = ?j => symmetry end).
  all: try (match goal with X : l_ph _ (lm_lock _ _ ?j) = _ |- ?j = _ => eapply (IH j); [rewrite X; reflexivity|first [exact E1|exact E2]|congruence] end).
  all: exfalso; subst; eauto.
Qed.
Lemma phase_run_sess st j s d nx q : lk_inv st -> phase_run (ph st j) = Some (s, d, nx, q) -> In s (lm_sess _ st).
Proof. intros H E. destruct (ph st j) eqn:EP; try discriminate; injection E as <- <- <- <-; eapply (i_sess _ H j); rewrite EP; eauto. Qed.

Lemma step_run st e st' tr : lk_inv st -> lk_step _ key_dec st e st' -> tr_inv tr st ->
  forall j s d nx q, phase_run (ph st' j) = Some (s, d, nx, q) ->
  run_ok (push (match e with Some e => Some (lm_now _ st, e) | None => None end) tr) (lm_now _ st') (keyof st' j) j s d nx q.
Proof.
  intros H HS IH. pose proof (t_run _ _ IH) as IR. pose proof (t_uniq _ _ IH) as IU.
  pose proof (fun j s d nx q => phase_run_sess st j s d nx q H) as IN.
  start H HS; intros j1 s1 d1 n1 q1; cases0; cbn [push]; upds; eqs; auto; cbn [phase_run]; intros E1; try discriminate.
  all: try (apply run_push; [|reflexivity]); auto.
  all: try (eapply run_time; [apply IR; exact E1|lia]).
  - injection E1 as <- <- <- <-. eapply run_fire; [apply IR; rewrite H0; reflexivity|exact H1].
  - injection E1 as <- <- <- <-. eapply run_fire; [apply IR; rewrite H0; reflexivity|exact H1].
  - injection E1 as <- <- <- <-. split; [|split].
    + exists (lm_now _ st), i. left. reflexivity.
    + exists [], (lm_now _ st, LGrant key i (l_key key (lm_lock key st j)) j s d), tr. split; [reflexivity|].
      split; [unfold resets; cbn; apply String.eqb_refl|]. split; [cbn; lia|]. intros ? [].
    + discriminate.
  - apply run_push; [apply IR; exact E1|]. unfold resets; cbn. apply String.eqb_neq. intros ->. apply H1. eapply IN. exact E1.
  - injection E1 as <- <- <- <-. destruct (IR j s d next tick) as ((tg & i & R1) & R2 & R3); [rewrite H1; reflexivity|]. split; [|split].
    + exists tg, i. right. exact R1.
    + exists [], (lm_now _ st, LBeat key k j s true), tr. split; [reflexivity|].
      split; [unfold resets; cbn; apply String.eqb_refl|]. split; [cbn; lia|]. intros ? [].
    + intros ET. apply silent_push; [apply R3; exact ET|]. cbn. lia.
  - apply run_push; [apply IR; exact E1|]. unfold resets; cbn. apply String.eqb_neq. intros EE. match goal with N : j1 <> j |- _ => apply N end.
    eapply IU; [exact E1|rewrite H1; reflexivity|congruence].
  - injection E1 as <- <- <- <-. apply IR. rewrite H0. reflexivity.
Qed.

Lemma step_now st e st' : lk_step _ key_dec st e st' -> lm_now _ st <= lm_now _ st'.
Proof. intros HS. destruct HS; cases0; upds; lia. Qed.
Lemma step_sess' st e st' tr : lk_step _ key_dec st e st' -> (forall s, In s (sessions tr) -> In s (lm_sess _ st)) ->
  forall s, In s (sessions (push (match e with Some e => Some (lm_now _ st, e) | None => None end) tr)) -> In s (lm_sess _ st').
Proof. intros HS IH s1. destruct HS; cases0; cbn [push sessions]; upds; cbn [In]; intuition. Qed.

Lemma step_tr st e st' tr : lk_inv st -> lk_step _ key_dec st e st' -> tr_inv tr st ->
  tr_inv (push (match e with Some e => Some (lm_now _ st, e) | None => None end) tr) st'.
Proof.
  intros H HS IH. split.
  - intros x Hx. pose proof (step_now _ _ _ HS). destruct e; cbn in Hx.
    + destruct Hx as [<- | Hx]; [exact H0|]. apply (t_times _ _ IH) in Hx. lia.
    + apply (t_times _ _ IH) in Hx. lia.
  - exact (step_holder _ _ _ _ H (t_holder _ _ IH) HS).
  - exact (step_sess' _ _ _ _ HS (t_sess _ _ IH)).
  - exact (step_hold _ _ _ _ H (t_hold _ _ IH) HS).
  - exact (step_wait _ _ _ _ H (t_wait _ _ IH) HS).
  - exact (step_run _ _ _ _ H HS IH).
  - exact (step_uniq _ _ _ H HS (t_uniq _ _ IH)).
Qed.
Lemma exec_tr k0 tr st : lk_exec _ key_dec k0 tr st -> tr_inv tr st.
Proof.
  unfold lk_exec. induction 1 as [|tr st e st' HX IH HS].
  - split; cbn; try tauto; try discriminate; auto.
  - apply step_tr; [exact (exec_inv _ _ _ _ HX)|exact HS|exact IH].
Qed.

Lemma lk_last k0 t e tr st : lk_exec _ key_dec k0 ((t, e) :: tr) st ->
  exists st0 st1, lk_exec _ key_dec k0 tr st0 /\ lk_step _ key_dec st0 (Some e) st1 /\ t = lm_now _ st0 /\ lk_run _ key_dec st1 [] st.
Proof.
  intros H. unfold lk_exec in H. remember ((t, e) :: tr) as tr' eqn:ET. revert t e tr ET. induction H as [|tr0 s o s' H IH HS]; intros t e tr ET; [discriminate|].
  destruct o as [e'|]; cbn in ET.
  - injection ET as <- <- <-. exists s, s'. repeat split; auto. constructor.
  - destruct (IH _ _ _ ET) as (st0 & st1 & H1 & H2 & H3 & H4). exists st0, st1. repeat split; auto.
    exact (KR_step _ _ _ _ _ None _ H4 HS).
Qed.

(** ** C27 *)
Lemma c27 k0 t i k j s d tr st : lk_exec _ key_dec k0 ((t, LGrant key i k j s d) :: tr) st -> holder key_dec tr k = None.
Proof.
  intros H. apply lk_last in H as (s0 & s1 & H & HS & -> & _). rewrite (t_holder _ _ (exec_tr _ _ _ H)). inversion HS; subst.
  pose proof (exec_inv _ _ _ _ H) as HI. unfold lock_holder. match goal with |- context [l_key key (lm_lock key ?z j)] => change (l_key key (lm_lock key z j)) with (keyof z j) end.
  rewrite (i_live _ HI); unfold ph; [|congruence]. match goal with X : l_ph _ _ = _ |- _ => rewrite X end. reflexivity.
Qed.

(** ** C28 *)
Lemma c28_beat k0 t k j s ok tr st : lk_exec _ key_dec k0 ((t, LBeat key k j s ok) :: tr) st -> (ok = true <-> holder key_dec tr k = Some (j, s)).
Proof.
  intros H. apply lk_last in H as (s0 & s1 & H & HS & -> & _). rewrite (t_holder _ _ (exec_tr _ _ _ H)). pose proof (exec_inv _ _ _ _ H) as HI.
  unfold lock_holder. inversion HS; subst.
  - split; [discriminate|]. match goal with |- context [lm_cur key ?z k] => destruct (lm_cur key z k) as [j'|] eqn:EC; [|discriminate]; unfold phase_holder; destruct (ph z j') end; try discriminate; intros [= <- <-]; congruence.
  - destruct (i_beats _ HI k j s) as [-> _]; [match goal with X : lm_beats _ _ _ = _ |- _ => rewrite X end; apply in_app_iff; right; left; reflexivity|].
    unfold ph. match goal with X : l_ph _ _ = _ |- _ => rewrite X end. cbn. split; reflexivity.
  - destruct (i_beats _ HI k j s) as [-> _]; [match goal with X : lm_beats _ _ _ = _ |- _ => rewrite X end; apply in_app_iff; right; left; reflexivity|].
    unfold ph. split; [discriminate|]. match goal with |- context [l_ph key ?z] => destruct (l_ph key z) end; cbn; try discriminate; try contradiction. intros [= <-]. congruence.
Qed.
Lemma c28_release k0 t k j s ok tr st : lk_exec _ key_dec k0 ((t, LRelease key k j s ok) :: tr) st ->
  (ok = true -> exists j', holder key_dec tr k = Some (j', s)) /\ (holder key_dec tr k = Some (j, s) -> ok = true).
Proof.
  intros H. apply lk_last in H as (s0 & s1 & H & HS & -> & _). rewrite (t_holder _ _ (exec_tr _ _ _ H)). pose proof (exec_inv _ _ _ _ H) as HI.
  unfold lock_holder. inversion HS; subst.
  - split; [discriminate|]. match goal with |- context [lm_cur key ?z k] => destruct (lm_cur key z k) as [j'|] eqn:EC; [|discriminate]; unfold phase_holder; destruct (ph z j') end; try discriminate; intros [= <- <-]; congruence.
  - match goal with X : lm_busy _ _ _ = _ |- _ => destruct (i_busy _ HI _ _ X) as (_ & -> & _) end.
    unfold ph. match goal with X : l_ph _ _ = _ |- _ => rewrite X end. cbn. split; eauto.
  - match goal with X : lm_busy _ _ _ = _ |- _ => destruct (i_busy _ HI _ _ X) as (_ & -> & _) end.
    unfold ph. split; [discriminate|]. match goal with |- context [l_ph key ?z] => destruct (l_ph key z) end; cbn; try discriminate; try contradiction. intros [= _ <-]. congruence.
Qed.
Lemma c28_fresh k0 t i k j s d tr st : lk_exec _ key_dec k0 ((t, LGrant key i k j s d) :: tr) st -> ~ In s (sessions tr).
Proof.
  intros H. apply lk_last in H as (s0 & s1 & H & HS & -> & _). intros C. apply (t_sess _ _ (exec_tr _ _ _ H)) in C. inversion HS; subst. contradiction.
Qed.
Lemma c28_refused st e st' k j s : lk_step _ key_dec st (Some e) st' -> e = LBeat key k j s false \/ e = LRelease key k j s false ->
  lm_lock _ st' = lm_lock _ st /\ lm_cur _ st' = lm_cur _ st /\ forall k', locks_query _ st' k' = locks_query _ st k'.
Proof. intros HS E. inversion HS; subst; destruct E as [E|E]; try discriminate; repeat split; reflexivity. Qed.

(** ** C29 *)
Lemma c29 k0 tr st k : lk_exec _ key_dec k0 tr st ->
  (0 <= waiting_for key_dec tr k)%Z /\ (holding key_dec tr k = 0 \/ holding key_dec tr k = 1)%Z /\
  match locks_query _ st k with
  | Some (s, n) => (waiting_for key_dec tr k + holding key_dec tr k = Z.of_nat n)%Z /\ 0 < n /\
                   s = match holder key_dec tr k with Some (_, s) => s | None => EmptyString end
  | None => (waiting_for key_dec tr k + holding key_dec tr k = 0)%Z
  end.
Proof.
  intros H. pose proof (exec_tr _ _ _ H) as T. pose proof (exec_inv _ _ _ _ H) as HI. pose proof (t_wait _ _ T k) as W. pose proof (t_hold _ _ T k) as D.
  pose proof (t_holder _ _ T k) as E.
  unfold locks_query. unfold lock_cnt, lock_holds, lock_holder in *. destruct (lm_cur key st k) as [j|] eqn:EC.
  - destruct (i_cur _ HI _ _ EC) as (_ & NJ & _). destruct (i_count _ HI j) as (n & _ & C & _). destruct (C NJ) as [C1 C2].
    assert (holds (ph st j) = 0 \/ holds (ph st j) = 1) by (destruct (ph st j); cbn; auto). unfold ph, cnt in *. split; [lia|]. split; [lia|].
    split; [exact W|]. split; [exact C2|]. rewrite E. destruct (l_ph key (lm_lock key st j)); reflexivity.
  - lia.
Qed.
Lemma c29_panic k0 tr st j : lk_exec _ key_dec k0 tr st -> l_ph _ (lm_lock _ st j) <> LPanic.
Proof. intros H. apply (i_panic _ (exec_inv _ _ _ _ H)). Qed.

(** ** C30 *)
Lemma grant_det k0 tr st : lk_exec _ key_dec k0 tr st -> forall t t' i i' k k' j j' s d d', In (t, LGrant key i k j s d) tr -> In (t', LGrant key i' k' j' s d') tr -> d = d'.
Proof.
  unfold lk_exec. induction 1 as [|tr st e st' HX IH HS]; [intros; contradiction|]. intros t t' i i' k k' j j' s d d' H1 H2.
  assert (S1 : forall t i k j s d tr0, In (t, LGrant key i k j s d) tr0 -> In s (sessions tr0)).
  { clear. intros t i k j s d tr0. induction tr0 as [|[t' e] r IH]; [intros []|]. intros [[= -> ->] | HI]; [left; reflexivity|]. apply IH in HI. destruct e; cbn; auto. }
  pose proof (exec_tr k0 _ _ HX) as T. destruct e as [e|]; cbn [push] in *; [|eauto].
  destruct H1 as [H1|H1], H2 as [H2|H2]; try congruence; eauto.
  - inversion H1; subst; clear H1. exfalso. apply S1 in H2. apply (t_sess _ _ T) in H2. inversion HS; subst. contradiction.
  - inversion H2; subst; clear H2. exfalso. apply S1 in H1. apply (t_sess _ _ T) in H1. inversion HS; subst. contradiction.
Qed.
Lemma c30_silent k0 t k s tr st : lk_exec _ key_dec k0 ((t, LExpire key k s) :: tr) st ->
  (exists j, holder key_dec tr k = Some (j, s)) /\ exists d, (exists t' i j, In (t', LGrant key i k j s d) tr) /\ was_silent s d tr t.
Proof.
  intros H. apply lk_last in H as (s0 & s1 & H & HS & -> & _). pose proof (exec_tr _ _ _ H) as T. inversion HS; subst.
  match goal with X : l_ph _ (lm_lock _ _ ?j) = LFired _ _ ?n _ |- _ => destruct (t_run _ _ T j s d n true) as ((tg & i & R1) & _ & R3); [unfold ph; rewrite X; reflexivity|] end.
  split.
  - exists j. rewrite (t_holder _ _ T). unfold lock_holder. pose proof (exec_inv _ _ _ _ H) as HI. match goal with |- context [l_key key (lm_lock key ?z j)] => change (l_key key (lm_lock key z j)) with (keyof z j) end.
    rewrite (i_live _ HI); unfold ph; [|congruence]. match goal with X : l_ph _ _ = _ |- _ => rewrite X end. reflexivity.
  - exists d. split; [|exact (R3 eq_refl)]. exists tg, i, j. exact R1.
Qed.
End Trace.
