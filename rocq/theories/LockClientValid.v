(** C61: until when a lock is certainly held. *)
From Coq Require Import String List Bool Arith Lia.
From Verif Require Import DestroySync Locker SpecLocker LockerProofs LockerTrace LockClient SpecLockClient LockClientInv LockClientHist.
Import ListNotations.
Local Open Scope nat_scope.
Local Open Scope list_scope.

Section Held.
Context {key : Type}.
Variable key_dec : forall a b : key, {a = b} + {a <> b}.
Ltac upds := unfold with_time, with_lock, with_client, with_busy, with_cur, with_beats, with_session, with_new, drop_client, set_ph, set_cnt, ph, cnt, keyof, upd_nat, upd_key in *;
  cbn [lm_now lm_next lm_lock lm_cur lm_busy lm_beats lm_client lm_sess l_key l_ph l_cnt] in *.
Ltac eqs := repeat (match goal with
  | H : context [Nat.eqb ?a ?b] |- _ => destruct (Nat.eqb_spec a b); [try subst a|]
  | |- context [Nat.eqb ?a ?b] => destruct (Nat.eqb_spec a b); [try subst a|]
  end; cbn [lm_now lm_next lm_lock lm_cur lm_busy lm_beats lm_client lm_sess l_key l_ph l_cnt] in * ).
Ltac cases0 := unfold drop_client in *; repeat match goal with
  | H : context [match ?x with 0 => _ | S _ => _ end] |- _ => destruct x eqn:?
  | |- context [match ?x with 0 => _ | S _ => _ end] => destruct x eqn:?
  end.
(** the next tick is at most a timeout away *)
Definition bounded (st : locker key) : Prop := forall j s d nx t, ph st j = LHeld s d nx t -> nx <= lm_now _ st + d.
Lemma step_bounded st e st' : lk_step key key_dec st e st' -> bounded st -> bounded st'.
Proof.
  intros HS B j1 s1 d1 nx1 t1 H. pose proof (B j1) as BJ. destruct HS; cases0; upds; eqs; try discriminate; try solve [specialize (BJ _ _ _ _ H); lia].
  - injection H as <- <- <- <-. lia.
  - injection H as <- <- <- <-. lia.
  - injection H as <- <- <- <-. lia.
Qed.
Lemma exec_bounded k0 tr st : lk_exec key key_dec k0 tr st -> bounded st.
Proof. unfold lk_exec. induction 1 as [|tr st e st' HX IH HS]; [intros j s d nx t [=]|exact (step_bounded _ _ _ HS IH)]. Qed.
(** a running session was running before, its ticker due no later *)
Lemma held_before st e st' j s d nx' t' : lk_step key key_dec st e st' -> bounded st -> ph st' j = LHeld s d nx' t' ->
  (exists nx t, ph st j = LHeld s d nx t /\ nx <= nx') \/ exists i k, e = Some (LGrant key i k j s d).
Proof.
  intros HS B H. pose proof (B j) as BJ. destruct HS; cases0; upds; eqs; try discriminate; try solve [left; eauto].
  - injection H as -> -> <- <-. left. exists next, tick. split; [assumption|lia].
  - injection H as -> -> <- <-. right. eauto.
  - injection H as -> -> <- <-. left. exists next, tick. split; [assumption|]. apply BJ in H1. lia.
Qed.
(** a session whose ticker is not due goes on until it is released *)
Lemma held_on st e st' j s d nx : lk_inv st -> lk_step key key_dec st e st' -> bounded st -> ph st j = LHeld s d nx false -> lm_now _ st < nx ->
  (exists nx', ph st' j = LHeld s d nx' false /\ nx <= nx') \/ exists k r, e = Some (LRelease key k r s true).
Proof.
  intros I HS B H L. pose proof (fresh_done _ I) as FD. pose proof (B j _ _ _ _ H) as BJ.
  assert (LC := fun k i p X Y Z => lost_cnt st k i j p I X Y Z).
  pose proof (i_busy _ I) as HB.
  destruct HS; cases0; upds; eqs; try solve [left; eauto]; try congruence; try solve [left; exists nx; split; [congruence|lia]].
  - assert (X : LHeld s0 d0 next tick = LHeld s d nx false) by congruence. injection X as -> -> -> ->. lia.
  - exfalso. refine (LC _ _ _ H0 eq_refl _ ltac:(assumption)). unfold ph in *. rewrite H. exact Logic.I.
  - right. exists k, r. congruence.
  - right. exists k, r. congruence.
  - left. assert (X : LHeld s0 d0 next tick = LHeld s d nx false) by congruence. injection X as -> -> -> ->. eexists. split; [reflexivity|lia].
  - destruct (HB _ _ H0) as (_ & _ & t & [C|C]); congruence.
Qed.
End Held.

Section Valid.
Context {key : Type}.
Variable key_dec : forall a b : key, {a = b} + {a <> b}.
Variable shares : key -> key -> Prop.
Notation world := (world key).
Notation step := (w_step key key_dec shares).
Notation exec := (w_exec key key_dec shares).
Notation winv := (winv key_dec).
Notation history := (list (nat * w_event key)).
Implicit Types (w : world) (h : history).
Ltac sim := cbn [with_srv with_obj with_newobj with_tree with_call with_grant with_rel with_msgs w_srv w_n w_obj w_tree w_call w_grant w_rel w_beats w_dels
  set_loop set_ticker set_timeout set_sent set_once set_released o_call o_client o_key o_lock o_sess o_time o_loop o_next o_tick o_outn o_out o_sent o_once o_released new_lock] in *.
Ltac upd := sim; unfold upd_nat, upd_key in *; sim.
Ltac eqs := repeat (match goal with
  | H : context [Nat.eqb ?a ?b] |- _ => destruct (Nat.eqb_spec a b); [subst|]
  | |- context [Nat.eqb ?a ?b] => destruct (Nat.eqb_spec a b); [subst|]
  | H : Some _ = Some _ |- _ => injection H as H; subst
  | H : Some _ = None |- _ => discriminate H
  | H : None = Some _ |- _ => discriminate H
  end; sim).
Ltac uni := repeat match goal with
  | H1 : ?a = Some ?x, H2 : ?a = Some ?y |- _ => tryif constr_eq x y then clear H2 else (assert (x = y) by congruence; subst; clear H2)
  end.
Notation now w := (lm_now key (w_srv _ w)).

(** the part of the service in a step *)
Lemma step_server w e w' : step w e w' ->
  (w_srv _ w' = w_srv _ w /\ forall v, e <> Some (EServer _ v)) \/
  exists e', lk_step key key_dec (w_srv _ w) e' (w_srv _ w') /\ (forall v, e' = Some v <-> e = Some (EServer _ v)) /\ (e' = None -> e = None).
Proof.
  intros ST. destruct ST; sim; try solve [left; split; [reflexivity|intros v; discriminate]]; right.
  all: eexists; split; [eassumption|]; split; [intros v; split; intros X; inversion X; reflexivity|intros X; congruence].
Qed.
Lemma step_now w e w' : step w e w' -> now w <= now w'.
Proof. intros ST. destruct (step_server _ _ _ ST) as [[-> _] | (e' & HS & _)]; [lia|exact (LockerTrace.step_now _ _ _ _ HS)]. Qed.

Record vinv h w : Prop := {
  b_sent : forall o n, In (o, n) (w_beats _ w) -> exists x t1, w_obj _ w o = Some x /\ n <= o_sent _ x /\ sent_at h o n = Some t1 /\ t1 <= now w;
  b_reply : forall o x n, w_obj _ w o = Some x -> o_loop _ x = HReply n R200 -> n <= o_sent _ x /\ exists t1, sent_at h o n = Some t1 /\
    forall d nx t, ph (w_srv _ w) (o_lock _ x) = LHeld (o_sess _ x) d nx t -> t1 + d <= nx;
  b_held : forall t i k j s d o u, In (t, LGrant key i k j s d) (server_history h) -> (w_n _ w <= o \/ exists x, w_obj _ w o = Some x /\ o_sess _ x = s) ->
    ~ given_up h w s -> valid_until h o s d = Some u -> now w < u -> exists nx, ph (w_srv _ w) j = LHeld s d nx false /\ u <= nx }.

Lemma sent_keep w e h o n : (forall m, e = Some (ESent _ o m) -> n < m) -> sent_at (push (tick w e) h) o n = sent_at h o n.
Proof.
  intros H. destruct e as [e|]; [|reflexivity]. destruct e; cbn; try reflexivity.
  destruct (Nat.eqb_spec o0 o) as [->|]; [|reflexivity]. cbn. destruct (Nat.eqb_spec n0 n) as [->|]; [|reflexivity]. specialize (H _ eq_refl). lia.
Qed.
Lemma step_sent_more w e w' o x m : step w e w' -> w_obj _ w o = Some x -> e = Some (ESent _ o m) -> o_sent _ x < m.
Proof. intros ST X ->. inversion ST; subst. uni. lia. Qed.
Lemma step_osent w e w' o x y : step w e w' -> w_obj _ w o = Some x -> o < w_n _ w -> w_obj _ w' o = Some y -> o_sent _ x <= o_sent _ y.
Proof.
  intros ST X LT Y. destruct ST; upd; eqs; uni; try lia.
  match goal with |- _ <= o_sent _ (answer _ ?z ?m ?q) => destruct (answer_same z m q) as (_ & _ & _ & _ & ->) end. lia.
Qed.
Lemma step_b_sent k0 h w e w' : winv k0 h w -> vinv h w -> step w e w' ->
  forall o n, In (o, n) (w_beats _ w') -> exists x t1, w_obj _ w' o = Some x /\ n <= o_sent _ x /\ sent_at (push (tick w e) h) o n = Some t1 /\ t1 <= now w'.
Proof.
  intros I V ST o n H.
  destruct (in_dec (fun a b : nat * nat => ltac:(repeat decide equality)) (o, n) (w_beats _ w)) as [Y|N].
  - destruct (b_sent _ _ V _ _ Y) as (x & t1 & X1 & X2 & X3 & X4). pose proof (v_next _ _ _ _ I _ _ X1) as LT.
    destruct (step_keep _ _ _ _ _ _ _ ST X1 LT) as (y & Y1 & _). exists y, t1. split; [exact Y1|].
    pose proof (step_osent _ _ _ _ _ _ ST X1 LT Y1). split; [lia|]. split.
    + rewrite sent_keep; [exact X3|]. intros m E. pose proof (step_sent_more _ _ _ _ _ _ ST X1 E). lia.
    + pose proof (step_now _ _ _ ST). lia.
  - destruct ST; sim; try contradiction.
    + exfalso. apply N. rewrite H1. apply in_app_or in H. apply in_or_app. destruct H; cbn; auto.
    + destruct H as [[= <- <-]|H]; [|contradiction]. eexists. exists (now w). split; [unfold upd_nat; rewrite Nat.eqb_refl; reflexivity|]. sim. split; [lia|].
      cbn. rewrite !Nat.eqb_refl. cbn. auto.
Qed.

(** the loop comes to have an answer 200 only by a heartbeat that the service accepted *)
Lemma step_reply w e w' o y n : step w e w' -> w_obj _ w' o = Some y -> o_loop _ y = HReply n R200 ->
  (exists x, w_obj _ w o = Some x /\ o_loop _ x = HReply n R200 /\ same_lock y x) \/
  (exists x, w_obj _ w o = Some x /\ same_lock y x /\ In (o, n) (w_beats _ w) /\
     lk_step key key_dec (w_srv _ w) (Some (LBeat key (o_key _ x) (o_lock _ x) (o_sess _ x) true)) (w_srv _ w')).
Proof.
  intros ST H L. destruct ST; upd; eqs; uni; try discriminate; try solve [left; eauto using same_refl]; try solve [left; eexists; split; [eassumption|]; split; [congruence|repeat split]]; try congruence.
  destruct (answer_same x n0 r) as (A & _ & _ & [E|[E1 E2]] & _).
  - left. exists x. repeat split; try (apply A); congruence.
  - right. exists x. rewrite E2 in L. injection L as -> ->. subst ok. repeat split; try (apply A); auto. rewrite H1. apply in_or_app. cbn. auto.
Qed.
Lemma step_b_reply k0 h w e w' : winv k0 h w -> vinv h w -> step w e w' -> forall o y n, w_obj _ w' o = Some y -> o_loop _ y = HReply n R200 ->
  n <= o_sent _ y /\ exists t1, sent_at (push (tick w e) h) o n = Some t1 /\
    forall d nx t, ph (w_srv _ w') (o_lock _ y) = LHeld (o_sess _ y) d nx t -> t1 + d <= nx.
Proof.
  intros I V ST o y n Y L.
  destruct (step_reply _ _ _ _ _ _ ST Y L) as [(x & X1 & X2 & (_ & _ & _ & E4 & E5 & _)) | (x & X1 & (_ & _ & _ & E4 & E5 & _) & HB & HS)];
    pose proof (v_next _ _ _ _ I _ _ X1) as LT; pose proof (step_osent _ _ _ _ _ _ ST X1 LT Y) as SO.
  - destruct (b_reply _ _ V _ _ _ X1 X2) as (N & t1 & T1 & T2). split; [lia|]. exists t1. split.
    { rewrite sent_keep; [exact T1|]. intros m E. pose proof (step_sent_more _ _ _ _ _ _ ST X1 E). lia. }
    intros d nx t HP. rewrite E4, E5 in HP. destruct (step_server _ _ _ ST) as [[E _] | (e' & HS & HE & _)]; [rewrite E in HP; eauto|].
    destruct (held_before _ _ _ _ _ _ _ _ _ HS (exec_bounded _ _ _ _ (v_srv _ _ _ _ I)) HP) as [(nx0 & t0 & P & P2) | (i & k & ->)].
    + specialize (T2 _ _ _ P). lia.
    + exfalso. destruct (v_obj _ _ _ _ I _ _ X1) as (_ & tg & G). pose proof (KR_step _ _ _ _ _ _ _ (v_srv _ _ _ _ I) HS) as XS. cbn in XS.
      apply (c28_fresh _ _ _ _ _ _ _ _ _ _ XS). exact (grant_session _ _ _ _ _ _ _ G).
  - destruct (b_sent _ _ V _ _ HB) as (x' & t1 & X1' & N & T1 & T2). uni. split; [lia|]. exists t1. split.
    { rewrite sent_keep; [exact T1|]. intros m E. pose proof (step_sent_more _ _ _ _ _ _ ST X1 E). lia. }
    intros d nx t HP. rewrite E4, E5 in HP. inversion HS; subst. match goal with X : _ = w_srv _ w' |- _ => unfold ph in HP; rewrite <- X in HP end.
    unfold with_beats, with_lock, upd_nat, set_ph in HP. cbn in HP. rewrite Nat.eqb_refl in HP. cbn in HP. injection HP as <- <- _. lia.
Qed.
Lemma valid_keep w e h o s d : (forall i k j d', e <> Some (EServer _ (LGrant key i k j s d'))) -> (forall n, e <> Some (EConfirmed _ o n)) ->
  valid_until (push (tick w e) h) o s d = valid_until h o s d.
Proof.
  intros H1 H2. destruct e as [e|]; [|reflexivity]. destruct e; cbn; try reflexivity.
  - destruct e; cbn; try reflexivity. destruct (String.eqb_spec s0 s) as [->|]; [|reflexivity]. exfalso. eapply H1. reflexivity.
  - destruct (valid_until h o s d); [|reflexivity]. destruct (Nat.eqb_spec o0 o) as [->|]; [|reflexivity]. exfalso. eapply H2. reflexivity.
Qed.
Lemma step_b_held k0 h w e w' : winv k0 h w -> vinv h w -> step w e w' -> forall t i k j s d o u, In (t, LGrant key i k j s d) (server_history (push (tick w e) h)) ->
  (w_n _ w' <= o \/ exists x, w_obj _ w' o = Some x /\ o_sess _ x = s) -> ~ given_up (push (tick w e) h) w' s ->
  valid_until (push (tick w e) h) o s d = Some u -> now w' < u -> exists nx, ph (w_srv _ w') j = LHeld s d nx false /\ u <= nx.
Proof.
  intros I V ST t i k j s d o u G HO NG HV LT.
  pose proof (step_inv _ _ _ _ _ _ _ I ST) as I'. pose proof (step_now _ _ _ ST) as NW.
  assert (GE : In (t, LGrant key i k j s d) (server_history h) \/ e = Some (EServer _ (LGrant key i k j s d))).
  { destruct e as [e|]; [|left; exact G]. destruct e; cbn in G; auto. destruct G as [[= _ ->]|G]; auto. }
  destruct GE as [G0| ->].
  2:{ cbn in HV. rewrite String.eqb_refl in HV. injection HV as <-.
      destruct (step_server _ _ _ ST) as [[_ E] | (e' & HS & HE & _)]; [destruct (E _ eq_refl)|]. rewrite (proj2 (HE _) eq_refl) in HS.
      inversion HS; subst.
 exists (now w + d). split; [|lia]. unfold ph, with_session, with_client, with_lock, upd_nat, set_ph. cbn. rewrite Nat.eqb_refl. reflexivity. }
  assert (F : forall i k j d', e <> Some (EServer _ (LGrant key i k j s d'))).
  { intros i' k' j' d' ->. pose proof (v_srv _ _ _ _ I') as XS. cbn in XS. apply (c28_fresh _ _ _ _ _ _ _ _ _ _ XS). exact (grant_session _ _ _ _ _ _ _ G0). }
  assert (HO' : w_n _ w <= o \/ exists x, w_obj _ w o = Some x /\ o_sess _ x = s).
  { destruct HO as [HO | (y & Y1 & Y2)].
    - left. destruct ST; sim; lia.
    - destruct (step_back _ _ _ _ _ _ _ ST Y1) as [(x & X1 & (_ & _ & _ & _ & E & _)) | (i' & a' & k' & j' & s' & d' & -> & _)]; [right; exists x; split; congruence|left; lia]. }
  assert (NG' : ~ given_up h w s). { intros Z. apply NG. eapply given_up_mono; eauto. }
  (* the time of validity before the step *)
  assert (P : (exists n, e = Some (EConfirmed _ o n) /\ exists u0 t1, valid_until h o s d = Some u0 /\ now w < u0 /\ sent_at h o n = Some t1 /\ u = t1 + d) \/ valid_until h o s d = Some u).
  { destruct e as [e|]; [|right; exact HV]. destruct e; try solve [right; rewrite valid_keep in HV; [exact HV|exact F|intros; discriminate]].
    cbn [push tick valid_until] in HV. destruct (valid_until h o s d) as [u0|] eqn:EV; [|discriminate]. destruct (Nat.eqb_spec o0 o) as [->|]; [|right; exact HV]. cbn [andb] in HV.
    destruct (Nat.ltb_spec (now w) u0); [|right; exact HV]. destruct (sent_at h o n) as [t1|] eqn:ET; [|right; exact HV]. left. exists n. split; [reflexivity|]. exists u0, t1. repeat split; auto. congruence. }
  destruct P as [(n & -> & u0 & t1 & P1 & P2 & P3 & P4) | P].
  - destruct (b_held _ _ V _ _ _ _ _ _ _ _ G0 HO' NG' P1 P2) as (nx & Q1 & Q2). inversion ST; subst. sim. exists nx. split; [exact Q1|].
    match goal with X : w_obj _ _ _ = Some _, Y : o_loop _ _ = HReply _ _ |- _ => pose proof (b_reply _ _ V _ _ _ X Y) as BR; rename X into H2 end. destruct BR as (_ & t1' & T1 & T2). assert (t1' = t1) by congruence; subst t1'.
    destruct HO' as [HO' | (x' & X1 & X2)]; [apply (v_next _ _ _ _ I) in H2; lia|]. uni.
    assert (j = o_lock _ x) as ->. { destruct (v_obj _ _ _ _ I _ _ X1) as (_ & tg & G1). destruct (grant_same _ _ _ _ (v_srv _ _ _ _ I) _ _ _ _ _ _ _ _ _ _ _ G0 G1) as (_ & _ & _ & E & _). exact E. }
    exact (T2 _ _ _ Q1).
  - destruct (b_held _ _ V _ _ _ _ _ _ _ _ G0 HO' NG' P) as (nx & Q1 & Q2); [lia|].
    destruct (step_server _ _ _ ST) as [[-> _] | (e' & HS & HE & _)]; [eauto|].
    destruct (held_on _ _ _ _ _ _ _ _ (exec_inv _ _ _ _ (v_srv _ _ _ _ I)) HS (exec_bounded _ _ _ _ (v_srv _ _ _ _ I)) Q1) as [(nx' & R1 & R2) | (k' & r & ->)]; [lia|exists nx'; split; [exact R1|lia]|].
    exfalso. apply NG. apply (v_handled _ _ _ _ I') with (t := now w) (k := k') (j := r) (ok := true). rewrite (proj1 (HE _) eq_refl). left. reflexivity.
Qed.
Lemma exec_vinv k0 h w : exec k0 h w -> vinv h w.
Proof.
  induction 1 as [|h w e w' HX IH HS].
  - constructor; cbn; intros; try contradiction; discriminate.
  - pose proof (exec_winv _ _ _ _ _ HX) as I. constructor.
    + exact (step_b_sent _ _ _ _ _ I IH HS).
    + exact (step_b_reply _ _ _ _ _ I IH HS).
    + exact (step_b_held _ _ _ _ _ I IH HS).
Qed.
Lemma same_session k0 h w o1 x1 o2 x2 : winv k0 h w -> w_obj _ w o1 = Some x1 -> w_obj _ w o2 = Some x2 -> o_sess _ x1 = o_sess _ x2 -> o1 = o2.
Proof.
  intros I H1 H2 E. destruct (v_obj _ _ _ _ I _ _ H1) as (C1 & t1 & G1), (v_obj _ _ _ _ I _ _ H2) as (C2 & t2 & G2). rewrite E in G1.
  destruct (grant_same _ _ _ _ (v_srv _ _ _ _ I) _ _ _ _ _ _ _ _ _ _ _ G1 G2) as (_ & EI & _). rewrite EI in C1. destruct C1 as [C1|C1], C2 as [C2|C2]; congruence.
Qed.
Lemma not_given_up k0 h w o x : exec k0 h w -> w_obj _ w o = Some x -> ~ happened (EDelete _ o) h -> ~ given_up h w (o_sess _ x).
Proof.
  intros HX X ND. rewrite (tracks_exec _ _ _ _ _ _ _ (track_deleted _ _ k0 o) HX) in ND. pose proof (exec_winv _ _ _ _ _ HX) as I.
  intros [(o' & x' & r & X1 & X2 & X3) | (t & i & a & k & k' & j & d & G & C)].
  - apply ND. exists r. rewrite (same_session _ _ _ _ _ _ _ I X X1); [exact X3|congruence].
  - destruct (v_obj _ _ _ _ I _ _ X) as (C1 & t1 & G1). destruct (grant_same _ _ _ _ (v_srv _ _ _ _ I) _ _ _ _ _ _ _ _ _ _ _ G G1) as (_ & -> & _). destruct C1; congruence.
Qed.
(** ** C61 *)
Lemma valid_holds k0 h w o x u : exec k0 h w -> w_obj _ w o = Some x -> ~ happened (EDelete _ o) h ->
  valid_until h o (o_sess _ x) (o_time _ x) = Some u -> now w < u -> holder key_dec (server_history h) (o_key _ x) = Some (o_lock _ x, o_sess _ x).
Proof.
  intros HX X ND HV LT. pose proof (exec_winv _ _ _ _ _ HX) as I. destruct (v_obj _ _ _ _ I _ _ X) as (_ & t & G).
  destruct (b_held _ _ (exec_vinv _ _ _ HX) _ _ _ _ _ _ o u G) as (nx & P & _); [right; eauto|exact (not_given_up _ _ _ _ _ HX X ND)|exact HV|exact LT|].
  pose proof (v_srv _ _ _ _ I) as XS. pose proof (exec_tr key_dec _ _ _ XS) as T. rewrite (t_holder _ _ _ T). pose proof (exec_inv _ _ _ _ XS) as LI.
  destruct (t_run _ _ _ T (o_lock _ x) (o_sess _ x) (o_time _ x) nx false) as ((tg & i & G2) & _); [rewrite P; reflexivity|].
  destruct (grant_same _ _ _ _ XS _ _ _ _ _ _ _ _ _ _ _ G G2) as (_ & _ & EK & _). unfold lock_holder. rewrite EK, (i_live _ LI); [|congruence]. rewrite P. reflexivity.
Qed.
Lemma valid_exclusive k0 h w o1 x1 u1 o2 x2 u2 : exec k0 h w -> w_obj _ w o1 = Some x1 -> w_obj _ w o2 = Some x2 -> o_key _ x1 = o_key _ x2 ->
  ~ happened (EDelete _ o1) h -> ~ happened (EDelete _ o2) h ->
  valid_until h o1 (o_sess _ x1) (o_time _ x1) = Some u1 -> now w < u1 -> valid_until h o2 (o_sess _ x2) (o_time _ x2) = Some u2 -> now w < u2 -> o1 = o2.
Proof.
  intros HX X1 X2 EK N1 N2 V1 L1 V2 L2. pose proof (valid_holds _ _ _ _ _ _ HX X1 N1 V1 L1) as H1. pose proof (valid_holds _ _ _ _ _ _ HX X2 N2 V2 L2) as H2.
  rewrite EK, H2 in H1. injection H1 as _ E. exact (same_session _ _ _ _ _ _ _ (exec_winv _ _ _ _ _ HX) X1 X2 (eq_sym E)).
Qed.
End Valid.
