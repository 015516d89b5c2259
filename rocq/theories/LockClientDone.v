(** C62, C63: why Done() is closed, and when it and Release can come to an end. *)
From Coq Require Import String List Bool Arith Lia.
From Verif Require Import DestroySync Locker SpecLocker LockerProofs LockerTrace LockClient SpecLockClient LockClientInv LockClientHist LockClientValid.
Import ListNotations.
Local Open Scope nat_scope.
Local Open Scope list_scope.

Section Done.
Context {key : Type}.
Variable key_dec : forall a b : key, {a = b} + {a <> b}.
Variable shares : key -> key -> Prop.
Notation world := (world key).
Notation step := (w_step key key_dec shares).
Notation exec := (w_exec key key_dec shares).
Notation run := (w_run key_dec shares).
Notation winv := (winv key_dec).
Notation history := (list (nat * w_event key)).
Implicit Types (w : world) (h : history).
Ltac sim := cbn [with_srv with_obj with_newobj with_tree with_call with_grant with_rel with_msgs w_srv w_n w_obj w_tree w_call w_grant w_rel w_beats w_dels
  set_loop set_ticker set_timeout set_sent set_once set_released o_call o_client o_key o_lock o_sess o_time o_loop o_next o_tick o_outn o_out o_sent o_once o_released new_lock] in *.
Ltac upd := sim; unfold upd_nat, upd_key in *; sim.
Ltac eqs := repeat (match goal with
  | H : context [Nat.eqb ?a ?b] |- _ => destruct (Nat.eqb_spec a b); [subst|]
  | |- context [Nat.eqb ?a ?b] => destruct (Nat.eqb_spec a b); [subst|]
  | H : Some _ = Some _ |- _ => injection H as H; subst
  | H : Some _ = None |- _ => discriminate H
  | H : None = Some _ |- _ => discriminate H
  end; sim).
Ltac uni := repeat match goal with
  | H1 : ?a = Some ?x, H2 : ?a = Some ?y |- _ => tryif constr_eq x y then clear H2 else (assert (x = y) by congruence; subst; clear H2)
  end.
Notation now w := (lm_now key (w_srv _ w)).

(** ** Without a confirmation *)
Lemma exec_times k0 h w : exec k0 h w -> forall t e, In (t, e) h -> t <= now w.
Proof.
  induction 1 as [|h w e w' HX IH HS]; [intros t e []|]. pose proof (step_now _ _ _ _ _ HS). intros t e1 HI.
  destruct e as [e|]; cbn in HI; [destruct HI as [[= <- <-]|HI]; [lia|]|]; apply IH in HI; lia.
Qed.
Lemma unconfirmed_later h o d n n' : unconfirmed h o d n -> n <= n' -> unconfirmed h o d n'.
Proof. intros (a & t & e & b & H1 & H2 & H3 & H4) L. exists a, t, e, b. repeat split; auto. lia. Qed.
Lemma unconfirmed_push w e h o d : unconfirmed h o d (now w) -> unconfirmed (push (tick w e) h) o d (now w).
Proof.
  intros (a & t & e1 & b & -> & H2 & H3 & H4). destruct e as [e|]; [|exists a, t, e1, b; auto]. cbn.
  exists ((now w, e) :: a), t, e1, b. split; [reflexivity|]. split; [exact H2|]. split; [exact H3|]. intros t' e' [[= <- <-]|HI] R; [exact H3|eauto].
Qed.
Lemma last_word_split h o t : last_word h o = Some t -> exists newer e older, h = newer ++ (t, e) :: older /\ refreshes o e = true /\ forall t' e', In (t', e') newer -> refreshes o e' = false.
Proof.
  induction h as [|[t1 e1] h IH]; [discriminate|]. cbn. destruct (refreshes o e1) eqn:R.
  - intros [= <-]. exists [], e1, h. repeat split; auto. intros t' e' [].
  - intros L. destruct (IH L) as (a & e & b & -> & H2 & H3). exists ((t1, e1) :: a), e, b. repeat split; auto. intros t' e' [[= <- <-]|HI]; eauto.
Qed.
Lemma last_unconfirmed h o t d n : last_word h o = Some t -> t + d <= n -> unconfirmed h o d n.
Proof.
  intros L LE. destruct (last_word_split _ _ _ L) as (a & e & b & H1 & H2 & H3). exists a, t, e, b. repeat split; auto. intros t' e' HI R. rewrite (H3 _ _ HI) in R. discriminate.
Qed.
Lemma last_keep w e h o : (forall v, e = Some v -> refreshes o v = false) -> last_word (push (tick w e) h) o = last_word h o.
Proof. intros H. destruct e as [e|]; [|reflexivity]. cbn. rewrite (H _ eq_refl). reflexivity. Qed.

(** a heartbeat of lock [x] was refused *)
Definition refused h (x : lobj key) : Prop := exists t, In (t, LBeat key (o_key _ x) (o_lock _ x) (o_sess _ x) false) (server_history h).
Definition cause h w o x : Prop := (exists r, happened (ERelease _ r o) h) \/ unconfirmed h o (o_time _ x) (now w) \/ refused h x.
Lemma cause_mono w e w' h o x y : step w e w' -> same_lock y x -> cause h w o x -> cause (push (tick w e) h) w' o y.
Proof.
  intros ST (_ & _ & E3 & E4 & E5 & E6) [(r & R) | [U | (t & R)]].
  - left. exists r. apply happened_mono. exact R.
  - right. left. rewrite E6. eapply unconfirmed_later; [apply unconfirmed_push; exact U|exact (step_now _ _ _ _ _ ST)].
  - right. right. exists t. rewrite E3, E4, E5. apply history_mono. exact R.
Qed.
Definition timing (l : loop) : Prop := match l with HSelect | HSent _ | HReply _ _ => True | _ => False end.
Definition quitting (l : loop) : Prop := match l with HQuit | HStopped | HFlagged | HEnded => True | _ => False end.
Record dinv h w : Prop := {
  d_quiet : forall o, (w_obj _ w o = None \/ exists x, w_obj _ w o = Some x /\ o_loop _ x = HStart) -> last_word h o = None;
  d_time : forall o x, w_obj _ w o = Some x -> timing (o_loop _ x) -> exists t, last_word h o = Some t /\ t <= now w /\ (o_out _ x = false -> o_outn _ x = t + o_time _ x);
  d_out : forall o x, w_obj _ w o = Some x -> timing (o_loop _ x) -> o_out _ x = true -> unconfirmed h o (o_time _ x) (now w);
  d_ref : forall o x n, w_obj _ w o = Some x -> o_loop _ x = HReply n R409 -> refused h x;
  d_quit : forall o x, w_obj _ w o = Some x -> quitting (o_loop _ x) -> cause h w o x;
  d_once : forall o x, w_obj _ w o = Some x -> o_once _ x <> ONew -> cause h w o x }.


Ltac wordless := intros v EV; try discriminate EV; injection EV as <-; cbn; try reflexivity; apply Nat.eqb_neq; congruence.
Lemma step_d_quiet k0 h w e w' : winv k0 h w -> dinv h w -> step w e w' -> forall o, (w_obj _ w' o = None \/ exists x, w_obj _ w' o = Some x /\ o_loop _ x = HStart) -> last_word (push (tick w e) h) o = None.
Proof.
  intros I D ST o1 Q. pose proof (d_quiet _ _ D o1) as DQ.
  assert (P : (w_obj _ w o1 = None \/ exists x, w_obj _ w o1 = Some x /\ o_loop _ x = HStart) /\ forall v, e = Some v -> refreshes o1 v = false).
  { split.
    - destruct (w_obj _ w o1) as [x|] eqn:X; [right; exists x; split; [reflexivity|]|left; reflexivity]. pose proof (v_next _ _ _ _ I _ _ X) as LT.
      destruct (step_keep _ _ _ _ _ _ _ ST X LT) as (y & Y & _). destruct Q as [Q|(y' & Y' & Q)]; [congruence|]. assert (y' = y) by congruence. subst y'. clear Y'.
      destruct ST; upd; eqs; uni; try congruence; try discriminate; auto; try lia.
      match type of Q with o_loop _ (answer _ ?z ?m ?q) = _ => destruct (answer_same z m q) as (_ & _ & _ & [E|[_ E]] & _); congruence end.
    - intros v ->. destruct (refreshes o1 v) eqn:R; [|reflexivity]. exfalso. inversion ST; subst; cbn in R; try discriminate; apply Nat.eqb_eq in R; subst; upd; rewrite Nat.eqb_refl in Q;
        destruct Q as [Q|(y & [= <-] & Q)]; discriminate. }
  destruct P as [P1 P2]. rewrite last_keep; auto.
Qed.
Lemma step_d_time k0 h w e w' : winv k0 h w -> dinv h w -> step w e w' -> forall o x, w_obj _ w' o = Some x -> timing (o_loop _ x) ->
  exists t, last_word (push (tick w e) h) o = Some t /\ t <= now w' /\ (o_out _ x = false -> o_outn _ x = t + o_time _ x).
Proof.
  intros I D ST o1 y Y TI. pose proof (step_now _ _ _ _ _ ST) as NW. pose proof (d_time _ _ D) as DT.
  destruct ST; upd; eqs; uni; sim.
  all: try solve [match goal with X : w_obj _ _ _ = Some ?z |- _ => destruct (DT _ z X) as (t & T1 & T2 & T3); [first [exact TI|rewrite H0; exact Logic.I|rewrite H1; exact Logic.I|destruct H0 as [E|(? & E)]; rewrite E; exact Logic.I]|] end;
    exists t; (split; [rewrite last_keep; [exact T1|wordless]|split; [lia|first [exact T3|discriminate|auto]]])].
  all: try solve [destruct TI].
  - destruct (answer_same x n r) as ((_ & _ & _ & _ & _ & E6) & _).
    assert (TX : timing (o_loop _ x)). { destruct (answer_same x n r) as (_ & _ & _ & [E|[E _]] & _); [rewrite <- E; exact TI|rewrite E; exact Logic.I]. }
    destruct (DT _ _ H1 TX) as (t & T1 & T2 & T3). exists t. split; [rewrite last_keep; [exact T1|wordless]|]. split; [lia|].
    unfold answer. destruct (o_loop _ x); auto. destruct (Nat.eqb _ _); exact T3.
  - exists (now w). cbn. rewrite Nat.eqb_refl. repeat split; auto.
  - exists (now w). cbn. rewrite Nat.eqb_refl. repeat split; auto.
Qed.
Lemma step_d_out k0 h w e w' : winv k0 h w -> dinv h w -> step w e w' -> forall o x, w_obj _ w' o = Some x -> timing (o_loop _ x) -> o_out _ x = true -> unconfirmed (push (tick w e) h) o (o_time _ x) (now w').
Proof.
  intros I D ST o1 y Y TI O. pose proof (step_now _ _ _ _ _ ST) as NW. pose proof (d_out _ _ D) as DO.
  assert (K : forall x, w_obj _ w o1 = Some x -> timing (o_loop _ x) -> o_out _ x = true -> o_time _ x = o_time _ y -> unconfirmed (push (tick w e) h) o1 (o_time _ y) (now w')).
  { intros x X TX OX <-. eapply unconfirmed_later; [apply unconfirmed_push; exact (DO _ _ X TX OX)|exact NW]. }
  destruct ST; upd; eqs; uni; sim; try solve [eapply K; eauto]; try discriminate; try solve [destruct TI];
    try solve [match goal with X : w_obj _ _ _ = Some ?z |- _ => apply (K z X); auto; first [rewrite H0; exact Logic.I|rewrite H1; exact Logic.I|destruct H0 as [E|(? & E)]; rewrite E; exact Logic.I] end].
  - destruct (answer_same x n r) as ((_ & _ & _ & _ & _ & E6) & _ & _ & L & _). apply (K _ H1); [|revert O; unfold answer; destruct (o_loop _ x); auto; destruct (Nat.eqb _ _); auto|congruence].
    destruct L as [E|[E _]]; [rewrite <- E; exact TI|rewrite E; exact Logic.I].
  - (* the timeout *)
    destruct (o_out _ x) eqn:OX; [eapply K; eauto|].
    destruct (d_time _ _ D _ _ H TI) as (t & T1 & T2 & T3). apply last_unconfirmed with (t := t); [exact T1|]. rewrite T3 in H1; auto.
Qed.
Lemma step_d_ref k0 h w e w' : winv k0 h w -> dinv h w -> step w e w' -> forall o x n, w_obj _ w' o = Some x -> o_loop _ x = HReply n R409 -> refused (push (tick w e) h) x.
Proof.
  intros I D ST o1 y n1 Y L.
  assert (K : forall x, w_obj _ w o1 = Some x -> o_loop _ x = HReply n1 R409 -> same_lock y x -> refused (push (tick w e) h) y).
  { intros x X OX (_ & _ & E3 & E4 & E5 & _). destruct (d_ref _ _ D _ _ _ X OX) as (t & R). exists t. rewrite E3, E4, E5. apply history_mono. exact R. }
  destruct ST; upd; eqs; uni; sim; try solve [eapply K; eauto using same_refl]; try discriminate; try congruence;
    try solve [match goal with X : w_obj _ _ _ = Some ?z |- _ => apply (K z X); [auto|repeat split] end].
  destruct (answer_same x n r) as (A & _ & _ & [E|[E1 E2]] & _); [apply (K _ H1); [congruence|exact A]|].
  rewrite E2 in L. injection L as -> ->. exists (now w). destruct A as (_ & _ & -> & -> & -> & _). left. destruct H5 as [-> _]. reflexivity.
Qed.
Lemma step_d_quit k0 h w e w' : winv k0 h w -> dinv h w -> step w e w' -> forall o x, w_obj _ w' o = Some x -> quitting (o_loop _ x) -> cause (push (tick w e) h) w' o x.
Proof.
  intros I D ST o1 y Y Q. pose proof ST as ST0.
  assert (K : forall x, w_obj _ w o1 = Some x -> same_lock y x -> cause h w o1 x -> cause (push (tick w e) h) w' o1 y).
  { intros x X SL C. eapply cause_mono; eauto. }
  pose proof (d_quit _ _ D) as DQ. pose proof (d_once _ _ D) as DO.
  destruct ST; upd; eqs; uni; sim; try solve [destruct Q]; try solve [eapply K; eauto using same_refl];
    try solve [match goal with X : w_obj _ _ _ = Some ?z |- _ => apply (K z X); [repeat split|]; first [apply (DQ _ _ X); first [exact Q|rewrite H0; exact Logic.I|rewrite H1; exact Logic.I] | apply (DO _ _ X); congruence] end].
  - destruct (answer_same x n r) as (A & _ & _ & [E|[E1 E2]] & _); [|rewrite E2 in Q; destruct Q]. apply (K _ H1 A). apply (DQ _ _ H1). rewrite <- E. exact Q.
  - apply (K _ H); [repeat split|]. right. left. apply (d_out _ _ D _ _ H); [rewrite H0; exact Logic.I|exact H1].
  - apply (K _ H); [repeat split|]. right. right. exact (d_ref _ _ D _ _ _ H H0).
Qed.
Lemma step_d_once k0 h w e w' : exec k0 h w -> dinv h w -> step w e w' -> forall o x, w_obj _ w' o = Some x -> o_once _ x <> ONew -> cause (push (tick w e) h) w' o x.
Proof.
  intros HX D ST o1 y Y Q. pose proof ST as ST0.
  assert (K : forall x, w_obj _ w o1 = Some x -> same_lock y x -> cause h w o1 x -> cause (push (tick w e) h) w' o1 y).
  { intros x X SL C. eapply cause_mono; eauto. }
  pose proof (d_quit _ _ D) as DQ. pose proof (d_once _ _ D) as DO.
  destruct ST; upd; eqs; uni; sim; try solve [eapply K; eauto using same_refl]; try congruence;
    try solve [match goal with X : w_obj _ _ _ = Some ?z |- _ => apply (K z X); [repeat split|]; first [apply (DQ _ _ X); rewrite H0; exact Logic.I | apply (DO _ _ X); congruence] end].
  - destruct (answer_same x n r) as (A & EO & _). apply (K _ H1 A). apply (DO _ _ H1). congruence.
  - apply (K _ H0); [repeat split|]. left. exists r. rewrite (tracks_exec _ _ _ _ _ _ _ (track_release _ _ k0 r o) HX), H. reflexivity.
Qed.
Lemma exec_dinv k0 h w : exec k0 h w -> dinv h w.
Proof.
  induction 1 as [|h w e w' HX IH HS]; [constructor; cbn; intros; try discriminate; reflexivity|].
  pose proof (exec_winv _ _ _ _ _ HX) as I. constructor.
  - exact (step_d_quiet _ _ _ _ _ I IH HS).
  - exact (step_d_time _ _ _ _ _ I IH HS).
  - exact (step_d_out _ _ _ _ _ I IH HS).
  - exact (step_d_ref _ _ _ _ _ I IH HS).
  - exact (step_d_quit _ _ _ _ _ I IH HS).
  - exact (step_d_once _ _ _ _ _ HX IH HS).
Qed.
(** ** C62: every Done() has a reason *)
Lemma done_reason k0 h w o : exec k0 h w -> happened (EDone _ o) h -> exists x, w_obj _ w o = Some x /\
  ((exists r, happened (ERelease _ r o) h) \/ unconfirmed h o (o_time _ x) (now w) \/
   exists t, In (t, LBeat key (o_key _ x) (o_lock _ x) (o_sess _ x) false) (server_history h)).
Proof.
  intros HX. rewrite (tracks_exec _ _ _ _ _ _ _ (track_done _ _ k0 o) HX). intros (x & X1 & X2). exists x. split; [exact X1|].
  apply (d_once _ _ (exec_dinv _ _ _ HX) _ _ X1). congruence.
Qed.
(** ** What can be reached *)
Lemma run_trans w0 h1 w1 h2 w2 : run w0 h1 w1 -> run w1 h2 w2 -> run w0 (h2 ++ h1) w2.
Proof. intros H1 H2. induction H2 as [|h w e w' H IH HS]; [exact H1|]. pose proof (WR_step _ _ _ _ _ _ _ IH HS) as R. destruct e; exact R. Qed.
Lemma exec_run k0 h1 w1 h2 w2 : exec k0 h1 w1 -> run w1 h2 w2 -> exec k0 (h2 ++ h1) w2.
Proof. intros H1 H2. induction H2 as [|h w e w' H IH HS]; [exact H1|]. pose proof (WE_step _ _ _ _ _ _ _ _ IH HS) as R. destruct e; exact R. Qed.
(** the rest of the world stays *)
Definition still w w' := w_srv _ w' = w_srv _ w /\ w_call _ w' = w_call _ w /\ w_rel _ w' = w_rel _ w /\ w_dels _ w' = w_dels _ w.
Lemma still_refl w : still w w. Proof. repeat split. Qed.
Lemma still_trans w w1 w2 : still w w1 -> still w1 w2 -> still w w2.
Proof. intros (A1 & A2 & A3 & A4) (B1 & B2 & B3 & B4). repeat split; congruence. Qed.
Lemma can_done w o x : w_obj _ w o = Some x -> (o_once _ x <> ONew \/ o_loop _ x = HQuit \/ exists r, w_rel _ w r = RStop o) -> ~ blocked _ shares w (o_client _ x) (o_key _ x) ->
  exists h' w' y, run w h' w' /\ still w w' /\ w_obj _ w' o = Some y /\ o_once _ y = ODone /\ o_loop _ y = o_loop _ x /\ (o_once _ x <> ODone -> happened (EDone _ o) h').
Proof.
  intros X C NB.
  assert (P2 : forall w b x, w_obj _ w o = Some x -> o_once _ x = ODeleted b -> exists h' w' y, run w h' w' /\ still w w' /\ w_obj _ w' o = Some y /\ o_once _ y = ODone /\ o_loop _ y = o_loop _ x /\ happened (EDone _ o) h').
  { intros v b z Z1 Z2. pose proof (WR_step _ _ _ _ _ _ _ (WR_here key_dec shares v) (W_close _ _ _ _ _ _ _ Z1 Z2)) as R. cbn in R. do 3 eexists. split; [exact R|].
    split; [repeat split|]. split; [upd; rewrite Nat.eqb_refl; reflexivity|]. split; [reflexivity|]. split; [reflexivity|]. eexists. left. reflexivity. }
  assert (P1 : forall w b x, w_obj _ w o = Some x -> o_once _ x = ORun b -> ~ blocked _ shares w (o_client _ x) (o_key _ x) -> exists h' w' y, run w h' w' /\ still w w' /\ w_obj _ w' o = Some y /\ o_once _ y = ODone /\ o_loop _ y = o_loop _ x /\ happened (EDone _ o) h').
  { intros v b z Z1 Z2 Z3. pose proof (WR_step _ _ _ _ _ _ _ (WR_here key_dec shares v) (W_forget _ _ _ _ _ _ _ Z1 Z2 Z3)) as R. cbn [push] in R.
    match type of R with w_run _ _ _ _ ?v1 => destruct (P2 v1 b (set_once _ z (ODeleted b))) as (h' & w' & y & Q1 & Q2 & Q3 & Q4 & Q5 & Q6); [upd; rewrite Nat.eqb_refl; reflexivity|reflexivity|] end.
    exists (h' ++ []), w', y. split; [eapply run_trans; eauto|]. split; [eapply still_trans; [|exact Q2]; repeat split|]. rewrite app_nil_r. repeat split; auto. }
  assert (P0 : forall w' b, step w None w' -> still w w' -> w_obj _ w' o = Some (set_once _ x (ORun b)) -> exists h' w2 y, run w h' w2 /\ still w w2 /\ w_obj _ w2 o = Some y /\ o_once _ y = ODone /\ o_loop _ y = o_loop _ x /\ happened (EDone _ o) h').
  { intros v b ST SL Z. destruct (P1 v b _ Z eq_refl) as (h' & w' & y & Q1 & Q2 & Q3 & Q4 & Q5 & Q6).
    - intros (i & k' & B). apply NB. exists i, k'. destruct SL as (_ & <- & _). exact B.
    - exists (h' ++ []), w', y. pose proof (WR_step _ _ _ _ _ _ _ (WR_here key_dec shares w) ST) as R. split; [eapply run_trans; [exact R|exact Q1]|]. split; [eapply still_trans; eauto|].
      rewrite app_nil_r. repeat split; auto. }
  destruct (o_once _ x) eqn:EO.
  - destruct C as [C|[C|(r & C)]]; [congruence| |].
    + destruct (P0 _ ByLoop (W_stop_loop _ _ _ _ _ _ X C EO)) as (h' & w' & y & Q); [repeat split|upd; rewrite Nat.eqb_refl; reflexivity|]. exists h', w', y. tauto.
    + destruct (P0 _ (ByRelease r) (W_stop_release _ _ _ _ _ _ _ C X EO)) as (h' & w' & y & Q); [repeat split|upd; rewrite Nat.eqb_refl; reflexivity|]. exists h', w', y. tauto.
  - destruct (P1 _ _ _ X EO NB) as (h' & w' & y & Q). exists h', w', y. tauto.
  - destruct (P2 _ _ _ X EO) as (h' & w' & y & Q). exists h', w', y. tauto.
  - exists [], w, x. split; [constructor|]. split; [apply still_refl|]. repeat split; auto. congruence.
Qed.
(** ** C62: the timeout is noticed *)
Lemma run_one w e w' h2 w2 : step w e w' -> run w' h2 w2 -> exists h, run w h w2 /\ forall v, happened v h2 -> happened v h.
Proof.
  intros ST R. exists (h2 ++ push (tick w e) []). split; [eapply run_trans; [exact (WR_step _ _ _ _ _ _ _ (WR_here key_dec shares w) ST)|exact R]|].
  intros v (t & HI). exists t. apply in_or_app. auto.
Qed.
Lemma not_blocked_still w w' a k : still w w' -> ~ blocked _ shares w a k -> ~ blocked _ shares w' a k.
Proof. intros (_ & E & _) N (i & k' & B). apply N. exists i, k'. rewrite <- E. exact B. Qed.
Lemma noticed k0 h w o x t : exec k0 h w -> w_obj _ w o = Some x -> last_word h o = Some t -> t + o_time _ x <= now w ->
  ~ happened (EDone _ o) h -> (forall n, o_loop _ x <> HSent n) -> (forall n r, o_loop _ x <> HReply n r) -> ~ blocked _ shares w (o_client _ x) (o_key _ x) ->
  exists h' w', run w h' w' /\ w_srv _ w' = w_srv _ w /\ happened (EDone _ o) h'.
Proof.
  intros HX X LW LE ND NS NR NB. rewrite (tracks_exec _ _ _ _ _ _ _ (track_done _ _ k0 o) HX) in ND.
  assert (NO : o_once _ x <> ODone) by (intros E; apply ND; exists x; auto).
  pose proof (exec_winv _ _ _ _ _ HX) as I. destruct (v_loop _ _ _ _ I _ _ X) as [VL _].
  assert (SO : forall w1 x1, still w w1 -> w_obj _ w1 o = Some x1 -> same_lock x1 x -> o_once _ x1 = o_once _ x -> o_loop _ x1 = HQuit ->
    exists h' w', run w1 h' w' /\ w_srv _ w' = w_srv _ w /\ happened (EDone _ o) h').
  { intros w1 x1 ST X1 (_ & E2 & E3 & _) EO EL. destruct (can_done w1 o x1 X1) as (h' & w' & y & Q1 & Q2 & _ & _ & _ & Q3); [auto|rewrite E2, E3; eapply not_blocked_still; eauto|].
    exists h', w'. split; [exact Q1|]. split; [destruct (still_trans _ _ _ ST Q2); assumption|apply Q3; congruence]. }
  assert (ST : forall w1 x1, still w w1 -> w_obj _ w1 o = Some x1 -> same_lock x1 x -> o_once _ x1 = o_once _ x -> o_loop _ x1 = HSelect -> o_out _ x1 = true ->
    exists h' w', run w1 h' w' /\ w_srv _ w' = w_srv _ w /\ happened (EDone _ o) h').
  { intros w1 x1 ST X1 SL EO EL OT. pose proof (W_timed_out key key_dec shares _ _ _ X1 EL OT) as S1.
    match type of S1 with w_step _ _ _ _ _ ?v => destruct (SO v (set_loop _ (set_timeout _ x1 (o_outn _ x1) false) HQuit)) as (h' & w' & Q1 & Q2 & Q3) end;
      [destruct ST as (A1 & A2 & A3 & A4); repeat split; assumption|upd; rewrite Nat.eqb_refl; reflexivity|exact SL|exact EO|reflexivity|].
    destruct (run_one _ _ _ _ _ S1 Q1) as (h2 & R1 & R2). exists h2, w'. auto. }
  destruct (o_loop _ x) eqn:EL; try solve [exfalso; apply NO, VL; exact Logic.I]; try solve [destruct (NS _ eq_refl)]; try solve [destruct (NR _ _ eq_refl)].
  - exfalso. rewrite (d_quiet _ _ (exec_dinv _ _ _ HX) o) in LW; [discriminate|]. right. eauto.
  - destruct (o_out _ x) eqn:OT; [eapply ST; eauto using still_refl, same_refl|].
    destruct (d_time _ _ (exec_dinv _ _ _ HX) _ _ X) as (t' & T1 & T2 & T3); [rewrite EL; exact Logic.I|]. assert (t' = t) by congruence. subst t'.
    pose proof (W_tick_out key key_dec shares _ _ _ X ltac:(congruence) ltac:(rewrite T3; auto)) as S1.
    match type of S1 with w_step _ _ _ _ _ ?v => destruct (ST v (set_timeout _ x (o_outn _ x + o_time _ x) true)) as (h' & w' & Q1 & Q2 & Q3) end;
      [repeat split|upd; rewrite Nat.eqb_refl; reflexivity|repeat split|reflexivity|exact EL|reflexivity|].
    destruct (run_one _ _ _ _ _ S1 Q1) as (h2 & R1 & R2). exists h2, w'. auto.
  - destruct (SO w x) as (h' & w' & Q1 & Q2 & Q3); auto using still_refl, same_refl. exists h', w'. auto.
Qed.
(** ** C63: Release can end *)
Lemma can_end w o x : w_obj _ w o = Some x -> o_once _ x = ODone -> exists h' w' y, run w h' w' /\ still w w' /\ w_obj _ w' o = Some y /\ o_loop _ y = HEnded.
Proof.
  intros X E.
  assert (P4 : forall w x, w_obj _ w o = Some x -> o_loop _ x = HFlagged -> exists h' w' y, run w h' w' /\ still w w' /\ w_obj _ w' o = Some y /\ o_loop _ y = HEnded).
  { intros v z Z1 Z2. pose proof (WR_step _ _ _ _ _ _ _ (WR_here key_dec shares v) (W_end _ _ _ _ _ _ Z1 Z2)) as R. do 3 eexists. split; [exact R|].
    split; [repeat split|]. split; [upd; rewrite Nat.eqb_refl; reflexivity|]. reflexivity. }
  assert (K : forall w w1 e, step w e w1 -> still w w1 -> (exists h' w' y, run w1 h' w' /\ still w1 w' /\ w_obj _ w' o = Some y /\ o_loop _ y = HEnded) ->
     exists h' w' y, run w h' w' /\ still w w' /\ w_obj _ w' o = Some y /\ o_loop _ y = HEnded).
  { intros v v1 e ST SL (h' & w' & y & Q1 & Q2 & Q3). destruct (run_one _ _ _ _ _ ST Q1) as (h2 & R & _). exists h2, w', y. split; [exact R|]. split; [eapply still_trans; eauto|exact Q3]. }
  assert (P3 : forall w x, w_obj _ w o = Some x -> o_loop _ x = HStopped -> exists h' w' y, run w h' w' /\ still w w' /\ w_obj _ w' o = Some y /\ o_loop _ y = HEnded).
  { intros v z Z1 Z2. eapply K; [exact (W_flag _ _ _ _ _ _ Z1 Z2)|repeat split|]. eapply P4; [upd; rewrite Nat.eqb_refl; reflexivity|reflexivity]. }
  assert (P2 : forall w x, w_obj _ w o = Some x -> o_loop _ x = HQuit -> o_once _ x = ODone -> exists h' w' y, run w h' w' /\ still w w' /\ w_obj _ w' o = Some y /\ o_loop _ y = HEnded).
  { intros v z Z1 Z2 Z3. eapply K; [exact (W_stopped _ _ _ _ _ _ Z1 Z2 Z3)|repeat split|]. eapply P3; [upd; rewrite Nat.eqb_refl; reflexivity|reflexivity]. }
  assert (P1 : forall w x, w_obj _ w o = Some x -> o_loop _ x = HSelect -> o_once _ x = ODone -> exists h' w' y, run w h' w' /\ still w w' /\ w_obj _ w' o = Some y /\ o_loop _ y = HEnded).
  { intros v z Z1 Z2 Z3. eapply K; [exact (W_see_done _ _ _ _ _ _ Z1 Z2 Z3)|repeat split|]. eapply P2; [upd; rewrite Nat.eqb_refl; reflexivity|reflexivity|exact Z3]. }
  destruct (o_loop _ x) eqn:EL.
  - eapply K; [exact (W_start _ _ _ _ _ _ X EL)|repeat split|]. eapply P1; [upd; rewrite Nat.eqb_refl; reflexivity|reflexivity|exact E].
  - eapply P1; eauto.
  - eapply K; [exact (W_beat_error _ _ _ _ _ _ _ X (or_introl EL))|repeat split|]. eapply P1; [upd; rewrite Nat.eqb_refl; reflexivity|reflexivity|exact E].
  - eapply K; [exact (W_beat_error _ _ _ _ _ _ _ X (or_intror (ex_intro _ _ EL)))|repeat split|]. eapply P1; [upd; rewrite Nat.eqb_refl; reflexivity|reflexivity|exact E].
  - eapply P2; eauto.
  - eapply P3; eauto.
  - eapply P4; eauto.
  - exists [], w, x. split; [constructor|]. split; [apply still_refl|auto].
Qed.
Lemma track_error k0 r : tracks key_dec shares k0 (EReturn _ r false) (fun w => exists o, w_rel _ w r = RFailed o \/ w_rel _ w r = RAlready o).
Proof.
  split; [intros (o & [[=]|[=]])|]. intros h w e w' I ST.
  destruct ST; upd; try solve [split; [intros Z; left; exact Z|intros [Z|Z]; [exact Z|discriminate Z]]].
  all: destruct (Nat.eqb_spec r r0) as [->|N]; try solve [split; [intros Z; left; exact Z|intros [Z|Z]; [exact Z|discriminate Z]]].
  all: try solve [split; [intros (o' & [Z|Z]); try discriminate Z|intros [(o' & [Z|Z])|Z]; congruence]].
  - split; [intros _; right; reflexivity|intros _; eauto].
  - split; [intros Z; left; exact Z|]. intros [Z|[= Z]]; [exact Z|congruence].
  - split; [intros _; right; reflexivity|intros _; eauto].
  - split; [intros Z; left; exact Z|]. intros [Z|[= Z]]; [exact Z|congruence].
Qed.
Definition ends w r := exists h' w', run w h' w' /\ w_srv _ w' = w_srv _ w /\ returned r h'.
Lemma ends_run w h' w' r : run w h' w' -> w_srv _ w' = w_srv _ w -> ends w' r -> ends w r.
Proof.
  intros R E (h2 & w2 & R2 & E2 & RT). exists (h2 ++ h'), w2. split; [eapply run_trans; eauto|]. split; [congruence|].
  destruct RT as [(t & HI)|(t & HI)]; [left|right]; exists t; apply in_or_app; auto.
Qed.
Lemma ends_step w e w' r : step w e w' -> w_srv _ w' = w_srv _ w -> ends w' r -> ends w r.
Proof. intros ST. apply ends_run with (h' := push (tick w e) []). exact (WR_step _ _ _ _ _ _ _ (WR_here key_dec shares w) ST). Qed.
Lemma ends_sent w r o : w_rel _ w r = RSent o -> ends w r.
Proof.
  intros R. pose proof (WR_step _ _ _ _ _ _ _ (WR_here key_dec shares w) (W_return_error key key_dec shares _ _ _ R)) as X. do 2 eexists. split; [exact X|]. split; [reflexivity|].
  right. eexists. left. reflexivity.
Qed.
Lemma ends_wait w r o x : w_rel _ w r = RWait o -> w_obj _ w o = Some x -> o_once _ x = ODone -> ends w r.
Proof.
  intros R X E. destruct (can_end _ _ _ X E) as (h' & w' & y & Q1 & (S1 & S2 & S3 & S4) & Q2 & Q3). apply (ends_run _ _ _ _ Q1 S1).
  eapply ends_step; [refine (W_delete _ _ _ _ _ _ _ _ Q2 Q3); rewrite S3; exact R|reflexivity|]. apply ends_sent with (o := o). upd. rewrite Nat.eqb_refl. reflexivity.
Qed.
Lemma ends_stop w r o x : w_rel _ w r = RStop o -> w_obj _ w o = Some x -> ~ blocked _ shares w (o_client _ x) (o_key _ x) -> ends w r.
Proof.
  intros R X NB. destruct (can_done w o x X) as (h' & w' & y & Q1 & (S1 & S2 & S3 & S4) & Q2 & Q3 & _); [eauto|exact NB|]. apply (ends_run _ _ _ _ Q1 S1).
  eapply ends_step; [refine (W_release_stopped _ _ _ _ _ _ _ _ Q2 Q3); rewrite S3; exact R|reflexivity|]. apply ends_wait with (o := o) (x := y); [upd; rewrite Nat.eqb_refl; reflexivity|exact Q2|exact Q3].
Qed.
Lemma release_ends k0 h w r o x : exec k0 h w -> happened (ERelease _ r o) h -> w_obj _ w o = Some x -> ~ blocked _ shares w (o_client _ x) (o_key _ x) ->
  exists h' w', run w h' w' /\ w_srv _ w' = w_srv _ w /\ returned r (h' ++ h).
Proof.
  intros HX HR X NB.
  assert (P : returned r h \/ ends w r).
  { unfold returned. rewrite (tracks_exec _ _ _ _ _ _ _ (track_nil _ _ k0 r) HX), (tracks_exec _ _ _ _ _ _ _ (track_error k0 r) HX). unfold is_nil.
    rewrite (tracks_exec _ _ _ _ _ _ _ (track_release _ _ k0 r o) HX) in HR. pose proof (exec_winv _ _ _ _ _ HX) as I.
    destruct (v_rel _ _ _ _ I r o HR) as (y & Y & _ & YS & _). assert (y = x) by congruence. subst y.
    destruct (w_rel _ w r) eqn:R; cbn in HR; try discriminate; injection HR as ->; try solve [left; eauto]; right.
    - destruct (o_released _ x) eqn:O.
      + pose proof (WR_step _ _ _ _ _ _ _ (WR_here key_dec shares w) (W_cas_fails key key_dec shares _ _ _ _ R X O)) as Z. do 2 eexists. split; [exact Z|]. split; [reflexivity|]. right. eexists. left. reflexivity.
      + eapply ends_step; [exact (W_cas key key_dec shares _ _ _ _ R X O)|reflexivity|]. apply ends_stop with (o := o) (x := set_released _ x); [upd; rewrite Nat.eqb_refl; reflexivity|upd; rewrite Nat.eqb_refl; reflexivity|exact NB].
    - eapply ends_stop; eauto.
    - eapply ends_wait; eauto. apply YS. reflexivity.
    - eapply ends_sent; eauto. }
  destruct P as [P | (h' & w' & R & E & P)].
  - exists [], w. split; [constructor|]. auto.
  - exists h', w'. split; [exact R|]. split; [exact E|]. destruct P as [(t & P)|(t & P)]; [left|right]; exists t; apply in_or_app; auto.
Qed.

End Done.
