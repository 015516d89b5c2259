(** Proofs about a dequeued item at its client (C73-C75). *)
From Coq Require Import String List Bool Arith Lia.
From Verif Require Import DestroySync Heartbeater SpecHeartbeater ItemClient SpecItemClient.
Import ListNotations.
Local Open Scope nat_scope.

Ltac proj := cbn [i_hb i_loop i_last i_next i_tick i_done i_acks i_cb i_set set_hb set_loop set_last set_ticker close_done set_ack
  set_callback set_waiting now hb_now hb_ph hb_started hb_down hb_calls] in *; unfold now in *;
  cbn [i_hb i_loop i_last i_next i_tick i_done i_acks i_cb i_set set_hb set_loop set_last set_ticker close_done set_ack
  set_callback set_waiting hb_now hb_ph hb_started hb_down hb_calls] in *.

Lemma happened_here t e tr : happened ((t, e) :: tr) e. Proof. exists t. left. reflexivity. Qed.
Lemma happened_more x tr e : happened tr e -> happened (x :: tr) e. Proof. intros [t H]. exists t. right. exact H. Qed.
Lemma happened_push x tr e : happened tr e -> happened (push x tr) e.
Proof. destruct x; [apply happened_more|exact (fun H => H)]. Qed.
Lemma over_push x tr : delivery_over tr -> delivery_over (push x tr).
Proof.
  intros [H|[H|[k H]]]; [left|right; left|right; right; exists k]; apply happened_push; exact H.
Qed.
Lemma push_in {A} (x : option A) y tr : In y (push x tr) -> x = Some y \/ In y tr.
Proof. destruct x; cbn; intuition congruence. Qed.

Section Proofs.
Variable timeout : nat.
Notation step := (i_step timeout).
Notation exec := (i_exec timeout).

Lemma exec_ind ok (P : list (nat * i_event) -> iworld -> Prop) :
  P [] i_init ->
  (forall tr w e w', exec ok tr w -> P tr w -> step w e w' -> (now w' = now w \/ ok w (now w' - now w)) ->
     P (push (match e with Some e => Some (now w, e) | None => None end) tr) w') ->
  forall tr w, exec ok tr w -> P tr w.
Proof.
  intros P0 PS tr w H. unfold i_exec in H. remember i_init as w0 eqn:E0. induction H as [|tr w e w' H IH HS OK]; [subst; exact P0|].
  subst. apply (PS tr w e w'); auto.
Qed.
(** an execution under any restriction is one under none *)
Lemma exec_any ok tr w : exec ok tr w -> exec any_time tr w.
Proof.
  intros H. revert tr w H. apply (exec_ind ok (fun tr w => exec any_time tr w)); [constructor|].
  intros tr w e w' _ IH HS _. eapply IR_step; [exact IH|exact HS|]. right. exact I.
Qed.

(** a heartbeater event by the step *)
Lemma hb_over h e h' : hb_step timeout h e h' -> over h' -> over h \/
  exists e', e = Some e' /\ (e' = HTimeout \/ e' = HShutdown \/ exists k, e' = HStop k true).
Proof.
  intros HS O. unfold over in *. destruct HS; cbn in *; try (left; exact O); try (destruct O; discriminate);
    try (right; eexists; split; [reflexivity|]; eauto; fail).
  left. left. reflexivity.
Qed.
Lemma hb_calls_step h e h' i : hb_step timeout h e h' -> hb_calls h' i <> NoCall -> hb_calls h' i = hb_calls h i \/ hb_calls h i = NoCall.
Proof.
  intros HS N. destruct HS; cbn in *; auto; unfold set_call in *; destruct (Nat.eqb_spec i i0); subst; auto; congruence.
Qed.
Lemma hb_event_call h h' i ok : hb_step timeout h (Some (HBeat i ok)) h' -> hb_calls h i = PBeat.
Proof. intros HS. inversion HS; subst; assumption. Qed.
Lemma hb_step_calls h e h' i : hb_step timeout h (Some (e)) h' -> (exists ok j, e = HBeat j ok \/ e = HStop j ok) ->
  hb_calls h' i = hb_calls h i \/ hb_calls h' i = NoCall.
Proof.
  intros HS (ok & j & [-> | ->]); inversion HS; subst; cbn; unfold set_call; destruct (Nat.eqb i j); auto.
Qed.

(** C73: no heartbeat of the client gets to the heartbeater, and none is answered 200 *)
Definition rejected (tr : list (nat * i_event)) (w : iworld) : Prop :=
  (forall n, hb_calls (i_hb w) (3 * n) = NoCall) /\ (forall t, i_loop w <> LReply t 200) /\
  (forall n ok, ~ happened tr (IServer (HBeat (3 * n) ok))) /\ ~ happened tr (IAnswer 200).
Lemma rejected_push tr e : (forall n ok, e <> IServer (HBeat (3 * n) ok)) -> e <> IAnswer 200 ->
  forall t, (forall n ok, ~ happened tr (IServer (HBeat (3 * n) ok))) /\ ~ happened tr (IAnswer 200) ->
  (forall n ok, ~ happened ((t, e) :: tr) (IServer (HBeat (3 * n) ok))) /\ ~ happened ((t, e) :: tr) (IAnswer 200).
Proof.
  intros N1 N2 t [H1 H2]. split.
  - intros n ok [t' [E|HI]]; [injection E as _ E; exact (N1 n ok E)|]. apply (H1 n ok). exists t'. exact HI.
  - intros [t' [E|HI]]; [injection E as _ E; exact (N2 E)|]. apply H2. exists t'. exact HI.
Qed.
Lemma rejected_inv tr w : exec any_time tr w -> rejected tr w.
Proof.
  intros H. revert tr w H. apply (exec_ind any_time rejected); [|intros tr w e w' _ (R1 & R2 & R3 & R4) HS _].
  - repeat split; cbn; try discriminate; intros; intros [t []].
  - assert (K : forall P Q R S : Prop, P -> Q -> R /\ S -> P /\ Q /\ R /\ S) by tauto. unfold rejected.
    assert (VH : validate_headers heartbeat_headers <> None) by discriminate.
    destruct HS; proj; cbn [push];
      try (apply K; [first [exact R1 | idtac] | first [exact R2 | intros ?; discriminate | idtac] |
             first [exact (conj R3 R4) | apply rejected_push; [intros; discriminate|discriminate|exact (conj R3 R4)] | idtac]]).
    all: try (rewrite H in *; proj; first [exact R1 | exact (fun n => R1 n)]).
    (* server *)
    + intros n. destruct (hb_calls h (3 * n)) eqn:EC; [reflexivity| | |];
        (destruct H1 as [B _]; specialize (B n); rewrite EC in B; destruct B as [B|(_ & _ & B)]; [discriminate|rewrite R1 in B; congruence|contradiction]).
    + destruct e as [e|]; cbn [push]; [|exact (conj R3 R4)]. apply rejected_push; [|discriminate|exact (conj R3 R4)].
      intros n ok E. injection E as ->. apply hb_event_call in H. change (n + (n + (n + 0))) with (3 * n) in H. rewrite R1 in H. discriminate.
    + (* rejected *) intros t'. unfold validate_headers, heartbeat_headers in H0. cbn in H0. injection H0 as <-. discriminate.
    + (* beat *) apply hb_event_call in H0. rewrite R1 in H0. discriminate.
    + apply hb_event_call in H0. rewrite R1 in H0. discriminate.
    + apply hb_event_call in H0. rewrite R1 in H0. discriminate.
    + intros t' E. injection E as _ E. contradiction.
    + apply R2 in H. contradiction.
    + apply rejected_push; [intros; discriminate| |exact (conj R3 R4)]. intros E. injection E as ->. discriminate.
    + apply rejected_push; [intros; discriminate| |exact (conj R3 R4)]. intros E. injection E as ->. discriminate.
    + apply rejected_push; [intros; discriminate| |exact (conj R3 R4)]. congruence.
    + intros n. destruct (hb_step_calls _ _ _ (3 * n) H0) as [-> | ->]; eauto.
Qed.

(** what the history says about the state *)
Lemma odd_iff st : st <> 200 -> known_ack st = false -> odd_answer st.
Proof.
  intros H K. unfold known_ack in K. cbn [existsb] in K. rewrite !orb_false_iff in K. destruct K as [K1 [K2 [K3 [K4 _]]]].
  repeat split; [exact H|..]; apply Nat.eqb_neq; assumption.
Qed.
Lemma some_ack_push x tr : some_ack tr -> some_ack (push x tr). Proof. intros [r H]. exists r. apply happened_push, H. Qed.
Record linv (tr : list (nat * i_event)) (w : iworld) : Prop := {
  l_done : i_done w = true <-> happened tr IDone;
  l_acks : forall r, a_ph (i_acks w r) <> AUnused -> happened tr (IAck r);
  l_why : i_done w = true -> some_ack tr \/ i_loop w = LEnded;
  l_crash : i_loop w = LCrash -> some_ack tr;
  l_none : i_loop w = LStart -> renewed tr = None;
  l_last : i_loop w <> LStart -> renewed tr = Some (i_last w);
  l_quit : i_loop w = LQuit -> i_done w = true \/ i_last w + give_up_after timeout <= now w;
  l_beat : (exists t, i_loop w = LSent t \/ exists st, i_loop w = LReply t st) -> beating tr }.

Lemma beating_push tr x : (forall t st, x <> Some (t, IAnswer st)) -> (forall t, x <> Some (t, IFailed)) -> beating tr -> beating (push x tr).
Proof.
  intros N1 N2 (l & t & a & -> & H). destruct x as [[t' e]|]; [|exists l, t, a; split; [reflexivity|exact H]].
  exists ((t', e) :: l), t, a. split; [reflexivity|]. intros e' [t2 [E|HI]]; [|apply H; exists t2; exact HI].
  injection E as -> ->. split; [intros st ->; exact (N1 _ _ eq_refl)|intros ->; exact (N2 _ eq_refl)].
Qed.
Lemma beating_sent tr t : beating ((t, ISent) :: tr).
Proof. exists [], t, tr. split; [reflexivity|]. intros e [t' []]. Qed.
Lemma renewed_push tr x : (forall t e, x = Some (t, e) -> renews e = false) -> renewed (push x tr) = renewed tr.
Proof. intros H. destruct x as [[t e]|]; [|reflexivity]. cbn. rewrite (H t e eq_refl). reflexivity. Qed.

Lemma linv_all tr w : exec any_time tr w -> linv tr w.
Proof.
  intros H. revert tr w H. apply (exec_ind any_time linv); [|intros tr w e w' _ [L1 L2 L3 L4 L5 L6 L7 L8] HS _].
  - split; cbn; try discriminate; try tauto.
    + split; [discriminate|intros [t []]].
    + intros (t & [E|(st & E)]); discriminate.
  - assert (D1 : forall x, (forall t, x <> Some (t, IDone)) -> (i_done w = true <-> happened (push x tr) IDone)).
    { intros x N. rewrite L1. split; [apply happened_push|]. intros [t HI]. apply push_in in HI. destruct HI as [E|HI]; [apply N in E; contradiction|exists t; exact HI]. }
    assert (D2 : forall x r, a_ph (i_acks w r) <> AUnused -> happened (push x tr) (IAck r)) by (intros; apply happened_push; auto).
    assert (D3 : forall x l, (i_loop w = LEnded -> l = LEnded) -> i_done w = true -> some_ack (push x tr) \/ l = LEnded).
    { intros x l HL HD. destruct (L3 HD) as [K|K]; [left; apply some_ack_push, K|right; auto]. }
    assert (D6 : forall x, (forall t e, x = Some (t, e) -> renews e = false) -> i_loop w <> LStart -> renewed (push x tr) = Some (i_last w)).
    { intros x N HL. rewrite renewed_push; auto. }
    assert (D5 : forall x, (forall t e, x = Some (t, e) -> renews e = false) -> i_loop w = LStart -> renewed (push x tr) = None).
    { intros x N HL. rewrite renewed_push; auto. }
    assert (D8 : forall x, (forall t st, x <> Some (t, IAnswer st)) -> (forall t, x <> Some (t, IFailed)) ->
      (exists t, i_loop w = LSent t \/ exists st, i_loop w = LReply t st) -> beating (push x tr)).
    { intros x N1 N2 K. apply beating_push; auto. }
    destruct HS; split; proj;
      try (match goal with |- _ <-> _ => apply D1; intros; discriminate end);
      try (match goal with |- forall r, _ -> happened _ (IAck r) => intros r'; first [apply D2 | destruct (Nat.eqb_spec r' r) as [->|NE]; [cbn; intros _; try apply D2; first [congruence | match goal with E : i_acks w r = _ |- _ => rewrite E; discriminate end]|apply D2]] end);
      try (match goal with |- _ = true -> some_ack _ \/ _ => apply D3; solve [congruence] end);
      try (match goal with |- _ = LCrash -> some_ack _ => solve [discriminate | intros; apply some_ack_push; auto] end);
      try (match goal with |- _ = LStart -> _ => first [discriminate | apply D5; intros t' e' E'; solve [congruence | injection E' as <- <-; reflexivity]] end);
      try (match goal with |- _ <> LStart -> _ => first [intros _; apply D6; [intros t' e' E'; solve [congruence | injection E' as <- <-; reflexivity]|congruence] | apply D6; intros t' e' E'; solve [congruence | injection E' as <- <-; reflexivity]] end);
      try (match goal with |- _ = LQuit -> _ => first [discriminate | exact L7 | intros; auto] end);
      try (match goal with |- (exists t, _) -> beating _ => first [apply D8; intros; discriminate | intros (t' & [E'|(st' & E')]); discriminate | solve [intros _; apply D8; [intros; discriminate ..|eauto]]] end).
    all: try (match goal with |- forall r, _ -> happened _ (IAck r) => intros r'; match goal with |- a_ph (if Nat.eqb r' ?r then _ else _) <> _ -> _ =>
           destruct (Nat.eqb_spec r' r) as [-> |NE]; [intros _|apply D2] end end).
    all: try (match goal with |- happened (push _ _) (IAck _) => apply D2; match goal with E : i_acks _ _ = _ |- _ => rewrite E; discriminate end end).
    all: try (match goal with |- _ = true \/ _ <= _ => match goal with E : i_loop _ = LQuit |- _ => destruct (L7 E) as [K|K]; [left; exact K|right; try rewrite H in K; cbn [hb_now] in K; lia] end end).
    all: try (match goal with |- _ <> LStart -> renewed _ = _ => intros _; reflexivity end).
    all: try (match goal with |- true = true <-> _ => split; [intros _; apply happened_here|reflexivity] end).
    + apply D1. destruct e; discriminate.
    + apply D5. destruct e; [intros t' e' E; injection E as <- <-; reflexivity|discriminate].
    + apply D6. destruct e; [intros t' e' E; injection E as <- <-; reflexivity|discriminate].
    + apply D8; destruct e; discriminate.
    + intros _. apply beating_sent.
    + intros _. apply some_ack_push. destruct (L3 H0) as [K|K]; [exact K|congruence].
    + intros _. apply D6; [|congruence]. intros t' e' E. injection E as <- <-. cbn [renews]. apply Nat.eqb_neq. intros ->. discriminate.
    + intros _. apply D6; [|congruence]. intros t' e' E. injection E as <- <-. cbn [renews]. apply Nat.eqb_neq. intros ->. discriminate.
    + intros _. apply D6; [|congruence]. intros t' e' E. injection E as <- <-. cbn [renews]. apply Nat.eqb_neq. assumption.
    + intros _. right. reflexivity.
    + apply happened_here.
    + intros _. left. exists r. apply D2. rewrite H0. discriminate.
Qed.

(** C74: why Done() is closed *)
Lemma done_reason ok t tr w : exec ok ((t, IDone) :: tr) w ->
  some_ack tr \/ exists c, renewed tr = Some c /\ c + give_up_after timeout <= t.
Proof.
  intros H. apply exec_any in H. unfold i_exec in H. remember ((t, IDone) :: tr) as h eqn:E. revert t tr E.
  induction H as [|h w e w' H IH HS OK]; intros t tr E; [discriminate|]. destruct e as [e|]; cbn [push] in E; [|eapply IH; exact E].
  injection E as <- -> ->. pose proof (linv_all _ _ H) as L.
  inversion HS; subst.
  - match goal with E : match ?x with _ => _ end = Some _ |- _ => destruct x; discriminate end.
  - destruct (l_quit _ _ L H0) as [K|K]; [congruence|]. right. exists (i_last w). split; [apply (l_last _ _ L); congruence|exact K].
  - left. exists r. apply (l_acks _ _ L). rewrite H1. discriminate.
Qed.
(** C74: a heartbeat after Done() *)
Lemma quiet ok t tr w : exec ok ((t, ISent) :: tr) w -> happened tr IDone -> some_ack tr.
Proof.
  intros H. apply exec_any in H. unfold i_exec in H. remember ((t, ISent) :: tr) as h eqn:E. revert t tr E.
  induction H as [|h w e w' H IH HS OK]; intros t tr E; [discriminate|]. destruct e as [e|]; cbn [push] in E; [|eapply IH; exact E].
  injection E as <- -> ->. intros HD. pose proof (linv_all _ _ H) as L. apply (l_done _ _ L) in HD.
  destruct (l_why _ _ L HD) as [K|K]; [exact K|].
  inversion HS; subst; [match goal with E : match ?x with _ => _ end = Some _ |- _ => destruct x; discriminate end|congruence].
Qed.
(** C75: the only way in which the client's process ends *)
Lemma crash_reason ok t tr w : exec ok ((t, ICrash) :: tr) w -> some_ack tr /\ beating tr.
Proof.
  intros H. apply exec_any in H. unfold i_exec in H. remember ((t, ICrash) :: tr) as h eqn:E. revert t tr E.
  induction H as [|h w e w' H IH HS OK]; intros t tr E; [discriminate|]. destruct e as [e|]; cbn [push] in E; [|eapply IH; exact E].
  injection E as <- -> ->. pose proof (linv_all _ _ H) as L.
  inversion HS; subst; [match goal with E : match ?x with _ => _ end = Some _ |- _ => destruct x; discriminate end|]. split.
  - destruct (l_why _ _ L H1) as [K|K]; [exact K|congruence].
  - apply (l_beat _ _ L). eexists. left. eassumption.
Qed.

(** C75: what ACK returns *)
Record kinv (tr : list (nat * i_event)) (w : iworld) : Prop := {
  k_over : over (i_hb w) -> delivery_over tr;
  k_reply : forall r, a_ph (i_acks w r) = AReply 200 -> delivery_over tr;
  k_got : forall r st, a_ph (i_acks w r) = AGot st -> happened tr (IAckAnswer r st) /\ (st = 200 -> delivery_over tr);
  k_odd : forall r, a_ph (i_acks w r) = AForward \/ a_ph (i_acks w r) = ACallback ->
     exists st, happened tr (IAckAnswer r st) /\ odd_answer st;
  k_new : forall r st, happened tr (IAckAnswer r st) ->
     match a_ph (i_acks w r) with AUnused | ACalled | AStopped | ASent | AReply _ => False | _ => True end;
  k_err : forall r, a_ph (i_acks w r) = AErr -> ~ happened tr (IAckAnswer r 200);
  k_one : forall r st, a_ph (i_acks w r) = AGot st -> forall st', happened tr (IAckAnswer r st') -> st' = st }.
Lemma kinv_all tr w : exec any_time tr w -> kinv tr w.
Proof.
  intros H. revert tr w H. apply (exec_ind any_time kinv); [|intros tr w e w' _ [K1 K2 K3 K4 K5 K6 K7] HS _].
  - split; cbn; try discriminate.
    + intros [E|E]; discriminate.
    + intros r [E|E]; discriminate.
    + intros r st [t []].
  - assert (D4 : forall x r, a_ph (i_acks w r) = AForward \/ a_ph (i_acks w r) = ACallback -> exists st, happened (push x tr) (IAckAnswer r st) /\ odd_answer st).
    { intros x r E. destruct (K4 r E) as (st & HH & O). exists st. split; [apply happened_push, HH|exact O]. }
    assert (D3 : forall x r st, a_ph (i_acks w r) = AGot st -> happened (push x tr) (IAckAnswer r st) /\ (st = 200 -> delivery_over (push x tr))).
    { intros x r st E. destruct (K3 r st E) as [HH O]. split; [apply happened_push, HH|intros E'; apply over_push; auto]. }
    assert (D2 : forall x r, a_ph (i_acks w r) = AReply 200 -> delivery_over (push x tr)) by (intros; apply over_push; eauto).
    assert (D1 : forall x, over (i_hb w) -> delivery_over (push x tr)) by (intros; apply over_push; eauto).
    assert (P : forall x r st, (forall t, x <> Some (t, IAckAnswer r st)) -> happened (push x tr) (IAckAnswer r st) -> happened tr (IAckAnswer r st)).
    { intros x r st N [t HI]. apply push_in in HI. destruct HI as [E|HI]; [apply N in E; contradiction|exists t; exact HI]. }
    assert (D5 : forall x, (forall t r st, x <> Some (t, IAckAnswer r st)) -> forall r st, happened (push x tr) (IAckAnswer r st) ->
      match a_ph (i_acks w r) with AUnused | ACalled | AStopped | ASent | AReply _ => False | _ => True end) by (intros x N r st HH; eapply K5, P; [|exact HH]; auto).
    assert (D6 : forall x, (forall t r st, x <> Some (t, IAckAnswer r st)) -> forall r, a_ph (i_acks w r) = AErr -> ~ happened (push x tr) (IAckAnswer r 200)).
    { intros x N r E HH. apply (K6 r E). eapply P; [|exact HH]. auto. }
    assert (D7 : forall x, (forall t r st, x <> Some (t, IAckAnswer r st)) -> forall r st, a_ph (i_acks w r) = AGot st -> forall st', happened (push x tr) (IAckAnswer r st') -> st' = st).
    { intros x N r st E st' HH. apply (K7 r st E st'). eapply P; [|exact HH]. auto. }
    (* steps that leave the acks alone *)
    assert (SAME : forall x l la n b d cb sw, (forall t r st, x <> Some (t, IAckAnswer r st)) -> forall h, (over h -> delivery_over (push x tr)) ->
      kinv (push x tr) (mkI h l la n b d (i_acks w) cb sw)).
    { intros x l la n b d cb sw N h O. split; proj; [exact O|exact (D2 x)|exact (D3 x)|exact (D4 x)|exact (D5 x N)|exact (D6 x N)|exact (D7 x N)]. }
    (* steps of ACK r *)
    assert (ONE : forall x r p ct l la n b d cb sw h,
       (forall t r' st, r' <> r -> x <> Some (t, IAckAnswer r' st)) -> (over h -> delivery_over (push x tr)) ->
       (p = AReply 200 -> delivery_over (push x tr)) ->
       (forall st, p = AGot st -> happened (push x tr) (IAckAnswer r st) /\ (st = 200 -> delivery_over (push x tr)) /\ forall st', happened (push x tr) (IAckAnswer r st') -> st' = st) ->
       (p = AForward \/ p = ACallback -> exists st, happened (push x tr) (IAckAnswer r st) /\ odd_answer st) ->
       (match p with AUnused | ACalled | AStopped | ASent | AReply _ => forall st, ~ happened (push x tr) (IAckAnswer r st) | _ => True end) ->
       (p = AErr -> ~ happened (push x tr) (IAckAnswer r 200)) ->
       kinv (push x tr) (mkI h l la n b d (fun k => if Nat.eqb k r then mkAck p ct else i_acks w k) cb sw)).
    { intros x r p ct l la n b d cb sw h N O Q2 Q3 Q4 Q5 Q6. split; proj; [exact O|..].
      - intros r'. destruct (Nat.eqb_spec r' r) as [-> |NE]; [exact Q2|apply D2].
      - intros r' st. destruct (Nat.eqb_spec r' r) as [-> |NE]; [|apply D3]. intros E. destruct (Q3 st E) as (A & B & _). split; assumption.
      - intros r'. destruct (Nat.eqb_spec r' r) as [-> |NE]; [exact Q4|apply D4].
      - intros r' st. destruct (Nat.eqb_spec r' r) as [-> |NE].
        + cbn. intros HH. destruct p; try exact I; exact (Q5 _ HH).
        + intros HH. eapply K5, P; [|exact HH]. intros t. apply N. exact NE.
      - intros r'. destruct (Nat.eqb_spec r' r) as [-> |NE]; [exact Q6|]. intros E HH. apply (K6 r' E). eapply P; [|exact HH]. intros t. apply N. exact NE.
      - intros r' st. destruct (Nat.eqb_spec r' r) as [-> |NE]; [intros E; exact (proj2 (proj2 (Q3 st E)))|].
        intros E st' HH. apply (K7 r' st E st'). eapply P; [|exact HH]. intros t. apply N. exact NE. }
    assert (NEW : forall x r, (forall t st, x <> Some (t, IAckAnswer r st)) ->
       (match a_ph (i_acks w r) with AUnused | ACalled | AStopped | ASent | AReply _ => True | _ => False end) ->
       forall st, ~ happened (push x tr) (IAckAnswer r st)).
    { intros x r N M st HH. apply P in HH; [|auto]. apply K5 in HH. destruct (a_ph (i_acks w r)); contradiction. }
    destruct HS; proj; try (apply SAME; [intros; discriminate|apply D1]).
    1: { (* time *) apply SAME; [intros; discriminate|]. rewrite H in D1. exact (D1 None). }
    1: { (* service *) apply SAME; [destruct e; intros; discriminate|]. intros O. destruct (hb_over _ _ _ H O) as [O'|(e' & -> & HE)]; [apply D1, O'|].
      destruct HE as [-> |[-> |[k ->]]]; [left|right; left|right; right; exists k]; apply happened_here. }
    1: { (* heartbeat *) apply SAME; [intros; discriminate|]. intros O. destruct (hb_over _ _ _ H0 O) as [O'|(e' & E & HE)]; [apply D1, O'|].
      injection E as <-. destruct HE as [E |[E |[k E]]]; discriminate. }
    all: unfold set_ack; proj.
    all: apply ONE; [first [intros; discriminate | intros; congruence]|try apply D1|try discriminate|try discriminate|try (intros [E'|E']; discriminate)|try exact I|try discriminate].
    all: try (apply NEW; [intros; discriminate|match goal with E : i_acks _ _ = _ |- _ => rewrite E; exact I | E : a_ph (i_acks _ _) = _ |- _ => rewrite E; exact I end]).
    all: try (intros _; apply NEW; [intros; discriminate|match goal with E : i_acks _ _ = _ |- _ => rewrite E; exact I end]).
    + (* rejected *) intros E. injection E as ->. unfold validate_headers in H0. destruct (String.eqb ct ""); discriminate.
    + (* handled *) intros O. destruct (hb_over _ _ _ H0 O) as [O'|(e' & E & HE)]; [apply D1, O'|].
      injection E as <-. destruct HE as [E |[E |[k E]]]; try discriminate. injection E as <- ->. right. right. eexists. apply happened_here.
    + intros E. destruct ok; [|discriminate]. right. right. eexists. apply happened_here.
    + intros E. apply D1. exact H1.
    + intros E. congruence.
    + (* got *) intros st' E. injection E as <-. split; [apply happened_here|]. split.
      * intros ->. apply (D2 _ r). rewrite H0. reflexivity.
      * intros st' [t' [E|HI]]; [injection E as _ E; symmetry; exact E|]. exfalso. assert (HH : happened tr (IAckAnswer r st')) by (exists t'; exact HI).
        apply K5 in HH. rewrite H0 in HH. exact HH.
    + (* known *) intros _ HH. apply P in HH; [|discriminate]. assert (E : a_ph (i_acks w r) = AGot st) by (rewrite H0; reflexivity).
      apply (K7 r st E) in HH. subst. discriminate.
    + (* odd *) intros _. assert (E : a_ph (i_acks w r) = AGot st) by (rewrite H0; reflexivity). exists st. split; [exact (proj1 (K3 r st E))|apply odd_iff; assumption].
    + intros _. apply D4. rewrite H0. left. reflexivity.
Qed.

Lemma ack_returns ok t r nil tr w : exec ok ((t, IAckReturn r nil) :: tr) w ->
  if nil then exists st, happened tr (IAckAnswer r st) /\ (st = 200 /\ delivery_over tr \/ odd_answer st)
  else ~ happened tr (IAckAnswer r 200).
Proof.
  intros H. apply exec_any in H. unfold i_exec in H. remember ((t, IAckReturn r nil) :: tr) as h eqn:E. revert t tr E.
  induction H as [|h w e w' H IH HS OK]; intros t tr E; [discriminate|]. destruct e as [e|]; cbn [push] in E; [|eapply IH; exact E].
  injection E as <- -> ->. pose proof (kinv_all _ _ H) as K.
  inversion HS; subst.
  - match goal with E : match ?x with _ => _ end = Some _ |- _ => destruct x; discriminate end.
  - intros HH. apply (k_new _ _ K) in HH. match goal with E : i_acks w r = _ |- _ => rewrite E in HH; exact HH end.
  - assert (E : a_ph (i_acks w r) = AGot 200) by (match goal with E : i_acks w r = _ |- _ => rewrite E; reflexivity end). exists 200. destruct (k_got _ _ K r 200 E) as [A B]. split; [exact A|left; auto].
  - assert (E : a_ph (i_acks w r) = AGot st) by (match goal with E : i_acks w r = _ |- _ => rewrite E; reflexivity end). intros HH. apply (k_one _ _ K r st E) in HH. subst. discriminate.
  - destruct (k_odd _ _ K r) as (st & A & B); [match goal with E : i_acks w r = _ |- _ => rewrite E; left; reflexivity end|]. exists st. split; [exact A|right; exact B].
  - destruct (k_odd _ _ K r) as (st & A & B); [match goal with E : i_acks w r = _ |- _ => rewrite E; right; reflexivity end|]. exists st. split; [exact A|right; exact B].
Qed.

(** C74: a prompt client closes Done() in time *)
Definition late (D : nat) (w : iworld) : nat := i_last w + give_up_after timeout + Nat.max (beat_every timeout) D.
Definition pinv (D : nat) (w : iworld) : Prop :=
  match i_loop w with
  | LStart => True
  | LTicker => now w = i_last w
  | LSelect => i_done w = true \/ (now w <= late D w /\ (i_tick w = false -> i_next w <= i_last w + give_up_after timeout + beat_every timeout) /\ i_next w <= now w + beat_every timeout)
  | LSent t | LReply t _ => i_done w = true \/ (t <= now w /\ now w <= t + D /\ t < i_last w + give_up_after timeout /\ i_next w <= now w + beat_every timeout /\ (i_tick w = false -> i_next w <= t + beat_every timeout))
  | LForward | LCallback | LNested => i_done w = true \/ (now w <= late D w /\ (i_tick w = false -> i_next w <= i_last w + give_up_after timeout + beat_every timeout) /\ i_next w <= now w + beat_every timeout)
  | LQuit => i_done w = true \/ now w <= late D w
  | LEnded | LCrash => i_done w = true
  end.
Lemma pinv_all D tr w : exec (client_prompt D) tr w -> pinv D w.
Proof.
  intros H. revert tr w H. apply (exec_ind (client_prompt D) (fun tr w => pinv D w)); [exact I|]. intros tr w e w' HX P HS OK.
  pose proof (linv_all _ _ (exec_any _ _ _ HX)) as L. pose proof (l_crash _ _ L) as LC. clear HX.
  unfold pinv, late in *. destruct HS; proj; try (match goal with E : i_loop w = _ |- _ => rewrite E in P end); try exact P; try tauto.
  - (* time *) rewrite H in *. proj. destruct OK as [OK|OK]; [replace d with 0 in * by lia; rewrite Nat.add_0_r; exact P|].
    unfold client_prompt in OK. unfold now in OK. rewrite H in OK. cbn [hb_now] in OK. replace (n + d - n) with d in OK by lia.
    destruct (i_loop w); try contradiction; try exact P.
    + destruct OK as (T & DN & N). right. destruct P as [P|(P1 & P2 & P3)]; [congruence|]. pose proof (P2 T). repeat split; auto; lia.
    + destruct OK as (T & N). destruct P as [P|(P1 & P2 & P3 & P4 & P5)]; [left; exact P|right]. repeat split; auto; lia.
    + destruct OK as (T & N). destruct P as [P|(P1 & P2 & P3 & P4 & P5)]; [left; exact P|right]. repeat split; auto; lia.
  - rewrite H0. exact P.
  - destruct (i_loop w); try contradiction; try exact P; (destruct P as [P|P]; [left; exact P|right; repeat split; try discriminate; lia]).
  - right. repeat split; lia.
  - destruct P as [P|(P1 & P2 & P3)]; [left; exact P|right]. repeat split; lia.
  - rewrite H1. exact P.
  - destruct P as [P|(P1 & P2 & P3 & P4 & P5)]; [left; exact P|right]. repeat split; [lia|intros T; specialize (P5 T); lia|lia].
  - destruct P as [P|(P1 & P2 & P3 & P4 & P5)]; [left; exact P|right]. repeat split; [lia|intros T; specialize (P5 T); lia|lia].
  - destruct P as [P|(P1 & P2 & P3 & P4 & P5)]; [left; exact P|right]. repeat split; [lia|intros T; specialize (P5 T); lia|lia].
  - destruct P as [P|(P1 & P2 & P3 & P4 & P5)]; [left; exact P|right]. repeat split; [lia|intros T; specialize (P5 T); lia|lia].
  - destruct (i_loop w); try exact P; try reflexivity; left; reflexivity.
  - rewrite H1. exact P.
Qed.
Lemma done_bounded D tr w c : exec (client_prompt D) tr w -> ~ happened tr IDone -> renewed tr = Some c ->
  now w <= c + give_up_after timeout + Nat.max (beat_every timeout) D.
Proof.
  intros H ND R. pose proof (linv_all _ _ (exec_any _ _ _ H)) as L. pose proof (pinv_all _ _ _ H) as P.
  assert (ND' : i_done w <> true) by (intros E; apply ND, (l_done _ _ L), E).
  assert (NS : i_loop w <> LStart) by (intros E; rewrite (l_none _ _ L E) in R; discriminate).
  rewrite (l_last _ _ L NS) in R. injection R as <-. unfold pinv, late in P.
  destruct (i_loop w); try contradiction; try (destruct P as [P|P]; [contradiction|lia]). lia.
Qed.

(** C73: nothing keeps the delivery from being ended by the service *)
Definition tinv (tr : list (nat * i_event)) (h : hb_state) : Prop :=
  (hb_ph h = HInit -> forall s i, ~ In (s, IServer (HStart i true)) tr) /\
  (forall next tick, hb_ph h = HRun next tick -> exists t e, In (t, IServer e) tr /\ hb_now h <= t + timeout /\
     (tick = false -> next = t + timeout) /\
     ((exists i, e = HStart i true /\ forall s j, In (s, IServer (HStart j true)) tr -> s = t) \/ exists i, e = HBeat i true)).
Lemma tinv_push x tr h : (forall t i, x <> Some (t, IServer (HStart i true))) -> tinv tr h -> tinv (push x tr) h.
Proof.
  intros N [T1 T2]. split.
  - intros HI s i HH. apply push_in in HH. destruct HH as [E|HH]; [apply N in E; exact E|exact (T1 HI s i HH)].
  - intros next tick HR. destruct (T2 next tick HR) as (t & e2 & A & B & C & D). exists t, e2. split; [destruct x; [right|]; exact A|]. split; [exact B|]. split; [exact C|].
    destruct D as [(i & D1 & D2)|D]; [left; exists i; split; [exact D1|]|right; exact D]. intros s j HH. apply push_in in HH. destruct HH as [E|HH]; [apply N in E; contradiction|exact (D2 s j HH)].
Qed.
Lemma tinv_step tr h e h' : tinv tr h -> hb_step timeout h e h' -> hb_now h' = hb_now h ->
  tinv (push (match e with Some e => Some (hb_now h, IServer e) | None => None end) tr) h'.
Proof.
  intros T HS HN. destruct HS; cbn [hb_now] in *;
    try (match goal with |- tinv (push ?x tr) (mkHb _ ?ph _ _ _) => apply (tinv_push x tr) in T; [solve [exact T | split; cbn [hb_ph hb_now]; [discriminate|intros; discriminate]]|intros; discriminate] end).
  - replace d with 0 by lia. rewrite Nat.add_0_r. exact T.
  - (* fire *) apply (tinv_push None) in T; [|discriminate]. destruct T as [_ T2]. split; cbn [hb_ph hb_now push] in *; [discriminate|].
    intros nx tk E. injection E as <- <-. destruct (T2 _ _ eq_refl) as (t & e2 & A & B & C & D). exists t, e2. repeat split; auto. discriminate.
  - (* start *) destruct T as [T1 _]. split; cbn [hb_ph hb_now push] in *; [discriminate|]. intros nx tk E. injection E as <- <-.
    exists n, (HStart i true). split; [left; reflexivity|]. split; [lia|]. split; [reflexivity|]. left. exists i. split; [reflexivity|].
    intros s' j [E|HH]; [congruence|]. apply T1 in HH; [contradiction|reflexivity].
  - (* heartbeat *) split; cbn [hb_ph hb_now push] in *; [discriminate|]. intros nx tk E. injection E as <- <-.
    exists n, (HBeat i true). split; [left; reflexivity|]. split; [lia|]. split; [reflexivity|]. right. exists i. reflexivity.
Qed.
Lemma tinv_all tr w : exec server_prompt tr w -> tinv tr (i_hb w).
Proof.
  intros H. revert tr w H. apply (exec_ind server_prompt (fun tr w => tinv tr (i_hb w))); [split; cbn; [intros _ s i []|discriminate]|].
  intros tr w e w' _ T HS OK. destruct HS; proj; try (apply tinv_push; [intros; discriminate|exact T]).
  - (* time *) destruct T as [T1 T2]. rewrite H in *. cbn [hb_ph hb_now push] in *. split; cbn [hb_ph hb_now push]; [exact T1|].
    intros nx tk E. destruct (T2 nx tk E) as (t & e2 & A & B & C & DD). exists t, e2. repeat split; auto.
    destruct OK as [OK|OK]; [lia|]. unfold server_prompt, now in OK. rewrite H in OK. cbn [hb_ph hb_now] in OK. rewrite E in OK. destruct OK as [O1 O2]. rewrite (C O1) in O2. lia.
  - pose proof (tinv_step _ _ _ _ T H H0) as T'. destruct e; exact T'.
  - exact (tinv_step _ _ _ _ T H0 H1).
  - exact (tinv_step _ _ _ _ T H0 H1).
Qed.
Lemma lost tr w s i : exec server_prompt tr w -> In (s, IServer (HStart i true)) tr -> s + timeout < now w ->
  delivery_over tr \/ exists k, (forall n, k <> 3 * n) /\ happened tr (IServer (HBeat k true)).
Proof.
  intros H HI HL. destruct (tinv_all _ _ H) as [T1 T2]. pose proof (kinv_all _ _ (exec_any _ _ _ H)) as K.
  pose proof (rejected_inv _ _ (exec_any _ _ _ H)) as (_ & _ & R & _).
  destruct (hb_ph (i_hb w)) as [|next tick| |] eqn:E.
  - apply T1 in HI; [contradiction|reflexivity].
  - destruct (T2 _ _ eq_refl) as (t & e & A & B & _ & [(j & -> & D)|(j & ->)]).
    + apply D in HI. subst. unfold now in HL. lia.
    + right. exists j. split; [|exists t; exact A]. intros n ->. apply (R n true). exists t. exact A.
  - left. apply (k_over _ _ K). left. exact E.
  - left. apply (k_over _ _ K). right. exact E.
Qed.

(** C74: a callback that sets the callback *)
Lemma nested_for_ever w0 tr w : i_loop w0 = LNested -> i_done w0 = false -> (forall r, a_ph (i_acks w0 r) = AUnused) ->
  i_run timeout any_time w0 tr w -> (forall r, ~ happened tr (IAck r)) -> i_loop w = LNested /\ i_done w = false /\ (forall r, a_ph (i_acks w r) = AUnused) /\ ~ happened tr IDone.
Proof.
  intros E1 E2 E3 H. induction H as [|tr w e w' H IH HS _]; intros NA.
  - repeat split; auto. intros [t []].
  - destruct IH as (I1 & I2 & I3 & I4).
    { intros r HH. apply (NA r). apply happened_push, HH. }
    assert (P : forall x, (forall t, x <> Some (t, IDone)) -> ~ happened (push x tr) IDone).
    { intros x N [t HI]. apply push_in in HI. destruct HI as [E|HI]; [exact (N t E)|]. apply I4. exists t. exact HI. }
    destruct HS; proj; try congruence;
      try (match goal with E : i_acks w ?r = _ |- _ => specialize (I3 r); rewrite E in I3; discriminate end);
      try (repeat split; auto; apply P; intros; discriminate).
    + repeat split; auto. apply P. destruct e; discriminate.
    + exfalso. apply (NA r). apply happened_here.
Qed.
End Proofs.
Lemma never_accepted timeout ok tr w : i_exec timeout ok tr w ->
  (forall n accepted, ~ happened tr (IServer (HBeat (3 * n) accepted))) /\ ~ happened tr (IAnswer 200).
Proof. intros H. apply exec_any in H. apply rejected_inv in H. destruct H as [_ [_ H]]. exact H. Qed.
Lemma started_renewed timeout ok tr w s : i_exec timeout ok tr w -> In (s, IStarted) tr -> renewed tr = Some s.
Proof.
  intros H. pose proof (never_accepted _ _ _ _ H) as [_ N]. apply exec_any in H. revert s.
  enough (G : (i_loop w = LStart -> forall s, ~ In (s, IStarted) tr) /\ forall s, In (s, IStarted) tr -> renewed tr = Some s) by (intros s; apply G).
  clear -H. revert tr w H. apply (exec_ind timeout any_time (fun tr w => (i_loop w = LStart -> forall s, ~ In (s, IStarted) tr) /\ forall s, In (s, IStarted) tr -> renewed tr = Some s)).
  - split; [intros _ s []|intros s []].
  - intros tr w e w' H [I1 I2] S _. pose proof (never_accepted _ _ _ _ (IR_step _ _ _ _ _ _ _ H S (or_intror I))) as [_ N].
    assert (K : (e = Some IStarted /\ i_loop w = LStart /\ i_loop w' <> LStart) \/ (e <> Some IStarted /\ (i_loop w' = LStart -> i_loop w = LStart))).
    { inversion S; subst; cbn; try (right; split; [discriminate|congruence]); try (left; repeat split; congruence).
      right. split; [destruct e0; discriminate|tauto]. }
    destruct K as [[-> [L L']]|[E L]].
    + split; [congruence|]. cbn. intros s [X|X]; [congruence|]. destruct (I1 L s X).
    + split.
      * intros L' s X. apply push_in in X. destruct X as [X|X]; [|exact (I1 (L L') s X)]. destruct e; [injection X as _ X; subst; congruence|discriminate].
      * intros s X. apply push_in in X. destruct X as [X|X]; [destruct e; [injection X as _ X; subst; congruence|discriminate]|].
        rewrite renewed_push; [exact (I2 s X)|]. intros t e' X'. destruct e as [e|]; [injection X' as <- <-|discriminate].
        destruct e; try reflexivity; [congruence|]. cbn. apply Nat.eqb_neq. intros ->. apply N. exists (now w). left. reflexivity.
Qed.
Lemma given_up timeout D tr w s : i_exec timeout (client_prompt D) tr w -> In (s, IStarted) tr ->
  s + give_up_after timeout + Nat.max (beat_every timeout) D < now w -> happened tr IDone.
Proof.
  intros H X L. pose proof (l_done _ _ _ (linv_all _ _ _ (exec_any _ _ _ _ H))) as I. destruct (i_done w) eqn:E; [apply I; reflexivity|]. exfalso.
  assert (K : ~ happened tr IDone) by (intros K; apply I in K; discriminate).
  pose proof (done_bounded _ _ _ _ _ H K (started_renewed _ _ _ _ _ H X)). lia.
Qed.
