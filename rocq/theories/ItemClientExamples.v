(** Concrete histories of a dequeued item (timeout 30: a heartbeat every 9, given up after 27). *)
From Coq Require Import String List Bool Arith Lia.
From Verif Require Import DestroySync Heartbeater SpecHeartbeater ItemClient SpecItemClient ItemClientProofs.
Import ListNotations.
Local Open Scope nat_scope.
Local Open Scope list_scope.

Lemma begun_less w h : (forall k, hb_calls h k <> NoCall -> hb_calls (i_hb w) k <> NoCall \/ k = 2) -> begun w h.
Proof. intros H. split; intros n E; left; (destruct (H _ E) as [K|K]; [exact K|lia]). Qed.
Lemma begun_ack w h r : (forall k, hb_calls h k <> NoCall -> hb_calls (i_hb w) k <> NoCall \/ k = 3 * r + 1) -> hb_calls h (3 * r + 1) = PStop ->
  ack_sent (i_acks w r) -> validate_headers (a_ct (i_acks w r)) = None -> begun w h.
Proof.
  intros H P A V. split; intros n E; (destruct (H _ E) as [K|K]; [left; exact K|]); [lia|]. replace n with r by lia. right. auto.
Qed.
Ltac calls := intros k; cbn; unfold set_call; cbn; repeat (match goal with |- context [Nat.eqb k ?z] => destruct (Nat.eqb_spec k z) end; cbn); auto; intros; try congruence; auto.
Ltac writers := repeat split; try reflexivity; try discriminate; cbn; let r := fresh in intros r;
  repeat (match goal with |- context [if Nat.eqb r ?z then _ else _] => destruct (Nat.eqb r z) end; cbn); first [reflexivity | discriminate].
Ltac idle := let i := fresh in intros i; unfold set_call; repeat (match goal with |- context [Nat.eqb i ?z] => destruct (Nat.eqb_spec i z) end); solve [reflexivity | congruence | lia].
Ltac okt := first [left; reflexivity | right; first [exact I | unfold all_prompt, client_prompt, server_prompt, now;
  cbn [set_hb i_hb i_loop i_last i_next i_tick i_done i_acks i_cb i_set hb_now hb_ph hb_calls]; try (split; [|split; [|split; [idle|discriminate]]]); repeat split; try lia; exact I]].
Ltac flat x := eval cbv beta iota delta [set_hb set_loop set_last set_ticker close_done set_ack set_callback set_waiting i_hb i_loop i_last i_next i_tick i_done i_acks
  i_cb i_set hb_now hb_ph hb_started hb_down hb_calls now push beat_every give_up_after i_init hb_init Nat.add Nat.sub Nat.div Nat.divmod fst snd Nat.mul] in x.
Ltac norm H := match type of H with i_exec ?t ?ok ?h ?w => let h2 := flat h in let w2 := flat w in change (i_exec t ok h2 w2) in H end.
Ltac side := first [reflexivity | discriminate | exact I | cbn; lia | writers | idtac].
Tactic Notation "go" uconstr(c) := match goal with H : i_exec ?t ?ok ?h ?w |- _ => let X := fresh in
  eassert (X : i_step t w _ _) by (eapply c; side); apply (IR_step _ _ _ _ _ _ _ H) in X; [|okt]; clear H; rename X into H; fold (i_exec t ok) in H; norm H end.
Tactic Notation "srv" uconstr(c) := match goal with H : i_exec ?t ?ok ?h ?w |- _ => let X := fresh in
  eassert (X : i_step t w _ _) by (eapply I_server; [eapply c; side|reflexivity|apply begun_less; calls]); apply (IR_step _ _ _ _ _ _ _ H) in X; [|okt]; clear H; rename X into H; fold (i_exec t ok) in H; norm H end.
Tactic Notation "wait" constr(d) := go (I_time 30 _ d).
(* the service starts the heartbeater, the client its goroutine *)
Ltac begin := srv (B_start_call 30 _ _ _ _ 2); srv (B_start 30 _ _ _ _ 2); go (I_start 30); go (I_ticker 30).

Lemma e0 ok : i_exec 30 ok [] i_init. Proof. constructor. Qed.

Ltac found := eexists; cbn; intuition reflexivity.
Ltac absent := let t := fresh in let X := fresh in intros [t X]; cbn in X; intuition discriminate.
(* the next tick is taken, the heartbeat is answered by the service and its answer received *)
Ltac beat := go (I_fire 30); go (I_send 30); go (I_rejected 30); go (I_known 30); go (I_no_callback 30).
Ltac ack r ct := go (I_ack 30 _ r (Some ct)); go (I_ack_stop 30 _ r); go (I_ack_send 30 _ r).
(* the service begins to handle ACK r *)
Ltac ack_begins r := match goal with H : i_exec ?t ?ok ?h ?w |- _ => let X := fresh in
  eassert (X : i_step t w _ _) by (eapply I_server; [eapply (B_stop_call 30 _ _ _ _ _ (3 * r + 1)); side|reflexivity|apply (begun_ack _ _ r); [calls|reflexivity|exact I|reflexivity]]);
  apply (IR_step _ _ _ _ _ _ _ H) in X; [|okt]; clear H; rename X into H; fold (i_exec t ok) in H; norm H end.

(** nobody is slow, nothing fails, nobody acks: the service takes the item away *)
Lemma kept_history : exists tr w, i_exec 30 all_prompt tr w /\ happened tr (IServer HTimeout) /\ (forall r, ~ happened tr (IAck r)) /\ ~ happened tr IFailed /\
  ~ happened tr ICrash /\ In (18, ISent) tr /\ In (27, IDone) tr.
Proof.
  pose proof (e0 all_prompt) as H. begin. wait 9. beat. wait 9. beat.
  wait 9. go (I_fire 30). go (I_give_up 30). go (I_stop 30). wait 3. srv (B_fire 30). srv (B_timeout 30).
  do 2 eexists. split; [exact H|]. repeat split; [found|intros r; absent|absent|absent|cbn; tauto|cbn; tauto].
Qed.
(** the first heartbeat is never answered: Done() stays open however long the item has been taken away *)
Lemma hung_history D : exists tr w, i_exec 30 any_time tr w /\ In (30, IServer HTimeout) tr /\ now w = 30 + D /\ ~ happened tr IDone /\ (forall r, ~ happened tr (IAck r)) /\
  i_loop w = LSent 9.
Proof.
  pose proof (e0 any_time) as H. begin. wait 9. go (I_fire 30). go (I_send 30). wait 21. srv (B_fire 30). srv (B_timeout 30). wait D.
  do 2 eexists. split; [exact H|]. repeat split; [cbn; tauto|absent|intros r; absent].
Qed.
(** the callback sets the callback *)
Lemma nested_history : exists tr w, i_exec 30 any_time tr w /\ i_loop w = LNested /\ i_done w = false /\ (forall r, a_ph (i_acks w r) = AUnused) /\
  ~ happened tr IFailed /\ ~ happened tr IDone /\ In (9, IAnswer 400) tr /\ (forall r, ~ happened tr (IAck r)).
Proof.
  pose proof (e0 any_time) as H. go (I_set 30 _ 0). go (I_set_done 30 _ 0). begin. wait 9. go (I_fire 30). go (I_send 30). go (I_rejected 30). go (I_known 30).
  go (I_callback 30).
  go (I_nested 30). do 2 eexists. split; [exact H|]. repeat split; [absent|absent|cbn; tauto|intros r; absent].
Qed.
(** a heartbeat is sent after ACK was called *)
Lemma after_history : exists tr w, i_exec 30 any_time ((9, ISent) :: tr) w /\ happened tr IDone.
Proof.
  pose proof (e0 any_time) as H. begin. wait 9. go (I_fire 30). go (I_ack 30 _ 0 None). go (I_ack_stop 30 _ 0). go (I_send 30).
  do 2 eexists. split; [exact H|]. found.
Qed.
(** ACK is called while a heartbeat is under way whose request then fails *)
Lemma crash_history : exists tr w, i_exec 30 any_time ((9, ICrash) :: tr) w /\ In (9, IAck 0) tr.
Proof.
  pose proof (e0 any_time) as H. begin. wait 9. go (I_fire 30). go (I_send 30). go (I_ack 30 _ 0 None). go (I_ack_stop 30 _ 0). go (I_fail_done 30).
  do 2 eexists. split; [exact H|]. cbn. tauto.
Qed.
(** a proxy answers 503 to the ACK: it returns nil, and the service knows nothing of it *)
Lemma nil_history : exists tr w, i_exec 30 any_time ((9, IAckReturn 0 true) :: tr) w /\ In (9, IAckAnswer 0 503) tr /\ ~ delivery_over tr /\ hb_ph (i_hb w) = HRun 30 false.
Proof.
  pose proof (e0 any_time) as H. begin. wait 9. ack 0 "application/json"%string. go (I_ack_between 30 _ 0 _ 503). go (I_ack_receive 30 _ 0).
  go (I_ack_unknown 30 _ 0). go (I_ack_no_callback 30 _ 0).
  do 2 eexists. split; [exact H|]. repeat split; [cbn; tauto|]. intros [K|[K|[k K]]]; revert K; absent.
Qed.
(** a heartbeat that is rejected, and an ACK that the service accepts *)
Lemma plain_history : exists tr w, i_exec 30 all_prompt ((9, IAckReturn 0 true) :: tr) w /\ In (9, IAckAnswer 0 200) tr /\ In (9, IServer (HStop 1 true)) tr /\ In (9, IAnswer 400) tr /\
  happened tr IDone.
Proof.
  pose proof (e0 all_prompt) as H. begin. wait 9. beat. ack 0 "application/json"%string. ack_begins 0.
  match goal with H : i_exec ?t ?ok ?h ?w |- _ => let X := fresh in
    eassert (X : i_step t w _ _) by (eapply (I_ack_handled 30 _ 0 _ true); [reflexivity|eapply (B_stop_run 30); reflexivity|reflexivity]);
    apply (IR_step _ _ _ _ _ _ _ H) in X; [|okt]; clear H; rename X into H; fold (i_exec t ok) in H; norm H end.
  go (I_ack_receive 30 _ 0). go (I_ack_ok 30 _ 0).
  do 2 eexists. split; [exact H|]. repeat split; [cbn; tauto|cbn; tauto|cbn; tauto|found].
Qed.
(** a prompt service, an idle client *)
Lemma service_history : exists tr w, i_exec 30 server_prompt tr w /\ In (0, IServer (HStart 2 true)) tr /\ 0 + 30 < now w.
Proof.
  pose proof (e0 server_prompt) as H. srv (B_start_call 30 _ _ _ _ 2). srv (B_start 30 _ _ _ _ 2). wait 30. srv (B_fire 30). srv (B_timeout 30). srv (B_close 30). wait 1.
  do 2 eexists. split; [exact H|]. split; [cbn; tauto|cbn; lia].
Qed.
(** a prompt client *)
Lemma client_history : exists tr w, i_exec 30 (client_prompt 5) tr w /\ ~ happened tr IDone /\ renewed tr = Some 0 /\ now w = 23.
Proof.
  pose proof (e0 (client_prompt 5)) as H. begin. wait 9. go (I_fire 30). go (I_send 30). wait 2. go (I_rejected 30). wait 3. go (I_known 30). go (I_no_callback 30).
  wait 4. go (I_fire 30). go (I_send 30). wait 5.
  do 2 eexists. split; [exact H|]. repeat split. absent.
Qed.

Lemma not_kept : ~ (forall timeout tr w, i_exec timeout all_prompt tr w -> happened tr (IServer HTimeout) -> some_ack tr \/ happened tr IFailed \/ happened tr ICrash).
Proof. intros F. destruct kept_history as [tr [w [H [T [A [X [C _]]]]]]]. destruct (F _ _ _ H T) as [[r K]|[K|K]]; [apply (A r K)|apply (X K)|apply (C K)]. Qed.
Lemma hung : ~ (forall timeout, exists D, forall tr w t, i_exec timeout any_time tr w -> In (t, IServer HTimeout) tr -> t + D < now w -> happened tr IDone).
Proof.
  intros F. destruct (F 30) as [D HD]. destruct (hung_history (Datatypes.S D)) as [tr [w [H [T [N [X _]]]]]]. apply X. apply (HD tr w 30 H T). rewrite N. lia.
Qed.
Lemma callback_blocks : ~ (forall timeout tr w, i_exec timeout any_time tr w -> exists tr' w', i_run timeout any_time w tr' w' /\
  (happened tr IDone \/ happened tr' IDone) /\ forall r, ~ happened tr' (IAck r)).
Proof.
  intros F. destruct nested_history as [tr [w [H [L [D [A [_ [N _]]]]]]]]. destruct (F _ _ _ H) as [tr' [w' [R [K Q]]]].
  destruct (nested_for_ever 30 w tr' w' L D A R Q) as [_ [_ [_ X]]]. destruct K as [K|K]; [apply (N K)|apply (X K)].
Qed.
Lemma not_quiet : ~ (forall timeout tr w t, i_exec timeout any_time ((t, ISent) :: tr) w -> ~ happened tr IDone).
Proof. intros F. destruct after_history as [tr [w [H K]]]. exact (F _ _ _ _ H K). Qed.
Lemma nil_unknown : ~ (forall timeout tr w t r, i_exec timeout any_time ((t, IAckReturn r true) :: tr) w -> delivery_over tr).
Proof. intros F. destruct nil_history as [tr [w [H [_ [K _]]]]]. exact (K (F _ _ _ _ _ H)). Qed.
Lemma crashes : ~ (forall timeout tr w, i_exec timeout any_time tr w -> ~ happened tr ICrash).
Proof. intros F. destruct crash_history as [tr [w [H _]]]. apply (F _ _ _ H). exists 9. left. reflexivity. Qed.
