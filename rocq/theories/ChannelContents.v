(** What a channel contains: C37, C38, C39, C41, C43 *)
From Coq Require Import String List Bool Arith NArith ZArith Lia.
From Verif Require Import Channel SpecChannel ChannelProofs.
Import ListNotations.

(** failItem, case by case *)
Inductive failed (c : channel) (i : id) (x : item) (c' : channel) : fate -> Prop :=
| F_dropped : (p_max (it_props x) < incr64 (it_count x))%N -> items c' = del i (items c) -> wait c' = wait c ->
    tokens c' = tokens c -> enq c' = pred (enq c) -> failed c i x c' Dropped
| F_superseded : (incr64 (it_count x) <= p_max (it_props x))%N -> p_pos (it_props x) = Front -> p_upd (it_props x) = true -> wait c <> [] ->
    items c' = del i (items c) -> wait c' = wait c -> tokens c' = tokens c -> enq c' = enq c -> failed c i x c' Superseded
| F_front : (incr64 (it_count x) <= p_max (it_props x))%N -> p_pos (it_props x) = Front -> (wait c = [] \/ p_upd (it_props x) = false) ->
    items c' = put i (mkItem (it_props x) (incr64 (it_count x)) HbNone) (items c) -> wait c' = i :: wait c ->
    tokens c' = S (tokens c) -> enq c' = enq c -> failed c i x c' Requeued
| F_back : (incr64 (it_count x) <= p_max (it_props x))%N -> p_pos (it_props x) = Back ->
    (wait c = [] \/ exists w j y, wait c = w ++ [j] /\ get j (items c) = Some y /\ p_upd (it_props y) = false) ->
    items c' = put i (mkItem (it_props x) (incr64 (it_count x)) HbNone) (items c) -> wait c' = wait c ++ [i] ->
    tokens c' = S (tokens c) -> enq c' = enq c -> failed c i x c' Requeued
| F_replaced w j y : (incr64 (it_count x) <= p_max (it_props x))%N -> p_pos (it_props x) = Back -> i <> j ->
    wait c = w ++ [j] -> get j (items c) = Some y -> p_upd (it_props y) = true ->
    items c' = del j (put i (mkItem (it_props x) (incr64 (it_count x)) HbNone) (items c)) -> wait c' = w ++ [i] ->
    tokens c' = tokens c -> enq c' = enq c -> failed c i x c' (Replaced j).

Lemma fail_cases c i x c' f : qinv c -> get i (items c) = Some x -> it_hb x <> HbNone -> fail_item c i x = (c', f) ->
  failed c i x c' f /\ run c' = pred (run c) /\ fl c' = fl c /\ held c' = held c /\ rem c' = rem c /\ down c' = down c /\
  dead c' = dead c /\ used c' = used c.
Proof.
  intros Q G H. unfold fail_item. cbn [it_props it_count].
  destruct (N.ltb (p_max (it_props x)) (incr64 (it_count x))) eqn:E.
  { intros [= <- <-]. apply N.ltb_lt in E. repeat split. apply F_dropped; auto. }
  apply incr_le in E.
  assert (NW : ~ In i (wait c)) by (intros I; apply H; eapply q_idle; eassumption).
  destruct (p_pos (it_props x)) eqn:P.
  - cbn [wait set_items set_run].
    destruct (wait c) as [|k w] eqn:W.
    + intros [= <- <-]. repeat split. apply F_front; auto. cbn. rewrite W. reflexivity.
    + destruct (p_upd (it_props x)) eqn:U.
      * intros [= <- <-].
        assert (D : forall x', del i (put i x' (items c)) = del i (items c)).
        { intros x'. clear. induction (items c) as [|[j y] t IH]; cbn [put del]; [rewrite Nat.eqb_refl; reflexivity|].
          destruct (Nat.eqb i j) eqn:Ej; cbn [del]; rewrite Ej; [reflexivity|rewrite IH; reflexivity]. }
        repeat split. apply F_superseded; auto; [congruence|]. cbn. apply D.
      * intros [= <- <-]. repeat split. apply F_front; auto. cbn. rewrite W. reflexivity.
  - cbn [wait set_items set_run items].
    destruct (last_id (wait c)) as [j|] eqn:L.
    + apply last_id_some in L.
      assert (NIJ : i <> j). { intros ->. apply NW. rewrite L, in_app_iff. cbn [In]. auto. }
      rewrite get_put_other by exact NIJ.
      destruct (get j (items c)) as [y|] eqn:Gj.
      * destruct (p_upd (it_props y)) eqn:U.
        -- intros [= <- <-]. repeat split. apply (F_replaced c i x _ (removelast (wait c)) j y); auto.
        -- intros [= <- <-]. repeat split. apply F_back; auto. right. exists (removelast (wait c)), j, y. auto.
      * exfalso. apply (q_waits c Q j); [rewrite L, in_app_iff; cbn [In]; auto| |exact Gj].
        intros R. rewrite (q_gone c Q R) in G. discriminate G.
    + apply last_id_none in L. intros [= <- <-]. repeat split. apply F_back; auto.
Qed.

Ltac qcases Q H :=
  unfold qstep, enqueue, create, success, fail_back, time_out, ack, nack, beat in H;
  match type of H with (if dead ?c then _ else _) = _ => destruct (dead c) eqn:?; [discriminate H|] end;
  match type of H with (match ?o with _ => _ end) = _ => destruct o end;
  repeat match type of H with
  | guard _ _ = Some _ => apply guard_some in H; destruct H as [? H]
  | context [let (_, _) := fail_item ?c ?i ?x in _] => destruct (fail_item c i x) as [? ?] eqn:?
  | context [match ?x with _ => _ end] => destruct x eqn:?; try discriminate H
  end;
  try match type of H with
      | _ = Some (?u, ?v) => injection H; clear H; intros; subst v; subst u
      | _ = (?u, ?v) => injection H; clear H; intros; subst v; subst u end.
Ltac qfail :=
  repeat match goal with
  | Q : qinv ?c, G : get ?i (items ?c) = Some ?x, F : fail_item ?c ?i ?x = _ |- _ =>
    apply (fail_cases _ _ _ _ _ Q G ltac:(congruence)) in F; destruct F as (F & ? & ? & ? & ? & ? & ? & ?)
  end.
Ltac bools :=
  repeat match goal with
  | H : (_ && _)%bool = true |- _ => apply andb_true_iff in H; destruct H
  | H : indexed _ = true |- _ => apply indexed_rem in H
  | H : destroying _ = true |- _ => apply destroying_rem in H
  | H : is_phase _ _ _ = true |- _ => apply is_phase_get in H; destruct H as (? & ? & ? & _)
  end.
Ltac sel := cbn [set_items set_wait set_fl set_enq set_run set_held set_rem set_down set_used crash set_hb overwrite newItem
  items wait tokens fl enq run held rem down dead used it_props it_count it_hb] in *.

(** Removal and shutdown never end *)
Lemma serving_back c o c' a : qstep c o = Some (c', a) -> qinv c -> serving c' -> serving c.
Proof.
  intros H Q [D R]. unfold serving. qcases Q H; bools; qfail; sel; auto; try discriminate; split; congruence.
Qed.

Lemma exactly_one c i : qinv c -> serving c -> stored c i ->
  (waiting c i /\ ~ with_client c i) \/ (~ waiting c i /\ with_client c i).
Proof.
  intros Q [D R] S. unfold stored, waiting, with_client, processing in *. destruct (get i (items c)) as [x|] eqn:G; [|congruence].
  destruct (it_hb x) eqn:H.
  1:{ destruct (q_none c Q D R i x G H) as [I|T].
      - left. split; [exact I|]. intros [(y & [= <-] & N)|T]; [congruence|]. apply (q_taken c Q i T I).
      - right. split; [apply (q_taken c Q i T)|right; exact T]. }
  all: right; split; [intros I; pose proof (q_idle c Q i x I G); congruence|left; exists x; split; [reflexivity|congruence]].
Qed.
Lemma waiting_stored c i : qinv c -> serving c -> waiting c i -> stored c i.
Proof. intros Q [_ R] W. apply (q_waits c Q i W). congruence. Qed.

Lemma proc_put c i x l j : get i l = Some x -> l = items c -> forall y,
  ((exists z, get j (put i y l) = Some z /\ it_hb z <> HbNone) <->
   (if Nat.eqb j i then it_hb y <> HbNone else processing c j)).
Proof.
  intros G -> y. rewrite get_put. unfold processing. split_eqb; [|tauto].
  split; [intros (z & [= <-] & H); exact H|intros H; eauto].
Qed.
Lemma proc_del c i j : qinv c ->
  ((exists z, get j (del i (items c)) = Some z /\ it_hb z <> HbNone) <-> (j <> i /\ processing c j)).
Proof.
  intros Q. rewrite get_del by apply Q. unfold processing. split_eqb.
  - split; [intros (z & E & _); discriminate|intros [E _]; congruence].
  - tauto.
Qed.
Lemma proc_iff c i x : get i (items c) = Some x -> (processing c i <-> it_hb x <> HbNone).
Proof. intros G. unfold processing. split; [intros (y & E & H); congruence|eauto]. Qed.

Lemma proc_failed c i x c' f j : qinv c -> get i (items c) = Some x -> it_hb x <> HbNone -> failed c i x c' f ->
  (processing c' j <-> (j <> i /\ processing c j)).
Proof.
  intros Q G H F. unfold processing at 1. inversion F as [| | | |w k y]; subst;
    match goal with E : items c' = _ |- _ => rewrite E end.
  - apply proc_del, Q.
  - apply proc_del, Q.
  - rewrite (proc_put c i x (items c) j G eq_refl). cbn. split_eqb; intuition congruence.
  - rewrite (proc_put c i x (items c) j G eq_refl). cbn. split_eqb; intuition congruence.
  - rewrite get_del, get_put by apply keys_put_nodup, Q. split_eqb.
    + split; [intros (z & E & _); discriminate|]. intros [_ (z & Gz & Hz)].
      exfalso. apply Hz. eapply (q_idle c Q k); [|exact Gz].
      match goal with E : wait c = _ ++ _ |- _ => rewrite E, in_app_iff; cbn [In]; auto end.
    + split; [intros (z & [= <-] & N); cbn in N; congruence|intros [E _]; congruence].
    + unfold processing. tauto.
Qed.

Lemma failed_settles c i x c' f : failed c i x c' f -> f <> Untouched.
Proof. intros []; discriminate. Qed.


(** A flight that goes on without touching the items *)
Inductive glide (c : channel) : flight -> flight -> Prop :=
| G_ready : glide c FIdle FReady
| G_ask : glide c FReady FAsk
| G_limited : glide c FAsk FLimited
| G_recheck : glide c FLimited FIdle
| G_late i : ~ processing c i -> glide c (FSent i) FIdle
| G_back i : ~ processing c i -> glide c (FBack i) FIdle.

(** What a step of a channel in service does, case by case *)
Inductive effect (c : channel) : qop -> qans -> channel -> Prop :=
| E_store p i c' : ~ In i (used c) -> get i (items c) = None ->
    (wait c = [] \/ exists w j y, wait c = w ++ [j] /\ get j (items c) = Some y /\ p_upd (it_props y) = false) ->
    items c' = put i (newItem p) (items c) -> wait c' = wait c ++ [i] -> enq c' = S (enq c) -> run c' = run c ->
    fl c' = fl c -> held c' = held c -> effect c (OEnqueue p i true) (AStored i) c'
| E_full p i c' :
    (wait c = [] \/ exists w j y, wait c = w ++ [j] /\ get j (items c) = Some y /\ p_upd (it_props y) = false) ->
    c' = c -> effect c (OEnqueue p i false) AFull c'
| E_update p i ok w j x c' : wait c = w ++ [j] -> get j (items c) = Some x -> p_upd (it_props x) = true ->
    it_hb x = HbNone ->
    items c' = put j (overwrite x p) (items c) -> wait c' = wait c -> enq c' = enq c -> run c' = run c ->
    fl c' = fl c -> held c' = held c -> effect c (OEnqueue p i ok) (AUpdated j) c'
| E_ack_none i : ~ processing c i -> effect c (OAck i) ANotFound c
| E_nack_none i : ~ stored c i -> effect c (ONack i) ANotFound c
| E_nack_idle i : stored c i -> ~ processing c i -> effect c (ONack i) (AFailed Untouched) c
| E_beat i (b : bool) : (if b then exists x, get i (items c) = Some x /\ it_hb x = HbRunning else ~ processing c i) ->
    effect c (OBeat i) (ABeat b) c
| E_delete : items c <> [] -> effect c ODelete ANotFound c
| E_glide o a c' : (o = OReady \/ o = OAsk \/ o = ORun false \/ o = ORecheck \/ o = OSuccess \/ o = OFailBack) ->
    (a = AUnit \/ a = ALimited \/ exists i, a = ABack i Untouched) ->
    glide c (fl c) (fl c') -> items c' = items c -> wait c' = wait c -> enq c' = enq c -> run c' = run c ->
    held c' = held c -> effect c o a c'
| E_run c' : fl c = FAsk -> fl c' = FTake -> items c' = items c -> wait c' = wait c -> enq c' = enq c ->
    run c' = S (run c) -> held c' = held c -> effect c (ORun true) AUnit c'
| E_take i c' : fl c = FTake -> fl c' = FTaken i -> items c' = items c -> wait c = i :: wait c' -> enq c' = enq c ->
    run c' = run c -> held c' = held c -> effect c OTake AUnit c'
| E_hand i x c' : fl c = FTaken i -> fl c' = FSent i -> get i (items c) = Some x -> it_hb x = HbNone ->
    items c' = put i (set_hb x HbCreated) (items c) -> wait c' = wait c -> enq c' = enq c ->
    run c' = run c -> held c' = held c -> effect c (OCreate true) (AItem i (it_props x)) c'
| E_start i x c' : fl c = FSent i -> fl c' = FIdle -> get i (items c) = Some x -> it_hb x = HbCreated ->
    (0 < p_timeout (it_props x))%Z -> items c' = put i (set_hb x HbRunning) (items c) -> wait c' = wait c ->
    enq c' = enq c -> run c' = run c -> held c' = held c -> effect c OSuccess AUnit c'
| E_crash i x : fl c = FSent i -> get i (items c) = Some x -> it_hb x = HbCreated ->
    (p_timeout (it_props x) <= 0)%Z -> effect c OSuccess ACrash (crash c)
| E_failrun i c' : fl c = FSent i -> fl c' = FBack i -> items c' = items c -> wait c' = wait c -> enq c' = enq c ->
    run c' = pred (run c) -> held c' = held c -> effect c OFailRun AUnit c'
| E_back i x c' : fl c = FBack i -> fl c' = FIdle -> get i (items c) = Some x -> it_hb x = HbCreated ->
    (wait c = [] \/ p_upd (it_props x) = false) -> items c' = put i (set_hb x HbNone) (items c) ->
    wait c' = i :: wait c -> enq c' = enq c -> run c' = run c -> held c' = held c -> effect c OFailBack (ABack i Requeued) c'
| E_back_gone i x c' : fl c = FBack i -> fl c' = FIdle -> get i (items c) = Some x -> it_hb x = HbCreated ->
    wait c <> [] -> p_upd (it_props x) = true -> items c' = del i (items c) ->
    wait c' = wait c -> enq c' = pred (enq c) -> run c' = run c -> held c' = held c ->
    effect c OFailBack (ABack i Superseded) c'
| E_ack i x c' : get i (items c) = Some x -> it_hb x = HbCreated \/ it_hb x = HbRunning -> items c' = del i (items c) ->
    wait c' = wait c -> enq c' = pred (enq c) -> run c' = pred (run c) -> fl c' = fl c -> held c' = held c ->
    effect c (OAck i) AAcked c'
| E_fail o i x f c' : (o = ONack i /\ (it_hb x = HbCreated \/ it_hb x = HbRunning) \/ o = OTimeout i /\ it_hb x = HbFired) ->
    get i (items c) = Some x -> failed c i x c' f -> run c' = pred (run c) -> fl c' = fl c -> held c' = held c ->
    effect c o (AFailed f) c'
| E_fire i x c' : get i (items c) = Some x -> it_hb x = HbRunning -> items c' = put i (set_hb x HbFired) (items c) ->
    wait c' = wait c -> enq c' = enq c -> run c' = run c -> fl c' = fl c -> held c' = held c ->
    effect c (OFire i) AUnit c'
| E_block o i x k c' : get i (items c) = Some x ->
    (o = OAck i /\ k = CAck /\ it_hb x = HbFired \/ o = ONack i /\ k = CFail /\ it_hb x = HbFired \/
     o = OBeat i /\ k = CBeat /\ (it_hb x = HbFired \/ it_hb x = HbCreated)) ->
    items c' = items c -> wait c' = wait c -> enq c' = enq c -> run c' = run c -> fl c' = fl c ->
    held c' = (i, k) :: held c -> effect c o AWait c'.

Lemma not_proc_none c i : get i (items c) = None -> ~ processing c i.
Proof. intros G (x & E & _). congruence. Qed.
Lemma not_proc_idle c i x : get i (items c) = Some x -> it_hb x = HbNone -> ~ processing c i.
Proof. intros G H (y & E & N). congruence. Qed.

Lemma step_effect c o c' a : qinv c -> serving c' -> qstep c o = Some (c', a) -> effect c o a c'.
Proof.
  intros Q SV H. pose proof (serving_back _ _ _ _ H Q SV) as [D R]. destruct SV as [D' R'].
  assert (LST : forall j, last_id (wait c) = Some j -> wait c = removelast (wait c) ++ [j]) by (intros j; apply last_id_some).
  assert (LG : forall j, last_id (wait c) = Some j -> get j (items c) <> None).
  { intros j L. apply LST in L. apply (q_waits c Q j); [rewrite L, in_app_iff; cbn [In]; auto|congruence]. }
  destruct o; unfold qstep in H; (destruct (dead c) eqn:DD; [discriminate H|]).
  - apply guard_some in H. destruct H as [B H]. bools.
    assert (NU : ~ In i (used c)).
    { intros I. match goal with N : negb (existsb (Nat.eqb i) (used c)) = true |- _ => apply negb_true_iff in N end. assert (existsb (Nat.eqb i) (used c) = true); [|congruence].
      apply existsb_exists. exists i. split; [exact I|apply Nat.eqb_refl]. }
    assert (GN : get i (items c) = None).
    { destruct (get i (items c)) eqn:G; [|reflexivity]. exfalso. apply NU. eapply q_used_i; eassumption. }
    unfold enqueue in H.
    destruct (last_id (wait c)) as [j|] eqn:L.
    + destruct (get j (items c)) as [x|] eqn:G; [|exfalso; exact (LG j eq_refl G)].
      destruct (p_upd (it_props x)) eqn:U.
      * injection H as <- <-. eapply E_update; try reflexivity; eauto.
        apply (q_idle c Q j); [rewrite (LST j eq_refl), in_app_iff; cbn [In]; auto|exact G].
      * destruct ok; injection H as <- <-; [apply E_store|apply E_full]; auto; right; exists (removelast (wait c)), j, x; auto.
    + apply last_id_none in L. destruct ok; injection H as <- <-; [apply E_store|apply E_full]; auto.
  - destruct (fl c) eqn:F; try discriminate. destruct (tokens c) eqn:T; try discriminate. injection H as <- <-.
    apply E_glide; auto. rewrite F. constructor.
  - destruct (fl c) eqn:F; try discriminate. injection H as <- <-. apply E_glide; auto. rewrite F. constructor.
  - destruct (fl c) eqn:F; try discriminate. destruct ok; injection H as <- <-.
    + apply E_run; auto.
    + apply E_glide; auto. rewrite F. constructor.
  - destruct (fl c) eqn:F; try discriminate. apply guard_some in H. destruct H as [_ H].
    destruct (wait c) as [|i w] eqn:W; injection H as <- <-.
    + exfalso. pose proof (q_tokens c Q) as T. rewrite F, W in T. cbn in T. specialize (T ltac:(discriminate)). lia.
    + eapply E_take; try reflexivity; assumption.
  - destruct (fl c) eqn:F; try discriminate. apply guard_some in H. destruct H as [B H]. bools.
    rewrite D, orb_false_r in H1. subst added. unfold create in H.
    assert (DE : destroying c = false) by (unfold destroying; rewrite R; reflexivity). rewrite DE in H.
    destruct (get i (items c)) as [x|] eqn:G; [|exfalso; eapply (q_taken_s c Q i F); [congruence|exact G]].
    rewrite (q_taken_h c Q i x F G) in H. injection H as <- <-. eapply E_hand; eauto. apply (q_taken_h c Q i x F G).
  - destruct (fl c) eqn:F; try discriminate. apply guard_some in H. destruct H as [_ H]. unfold success in H.
    assert (DE : destroying c = false) by (unfold destroying; rewrite R; reflexivity). rewrite DE in H.
    destruct (get i (items c)) as [x|] eqn:G.
    + destruct (q_sent c Q i x (or_introl F) G) as [E|E]; rewrite E in H.
      * injection H as <- <-. apply E_glide; auto 10; rewrite F. constructor. eapply not_proc_idle; eassumption.
      * destruct (Z.leb_spec (p_timeout (it_props x)) 0); injection H as <- <-; [eapply E_crash|eapply E_start]; eauto.
    + injection H as <- <-. apply E_glide; auto 10; rewrite F. constructor. apply not_proc_none, G.
  - destruct (fl c) eqn:F; try discriminate; injection H as <- <-.
    + eapply E_failrun; eauto.
    + exfalso. pose proof (q_blank c Q i F). congruence.
  - destruct (fl c) eqn:F; try discriminate. apply guard_some in H. destruct H as [_ H]. unfold fail_back in H.
    assert (DE : destroying c = false) by (unfold destroying; rewrite R; reflexivity). rewrite DE in H.
    destruct (get i (items c)) as [x|] eqn:G.
    + destruct (q_sent c Q i x (or_intror F) G) as [E|E]; rewrite E in H.
      * injection H as <- <-. apply E_glide; eauto 10; rewrite F. constructor. eapply not_proc_idle; eassumption.
      * cbn [set_fl wait items tokens enq] in H. destruct (p_upd (it_props x)) eqn:U.
        -- destruct (wait c) as [|k w] eqn:W; injection H as <- <-.
           ++ eapply E_back; eauto. cbn. rewrite W. reflexivity.
           ++ eapply E_back_gone; eauto. congruence.
        -- injection H as <- <-. eapply E_back; eauto.
    + injection H as <- <-. apply E_glide; eauto 10; rewrite F. constructor. apply not_proc_none, G.
  - destruct (fl c) eqn:F; try discriminate. injection H as <- <-. apply E_glide; auto 10. rewrite F. constructor.
  - destruct (fl c) eqn:F; try discriminate; apply guard_some in H; destruct H as [B H]; unfold indexed in B; rewrite D, R in B; discriminate B.
  - apply guard_some in H. destruct H as [B H]. bools. unfold ack in H.
    destruct (get i (items c)) as [x|] eqn:G; [|injection H as <- <-; apply E_ack_none, not_proc_none, G].
    destruct (it_hb x) eqn:E.
    + injection H as <- <-; eapply E_ack_none, not_proc_idle; eassumption.
    + injection H as <- <-. eapply E_ack; eauto.
    + injection H as <- <-. eapply E_ack; eauto.
    + injection H as <- <-. eapply E_block; eauto 8.
    + exfalso. exact (q_ended c Q D R i x G E).
  - apply guard_some in H. destruct H as [B H]. bools. unfold nack in H.
    destruct (get i (items c)) as [x|] eqn:G; [|injection H as <- <-; apply E_nack_none; unfold stored; auto].
    destruct (it_hb x) eqn:E.
    + injection H as <- <-; apply E_nack_idle; [unfold stored; congruence|eapply not_proc_idle; eassumption].
    + destruct (fail_item c i x) as [c1 f] eqn:FI. injection H as <- <-.
      destruct (fail_cases c i x c1 f Q G ltac:(congruence) FI) as (FC & ? & ? & ? & _). eapply E_fail; eauto 8.
    + destruct (fail_item c i x) as [c1 f] eqn:FI. injection H as <- <-.
      destruct (fail_cases c i x c1 f Q G ltac:(congruence) FI) as (FC & ? & ? & ? & _). eapply E_fail; eauto 8.
    + injection H as <- <-. eapply E_block; eauto 8.
    + exfalso. exact (q_ended c Q D R i x G E).
  - apply guard_some in H. destruct H as [B H]. bools. unfold beat in H.
    destruct (get i (items c)) as [x|] eqn:G; [|injection H as <- <-; apply E_beat, not_proc_none, G].
    destruct (it_hb x) eqn:E; injection H as <- <-.
    + eapply E_beat, not_proc_idle; eassumption.
    + eapply E_block; eauto 9.
    + apply E_beat. eauto.
    + eapply E_block; eauto 9.
    + exfalso. exact (q_ended c Q D R i x G E).
  - apply guard_some in H. destruct H as [P H]. apply is_phase_get in P. destruct P as (x & G & E & _). rewrite G in H.
    injection H as <- <-. eapply E_fire; eauto.
  - apply guard_some in H. destruct H as [B H]. bools. unfold time_out in H.
    assert (DE : destroying c = false) by (unfold destroying; rewrite R; reflexivity). rewrite DE in H.
    match goal with G : get i (items c) = Some ?y |- _ => rename G into G0; rename y into x end. rewrite G0 in H.
    destruct (fail_item c i x) as [c1 f] eqn:FI. injection H as <- <-.
    destruct (fail_cases c i x c1 f Q G0 ltac:(congruence) FI) as (FC & ? & ? & ? & _). eapply E_fail; eauto 8.
  - apply guard_some in H. destruct H as [B H]. bools. rewrite D in *. cbn [orb] in *.
    exfalso. destruct (fl c) eqn:F; try discriminate. destruct (q_stopped c Q F); congruence.
  - apply guard_some in H. destruct H as [B H]. destruct (items c) eqn:IT; injection H as <- <-; [discriminate R'|apply E_delete; congruence].
  - apply guard_some in H. destruct H as [B H]. injection H as <- <-. discriminate R'.
  - rewrite R in H. discriminate H.
  - rewrite R in H. discriminate H.
  - rewrite R in H. discriminate H.
  - rewrite R in H. discriminate H.
  - injection H as <- <-. discriminate D'.
Qed.

Lemma processing_ext c d i : items c = items d -> (processing c i <-> processing d i).
Proof. unfold processing. intros ->. tauto. Qed.
Lemma stored_ext c d i : items c = items d -> (stored c i <-> stored d i).
Proof. unfold stored. intros ->. tauto. Qed.
Lemma proc_put_state c c' i x y j : get i (items c) = Some x -> items c' = put i y (items c) ->
  (processing c' j <-> if Nat.eqb j i then it_hb y <> HbNone else processing c j).
Proof. intros G E. unfold processing at 1. rewrite E. apply (proc_put c i x (items c) j G eq_refl). Qed.
Lemma proc_del_state c c' i j : qinv c -> items c' = del i (items c) -> (processing c' j <-> (j <> i /\ processing c j)).
Proof. intros Q E. unfold processing at 1. rewrite E. apply proc_del, Q. Qed.

Lemma processing_effect c o c' a i : qinv c -> effect c o a c' ->
  (processing c' i <-> if hands_out i (o, a) then True else if settles i (o, a) then False else processing c i).
Proof.
  intros Q H. inversion H; subst; cbn [hands_out settles].
  - (* store *) unfold processing at 1. match goal with E : items c' = _ |- _ => rewrite E end. rewrite get_put. split_eqb.
    + split; [intros (z & [= <-] & N); cbn in N; congruence|]. intros P. exfalso. eapply not_proc_none; eassumption.
    + unfold processing. tauto.
  - tauto.
  - (* update *) rewrite (proc_put_state c c' j x _ i) by eassumption. split_eqb; [|tauto]. cbn [it_hb overwrite].
    rewrite (proc_iff c j x) by assumption. tauto.
  - tauto.
  - tauto.
  - rewrite andb_false_r. tauto.
  - tauto.
  - tauto.
  - rewrite (processing_ext c' c) by assumption.
    assert (HO : hands_out i (o, a) = false) by (destruct o; try reflexivity; intuition congruence).
    assert (SE : settles i (o, a) = false).
    { repeat match goal with O : _ \/ _ |- _ => destruct O as [O|O] | O : exists _, _ |- _ => destruct O as [? O] end; subst;
        cbn [settles]; rewrite ?andb_false_r; reflexivity. }
    cbn [hands_out settles] in *. rewrite HO, SE. tauto.
  - rewrite (processing_ext c' c) by assumption. tauto.
  - rewrite (processing_ext c' c) by assumption. tauto.
  - rewrite (proc_put_state c c' i0 x _ i) by eassumption. split_eqb; [|tauto]. cbn. split; [tauto|discriminate].
  - rewrite (proc_put_state c c' i0 x _ i) by eassumption. split_eqb; [|tauto]. cbn.
    rewrite (proc_iff c i0 x) by assumption. intuition congruence.
  - apply processing_ext; reflexivity.
  - rewrite (processing_ext c' c) by assumption. tauto.
  - rewrite (proc_put_state c c' i0 x _ i) by eassumption. rewrite andb_true_r. split_eqb; [|tauto]. cbn. tauto.
  - rewrite (proc_del_state c c' i0 i) by assumption. rewrite andb_true_r. split_eqb; intuition congruence.
  - rewrite (proc_del_state c c' i0 i) by assumption. split_eqb; intuition congruence.
  - match goal with F : failed _ _ _ _ _, G : get i0 (items c) = Some x |- _ =>
      rewrite (proc_failed c i0 x c' f i Q G ltac:(intuition congruence) F); pose proof (failed_settles _ _ _ _ _ F) as NU end.
    match goal with O : _ \/ _ |- _ => destruct O as [[-> _]|[-> _]] end.
    + destruct f; try congruence; rewrite andb_true_r; split_eqb; intuition congruence.
    + destruct f; try congruence; rewrite andb_true_r; split_eqb; intuition congruence.
  - rewrite (proc_put_state c c' i0 x _ i) by eassumption. split_eqb; [|tauto]. cbn.
    rewrite (proc_iff c i0 x) by assumption. intuition congruence.
  - rewrite (processing_ext c' c) by assumption.
    match goal with O : _ \/ _ |- _ => destruct O as [(-> & _ & _)|[(-> & _ & _)|(-> & _ & _)]] end; tauto.
Qed.

Lemma serving_all c0 tr c : qinv c0 -> qexec c0 tr c -> serving c -> serving c0.
Proof.
  intros Q E. induction E as [|tr c o a c' E IH H]; [auto|]. intros S. apply IH.
  eapply serving_back; [exact H|eapply qexec_inv; eassumption|exact S].
Qed.

(** C37: by the history, who has item i *)
Lemma out_iff tr c i : reach tr c -> serving c -> (out i tr = true <-> processing c i).
Proof.
  intros (e & r & E). induction E as [|tr c o a c' E IH H]; intros S.
  - cbn [out]. split; [discriminate|]. intros (x & G & _). discriminate G.
  - assert (Q : qinv c) by (eapply qexec_inv; [apply qinv_new|exact E]).
    pose proof (serving_back _ _ _ _ H Q S) as S0. specialize (IH S0).
    rewrite (processing_effect c o c' a i Q (step_effect _ _ _ _ Q S H)).
    cbn [out]. destruct (hands_out i (o, a)); [tauto|]. destruct (settles i (o, a)); [intuition discriminate|exact IH].
Qed.
(** ... and nothing is handed out twice *)
Lemma hands_out_fresh tr c o a c' i : reach tr c -> serving c' -> qstep c o = Some (c', a) -> hands_out i (o, a) = true ->
  out i tr = false /\ stored c i /\ fl c = FTaken i.
Proof.
  intros R S H O. pose proof (reach_inv _ _ R) as Q.
  pose proof (serving_back _ _ _ _ H Q S) as S0.
  pose proof (step_effect _ _ _ _ Q S H) as EF. rename H into HH.
  assert (i1 : exists x, fl c = FTaken i /\ get i (items c) = Some x /\ it_hb x = HbNone).
  { inversion EF; subst; cbn [hands_out] in O; try discriminate O.
    - exfalso. destruct o; intuition discriminate.
    - apply Nat.eqb_eq in O. subst. eauto.
    - exfalso. destruct o; intuition discriminate.
    - exfalso. destruct o; intuition discriminate. }
  destruct i1 as (x & F & G & N). split; [|split; [unfold stored; congruence|exact F]].
  destruct (out i tr) eqn:OT; [|reflexivity]. exfalso. apply (out_iff tr c i R S0) in OT.
  eapply not_proc_idle; eassumption.
Qed.

Lemma stored_put c' l i y j : items c' = put i y l -> (stored c' j <-> j = i \/ get j l <> None).
Proof.
  intros E. unfold stored. rewrite E, get_put. split_eqb; [intuition congruence|]. intuition congruence.
Qed.
Lemma stored_del c' c i j : qinv c -> items c' = del i (items c) -> (stored c' j <-> j <> i /\ stored c j).
Proof.
  intros Q E. unfold stored. rewrite E, get_del by apply Q. split_eqb; intuition congruence.
Qed.

Lemma leaves_effect c o a c' i : qinv c -> effect c o a c' -> stored c i -> ~ stored c' i -> leaves c i (o, a).
Proof.
  intros Q H S N. inversion H; subst; try (exfalso; apply N; match goal with E : items ?d = items ?e |- _ => apply (stored_ext d e _ E); exact S end).
  all: try (exfalso; apply N; match goal with E : items ?d = put _ _ _ |- _ => apply (stored_put d _ _ _ _ E); right; exact S end).
  all: try (exfalso; apply N; exact S).
  - assert (i = i0) as ->. { destruct (Nat.eq_dec i i0); [assumption|]. exfalso. apply N. apply (stored_del c' c i0 i Q); auto. }
    assert (P : processing c i0) by (eexists; split; [eassumption|congruence]).
    destruct (wait c) as [|j w] eqn:W; [congruence|]. apply (L_undelivered c i0 j); [exact P| |unfold waiting; rewrite W; left; reflexivity].
    exists (it_props x). unfold contents. match goal with G : get i0 (items c) = _ |- _ => rewrite G end. auto.
  - assert (i = i0) as ->. { destruct (Nat.eq_dec i i0); [assumption|]. exfalso. apply N. apply (stored_del c' c i0 i Q); auto. }
    apply L_ack. eexists; split; [eassumption|intuition congruence].
  - assert (P : processing c i0) by (eexists; split; [eassumption|intuition congruence]).
    assert (OO : o = ONack i0 \/ o = OTimeout i0) by intuition.
    match goal with F : failed _ _ _ _ _ |- _ => destruct F as [? E|? ? ? ? E|? ? ? E|? ? ? E|w j y ? ? ? W Gj Uj E] end.
    + assert (i = i0) as ->. { destruct (Nat.eq_dec i i0); [assumption|]. exfalso. apply N. apply (stored_del c' c i0 i Q); auto. }
      apply L_dropped; assumption.
    + assert (i = i0) as ->. { destruct (Nat.eq_dec i i0); [assumption|]. exfalso. apply N. apply (stored_del c' c i0 i Q); auto. }
      destruct (wait c) as [|j w] eqn:W; [congruence|].
      apply (L_superseded c i0 o j); try assumption; [|unfold waiting; rewrite W; left; reflexivity].
      exists (it_props x). unfold contents. match goal with G : get i0 (items c) = _ |- _ => rewrite G end. auto.
    + exfalso; apply N. apply (stored_put c' _ _ _ i E). right. exact S.
    + exfalso; apply N. apply (stored_put c' _ _ _ i E). right. exact S.
    + assert (i = j) as ->.
      { destruct (Nat.eq_dec i j); [assumption|]. exfalso. apply N. unfold stored. rewrite E, get_del, get_put by apply keys_put_nodup, Q.
        split_eqb; [congruence|discriminate|exact S]. }
      apply (L_replaced c j o i0); try assumption; [unfold waiting; rewrite W, in_app_iff; right; left; reflexivity|].
      exists (it_props y). unfold contents. rewrite Gj. auto.
Qed.
Lemma comes_effect c o a c' i : qinv c -> effect c o a c' -> ~ stored c i -> stored c' i -> comes c i (o, a).
Proof.
  intros Q H S N. inversion H; subst; try (exfalso; apply S; match goal with E : items ?d = items ?e |- _ => apply (stored_ext d e _ E); exact N end).
  all: try (exfalso; apply S; exact N).
  all: try (match goal with E : items ?d = put ?k _ _, G : get ?k (items ?e) = Some _ |- _ =>
      exfalso; apply (stored_put d _ _ _ _ E) in N; destruct N as [->|N]; apply S; [unfold stored; congruence|exact N] end).
  all: try (match goal with E : items ?d = del ?k (items ?e) |- _ => exfalso; apply (stored_del d e k _ Q E) in N; tauto end).
  - match goal with E : items c' = put ?k _ _ |- _ => apply (stored_put c' _ _ _ i E) in N; destruct N as [->|N] end.
    + constructor. exact S.
    + exfalso. apply S, N.
  - exfalso. match goal with F : failed _ _ _ _ _ |- _ => destruct F as [? E|? ? ? ? E|? ? ? E|? ? ? E|w j y ? ? ? W Gj Uj E] end.
    + apply (stored_del c' c _ i Q E) in N; tauto.
    + apply (stored_del c' c _ i Q E) in N; tauto.
    + apply (stored_put c' _ _ _ i E) in N; destruct N as [->|N]; apply S; [unfold stored; congruence|exact N].
    + apply (stored_put c' _ _ _ i E) in N; destruct N as [->|N]; apply S; [unfold stored; congruence|exact N].
    + apply S. revert N. unfold stored. rewrite E, get_del, get_put by apply keys_put_nodup, Q. split_eqb; intuition congruence.
Qed.
