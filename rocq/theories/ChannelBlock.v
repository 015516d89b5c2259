(** Calls that never return, crashes, and the removal of a channel: C44, C47, C50 *)
From Coq Require Import String List Bool Arith NArith ZArith Lia.
From Verif Require Import Channel SpecChannel ChannelProofs ChannelContents ChannelOrder ChannelCounts.
Import ListNotations.

(** *** C47 *)
Lemma block_effect tr c o c' : reach tr c -> serving c -> qstep c o = Some (c', AWait) ->
  exists i, (o = OAck i \/ o = ONack i \/ o = OBeat i) /\
            (timing_out c i \/ o = OBeat i /\ processing c i /\ (fl c = FSent i \/ fl c = FBack i)).
Proof.
  intros R S H. pose proof (reach_inv _ _ R) as Q.
  assert (S' : serving c').
  { eapply serving_forth; try eassumption; intros ->.
    - unfold qstep in H. destruct (dead c); discriminate H.
    - unfold qstep in H. destruct (dead c); [discriminate H|]. apply guard_some in H. destruct H as [_ H]. destruct (items c); discriminate H.
    - unfold qstep in H. destruct (dead c); [discriminate H|]. apply guard_some in H. destruct H as [_ H]. discriminate H. }
  pose proof (step_effect _ _ _ _ Q S' H) as EF. inversion EF; subst; try nope.
  exists i. match goal with G : get i (items c) = Some x |- _ => rename G into G0 end.
  match goal with O : _ \/ _ |- _ => destruct O as [(-> & _ & F)|[(-> & _ & F)|(-> & _ & [F|F])]] end.
  - split; [auto|]. left. exists x. auto.
  - split; [auto|]. left. exists x. auto.
  - split; [auto|]. left. exists x. auto.
  - split; [auto|]. right. split; [reflexivity|]. split; [exists x; split; [exact G0|congruence]|]. apply (q_created c Q i x G0 F).
Qed.

(** What is blocked stays blocked *)
Lemma touch_free c o c' a i : qstep c o = Some (c', a) ->
  (o = OAck i \/ o = ONack i \/ o = OTimeout i \/ o = OBeat i) \/
  (o = OSuccess /\ fl c = FSent i) \/ (o = OFailBack /\ fl c = FBack i) -> free i c = true.
Proof.
  unfold qstep. destruct (dead c); [discriminate|].
  intros H [[-> | [-> | [-> | ->]]]|[[-> F]|[-> F]]]; try rewrite F in H; apply guard_some in H; destruct H as [B _]; bools; assumption.
Qed.
Lemma held_effect c o c' a i k : qinv c -> qstep c o = Some (c', a) -> effect c o a c' -> In (i, k) (held c) ->
  In (i, k) (held c') /\ (forall x, get i (items c) = Some x -> get i (items c') = Some x) /\
  (fl c = FSent i \/ fl c = FBack i -> fl c' = FSent i \/ fl c' = FBack i) /\
  settles i (o, a) = false.
Proof.
  intros Q H EF I. destruct (q_held c Q i k I) as (R & x & G & P).
  assert (NF : free i c <> true) by (intros F; eapply free_held; eassumption).
  assert (NW : ~ In i (wait c)).
  { intros W. pose proof (q_idle c Q i x W G). intuition congruence. }
  assert (NT : fl c <> FTaken i).
  { intros F. pose proof (q_taken_h c Q i x F G). intuition congruence. }
  assert (PUT : forall j y z, get j (items c) = Some y -> items c' = put j z (items c) -> j <> i ->
    forall x, get i (items c) = Some x -> get i (items c') = Some x).
  { intros j y z _ E N x0. rewrite E, get_put_other by congruence. auto. }
  inversion EF; subst; try (repeat match goal with E : items _ = items _ |- _ => rewrite E | E : held _ = held _ |- _ => rewrite E
      | E : fl _ = fl _ |- _ => rewrite E end; split; [exact I|split; [auto|split; [auto|cbn [settles]; rewrite ?andb_false_r; reflexivity]]]; fail).
  - match goal with E : held _ = _ |- _ => rewrite E end. match goal with E : fl c' = _ |- _ => rewrite E end.
    split; [exact I|]. split; [|split; [auto|reflexivity]]. intros z Gz. match goal with E : items c' = _ |- _ => rewrite E end.
    rewrite get_put_other; [exact Gz|]. intros ->. congruence.
  - match goal with E : held _ = _ |- _ => rewrite E end. match goal with E : fl c' = _ |- _ => rewrite E end.
    split; [exact I|]. split; [|split; [auto|reflexivity]]. eapply PUT; [eassumption..|]. intros ->.
    apply NW. match goal with E : wait c = _ |- _ => rewrite E, in_app_iff; right; left; reflexivity end.
  - match goal with E : held _ = _ |- _ => rewrite E end. match goal with E : items c' = _ |- _ => rewrite E end.
    split; [exact I|]. split; [auto|]. split.
    + intros F. exfalso. match goal with K : glide _ _ _ |- _ => inversion K as [A B|A B|A B|A B|j NP A B|j NP A B] end; rewrite <- A in F;
        try (intuition congruence).
      * assert (j = i) as -> by intuition congruence. apply NP. exists x. split; [exact G|intuition congruence].
      * assert (j = i) as -> by intuition congruence. apply NP. exists x. split; [exact G|intuition congruence].
    + repeat match goal with O : _ \/ _ |- _ => destruct O as [O|O] | O : exists _, _ |- _ => destruct O as [? O] end; subst;
        cbn [settles]; rewrite ?andb_false_r; reflexivity.
  - match goal with E : held _ = _ |- _ => rewrite E end. match goal with E : items c' = _ |- _ => rewrite E end.
    split; [exact I|]. split; [auto|]. split; [intros F; intuition congruence|reflexivity].
  - match goal with E : held _ = _ |- _ => rewrite E end. match goal with E : items c' = _ |- _ => rewrite E end.
    split; [exact I|]. split; [auto|]. split; [intros F; intuition congruence|reflexivity].
  - match goal with E : held _ = _ |- _ => rewrite E end.
    split; [exact I|]. split; [eapply PUT; [eassumption..|]; congruence|]. split; [intros F; intuition congruence|reflexivity].
  - match goal with E : held _ = _ |- _ => rewrite E end.
    assert (i0 <> i) by (intros ->; apply NF; eapply touch_free; [exact H|auto]).
    split; [exact I|]. split; [eapply PUT; [eassumption..|]; congruence|]. split; [intros F; exfalso; intuition congruence|reflexivity].
  - match goal with E : held _ = _ |- _ => rewrite E end. match goal with E : items c' = _ |- _ => rewrite E end.
    split; [exact I|]. split; [auto|]. split; [intros F; right; intuition congruence|reflexivity].
  - match goal with E : held _ = _ |- _ => rewrite E end.
    assert (i0 <> i) by (intros ->; apply NF; eapply touch_free; [exact H|auto 10]).
    split; [exact I|]. split; [eapply PUT; [eassumption..|]; congruence|]. split; [intros F; exfalso; intuition congruence|].
    cbn [settles]. rewrite andb_true_r. apply Nat.eqb_neq. congruence.
  - match goal with E : held _ = _ |- _ => rewrite E end. match goal with E : items c' = _ |- _ => rewrite E end.
    assert (i0 <> i) by (intros ->; apply NF; eapply touch_free; [exact H|auto 10]).
    split; [exact I|]. split; [intros z Gz; rewrite get_del_other by congruence; exact Gz|]. split; [intros F; exfalso; intuition congruence|].
    cbn [settles]. rewrite andb_true_r. apply Nat.eqb_neq. congruence.
  - match goal with E : held _ = _ |- _ => rewrite E end. match goal with E : items c' = _ |- _ => rewrite E end.
    match goal with E : fl c' = _ |- _ => rewrite E end.
    assert (i0 <> i) by (intros ->; apply NF; eapply touch_free; [exact H|auto 10]).
    split; [exact I|]. split; [intros z Gz; rewrite get_del_other by congruence; exact Gz|]. split; [auto|].
    cbn [settles]. apply Nat.eqb_neq. congruence.
  - match goal with E : held _ = _ |- _ => rewrite E end. match goal with E : fl c' = _ |- _ => rewrite E end.
    assert (i0 <> i) by (intros ->; apply NF; eapply touch_free; [exact H|left; intuition]).
    split; [exact I|]. split; [|split; [auto|]].
    + intros z Gz. match goal with F : failed _ _ _ _ _ |- _ => destruct F as [? E|? ? ? ? E|? ? ? E|? ? ? E|w j y ? ? NE W Gj ? E] end; rewrite E.
      * rewrite get_del_other by congruence. exact Gz.
      * rewrite get_del_other by congruence. exact Gz.
      * rewrite get_put_other by congruence. exact Gz.
      * rewrite get_put_other by congruence. exact Gz.
      * rewrite get_del_other, get_put_other; [exact Gz|congruence|]. intros ->. apply NW. rewrite W, in_app_iff. right. left. reflexivity.
    + match goal with O : _ \/ _ |- _ => destruct O as [[-> _]|[-> _]] end; cbn [settles]; apply andb_false_iff; left; apply Nat.eqb_neq; congruence.
  - match goal with E : held _ = _ |- _ => rewrite E end. match goal with E : fl c' = _ |- _ => rewrite E end.
    split; [exact I|]. split; [|split; [auto|reflexivity]]. eapply PUT; [eassumption..|]. intros ->. intuition congruence.
  - match goal with E : held _ = _ |- _ => rewrite E end. match goal with E : fl c' = _ |- _ => rewrite E end.
    match goal with E : items c' = _ |- _ => rewrite E end.
    split; [right; exact I|]. split; [auto|]. split; [auto|].
    match goal with O : _ \/ _ |- _ => destruct O as [(-> & _)|[(-> & _)|(-> & _)]] end; reflexivity.
Qed.

Lemma held_exec c0 tr c i k : qinv c0 -> serving c -> qexec c0 tr c -> In (i, k) (held c0) ->
  In (i, k) (held c) /\ processing c i /\ existsb (settles i) tr = false /\
  (fl c0 = FSent i \/ fl c0 = FBack i -> fl c = FSent i \/ fl c = FBack i).
Proof.
  intros Q0 S E I. revert S. induction E as [|tr c o a c' E IH H]; intros S.
  - destruct (q_held c0 Q0 i k I) as (_ & x & G & P). split; [exact I|]. split; [exists x; split; [exact G|intuition congruence]|]. auto.
  - assert (Q : qinv c) by (eapply qexec_inv; eassumption).
    pose proof (serving_back _ _ _ _ H Q S) as S0. destruct (IH S0) as (IC & (x & G & N) & ST & F).
    destruct (held_effect c o c' a i k Q H (step_effect _ _ _ _ Q S H) IC) as (I' & G' & F' & ST').
    split; [exact I'|]. split; [exists x; auto|]. split; [cbn [existsb]; rewrite ST'; exact ST|]. auto.
Qed.

(** A request that blocks is never answered; its item is never settled, and the channel cannot be deleted *)
Lemma blocked_item tr c o c1 i tr' c' : reach tr c -> serving c -> (o = OAck i \/ o = ONack i \/ o = OBeat i) ->
  qstep c o = Some (c1, AWait) -> qexec c1 tr' c' -> serving c' ->
  processing c' i /\ existsb (settles i) tr' = false /\ qstep c' (OAck i) = None /\ qstep c' (ONack i) = None /\
  qstep c' (OBeat i) = None /\ qstep c' (OTimeout i) = None /\ qstep c' ODelete = None /\ qstep c' OClose = None.
Proof.
  intros R S O H E S'. pose proof (reach_inv _ _ R) as Q. assert (Q1 : qinv c1) by (eapply qinv_step; eassumption).
  pose proof (serving_all c1 tr' c' Q1 E S') as S1.
  assert (HE : exists k, In (i, k) (held c1)).
  { pose proof (step_effect _ _ _ _ Q S1 H) as EF. inversion EF; subst; try nope.
    exists k. match goal with E : held c1 = _ |- _ => rewrite E end. left. f_equal. intuition congruence. }
  destruct HE as [k HE]. destruct (held_exec c1 tr' c' i k Q1 S' E HE) as (I & P & ST & _).
  assert (NF : free i c' = false) by (destruct (free i c') eqn:F; [exfalso; eapply free_held; eassumption|reflexivity]).
  split; [exact P|]. split; [exact ST|].
  unfold qstep. rewrite NF, !andb_false_r. destruct (held c') eqn:HH; [destruct I|]. rewrite !andb_false_r.
  destruct (dead c'); repeat split; reflexivity.
Qed.
(** After a failing ack that blocks, nothing is enqueued, fetched or failed any more *)
Lemma blocked_channel tr c c1 i tr' c' : reach tr c -> serving c ->
  qstep c (ONack i) = Some (c1, AWait) -> qexec c1 tr' c' -> serving c' ->
  (forall p j ok, qstep c' (OEnqueue p j ok) = None) /\ qstep c' OTake = None /\ (forall j, qstep c' (ONack j) = None) /\
  (forall j, qstep c' (OTimeout j) = None).
Proof.
  intros R S H E S'. pose proof (reach_inv _ _ R) as Q. assert (Q1 : qinv c1) by (eapply qinv_step; eassumption).
  pose proof (serving_all c1 tr' c' Q1 E S') as S1.
  assert (HE : In (i, CFail) (held c1)).
  { pose proof (step_effect _ _ _ _ Q S1 H) as EF. inversion EF; subst; try nope.
    match goal with O : _ \/ _ |- _ => destruct O as [(O & _)|[(O & -> & _)|(O & _)]]; try discriminate O; injection O as -> end.
    match goal with E : held c1 = _ |- _ => rewrite E end. left. reflexivity. }
  destruct (held_exec c1 tr' c' i _ Q1 S' E HE) as (I & _).
  assert (NL : lockable c' = false).
  { unfold lockable. apply negb_false_iff. apply existsb_exists. exists (i, CFail). auto. }
  unfold qstep. rewrite NL. repeat split; intros; destruct (dead c'); try reflexivity; rewrite ?andb_false_r; cbn [andb];
    try rewrite andb_false_r; try reflexivity. destruct (fl c'); reflexivity.
Qed.
(** After a heartbeat that comes before the delivery was confirmed, the channel delivers nothing any more *)
Lemma blocked_forwarder tr c c1 i tr' c' : reach tr c -> serving c -> (fl c = FSent i \/ fl c = FBack i) ->
  qstep c (OBeat i) = Some (c1, AWait) -> qexec c1 tr' c' -> serving c' ->
  (fl c' = FSent i \/ fl c' = FBack i) /\ forall j, handed j tr' = false.
Proof.
  intros R S F H E S'. pose proof (reach_inv _ _ R) as Q. assert (Q1 : qinv c1) by (eapply qinv_step; eassumption).
  pose proof (serving_all c1 tr' c' Q1 E S') as S1.
  assert (HE : exists k, In (i, k) (held c1) /\ fl c1 = fl c).
  { pose proof (step_effect _ _ _ _ Q S1 H) as EF. inversion EF; subst; try nope.
    exists k. match goal with E : held c1 = _ |- _ => rewrite E end. split; [left; f_equal; intuition congruence|assumption]. }
  destruct HE as (k & HE & FE). rewrite <- FE in F. clear FE H. induction E as [|tr' c' o a c'' E IH H].
  - split; [exact F|reflexivity].
  - assert (Q' : qinv c') by (eapply qexec_inv; eassumption).
    pose proof (serving_back _ _ _ _ H Q' S') as S0. destruct (IH S0) as [F' HN].
    destruct (held_exec c1 tr' c' i k Q1 S0 E HE) as (I & _).
    destruct (held_effect c' o c'' a i k Q' H (step_effect _ _ _ _ Q' S' H) I) as (_ & _ & F2 & _).
    split; [auto|]. intros j. unfold handed. cbn [existsb]. specialize (HN j). unfold handed in HN. rewrite HN, orb_false_r.
    destruct (hands_out j (o, a)) eqn:HO; [|reflexivity]. exfalso.
    destruct o; try discriminate HO. unfold qstep in H. destruct (dead c'); [discriminate|].
    destruct F' as [F'|F']; rewrite F' in H; discriminate H.
Qed.

(** *** C50 *)
Lemma crash_only tr c o c' : reach tr c -> qstep c o = Some (c', ACrash) ->
  (o = OSuccess /\ exists i p, fl c = FSent i /\ contents c i = Some p /\ (p_timeout p <= 0)%Z) \/ rem c = RDestroying.
Proof.
  intros R H. pose proof (reach_inv _ _ R) as Q. unfold qstep in H. destruct (dead c); [discriminate|].
  destruct (destroying c) eqn:DE; [right; apply destroying_rem, DE|].
  destruct o.
  - apply guard_some in H. destruct H as [_ H]. exfalso. unfold enqueue in H.
    destruct (last_id (wait c)) as [j|]; [destruct (get j (items c)) as [y|]; [destruct (p_upd (it_props y))|]|]; destruct ok; discriminate H.
  - destruct (fl c), (tokens c); discriminate H.
  - destruct (fl c); discriminate H.
  - destruct (fl c); try discriminate H. destruct ok; discriminate H.
  - destruct (fl c) eqn:F; try discriminate H. apply guard_some in H. destruct H as [_ H]. destruct (wait c) eqn:W; [|discriminate H].
    exfalso. pose proof (q_tokens c Q) as T. rewrite F, W in T. cbn in T. specialize (T ltac:(discriminate)). lia.
  - destruct (fl c) eqn:F; try discriminate H. apply guard_some in H. destruct H as [_ H]. unfold create in H. rewrite DE in H.
    destruct (get i (items c)) as [x|] eqn:G; [|discriminate H]. rewrite (q_taken_h c Q i x F G) in H. discriminate H.
  - destruct (fl c) eqn:F; try discriminate H. apply guard_some in H. destruct H as [_ H]. unfold success in H. rewrite DE in H.
    destruct (get i (items c)) as [x|] eqn:G; [|discriminate H]. destruct (it_hb x); try discriminate H.
    destruct (Z.leb_spec (p_timeout (it_props x)) 0); [|discriminate H]. left. split; [reflexivity|]. exists i, (it_props x).
    unfold contents. rewrite G. auto.
  - destruct (fl c); discriminate H.
  - destruct (fl c) eqn:F; try discriminate H. apply guard_some in H. destruct H as [_ H]. exfalso. unfold fail_back in H. rewrite DE in H.
    destruct (get i (items c)) as [x|] eqn:G; [|discriminate H]. destruct (it_hb x); try discriminate H;
      cbn [set_fl wait items] in H; destruct (p_upd (it_props x)), (wait c); discriminate H.
  - destruct (fl c); discriminate H.
  - destruct (fl c); try discriminate H; apply guard_some in H; destruct H as [_ H]; discriminate H.
  - apply guard_some in H. destruct H as [_ H]. unfold ack in H. destruct (get i (items c)) as [x|]; [destruct (it_hb x)|]; discriminate H.
  - apply guard_some in H. destruct H as [_ H]. unfold nack in H. destruct (get i (items c)) as [x|]; [destruct (it_hb x)|]; try discriminate H;
      destruct (fail_item c i x); discriminate H.
  - apply guard_some in H. destruct H as [_ H]. unfold beat in H. destruct (get i (items c)) as [x|]; [destruct (it_hb x)|]; discriminate H.
  - apply guard_some in H. destruct H as [_ H]. destruct (get i (items c)); discriminate H.
  - apply guard_some in H. destruct H as [_ H]. unfold time_out in H. rewrite DE in H.
    destruct (get i (items c)) as [x|]; try discriminate H. destruct (fail_item c i x); discriminate H.
  - apply guard_some in H. destruct H as [_ H]. destruct (get i (items c)); discriminate H.
  - apply guard_some in H. destruct H as [_ H]. destruct (items c); discriminate H.
  - apply guard_some in H. destruct H as [_ H]. discriminate H.
  - destruct (rem c); discriminate H.
  - destruct (rem c); discriminate H.
  - destruct (rem c); discriminate H.
  - destruct (rem c); try discriminate H. apply guard_some in H. destruct H as [_ H]. discriminate H.
  - discriminate H.
Qed.

(** *** C44: removal *)
Lemma delete_empty c c' : qstep c ODelete = Some (c', AUnit) -> items c = [] /\ items c' = [] /\ indexed c' = false.
Proof.
  unfold qstep. destruct (dead c); [discriminate|]. intros H. apply guard_some in H. destruct H as [_ H].
  destruct (items c) eqn:E; [|discriminate H]. injection H as <-. cbn. auto.
Qed.
Lemma delete_refused c c' a : qstep c ODelete = Some (c', a) -> items c <> [] -> a = ANotFound /\ c' = c.
Proof.
  unfold qstep. destruct (dead c); [discriminate|]. intros H N. apply guard_some in H. destruct H as [_ H].
  destruct (items c) eqn:E; [congruence|]. injection H as <- <-. auto.
Qed.
(** A channel that has left the index takes no item any more *)
Lemma removed_step c o c' a : qstep c o = Some (c', a) -> qinv c -> rem c <> RNo -> rem c' <> RNo.
Proof. intros H Q R. qcases Q H; bools; qfail; sel; congruence. Qed.
Lemma removed_refuses c p i ok : rem c <> RNo -> qstep c (OEnqueue p i ok) = None.
Proof.
  intros R. unfold qstep. destruct (dead c); [reflexivity|]. unfold indexed. destruct (rem c); try congruence; reflexivity.
Qed.
Lemma enq_down c o c' a : qstep c o = Some (c', a) -> qinv c -> rem c <> RNo -> enq c' <= enq c.
Proof.
  intros H Q R. qcases Q H; bools; qfail; sel; try lia; try congruence.
  all: match goal with F : failed _ _ _ _ _ |- _ => destruct F end; lia.
Qed.
Lemma run_down c o c' a : qstep c o = Some (c', a) -> qinv c -> o <> ORun true -> run c' <= run c.
Proof. intros H Q N. qcases Q H; bools; qfail; sel; try lia; try congruence. Qed.
Lemma rem_zero c o c' a : qstep c o = Some (c', a) -> qinv c -> (rem c = REnq \/ rem c = RRun \/ rem c = RDestroying \/ rem c = RGone) -> rem c' <> RNo.
Proof. intros H Q R. eapply removed_step; eauto. intuition congruence. Qed.

Lemma forced_enq tr c : reach tr c -> In (OZeroEnq, AUnit) tr -> enq c = 0 /\ rem c <> RNo.
Proof.
  intros (e & r & E). induction E as [|tr c o a c' E IH H]; [intros []|].
  assert (Q : qinv c) by (eapply qexec_inv; [apply qinv_new|exact E]).
  intros [[= -> ->]|I].
  - unfold qstep in H. destruct (dead c); [discriminate|]. destruct (rem c); try discriminate. injection H as <-. cbn. split; [reflexivity|discriminate].
  - destruct (IH I) as [Z R]. split; [|eapply removed_step; eassumption]. pose proof (enq_down _ _ _ _ H Q R). lia.
Qed.
Lemma forced_run tr1 tr2 c : reach (tr2 ++ (OZeroRun, AUnit) :: tr1) c -> (forall a, ~ In (ORun true, a) tr2) -> run c = 0.
Proof.
  intros (e & r & E). remember (tr2 ++ (OZeroRun, AUnit) :: tr1) as tr eqn:T. revert tr2 T.
  induction E as [|tr c o a c' E IH H]; intros tr2 T N; [destruct tr2; discriminate T|].
  assert (Q : qinv c) by (eapply qexec_inv; [apply qinv_new|exact E]).
  destruct tr2 as [|e2 tr2]; cbn [app] in T; injection T; intros; subst.
  - unfold qstep in H. destruct (dead c); [discriminate|]. destruct (rem c); try discriminate. injection H as <-. reflexivity.
  - assert (NO : o <> ORun true) by (intros ->; eapply N; left; reflexivity).
    pose proof (run_down _ _ _ _ H Q NO). rewrite (IH tr2 eq_refl) in H0; [lia|]. intros b I. eapply N. right. exact I.
Qed.
