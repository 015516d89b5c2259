(** The order of delivery, and what single requests do: C38, C39, C41, C43 *)
From Coq Require Import String List Bool Arith NArith ZArith Lia.
From Verif Require Import Channel SpecChannel ChannelProofs ChannelContents.
Import ListNotations.

Ltac nope := exfalso;
  repeat match goal with O : _ \/ _ |- _ => destruct O as [O|O] | O : exists _, _ |- _ => destruct O as [? O] | O : _ /\ _ |- _ => destruct O end;
  congruence.
Lemma before_app_r l m a b : before l a b -> before (l ++ m) a b.
Proof. intros (l1 & l2 & l3 & ->). exists l1, l2, (l3 ++ m). rewrite <- !app_assoc. cbn [app]. rewrite <- app_assoc. reflexivity. Qed.
Lemma before_cons l x a b : before l a b -> before (x :: l) a b.
Proof. intros (l1 & l2 & l3 & ->). exists (x :: l1), l2, l3. reflexivity. Qed.
Lemma before_tail l x a b : before (x :: l) a b -> a <> x -> before l a b.
Proof.
  intros (l1 & l2 & l3 & E) N. destruct l1 as [|y l1]; cbn [app] in E; injection E; intros; subst; [congruence|].
  exists l1, l2, l3. reflexivity.
Qed.
Lemma before_last l x a b : before (l ++ [x]) a b -> b <> x -> before l a b.
Proof.
  intros (l1 & l2 & l3 & E) N. destruct l3 as [|y l3] using rev_ind.
  - exfalso. apply N. assert (E' : l ++ [x] = (l1 ++ a :: l2) ++ [b]) by (rewrite E, <- app_assoc; reflexivity).
    apply app_inj_tail in E'. symmetry. apply E'.
  - exists l1, l2, l3. assert (E' : l ++ [x] = (l1 ++ a :: l2 ++ b :: l3) ++ [y]).
    { rewrite E. rewrite <- !app_assoc. cbn [app]. rewrite <- app_assoc. reflexivity. }
    apply app_inj_tail in E'. apply E'.
Qed.
Lemma before_in_l l a b : before l a b -> In a l.
Proof. intros (l1 & l2 & l3 & ->). rewrite in_app_iff. right. left. reflexivity. Qed.
Lemma before_in_r l a b : before l a b -> In b l.
Proof. intros (l1 & l2 & l3 & ->). rewrite in_app_iff. right. right. rewrite in_app_iff. right. left. reflexivity. Qed.
Lemma before_neq l a b : NoDup l -> before l a b -> a <> b.
Proof.
  intros N (l1 & l2 & l3 & ->). intros ->. apply NoDup_remove_2 in N. apply N.
  rewrite !in_app_iff. right. right. left. reflexivity.
Qed.
Lemma before_head l i b : In b l -> before (i :: l) i b.
Proof. intros I. apply in_split in I. destruct I as (l1 & l2 & ->). exists [], l1, l2. reflexivity. Qed.
Lemma before_end l i b : In b l -> before (l ++ [i]) b i.
Proof. intros I. apply in_split in I. destruct I as (l1 & l2 & ->). exists l1, l2, []. rewrite <- app_assoc. reflexivity. Qed.

Lemma order_effect c o a c' p q : qinv c -> effect c o a c' -> before (wait c) p q ->
  before (wait c') p q \/ fl c' = FTaken p \/ ~ stored c' q.
Proof.
  intros Q H B. inversion H; subst; try (left; exact B);
    try (left; match goal with E : wait ?d = wait ?e |- _ => rewrite E; exact B end).
  - left. match goal with E : wait c' = _ |- _ => rewrite E end. apply before_app_r, B.
  - match goal with E : wait c = _ :: wait c' |- _ => rewrite E in B end.
    destruct (Nat.eq_dec p i) as [->|N]; [auto|]. left. eapply before_tail; eassumption.
  - left. match goal with E : wait c' = _ |- _ => rewrite E end. apply before_cons, B.
  - match goal with F : failed _ _ _ _ _ |- _ => destruct F as [? E W'|? ? ? ? E W'|? ? ? E W'|? ? ? E W'|w j y ? ? ? W Gj Uj E W'] end.
    + left. rewrite W'. exact B.
    + left. rewrite W'. exact B.
    + left. rewrite W'. apply before_cons, B.
    + left. rewrite W'. apply before_app_r, B.
    + rewrite W in B. destruct (Nat.eq_dec q j) as [->|N].
      * right. right. unfold stored. rewrite E, get_del_same by apply keys_put_nodup, Q. auto.
      * left. rewrite W'. apply before_app_r. eapply before_last; eassumption.
Qed.

(** ids are not reused *)
Lemma used_step c o c' a i : qstep c o = Some (c', a) -> qinv c -> In i (used c) -> In i (used c').
Proof. intros H Q I. qcases Q H; bools; qfail; sel; try exact I; try (right; exact I); congruence. Qed.
Lemma gone_effect c o a c' i : qinv c -> effect c o a c' -> In i (used c) -> ~ stored c i -> ~ stored c' i.
Proof.
  intros Q H U N S. pose proof (comes_effect c o a c' i Q H N S) as K. inversion K; subst. inversion H; subst; try contradiction.
  - intuition discriminate.
Qed.

Lemma order_exec c0 tr c a b : qinv c0 -> before (wait c0) a b -> qexec c0 tr c -> serving c -> handed a tr = false ->
  handed b tr = false /\ In b (used c) /\ (before (wait c) a b \/ fl c = FTaken a \/ ~ stored c b) /\ a <> b.
Proof.
  intros Q0 B E. induction E as [|tr c o x c' E IH H]; intros S HA.
  - split; [reflexivity|]. split; [apply (q_used_w c0 Q0); eapply before_in_r, B|]. split; [auto|].
    eapply before_neq; [apply (q_wait c0 Q0)|exact B].
  - assert (Q : qinv c) by (eapply qexec_inv; eassumption).
    pose proof (serving_back _ _ _ _ H Q S) as S0.
    unfold handed in HA. cbn [existsb] in HA. apply orb_false_iff in HA. destruct HA as [HA1 HA2].
    destruct (IH S0 HA2) as (HB & UB & ST & NAB). pose proof (step_effect _ _ _ _ Q S H) as EF.
    assert (HB1 : hands_out b (o, x) = false).
    { destruct (hands_out b (o, x)) eqn:HO; [|reflexivity]. exfalso.
      assert (F : fl c = FTaken b /\ stored c b).
      { inversion EF; subst; cbn [hands_out] in HO; try discriminate HO.
        - destruct o; intuition discriminate.
        - apply Nat.eqb_eq in HO. subst. split; [assumption|]. unfold stored. congruence.
        - destruct o; intuition discriminate.
        - destruct o; intuition discriminate. }
      destruct F as [F SB]. destruct ST as [ST|[ST|ST]]; [|congruence|contradiction].
      apply (q_taken c Q b F). eapply before_in_r, ST. }
    split; [unfold handed; cbn [existsb]; rewrite HB1; exact HB|].
    split; [eapply used_step; eassumption|]. split; [|exact NAB].
    destruct ST as [ST|[ST|ST]].
    + eapply order_effect; eassumption.
    + (* a was taken: nothing happens to the flight until it is handed out *)
      assert (K : fl c' = FTaken a \/ hands_out a (o, x) = true).
      { inversion EF; subst; try (left; congruence); try congruence; try (left; cbn; exact ST).
        - match goal with G : glide _ _ _ |- _ => rewrite ST in G; inversion G end.
        - right. cbn [hands_out]. apply Nat.eqb_eq. congruence. }
      destruct K as [K|K]; [auto|congruence].
    + right. right. eapply gone_effect; eassumption.
Qed.

(** C38: what waits behind is not handed out first *)
Lemma fifo tr c tr' c' a b o x c'' : reach tr c -> before (wait c) a b -> qexec c tr' c' ->
  qstep c' o = Some (c'', x) -> serving c'' -> hands_out b (o, x) = true -> handed a tr' = true.
Proof.
  intros R B E H S HB. pose proof (reach_inv _ _ R) as Q. destruct (handed a tr') eqn:HA; [reflexivity|]. exfalso.
  assert (Q' : qinv c') by (eapply qexec_inv; eassumption).
  pose proof (serving_back _ _ _ _ H Q' S) as S'.
  destruct (order_exec c tr' c' a b Q B E S' HA) as (HB' & U & _ & N).
  assert (E2 : qexec c ((o, x) :: tr') c'') by (econstructor; eassumption).
  destruct (handed a ((o, x) :: tr')) eqn:HA2.
  - unfold handed in HA2. cbn [existsb] in HA2. rewrite orb_true_iff in HA2. destruct HA2 as [HA2|HA2]; [|unfold handed in HA; congruence].
    destruct o; cbn [hands_out] in *; try discriminate. destruct x; try discriminate.
    apply Nat.eqb_eq in HA2. apply Nat.eqb_eq in HB. congruence.
  - destruct (order_exec c _ c'' a b Q B E2 S HA2) as (HB2 & _). unfold handed in HB2. cbn [existsb] in HB2.
    apply orb_false_iff in HB2. destruct HB2. congruence.
Qed.

(** ... where new and retried items are put *)
Lemma put_at_end tr c p i ok c' : reach tr c -> serving c' -> qstep c (OEnqueue p i ok) = Some (c', AStored i) ->
  wait c' = wait c ++ [i].
Proof.
  intros R S H. pose proof (step_effect _ _ _ _ (reach_inv _ _ R) S H) as EF. inversion EF; subst; try assumption.
  all: try nope.
Qed.
Lemma retried_at tr c o i p c' : reach tr c -> serving c' -> (o = ONack i \/ o = OTimeout i) ->
  contents c i = Some p -> qstep c o = Some (c', AFailed Requeued) ->
  wait c' = match p_pos p with Front => i :: wait c | Back => wait c ++ [i] end.
Proof.
  intros R S O C H. pose proof (step_effect _ _ _ _ (reach_inv _ _ R) S H) as EF. unfold contents in C.
  inversion EF; subst; try nope.
  - assert (i0 = i) as -> by (destruct O as [->| ->]; intuition congruence).
    match goal with G : get i (items c) = Some x |- _ => rewrite G in C end. cbn [option_map] in C. injection C as <-.
    match goal with F : failed _ _ _ _ _ |- _ => inversion F; subst; match goal with P : p_pos _ = _ |- _ => rewrite P end; assumption end.
Qed.
Lemma replaced_at tr c o i j c' : reach tr c -> serving c' -> (o = ONack i \/ o = OTimeout i) ->
  qstep c o = Some (c', AFailed (Replaced j)) -> exists w, wait c = w ++ [j] /\ wait c' = w ++ [i].
Proof.
  intros R S O H. pose proof (step_effect _ _ _ _ (reach_inv _ _ R) S H) as EF.
  inversion EF; subst; try nope.
  - assert (i0 = i) as -> by (destruct O as [->| ->]; intuition congruence).
    match goal with F : failed _ _ _ _ _ |- _ => inversion F; subst end. eauto.
Qed.
Lemma undelivered_at tr c i c' : reach tr c -> serving c' -> qstep c OFailBack = Some (c', ABack i Requeued) ->
  wait c' = i :: wait c.
Proof.
  intros R S H. pose proof (step_effect _ _ _ _ (reach_inv _ _ R) S H) as EF.
  inversion EF; subst; try nope; try assumption.
Qed.

Lemma serving_forth c o c' a : qinv c -> qstep c o = Some (c', a) -> serving c -> o <> OShutdown -> o <> ODelete -> o <> OClose ->
  serving c'.
Proof.
  intros Q H [D R]. unfold serving. qcases Q H; bools; qfail; sel; intros; split; congruence.
Qed.

(** *** C39 *)
Lemma contents_effect c o a c' i : qinv c -> effect c o a c' -> stored c i -> stored c' i -> writes i (o, a) = false ->
  contents c' i = contents c i.
Proof.
  intros Q H S S' W. unfold contents, stored in *.
  inversion H; subst; try reflexivity;
    try (match goal with E : items ?d = items ?e |- _ => rewrite E; reflexivity end).
  all: try (match goal with E : items ?d = put ?k _ (items ?e), G : get ?k (items ?e) = Some _ |- context [get ?j (items ?d)] =>
      rewrite E, get_put; destruct (Nat.eqb_spec j k) as [->|]; [rewrite G; reflexivity|reflexivity] end).
  all: try (match goal with E : items ?d = del ?k _ |- context [get ?j (items ?d)] =>
      rewrite E in *; rewrite get_del in * by apply Q; destruct (Nat.eqb_spec j k); congruence end).
  - match goal with E : items c' = put _ _ _ |- _ => rewrite E, get_put end. cbn [writes] in W. rewrite W. reflexivity.
  - match goal with E : items c' = put _ _ _ |- _ => rewrite E, get_put end. cbn [writes] in W. rewrite W. reflexivity.
  - match goal with F : failed _ _ _ _ _ |- _ => destruct F as [? E|? ? ? ? E|? ? ? E|? ? ? E|w j y ? ? ? ? ? ? E] end;
      rewrite E in *; rewrite ?get_del in * by (try apply keys_put_nodup; apply Q); rewrite ?get_put in *.
    + split_eqb; congruence.
    + split_eqb; congruence.
    + destruct (Nat.eqb_spec i i0) as [->|]; [|reflexivity]. match goal with G : get i0 _ = Some _ |- _ => rewrite G end. reflexivity.
    + destruct (Nat.eqb_spec i i0) as [->|]; [|reflexivity]. match goal with G : get i0 _ = Some _ |- _ => rewrite G end. reflexivity.
    + destruct (Nat.eqb_spec i j); [congruence|]. destruct (Nat.eqb_spec i i0) as [->|]; [|reflexivity].
      match goal with G : get i0 _ = Some _ |- _ => rewrite G end. reflexivity.
Qed.
Lemma writes_effect c o a c' i : qinv c -> serving c -> effect c o a c' -> stored c i -> writes i (o, a) = true ->
  waiting c i /\ ~ with_client c i.
Proof.
  intros Q SV H S W.
  assert (WI : waiting c i).
  { unfold waiting. inversion H; subst; cbn [writes] in W; try discriminate W.
    - apply Nat.eqb_eq in W. subst. unfold stored in S. congruence.
    - apply Nat.eqb_eq in W. subst. match goal with E : wait c = _ |- _ => rewrite E, in_app_iff; right; left; reflexivity end.
    - destruct o; nope.
    - destruct o; nope.
    - destruct o; nope. }
  split; [exact WI|]. destruct (exactly_one c i Q SV S); tauto.
Qed.

Lemma enqueue_update tr c p i ok c' a w j q : reach tr c -> serving c -> qstep c (OEnqueue p i ok) = Some (c', a) ->
  wait c = w ++ [j] -> contents c j = Some q -> p_upd q = true ->
  a = AUpdated j /\ contents c' j = Some (mkProps (p_data p) (p_upd p) (p_max p) (p_pos p) (p_timeout q)) /\ only j c c' /\
  wait c' = wait c /\ number_stored c' = number_stored c /\ enq c' = enq c /\ run c' = run c.
Proof.
  intros R S H W C U. pose proof (reach_inv _ _ R) as Q.
  assert (S' : serving c') by (eapply serving_forth; eauto; discriminate).
  pose proof (step_effect _ _ _ _ Q S' H) as EF. unfold contents in *.
  assert (LAST : forall w' j' (P : Prop), wait c = w' ++ [j'] -> (j' = j -> P) -> P).
  { intros w' j' P E K. rewrite W in E. apply app_inj_tail in E. apply K. symmetry. apply E. }
  assert (NOLAST : ~ (wait c = [] \/ exists w j y, wait c = w ++ [j] /\ get j (items c) = Some y /\ p_upd (it_props y) = false)).
  { intros [E|(w' & j' & y & E & G & N)]; [rewrite W in E; destruct w; discriminate E|].
    apply (LAST _ _ False E). intros ->. rewrite G in C. cbn in C. congruence. }
  inversion EF; subst; try contradiction; try nope.
  - match goal with E : wait c = _ ++ [j0] |- _ => apply (LAST _ _ _ E) end. intros ->.
    match goal with G : get j (items c) = Some x |- _ => pose proof G as G0; rewrite G in C end. cbn in C. injection C as <-.
    match goal with E : items c' = _ |- _ => pose proof E as E0; rewrite E end.
    split; [reflexivity|]. split; [rewrite get_put_same; reflexivity|].
    split; [intros k N; rewrite E0; apply get_put_other; congruence|].
    split; [assumption|]. split; [unfold number_stored; rewrite E0; eapply length_put_some, G0|]. auto.
Qed.
Lemma enqueue_append tr c p i ok c' a : reach tr c -> serving c -> qstep c (OEnqueue p i ok) = Some (c', a) ->
  (forall w j q, wait c = w ++ [j] -> contents c j = Some q -> p_upd q = false) ->
  if ok then a = AStored i /\ ~ stored c i /\ contents c' i = Some p /\ only i c c' /\ wait c' = wait c ++ [i] /\
             number_stored c' = S (number_stored c) /\ enq c' = S (enq c) /\ run c' = run c
  else a = AFull /\ c' = c.
Proof.
  intros R S H N. pose proof (reach_inv _ _ R) as Q.
  assert (S' : serving c') by (eapply serving_forth; eauto; discriminate).
  pose proof (step_effect _ _ _ _ Q S' H) as EF. unfold contents in *.
  inversion EF; subst; try nope.
  - match goal with E : items c' = _ |- _ => pose proof E as E0; rewrite E end.
    split; [reflexivity|]. split; [unfold stored; congruence|]. split; [rewrite get_put_same; reflexivity|].
    split; [intros k NN; rewrite E0; apply get_put_other; congruence|].
    split; [assumption|]. split; [unfold number_stored; rewrite E0; apply length_put_none; assumption|]. auto.
  - auto.
  - exfalso. match goal with E : wait c = _ ++ [j], G : get j (items c) = Some x |- _ => specialize (N _ j (it_props x) E); rewrite G in N end.
    specialize (N eq_refl). congruence.
Qed.

(** *** C41 *)
Lemma del_only c c' i : items c' = del i (items c) -> only i c c'.
Proof. intros E j N. rewrite E. apply get_del_other. congruence. Qed.
Lemma del_number c c' i x : get i (items c) = Some x -> items c' = del i (items c) -> S (number_stored c') = number_stored c.
Proof. intros G E. unfold number_stored. rewrite E. eapply length_del, G. Qed.

Lemma ack_step tr c i c' a : reach tr c -> serving c -> qstep c (OAck i) = Some (c', a) ->
  (a = AAcked /\ processing c i /\ ~ timing_out c i /\ ~ stored c' i /\ only i c c' /\ wait c' = wait c /\
   S (number_stored c') = number_stored c) \/
  (a = ANotFound /\ ~ processing c i /\ c' = c) \/
  (a = AWait /\ timing_out c i /\ items c' = items c /\ wait c' = wait c).
Proof.
  intros R S H. pose proof (reach_inv _ _ R) as Q.
  assert (S' : serving c') by (eapply serving_forth; eauto; discriminate).
  pose proof (step_effect _ _ _ _ Q S' H) as EF. inversion EF; subst; try nope.
  - auto.
  - left. split; [reflexivity|]. split; [eexists; split; [eassumption|intuition congruence]|].
    split; [intros (y & G & F); intuition congruence|].
    match goal with G : get i (items c) = _, E : items c' = del i _ |- _ => rename G into G0; rename E into E0 end.
    split; [unfold stored; rewrite E0, get_del_same by apply Q; auto|]. split; [apply del_only, E0|]. split; [assumption|].
    eapply del_number; eassumption.
  - right. right. split; [reflexivity|]. split; [|auto].
    match goal with O : _ \/ _ |- _ => destruct O as [(E & _ & F)|[(E & _)|(E & _)]]; try discriminate E end.
    injection E as <-. eexists; eauto.
Qed.
Lemma nack_step tr c i c' a : reach tr c -> serving c -> qstep c (ONack i) = Some (c', a) ->
  (processing c i /\ ~ timing_out c i /\ ~ processing c' i /\ (exists f, a = AFailed f /\ f <> Untouched)) \/
  (a = ANotFound /\ ~ stored c i /\ c' = c) \/
  (a = AFailed Untouched /\ stored c i /\ ~ processing c i /\ c' = c) \/
  (a = AWait /\ timing_out c i /\ items c' = items c /\ wait c' = wait c).
Proof.
  intros R S H. pose proof (reach_inv _ _ R) as Q.
  assert (S' : serving c') by (eapply serving_forth; eauto; discriminate).
  pose proof (step_effect _ _ _ _ Q S' H) as EF. inversion EF; subst; try nope.
  - auto.
  - right; right; left; auto.
  - left. match goal with O : _ \/ _ |- _ => destruct O as [[E F]|[E F]]; [|discriminate E] end. injection E as <-.
    match goal with K : failed _ _ _ _ _ |- _ => pose proof (failed_settles _ _ _ _ _ K) as FS;
      pose proof (proc_failed c i x c' f i Q ltac:(assumption) ltac:(intuition congruence) K) as PF end.
    split; [eexists; split; [eassumption|intuition congruence]|].
    split; [intros (y & G & Fd); intuition congruence|]. split; [tauto|]. eauto.
  - right. right. right. split; [reflexivity|]. split; [|auto].
    match goal with O : _ \/ _ |- _ => destruct O as [(E & _ & F)|[(E & _ & F)|(E & _)]]; try discriminate E end.
    injection E as <-. eexists; eauto.
Qed.
(** a delivery is settled once *)
Lemma settles_once tr c o a c' i : reach tr c -> serving c' -> qstep c o = Some (c', a) -> settles i (o, a) = true ->
  out i tr = true /\ out i ((o, a) :: tr) = false.
Proof.
  intros R S H SE. pose proof (reach_inv _ _ R) as Q. pose proof (serving_back _ _ _ _ H Q S) as S0.
  pose proof (step_effect _ _ _ _ Q S H) as EF.
  assert (P : processing c i).
  { inversion EF; subst; cbn [settles] in SE; try discriminate SE.
    - rewrite andb_false_r in SE. discriminate.
    - repeat match goal with O : _ \/ _ |- _ => destruct O as [O|O] | O : exists _, _ |- _ => destruct O as [? O] end; subst;
        cbn [settles] in SE; rewrite ?andb_false_r in SE; discriminate.
    - rewrite andb_true_r in SE. apply Nat.eqb_eq in SE. subst. eexists; split; [eassumption|congruence].
    - rewrite andb_true_r in SE. apply Nat.eqb_eq in SE. subst. eexists; split; [eassumption|congruence].
    - apply Nat.eqb_eq in SE. subst. eexists; split; [eassumption|intuition congruence].
    - match goal with O : _ \/ _ |- _ => destruct O as [[-> ?]|[-> ?]] end; cbn [settles] in SE; apply andb_true_iff in SE; destruct SE as [SE _];
        apply Nat.eqb_eq in SE; subst; eexists; (split; [eassumption|intuition congruence]).
    - match goal with O : _ \/ _ |- _ => destruct O as [(-> & _)|[(-> & _)|(-> & _)]] end; discriminate SE. }
  split; [apply (out_iff tr c i R S0), P|]. cbn [out]. rewrite SE.
  destruct (hands_out i (o, a)) eqn:HO; [|reflexivity]. exfalso.
  destruct o; try discriminate HO; discriminate SE.
Qed.

(** *** C43 *)
Lemma failrun_step tr c i : reach tr c -> dead c = false -> fl c = FSent i ->
  qstep c OFailRun = Some (set_fl (set_run c (pred (run c))) (FBack i), AUnit).
Proof. intros _ D F. unfold qstep. rewrite D, F. reflexivity. Qed.
Lemma failback_step tr c i c' a : reach tr c -> serving c -> fl c = FBack i -> qstep c OFailBack = Some (c', a) ->
  run c' = run c /\ fl c' = FIdle /\ only i c c' /\
  ((~ processing c i /\ a = ABack i Untouched /\ items c' = items c /\ wait c' = wait c) \/
   (processing c i /\ a = ABack i Requeued /\ wait c' = i :: wait c /\ ~ processing c' i /\ contents c' i = contents c i /\
     stored c' i) \/
   (processing c i /\ a = ABack i Superseded /\ wait c' = wait c /\ ~ stored c' i /\ wait c <> [] /\
     exists p, contents c i = Some p /\ p_upd p = true)).
Proof.
  intros R S F H. pose proof (reach_inv _ _ R) as Q.
  assert (S' : serving c') by (eapply serving_forth; eauto; discriminate).
  pose proof (step_effect _ _ _ _ Q S' H) as EF. inversion EF; subst; try nope.
  - match goal with G : glide _ _ _ |- _ => rewrite F in G; inversion G; subst end.
    split; [assumption|]. split; [congruence|]. split; [intros k N; congruence|]. left. split; [assumption|]. split; [|auto].
    clear - H Q F S H1. unfold qstep in H. destruct (dead c); [discriminate|]. rewrite F in H. apply guard_some in H. destruct H as [_ H].
    unfold fail_back in H. destruct S as [_ R]. unfold destroying in H. rewrite R in H.
    destruct (get i (items c)) as [x|] eqn:G; [|injection H as _ <-; reflexivity].
    destruct (q_sent c Q i x (or_intror F) G) as [E|E]; rewrite E in H; [injection H as _ <-; reflexivity|].
    exfalso. repeat match goal with O : _ \/ _ |- _ => destruct O as [O|O] | O : exists _, _ |- _ => destruct O as [? O] end; subst;
      cbn [set_fl wait items] in H; destruct (p_upd (it_props x)); destruct (wait c); injection H as _ ?; discriminate.
  - assert (i0 = i) as -> by congruence.
    match goal with G : get i (items c) = _, E : items c' = put i _ _ |- _ => rename G into G0; rename E into E0 end.
    split; [assumption|]. split; [assumption|]. split; [intros k N; rewrite E0; apply get_put_other; congruence|]. right. left.
    split; [eexists; split; [eassumption|congruence]|]. split; [reflexivity|]. split; [assumption|].
    split; [intros (y & G & N); rewrite E0, get_put_same in G; injection G as <-; cbn in N; congruence|].
    split; [unfold contents; rewrite E0, get_put_same, G0; reflexivity|]. unfold stored. rewrite E0, get_put_same. discriminate.
  - assert (i0 = i) as -> by congruence.
    match goal with G : get i (items c) = _, E : items c' = del i _ |- _ => rename G into G0; rename E into E0 end.
    split; [assumption|]. split; [assumption|]. split; [apply del_only, E0|]. right. right.
    split; [eexists; split; [eassumption|congruence]|]. split; [reflexivity|]. split; [assumption|].
    split; [unfold stored; rewrite E0, get_del_same by apply Q; auto|]. split; [assumption|].
    exists (it_props x). unfold contents. rewrite G0. auto.
Qed.
