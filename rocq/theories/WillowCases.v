(** Histories used as examples and refutations in [PropertiesWillow.v]. *)
From Coq Require Import String List Bool Arith NArith ZArith Lia.
Import ListNotations.
From Verif Require Import Datatypes SpecValues DatatypesProofs PropLemmasValues Collections Query SpecQuery QueryProofs Assoc SpecAssoc AssocMaps AssocProofs AssocOps PropLemmasAssoc OneToMany SpecOneToMany OneToManyProofs
  Limiter SpecLimiter LimiterProofs LimiterCounts LimiterLimits LimiterSums PropLemmasLimiter PropLemmasRules PropLemmasUnit.
From Verif Require Import BTree BTreeFind SpecBTree WillowQueues.
From Verif Require Import Channel SpecChannel ChannelProofs ChannelContents ChannelOrder ChannelCounts Willow SpecWillow WillowMaps WillowCounts WillowPerform WillowInv WillowSteps WillowDir WillowApart WillowTotals PropLemmasWillow WillowRoom WillowExamples.
From Verif Require ChannelCases.
Local Open Scope Z_scope.

Lemma c45_list' k w used : wreach k w used -> k < 2 ^ 63 ->
  exists l, ListQueues w = Some l /\ NoDup (map fst l) /\
    forall name m, In (name, m) l <-> GetQueue w name = (Some m, XOk) \/
      (GetQueue w name = (None, XConflict) /\ exists p q, find_queue (w_queues w) name = Some p /\ nth_error (w_objs w) p = Some q /\ q_limit q = m).
Proof.
  intros R LT. destruct (c45_list k w used R LT) as (l & E & ND & H). exists l. split; [exact E|]. split; [exact ND|]. intros name m. rewrite H. split.
  - intros [X | (X & q & (p & A & B) & C)]; [left; exact X|right; split; [exact X|exists p, q; auto]].
  - intros [X | (X & p & q & A & B & C)]; [left; exact X|right; split; [exact X|exists q; split; [exists p; auto|exact C]]].
Qed.
Lemma delete_unknown k w used name : wreach k w used -> k < 2 ^ 63 -> snd (GetQueue w name) = XMissing -> DeleteQueue w name = (w, XOk).
Proof.
  intros R LT. pose proof (wreach_inv k w used R LT) as I. unfold GetQueue, DeleteQueue. destruct (busy w name); [discriminate|].
  destruct (find_queue (w_queues w) name) as [p|] eqn:F; [|reflexivity]. destruct (find_at k w used name p I F) as (q & -> & _). discriminate.
Qed.
Lemma crash_channel k w used name m kv : wreach k w used -> k < 2 ^ 63 -> GetQueue w name = (Some m, XOk) ->
  kv_arg kv -> ~ kv_valid kv -> exists w', DeleteChannel w name kv = Some (w', XCrash) /\ w_up w' = false.
Proof.
  intros R LT G HA NV. unfold GetQueue, DeleteChannel in *. destruct (busy w name); [discriminate|]. destruct (find_queue (w_queues w) name) as [p|]; [|discriminate].
  destruct (kv_validate kv MinDataType MaxDataType) eqn:V; [destruct NV; apply kv_valid_iff; exact V|]. cbn [negb]. eexists. split; reflexivity.
Qed.
Lemma no_keys : kv_arg [] /\ ~ kv_valid [].
Proof. split; [split; [constructor|intros ? ? []]|]. intros H. apply kv_valid_iff in H. discriminate. Qed.
Lemma c52_start s used id : lreach s used -> fresh used [id] -> (forall id' kv n, has_rule s id' kv n -> ~ kv_same kv rule_kv) ->
  exists w, start s id = Some w /\ w_up w = true /\ (forall name, GetQueue w name = (None, XMissing)) /\ ListQueues w = Some [].
Proof.
  intros R [_ F] N. destruct (F id (or_introl eq_refl)) as [NU NE].
  assert (HA : kv_arg rule_kv). { split; [repeat constructor; cbn; intuition discriminate|]. intros x v [[= <- <-] | [[= <- <-] | []]]; intros [X | X]; discriminate. }
  destruct (create_rule s used rule_kv id 0 R HA NU) as (_ & _ & _ & _ & X). destruct X as [E _].
  - split; [apply kv_valid_iff; reflexivity|lia].
  - intros (i & kv & n & H & S). eapply N; eauto.
  - unfold start. cbn [lrun]. destruct (CreateRule s rule_kv id 0) as [s' a]. cbn [snd] in E. subst a. eexists. split; [reflexivity|]. repeat split; reflexivity.
Qed.

Definition pr (d : string) : props := mkProps d false 1%N Front 5.
Definition kvx (s : string) : KeyValues := [("x"%string, Str s)].
Definition evil : KeyValues := [("queue_name"%string, Str "b")].
Definition h1 := numbered [WCreateQueue "a" (Some 2); WCreateQueue "b" (Some (-1)); WEnqueue "a" (kvx "1") (pr "p") 0%nat; WEnqueue "a" (kvx "2") (pr "q") 1%nat; WEnqueue "b" (kvx "1") (pr "r") 2%nat; WEnqueue "a" (kvx "1") (pr "s") 3%nat].
(** The state after a history *)
Definition after (l : list (wop * env)) : willow := match world l with Some w => w | None => mkWillow false empty_limiter "" None [] [] [] [] end.
Ltac run := vm_compute; reflexivity.
Lemma after_up l : goodb true l = true -> (match world l with Some _ => true | None => false end) = true -> forall k, total_cost l = k -> wreach_up k (after l) (ids l).
Proof. intros G H k <-. unfold after. destruct (world l) as [w|] eqn:E; [|discriminate]. apply world_up; assumption. Qed.
Lemma after_hist l : goodb false l = true -> (match world l with Some _ => true | None => false end) = true -> whist (after l) (ids l).
Proof. intros G H. unfold after. destruct (world l) as [w|] eqn:E; [|discriminate]. apply world_hist; assumption. Qed.
(** One more step *)
Definition next (w : willow) (o : wop) (e : env) : willow := match wstep w o e with Some (w', _) => w' | None => w end.
Lemma next_step w o e a : option_map snd (wstep w o e) = Some a -> wstep w o e = Some (next w o e, a).
Proof. unfold next. destruct (wstep w o e) as [[w' b]|]; [|discriminate]. intros [= ->]. reflexivity. Qed.
Lemma good_next w used o e a : wargb o = true -> tameb (w_rule w) o = true -> freshb used (drawn o e) = true -> option_map snd (wstep w o e) = Some a ->
  good_step w used o e (next w o e) a.
Proof. intros A T F S. split; [apply wargb_ok; exact A|]. split; [apply tameb_ok; exact T|]. split; [apply freshb_ok; exact F|apply next_step; exact S]. Qed.
Ltac up := apply after_up; run.
Ltac hist := apply after_hist; run.
Ltac good := apply good_next; run.

Lemma two_queues : exists w used e w', wreach 6 w used /\ good_step w used (WEnqueue "a" (kvx "1") (pr "t") 9%nat) e w' (XChan AFull) /\
  ~ about w (WEnqueue "a" (kvx "1") (pr "t") 9%nat) "b" /\ GetQueue w "a" = (Some 2, XOk) /\ GetQueue w "b" = (Some (-1), XOk) /\
  snd (GetQueue w "c") = XMissing /\ stored_in w "a" = 2%nat /\ stored_in w "b" = 1%nat /\ ListQueues w = Some [("a"%string, 2); ("b"%string, -1)].
Proof.
  exists (after h1), (ids h1), (ev 40), (next (after h1) (WEnqueue "a" (kvx "1") (pr "t") 9%nat) (ev 40)). split; [apply up_reach; up|]. split; [good|]. split; [discriminate|]. repeat split; run.
Qed.
Definition h6 := numbered [WCreateQueue "a" (Some 2); WCreateQueue "b" (Some (-1)); WEnqueue "b" (kvx "1") (pr "r") 2%nat; WUpdateQueue "a" 3; WDeleteQueue "a"].
Lemma dropping : exists w used w', wreach 5 w used /\ DropQueue w "a" = Some (w', XOk) /\ GetQueue w "a" = (None, XConflict) /\ stored_in w "b" = 1%nat.
Proof.
  exists (after h6), (ids h6), (next (after h6) (WDropQueue "a") (ev 40)). split; [apply up_reach; up|]. split; [|split; run].
  assert (S : wstep (after h6) (WDropQueue "a") (ev 40) = Some (next (after h6) (WDropQueue "a") (ev 40), XOk)) by (apply next_step; run). exact S.
Qed.
Definition h3 := numbered [WCreateQueue "b" (Some 1); WCreateQueue "c" (Some 1)].
Lemma create_loses : exists w used e w', whist w used /\ fresh used [e_id e; e_id2 e] /\
  wstep w (WCreateQueue "a" (Some (-2))) e = Some (w', XFailed) /\
  GetQueue w "c" = (Some 1, XOk) /\ GetQueue w' "c" = (None, XMissing) /\ ListQueues w' = Some [("b"%string, 1); ("b"%string, 1)].
Proof.
  exists (after h3), (ids h3), (ev 40), (next (after h3) (WCreateQueue "a" (Some (-2))) (ev 40)). split; [hist|]. split; [apply freshb_ok; run|]. split; [apply next_step; run|]. repeat split; run.
Qed.
Lemma create_nil_loses : exists w used e w', whist w used /\ fresh used [e_id e; e_id2 e] /\
  wstep w (WCreateQueue "a" None) e = Some (w', XPanic) /\ GetQueue w "c" = (Some 1, XOk) /\ GetQueue w' "c" = (None, XMissing).
Proof.
  exists (after h3), (ids h3), (ev 40), (next (after h3) (WCreateQueue "a" None) (ev 40)). split; [hist|]. split; [apply freshb_ok; run|]. split; [apply next_step; run|]. repeat split; run.
Qed.
Lemma update_fails : exists w used w', whist w used /\ UpdateQueue w "b" (-2) = (w', XFailed) /\ GetQueue w' "b" = (Some (-2), XOk) /\ w_lim w' = w_lim w.
Proof. exists (after h3), (ids h3), (fst (UpdateQueue (after h3) "b" (-2))). split; [hist|]. repeat split; run. Qed.

Definition h2 := numbered [WCreateQueue "a" (Some 1); WCreateQueue "b" (Some (-1)); WEnqueue "a" evil (pr "p") 0%nat; WEnqueue "a" evil (pr "q") 1%nat].
Lemma overfull : exists w used, whist w used /\ GetQueue w "a" = (Some 1, XOk) /\ stored_in w "a" = 2%nat.
Proof. exists (after h2), (ids h2). split; [hist|]. split; run. Qed.
Lemma full_queue : exists w used, wreach_up 6 w used /\ GetQueue w "a" = (Some 2, XOk) /\ stored_in w "a" = 2%nat.
Proof. exists (after h1), (ids h1). split; [up|]. split; run. Qed.
Definition h7 := numbered [WCreateQueue "a" (Some 2); WCreateQueue "b" (Some (-1)); WEnqueue "a" (kvx "1") (pr "p") 0%nat; WEnqueue "a" (kvx "2") (pr "q") 1%nat].
Lemma counting : exists w used e w', wreach 4 w used /\ good_step w used (WEnqueue "b" (kvx "1") (pr "r") 2%nat) e w' (XChan (AStored 2%nat)) /\
  queue_total w "a" 2 /\ queue_total w "b" 0.
Proof.
  exists (after h7), (ids h7), (ev 40), (next (after h7) (WEnqueue "b" (kvx "1") (pr "r") 2%nat) (ev 40)). assert (R : wreach 4 (after h7) (ids h7)) by (apply up_reach; up). split; [exact R|]. split; [good|].
  pose proof (wreach_inv _ _ _ R ltac:(lia)) as I. split; apply (total_iff _ _ _ _ _ I); run.
Qed.
(** What the limiter was asked *)
Definition l2 : list lop := [LCreateRule rule_kv "rule" 0; LCreateOverride "rule" (queue_kv "a") (e_id (ev 0)) 1; LCreateOverride "rule" (queue_kv "b") (e_id (ev 1)) (-1);
  LUpsert (enqueued_kv "a" evil) 1 (e_id (ev 40)) true].
Lemma miscounted : exists w used e w', whist w used /\ fresh used [e_id e; e_id2 e] /\ kv_arg evil /\
  wstep w (WEnqueue "a" evil (pr "p") 0%nat) e = Some (w', XChan (AStored 0%nat)) /\
  queue_total w "a" 0 /\ queue_total w "b" 0 /\ queue_total w' "a" 0 /\ queue_total w' "b" 1.
Proof.
  set (h := numbered [WCreateQueue "a" (Some 1); WCreateQueue "b" (Some (-1))]). set (o := WEnqueue "a" evil (pr "p") 0%nat).
  exists (after h), (ids h), (ev 40), (next (after h) o (ev 40)). split; [hist|]. split; [apply freshb_ok; run|]. split; [apply LimiterExamples.kv_argb_ok; run|]. split; [apply next_step; run|].
  assert (R : lreach (w_lim (after h)) (LimiterExamples.ids_of (firstn 3 l2))) by (replace (w_lim (after h)) with (LimiterExamples.lops (firstn 3 l2)) by run; apply LimiterExamples.run_reach; run).
  assert (R' : lreach (w_lim (next (after h) o (ev 40))) (LimiterExamples.ids_of l2)) by (replace (w_lim (next (after h) o (ev 40))) with (LimiterExamples.lops l2) by run; apply LimiterExamples.run_reach; run).
  assert (T : forall s used n t, lreach s used -> total_of s n = t -> group_total s (queue_kv n) (queue_kv n) t) by (intros s used n t X <-; apply (LimiterExamples.gsum_total s used); [exact X|apply queue_counter]).
  unfold queue_total. split; [|split; [|split]]; (eapply T; [eassumption|run]).
Qed.
Lemma rule_of w rule : map it_id (a_items (l_rules (w_lim w))) = [rule] -> w_rule w = rule -> forall id kv' n, has_rule (w_lim w) id kv' n -> id = w_rule w.
Proof. intros E ER id kv' n H. apply (in_map it_id) in H. rewrite E in H. destruct H as [H | []]. cbn in H. congruence. Qed.
Lemma only_rule : exists w used e w', wreach 6 w used /\ good_step w used (WEnqueue "a" (kvx "1") (pr "t") 9%nat) e w' (XChan AFull) /\ e_locked e = true /\
  (forall id kv' n, has_rule (w_lim w) id kv' n -> id = w_rule w).
Proof.
  exists (after h1), (ids h1), (ev 40), (next (after h1) (WEnqueue "a" (kvx "1") (pr "t") 9%nat) (ev 40)). split; [apply up_reach; up|]. split; [good|]. split; [run|]. apply (rule_of _ "rule"); run.
Qed.
(** An item thrown away for a newer one keeps its place *)
Definition chan_id := e_id2 (ev 1).
Definition h5 := numbered ([WCreateQueue "a" (Some 2); WEnqueue "a" (kvx "1") ChannelCases.p_new 0%nat] ++ map (WTick "a" chan_id) ChannelCases.deliver ++
  [WEnqueue "a" (kvx "1") ChannelCases.p_new 1%nat; WAck "a" (kvx "1") 0%nat false] ++ map (WTick "a" chan_id) ChannelCases.deliver).
Lemma places_lost : exists w used e w', wreach_up 16 w used /\ good_step w used (WEnqueue "a" (kvx "1") ChannelCases.p_new 2%nat) e w' (XChan AFull) /\
  e_locked e = true /\ (forall id kv' n, has_rule (w_lim w) id kv' n -> id = w_rule w) /\ GetQueue w "a" = (Some 2, XOk) /\ stored_in w "a" = 1%nat.
Proof.
  exists (after h5), (ids h5), (ev 40), (next (after h5) (WEnqueue "a" (kvx "1") ChannelCases.p_new 2%nat) (ev 40)). split; [up|]. split; [good|]. split; [run|]. split; [apply (rule_of _ "rule"); run|]. split; run.
Qed.
