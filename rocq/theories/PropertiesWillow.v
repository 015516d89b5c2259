(** Properties C45, C49-C53: the willow service with the limiter it uses.

    A history is a sequence of requests to willow, of background steps of its channels, and of requests of other clients
    to the limiter.  [wreach k w used]: willow is in state [w] after a history of requests as they should be (SpecWillow.v:
    limits at least -1, no channel key that clashes with willow's own, other clients leaving willow's rule and counters
    alone), [k] bounding all counting that was done, and [used] the ids drawn.  [good_step]: one more such step.
    [whist w used]: after a history of any requests to willow. *)
From Coq Require Import String List Bool Arith NArith ZArith Lia.
Import ListNotations.
From Verif Require Import Datatypes SpecValues Query SpecQuery Assoc SpecAssoc OneToMany SpecOneToMany Limiter SpecLimiter Channel SpecChannel Willow SpecWillow.
From Verif Require Import WillowPerform WillowDir WillowApart PropLemmasWillow WillowRoom WillowExamples WillowCases.
Local Open Scope Z_scope.

(** ** C45: queues have unique names, and requests address one queue *)
(** C45: a step that is not about a queue leaves it, its channels and its count as they are *)
Theorem C45_isolated : forall k w used o e w' a name, wreach k w used -> k + cost o < 2 ^ 63 -> good_step w used o e w' a -> ~ about w o name ->
  GetQueue w' name = GetQueue w name /\ belongings (w_chans w') name = belongings (w_chans w) name /\
  (forall total, queue_total w' name total <-> queue_total w name total).
Proof. exact c45_isolated. Qed.
Print Assumptions C45_isolated.
(** C45: a queue that exists (or is being deleted) is not created again, and nothing changes; otherwise it is, empty and with the limit asked for *)
Theorem C45_create : forall k w used e name m, wreach k w used -> k + 1 < 2 ^ 63 -> fresh used [e_id e; e_id2 e] -> int64 m -> -1 <= m -> name <> EmptyString ->
  let w' := fst (CreateQueue w name (Some m) e) in let a := snd (CreateQueue w name (Some m) e) in
  (snd (GetQueue w name) <> XMissing -> w' = w /\ a = XConflict) /\
  (snd (GetQueue w name) = XMissing -> a = XCreated /\ GetQueue w' name = (Some m, XOk) /\ belongings (w_chans w') name = []).
Proof. exact c45_create. Qed.
Print Assumptions C45_create.
Theorem C45_update : forall k w used name m, wreach k w used -> k + 1 < 2 ^ 63 -> int64 m -> -1 <= m ->
  let w' := fst (UpdateQueue w name m) in let a := snd (UpdateQueue w name m) in
  (snd (GetQueue w name) <> XOk -> w' = w /\ a = snd (GetQueue w name)) /\
  (snd (GetQueue w name) = XOk -> a = XOk /\ GetQueue w' name = (Some m, XOk) /\ belongings (w_chans w') name = belongings (w_chans w) name).
Proof. exact c45_update. Qed.
Print Assumptions C45_update.
(** C45: deleting begins with refusing all requests, *)
Theorem C45_delete : forall k w used name, wreach k w used -> k < 2 ^ 63 ->
  let w' := fst (DeleteQueue w name) in let a := snd (DeleteQueue w name) in
  (snd (GetQueue w name) = XOk -> a = XOk /\ GetQueue w' name = (None, XConflict)) /\
  (snd (GetQueue w name) <> XOk -> w' = w).
Proof. exact c45_delete. Qed.
Print Assumptions C45_delete.
(** and ends, when no channel is left, with the queue being gone *)
Theorem C45_dropped : forall k w used name w' a, wreach k w used -> k < 2 ^ 63 -> DropQueue w name = Some (w', a) ->
  a = XOk /\ belongings (w_chans w) name = [] /\ GetQueue w' name = (None, XMissing).
Proof. exact c45_dropped. Qed.
Print Assumptions C45_dropped.
(** C45: requests about the items and channels of an unknown queue are answered with 'not found' *)
Theorem C45_unknown : forall k w used name, wreach k w used -> k < 2 ^ 63 -> snd (GetQueue w name) = XMissing ->
  (forall kv p i e, counter_kv kv -> Enqueue w name kv p i e = Some (w, XMissing)) /\
  (forall kv o e, counter_kv kv -> ItemRequest w name kv o e = Some (w, XMissing)) /\
  (forall kv, DeleteChannel w name kv = Some (w, XMissing)).
Proof. exact c45_unknown. Qed.
Print Assumptions C45_unknown.
(** C45: the list has each queue once, with its limit *)
Theorem C45_list : forall k w used, wreach k w used -> k < 2 ^ 63 ->
  exists l, ListQueues w = Some l /\ NoDup (map fst l) /\
    forall name m, In (name, m) l <-> GetQueue w name = (Some m, XOk) \/
      (GetQueue w name = (None, XConflict) /\ exists p q, find_queue (w_queues w) name = Some p /\ nth_error (w_objs w) p = Some q /\ q_limit q = m).
Proof. exact c45_list'. Qed.
Print Assumptions C45_list.
(** C45: but deleting an unknown queue is answered with success, *)
Theorem C45_delete_refuted : forall k w used name, wreach k w used -> k < 2 ^ 63 -> snd (GetQueue w name) = XMissing -> DeleteQueue w name = (w, XOk).
Proof. exact delete_unknown. Qed.
Print Assumptions C45_delete_refuted.
(** a refused request to create a queue can remove another queue, *)
Theorem C45_create_refuted : exists w used e w', whist w used /\ fresh used [e_id e; e_id2 e] /\
  wstep w (WCreateQueue "a" (Some (-2))) e = Some (w', XFailed) /\
  GetQueue w "c" = (Some 1, XOk) /\ GetQueue w' "c" = (None, XMissing) /\ ListQueues w' = Some [("b"%string, 1); ("b"%string, 1)].
Proof. exact create_loses. Qed.
Print Assumptions C45_create_refuted.
Theorem C45_create_nil_refuted : exists w used e w', whist w used /\ fresh used [e_id e; e_id2 e] /\
  wstep w (WCreateQueue "a" None) e = Some (w', XPanic) /\ GetQueue w "c" = (Some 1, XOk) /\ GetQueue w' "c" = (None, XMissing).
Proof. exact create_nil_loses. Qed.
Print Assumptions C45_create_nil_refuted.
(** and a failed update of a limit is reported as the limit, although it is not enforced *)
Theorem C45_update_refuted : exists w used w', whist w used /\ UpdateQueue w "b" (-2) = (w', XFailed) /\ GetQueue w' "b" = (Some (-2), XOk) /\ w_lim w' = w_lim w.
Proof. exact update_fails. Qed.
Print Assumptions C45_update_refuted.
(** The theorems' hypotheses hold of a history with two queues *)
Example C45_nonvacuous : exists w used e w', wreach 6 w used /\ good_step w used (WEnqueue "a" (kvx "1") (pr "t") 9%nat) e w' (XChan AFull) /\
  ~ about w (WEnqueue "a" (kvx "1") (pr "t") 9%nat) "b" /\ GetQueue w "a" = (Some 2, XOk) /\ GetQueue w "b" = (Some (-1), XOk) /\
  snd (GetQueue w "c") = XMissing /\ stored_in w "a" = 2%nat /\ stored_in w "b" = 1%nat /\ ListQueues w = Some [("a"%string, 2); ("b"%string, -1)].
Proof. exact two_queues. Qed.
Example C45_dropped_nonvacuous : exists w used w', wreach 5 w used /\ DropQueue w "a" = Some (w', XOk) /\ GetQueue w "a" = (None, XConflict) /\ stored_in w "b" = 1%nat.
Proof. exact dropping. Qed.

(** ** C49: items count against their own queue *)
(** C49: a stored item raises the count of its queue by one and that of no other; nothing else raises a count *)
Theorem C49_counted_partial : forall k w used o e w' a, wreach k w used -> k + cost o < 2 ^ 63 -> good_step w used o e w' a ->
  (forall i, a = XChan (AStored i) -> exists name kv p j, o = WEnqueue name kv p j /\
     (forall total, queue_total w name total -> queue_total w' name (total + 1)) /\
     (forall other total, other <> name -> queue_total w other total -> queue_total w' other total)) /\
  ((forall i, a <> XChan (AStored i)) -> forall name total total', queue_total w name total -> queue_total w' name total' -> total' <= total).
Proof. exact c49. Qed.
Print Assumptions C49_counted_partial.
(** C49: an item stored in queue a that is counted for queue b, because of the channel's key values *)
Theorem C49_counted_refuted : exists w used e w', whist w used /\ fresh used [e_id e; e_id2 e] /\ kv_arg evil /\
  wstep w (WEnqueue "a" evil (pr "p") 0%nat) e = Some (w', XChan (AStored 0%nat)) /\
  queue_total w "a" 0 /\ queue_total w "b" 0 /\ queue_total w' "a" 0 /\ queue_total w' "b" 1.
Proof. exact miscounted. Qed.
Print Assumptions C49_counted_refuted.
Example C49_nonvacuous : exists w used e w', wreach 4 w used /\ good_step w used (WEnqueue "b" (kvx "1") (pr "r") 2%nat) e w' (XChan (AStored 2%nat)) /\
  queue_total w "a" 2 /\ queue_total w "b" 0.
Proof. exact counting. Qed.

(** ** C51: no queue stores more than its maximum *)
(** C51: items are only added to a queue that has room for them afterwards *)
Theorem C51_step_partial : forall k w used o e w' a name, wreach k w used -> k + cost o < 2 ^ 63 -> good_step w used o e w' a ->
  (stored_in w' name <= stored_in w name)%nat \/ exists m, GetQueue w' name = (Some m, XOk) /\ (m = -1 \/ Z.of_nat (stored_in w' name) <= m).
Proof. exact c51_step. Qed.
Print Assumptions C51_step_partial.
(** C51: so that, if no limit is lowered, no queue ever stores more than its limit *)
Theorem C51_history_partial : forall k w used name m, wreach_up k w used -> k < 2 ^ 63 -> GetQueue w name = (Some m, XOk) ->
  m = -1 \/ Z.of_nat (stored_in w name) <= m.
Proof. exact c51_history. Qed.
Print Assumptions C51_history_partial.
Example C51_nonvacuous : exists w used, wreach_up 6 w used /\ GetQueue w "a" = (Some 2, XOk) /\ stored_in w "a" = 2%nat.
Proof. exact full_queue. Qed.
(** C51: with channels named by unusual keys, a queue stores more than its limit *)
Theorem C51_refuted : exists w used, whist w used /\ GetQueue w "a" = (Some 1, XOk) /\ stored_in w "a" = 2%nat.
Proof. exact overfull. Qed.
Print Assumptions C51_refuted.

(** ** C50, for the whole service: requests that end it *)
(** C50: deleting a channel with no or invalid key-values, in any state *)
Theorem C50_channel_refuted : forall k w used name m kv, wreach k w used -> k < 2 ^ 63 -> GetQueue w name = (Some m, XOk) ->
  kv_arg kv -> ~ kv_valid kv -> exists w', DeleteChannel w name kv = Some (w', XCrash) /\ w_up w' = false.
Proof. exact crash_channel. Qed.
Print Assumptions C50_channel_refuted.
Example C50_channel_nonvacuous : kv_arg [] /\ ~ kv_valid [].
Proof. exact no_keys. Qed.

(** ** C52: restarting *)
(** C52: once willow was started, it cannot be started again with the same limiter, at any later time *)
Theorem C52_restart_refuted : forall k w used id, wreach k w used -> k < 2 ^ 63 -> ~ In id used -> start (w_lim w) id = None.
Proof. exact c52_restart. Qed.
Print Assumptions C52_restart_refuted.
(** C52: with a limiter that has no rule for the same keys it starts, with no queue *)
Theorem C52_start : forall s used id, lreach s used -> fresh used [id] -> (forall id' kv n, has_rule s id' kv n -> ~ kv_same kv rule_kv) ->
  exists w, start s id = Some w /\ w_up w = true /\ (forall name, GetQueue w name = (None, XMissing)) /\ ListQueues w = Some [].
Proof. exact c52_start. Qed.
Print Assumptions C52_start.

(** ** C53: a queue with room takes items *)
(** C53: an item is refused for lack of room only if a limit that governs its counter is reached *)
Theorem C53_refused_partial : forall k w used name kv p i e w', wreach k w used -> k + 1 < 2 ^ 63 ->
  good_step w used (WEnqueue name kv p i) e w' (XChan AFull) -> e_locked e = true ->
  w_lim w' = w_lim w /\ exists kv' g limit total, counter_kv kv' /\ plain kv' /\ governs (w_lim w) (enqueued_kv name kv') g limit /\ limit <> -1 /\
    group_total (w_lim w) g (enqueued_kv name kv') total /\ limit <= total.
Proof. exact c53_full. Qed.
Print Assumptions C53_refused_partial.
(** C53: if the limiter has no other rules: only if the queue's limit is reached by the count of its items; and it is
    stored only if not *)
Theorem C53_limit_partial : forall k w used name kv p i e w' a, wreach k w used -> k + 1 < 2 ^ 63 ->
  good_step w used (WEnqueue name kv p i) e w' (XChan a) -> e_locked e = true ->
  (forall id kv' n, has_rule (w_lim w) id kv' n -> id = w_rule w) ->
  exists m total, GetQueue w name = (Some m, XOk) /\ queue_total w name total /\
    (a = AFull -> m <> -1 /\ m <= total) /\ (forall j, a = AStored j -> m = -1 \/ total < m).
Proof. exact c53_only. Qed.
Print Assumptions C53_limit_partial.
Example C53_nonvacuous : exists w used e w', wreach 6 w used /\ good_step w used (WEnqueue "a" (kvx "1") (pr "t") 9%nat) e w' (XChan AFull) /\ e_locked e = true /\
  (forall id kv' n, has_rule (w_lim w) id kv' n -> id = w_rule w).
Proof. exact only_rule. Qed.
(** C53: a queue that stores one item and may store two refuses a second one *)
Theorem C53_refuted : exists w used e w', wreach_up 16 w used /\ good_step w used (WEnqueue "a" (kvx "1") ChannelCases.p_new 2%nat) e w' (XChan AFull) /\
  e_locked e = true /\ (forall id kv' n, has_rule (w_lim w) id kv' n -> id = w_rule w) /\ GetQueue w "a" = (Some 2, XOk) /\ stored_in w "a" = 1%nat.
Proof. exact places_lost. Qed.
Print Assumptions C53_refuted.
