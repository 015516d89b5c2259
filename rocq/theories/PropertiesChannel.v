(** Properties C37-C44, C47 and C50: one queue channel, under every interleaving of its clients. *)
From Coq Require Import String List Bool Arith NArith ZArith Lia.
From Verif Require Import Channel SpecChannel ChannelProofs ChannelContents ChannelOrder ChannelCounts ChannelBlock ChannelCases.
Import ListNotations.

(** ** C37: no item is lost or duplicated *)
(** C37: a stored item waits, or is with (or on the way to) a client, and not both; nothing waits twice, and what waits is stored. *)
Theorem C37_exactly_one : forall tr c i, reach tr c -> serving c -> stored c i ->
  (waiting c i /\ ~ with_client c i) \/ (~ waiting c i /\ with_client c i).
Proof. exact (fun tr c i R => exactly_one c i (reach_inv tr c R)). Qed.
Print Assumptions C37_exactly_one.
Theorem C37_waiting : forall tr c, reach tr c -> serving c -> NoDup (wait c) /\ forall i, waiting c i -> stored c i.
Proof. exact (fun tr c R S => conj (q_wait c (reach_inv tr c R)) (fun i => waiting_stored c i (reach_inv tr c R) S)). Qed.
Print Assumptions C37_waiting.
(** C37: the items with clients are those that were handed out and not settled since *)
Theorem C37_with_clients : forall tr c i, reach tr c -> serving c -> (out i tr = true <-> processing c i).
Proof. exact out_iff. Qed.
Print Assumptions C37_with_clients.
(** C37: an item that a client has is not handed out again *)
Theorem C37_one_client : forall tr c o a c' i, reach tr c -> serving c' -> qstep c o = Some (c', a) -> hands_out i (o, a) = true ->
  out i tr = false /\ stored c i /\ fl c = FTaken i.
Proof. exact hands_out_fresh. Qed.
Print Assumptions C37_one_client.
(** C37: how items leave and come *)
Theorem C37_leaves : forall tr c o a c' i, reach tr c -> serving c' -> qstep c o = Some (c', a) ->
  stored c i -> ~ stored c' i -> leaves c i (o, a).
Proof. exact (fun tr c o a c' i R S H => leaves_effect c o a c' i (reach_inv tr c R) (step_effect c o c' a (reach_inv tr c R) S H)). Qed.
Print Assumptions C37_leaves.
Theorem C37_comes : forall tr c o a c' i, reach tr c -> serving c' -> qstep c o = Some (c', a) ->
  ~ stored c i -> stored c' i -> comes c i (o, a).
Proof. exact (fun tr c o a c' i R S H => comes_effect c o a c' i (reach_inv tr c R) (step_effect c o c' a (reach_inv tr c R) S H)). Qed.
Print Assumptions C37_comes.

(** A history: two items, the first is handed out, retried in front, handed out again *)
Definition history_a : list qop :=
  OEnqueue p_plain 0 true :: OEnqueue p_back 1 true :: deliver ++ [ONack 0] ++ deliver.
Example C37_nonvacuous : exists tr c, reach tr c /\ serving c /\ processing c 0 /\ out 0 tr = true /\ waiting c 1 /\ stored c 1.
Proof.
  eexists _, _. split; [exists 0, 0; apply (qrun_new 0 0 history_a); vm_compute; reflexivity|]. split; [split; reflexivity|].
  split; [eexists; split; [reflexivity|discriminate]|]. split; [reflexivity|]. split; [left; reflexivity|discriminate].
Qed.
Example C37_nonvacuous_leaves : exists tr c c' i, reach tr c /\ serving c' /\
  qstep c (ONack i) = Some (c', AFailed (Replaced 1)) /\ stored c 1 /\ ~ stored c' 1.
Proof.
  eexists _, _, _, 0.
  split; [exists 0, 0; apply (qrun_new 0 0 (OEnqueue p_newb 0 true :: deliver ++ [OEnqueue p_newb 1 true])); vm_compute; reflexivity|].
  split; [|split; [vm_compute; reflexivity|split; [discriminate|intros H; apply H; reflexivity]]]. split; reflexivity.
Qed.

(** ** C38: order *)
(** C38: if a waits in front of b, then b is not handed out before a was *)
Theorem C38_order : forall tr c tr' c' a b o x c'', reach tr c -> before (wait c) a b -> qexec c tr' c' ->
  qstep c' o = Some (c'', x) -> serving c'' -> hands_out b (o, x) = true -> handed a tr' = true.
Proof. exact fifo. Qed.
Print Assumptions C38_order.
(** C38: a new item waits behind all others *)
Theorem C38_enqueued : forall tr c p i ok c', reach tr c -> serving c' -> qstep c (OEnqueue p i ok) = Some (c', AStored i) ->
  wait c' = wait c ++ [i].
Proof. exact put_at_end. Qed.
Print Assumptions C38_enqueued.
(** C38: a retried item waits in front of, or behind, all others; or in the place of the last, updateable one *)
Theorem C38_retried : forall tr c o i p c', reach tr c -> serving c' -> (o = ONack i \/ o = OTimeout i) ->
  contents c i = Some p -> qstep c o = Some (c', AFailed Requeued) ->
  wait c' = match p_pos p with Front => i :: wait c | Back => wait c ++ [i] end.
Proof. exact retried_at. Qed.
Print Assumptions C38_retried.
Theorem C38_replaced : forall tr c o i j c', reach tr c -> serving c' -> (o = ONack i \/ o = OTimeout i) ->
  qstep c o = Some (c', AFailed (Replaced j)) -> exists w, wait c = w ++ [j] /\ wait c' = w ++ [i].
Proof. exact replaced_at. Qed.
Print Assumptions C38_replaced.
Theorem C38_undelivered : forall tr c i c', reach tr c -> serving c' -> qstep c OFailBack = Some (c', ABack i Requeued) ->
  wait c' = i :: wait c.
Proof. exact undelivered_at. Qed.
Print Assumptions C38_undelivered.
Example C38_nonvacuous : exists tr c tr' c' c'', reach tr c /\ before (wait c) 0 1 /\ before (wait c) 1 2 /\ qexec c tr' c' /\
  serving c'' /\ qstep c' (OCreate true) = Some (c'', AItem 1 p_back).
Proof.
  eexists _, _, _, _, _.
  split; [exists 0, 0; apply (qrun_new 0 0 [OEnqueue p_plain 0 true; OEnqueue p_back 1 true; OEnqueue p_plain 2 true]); vm_compute; reflexivity|].
  split; [exists [], [], [2]; reflexivity|]. split; [exists [0], [], []; reflexivity|].
  split; [apply (qrun_from _ (deliver ++ [OReady; OAsk; ORun true; OTake])); vm_compute; reflexivity|].
  split; [|vm_compute; reflexivity]. split; reflexivity.
Qed.

(** ** C39: updateable items *)
(** C39: an enqueue overwrites the last waiting item if that is updateable: only its contents change, and no place is used.
    (Its timeout is kept, whatever the new item says.) *)
Theorem C39_update : forall tr c p i ok c' a w j q, reach tr c -> serving c -> qstep c (OEnqueue p i ok) = Some (c', a) ->
  wait c = w ++ [j] -> contents c j = Some q -> p_upd q = true ->
  a = AUpdated j /\ contents c' j = Some (mkProps (p_data p) (p_upd p) (p_max p) (p_pos p) (p_timeout q)) /\ only j c c' /\
  wait c' = wait c /\ number_stored c' = number_stored c /\ enq c' = enq c /\ run c' = run c.
Proof. exact enqueue_update. Qed.
Print Assumptions C39_update.
(** C39: otherwise it adds one item, or nothing if the limiter refuses *)
Theorem C39_append : forall tr c p i ok c' a, reach tr c -> serving c -> qstep c (OEnqueue p i ok) = Some (c', a) ->
  (forall w j q, wait c = w ++ [j] -> contents c j = Some q -> p_upd q = false) ->
  if ok then a = AStored i /\ ~ stored c i /\ contents c' i = Some p /\ only i c c' /\ wait c' = wait c ++ [i] /\
             number_stored c' = S (number_stored c) /\ enq c' = S (enq c) /\ run c' = run c
  else a = AFull /\ c' = c.
Proof. exact enqueue_append. Qed.
Print Assumptions C39_append.
(** C39: nothing else changes the contents of an item, and only waiting items are overwritten *)
Theorem C39_unchanged : forall tr c o a c' i, reach tr c -> serving c' -> qstep c o = Some (c', a) ->
  stored c i -> stored c' i -> writes i (o, a) = false -> contents c' i = contents c i.
Proof. exact (fun tr c o a c' i R S H => contents_effect c o a c' i (reach_inv tr c R) (step_effect c o c' a (reach_inv tr c R) S H)). Qed.
Print Assumptions C39_unchanged.
Theorem C39_only_waiting : forall tr c o a c' i, reach tr c -> serving c' -> qstep c o = Some (c', a) ->
  stored c i -> writes i (o, a) = true -> waiting c i /\ ~ with_client c i.
Proof.
  exact (fun tr c o a c' i R S H => writes_effect c o a c' i (reach_inv tr c R) (serving_back c o c' a H (reach_inv tr c R) S)
    (step_effect c o c' a (reach_inv tr c R) S H)).
Qed.
Print Assumptions C39_only_waiting.
Example C39_nonvacuous : exists tr c c', reach tr c /\ serving c /\ processing c 0 /\ wait c = [1] /\ contents c 1 = Some p_new /\
  qstep c (OEnqueue p_back 2 false) = Some (c', AUpdated 1) /\ contents c 0 = Some p_new.
Proof.
  eexists _, _, _.
  split; [exists 0, 0; apply (qrun_new 0 0 (OEnqueue p_new 0 true :: deliver ++ [OEnqueue p_new 1 true])); vm_compute; reflexivity|].
  split; [split; reflexivity|]. split; [eexists; split; [reflexivity|discriminate]|]. split; [reflexivity|]. split; [reflexivity|].
  split; [vm_compute; reflexivity|reflexivity].
Qed.

(** ** C40: retries *)
(** C40: since it was written, an item was handed out at most max + 1 times, not counting deliveries that failed; it is dropped
    when these are used up, and only then.  [max64] is the greatest uint64. *)
Theorem C40_bound_partial : forall tr c i p, reach tr c -> serving c -> contents c i = Some p -> (p_max p < max64)%N ->
  (N.of_nat (since i (hands_out i) tr) <= p_max p + 1 + N.of_nat (since i (undelivered i) tr))%N.
Proof. exact handed_bound. Qed.
Print Assumptions C40_bound_partial.
Theorem C40_dropped_partial : forall tr c o i p c' f, reach tr c -> serving c' -> (o = ONack i \/ o = OTimeout i) -> f <> Untouched ->
  contents c i = Some p -> (p_max p < max64)%N -> qstep c o = Some (c', AFailed f) ->
  (f = Dropped <-> N.of_nat (since i (hands_out i) tr) = (p_max p + 1 + N.of_nat (since i (undelivered i) tr))%N).
Proof. exact drop_step. Qed.
Print Assumptions C40_dropped_partial.
(** C40: if max is the greatest uint64, the count wraps round and the item is handed out for ever *)
Theorem C40_wrap_refuted : exists p, p_max p = max64 /\ forall k, exists tr c, reach tr c /\ serving c /\ contents c 0 = Some p /\
  since 0 (hands_out 0) tr = k /\ since 0 (undelivered 0) tr = 0.
Proof. exact (ex_intro _ p_always (conj eq_refl unbounded_attempts)). Qed.
Print Assumptions C40_wrap_refuted.
Example C40_nonvacuous : exists tr c c', reach tr c /\ serving c /\ contents c 0 = Some p_plain /\ p_max p_plain = 1%N /\
  since 0 (hands_out 0) tr = 2 /\ qstep c (ONack 0) = Some (c', AFailed Dropped).
Proof.
  eexists _, _, _. split; [exists 0, 0; apply (qrun_new 0 0 history_a); vm_compute; reflexivity|]. split; [split; reflexivity|].
  split; [reflexivity|]. split; [reflexivity|]. split; [reflexivity|]. vm_compute. reflexivity.
Qed.

(** ** C41: acknowledgements *)
(** C41: a successful ack settles exactly the item, if it is being processed; otherwise it reports 'not found' and changes
    nothing.  If the client's time has just run out it blocks (C47). *)
Theorem C41_ack : forall tr c i c' a, reach tr c -> serving c -> qstep c (OAck i) = Some (c', a) ->
  (a = AAcked /\ processing c i /\ ~ timing_out c i /\ ~ stored c' i /\ only i c c' /\ wait c' = wait c /\
   S (number_stored c') = number_stored c) \/
  (a = ANotFound /\ ~ processing c i /\ c' = c) \/
  (a = AWait /\ timing_out c i /\ items c' = items c /\ wait c' = wait c).
Proof. exact ack_step. Qed.
Print Assumptions C41_ack.
(** C41: the same for an ack that reports a failure; but for a waiting item this is answered as a success *)
Theorem C41_failed_ack_partial : forall tr c i c' a, reach tr c -> serving c -> qstep c (ONack i) = Some (c', a) ->
  (processing c i /\ ~ timing_out c i /\ ~ processing c' i /\ (exists f, a = AFailed f /\ f <> Untouched)) \/
  (a = ANotFound /\ ~ stored c i /\ c' = c) \/
  (a = AFailed Untouched /\ stored c i /\ ~ processing c i /\ c' = c) \/
  (a = AWait /\ timing_out c i /\ items c' = items c /\ wait c' = wait c).
Proof. exact nack_step. Qed.
Print Assumptions C41_failed_ack_partial.
Theorem C41_waiting_refuted : exists tr c, reach tr c /\ serving c /\ waiting c 0 /\ ~ processing c 0 /\
  qstep c (ONack 0) = Some (c, AFailed Untouched).
Proof. exact nack_waiting. Qed.
Print Assumptions C41_waiting_refuted.
(** C41: a delivery is settled at most once, by whatever comes first *)
Theorem C41_once : forall tr c o a c' i, reach tr c -> serving c' -> qstep c o = Some (c', a) -> settles i (o, a) = true ->
  out i tr = true /\ out i ((o, a) :: tr) = false.
Proof. exact settles_once. Qed.
Print Assumptions C41_once.
(** C41: but the ack of a client whose time has run out settles the later delivery to another client *)
Theorem C41_stale_refuted : exists tr c1 c2 tr2 c c', reach tr c1 /\ out 0 tr = true /\
  qstep c1 (OTimeout 0) = Some (c2, AFailed Requeued) /\ qexec c2 tr2 c /\ handed 0 tr2 = true /\
  qstep c (OAck 0) = Some (c', AAcked) /\ serving c' /\ qstep c' (OAck 0) = Some (c', ANotFound).
Proof. exact stale_ack. Qed.
Print Assumptions C41_stale_refuted.
Example C41_nonvacuous : exists tr c c', reach tr c /\ serving c' /\ processing c 0 /\ waiting c 1 /\ qstep c (OAck 0) = Some (c', AAcked) /\
  qstep c (OAck 1) = Some (c, ANotFound) /\ qstep c (OAck 7) = Some (c, ANotFound).
Proof.
  eexists _, _, _. split; [exists 0, 0; apply (qrun_new 0 0 history_a); vm_compute; reflexivity|].
  split; [|split; [eexists; split; [reflexivity|discriminate]|]].
  2:{ split; [left; reflexivity|]. split; [vm_compute; reflexivity|]. split; vm_compute; reflexivity. }
  split; reflexivity.
Qed.

(** ** C42: the counters *)
(** C42: the count of enqueued items is the number of stored items, plus one for each item that was thrown away for a newer one *)
Theorem C42_enqueued_partial : forall e r tr c, qexec (newChannel e r) tr c -> serving c -> enq c = e + number_stored c + count leaks tr.
Proof. exact enq_count. Qed.
Print Assumptions C42_enqueued_partial.
(** C42: the count of running items is the number of items with clients (and the one on the way to a client, not the one on its
    way back), if no slot is given back twice; in any case it is not greater *)
Theorem C42_running_partial : forall e r tr c, clean_exec (newChannel e r) tr c -> serving c ->
  run c + returning c = r + number_processing c + fetching c.
Proof. exact run_count. Qed.
Print Assumptions C42_running_partial.
Theorem C42_running_bound : forall e r tr c, qexec (newChannel e r) tr c -> serving c -> run c <= r + number_processing c + fetching c.
Proof. exact run_low. Qed.
Print Assumptions C42_running_bound.
(** C42: an empty channel can occupy any number of places of the queue, *)
Theorem C42_places_refuted : forall k, exists tr c, qexec (newChannel 0 0) tr c /\ serving c /\ number_stored c = 0 /\ enq c = k.
Proof. exact lost_places. Qed.
Print Assumptions C42_places_refuted.
(** and any number of items can be with clients while none is counted *)
Theorem C42_running_refuted : forall k, exists tr c, qexec (newChannel 0 0) tr c /\ serving c /\ number_processing c = k /\ run c = 0.
Proof. exact lost_slots. Qed.
Print Assumptions C42_running_refuted.
Example C42_nonvacuous : exists tr c, clean_exec (newChannel 0 0) tr c /\ serving c /\ number_processing c = 1 /\ number_stored c = 2 /\
  run c = 1 /\ enq c = 2 /\ count leaks tr = 0.
Proof.
  assert (K : forall l c0 c tr, clean_exec (newChannel 0 0) tr c0 ->
    forallb (fun o => match o with OAck _ | ONack _ | OFailRun => false | _ => true end) l = true ->
    forall c' tr', qrun c0 l tr = Some (c', tr') -> c' = c -> clean_exec (newChannel 0 0) tr' c).
  { induction l as [|o l IH]; cbn [forallb qrun]; intros c0 c tr E A c' tr' H ->.
    - injection H as <- <-. exact E.
    - apply andb_true_iff in A. destruct A as [A1 A2]. destruct (qstep c0 o) as [[c1 a]|] eqn:S; [|discriminate].
      eapply IH; [|exact A2|exact H|reflexivity]. econstructor; [exact E| |exact S]. destruct o; try discriminate A1; intros []. }
  eexists _, _. split.
  - eapply (K (OEnqueue p_plain 0 true :: OEnqueue p_back 1 true :: deliver)); [constructor|reflexivity| |reflexivity]. vm_compute. reflexivity.
  - repeat split; reflexivity.
Qed.

(** ** C43: failed deliveries *)
(** C43: a failed delivery gives the slot back; then the item waits in front again, or is thrown away if it is updateable and
    another one waits, unless it was settled before *)
Theorem C43_slot : forall tr c i, reach tr c -> dead c = false -> fl c = FSent i ->
  qstep c OFailRun = Some (set_fl (set_run c (pred (run c))) (FBack i), AUnit).
Proof. exact failrun_step. Qed.
Print Assumptions C43_slot.
Theorem C43_returned : forall tr c i c' a, reach tr c -> serving c -> fl c = FBack i -> qstep c OFailBack = Some (c', a) ->
  run c' = run c /\ fl c' = FIdle /\ only i c c' /\
  ((~ processing c i /\ a = ABack i Untouched /\ items c' = items c /\ wait c' = wait c) \/
   (processing c i /\ a = ABack i Requeued /\ wait c' = i :: wait c /\ ~ processing c' i /\ contents c' i = contents c i /\
     stored c' i) \/
   (processing c i /\ a = ABack i Superseded /\ wait c' = wait c /\ ~ stored c' i /\ wait c <> [] /\
     exists p, contents c i = Some p /\ p_upd p = true)).
Proof. exact failback_step. Qed.
Print Assumptions C43_returned.
Example C43_nonvacuous : exists tr c c', reach tr c /\ serving c /\ fl c = FBack 0 /\ waiting c 1 /\
  qstep c OFailBack = Some (c', ABack 0 Requeued).
Proof.
  eexists _, _, _. split; [exists 0, 0; apply (qrun_new 0 0 (OEnqueue p_plain 0 true :: OEnqueue p_back 1 true :: fetch ++ [OFailRun])); vm_compute; reflexivity|].
  split; [split; reflexivity|]. split; [reflexivity|]. split; [left; reflexivity|]. vm_compute. reflexivity.
Qed.

(** ** C44: the end of a channel *)
(** C44: after acks, a channel is removed only if it stores nothing; from then on it takes no item *)
Theorem C44_empty : forall c c', qstep c ODelete = Some (c', AUnit) -> items c = [] /\ items c' = [] /\ indexed c' = false.
Proof. exact delete_empty. Qed.
Print Assumptions C44_empty.
Theorem C44_refused : forall c c' a, qstep c ODelete = Some (c', a) -> items c <> [] -> a = ANotFound /\ c' = c.
Proof. exact delete_refused. Qed.
Print Assumptions C44_refused.
Theorem C44_closed : forall c p i ok, rem c <> RNo -> qstep c (OEnqueue p i ok) = None.
Proof. exact removed_refuses. Qed.
Print Assumptions C44_closed.
(** C44: once a deletion has reset the count of enqueued items it stays zero; so does the count of running items, unless a client
    fetches an item meanwhile *)
Theorem C44_enqueued_zero : forall tr c, reach tr c -> In (OZeroEnq, AUnit) tr -> enq c = 0 /\ rem c <> RNo.
Proof. exact forced_enq. Qed.
Print Assumptions C44_enqueued_zero.
Theorem C44_running_zero_partial : forall tr1 tr2 c, reach (tr2 ++ (OZeroRun, AUnit) :: tr1) c -> (forall a, ~ In (ORun true, a) tr2) ->
  run c = 0.
Proof. exact forced_run. Qed.
Print Assumptions C44_running_zero_partial.
(** C44: in that case the deleted channel occupies a slot for ever *)
Theorem C44_running_refuted : exists tr c, qexec (newChannel 0 0) tr c /\ In (OWipe, AUnit) tr /\ number_stored c = 0 /\
  forall tr' c', qexec c tr' c' -> number_stored c' = 0 /\ run c' = 1.
Proof. exact lost_slot. Qed.
Print Assumptions C44_running_refuted.
Example C44_nonvacuous : exists tr c, reach tr c /\ In (OZeroEnq, AUnit) tr /\ In (OWipe, AUnit) tr /\ run c = 0.
Proof.
  eexists _, _. split; [exists 3, 2; apply (qrun_new 3 2 (OEnqueue p_plain 0 true :: OEnqueue p_back 1 true :: deliver ++ [OClose; OStop; OZeroEnq; OZeroRun; ODestroy; OWipe])); vm_compute; reflexivity|].
  split; [cbn [In]; auto 20|]. split; [left; reflexivity|reflexivity].
Qed.

(** ** C47: requests about one item do not block each other *)
(** C47: only an ack, a failed ack or a heartbeat blocks, and only for an item whose client's time has just run out, or (a
    heartbeat) whose delivery is not confirmed yet *)
Theorem C47_blocks_partial : forall tr c o c', reach tr c -> serving c -> qstep c o = Some (c', AWait) ->
  exists i, (o = OAck i \/ o = ONack i \/ o = OBeat i) /\
            (timing_out c i \/ o = OBeat i /\ processing c i /\ (fl c = FSent i \/ fl c = FBack i)).
Proof. exact block_effect. Qed.
Print Assumptions C47_blocks_partial.
(** C47: that happens, *)
Theorem C47_ack_refuted : exists tr c c', reach tr c /\ serving c /\ qstep c (OAck 0) = Some (c', AWait).
Proof. exact ack_blocks. Qed.
Print Assumptions C47_ack_refuted.
(** and it is for ever: the item is never settled, no request about it gets through, and the channel cannot be deleted *)
Theorem C47_item_refuted : forall tr c o c1 i tr' c', reach tr c -> serving c -> (o = OAck i \/ o = ONack i \/ o = OBeat i) ->
  qstep c o = Some (c1, AWait) -> qexec c1 tr' c' -> serving c' ->
  processing c' i /\ existsb (settles i) tr' = false /\ qstep c' (OAck i) = None /\ qstep c' (ONack i) = None /\
  qstep c' (OBeat i) = None /\ qstep c' (OTimeout i) = None /\ qstep c' ODelete = None /\ qstep c' OClose = None.
Proof. exact blocked_item. Qed.
Print Assumptions C47_item_refuted.
(** C47: after a failed ack that blocks, no item can be enqueued or fetched any more *)
Theorem C47_channel_refuted : forall tr c c1 i tr' c', reach tr c -> serving c ->
  qstep c (ONack i) = Some (c1, AWait) -> qexec c1 tr' c' -> serving c' ->
  (forall p j ok, qstep c' (OEnqueue p j ok) = None) /\ qstep c' OTake = None /\ (forall j, qstep c' (ONack j) = None) /\
  (forall j, qstep c' (OTimeout j) = None).
Proof. exact blocked_channel. Qed.
Print Assumptions C47_channel_refuted.
Example C47_channel_nonvacuous : exists tr c c', reach tr c /\ serving c /\ qstep c (ONack 0) = Some (c', AWait).
Proof. exact nack_blocks. Qed.
(** C47: after a heartbeat for an item whose delivery is not confirmed, the channel delivers nothing any more *)
Theorem C47_forwarder_refuted : forall tr c c1 i tr' c', reach tr c -> serving c -> (fl c = FSent i \/ fl c = FBack i) ->
  qstep c (OBeat i) = Some (c1, AWait) -> qexec c1 tr' c' -> serving c' ->
  (fl c' = FSent i \/ fl c' = FBack i) /\ forall j, handed j tr' = false.
Proof. exact blocked_forwarder. Qed.
Print Assumptions C47_forwarder_refuted.
Example C47_forwarder_nonvacuous : exists tr c c', reach tr c /\ serving c /\ fl c = FSent 0 /\ waiting c 1 /\
  qstep c (OBeat 0) = Some (c', AWait).
Proof. exact beat_blocks. Qed.

(** ** C50: the service does not crash *)
(** C50: it crashes only when an item with a timeout that is not positive was delivered, or while a channel is deleted *)
Theorem C50_crash_partial : forall tr c o c', reach tr c -> qstep c o = Some (c', ACrash) ->
  (o = OSuccess /\ exists i p, fl c = FSent i /\ contents c i = Some p /\ (p_timeout p <= 0)%Z) \/ rem c = RDestroying.
Proof. exact crash_only. Qed.
Print Assumptions C50_crash_partial.
(** C50: both happen *)
Theorem C50_timeout_refuted : exists tr c c' p, reach tr c /\ serving c /\ In (OEnqueue p 0 true, AStored 0) tr /\ p_timeout p = 0%Z /\
  qstep c OSuccess = Some (c', ACrash) /\ dead c' = true.
Proof. exact crash_timeout. Qed.
Print Assumptions C50_timeout_refuted.
Theorem C50_delete_refuted : exists tr c c', reach tr c /\
  (forall o a p i ok, In (o, a) tr -> o = OEnqueue p i ok -> (0 < p_timeout p)%Z) /\
  qstep c (OTimeout 0) = Some (c', ACrash) /\ dead c' = true.
Proof. exact crash_delete. Qed.
Print Assumptions C50_delete_refuted.
