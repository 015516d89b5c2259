(** C68-C70: dequeues that wait for items while channels come and go.
    [execution ex]: [ex n] is the state of the service after n steps; [d_clients] are the waiting dequeues, [c_got] the ids of the channels a dequeue is
    offered, [c_scanned] that its search through the stored channels has ended; [d_tree (ex n) q] are the channels of queue q (Dequeue.v). *)
From Coq Require Import String List.
From Verif Require Import Datatypes SpecValues Query SpecQuery Assoc SpecAssoc QuerySync SpecQuerySync QuerySyncExamples Dequeue SpecDequeue DequeueProofs DequeueExamples
  DequeueCrash DequeueCrashProofs.
Local Open Scope nat_scope.

(** C68: a waiting dequeue whose search has ended is offered every stored channel that satisfies its query, whenever that was created.
    Missing: queries that are not plain, of which the literal "select all" fails. *)
Theorem C68_offered_partial : forall ex n c it, execution ex -> In c (d_clients (ex n)) -> c_scanned c = true -> plain_query (c_query c) ->
  In it (a_items (d_tree (ex n) (c_queue c))) -> query_holds_tags (c_query c) (it_kv it) -> In (it_id it) (c_got c).
Proof. intros ex n c it EX. exact (c68 ex EX n c it). Qed.
Print Assumptions C68_offered_partial.
(** Every channel, stored or announced: offered from the moment of its announcement on, or there already when the dequeue began to wait *)
Theorem C68_waiting_partial : forall ex n c x kv, execution ex -> In c (d_clients (ex n)) ->
  stored_at (fun i => d_tree (ex i) (c_queue c)) n x kv -> MatchTags (c_query c) kv = Some true ->
  In x (c_got c) \/ forall i, c_since c <= i -> i <= n -> channel_at ex i (c_queue c) x kv.
Proof.
  intros ex n c x kv EX HC HS HM. destruct (waiting ex EX n c HC) as [_ W]. destruct (W x kv (or_intror HS) HM) as [H | [_ H]]; [left; exact H|right].
  intros i I1 I2. destruct (H i I1 I2) as [T | T]; [right; eauto|left; exact T].
Qed.
Print Assumptions C68_waiting_partial.
(** C68 fails for "select all": the channel was announced before the dequeue waited, and is stored after the search has passed; the dequeue
    waits on for ever beside it *)
Theorem C68_select_all_refuted : exists ex it, execution ex /\ forall n, 8 <= n -> exists c,
  In c (d_clients (ex n)) /\ c_scanned c = true /\ c_query c = Q None None None /\ In it (a_items (d_tree (ex n) (c_queue c))) /\
  query_holds_tags (c_query c) (it_kv it) /\ ~ In (it_id it) (c_got c).
Proof.
  exists run_missed, (mkItem "new"%string sync_kv tt). split; [exact run_missed_exec|]. intros n L.
  exists (mkClient 7 wq everything 6 true ["old"%string]).
  assert (E : run_missed n = a8) by (do 8 (destruct n as [|n]; [lia|]); reflexivity). rewrite E.
  split; [left; reflexivity|]. split; [reflexivity|]. split; [reflexivity|]. split; [right; left; reflexivity|]. split; [|intros [C | []]; discriminate].
  left. cbn. auto.
Qed.
Print Assumptions C68_select_all_refuted.
(** A dequeue that is offered a channel found by its search and one created later *)
Example C68_nonvacuous : execution run_found /\ exists c, In c (d_clients (run_found 8)) /\ c_scanned c = true /\ plain_query (c_query c) /\ no_not_equals (c_query c) /\
  c_got c = ["old"; "new"]%string /\
  forall it, In it (a_items (d_tree (run_found 8) (c_queue c))) <-> it = mkItem "old"%string sync_old tt \/ it = mkItem "new"%string sync_kv tt.
Proof.
  split; [exact run_found_exec|]. exists (mkClient 7 wq k2is2 4 true ["old"; "new"]%string). destruct k2is2_plain as [P1 P2].
  split; [left; reflexivity|]. split; [reflexivity|]. split; [exact P1|]. split; [exact P2|]. split; [reflexivity|]. intros it. cbn. intuition.
Qed.
Print Assumptions C68_nonvacuous.

(** C69: whatever channel a dequeue is offered existed, with key-values that satisfy its query.  Missing: queries that are not plain, or use [!=]. *)
Theorem C69_only_matching_partial : forall ex n c x, execution ex -> In c (d_clients (ex n)) -> plain_query (c_query c) -> no_not_equals (c_query c) -> In x (c_got c) ->
  exists i kv, i <= n /\ channel_at ex i (c_queue c) x kv /\ query_holds_tags (c_query c) kv.
Proof. intros ex n c x EX. exact (c69 ex EX n c x). Qed.
Print Assumptions C69_only_matching_partial.
(** C69 fails for [!=]: the search passes the excluded value before the channel is there and finds it under another key afterwards *)
Theorem C69_not_equals_refuted : exists ex n c x, execution ex /\ In c (d_clients (ex n)) /\ plain_query (c_query c) /\ In x (c_got c) /\
  forall i kv, channel_at ex i (c_queue c) x kv -> ~ query_holds_tags (c_query c) kv.
Proof.
  exists run_between, 8, (mkClient 7 wq sync_q 4 true ["old"; "new"]%string), "new"%string. split; [exact run_between_exec|].
  split; [left; reflexivity|]. split; [exact sync_q_plain|]. split; [right; left; reflexivity|]. cbn [c_queue c_query].
  intros i kv H. assert (kv = sync_kv) as ->; [|exact sync_q_not].
  destruct H as [(it & HI & EI & <-) | (told & HI)].
  - do 8 (destruct i as [|i]; [cbn in HI; repeat destruct HI as [<- | HI]; try destruct HI; first [reflexivity|discriminate EI]|]).
    cbn in HI. repeat destruct HI as [<- | HI]; try destruct HI; first [reflexivity|discriminate EI].
  - do 8 (destruct i as [|i]; [cbn in HI; repeat destruct HI as [[= E] | HI]; try destruct HI; first [congruence|discriminate]|]).
    cbn in HI. destruct HI.
Qed.
Print Assumptions C69_not_equals_refuted.
(** C69 fails for a query with nothing but an Or part, and for one that gives ids: every new channel is offered *)
Theorem C69_or_only_refuted : exists ex n c x, execution ex /\ In c (d_clients (ex n)) /\ q_validate (c_query c) = true /\ In x (c_got c) /\
  forall i kv, channel_at ex i (c_queue c) x kv -> ~ query_holds (c_query c) x kv.
Proof.
  exists (run_told k1or), 3, (mkClient 7 wq k1or 1 false ["old"%string]), "old"%string. split; [apply run_told_exec; reflexivity|].
  split; [left; reflexivity|]. split; [reflexivity|]. split; [left; reflexivity|]. cbn [c_queue c_query].
  intros i kv H. assert (kv = sync_old) as ->.
  - destruct H as [(it & HI & EI & <-) | (told & HI)].
    + do 3 (destruct i as [|i]; [cbn in HI; destruct HI|]). cbn in HI. destruct HI.
    + do 3 (destruct i as [|i]; [cbn in HI; repeat destruct HI as [[= E] | HI]; try destruct HI; congruence|]). cbn in HI. destruct HI as [HI | []]. injection HI as E1 E2. congruence.
  - clear H. cbn. intros [(_ & _ & [C | [C | C]]) | [[([_ [_ H]] & _) | []] | []]]; try congruence. specialize (H _ _ (or_introl eq_refl)). cbn in H. destruct H as (v & C & _). discriminate.
Qed.
Print Assumptions C69_or_only_refuted.
Theorem C69_ids_refuted : exists ex n c x, execution ex /\ In c (d_clients (ex n)) /\ q_validate (c_query c) = true /\ In x (c_got c) /\
  forall kv, ~ query_holds (c_query c) x kv.
Proof.
  exists (run_told ids_q), 3, (mkClient 7 wq ids_q 1 false ["old"%string]), "old"%string. split; [apply run_told_exec; reflexivity|].
  split; [left; reflexivity|]. split; [reflexivity|]. split; [left; reflexivity|]. intros kv. cbn. unfold sel_holds. cbn. intros [([[C | [C | C]] _] & _) | []]; [discriminate C|discriminate C|exact C].
Qed.
Print Assumptions C69_ids_refuted.

(** C70: the search of a dequeue ends the service only if its query has a node without any part, or if it meets the deletion of its queue after the dequeue
    itself has ended.  (One queue; [sreach]: any sequence of dequeues, their ends, searches, changes of channels and deletions of the queue.) *)
Theorem C70_crash_partial : forall s s', sreach s -> sstep s s' -> sv_up s' = false -> exists d, In d (sv_dqs s) /\ dq_searches d = true /\
  (sv_phase s = Wiping /\ dq_waits d = false \/ dq_query d <> Q None None None /\ ~ has_parts (dq_query d)).
Proof. exact crash_why. Qed.
Print Assumptions C70_crash_partial.
(** Both happen; the first query passes validation *)
Theorem C70_query_refuted : exists s s', sreach s /\ sstep s s' /\ sv_phase s = Serving /\ sv_dqs s = [mkDq bare true true] /\ sv_up s = true /\ sv_up s' = false.
Proof. exact crash_bare. Qed.
Print Assumptions C70_query_refuted.
Theorem C70_delete_refuted : exists s s', sreach s /\ sstep s s' /\ sv_phase s = Wiping /\ sv_dqs s = [mkDq (Q None None None) false true] /\ sv_up s = true /\ sv_up s' = false.
Proof. exact crash_delete. Qed.
Print Assumptions C70_delete_refuted.
(** Queries with parts never panic, whatever is stored *)
Theorem C70_query_partial : forall A (t : atree A) used q, areach t used -> q_validate q = true -> query_no_nan q -> q = Q None None None \/ has_parts q ->
  forall S (cb : S -> item A -> S * bool) s, exists s', QueryAction t q cb s = Some (Some s').
Proof.
  intros A t used q R V NN HP S cb s. destruct (items_total t (proj1 (AssocOps.areach_inv _ _ R)) q V NN HP) as (its & E). unfold QueryAction. rewrite E. eauto.
Qed.
Print Assumptions C70_query_partial.
Example C70_nonvacuous : has_parts sync_q2 /\ ~ has_parts bare /\ q_validate bare = true.
Proof. split; [cbn; split; [left; discriminate|auto]|]. split; [|reflexivity]. cbn. intros [[C | [C | C]] _]; congruence. Qed.
Print Assumptions C70_nonvacuous.
