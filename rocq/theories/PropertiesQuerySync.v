(** C67: queries of an associated tree that overlap creations and deletions.
    [history h]: any sequence of calls, [h n] being the tree after n moments; [action_run h readable from q to its]: a query that starts at moment
    [from] and ends at [to] may visit exactly the items [its] (QuerySync.v). *)
From Coq Require Import String List.
From Verif Require Import Datatypes SpecValues Query SpecQuery QueryProofs Assoc SpecAssoc AssocProofs AssocQueryProofs QuerySync SpecQuerySync QuerySyncProofs QuerySyncTheorems QuerySyncAlone QuerySyncExamples.
Local Open Scope nat_scope.

(** C67: an item that is stored during the whole query is visited iff it satisfies the query, whatever else happens meanwhile.
    Missing: the queries which even a tree at rest does not answer exactly (C22). *)
Theorem C67_stored_partial : forall A (h : nat -> atree A) readable from q to its x kv,
  history h -> q_validate q = true -> query_no_nan q -> q = Q None None None \/ every_node node_simple q ->
  action_run h readable from q to its -> (forall n, from <= n -> n <= to -> stored_at h n x kv) ->
  ((exists it, In it its /\ it_id it = x /\ it_kv it = kv) <-> query_holds q x kv).
Proof. intros. eapply c67_stored; eauto. Qed.
Print Assumptions C67_stored_partial.

(** C67: no id is visited twice, and every visited item was stored at some moment of the query. *)
Theorem C67_once : forall A (h : nat -> atree A) readable from q to its,
  history h -> action_run h readable from q to its ->
  NoDup (map it_id its) /\ forall it, In it its -> exists n, from <= n /\ n <= to /\ In it (a_items (h n)).
Proof. intros. eapply c67_once; eauto. Qed.
Print Assumptions C67_once.

(** C67: without [!=], every visited item satisfies the query; with [!=], every visited item that was stored when the query began does. *)
Theorem C67_found_partial : forall A (h : nat -> atree A) readable from q to its,
  history h -> q_validate q = true -> query_no_nan q -> q = Q None None None \/ every_node node_simple q -> no_not_equals q ->
  action_run h readable from q to its -> forall it, In it its -> query_holds q (it_id it) (it_kv it).
Proof. intros. eapply c67_found; eauto. Qed.
Print Assumptions C67_found_partial.
Theorem C67_old_partial : forall A (h : nat -> atree A) readable from q to its,
  history h -> q_validate q = true -> query_no_nan q -> q = Q None None None \/ every_node node_simple q ->
  action_run h readable from q to its -> forall it, In it its -> stored_at h from (it_id it) (it_kv it) -> query_holds q (it_id it) (it_kv it).
Proof. intros. eapply c67_old; eauto. Qed.
Print Assumptions C67_old_partial.

(** C67 fails for [!=] and an item created during the query: it is looked for under the excluded value before it is there, and found under another key
    afterwards.  (One selection with one [!=]: a query C22 covers; no node is ever locked.) *)
Theorem C67_not_equals_refuted : exists (h : nat -> atree nat) q its it,
  history h /\ q_validate q = true /\ query_no_nan q /\ every_node node_simple q /\
  action_run h (fun _ _ _ => True) 0 q 1 its /\ In it its /\ ~ query_holds q (it_id it) (it_kv it).
Proof.
  exists sync_h, sync_q, [mkItem "old"%string sync_old 5; mkItem "new"%string sync_kv 7], (mkItem "new"%string sync_kv 7). pose proof sync_valid as (V1 & V2 & V3).
  split; [exact sync_history|]. split; [exact V1|]. split; [exact V2|]. split; [exact V3|]. split; [exact sync_run|]. split; [right; left; reflexivity|].
  cbn. intros [([_ (_ & H)] & _) | []]. specialize (H _ _ (or_introl eq_refl)). cbn in H. apply (H (Int 1) eq_refl).
  - split; vm_compute; discriminate.
  - right; right. split; [reflexivity|constructor].
Qed.
Print Assumptions C67_not_equals_refuted.

(** What the tree answers at rest (C22) is one of these runs: the runs are not too few. *)
Theorem C67_at_rest : forall A (h : nat -> atree A) (readable : nat -> string -> EV -> Prop) n q its,
  history h -> (forall k v, readable n k v) -> q_validate q = true -> query_no_nan q -> query_items (h n) q = Some (Some its) ->
  action_run h readable n q n its.
Proof. intros A h readable n q its HH. intros. apply alone; auto. apply (history_ents h HH). Qed.
Print Assumptions C67_at_rest.

(** A query during which an item is created: the old item is stored all the time and satisfies it, the new one is visited as well. *)
Example C67_nonvacuous :
  history sync_h /\ q_validate sync_q2 = true /\ query_no_nan sync_q2 /\ every_node node_simple sync_q2 /\ no_not_equals sync_q2 /\
  (forall n, 0 <= n -> n <= 1 -> stored_at sync_h n "old"%string sync_old) /\
  ~ stored_at sync_h 0 "new"%string sync_kv /\
  action_run sync_h any_time 0 sync_q2 1 [mkItem "old"%string sync_old 5; mkItem "new"%string sync_kv 7].
Proof.
  pose proof sync_valid2 as (V1 & V2 & V3 & V4). split; [exact sync_history|]. split; [exact V1|]. split; [exact V2|]. split; [exact V3|]. split; [exact V4|].
  split; [|split; [|exact sync_run2]].
  - intros [|n] _ _; exists (mkItem "old"%string sync_old 5); (split; [left; reflexivity|auto]).
  - intros (it & [<- | []] & C & _). discriminate.
Qed.
