(** C87: the list of a queue's channels, GET /v1/queues/:name/channels.  The handler, QueryChannels and Channels are modelled
    in ApiWillow.v, the bodies in Models.v.  [belongings (w_chans w) name]: the channels of queue [name] that are there;
    [query_holds] (SpecQuery.v): what a query means for an id and key-values. *)
From Coq Require Import String List ZArith SpecFloat.
Import ListNotations.
From Verif Require Import Datatypes SpecValues Query SpecQuery SpecAssoc OneToMany SpecOneToMany Limiter SpecLimiter Channel SpecChannel Willow SpecWillow WillowExamples WillowCases
  Json Models SpecModels ModelsExamples Http ApiLimiter SpecApiLimiter ApiWillow SpecApiWillow ApiWillowExamples ApiChannelsProofs.
Local Open Scope Z_scope.
Local Open Scope string_scope.

(** C87: of an existing queue the channels are listed that the query holds for, each once and no others, and nothing changes;
    whoever decodes the body has the key-values of the channels.  Partial: not of queries with an empty part (they panic) nor
    of those that are compared as C22 says they should not; the counts are refuted below. *)
Theorem C87_listed_partial : forall fmt_float parse_float number router k w used r pick i e name q, wreach k w used -> k < 2 ^ 63 -> w_up w = true ->
  router (rq_method r) (rq_path r) = Some (RwChannels name) -> receive q_validate (dec_query parse_float) (rq_body r) = Some q ->
  query_no_nan q -> q = Q None None None \/ every_node node_simple q ->
  (forall ch, In ch (belongings (w_chans w) name) -> plain_kv fmt_float parse_float (m_kv ch)) -> snd (GetQueue w name) = XOk ->
  exists body l, wserve fmt_float parse_float number router w r pick i e = Some (w, Some (Answer 200 (Some body))) /\
    receive (list_ok channel_ok) (slice (pointee (dec_channel parse_float))) (Some body) =
      Some (map (fun kv => Some (mkApiChannel (Some (Some kv)) (Some (-1, -1)))) l) /\
    NoDup l /\ forall kv, In kv l <-> exists ch, In ch (belongings (w_chans w) name) /\ m_kv ch = kv /\ query_holds q (m_id ch) kv.
Proof. exact c87_listed. Qed.
Print Assumptions C87_listed_partial.
Example C87_nonvacuous : wreach 4 (after hw) (ids hw) /\ w_up (after hw) = true /\ snd (GetQueue (after hw) "a") = XOk /\
  split_wrouter GET "/v1/queues/a/channels" = Some (RwChannels "a") /\ receive q_validate (dec_query pf0) (rq_body (channels_of "a" (Q None None None))) = Some (Q None None None) /\
  query_no_nan (Q None None None) /\ (forall ch, In ch (belongings (w_chans (after hw)) "a") -> plain_kv ff0 pf0 (m_kv ch)).
Proof. exact hw_meets. Qed.

(** C87: while the queue is being deleted the request is refused with 409; of a queue that is not there the answer is not 404
    but 200 with the empty list *)
Theorem C87_busy : forall fmt_float parse_float number router w r pick i e name q, w_up w = true ->
  router (rq_method r) (rq_path r) = Some (RwChannels name) -> receive q_validate (dec_query parse_float) (rq_body r) = Some q -> GetQueue w name = (None, XConflict) ->
  wserve fmt_float parse_float number router w r pick i e = Some (w, Some (refuse 409)).
Proof. exact c87_busy. Qed.
Print Assumptions C87_busy.
Theorem C87_missing_refuted : forall fmt_float parse_float number router w r pick i e name q, w_up w = true ->
  router (rq_method r) (rq_path r) = Some (RwChannels name) -> receive q_validate (dec_query parse_float) (rq_body r) = Some q -> GetQueue w name = (None, XMissing) ->
  wserve fmt_float parse_float number router w r pick i e = Some (w, Some (Answer 200 (Some (JArr [])))).
Proof. exact c87_empty. Qed.
Print Assumptions C87_missing_refuted.

(** C87: the counts do not say how many items there are: both channels of "a" have an item, the counts are -1 *)
Theorem C87_counts_refuted :
  got (wserve ff0 pf0 (fun _ => 2%nat) split_wrouter (after hw) (channels_of "a" (Q None None None)) (fun _ => true) 9%nat (ev 40)) =
    Some (map (fun kv => Some (mkApiChannel (Some (Some kv)) (Some (-1, -1)))) [kv1; red]) /\
  exists a b, belongings (w_chans (after hw)) "a" = [a; b] /\ m_kv a = kv1 /\ m_kv b = red /\ items (m_val a) <> [] /\ items (m_val b) <> [].
Proof. exact (conj hw_channels hw_stored). Qed.
Print Assumptions C87_counts_refuted.

(** C87: a query that passes the validation makes the request panic if the queue has channels *)
Theorem C87_panic_refuted : forall fmt_float parse_float number router w pick i e, willow_router router -> w_up w = true -> snd (GetQueue w "a") = XOk -> belongings (w_chans w) "a" <> [] ->
  receive q_validate (dec_query parse_float) (Some (JObj [("And", JArr [])])) = Some (Q None None (Some [])) /\
  wserve fmt_float parse_float number router w (mkReq GET "/v1/queues/a/channels" (Some (JObj [("And", JArr [])]))) pick i e = Some (w, Some Broken).
Proof. exact c87_panic. Qed.
Print Assumptions C87_panic_refuted.
Example C87_panic_nonvacuous : w_up (after hw) = true /\ snd (GetQueue (after hw) "a") = XOk /\ belongings (w_chans (after hw)) "a" <> [].
Proof. vm_compute. repeat split. discriminate. Qed.
