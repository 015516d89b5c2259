(** C78: what one side sends is what the other side gets.  The models are in Models.v, the encoding in Json.v; the
    specification is SpecModels.v. *)
From Coq Require Import String List ZArith SpecFloat.
Import ListNotations.
From Verif Require Import Datatypes SpecValues Query SpecQuery Json Models SpecModels ModelsProofs ModelsExamples.

(** ** Requests *)
(** C78: CreateQueue, UpdateQueue, Enqueue, ACK, Heartbeat, DeleteQueueChannel: whatever plain model the client sends, the
    handler has that model after decoding and validating the body *)
Theorem C78_willow_partial : forall fmt_float parse_float,
  arrives plain_queue queue_create_ok enc_queue queue_create_ok dec_queue /\
  arrives plain_queue_props queue_props_ok enc_queue_props queue_props_ok dec_queue_props /\
  arrives (plain_item fmt_float parse_float) item_create_ok (enc_item fmt_float) item_create_ok (dec_item parse_float) /\
  arrives (plain_ack fmt_float parse_float) ack_ok (enc_ack fmt_float) ack_ok (dec_ack parse_float) /\
  arrives (plain_beat fmt_float parse_float) beat_ok (enc_beat fmt_float) beat_ok (dec_beat parse_float) /\
  arrives (plain_kv fmt_float parse_float) typed_kv (enc_kv fmt_float) typed_kv (dec_kv parse_float).
Proof. exact c78_willow. Qed.
Print Assumptions C78_willow_partial.
Example C78_willow_nonvacuous : plain_item ff0 pf0 item1 /\ send item_create_ok (enc_item ff0) item1 = Some (on_wire (enc_item ff0 item1)).
Proof. exact (conj item1_plain item1_sent). Qed.

(** C78: CreateRule, UpdateRule and UpdateOverride, CreateOverride, UpdateCounter and SetCounters, MatchRules and MatchOverrides *)
Theorem C78_limiter_partial : forall fmt_float parse_float,
  arrives (plain_rule fmt_float parse_float) rule_ok (enc_rule fmt_float) rule_create_ok (dec_rule parse_float) /\
  arrives plain_limit limit_ok enc_limit limit_ok dec_limit /\
  arrives (plain_override fmt_float parse_float) override_create_ok (enc_override fmt_float) override_create_ok (dec_override parse_float) /\
  arrives (plain_counter fmt_float parse_float) counter_create_ok (enc_counter fmt_float) counter_create_ok (dec_counter parse_float) /\
  arrives (plain_match fmt_float parse_float) mq_validate (enc_match fmt_float) mq_validate (dec_match parse_float).
Proof. exact c78_limiter. Qed.
Print Assumptions C78_limiter_partial.
Example C78_limiter_nonvacuous : plain_rule ff0 pf0 rule1 /\ send rule_ok (enc_rule ff0) rule1 = Some (on_wire (enc_rule ff0 rule1)).
Proof. exact (conj rule1_plain rule1_sent). Qed.

(** C78: ObtainLock; heartbeats and releases of a lock *)
Theorem C78_locker_partial : forall fmt_float parse_float,
  arrives (plain_lock fmt_float parse_float) lock_create_ok (enc_lock fmt_float) lock_create_ok (dec_lock parse_float) /\
  arrives text claim_ok enc_claim claim_ok dec_claim.
Proof. exact c78_locker. Qed.
Print Assumptions C78_locker_partial.
Example C78_locker_nonvacuous : plain_lock ff0 pf0 lock1 /\ send lock_create_ok (enc_lock ff0) lock1 = Some (on_wire (enc_lock ff0 lock1)).
Proof. exact (conj lock1_plain lock1_sent). Qed.

(** C78: queries (Dequeue, QueryRules, QueryOverrides, QueryCounters, the locks): the query that is received selects what
    the query that was sent selects *)
Theorem C78_query_partial : forall fmt_float parse_float q body, plain_query fmt_float parse_float q ->
  send q_validate (enc_query fmt_float) q = Some body ->
  exists q', receive q_validate (dec_query parse_float) (Some body) = Some q' /\ forall id tags, query_holds q' id tags <-> query_holds q id tags.
Proof. exact c78_query_meaning. Qed.
Print Assumptions C78_query_partial.
(** C78: ... and it is the same query but for empty parts *)
Theorem C78_query_same_partial : forall fmt_float parse_float q body, plain_query fmt_float parse_float q ->
  send q_validate (enc_query fmt_float) q = Some body -> receive q_validate (dec_query parse_float) (Some body) = Some (told q).
Proof. exact c78_query. Qed.
Print Assumptions C78_query_same_partial.
Example C78_query_nonvacuous : plain_query ff0 pf0 query1 /\ send q_validate (enc_query ff0) query1 = Some (on_wire (enc_query ff0 query1)).
Proof. exact (conj query1_plain query1_sent). Qed.

(** ** Answers *)
(** C78: the answers with a body: GetQueue, ListQueues, Dequeue, the channels of a queue, GetRule (CreateRule), QueryRules
    (MatchRules), GetOverride (CreateOverride), QueryOverrides (MatchOverrides), QueryCounters, ObtainLock, the locks, and
    errors *)
Theorem C78_answers_partial : forall fmt_float parse_float,
  arrives plain_queue queue_ok enc_queue queue_ok dec_queue /\
  arrives (Forall (when plain_queue)) (list_ok queue_ok) (fun l => JArr (map (null_or enc_queue) l)) (list_ok queue_ok) (slice (pointee dec_queue)) /\
  arrives (plain_item fmt_float parse_float) item_ok (enc_item fmt_float) item_ok (dec_item parse_float) /\
  arrives (Forall (when (plain_channel fmt_float parse_float))) (list_ok channel_ok) (fun l => JArr (map (null_or (enc_channel fmt_float)) l))
          (list_ok channel_ok) (slice (pointee (dec_channel parse_float))) /\
  arrives (plain_rule fmt_float parse_float) rule_ok (enc_rule fmt_float) rule_ok (dec_rule parse_float) /\
  arrives (Forall (when (plain_rule fmt_float parse_float))) (list_ok rule_ok) (fun l => JArr (map (null_or (enc_rule fmt_float)) l))
          (list_ok rule_ok) (slice (pointee (dec_rule parse_float))) /\
  arrives (plain_override fmt_float parse_float) override_ok (enc_override fmt_float) override_ok (dec_override parse_float) /\
  arrives (Forall (when (plain_override fmt_float parse_float))) (list_ok override_ok) (fun l => JArr (map (null_or (enc_override fmt_float)) l))
          (list_ok override_ok) (slice (pointee (dec_override parse_float))) /\
  arrives (Forall (when (plain_counter fmt_float parse_float))) (list_ok counter_ok) (fun l => JArr (map (null_or (enc_counter fmt_float)) l))
          (list_ok counter_ok) (slice (pointee (dec_counter parse_float))) /\
  arrives (plain_lock fmt_float parse_float) lock_ok (enc_lock fmt_float) lock_ok (dec_lock parse_float) /\
  arrives (Forall (when (plain_lock fmt_float parse_float))) (list_ok lock_ok) (fun l => JArr (map (null_or (enc_lock fmt_float)) l))
          (list_ok lock_ok) (slice (pointee (dec_lock parse_float))) /\
  arrives text error_ok enc_error error_ok dec_error.
Proof. exact c78_answers. Qed.
Print Assumptions C78_answers_partial.

(** C78: strings that are no text do not arrive: two channels, to the client and to anyone in the same process, are one
    channel to the service, and a third one *)
Theorem C78_refuted : forall fmt_float parse_float, exists body, kv_fe <> kv_ff /\
  send typed_kv (enc_kv fmt_float) kv_fe = Some body /\ send typed_kv (enc_kv fmt_float) kv_ff = Some body /\
  exists kv, receive typed_kv (dec_kv parse_float) (Some body) = Some kv /\ kv <> kv_fe /\ kv <> kv_ff.
Proof. exact collapsed. Qed.
Print Assumptions C78_refuted.
