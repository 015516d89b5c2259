(** C79-C82: calls of the limiter's client, from its arguments to its answer.  The exchange is modelled in Http.v and
    ApiLimiter.v, on top of Models.v (bodies) and Limiter.v (the service); the specification is SpecApiLimiter.v. *)
From Coq Require Import String List ZArith SpecFloat.
Import ListNotations.
From Verif Require Import Datatypes SpecValues Query SpecAssoc Limiter SpecLimiter Json Models SpecModels ModelsExamples
  Http ApiLimiter SpecApiLimiter ApiLimiterProofs ApiLimiterExamples.
Local Open Scope Z_scope.
Local Open Scope string_scope.

(** ** C79 *)
(** C79: after any history of calls, a call that the client sends and that is answered changes the service, and returns,
    as the service's function does that is named like it, given the same arguments *)
Theorem C79_limiter_partial : forall fmt_float parse_float router, limiter_router router ->
  forall s used c id locked, client_history fmt_float parse_float router s used ->
  proper_call fmt_float parse_float c -> text id -> id <> "" -> ~ In id used -> lask fmt_float c <> None ->
  carried_out s c id locked
    (fst (limiter_exchange fmt_float parse_float router s c id locked Works))
    (snd (limiter_exchange fmt_float parse_float router s c id locked Works)).
Proof. exact c79_limiter. Qed.
Print Assumptions C79_limiter_partial.
Example C79_nonvacuous : limiter_router split_router /\ client_history ff0 pf0 split_router s3 ["c1"; "o1"; "r1"] /\ proper_call ff0 pf0 (CallGetRule "r1") /\
  snd (run s3 (CallGetRule "r1") "x" Works) = Returned (GotRule (shown_rule ("r1", [("color"%string, Str umlaut); ("size"%string, Any)], 5))).
Proof. exact (conj split_limiter (conj s3_history (conj proper_get s3_get))). Qed.

(** C79: a rule that CreateRule returned is stored under its id with the key-values and limit given, and nothing else changed *)
Theorem C79_create_rule_partial : forall fmt_float parse_float router, limiter_router router ->
  forall s used c id locked, client_history fmt_float parse_float router s used ->
  proper_call fmt_float parse_float c -> text id -> id <> "" -> ~ In id used ->
  forall r x, c = CallCreateRule r -> snd (limiter_exchange fmt_float parse_float router s c id locked Works) = Returned x ->
  exists kv l, given_limit (ar_spec r) = Some (kv, l) /\ x = GotRule (shown_rule (id, kv, l)) /\
    forall i k m, has_rule (fst (limiter_exchange fmt_float parse_float router s c id locked Works)) i k m <->
      has_rule s i k m \/ (i = id /\ k = kv /\ m = l).
Proof. exact c79_create_rule. Qed.
Print Assumptions C79_create_rule_partial.
(** C79: GetRule returns a rule exactly if one is stored under the id, and it is that rule *)
Theorem C79_get_rule_partial : forall fmt_float parse_float router, limiter_router router ->
  forall s used c id locked, client_history fmt_float parse_float router s used ->
  proper_call fmt_float parse_float c -> text id -> id <> "" -> ~ In id used ->
  forall rid x, c = CallGetRule rid -> lask fmt_float c <> None ->
  (snd (limiter_exchange fmt_float parse_float router s c id locked Works) = Returned x <->
   exists kv n, has_rule s rid kv n /\ x = GotRule (shown_rule (rid, kv, n))).
Proof. exact c79_get_rule. Qed.
Print Assumptions C79_get_rule_partial.
(** C79: UpdateRule that returned changed the limit of the rule with that id, and of no other *)
Theorem C79_update_rule_partial : forall fmt_float parse_float router, limiter_router router ->
  forall s used c id locked, client_history fmt_float parse_float router s used ->
  proper_call fmt_float parse_float c -> text id -> id <> "" -> ~ In id used ->
  forall rid l x, c = CallUpdateRule rid (Some l) -> snd (limiter_exchange fmt_float parse_float router s c id locked Works) = Returned x ->
  exists kv m0, has_rule s rid kv m0 /\
    forall i k m, has_rule (fst (limiter_exchange fmt_float parse_float router s c id locked Works)) i k m <->
      (i <> rid /\ has_rule s i k m) \/ (i = rid /\ k = kv /\ m = l).
Proof. exact c79_update_rule. Qed.
Print Assumptions C79_update_rule_partial.
(** C79: DeleteRule that returned removed the rule with that id and its overrides, and no others *)
Theorem C79_delete_rule_partial : forall fmt_float parse_float router, limiter_router router ->
  forall s used c id locked, client_history fmt_float parse_float router s used ->
  proper_call fmt_float parse_float c -> text id -> id <> "" -> ~ In id used ->
  forall rid x, c = CallDeleteRule rid -> snd (limiter_exchange fmt_float parse_float router s c id locked Works) = Returned x ->
  (forall i k m, has_rule (fst (limiter_exchange fmt_float parse_float router s c id locked Works)) i k m <-> has_rule s i k m /\ i <> rid) /\
  (forall r i k m, has_override (fst (limiter_exchange fmt_float parse_float router s c id locked Works)) r i k m <-> has_override s r i k m /\ r <> rid).
Proof. exact c79_delete_rule. Qed.
Print Assumptions C79_delete_rule_partial.
(** C79: SetCounters that returned left the counter of the key-values given at the number given (none if it is not
    positive), and every other counter as it was *)
Theorem C79_set_counters_partial : forall fmt_float parse_float router, limiter_router router ->
  forall s used c id locked, client_history fmt_float parse_float router s used ->
  proper_call fmt_float parse_float c -> text id -> id <> "" -> ~ In id used ->
  forall y x, c = CallSetCounters y -> snd (limiter_exchange fmt_float parse_float router s c id locked Works) = Returned x ->
  exists kv n, given_count (an_spec y) = Some (kv, n) /\
    forall kv' m, has_count (fst (limiter_exchange fmt_float parse_float router s c id locked Works)) kv' m <->
      (~ kv_same kv' kv /\ has_count s kv' m) \/ (kv_same kv' kv /\ 0 < n /\ m = n).
Proof. exact c79_set_counters. Qed.
Print Assumptions C79_set_counters_partial.
Example C79_set_counters_nonvacuous : client_history ff0 pf0 split_router s3 ["c1"; "o1"; "r1"] /\
  snd (run s3 (CallQueryCounters (Q None None None)) "x" Works) = Returned (counters_of [(kv1, 3)]) /\
  snd (run s3 (CallUpdateCounter count2) "x" Works) = ServiceError message.
Proof. exact (conj s3_history (conj s3_counters s3_limited)). Qed.

(** ** C80 *)
(** C80: whatever is sent to the limiter, by whomever and in whatever state it is, either the handler calls the service with
    valid arguments, or the answer is 400 or 404 and nothing changed *)
Theorem C80_limiter_partial : forall fmt_float parse_float router s r id locked,
  (exists t, valid_task t /\ lserve fmt_float parse_float router s r id locked = lperform fmt_float s t id locked) \/
  (fst (lserve fmt_float parse_float router s r id locked) = s /\
   exists st b, snd (lserve fmt_float parse_float router s r id locked) = Answer st b /\ (st = 400 \/ st = 404)).
Proof. exact (fun ff pf => c80_limiter pf ff). Qed.
Print Assumptions C80_limiter_partial.

(** ** C81 *)
(** C81: a call that returned an answer was carried out, whatever the network did, and the answer is the service's *)
Theorem C81_returned_partial : forall fmt_float parse_float router, limiter_router router ->
  forall s used c id locked, client_history fmt_float parse_float router s used ->
  proper_call fmt_float parse_float c -> text id -> id <> "" -> ~ In id used ->
  forall n x, snd (limiter_exchange fmt_float parse_float router s c id locked n) = Returned x ->
  n = Works /\ direct s c id locked = (fst (limiter_exchange fmt_float parse_float router s c id locked n), Some x).
Proof. exact c81_returned. Qed.
Print Assumptions C81_returned_partial.
(** C81: every call is carried out once, or not at all; not at all only if it was not sent, or lost *)
Theorem C81_effect_partial : forall fmt_float parse_float router, limiter_router router ->
  forall s used c id locked, client_history fmt_float parse_float router s used ->
  proper_call fmt_float parse_float c -> text id -> id <> "" -> ~ In id used ->
  forall n,
  (fst (limiter_exchange fmt_float parse_float router s c id locked n) = s /\ (n = RequestLost \/ lask fmt_float c = None)) \/
  (fst (limiter_exchange fmt_float parse_float router s c id locked n) = fst (direct s c id locked) /\ n <> RequestLost).
Proof. exact c81_effect. Qed.
Print Assumptions C81_effect_partial.

(** ** C82 *)
(** C82: if the service refuses a call, the caller is given the service's message, or the call is one of those that
    [unheard] lists *)
Theorem C82_limiter_partial : forall fmt_float parse_float router, limiter_router router ->
  forall s used c id locked, client_history fmt_float parse_float router s used ->
  proper_call fmt_float parse_float c -> text id -> id <> "" -> ~ In id used -> lask fmt_float c <> None ->
  snd (direct s c id locked) = None ->
  told_why s c (snd (limiter_exchange fmt_float parse_float router s c id locked Works)).
Proof. exact c82_limiter. Qed.
Print Assumptions C82_limiter_partial.
(** C82: any message that is text gets through a client function that knows the status it comes with *)
Theorem C82_message : forall A good known (read : option json -> option A) st m,
  text m -> m <> "" -> st <> good -> In st known -> hear good known read (Answer st (Some (on_wire (enc_error m)))) = ServiceError m.
Proof. exact c82_message. Qed.
Print Assumptions C82_message.
(** C82: the service's message about a rule that is not there does not get through DeleteRule *)
Theorem C82_refuted : forall fmt_float parse_float router, limiter_router router ->
  (exists b, lserve fmt_float parse_float router empty_limiter (mkReq DELETE "/v1/limiter/rules/r1" None) "x" true = (empty_limiter, Answer 404 (Some b)) /\
             receive error_ok dec_error (Some b) = Some message) /\
  limiter_exchange fmt_float parse_float router empty_limiter (CallDeleteRule "r1") "x" true Works = (empty_limiter, OtherError).
Proof. exact delete_missing. Qed.
Print Assumptions C82_refuted.
