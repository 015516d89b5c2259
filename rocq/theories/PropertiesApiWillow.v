(** C79-C82 for willow's client: queues, channels and items.  The exchange is modelled in Http.v and ApiWillow.v, on top of
    Models.v (bodies) and Willow.v (the service); the specification is SpecApiWillow.v.  [wreach_text k w used]: willow is in
    state [w] after any history of requests as they should be, background work and other clients of the limiter included
    (SpecWillow.v), in which the names of queues are text. *)
From Coq Require Import String List ZArith SpecFloat.
Import ListNotations.
From Verif Require Import Datatypes SpecValues Query SpecAssoc OneToMany Limiter SpecLimiter Channel Willow SpecWillow WillowExamples WillowCases Json Models SpecModels ModelsExamples
  Http ApiLimiter SpecApiLimiter ApiWillow SpecApiWillow ApiWillowProofs ApiWillowExamples MapsProofs.
Local Open Scope Z_scope.
Local Open Scope string_scope.

(** ** C79 *)
(** C79: a call that the client sends and that gets through changes the service, and returns, as the service's function
    does that is named like it, given the same arguments ([wdirect]); it returns later if the function has to wait *)
Theorem C79_willow_partial : forall fmt_float parse_float number router, willow_router router ->
  forall k w used c pick i e, wreach_text k w used -> k < 2 ^ 63 -> w_up w = true ->
  proper_willow_call fmt_float parse_float c -> wask fmt_float c <> None ->
  willow_exchange fmt_float parse_float number router w c pick i e Works =
  option_map (fun x => (fst x, returned (snd x))) (wdirect number w c i e).
Proof. exact c79_willow. Qed.
Print Assumptions C79_willow_partial.
Example C79_willow_nonvacuous : willow_router split_wrouter /\ wreach_text 4 (after hw) (ids hw) /\ w_up (after hw) = true /\ proper_willow_call ff0 pf0 (CallEnqueue "a" item1) /\
  option_map snd (wx (after hw) (CallEnqueue "a" item1) Works) = Some (Some (Returned WNothing)) /\
  option_map snd (wx (after hw) (CallDequeue "a" (Q None None None)) Works) = Some None.
Proof. exact (conj split_willow (conj hw_reached (conj hw_up (conj proper_item (conj hw_item hw_waits))))). Qed.

(** C79: CreateQueue returns exactly if there was no queue of that name, and then there is one, with the limit given, and
    all other queues are as they were; else nothing changes *)
Theorem C79_create_queue_partial : forall fmt_float parse_float number router, willow_router router ->
  forall k w used c pick i e, wreach_text k w used -> w_up w = true -> k < 2 ^ 63 ->
  proper_willow_call fmt_float parse_float c ->
  forall q name m r, c = CallCreateQueue q -> given_queue q = Some (name, Some m) -> -1 <= m -> k + 1 < 2 ^ 63 -> fresh used [e_id e; e_id2 e] ->
  wask fmt_float c <> None ->
  forall w', willow_exchange fmt_float parse_float number router w c pick i e Works = Some (w', r) ->
  (GetQueue w name = (None, XMissing) /\ r = Some (Returned WNothing) /\ GetQueue w' name = (Some m, XOk) /\ forall other, other <> name -> GetQueue w' other = GetQueue w other) \/
  (GetQueue w name <> (None, XMissing) /\ r = Some (ServiceError message) /\ w' = w).
Proof. intros. eapply c79_create_queue; eassumption. Qed.
Print Assumptions C79_create_queue_partial.
Example C79_create_queue_nonvacuous : proper_willow_call ff0 pf0 (CallCreateQueue queue3) /\ given_queue queue3 = Some ("c", Some 7) /\ GetQueue (after hw) "c" = (None, XMissing).
Proof. split; [exact proper_queue3|]. vm_compute. split; reflexivity. Qed.
(** C79: GetQueue returns a queue exactly if there is one of that name, with its limit *)
Theorem C79_get_queue_partial : forall fmt_float parse_float number router, willow_router router ->
  forall k w used c pick i e, wreach_text k w used -> k < 2 ^ 63 -> w_up w = true ->
  proper_willow_call fmt_float parse_float c ->
  forall name q r, c = CallGetQueue name q -> wask fmt_float c <> None ->
  forall w', willow_exchange fmt_float parse_float number router w c pick i e Works = Some (w', r) ->
  w' = w /\ forall x, r = Some (Returned x) <-> exists m, GetQueue w name = (Some m, XOk) /\ x = WQueue (shown_queue name m).
Proof. exact c79_get_queue. Qed.
Print Assumptions C79_get_queue_partial.
(** C79: ListQueues returns every queue once, with its limit, and those that are being deleted *)
Theorem C79_list_queues_partial : forall fmt_float parse_float number router, willow_router router ->
  forall k w used c pick i e, wreach_text k w used -> k < 2 ^ 63 -> w_up w = true ->
  proper_willow_call fmt_float parse_float c -> c = CallListQueues ->
  forall w' r, willow_exchange fmt_float parse_float number router w c pick i e Works = Some (w', r) ->
  w' = w /\ exists l, r = Some (Returned (WQueues (map (fun '(name, m) => Some (shown_queue name m)) l))) /\ NoDup (map fst l) /\
    (forall name m, GetQueue w name = (Some m, XOk) -> In (name, m) l) /\
    (forall name m, In (name, m) l -> GetQueue w name = (Some m, XOk) \/ GetQueue w name = (None, XConflict)).
Proof. exact c79_list_queues. Qed.
Print Assumptions C79_list_queues_partial.
(** C79: UpdateQueue returns exactly if there is a queue of that name, which then has the limit given; no other changes *)
Theorem C79_update_queue_partial : forall fmt_float parse_float number router, willow_router router ->
  forall k w used c pick i e, wreach_text k w used -> k < 2 ^ 63 -> w_up w = true ->
  proper_willow_call fmt_float parse_float c ->
  forall name m r, c = CallUpdateQueue name (mkQueueProperties (Some m)) -> -1 <= m -> k + 1 < 2 ^ 63 -> fresh used [e_id e; e_id2 e] -> wask fmt_float c <> None ->
  forall w', willow_exchange fmt_float parse_float number router w c pick i e Works = Some (w', r) ->
  (snd (GetQueue w name) = XOk /\ r = Some (Returned WNothing) /\ GetQueue w' name = (Some m, XOk) /\ forall other, other <> name -> GetQueue w' other = GetQueue w other) \/
  (snd (GetQueue w name) <> XOk /\ (forall x, r <> Some (Returned x)) /\ w' = w).
Proof. exact c79_update_queue. Qed.
Print Assumptions C79_update_queue_partial.
(** C79: DeleteQueue, once it returns: the queue is gone *)
Theorem C79_deleted_partial : forall parse_float k w used name w' a, wreach_text k w used -> k < 2 ^ 63 -> DropQueue w name = Some (w', a) ->
  option_map (whear parse_float (CallDeleteQueue name)) (late_delete a) = Some (Returned WNothing) /\ GetQueue w' name = (None, XMissing).
Proof. exact late_deleted. Qed.
Print Assumptions C79_deleted_partial.
(** C79: an item that was enqueued with a call is handed to the caller of Dequeue as it was given to Enqueue, with its id *)
Theorem C79_dequeue_partial : forall fmt_float parse_float name q x kv p id,
  item_create_ok x = true -> plain_item fmt_float parse_float x -> given_item x = Some (kv, p) -> text id -> id <> "" ->
  option_map (whear parse_float (CallDequeue name q)) (late_item fmt_float kv id p) = Some (Returned (WItem (mkApiItem (ai_spec x) (Some id)))).
Proof. exact enqueued_dequeued. Qed.
Print Assumptions C79_dequeue_partial.
Example C79_dequeue_nonvacuous : item_create_ok item1 = true /\ plain_item ff0 pf0 item1 /\ given_item item1 = Some (kv1, props1).
Proof. split; [reflexivity|]. split; [exact item1_plain|reflexivity]. Qed.
(** C79: but a name with a question mark is not addressed: DeleteQueue of "a?b" deletes the queue "a" *)
Theorem C79_name_refuted : forall fmt_float parse_float number router pick i e, willow_router router ->
  exists w', willow_exchange fmt_float parse_float number router (after hw) (CallDeleteQueue "a?b") pick i e Works = Some (w', None) /\
    GetQueue (after hw) "a" = (Some 2, XOk) /\ GetQueue w' "a" = (None, XConflict) /\ GetQueue w' "a?b" = (Some (-1), XOk).
Proof. exact wrong_queue. Qed.
Print Assumptions C79_name_refuted.

(** ** C80 *)
(** C80: whatever is sent to willow, by whomever and in whatever state it is, either the handler calls the service with valid
    arguments, or the answer is 400 or 404 and nothing changed, or the request creates a queue without Properties, or it
    deletes a channel with a body that should be refused *)
Theorem C80_willow_partial : forall fmt_float parse_float number router w r pick i e, w_up w = true ->
  (exists t, valid_wtask t /\ wserve fmt_float parse_float number router w r pick i e = wperform fmt_float number w t i e) \/
  (exists st b, wserve fmt_float parse_float number router w r pick i e = Some (w, Some (Answer st b)) /\ (st = 400 \/ st = 404)) \/
  (router (rq_method r) (rq_path r) = Some RwCreate /\ no_properties (rq_body r)) \/
  (exists name, router (rq_method r) (rq_path r) = Some (RwDeleteChannel name) /\ receive typed_kv (dec_kv parse_float) (rq_body r) = None).
Proof. exact c80_willow. Qed.
Print Assumptions C80_willow_partial.
(** C80: a limit that is neither null nor an integer that fits an int64 is refused *)
Theorem C80_limit_type : forall fmt_float parse_float number router w m p l v pick i e name, w_up w = true ->
  router m p = Some (RwUpdate name) -> member "MaxItems" l = Some v -> v <> JNull -> (forall z, v = JNum z -> ~ SpecModels.int64 z) ->
  wserve fmt_float parse_float number router w (mkReq m p (Some (JObj l))) pick i e = Some (w, Some (refuse 400)).
Proof. exact c80_type. Qed.
Print Assumptions C80_limit_type.
Example C80_limit_type_nonvacuous : split_wrouter PUT "/v1/queues/a" = Some (RwUpdate "a") /\ member "MaxItems" [("maxitems", JStr "7")] = Some (JStr "7") /\ forall z, JStr "7" <> JNum z.
Proof. repeat split; discriminate. Qed.
(** C80: key-values with a name that occurs twice: the last member of a name is the one that counts, so that what is decoded has
    every name once (every member has to decode, or the body is refused) *)
Theorem C80_last_member : forall parse_float l kv, dec_kv parse_float (JObj l) = Some kv ->
  NoDup (map fst kv) /\
  forall k x, In (k, x) kv <-> exists l1 j l2, l = (l1 ++ (k, j) :: l2)%list /\ ~ In k (map fst l2) /\ dec_ev parse_float j = Some x.
Proof. exact kv_last. Qed.
Print Assumptions C80_last_member.
Example C80_last_member_nonvacuous : forall parse_float,
  dec_kv parse_float (JObj [("a", JObj [("Type", JNum 13); ("Data", JStr "x")]); ("b", JObj [("Type", JNum 13); ("Data", JStr "y")]);
                            ("a", JObj [("Type", JNum 13); ("Data", JStr "z")])]) = Some [("a", Str "z"); ("b", Str "y")].
Proof. reflexivity. Qed.
(** C80: which member of an object is a field of a struct: the last one of that name, up to case *)
Theorem C80_field : forall name l v, member name l = Some v <->
  exists l1 k l2, l = (l1 ++ (k, v) :: l2)%list /\ fold_name k = fold_name name /\
    forall k', In k' (map fst l2) -> fold_name k' <> fold_name name.
Proof. exact member_last. Qed.
Print Assumptions C80_field.
Example C80_field_nonvacuous : member "MaxItems" [("MaxItems", JNum 1); ("maxitems", JNum 2); ("Name", JNull)] = Some (JNum 2).
Proof. reflexivity. Qed.
(** C80: a queue without Properties passes the client's and the handler's validation and makes the handler panic *)
Theorem C80_properties_refuted : forall fmt_float parse_float number router pick i e, willow_router router ->
  option_map snd (willow_exchange fmt_float parse_float number router (after hw) (CallCreateQueue bare_queue) pick i e Works) = Some (Some OtherError) /\
  wserve fmt_float parse_float number router (after hw) (mkReq POST "/v1/queues" (Some (on_wire (enc_queue bare_queue)))) pick i e =
    Some (fst (CreateQueue (after hw) "c" None e), Some Broken).
Proof. exact bare_panics. Qed.
Print Assumptions C80_properties_refuted.
(** C80: a request to delete a channel of an existing queue without a body, or with an empty object, stops the process *)
Theorem C80_crash_refuted : forall fmt_float parse_float number router w pick i e body, willow_router router -> w_up w = true -> snd (GetQueue w "a") = XOk -> body = None \/ body = Some (JObj []) ->
  exists w', wserve fmt_float parse_float number router w (mkReq DELETE "/v1/queues/a/channels" body) pick i e = Some (w', Some Broken) /\ w_up w' = false.
Proof. exact no_body_stops. Qed.
Print Assumptions C80_crash_refuted.
(** C80: a request that is answered with 400 can have closed a channel *)
Theorem C80_changed_refuted : forall number router i e, willow_router router ->
  exists w', receive typed_kv (dec_kv pf0) (Some half) = None /\
    wserve ff0 pf0 number router (after hw) (mkReq DELETE "/v1/queues/a/channels" (Some half)) (fun _ => true) i e = Some (w', None) /\
    late_channel true = Some (refuse 400) /\
    (exists ch, indexed_channel (w_chans (after hw)) "a" red = Some ch /\ rem (m_val ch) = RNo) /\
    (exists ch, indexed_channel (w_chans w') "a" red = Some ch /\ rem (m_val ch) <> RNo).
Proof. exact half_closes. Qed.
Print Assumptions C80_changed_refuted.

(** ** C81 *)
(** C81: a call that returned an answer was carried out, whatever the network did, and the answer is the service's *)
Theorem C81_willow_returned_partial : forall fmt_float parse_float number router, willow_router router ->
  forall k w used c pick i e, wreach_text k w used -> k < 2 ^ 63 -> w_up w = true -> proper_willow_call fmt_float parse_float c ->
  forall n w' x, willow_exchange fmt_float parse_float number router w c pick i e n = Some (w', Some (Returned x)) ->
  n = Works /\ wdirect number w c i e = Some (w', Success x).
Proof. exact c81_willow_returned. Qed.
Print Assumptions C81_willow_returned_partial.
(** C81: a call is one step of the service, or none; none only if it was not sent, or lost, or only reads *)
Theorem C81_willow_effect_partial : forall fmt_float parse_float number router, willow_router router ->
  forall k w used c pick i e, wreach_text k w used -> k < 2 ^ 63 -> w_up w = true -> proper_willow_call fmt_float parse_float c ->
  forall n w' r, willow_exchange fmt_float parse_float number router w c pick i e n = Some (w', r) ->
  (w' = w /\ (n = RequestLost \/ wask fmt_float c = None \/ step_of number c i = None)) \/
  (n <> RequestLost /\ exists o a, step_of number c i = Some o /\ wstep w o e = Some (w', a)).
Proof. exact c81_willow_effect. Qed.
Print Assumptions C81_willow_effect_partial.

(** ** C82 *)
(** C82: if the service refuses a call, the caller is given the service's message; another error only if the request
    panicked or the process ended *)
Theorem C82_willow_partial : forall fmt_float parse_float number router, willow_router router ->
  forall k w used c pick i e, wreach_text k w used -> k < 2 ^ 63 -> w_up w = true -> proper_willow_call fmt_float parse_float c -> wask fmt_float c <> None ->
  forall w' v, wdirect number w c i e = Some (w', v) ->
  willow_exchange fmt_float parse_float number router w c pick i e Works =
    Some (w', match v with Success x => Some (Returned x) | Refuses => Some (ServiceError message) | Breaks => Some OtherError | Later => None end).
Proof. exact c82_willow. Qed.
Print Assumptions C82_willow_partial.
Example C82_willow_nonvacuous : option_map snd (wx (after hw) (CallEnqueue "a" blue) Works) = Some (Some (ServiceError message)).
Proof. exact hw_full. Qed.
