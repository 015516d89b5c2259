(** Model of the willow service as its Go client sees it: pkg/clients/willow_client (queue.go, channel.go, ACK of item.go),
    internal/willow/api/v1 and the functions of Willow.v behind the handlers.  No proofs in this file.

    The router is a function as in ApiLimiter.v.  No function of the client uses GET /v1/queues/:queue_name/channels; how the
    client sends the heartbeats of an item is in ItemClient.v (without the header that the service asks for, which is left out here). *)
From Coq Require Import String Ascii List Bool NArith ZArith SpecFloat.
Import ListNotations.
From Verif Require Import Datatypes Query Assoc OneToMany Limiter Channel Willow Json Models Http ApiLimiter.
Local Open Scope Z_scope.
Local Open Scope bool_scope.
Local Open Scope string_scope.

(** ** Routes *)
(** willow_url_router.go:37-57, with the named parameter *)
Inductive wroute :=
| RwCreate | RwList | RwGet (name : string) | RwUpdate (name : string) | RwDelete (name : string)
| RwChannels (name : string) | RwDeleteChannel (name : string) | RwEnqueue (name : string) | RwDequeue (name : string) | RwAck (name : string) | RwBeat (name : string).

(** ** Models as the service uses them *)
(** queues_client_local.go:67, memory_queue.go:31-62: the name and the limit; the outer [None] = a nil pointer is
    dereferenced before New is called.  Of a queue without Properties New dereferences a nil pointer (Willow.v CreateQueue). *)
Definition queue_spec (q : ApiQueue) : option (string * option Z) :=
  match aq_spec q with
  | Some (mkQueueSpec (Some (Some name)) p) => Some (name, match p with Some (mkQueueProperties m) => m | None => None end)
  | _ => None
  end.
(** memory_queue_channel.go:390-399; the position has been validated (Models.v item_props_ok) *)
Definition item_spec (i : ApiItem) : option (KeyValues * props) :=
  match ai_spec i with
  | Some (mkItemSpec (Some kv) (Some (mkItemProperties d (Some u) (Some r) (Some p) (Some t)))) =>
      Some (kv, mkProps d u (Z.to_N r) (if String.eqb p "front" then Front else Back) t)
  | _ => None
  end.
(** queues_client_local.go:90-102 and :124-137 *)
Definition queue_model (name : string) (limit : Z) : ApiQueue :=
  mkApiQueue (Some (mkQueueSpec (Some (Some name)) (Some (mkQueueProperties (Some limit))))) (Some false).
(** memory_queue_channel.go:617-633 *)
Definition item_model (kv : KeyValues) (id : string) (p : props) : ApiItem :=
  mkApiItem (Some (mkItemSpec (Some kv) (Some (mkItemProperties (p_data p) (Some (p_upd p)) (Some (Z.of_N (p_max p)))
    (Some (match p_pos p with Front => "front" | Back => "back" end)) (Some (p_timeout p)))))) (Some id).

(** ** Channels *)
(** qccl:383-397 *)
Definition channel_model (kv : KeyValues) : ApiChannel := mkApiChannel (Some (Some kv)) (Some (-1, -1)).
(** qccl:379-410 Channels: the key-values of the channels found; [None] = a panic; [Some None] = logger.Fatal *)
Definition Channels (w : willow) (name : string) (q : Query) : option (option (list KeyValues)) :=
  OtmQueryAction (w_chans w) name q (fun acc m => ((acc ++ [m_kv m])%list, true)) [].
Inductive lans := LListed (l : list KeyValues) | LBusy | LPanic.
(** queues_client_local.go:211-233 QueryChannels; Find of an unknown name is no error, the list is empty then *)
Definition QueryChannels (w : willow) (name : string) (q : Query) : willow * lans :=
  if busy w name then (w, LBusy)
  else match find_queue (w_queues w) name with
       | None => (w, LListed [])
       | Some _ => match Channels w name q with
                   | Some (Some l) => (w, LListed l)
                   | Some None => (set_down w, LPanic)
                   | None => (w, LPanic)
                   end
       end.

(** ** Handlers *)
(** The last argument of [KDeleteChannel]: an answer with status 400 has been written already *)
Inductive wtask :=
| KCreate (name : string) (max : option Z) | KList | KGet (name : string) | KUpdate (name : string) (max : Z) | KDelete (name : string)
| KChannels (name : string) (q : Query) | KDeleteChannel (name : string) (kv : KeyValues) (refused : bool)
| KEnqueue (name : string) (kv : KeyValues) (p : props) | KDequeue (name : string) (q : Query) | KAck (name : string) (item : string) (kv : KeyValues) (passed : bool)
| KBeat (name : string) (item : string) (kv : KeyValues).

Section Floats.
  Variable fmt_float : bool -> spec_float -> string.
  Variable parse_float : bool -> string -> option spec_float.

  (** queue_handler.go, channel_handler.go, item_handler.go.  Get does not read the body.  ChannelDelete goes on after it has
      refused the body (channel_handler.go:49-57); [pick] as in Models.v left_behind. *)
  Definition whandler (rt : wroute) (body : option json) (pick : string -> bool) : handled wtask :=
    match rt with
    | RwCreate => reading queue_create_ok dec_queue body (fun q => deref (queue_spec q) (fun '(name, max) => KCreate name max))
    | RwList => Run KList
    | RwGet name => Run (KGet name)
    | RwUpdate name => reading queue_props_ok dec_queue_props body (fun p => deref (qp_max p) (KUpdate name))
    | RwDelete name => Run (KDelete name)
    | RwChannels name => reading q_validate (dec_query parse_float) body (fun q => Run (KChannels name q))
    | RwDeleteChannel name =>
        match body with
        | None => Run (KDeleteChannel name [] true)
        | Some j => match dec_kv parse_float j with
                    | Some kv => Run (KDeleteChannel name kv (negb (typed_kv kv)))
                    | None => Run (KDeleteChannel name (left_behind parse_float j pick) true)
                    end
        end
    | RwEnqueue name => reading item_create_ok (dec_item parse_float) body (fun i => deref (item_spec i) (fun '(kv, p) => KEnqueue name kv p))
    | RwDequeue name => reading q_validate (dec_query parse_float) body (fun q => Run (KDequeue name q))
    | RwAck name => reading ack_ok (dec_ack parse_float) body (fun a => Run (KAck name (ak_item a) (ak_kv a) (ak_passed a)))
    | RwBeat name => reading beat_ok (dec_beat parse_float) body (fun b => Run (KBeat name (ab_item b) (ab_kv b)))
    end.

  (** The answer of a handler; [None]: there is none yet.  A panic closes the connection, and so does the end of the process. *)
  Definition wrespond (good : Z) (a : wans) : option response :=
    match a with
    | XCreated | XOk => Some (empty_reply good)
    | XConflict => Some (refuse 409)
    | XBad => Some (refuse 400)
    | XMissing => Some (refuse 404)
    | XFailed => Some (refuse 500)
    | XPanic | XCrash => Some Broken
    | XChan (AStored _) | XChan (AUpdated _) | XChan AAcked | XChan (AFailed _) | XChan (ABeat true) => Some (empty_reply good)
    | XChan AFull => Some (refuse 409)
    | XChan ANotFound | XChan (ABeat false) => Some (refuse 404)
    | _ => None
    end.
  (** The answer of a handler that has written an answer before, unless the connection is closed *)
  Definition written (refused : bool) (r : option response) : option response :=
    match r with Some (Answer _ _) => if refused then Some (refuse 400) else r | _ => r end.
  (** queues.go: json.Marshal of a nil slice is null *)
  Definition enc_queues (l : list (option ApiQueue)) : json := match l with [] => JNull | _ => JArr (map (null_or enc_queue) l) end.
  Definition dec_queues : decoder (list (option ApiQueue)) := fun j => match j with JNull => Some [] | _ => slice (pointee dec_queue) j end.

  (** The number that stands for an item's id in Channel.v *)
  Variable number : string -> id.
  (** What is done, with the answer, if there is one yet: DeleteQueue and DeleteChannel wait for the channels to be
      emptied ([DropQueue] and [OWipe] answer), Dequeue waits for an item.  [i]: the id an item gets.  [None]: has to wait for
      a lock. *)
  Definition wperform (w : willow) (t : wtask) (i : id) (e : env) : option (willow * option response) :=
    match t with
    | KCreate name max => let '(w', a) := CreateQueue w name max e in Some (w', wrespond 201 a)
    | KList => Some (w, Some (match ListQueues w with
                              | Some l => reply (list_ok queue_ok) enc_queues 200 (map (fun '(name, m) => Some (queue_model name m)) l)
                              | None => Broken
                              end))
    | KGet name => Some (w, match GetQueue w name with
                            | (Some m, _) => Some (reply queue_ok enc_queue 200 (queue_model name m))
                            | (None, a) => wrespond 200 a
                            end)
    | KUpdate name max => let '(w', a) := UpdateQueue w name max in Some (w', wrespond 200 a)
    | KDelete name =>
        let '(w', a) := DeleteQueue w name in
        Some (w', if busy w' name && negb (busy w name) then None else wrespond 204 a)
    | KChannels name q =>
        let '(w', a) := QueryChannels w name q in
        Some (w', Some (match a with
                        | LListed l => reply (list_ok channel_ok) (fun l => JArr (map (null_or (enc_channel fmt_float)) l)) 200 (map (fun kv => Some (channel_model kv)) l)
                        | LBusy => refuse 409
                        | LPanic => Broken
                        end))
    | KDeleteChannel name kv refused =>
        match DeleteChannel w name kv with
        | None => None
        | Some (w', a) =>
            let waits := match a, indexed_channel (w_chans w) name kv with XOk, Some _ => true | _, _ => false end in
            Some (w', if waits then None else written refused (wrespond 204 a))
        end
    | KEnqueue name kv p => match Enqueue w name kv p i e with Some (w', a) => Some (w', wrespond 201 a) | None => None end
    | KDequeue name q =>
        Some (w, if busy w name then Some (refuse 500) else match find_queue (w_queues w) name with None => Some (refuse 404) | Some _ => None end)
    | KAck name item kv passed =>
        match ItemRequest w name kv (if passed then OAck (number item) else ONack (number item)) e with
        | Some (w', a) => Some (w', wrespond 200 a)
        | None => None
        end
    | KBeat name item kv =>
        match ItemRequest w name kv (OBeat (number item)) e with
        | Some (w', a) => Some (w', wrespond 200 a)
        | None => None
        end
    end.
  Definition wserve (router : method -> string -> option wroute) (w : willow) (r : request) (pick : string -> bool) (i : id) (e : env) :
    option (willow * option response) :=
    if negb (w_up w) then Some (w, Some Broken)
    else match router (rq_method r) (rq_path r) with
         | None => Some (w, Some (Answer 404 None))
         | Some rt =>
             match whandler rt (rq_body r) pick with
             | Refused st => Some (w, Some (refuse st))
             | Panics => Some (w, Some Broken)
             | Run t => wperform w t i e
             end
         end.

  (** ** The client: pkg/clients/willow_client *)
  Inductive willow_call :=
  | CallCreateQueue (q : ApiQueue) | CallListQueues | CallGetQueue (name : string) (q : Query) | CallUpdateQueue (name : string) (p : QueueProperties)
  | CallDeleteQueue (name : string) | CallEnqueue (name : string) (i : ApiItem) | CallDequeue (name : string) (q : Query)
  | CallDeleteChannel (name : string) (kv : KeyValues) | CallAck (name item : string) (kv : KeyValues) (passed : bool).
  Inductive willow_result := WNothing | WQueue (q : ApiQueue) | WQueues (l : list (option ApiQueue)) | WItem (i : ApiItem).
  Definition queues_url : string := "/v1/queues".
  Definition queue_url (name : string) : string := queues_url ++ "/" ++ name.
  Definition channels_url (name : string) : string := queue_url name ++ "/channels".
  Definition items_url (name : string) : string := channels_url name ++ "/items".
  (** queue.go:26-38, :69-75, :109-121, :153-165, :195-201; channel.go:30-42, :76-88, :126-141; item.go:172-189 *)
  Definition wask (c : willow_call) : option request :=
    match c with
    | CallCreateQueue q => tell queue_create_ok enc_queue POST queues_url q
    | CallListQueues => ask GET queues_url None
    | CallGetQueue name q => tell q_validate (enc_query fmt_float) GET (queue_url name) q
    | CallUpdateQueue name p => tell queue_props_ok enc_queue_props PUT (queue_url name) p
    | CallDeleteQueue name => ask DELETE (queue_url name) None
    | CallEnqueue name i => tell item_create_ok (enc_item fmt_float) POST (items_url name) i
    | CallDequeue name q => tell q_validate (enc_query fmt_float) GET (items_url name) q
    | CallDeleteChannel name kv => tell typed_kv (enc_kv fmt_float) DELETE (channels_url name) kv
    | CallAck name item kv passed => tell ack_ok (enc_ack fmt_float) POST (items_url name ++ "/ack") (mkApiAck item kv passed)
    end.
  Definition wnothing (_ : option json) : option willow_result := Some WNothing.
  Definition wmodel {A} (valid : A -> bool) (dec : decoder A) (got : A -> willow_result) (b : option json) : option willow_result :=
    option_map got (receive valid dec b).
  (** queue.go:46-58, :83-100, :128-147, :172-186, :208-222; channel.go:49-63, :95-115, :148-162; item.go:196-213: ACK returns
      no error for a status it does not know *)
  Definition whear (c : willow_call) (r : response) : result willow_result :=
    match c with
    | CallCreateQueue _ => hear 201 [400; 409; 500] wnothing r
    | CallListQueues => hear 200 [500] (wmodel (list_ok queue_ok) dec_queues WQueues) r
    | CallGetQueue _ _ => hear 200 [400; 404; 409; 500] (wmodel queue_ok dec_queue WQueue) r
    | CallUpdateQueue _ _ => hear 200 [400; 404; 409; 500] wnothing r
    | CallDeleteQueue _ => hear 204 [404; 409; 500] wnothing r
    | CallEnqueue _ _ => hear 201 [400; 404; 409; 500] wnothing r
    | CallDequeue _ _ => hear 200 [400; 404; 409; 500] (wmodel item_ok (dec_item parse_float) WItem) r
    | CallDeleteChannel _ _ => hear 204 [400; 404; 409; 500] wnothing r
    | CallAck _ _ _ _ =>
        match r with
        | Answer st _ => if existsb (Z.eqb st) [400; 404; 409; 500] then hear 200 [400; 404; 409; 500] wnothing r else Returned WNothing
        | Broken => OtherError
        end
    end.
  (** A call: the state of the service after the request was handled, and what is returned, if the answer is there yet *)
  Definition willow_exchange (router : method -> string -> option wroute) (w : willow) (c : willow_call) (pick : string -> bool) (i : id) (e : env) (n : network) :
    option (willow * option (result willow_result)) :=
    match wask c with
    | None => Some (w, Some OtherError)
    | Some r =>
        match n with
        | RequestLost => Some (w, Some OtherError)
        | AnswerLost => option_map (fun x => (fst x, Some OtherError)) (wserve router w r pick i e)
        | Works => option_map (fun x => (fst x, option_map (whear c) (snd x))) (wserve router w r pick i e)
        end
    end.
  (** The answers of the handlers that had to wait: DeleteQueue once [DropQueue] answers [a]; DeleteChannel once the channel
      is gone; Dequeue when a channel hands out item [id] with the contents [p] (item_handler.go:53-65) *)
  Definition late_delete (a : wans) : option response := wrespond 204 a.
  Definition late_channel (refused : bool) : option response := written refused (Some (empty_reply 204)).
  Definition late_item (kv : KeyValues) (id : string) (p : props) : option response := Some (reply item_ok (enc_item fmt_float) 200 (item_model kv id p)).
End Floats.
