(** Specification for willow's client: what a call does is what the service's function does with the same arguments. *)
From Coq Require Import String Ascii List Bool NArith ZArith SpecFloat.
Import ListNotations.
From Verif Require Import Datatypes SpecValues Query Assoc SpecAssoc OneToMany SpecOneToMany Limiter SpecLimiter Channel SpecChannel Willow SpecWillow
  Json Models SpecModels Http ApiLimiter SpecApiLimiter ApiWillow.
Local Open Scope Z_scope.
Local Open Scope string_scope.

(** What is asked of the router: the routes of willow_url_router.go:37-57 *)
Definition willow_router (router : method -> string -> option wroute) : Prop :=
  router POST "/v1/queues" = Some RwCreate /\ router GET "/v1/queues" = Some RwList /\
  forall name, segment name ->
    router GET ("/v1/queues/" ++ name) = Some (RwGet name) /\
    router PUT ("/v1/queues/" ++ name) = Some (RwUpdate name) /\
    router DELETE ("/v1/queues/" ++ name) = Some (RwDelete name) /\
    router GET ("/v1/queues/" ++ name ++ "/channels") = Some (RwChannels name) /\
    router DELETE ("/v1/queues/" ++ name ++ "/channels") = Some (RwDeleteChannel name) /\
    router POST ("/v1/queues/" ++ name ++ "/channels/items") = Some (RwEnqueue name) /\
    router GET ("/v1/queues/" ++ name ++ "/channels/items") = Some (RwDequeue name) /\
    router POST ("/v1/queues/" ++ name ++ "/channels/items/ack") = Some (RwAck name) /\
    router POST ("/v1/queues/" ++ name ++ "/channels/items/heartbeat") = Some (RwBeat name).

(** The queue that a call addresses *)
Definition queue_of (c : willow_call) : option string :=
  match c with
  | CallGetQueue name _ | CallUpdateQueue name _ | CallDeleteQueue name | CallEnqueue name _ | CallDequeue name _ | CallDeleteChannel name _ | CallAck name _ _ _ => Some name
  | _ => None
  end.

(** ** Histories *)
(** As [wreach] (SpecWillow.v), queues having names that are text *)
Definition text_name (o : wop) : Prop := match o with WCreateQueue name _ => text name | _ => True end.
Inductive wreach_text : Z -> willow -> list string -> Prop :=
| WT_start k s used id w : lreach s used -> (forall i, In i (a_items (l_counts s)) -> 0 < it_val i) -> sum_of (a_items (l_counts s)) <= k ->
    fresh used [id] -> start s id = Some w -> wreach_text k w (id :: used)
| WT_step k w used o e w' a : wreach_text k w used -> text_name o -> good_step w used o e w' a -> wreach_text (k + cost o) w' (drawn o e ++ used).

(** ** Arguments and results: what is given with a queue or an item, and what is to be read from the queue that is returned *)
Definition given_queue (q : ApiQueue) : option (string * option Z) :=
  match aq_spec q with
  | Some {| qs_db := Some (Some name); qs_props := p |} => Some (name, match p with Some {| qp_max := m |} => m | None => None end)
  | _ => None
  end.
Definition given_item (i : ApiItem) : option (KeyValues * props) :=
  match ai_spec i with
  | Some {| is_db := Some kv; is_props := Some {| ip_data := d; ip_updateable := Some u; ip_retries := Some r; ip_position := Some p; ip_timeout := Some t |} |} =>
      Some (kv, {| p_data := d; p_upd := u; p_max := Z.to_N r; p_pos := if String.eqb p "front" then Front else Back; p_timeout := t |})
  | _ => None
  end.
Definition shown_queue (name : string) (limit : Z) : ApiQueue :=
  {| aq_spec := Some {| qs_db := Some (Some name); qs_props := Some {| qp_max := Some limit |} |}; aq_state := Some false |}.

(** ** What a call does to the service that it reaches, and what comes back: an answer; the service's refusal; nothing, since
    the request panicked or the process ended; nothing yet *)
Inductive verdict := Success (x : willow_result) | Refuses | Breaks | Later.
Definition judge (a : wans) : verdict :=
  match a with
  | XCreated | XOk | XChan (AStored _) | XChan (AUpdated _) | XChan AAcked | XChan (AFailed _) | XChan (ABeat true) => Success WNothing
  | XConflict | XBad | XMissing | XFailed | XChan AFull | XChan ANotFound | XChan (ABeat false) => Refuses
  | XPanic | XCrash => Breaks
  | _ => Later
  end.
Definition judged (r : willow * wans) : willow * verdict := (fst r, judge (snd r)).
Definition known_queue (w : willow) (name : string) : bool := match find_queue (w_queues w) name with Some _ => true | None => false end.

Section Floats.
  Variable fmt_float : bool -> spec_float -> string.
  Variable parse_float : bool -> string -> option spec_float.
  Variable number : string -> id.

  (** The arguments of a call can be told in JSON, and its queue can be addressed *)
  Definition plain_willow_call (c : willow_call) : Prop :=
    match c with
    | CallCreateQueue q => plain_queue q
    | CallGetQueue name q | CallDequeue name q => text name /\ plain_query fmt_float parse_float q
    | CallUpdateQueue _ p => plain_queue_props p
    | CallEnqueue _ i => plain_item fmt_float parse_float i
    | CallDeleteChannel _ kv => plain_kv fmt_float parse_float kv
    | CallAck _ item kv _ => text item /\ plain_kv fmt_float parse_float kv
    | _ => True
    end.
  Definition proper_willow_call (c : willow_call) : Prop := plain_willow_call c /\ when addressable (queue_of c).

  Definition wdirect (w : willow) (c : willow_call) (i : id) (e : env) : option (willow * verdict) :=
    match c with
    | CallCreateQueue q =>
        match given_queue q with Some (name, max) => Some (judged (CreateQueue w name max e)) | None => None end
    | CallListQueues => Some (w, match ListQueues w with Some l => Success (WQueues (map (fun '(name, m) => Some (shown_queue name m)) l)) | None => Breaks end)
    | CallGetQueue name _ => Some (w, match GetQueue w name with (Some m, _) => Success (WQueue (shown_queue name m)) | (None, a) => judge a end)
    | CallUpdateQueue name p => match qp_max p with Some m => Some (judged (UpdateQueue w name m)) | None => None end
    | CallDeleteQueue name =>
        Some (if known_queue w name && negb (busy w name) then (fst (DeleteQueue w name), Later) else judged (DeleteQueue w name))
    | CallEnqueue name x => match given_item x with Some (kv, p) => option_map judged (Enqueue w name kv p i e) | None => None end
    | CallDequeue name _ => Some (w, if busy w name then Refuses else if known_queue w name then Later else Refuses)
    | CallDeleteChannel name kv =>
        option_map (fun r => match snd r, indexed_channel (w_chans w) name kv with XOk, Some _ => (fst r, Later) | _, _ => judged r end) (DeleteChannel w name kv)
    | CallAck name item kv passed => option_map judged (ItemRequest w name kv (if passed then OAck (number item) else ONack (number item)) e)
    end.
End Floats.
Definition returned (o : verdict) : option (result willow_result) :=
  match o with
  | Success x => Some (Returned x)
  | Refuses => Some (ServiceError message)
  | Breaks => Some OtherError
  | Later => None
  end.

(** The call as it is handed to the service: the same queue and the same values; a query up to its empty parts (SpecModels.v) *)
Definition handed (c : willow_call) : option wtask :=
  match c with
  | CallCreateQueue q => option_map (fun '(name, max) => KCreate name max) (given_queue q)
  | CallListQueues => Some KList
  | CallGetQueue name _ => Some (KGet name)
  | CallUpdateQueue name p => option_map (KUpdate name) (qp_max p)
  | CallDeleteQueue name => Some (KDelete name)
  | CallEnqueue name x => option_map (fun '(kv, p) => KEnqueue name kv p) (given_item x)
  | CallDequeue name q => Some (KDequeue name (told q))
  | CallDeleteChannel name kv => Some (KDeleteChannel name kv false)
  | CallAck name item kv passed => Some (KAck name item kv passed)
  end.

(** The step of the service (Willow.v) that a call asks for; the others only read *)
Definition step_of (number : string -> id) (c : willow_call) (i : id) : option wop :=
  match c with
  | CallCreateQueue q => option_map (fun '(name, max) => WCreateQueue name max) (given_queue q)
  | CallUpdateQueue name p => option_map (WUpdateQueue name) (qp_max p)
  | CallDeleteQueue name => Some (WDeleteQueue name)
  | CallEnqueue name x => option_map (fun '(kv, p) => WEnqueue name kv p i) (given_item x)
  | CallDeleteChannel name kv => Some (WDeleteChannel name kv)
  | CallAck name item kv passed => Some (WAck name kv (number item) passed)
  | _ => None
  end.

(** ** What a handler may pass on *)
Definition valid_wtask (t : wtask) : Prop :=
  match t with
  | KCreate name max => name <> "" /\ max <> None
  | KEnqueue _ kv _ | KAck _ _ kv _ | KBeat _ _ kv | KDeleteChannel _ kv false => kv_valid kv /\ forall k v, In (k, v) kv -> v <> Any
  | KDeleteChannel _ _ true => False
  | KDequeue _ q | KChannels _ q => q_validate q = true
  | _ => True
  end.
(** A queue without Properties *)
Definition no_properties (body : option json) : Prop :=
  exists q s, receive queue_create_ok dec_queue body = Some q /\ aq_spec q = Some s /\ qs_props s = None.
