(** Model of the limiter service as its Go client sees it: pkg/clients/limiter_client, internal/limiter/api/v1 and the
    functions of Limiter.v behind the handlers.  No proofs in this file.

    One request is handled at a time.  The router (an external library, github.com/DanLavine/urlrouter) is a function that
    finds the handler and its parameters for a method and a path. *)
From Coq Require Import String Ascii List Bool NArith ZArith SpecFloat.
Import ListNotations.
From Verif Require Import Datatypes Query Assoc OneToMany Limiter Json Models Http.
Local Open Scope Z_scope.
Local Open Scope bool_scope.
Local Open Scope string_scope.

(** ** What the service does behind its handlers *)
(** rules_client_local.go:81-113 QueryRules and :115-147 MatchRules; the answers of the trees as in Assoc.v: [None] = panic,
    [Some None] = error *)
Definition found_all {A} (acc : list (string * KeyValues * A)) (i : item A) := ((acc ++ [(it_id i, it_kv i, it_val i)])%list, true).
Definition QueryRules (s : limiter) (q : Query) : option (option (list (string * KeyValues * Z))) := QueryAction (l_rules s) q found_all [].
Definition MatchRules (s : limiter) (m : MatchQuery) : option (option (list (string * KeyValues * Z))) := MatchAction (l_rules s) m found_all [].
(** rules_client_local.go:313-342 and overrides_client_local.go:119-155 QueryOverrides; rules_client_local.go:344-373 and
    overrides_client_local.go:158-194 MatchOverrides; [inl] = the answer of an error *)
Definition found_over {A} (acc : list (string * KeyValues * A)) (i : many A) := ((acc ++ [(m_id i, m_kv i, m_val i)])%list, true).
Definition with_rule {B} (s : limiter) (rid : string) (f : option (option B)) : lanswer + option (option B) :=
  match find_rule s rid with
  | Some (Some _) => inr f
  | Some None => inl LMissing
  | None => inl LFailed
  end.
Definition QueryOverrides (s : limiter) (rid : string) (q : Query) : lanswer + option (option (list (string * KeyValues * Z))) :=
  with_rule s rid (OtmQueryAction (l_over s) rid q found_over []).
Definition MatchOverrides (s : limiter) (rid : string) (m : MatchQuery) : lanswer + option (option (list (string * KeyValues * Z))) :=
  with_rule s rid (OtmMatchAction (l_over s) rid m found_over []).

(** ** Routes *)
(** url_router.go:37-56, with the named parameters *)
Inductive lroute :=
| RtCreateRule | RtQueryRules | RtMatchRules | RtGetRule (rid : string) | RtUpdateRule (rid : string) | RtDeleteRule (rid : string)
| RtCreateOverride (rid : string) | RtQueryOverrides (rid : string) | RtMatchOverrides (rid : string)
| RtGetOverride (rid oid : string) | RtUpdateOverride (rid oid : string) | RtDeleteOverride (rid oid : string)
| RtUpsertCounters | RtQueryCounters | RtSetCounters.

(** ** Handlers *)
Inductive ltask :=
| TCreateRule (kv : KeyValues) (limit : Z) | TQueryRules (q : Query) | TMatchRules (m : MatchQuery)
| TGetRule (rid : string) | TUpdateRule (rid : string) (limit : Z) | TDeleteRule (rid : string)
| TCreateOverride (rid : string) (kv : KeyValues) (limit : Z) | TQueryOverrides (rid : string) (q : Query) | TMatchOverrides (rid : string) (m : MatchQuery)
| TGetOverride (rid oid : string) | TUpdateOverride (rid oid : string) (limit : Z) | TDeleteOverride (rid oid : string)
| TUpsertCounters (kv : KeyValues) (n : Z) | TQueryCounters (q : Query) | TSetCounters (kv : KeyValues) (n : Z).

(** Models as the service's functions use them; [None] = a nil pointer is dereferenced *)
Definition limit_spec (s : option LimitSpec) : option (KeyValues * Z) :=
  match s with Some (mkLimitSpec (Some kv) (Some (Some l))) => Some (kv, l) | _ => None end.
Definition counter_spec (s : option CounterSpec) : option (KeyValues * Z) :=
  match s with Some (mkCounterSpec (Some kv) (Some (Some n))) => Some (kv, n) | _ => None end.
(** The models the service answers with: rules_handler.go:36-39, rules_client_local.go:89-102; overrides_handler.go:39-42,
    overrides_client_local.go:88-101; counter_client_local.go:50-62 *)
Definition rule_model (f : string * KeyValues * Z) : ApiRule :=
  let '(id, kv, l) := f in mkApiRule (Some (mkLimitSpec (Some kv) (Some (Some l)))) (Some (id, [])).
Definition override_model (f : string * KeyValues * Z) : ApiOverride :=
  let '(id, kv, l) := f in mkApiOverride (Some (mkLimitSpec (Some kv) (Some (Some l)))) (Some (id, false)).
Definition counter_model (f : KeyValues * Z) : ApiCounter :=
  let '(kv, n) := f in mkApiCounter (Some (mkCounterSpec (Some kv) (Some (Some n)))) (Some false).

Section Floats.
  Variable fmt_float : bool -> spec_float -> string.
  Variable parse_float : bool -> string -> option spec_float.

  (** A handler that reads a model, e.g. rules_handler.go:22-28 *)
  Definition reading {A T} (valid : A -> bool) (dec : decoder A) (body : option json) (k : A -> handled T) : handled T :=
    match receive valid dec body with None => Refused 400 | Some a => k a end.
  Definition deref {A T} (o : option A) (k : A -> T) : handled T := match o with Some a => Run (k a) | None => Panics end.

  (** rules_handler.go, overrides_handler.go, counters_handler.go *)
  Definition lhandler (rt : lroute) (body : option json) : handled ltask :=
    match rt with
    | RtCreateRule => reading rule_create_ok (dec_rule parse_float) body (fun r => deref (limit_spec (ar_spec r)) (fun '(kv, l) => TCreateRule kv l))
    | RtQueryRules => reading q_validate (dec_query parse_float) body (fun q => Run (TQueryRules q))
    | RtMatchRules => reading mq_validate (dec_match parse_float) body (fun m => Run (TMatchRules m))
    | RtGetRule rid => Run (TGetRule rid)
    | RtUpdateRule rid => reading limit_ok dec_limit body (fun l => deref l (TUpdateRule rid))
    | RtDeleteRule rid => Run (TDeleteRule rid)
    | RtCreateOverride rid => reading override_create_ok (dec_override parse_float) body
                                (fun o => deref (limit_spec (ao_spec o)) (fun '(kv, l) => TCreateOverride rid kv l))
    | RtQueryOverrides rid => reading q_validate (dec_query parse_float) body (fun q => Run (TQueryOverrides rid q))
    | RtMatchOverrides rid => reading mq_validate (dec_match parse_float) body (fun m => Run (TMatchOverrides rid m))
    | RtGetOverride rid oid => Run (TGetOverride rid oid)
    | RtUpdateOverride rid oid => reading limit_ok dec_limit body (fun l => deref l (TUpdateOverride rid oid))
    | RtDeleteOverride rid oid => Run (TDeleteOverride rid oid)
    | RtUpsertCounters => reading counter_create_ok (dec_counter parse_float) body (fun c => deref (counter_spec (an_spec c)) (fun '(kv, n) => TUpsertCounters kv n))
    | RtQueryCounters => reading q_validate (dec_query parse_float) body (fun q => Run (TQueryCounters q))
    | RtSetCounters => reading counter_create_ok (dec_counter parse_float) body (fun c => deref (counter_spec (an_spec c)) (fun '(kv, n) => TSetCounters kv n))
    end.

  (** The status of an error *)
  Definition refusal (a : lanswer) : response :=
    match a with LConflict => refuse 409 | LBad => refuse 400 | LMissing => refuse 404 | _ => refuse 500 end.
  Definition done (status : Z) (a : lanswer) : response := match a with LDone => empty_reply status | _ => refusal a end.
  Definition listed {A B} (valid : A -> bool) (enc : A -> json) (model : B -> A) (r : option (option (list B))) : response :=
    match r with
    | Some (Some l) => reply (list_ok valid) (fun l => JArr (map (null_or enc) l)) 200 (map (fun b => Some (model b)) l)
    | Some None => refuse 500
    | None => Broken
    end.
  (** What is done, with the answer.  [id]: the id that the generator draws; [locked]: the locks were obtained *)
  Definition lperform (s : limiter) (t : ltask) (id : string) (locked : bool) : limiter * response :=
    match t with
    | TCreateRule kv l =>
        let '(s, a) := CreateRule s kv id l in
        (s, match a with LCreated i => reply rule_ok (enc_rule fmt_float) 201 (rule_model (i, kv, l)) | _ => refusal a end)
    | TQueryRules q => (s, listed rule_ok (enc_rule fmt_float) rule_model (QueryRules s q))
    | TMatchRules m => (s, listed rule_ok (enc_rule fmt_float) rule_model (MatchRules s m))
    | TGetRule rid =>
        (s, match GetRule s rid with
            | (Some (kv, l), _) => reply rule_ok (enc_rule fmt_float) 200 (rule_model (rid, kv, l))
            | (None, a) => refusal a
            end)
    | TUpdateRule rid l => let '(s, a) := UpdateRule s rid l in (s, done 200 a)
    | TDeleteRule rid => let '(s, a) := DeleteRule s rid in (s, done 204 a)
    | TCreateOverride rid kv l =>
        let '(s, a) := CreateOverride s rid kv id l in
        (s, match a with LCreated i => reply override_ok (enc_override fmt_float) 201 (override_model (i, kv, l)) | _ => refusal a end)
    | TQueryOverrides rid q =>
        (s, match QueryOverrides s rid q with inl a => refusal a | inr r => listed override_ok (enc_override fmt_float) override_model r end)
    | TMatchOverrides rid m =>
        (s, match MatchOverrides s rid m with inl a => refusal a | inr r => listed override_ok (enc_override fmt_float) override_model r end)
    | TGetOverride rid oid =>
        (s, match GetOverride s rid oid with
            | (Some (kv, l), _) => reply override_ok (enc_override fmt_float) 200 (override_model (oid, kv, l))
            | (None, a) => refusal a
            end)
    | TUpdateOverride rid oid l => let '(s, a) := UpdateOverride s rid oid l in (s, done 200 a)
    | TDeleteOverride rid oid => let '(s, a) := DeleteOverride s rid oid in (s, done 204 a)
    | TUpsertCounters kv n => let '(s, a) := UpsertCounters s kv n id locked in (s, done 200 a)
    | TQueryCounters q =>
        (s, match QueryAction (l_counts s) q (fun acc i => ((acc ++ [(it_kv i, it_val i)])%list, true)) [] with
            | Some (Some l) => listed counter_ok (enc_counter fmt_float) counter_model (Some (Some l))
            | Some None => refuse 500
            | None => Broken
            end)
    | TSetCounters kv n => let '(s, a) := SetCounters s kv n id in (s, done 200 a)
    end.
  (** The service: a request that no route matches is answered with 404 *)
  Definition lserve (router : method -> string -> option lroute) (s : limiter) (r : request) (id : string) (locked : bool) : limiter * response :=
    match router (rq_method r) (rq_path r) with
    | None => (s, Answer 404 None)
    | Some rt =>
        match lhandler rt (rq_body r) with
        | Refused st => (s, refuse st)
        | Panics => (s, Broken)
        | Run t => lperform s t id locked
        end
    end.

  (** ** The client: pkg/clients/limiter_client/rule.go, override.go, counter.go *)
  Inductive limiter_call :=
  | CallCreateRule (r : ApiRule) | CallGetRule (rid : string) | CallQueryRules (q : Query) | CallMatchRules (m : MatchQuery)
  | CallUpdateRule (rid : string) (l : option Z) | CallDeleteRule (rid : string)
  | CallCreateOverride (rid : string) (o : ApiOverride) | CallQueryOverrides (rid : string) (q : Query) | CallMatchOverrides (rid : string) (m : MatchQuery)
  | CallGetOverride (rid oid : string) | CallUpdateOverride (rid oid : string) (l : option Z) | CallDeleteOverride (rid oid : string)
  | CallUpdateCounter (c : ApiCounter) | CallQueryCounters (q : Query) | CallSetCounters (c : ApiCounter).
  Inductive limiter_result :=
  | GotNothing | GotRule (r : ApiRule) | GotRules (l : list (option ApiRule)) | GotOverride (o : ApiOverride) | GotOverrides (l : list (option ApiOverride))
  | GotCounters (l : list (option ApiCounter)).

  Definition rules_url : string := "/v1/limiter/rules".
  Definition rule_url (rid : string) : string := rules_url ++ "/" ++ rid.
  Definition overrides_url (rid : string) : string := rule_url rid ++ "/overrides".
  Definition override_url (rid oid : string) : string := overrides_url rid ++ "/" ++ oid.
  Definition counters_url : string := "/v1/limiter/counters".
  (** A request with a body: the model is validated before (client.go:9-23) *)
  Definition tell {A} (valid : A -> bool) (enc : A -> json) (m : method) (url : string) (a : A) : option request :=
    bind (send valid enc a) (fun b => ask m url (Some b)).
  (** The request; [None] = an error is returned without one.  rule.go:33, :76, :124, :172, :221, :258; override.go:36, :85,
      :134, :179, :230, :268; counter.go:36, :80, :128 *)
  Definition lask (c : limiter_call) : option request :=
    match c with
    | CallCreateRule r => tell rule_ok (enc_rule fmt_float) POST rules_url r
    | CallGetRule rid => ask GET (rule_url rid) None
    | CallQueryRules q => tell q_validate (enc_query fmt_float) GET (rules_url ++ "/query") q
    | CallMatchRules m => tell mq_validate (enc_match fmt_float) GET (rules_url ++ "/match") m
    | CallUpdateRule rid l => tell limit_ok enc_limit PUT (rule_url rid) l
    | CallDeleteRule rid => ask DELETE (rule_url rid) None
    | CallCreateOverride rid o => tell override_create_ok (enc_override fmt_float) POST (overrides_url rid) o
    | CallQueryOverrides rid q => tell q_validate (enc_query fmt_float) GET (overrides_url rid ++ "/query") q
    | CallMatchOverrides rid m => tell mq_validate (enc_match fmt_float) GET (overrides_url rid ++ "/match") m
    | CallGetOverride rid oid => ask GET (override_url rid oid) None
    | CallUpdateOverride rid oid l => tell limit_ok enc_limit PUT (override_url rid oid) l
    | CallDeleteOverride rid oid => ask DELETE (override_url rid oid) None
    | CallUpdateCounter c => tell counter_create_ok (enc_counter fmt_float) PUT counters_url c
    | CallQueryCounters q => tell q_validate (enc_query fmt_float) GET (counters_url ++ "/query") q
    | CallSetCounters c => tell counter_create_ok (enc_counter fmt_float) PUT (counters_url ++ "/set") c
    end.
  Definition nothing (_ : option json) : option limiter_result := Some GotNothing.
  Definition model {A} (valid : A -> bool) (dec : decoder A) (got : A -> limiter_result) (b : option json) : option limiter_result :=
    option_map got (receive valid dec b).
  Definition lhear (c : limiter_call) : response -> result limiter_result :=
    match c with
    | CallCreateRule _ => hear 201 [400; 409; 500] (model rule_ok (dec_rule parse_float) GotRule)
    | CallGetRule _ => hear 200 [400; 404; 409; 500] (model rule_ok (dec_rule parse_float) GotRule)
    | CallQueryRules _ | CallMatchRules _ => hear 200 [400; 500] (model (list_ok rule_ok) (slice (pointee (dec_rule parse_float))) GotRules)
    | CallUpdateRule _ _ => hear 200 [400; 404; 409; 500] nothing
    | CallDeleteRule _ => hear 204 [409; 500] nothing
    | CallCreateOverride _ _ => hear 201 [400; 404; 409; 500] (model override_ok (dec_override parse_float) GotOverride)
    | CallQueryOverrides _ _ | CallMatchOverrides _ _ =>
        hear 200 [400; 409; 500] (model (list_ok override_ok) (slice (pointee (dec_override parse_float))) GotOverrides)
    | CallGetOverride _ _ => hear 200 [404; 409; 500] (model override_ok (dec_override parse_float) GotOverride)
    | CallUpdateOverride _ _ _ => hear 200 [400; 404; 409; 500] nothing
    | CallDeleteOverride _ _ => hear 204 [404; 409; 500] nothing
    | CallUpdateCounter _ => hear 200 [400; 409; 500] nothing
    | CallQueryCounters _ => hear 200 [400; 500] (model (list_ok counter_ok) (slice (pointee (dec_counter parse_float))) GotCounters)
    | CallSetCounters _ => hear 200 [400; 500] nothing
    end.
  (** A call: the state of the service afterwards, and what is returned *)
  Definition limiter_exchange (router : method -> string -> option lroute) (s : limiter) (c : limiter_call) (id : string) (locked : bool) (n : network) :
    limiter * result limiter_result :=
    match lask c with
    | None => (s, OtherError)
    | Some r =>
        match n with
        | RequestLost => (s, OtherError)
        | AnswerLost => (fst (lserve router s r id locked), OtherError)
        | Works => let '(s', a) := lserve router s r id locked in (s', lhear c a)
        end
    end.
End Floats.
