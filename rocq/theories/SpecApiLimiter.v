(** Specification for the limiter's client: what a call does is what the service's function does with the same arguments. *)
From Coq Require Import String Ascii List Bool NArith ZArith SpecFloat.
Import ListNotations.
From Verif Require Import Datatypes SpecValues Query Assoc SpecAssoc OneToMany SpecOneToMany Limiter SpecLimiter Json Models SpecModels Http ApiLimiter.
Local Open Scope Z_scope.
Local Open Scope string_scope.

(** ** Addresses *)
Fixpoint chars (s : string) : list ascii := match s with EmptyString => [] | String c r => c :: chars r end.
(** A part of a path *)
Definition segment (s : string) : Prop := s <> "" /\ s <> "." /\ s <> ".." /\ ~ In "/"%char (chars s).
(** A name that can be part of an address as it is *)
Definition addressable (s : string) : Prop :=
  segment s /\ forall c, In c (chars s) -> c <> "#"%char /\ c <> "?"%char /\ c <> "%"%char /\ (32 <= N_of_ascii c /\ N_of_ascii c <> 127)%N.

(** What is asked of the router: the routes of url_router.go:37-56, "query" and "match" being no ids for GET *)
Definition limiter_router (router : method -> string -> option lroute) : Prop :=
  router POST "/v1/limiter/rules" = Some RtCreateRule /\
  router GET "/v1/limiter/rules/query" = Some RtQueryRules /\
  router GET "/v1/limiter/rules/match" = Some RtMatchRules /\
  router PUT "/v1/limiter/counters" = Some RtUpsertCounters /\
  router GET "/v1/limiter/counters/query" = Some RtQueryCounters /\
  router PUT "/v1/limiter/counters/set" = Some RtSetCounters /\
  (forall rid, segment rid ->
    (rid <> "query" -> rid <> "match" -> router GET ("/v1/limiter/rules/" ++ rid) = Some (RtGetRule rid)) /\
    router PUT ("/v1/limiter/rules/" ++ rid) = Some (RtUpdateRule rid) /\
    router DELETE ("/v1/limiter/rules/" ++ rid) = Some (RtDeleteRule rid) /\
    router POST ("/v1/limiter/rules/" ++ rid ++ "/overrides") = Some (RtCreateOverride rid) /\
    router GET ("/v1/limiter/rules/" ++ rid ++ "/overrides/query") = Some (RtQueryOverrides rid) /\
    router GET ("/v1/limiter/rules/" ++ rid ++ "/overrides/match") = Some (RtMatchOverrides rid) /\
    forall oid, segment oid ->
      (oid <> "query" -> oid <> "match" -> router GET ("/v1/limiter/rules/" ++ rid ++ "/overrides/" ++ oid) = Some (RtGetOverride rid oid)) /\
      router PUT ("/v1/limiter/rules/" ++ rid ++ "/overrides/" ++ oid) = Some (RtUpdateOverride rid oid) /\
      router DELETE ("/v1/limiter/rules/" ++ rid ++ "/overrides/" ++ oid) = Some (RtDeleteOverride rid oid)).

Definition rid_of (c : limiter_call) : option string :=
  match c with
  | CallGetRule rid | CallUpdateRule rid _ | CallDeleteRule rid | CallCreateOverride rid _ | CallQueryOverrides rid _ | CallMatchOverrides rid _
  | CallGetOverride rid _ | CallUpdateOverride rid _ _ | CallDeleteOverride rid _ => Some rid
  | _ => None
  end.
Definition oid_of (c : limiter_call) : option string :=
  match c with CallGetOverride _ oid | CallUpdateOverride _ oid _ | CallDeleteOverride _ oid => Some oid | _ => None end.
(** The ids of a call can be addressed *)
Definition reachable_ids (c : limiter_call) : Prop :=
  when addressable (rid_of c) /\ when addressable (oid_of c) /\
  match c with CallGetRule id | CallGetOverride _ id => id <> "query" /\ id <> "match" | _ => True end.

Section Floats.
  Variable fmt_float : bool -> spec_float -> string.
  Variable parse_float : bool -> string -> option spec_float.

  (** The arguments of a call can be told in JSON (SpecModels.v) *)
  Definition plain_limiter_call (c : limiter_call) : Prop :=
    match c with
    | CallCreateRule r => plain_rule fmt_float parse_float r
    | CallCreateOverride _ o => plain_override fmt_float parse_float o
    | CallUpdateRule _ l | CallUpdateOverride _ _ l => plain_limit l
    | CallQueryRules q | CallQueryOverrides _ q | CallQueryCounters q => plain_query fmt_float parse_float q
    | CallMatchRules m | CallMatchOverrides _ m => plain_match fmt_float parse_float m
    | CallUpdateCounter x | CallSetCounters x => plain_counter fmt_float parse_float x
    | _ => True
    end.
  (** So can what is stored *)
  Definition plain_limiter (s : limiter) : Prop :=
    (forall i, In i (a_items (l_rules s)) -> text (it_id i) /\ plain_kv fmt_float parse_float (it_kv i)) /\
    (forall rid i, In i (belongings (l_over s) rid) -> text (m_id i) /\ plain_kv fmt_float parse_float (m_kv i)) /\
    (forall i, In i (a_items (l_counts s)) -> plain_kv fmt_float parse_float (it_kv i)).
End Floats.

(** ** Arguments and results: what is given with a rule, an override or a counter, and what is to be read from the one that
    is returned *)
Definition given_limit (s : option LimitSpec) : option (KeyValues * Z) :=
  match s with Some (mkLimitSpec (Some kv) (Some (Some l))) => Some (kv, l) | _ => None end.
Definition given_count (s : option CounterSpec) : option (KeyValues * Z) :=
  match s with Some (mkCounterSpec (Some kv) (Some (Some n))) => Some (kv, n) | _ => None end.
Definition shown_rule (f : string * KeyValues * Z) : ApiRule :=
  let '(id, kv, l) := f in {| ar_spec := Some {| ls_db := Some kv; ls_props := Some (Some l) |}; ar_state := Some (id, []) |}.
Definition shown_override (f : string * KeyValues * Z) : ApiOverride :=
  let '(id, kv, l) := f in {| ao_spec := Some {| ls_db := Some kv; ls_props := Some (Some l) |}; ao_state := Some (id, false) |}.
Definition shown_counter (f : KeyValues * Z) : ApiCounter :=
  let '(kv, n) := f in {| an_spec := Some {| cs_db := Some kv; cs_props := Some (Some n) |}; an_state := Some false |}.

(** ** What a call does to the service that it reaches, and what it returns ([None]: an error) *)
Definition accepted (r : limiter * lanswer) (got : lanswer -> option limiter_result) : limiter * option limiter_result := (fst r, got (snd r)).
Definition on_done (a : lanswer) : option limiter_result := match a with LDone => Some GotNothing | _ => None end.
Definition list_of {B} (got : list B -> limiter_result) (r : option (option (list B))) : option limiter_result :=
  match r with Some (Some l) => Some (got l) | _ => None end.
Definition rules_of (l : list (string * KeyValues * Z)) : limiter_result := GotRules (map (fun f => Some (shown_rule f)) l).
Definition overrides_of (l : list (string * KeyValues * Z)) : limiter_result := GotOverrides (map (fun f => Some (shown_override f)) l).
Definition counters_of (l : list (KeyValues * Z)) : limiter_result := GotCounters (map (fun f => Some (shown_counter f)) l).
Definition direct (s : limiter) (c : limiter_call) (id : string) (locked : bool) : limiter * option limiter_result :=
  match c with
  | CallCreateRule r =>
      match given_limit (ar_spec r) with
      | Some (kv, l) => accepted (CreateRule s kv id l) (fun a => match a with LCreated i => Some (GotRule (shown_rule (i, kv, l))) | _ => None end)
      | None => (s, None)
      end
  | CallGetRule rid => (s, match GetRule s rid with (Some (kv, l), _) => Some (GotRule (shown_rule (rid, kv, l))) | _ => None end)
  | CallQueryRules q => (s, list_of rules_of (QueryRules s (told q)))
  | CallMatchRules m => (s, list_of rules_of (MatchRules s m))
  | CallUpdateRule rid (Some l) => accepted (UpdateRule s rid l) on_done
  | CallDeleteRule rid => accepted (DeleteRule s rid) on_done
  | CallCreateOverride rid o =>
      match given_limit (ao_spec o) with
      | Some (kv, l) => accepted (CreateOverride s rid kv id l) (fun a => match a with LCreated i => Some (GotOverride (shown_override (i, kv, l))) | _ => None end)
      | None => (s, None)
      end
  | CallQueryOverrides rid q => (s, match QueryOverrides s rid (told q) with inr r => list_of overrides_of r | inl _ => None end)
  | CallMatchOverrides rid m => (s, match MatchOverrides s rid m with inr r => list_of overrides_of r | inl _ => None end)
  | CallGetOverride rid oid => (s, match GetOverride s rid oid with (Some (kv, l), _) => Some (GotOverride (shown_override (oid, kv, l))) | _ => None end)
  | CallUpdateOverride rid oid (Some l) => accepted (UpdateOverride s rid oid l) on_done
  | CallDeleteOverride rid oid => accepted (DeleteOverride s rid oid) on_done
  | CallUpdateCounter x =>
      match given_count (an_spec x) with Some (kv, n) => accepted (UpsertCounters s kv n id locked) on_done | None => (s, None) end
  | CallQueryCounters q => (s, option_map counters_of (QueryCounters s (told q)))
  | CallSetCounters x =>
      match given_count (an_spec x) with Some (kv, n) => accepted (SetCounters s kv n id) on_done | None => (s, None) end
  | _ => (s, None)
  end.
(** The outcome of a call: with an answer, or without *)
Definition carried_out (s : limiter) (c : limiter_call) (id : string) (locked : bool) (s' : limiter) (r : result limiter_result) : Prop :=
  let '(t, v) := direct s c id locked in
  s' = t /\ match v with Some x => r = Returned x | None => forall x, r <> Returned x end.

(** ** Histories of client calls *)
(** The key-values given have no NaN and distinct keys *)
Definition call_kv (c : limiter_call) : option KeyValues :=
  match c with
  | CallCreateRule r => option_map fst (given_limit (ar_spec r))
  | CallCreateOverride _ o => option_map fst (given_limit (ao_spec o))
  | CallUpdateCounter x | CallSetCounters x => option_map fst (given_count (an_spec x))
  | _ => None
  end.
Section Histories.
  Variable fmt_float : bool -> spec_float -> string.
  Variable parse_float : bool -> string -> option spec_float.
  Variable router : method -> string -> option lroute.

  Definition proper_call (c : limiter_call) : Prop := plain_limiter_call fmt_float parse_float c /\ reachable_ids c /\ when kv_arg (call_kv c).
  (** Any number of clients make calls, one after the other; requests and answers may be lost.  [used] are the ids drawn. *)
  Inductive client_history : limiter -> list string -> Prop :=
  | CH_new : client_history empty_limiter []
  | CH_call s used c id locked n : client_history s used -> proper_call c -> text id -> id <> "" -> ~ In id used ->
      client_history (fst (limiter_exchange fmt_float parse_float router s c id locked n)) (id :: used).
End Histories.

(** The error a client is given: the service's, unless the rule that was to be deleted, or whose overrides were asked for,
    is not there, or the service crashed on the query *)
Definition rule_missing (s : limiter) (rid : string) : Prop := forall kv n, ~ has_rule s rid kv n.
Definition unheard (s : limiter) (c : limiter_call) : Prop :=
  match c with
  | CallDeleteRule rid => rule_missing s rid
  | CallQueryRules q => QueryRules s (told q) = None
  | CallMatchRules m => MatchRules s m = None
  | CallQueryOverrides rid q => rule_missing s rid \/ QueryOverrides s rid (told q) = inr None
  | CallMatchOverrides rid m => rule_missing s rid \/ MatchOverrides s rid m = inr None
  | CallQueryCounters q => QueryCounters s (told q) = None
  | _ => False
  end.
Definition told_why (s : limiter) (c : limiter_call) (r : result limiter_result) : Prop :=
  r = ServiceError message \/ (r = OtherError /\ unheard s c).

(** ** What a handler may pass on *)
Definition valid_task (t : ltask) : Prop :=
  match t with
  | TCreateRule kv l | TCreateOverride _ kv l => kv_valid kv /\ -1 <= l
  | TUpdateRule _ l | TUpdateOverride _ _ l => -1 <= l
  | TUpsertCounters kv _ | TSetCounters kv _ => kv_valid kv /\ forall k v, In (k, v) kv -> v <> Any
  | TQueryRules q | TQueryOverrides _ q | TQueryCounters q => q_validate q = true
  | TMatchRules m | TMatchOverrides _ m => mq_validate m = true
  | _ => True
  end.
