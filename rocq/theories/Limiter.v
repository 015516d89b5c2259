(** Model of internal/limiter: rules, overrides and counters, one request at a time.  No proofs in this file.
    The trees are those of [Assoc.v] and [OneToMany.v].  A request that overlaps the destruction of a rule (409) is not
    modelled.  The locks an increment takes from the locker service are a parameter here ([locked]: all were obtained
    and kept); [LimiterLocks.v] models several increments taking them at the same time.  Generated ids are parameters. *)
From Verif Require Import Datatypes Collections Query Assoc OneToMany.
Local Open Scope Z_scope.

(** int64 arithmetic wraps around *)
Definition i64 (z : Z) : Z := (z + 2 ^ 63) mod 2 ^ 64 - 2 ^ 63.

(** rules_client_local.go:27-36, overrides_client_local.go:26-32, counter_client_local.go:25-34; a rule and an override
    hold their limit, a counter its count (rules/memory/rule.go, overrides/memory/memory_override.go,
    counters/memory/counter.go) *)
Record limiter := mkLimiter { l_rules : atree Z; l_over : otm Z; l_counts : atree Z }.
Definition empty_limiter : limiter := mkLimiter (mkTree [] []) [] (mkTree [] []).
Definition with_rules (s : limiter) (t : atree Z) : limiter := mkLimiter t (l_over s) (l_counts s).
Definition with_over (s : limiter) (m : otm Z) : limiter := mkLimiter (l_rules s) m (l_counts s).
Definition with_counts (s : limiter) (t : atree Z) : limiter := mkLimiter (l_rules s) (l_over s) t.

(** What a request answers: 201 with an id, 200/204, 409, 400, 404, 500 *)
Inductive lanswer := LCreated (id : string) | LDone | LConflict | LBad | LMissing | LFailed.

(** ** Rules *)
(** rule.go:78-105: key-values [min, max] with Any, limit at least -1 *)
Definition definition_ok (kv : KeyValues) (limit : Z) : bool := kv_validate kv MinDataType MaxDataType && (-1 <=? limit).
(** rules_handler.go:17-41, rules_client_local.go:50-79 [CreateRule] *)
Definition CreateRule (s : limiter) (kv : KeyValues) (id : string) (limit : Z) : limiter * lanswer :=
  if negb (definition_ok kv limit) then (s, LBad)
  else
    let '(t, r) := Create (l_rules s) kv id (Some limit) in
    (with_rules s t, match r with RId i => LCreated i | RExists => LConflict | _ => LFailed end).
(** The lookup of a rule by id, e.g. rules_client_local.go:217: QueryAction with [StringToAssociatedActionQuery]; the
    callback sees the first item.  Outer [None]: error. *)
Definition find_rule (s : limiter) (id : string) : option (option (item Z)) :=
  match QueryAction (l_rules s) (StringToQuery id) (fun (_ : option (item Z)) i => (Some i, false)) None with
  | Some (Some r) => Some r
  | _ => None
  end.
(** rules_client_local.go:149-195 [GetRule]; the answer is the key-values and the limit *)
Definition GetRule (s : limiter) (id : string) : option (KeyValues * Z) * lanswer :=
  match find_rule s id with
  | Some (Some i) => (Some (it_kv i, it_val i), LDone)
  | Some None => (None, LMissing)
  | None => (None, LFailed)
  end.
(** rules_client_local.go:197-233 [UpdateRule] with rules/memory/rule.go:29-35 and the validation of the limit *)
Definition UpdateRule (s : limiter) (id : string) (limit : Z) : limiter * lanswer :=
  if limit <? -1 then (s, LBad)
  else match find_rule s id with
       | Some (Some i) => (with_rules s (update_value (l_rules s) (it_id i) (fun _ => limit)), LDone)
       | Some None => (s, LMissing)
       | None => (s, LFailed)
       end.
(** rules_client_local.go:235-272 [DeleteRule]: the canDelete callback, called on the rule if it is there, destroys its
    overrides (overrides_client_local.go:253-280; no override refuses) *)
Definition DeleteRule (s : limiter) (id : string) : limiter * lanswer :=
  let '(t, r) := DestroyByAssociatedID (l_rules s) id (fun _ => true) in
  match r with
  | ROk =>
      match find_item (a_items (l_rules s)) id with
      | Some _ => (mkLimiter t (fst (OtmDestroyOne (l_over s) id (fun _ => true))) (l_counts s), LDone)
      | None => (with_rules s t, LMissing)
      end
  | _ => (with_rules s t, LFailed)
  end.

(** ** Overrides *)
(** rules_client_local.go:274-311 [CreateOverride], overrides_client_local.go:46-75 *)
Definition CreateOverride (s : limiter) (rid : string) (kv : KeyValues) (id : string) (limit : Z) : limiter * lanswer :=
  if negb (definition_ok kv limit) then (s, LBad)
  else match find_rule s rid with
       | Some (Some rule) =>
           if forallb (fun k => match kv_get kv k with Some _ => true | None => false end) (kv_keys (it_kv rule)) then
             let '(m, r) := OtmCreateOrFind (l_over s) rid kv id (Some limit) in
             (with_over s m, match r with RId i => LCreated i | RFound _ => LConflict | _ => LFailed end)
           else (s, LBad)
       | Some None => (s, LMissing)
       | None => (s, LFailed)
       end.
(** the lookup of an override by id, e.g. overrides_client_local.go:205 *)
Definition find_override (s : limiter) (rid id : string) : option (option (many Z)) :=
  match OtmQueryAction (l_over s) rid (StringToQuery id) (fun (_ : option (many Z)) i => (Some i, false)) None with
  | Some (Some r) => Some r
  | _ => None
  end.
(** rules_client_local.go:375-407 and overrides_client_local.go:77-116 [GetOverride] *)
Definition GetOverride (s : limiter) (rid id : string) : option (KeyValues * Z) * lanswer :=
  match find_rule s rid with
  | Some (Some _) =>
      match find_override s rid id with
      | Some (Some i) => (Some (m_kv i, m_val i), LDone)
      | Some None => (None, LMissing)
      | None => (None, LFailed)
      end
  | Some None => (None, LMissing)
  | None => (None, LFailed)
  end.
(** rules_client_local.go:409-439 and overrides_client_local.go:196-219 [UpdateOverride] *)
Definition UpdateOverride (s : limiter) (rid id : string) (limit : Z) : limiter * lanswer :=
  if limit <? -1 then (s, LBad)
  else match find_rule s rid with
       | Some (Some _) =>
           match find_override s rid id with
           | Some (Some i) => (with_over s (otm_update (l_over s) rid (m_id i) (fun _ => limit)), LDone)
           | Some None => (s, LMissing)
           | None => (s, LFailed)
           end
       | Some None => (s, LMissing)
       | None => (s, LFailed)
       end.
(** rules_client_local.go:441-467 [DeleteOverride], overrides_client_local.go:221-251 [DestroyOverride] *)
Definition DeleteOverride (s : limiter) (rid id : string) : limiter * lanswer :=
  match find_rule s rid with
  | Some (Some _) =>
      let '(m, r) := OtmDestroyByID (l_over s) rid id (fun _ => true) in
      (with_over s m, match r with ROk => LDone | _ => LFailed end)
  | Some None => (s, LMissing)
  | None => (s, LFailed)
  end.

(** ** Limits *)
Record override := mkOverride { o_id : string; o_kv : KeyValues; o_limit : Z }.
Record found_rule := mkFound { f_id : string; f_kv : KeyValues; f_limit : Z; f_over : list override }.
(** overrides_client_local.go:282-320 [FindOverrideLimits]: stops after an override with limit 0; [None] = error *)
Definition FindOverrideLimits (s : limiter) (rid : string) (kv : KeyValues) : option (list override) :=
  match OtmMatchAction (l_over s) rid (AnyMatchQuery kv)
          (fun acc i => (acc ++ [mkOverride (m_id i) (m_kv i) (m_val i)], negb (m_val i =? 0))) [] with
  | Some (Some l) => Some l
  | _ => None
  end.
(** rules_client_local.go:469-529 [FindLimits]; the callback's state is the rules found so far, [None] after an error *)
Definition last_limit (l : list override) : Z := match rev l with o :: _ => o_limit o | [] => 0 end.
Definition find_step (s : limiter) (kv : KeyValues) (acc : option (list found_rule)) (i : item Z) : option (list found_rule) * bool :=
  match acc with
  | None => (None, false)
  | Some l =>
      match FindOverrideLimits s (it_id i) kv with
      | None => (None, false)
      | Some os =>
          let r := mkFound (it_id i) (it_kv i) (it_val i) os in
          (Some (l ++ [r]),
           match os with
           | [] => negb (it_val i =? 0)
           | _ => negb ((it_val i =? 0) && (last_limit os =? 0))
           end)
      end
  end.
Definition FindLimits (s : limiter) (kv : KeyValues) : option (list found_rule) :=
  match MatchAction (l_rules s) (AnyMatchQuery kv) (find_step s kv) (Some []) with
  | Some (Some r) => r
  | _ => None
  end.

(** ** Counters *)
(** the zero EncapsulatedValue of a missing map entry *)
Definition value_of (kv : KeyValues) (k : string) : EV := match kv_get kv k with Some v => v | None => mkEV 0 PNil end.
(** counter_client_local.go:240-257, the query of [checkCounters]: the rule's keys with the counter's values *)
Definition group_query (keys : list string) (kv : KeyValues) : Query :=
  Q (Some (mkSel [] (map (fun k => (k, mkVQ (value_of kv k) CEquals (mkTR (ev_type (value_of kv k)) (ev_type (value_of kv k))))) keys) None None)) None None.
(** counter_client_local.go:237-276 [checkCounters]; [None] = error, [Some false] = limit reached *)
Definition checkCounters (counts : atree Z) (keys : list string) (kv : KeyValues) (limit : Z) : option bool :=
  match QueryAction counts (group_query keys kv) (fun sum i => let sum' := i64 (sum + it_val i) in (sum', sum' <? limit)) 0 with
  | Some (Some sum) => Some (negb (limit <=? sum))
  | _ => None
  end.
(** the limits to check, counter_client_local.go:190-215: (keys, limit) *)
Definition limits_of (r : found_rule) : list (list string * Z) :=
  match f_over r with
  | [] => [(kv_keys (f_kv r), f_limit r)]
  | os => map (fun o => (kv_keys (o_kv o), o_limit o)) os
  end.
Fixpoint check_all (counts : atree Z) (kv : KeyValues) (l : list (list string * Z)) : lanswer :=
  match l with
  | [] => LDone
  | (keys, limit) :: r =>
      if limit =? -1 then check_all counts kv r
      else match checkCounters counts keys kv limit with
           | Some true => check_all counts kv r
           | Some false => LConflict
           | None => LFailed
           end
  end.
(** counter_client_local.go:87-125: the last rule or override is 0; all are unlimited *)
Definition last_is_zero (rules : list found_rule) : bool :=
  match rev rules with
  | [] => false
  | r :: _ => match f_over r with [] => f_limit r =? 0 | os => last_limit os =? 0 end
  end.
Definition all_unlimited (rules : list found_rule) : bool := forallb (fun p => snd p =? -1) (flat_map limits_of rules).
(** counter_client_local.go:78-235 [IncrementCounters]; step 7 is [add_count] *)
Definition add_count (counts : atree Z) (kv : KeyValues) (n : Z) (id : string) : atree Z * lanswer :=
  match CreateOrFind counts kv id (Some n) with
  | (t, RId _) => (t, LDone)
  | (t, RFound i) => (update_value t (it_id i) (fun c => i64 (c + n)), LDone)
  | (t, _) => (t, LFailed)
  end.
Definition decide (s : limiter) (kv : KeyValues) (locked : bool) : lanswer :=
  match FindLimits s kv with
  | None => LFailed
  | Some [] => LDone
  | Some rules =>
      if last_is_zero rules then LConflict
      else if all_unlimited rules then LDone
      else if locked then check_all (l_counts s) kv (flat_map limits_of rules)
      else LFailed
  end.
Definition IncrementCounters (s : limiter) (kv : KeyValues) (n : Z) (id : string) (locked : bool) : limiter * lanswer :=
  match decide s kv locked with
  | LDone => let '(t, a) := add_count (l_counts s) kv n id in (with_counts s t, a)
  | a => (s, a)
  end.
(** counter_client_local.go:278-296 [DecrementCounters]: the canDelete callback adds the (negative) number in place
    and lets the counter be deleted if the result is not positive *)
Definition DecrementCounters (s : limiter) (kv : KeyValues) (n : Z) : limiter * lanswer :=
  let counts := match delete_target (l_counts s) kv with
                | Some i => update_value (l_counts s) (it_id i) (fun c => i64 (c + n))
                | None => l_counts s
                end in
  let '(t, r) := Delete counts kv (fun i => it_val i <=? 0) in
  (with_counts s t, match r with ROk => LDone | _ => LFailed end).
(** counters_handler.go:18-63 [UpsertCounters] with the validation of counter.go:66-72: no Any *)
Definition UpsertCounters (s : limiter) (kv : KeyValues) (n : Z) (id : string) (locked : bool) : limiter * lanswer :=
  if negb (kv_validate kv MinDataType MaxWithoutAnyDataType) then (s, LBad)
  else if 0 <? n then IncrementCounters s kv n id locked
  else DecrementCounters s kv n.
(** counters_handler.go:90-110 [SetCounters], counter_client_local.go:298-330 [SetCounter] *)
Definition SetCounters (s : limiter) (kv : KeyValues) (n : Z) (id : string) : limiter * lanswer :=
  if negb (kv_validate kv MinDataType MaxWithoutAnyDataType) then (s, LBad)
  else if n <=? 0 then
    let '(t, r) := Delete (l_counts s) kv (fun _ => true) in (with_counts s t, match r with ROk => LDone | _ => LFailed end)
  else
    match CreateOrFind (l_counts s) kv id (Some n) with
    | (t, RId _) => (with_counts s t, LDone)
    | (t, RFound i) => (with_counts s (update_value t (it_id i) (fun _ => n)), LDone)
    | (t, _) => (with_counts s t, LFailed)
    end.
(** counter_client_local.go:44-76 [QueryCounters]: the key-values and counts offered; [None] = error or crash *)
Definition QueryCounters (s : limiter) (q : Query) : option (list (KeyValues * Z)) :=
  match QueryAction (l_counts s) q (fun acc i => (acc ++ [(it_kv i, it_val i)], true)) [] with
  | Some (Some l) => Some l
  | _ => None
  end.
