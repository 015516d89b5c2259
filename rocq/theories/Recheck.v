(** Model of the check a channel makes while it is held back by a limit:
    internal/willow/brokers/queue_channels/memory/memory_queue_channel.go:182-310, with the three requests to the limiter
    it is made of.  No proofs in this file.
    The requests are made one after the other and other requests may come between them: [sts n] is the limiter at the
    [n]-th request of the check.  Each request is one step of the limiter, as in [Limiter.v]; the network, and the
    encodings of requests and answers, are not modelled.  [None] stands for an error, which the channel answers with a
    panic that ends the process (memory_queue_channel.go:195-197, :203-205, :240-242, :286-288). *)
From Verif Require Import Datatypes Collections Query Assoc OneToMany Limiter Willow.
Local Open Scope Z_scope.

(** rules_handler.go:69-94 and rules_client_local.go:116-147 [MatchRules]: the id, group-by and limit of each rule *)
Definition MatchRules (s : limiter) (kv : KeyValues) : option (list (string * KeyValues * Z)) :=
  match MatchAction (l_rules s) (AnyMatchQuery kv) (fun acc i => (acc ++ [(it_id i, it_kv i, it_val i)], true)) [] with
  | Some (Some l) => Some l
  | _ => None
  end.
(** overrides_handler.go:72-95, rules_client_local.go:345-373 and overrides_client_local.go:158-194 [MatchOverrides];
    a rule that is no longer there is an error (404) *)
Definition MatchOverrides (s : limiter) (rid : string) (kv : KeyValues) : option (list override) :=
  match find_rule s rid with
  | Some (Some _) =>
      match OtmMatchAction (l_over s) rid (AnyMatchQuery kv) (fun acc i => (acc ++ [mkOverride (m_id i) (m_kv i) (m_val i)], true)) [] with
      | Some (Some l) => Some l
      | _ => None
      end
  | _ => None
  end.
(** memory_queue_channel.go:222-237 and :268-283: the query for the counters, from the group-by of the rule or override *)
Definition own_query (g : KeyValues) : Query :=
  Q (Some (mkSel [] (map (fun p => (fst p, mkVQ (snd p) CEquals (mkTR (ev_type (snd p)) (ev_type (snd p))))) g) None None)) None None.
(** memory_queue_channel.go:244-251 and :290-297: the counts are added up until the limit is reached *)
Fixpoint adds_up (limit total : Z) (l : list (KeyValues * Z)) : bool :=
  match l with
  | [] => false
  | (_, n) :: r => let total' := i64 (total + n) in if limit <=? total' then true else adds_up limit total' r
  end.
(** counters_handler.go:66-88 and :239-251, :285-297: one such query and its sum; the query is validated on both sides *)
Definition own_reached (s : limiter) (g : KeyValues) (limit : Z) : option bool :=
  if q_validate (own_query g) then
    match QueryCounters s (own_query g) with
    | Some l => Some (adds_up limit 0 l)
    | None => None
    end
  else None.

(** memory_queue_channel.go:255-300: the loop over the overrides of a rule; [under] is underLimit so far.  The answer has
    the number of the next request. *)
Fixpoint overrides_under (sts : nat -> limiter) (n : nat) (under : bool) (os : list override) : option (bool * nat) :=
  match os with
  | [] => Some (under, n)
  | o :: r =>
      if o_limit o =? 0 then Some (false, n)
      else if o_limit o =? -1 then overrides_under sts n under r
      else match own_reached (sts n) (o_kv o) (o_limit o) with
           | None => None
           | Some true => overrides_under sts (S n) false r
           | Some false => overrides_under sts (S n) under r
           end
  end.
(** memory_queue_channel.go:200-306: the loop over the rules *)
Fixpoint rules_under (sts : nat -> limiter) (n : nat) (kv : KeyValues) (rules : list (string * KeyValues * Z)) : option bool :=
  match rules with
  | [] => Some true
  | (rid, g, limit) :: r =>
      match MatchOverrides (sts n) rid kv with
      | None => None
      | Some [] =>
          if limit =? 0 then Some false
          else if limit =? -1 then rules_under sts (S n) kv r
          else match own_reached (sts (S n)) g limit with
               | None => None
               | Some true => Some false
               | Some false => rules_under sts (S (S n)) kv r
               end
      | Some os =>
          match overrides_under sts (S n) true os with
          | None => None
          | Some (false, _) => Some false
          | Some (true, n') => rules_under sts n' kv r
          end
      end
  end.
(** memory_queue_channel.go:182-313: is the channel let go ([Some true]), or does it wait 5 seconds and check again
    ([Some false])?  The key-values are those a dequeue of the channel increments (:183-189, :585-592). *)
Definition Recheck (sts : nat -> limiter) (name : string) (kv : KeyValues) : option bool :=
  let errored := running_kv name kv in
  match MatchRules (sts 0%nat) errored with
  | None => None
  | Some rules => rules_under sts 1 errored rules
  end.
