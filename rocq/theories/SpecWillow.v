(** Specification vocabulary for the willow service with its limiter. *)
From Coq Require Import String List Bool Arith NArith ZArith.
Import ListNotations.
From Verif Require Import Datatypes SpecValues Query SpecQuery Assoc SpecAssoc OneToMany SpecOneToMany Limiter SpecLimiter Channel SpecChannel Willow.
Local Open Scope Z_scope.

(** ** What is stored *)
(** The channels of a queue, those being deleted excepted, and the number of items stored in them *)
Definition channels (w : willow) (name : string) : list (many channel) :=
  filter (fun ch => match rem (m_val ch) with RNo => true | _ => false end) (belongings (w_chans w) name).
Definition stored_in (w : willow) (name : string) : nat := list_sum (map (fun ch => number_stored (m_val ch)) (channels w name)).
(** The count that the limiter keeps for a queue: the sum of the counters with the queue's name and the mark of stored items *)
Definition queue_total (w : willow) (name : string) (total : Z) : Prop := group_total (w_lim w) (queue_kv name) (queue_kv name) total.

(** ** Histories *)
(** Arguments are Go values without NaN *)
Definition wop_arg (o : wop) : Prop :=
  match o with
  | WCreateQueue _ (Some m) | WUpdateQueue _ m => int64 m
  | WEnqueue _ kv _ _ | WAck _ kv _ _ | WBeat _ kv _ | WDeleteChannel _ kv | WExpire _ kv => kv_arg kv
  | WLimiter x => lop_arg x
  | _ => True
  end.
(** Channel keys that do not clash with the keys willow makes itself *)
Definition plain (kv : KeyValues) : Prop :=
  forall k v, In (k, v) kv -> k <> "queue_name"%string /\ k <> "enqueued"%string /\ k <> "_willow_enqueued"%string.
(** Requests as they should be: limits are at least -1, channel keys are plain, and other clients of the limiter leave
    willow's rule, its overrides and the counters of stored items alone *)
Definition tame (rule : string) (o : wop) : Prop :=
  match o with
  | WCreateQueue _ max => exists m, max = Some m /\ -1 <= m
  | WUpdateQueue _ m => -1 <= m
  | WEnqueue _ kv _ _ => plain kv
  | WLimiter (LUpdateRule id _) | WLimiter (LDeleteRule id) => id <> rule /\ id <> EmptyString
  | WLimiter (LCreateOverride rid _ _ _) | WLimiter (LUpdateOverride rid _ _) => rid <> rule
  | WLimiter (LDeleteOverride rid id) => rid <> rule /\ id <> EmptyString
  | WLimiter (LUpsert kv _ _ _) | WLimiter (LSet kv _ _) => ~ In EnqueuedKey (kv_keys kv)
  | _ => True
  end.
(** What a step can add to the limiter's counters *)
Definition cost (o : wop) : Z :=
  match o with WLimiter (LUpsert _ n _ _) | WLimiter (LSet _ n _) => Z.max 0 n | WLimiter _ => 0 | _ => 1 end.
(** The ids that may be drawn from the generators in a step, none drawn before *)
Definition drawn (o : wop) (e : env) : list string :=
  e_id e :: e_id2 e :: match o with WLimiter x => match lop_id x with Some id => [id] | None => [] end | _ => [] end.
Definition fresh (used l : list string) : Prop := NoDup l /\ forall x, In x l -> ~ In x used /\ x <> EmptyString.
(** One step of a history *)
Definition good_step (w : willow) (used : list string) (o : wop) (e : env) (w' : willow) (a : wans) : Prop :=
  wop_arg o /\ tame (w_rule w) o /\ fresh used (drawn o e) /\ wstep w o e = Some (w', a).
(** Histories: willow starts with a limiter that has been used by others, whose counters sum up to at most [k]; all
    counting afterwards is included in [k] *)
Inductive wreach : Z -> willow -> list string -> Prop :=
| WR_start k s used id w : lreach s used -> (forall i, In i (a_items (l_counts s)) -> 0 < it_val i) -> sum_of (a_items (l_counts s)) <= k ->
    fresh used [id] -> start s id = Some w -> wreach k w (id :: used)
| WR_step k w used o e w' a : wreach k w used -> good_step w used o e w' a -> wreach (k + cost o) w' (drawn o e ++ used).
(** The same, the limit of no queue being lowered *)
Definition keeps_limits (w : willow) (o : wop) : Prop :=
  match o with
  | WUpdateQueue name m => forall m0, fst (GetQueue w name) = Some m0 -> m = -1 \/ (m0 <> -1 /\ m0 <= m)
  | _ => True
  end.
Inductive wreach_up : Z -> willow -> list string -> Prop :=
| WU_start k s used id w : lreach s used -> (forall i, In i (a_items (l_counts s)) -> 0 < it_val i) -> sum_of (a_items (l_counts s)) <= k ->
    fresh used [id] -> start s id = Some w -> wreach_up k w (id :: used)
| WU_step k w used o e w' a : wreach_up k w used -> keeps_limits w o -> good_step w used o e w' a -> wreach_up (k + cost o) w' (drawn o e ++ used).
(** The queue a step is about: that of the request, or of the channel whose background work goes on *)
Definition about (w : willow) (o : wop) (name : string) : Prop :=
  match o with
  | WCreateQueue n _ | WUpdateQueue n _ | WDeleteQueue n | WDropQueue n | WEnqueue n _ _ _ | WAck n _ _ _ | WBeat n _ _ | WDeleteChannel n _ | WExpire n _
  | WTick n _ _ | WClose n _ => name = n
  | WOld n _ => exists kv c, nth_error (w_old w) n = Some (name, kv, c)
  | WLimiter _ => False
  end.
(** Histories with any requests to willow that its API accepts, no other client using the limiter and the limit of no queue being lowered *)
Definition own_request (o : wop) : Prop := match o with WLimiter _ => False | _ => True end.
Inductive whist : willow -> list string -> Prop :=
| WH_start id w : fresh [] [id] -> start empty_limiter id = Some w -> whist w [id]
| WH_step w used o e w' a : whist w used -> wop_arg o -> own_request o -> keeps_limits w o -> fresh used (drawn o e) -> wstep w o e = Some (w', a) -> whist w' (drawn o e ++ used).
