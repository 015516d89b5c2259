(** Which calls of the clients are sent: those whose arguments are in order. *)
From Coq Require Import String List Bool ZArith.
Import ListNotations.
From Verif Require Import Datatypes SpecValues Query SpecQuery Assoc SpecAssoc Limiter Channel Willow Json Models SpecModels Http ApiLimiter SpecApiLimiter ApiWillow SpecApiWillow.
Local Open Scope Z_scope.
Local Open Scope string_scope.

(** Key-values of counters, items and locks: valid, and none is the type Any *)
Definition definite (kv : KeyValues) : Prop := kv_valid kv /\ forall k v, In (k, v) kv -> v <> Any.
Definition sound_limit (s : option LimitSpec) : Prop := exists kv l, s = Some (mkLimitSpec (Some kv) (Some (Some l))) /\ kv_valid kv /\ -1 <= l.
Definition sound_counter (x : ApiCounter) : Prop := exists kv n, an_spec x = Some (mkCounterSpec (Some kv) (Some (Some n))) /\ definite kv.
(** Arguments in order: key-values that are valid, limits of at least -1, queries that are well formed *)
Definition sound_limiter_call (c : limiter_call) : Prop :=
  match c with
  | CallCreateRule r => sound_limit (ar_spec r) /\ ar_state r = None
  | CallCreateOverride _ o => sound_limit (ao_spec o)
  | CallUpdateRule _ l | CallUpdateOverride _ _ l => exists z, l = Some z /\ -1 <= z
  | CallQueryRules q | CallQueryOverrides _ q | CallQueryCounters q => query_ok q
  | CallMatchRules m | CallMatchOverrides _ m => mq_validate m = true
  | CallUpdateCounter x | CallSetCounters x => sound_counter x
  | _ => True
  end.
(** For items: some data, all properties, and a position that is front or back *)
Definition sound_item (i : ApiItem) : Prop :=
  exists kv d u r p t, i = mkApiItem (Some (mkItemSpec (Some kv) (Some (mkItemProperties d (Some u) (Some r) (Some p) (Some t))))) None /\
    definite kv /\ d <> "" /\ (p = "front" \/ p = "back").
Definition sound_willow_call (c : willow_call) : Prop :=
  match c with
  | CallCreateQueue q => exists name m, q = mkApiQueue (Some (mkQueueSpec (Some (Some name)) (Some (mkQueueProperties (Some m))))) None /\ name <> ""
  | CallUpdateQueue _ p => exists m, p = mkQueueProperties (Some m)
  | CallGetQueue _ q | CallDequeue _ q => query_ok q
  | CallEnqueue _ i => sound_item i
  | CallDeleteChannel _ kv => definite kv
  | CallAck _ item kv _ => item <> "" /\ definite kv
  | _ => True
  end.
