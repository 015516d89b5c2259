(** Specification vocabulary for the limiter. *)
From Verif Require Import Datatypes SpecValues Query SpecQuery Assoc SpecAssoc OneToMany SpecOneToMany Limiter.
Local Open Scope Z_scope.

Definition int64 (z : Z) : Prop := - 2 ^ 63 <= z < 2 ^ 63.

(** What is stored. *)
Definition has_rule (s : limiter) (id : string) (kv : KeyValues) (limit : Z) : Prop := In (mkItem id kv limit) (a_items (l_rules s)).
Definition has_override (s : limiter) (rid id : string) (kv : KeyValues) (limit : Z) : Prop := In (mkMany limit rid id kv) (belongings (l_over s) rid).
Definition has_count (s : limiter) (kv : KeyValues) (n : Z) : Prop := exists id kv', In (mkItem id kv' n) (a_items (l_counts s)) /\ kv_same kv' kv.

(** A group-by covers key-values: each of its keys is there, with an equal value or asked for as Any. *)
Definition covers (g kv : KeyValues) : Prop :=
  forall k m, kv_get g k = Some m -> exists v, kv_get kv k = Some v /\ (m = Any \/ same_value m v).
(** A limit that governs counters with key-values [kv]: that of a covering override, or that of a covering rule
    without covering override. *)
Definition governs (s : limiter) (kv g : KeyValues) (limit : Z) : Prop :=
  exists rid rkv rlimit, has_rule s rid rkv rlimit /\ covers rkv kv /\
    ((exists oid, has_override s rid oid g limit /\ covers g kv) \/
     (g = rkv /\ limit = rlimit /\ forall oid okv olimit, has_override s rid oid okv olimit -> ~ covers okv kv)).

(** The counters that have the values of [kv] for the keys of [g], and their sum. *)
Definition in_group (g kv kv' : KeyValues) : Prop :=
  forall k, In k (kv_keys g) -> exists v v', kv_get kv k = Some v /\ kv_get kv' k = Some v' /\ same_value v' v.
Definition sum_of (l : list (item Z)) : Z := fold_right Z.add 0 (map it_val l).
Definition group_total (s : limiter) (g kv : KeyValues) (total : Z) : Prop :=
  exists l, NoDup l /\ (forall i, In i l <-> In i (a_items (l_counts s)) /\ in_group g kv (it_kv i)) /\ total = sum_of l.
(** No sum of counters can overflow. *)
Definition counts_fit (s : limiter) : Prop := (forall i, In i (a_items (l_counts s)) -> 0 < it_val i) /\ sum_of (a_items (l_counts s)) < 2 ^ 63.

(** Requests that change the limiter. *)
Inductive lop :=
| LCreateRule (kv : KeyValues) (id : string) (limit : Z)
| LUpdateRule (id : string) (limit : Z)
| LDeleteRule (id : string)
| LCreateOverride (rid : string) (kv : KeyValues) (id : string) (limit : Z)
| LUpdateOverride (rid id : string) (limit : Z)
| LDeleteOverride (rid id : string)
| LUpsert (kv : KeyValues) (n : Z) (id : string) (locked : bool)
| LSet (kv : KeyValues) (n : Z) (id : string).
Definition lrun (s : limiter) (x : lop) : limiter * lanswer :=
  match x with
  | LCreateRule kv id limit => CreateRule s kv id limit
  | LUpdateRule id limit => UpdateRule s id limit
  | LDeleteRule id => DeleteRule s id
  | LCreateOverride rid kv id limit => CreateOverride s rid kv id limit
  | LUpdateOverride rid id limit => UpdateOverride s rid id limit
  | LDeleteOverride rid id => DeleteOverride s rid id
  | LUpsert kv n id locked => UpsertCounters s kv n id locked
  | LSet kv n id => SetCounters s kv n id
  end.
(** the id a request may draw from the generator *)
Definition lop_id (x : lop) : option string :=
  match x with LCreateRule _ id _ | LCreateOverride _ _ id _ | LUpsert _ _ id _ | LSet _ _ id => Some id | _ => None end.
(** the arguments are Go values without NaN *)
Definition lop_arg (x : lop) : Prop :=
  match x with
  | LCreateRule kv _ n | LCreateOverride _ kv _ n | LUpsert kv n _ _ | LSet kv n _ => kv_arg kv /\ int64 n
  | LUpdateRule _ n | LUpdateOverride _ _ n => int64 n
  | _ => True
  end.
(** All histories. *)
Inductive lreach : limiter -> list string -> Prop :=
| LR_new : lreach empty_limiter []
| LR_step s used x : lreach s used -> lop_arg x ->
    (forall id, lop_id x = Some id -> ~ In id used /\ id <> EmptyString) ->
    lreach (fst (lrun s x)) (match lop_id x with Some id => id :: used | None => used end).

(** Key-values a counter may have: valid and without Any. *)
Definition counter_kv (kv : KeyValues) : Prop := kv_arg kv /\ kv_valid kv /\ forall k v, In (k, v) kv -> v <> Any.

(** [z] stored in an int64. *)
Definition wraps (z m : Z) : Prop := int64 m /\ exists k, m = z + k * 2 ^ 64.

(** Histories in which the counters of one group are only changed by increments of at most [most] and by decrements,
    the limit governing each of these increments when it is made (and no sum of counters overflowing then). *)
Inductive group_run (g kv : KeyValues) (limit most : Z) : limiter -> list string -> Prop :=
| GR_start s used : lreach s used ->
    (forall i, In i (a_items (l_counts s)) -> in_group g kv (it_kv i) -> 0 < it_val i) ->
    (forall total, group_total s g kv total -> total <= limit + most - 1) -> group_run g kv limit most s used
| GR_step s used x : group_run g kv limit most s used -> lop_arg x ->
    (forall id, lop_id x = Some id -> ~ In id used /\ id <> EmptyString) ->
    (forall kv' n id locked, x = LUpsert kv' n id locked -> in_group g kv kv' -> n <= most /\ (0 < n -> governs s kv' g limit /\ counts_fit s)) ->
    (forall kv' n id, x = LSet kv' n id -> ~ in_group g kv kv') ->
    group_run g kv limit most (fst (lrun s x)) (match lop_id x with Some id => id :: used | None => used end).

(** Histories of [m] requests in which no counter is set, increments are by one, and a limit governs each increment of
    the group when it is made. *)
Inductive unit_run (g kv : KeyValues) (limit : Z) : nat -> limiter -> list string -> Prop :=
| UR_new : unit_run g kv limit 0 empty_limiter []
| UR_step m s used x : unit_run g kv limit m s used -> lop_arg x ->
    (forall id, lop_id x = Some id -> ~ In id used /\ id <> EmptyString) ->
    (forall kv' n id locked, x = LUpsert kv' n id locked -> n <= 1 /\ (0 < n -> in_group g kv kv' -> governs s kv' g limit)) ->
    (forall kv' n id, x <> LSet kv' n id) ->
    unit_run g kv limit (S m) (fst (lrun s x)) (match lop_id x with Some id => id :: used | None => used end).
