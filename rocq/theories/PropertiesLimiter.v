(** Properties C32-C36: the limiter's rules, overrides and counters. *)
From Coq Require Import Relations.
From Verif Require Import Datatypes SpecValues Query SpecQuery Assoc SpecAssoc AssocMaps OneToMany SpecOneToMany Limiter SpecLimiter LimiterSums PropLemmasLimiter PropLemmasRules PropLemmasUnit
  LimiterLocks SpecLocks LocksProofs LocksLimit LimiterExamples.
Local Open Scope Z_scope.

(** ** C32: limits *)
(** C32: with increments by one and decrements only (fewer than 2^63 requests), the sum of the counters of a group never exceeds
    a limit that governed the increments. *)
Theorem C32_unit : forall g kv limit m s used,
  counter_kv kv -> 0 <= limit < 2 ^ 63 -> Z.of_nat m < 2 ^ 63 -> unit_run g kv limit m s used ->
  forall total, group_total s g kv total -> 0 <= total <= limit.
Proof. exact c32_unit. Qed.
Print Assumptions C32_unit.
(** C32: with increments by at most [most] it is exceeded by less than [most]. *)
Theorem C32_bulk : forall g kv limit most s used,
  counter_kv kv -> 0 <= limit -> 0 < most -> limit + most <= 2 ^ 63 -> group_run g kv limit most s used ->
  forall total, group_total s g kv total -> 0 <= total <= limit + most - 1.
Proof. exact c32_bulk. Qed.
Print Assumptions C32_bulk.
(** C32: the same holds for any interleaving of concurrent increments while no lock is lost. *)
Theorem C32_concurrent : forall g kv limit most st,
  counter_kv kv -> 0 <= limit -> 0 < most -> limit + most <= 2 ^ 63 -> crun g kv limit most st ->
  forall total, group_total (c_lim st) g kv total -> 0 <= total <= limit + most - 1.
Proof. exact c32_concurrent. Qed.
Print Assumptions C32_concurrent.

Definition kA : KeyValues := [("a", Int 1)]%string.
Definition gA : KeyValues := [("a", Any)]%string.
Lemma kA_counter : counter_kv kA.
Proof. apply counter_kvb; vm_compute; reflexivity. Qed.
Lemma one_rule s id limit : a_items (l_rules s) = [mkItem id gA limit] -> belongings (l_over s) id = [] -> governs s kA gA limit.
Proof.
  intros E O. exists id, gA, limit. split; [unfold has_rule; rewrite E; left; reflexivity|]. split.
  - intros k m H. apply kv_get_In in H as [[= <- <-] | []]. exists (Int 1). split; [reflexivity|left; reflexivity].
  - right. split; [reflexivity|]. split; [reflexivity|]. intros oid okv ol H. unfold has_override in H. rewrite O in H. destruct H.
Qed.
(** Two increments by one against a limit of one: the second is refused. *)
Definition history1 : list lop := [LCreateRule gA "r" 1; LUpsert kA 1 "c1" true; LUpsert kA 1 "c2" true]%string.
Example C32_unit_nonvacuous : unit_run gA kA 1 3 (lops history1) (ids_of history1) /\ group_total (lops history1) gA kA 1 /\
  snd (lrun (lops (firstn 1 history1)) (LUpsert kA 1 "c1" true)) = LDone /\ snd (lrun (lops (firstn 2 history1)) (LUpsert kA 1 "c2" true)) = LConflict.
Proof.
  split; [|split; [|split; vm_compute; reflexivity]].
  - unfold history1, lops, ids_of. cbn [fold_left lop_id].
    assert (A1 : kv_arg kA) by (apply kv_argb_ok; vm_compute; reflexivity). assert (A2 : kv_arg gA) by (apply kv_argb_ok; vm_compute; reflexivity).
    apply (UR_step gA kA 1 2 _ ["c1"; "r"]%string (LUpsert kA 1 "c2"%string true)).
    apply (UR_step gA kA 1 1 _ ["r"]%string (LUpsert kA 1 "c1"%string true)).
    apply (UR_step gA kA 1 0 _ []%string (LCreateRule gA "r"%string 1)).
    constructor.
    all: try discriminate.
    all: try (split; [assumption|unfold int64; lia]).
    all: try (intros ? [= <-]; split; [cbn; intuition discriminate|discriminate]).
    all: intros kv' n id' locked E; injection E as <- <- <- <-; (split; [lia|]); intros _ _; apply one_rule with (id := "r"%string); vm_compute; reflexivity.
  - replace 1 with (gsum (l_counts (lops history1)) gA kA) by (vm_compute; reflexivity). apply gsum_total with (used := ids_of history1).
    + apply run_reach; vm_compute; reflexivity.
    + exact kA_counter.
Qed.
(** Increments by more than one overshoot: five against a limit of one. *)
Definition history5 : list lop := [LCreateRule gA "r" 1; LUpsert kA 5 "c1" true]%string.
Example C32_bulk_tight : lreach (lops history5) (ids_of history5) /\ governs (lops (firstn 1 history5)) kA gA 1 /\ group_total (lops history5) gA kA 5.
Proof.
  assert (R : lreach (lops history5) (ids_of history5)) by (apply run_reach; vm_compute; reflexivity).
  split; [exact R|]. split; [apply one_rule with (id := "r"%string); vm_compute; reflexivity|].
  replace 5 with (gsum (l_counts (lops history5)) gA kA) by (vm_compute; reflexivity). eapply gsum_total; eauto. exact kA_counter.
Qed.
(** Two concurrent increments: both read the limits before either counts; the second waits for the lock and is refused. *)
Definition start1 : cstate := mkC (lops [LCreateRule gA "r" 1]%string) (ids_of [LCreateRule gA "r" 1]%string) [].
Definition th (i : nat) (id : string) := CThread i id.
Definition both : list clabel :=
  [CArrive kA 1; CArrive kA 1; th 0 "01"; th 1 "02"; th 0 "03"; th 0 "04"; th 0 "05"; th 0 "06"; th 0 "07"; th 0 "08"; th 0 "09"; th 1 "10"; th 1 "11"; th 1 "12"]%string.
Example C32_concurrent_nonvacuous : exists st, safe_execs kA 1 start1 both = Some st /\ crun gA kA 1 1 st /\ group_total (c_lim st) gA kA 1 /\
  map th_at (c_threads st) = [PDone LDone; PRelease LConflict] /\ cexec (match safe_execs kA 1 start1 (firstn 6 both) with Some s => s | None => start1 end) (th 1 "x"%string) = None.
Proof.
  assert (R0 : lreach (lops [LCreateRule gA "r" 1]%string) (ids_of [LCreateRule gA "r" 1]%string)) by (apply run_reach; vm_compute; reflexivity).
  assert (RUN : crun gA kA 1 1 start1).
  { apply CRN_start; [exact R0|intros i []|]. intros total T. apply (group_total_iff _ _ gA kA total (LimiterCounts.lreach_inv _ _ R0)) in T; [subst total; vm_compute; discriminate|].
    apply (LimiterProofs.counter_rep kA kA_counter). }
  destruct (safe_execs kA 1 start1 both) as [st|] eqn:E; [|vm_compute in E; discriminate]. exists st. split; [reflexivity|].
  assert (RST : crun gA kA 1 1 st).
  { eapply safe_run; [exact RUN| | |exact E]; [apply one_rule with (id := "r"%string); vm_compute; reflexivity|intros [|i] t [=]]. }
  split; [exact RST|]. pose proof (crun_inv gA kA 1 1 st kA_counter ltac:(lia) ltac:(lia) ltac:(lia) RST) as G. vm_compute in E. injection E as <-. split; [|split; vm_compute; reflexivity].
  apply (group_total_iff _ _ gA kA 1 (ci_lim _ (gi_c _ _ _ _ _ G))); [apply (LimiterProofs.counter_rep kA kA_counter)|vm_compute; reflexivity].
Qed.
(** If a lock is lost after the last time it is looked at, the limit can be exceeded. *)
Definition lost : list clabel :=
  [CEnv (LCreateRule gA "r" 1); CArrive kA 1; CArrive kA 1; th 0 "01"; th 0 "03"; th 0 "04"; th 0 "05"; th 0 "06"; CLose 0 "a";
   th 1 "07"; th 1 "08"; th 1 "09"; th 1 "10"; th 1 "11"; th 1 "12"; th 0 "13"]%string.
Theorem C32_lost_lock_refuted : ~ (forall st kv g limit total, creach st -> (forall i t, nth_error (c_threads st) i = Some t -> th_n t = 1 /\ governs (c_lim st) (th_kv t) g limit) ->
  counts_fit (c_lim st) -> counter_kv kv -> 0 <= limit -> group_total (c_lim st) g kv total -> total <= limit).
Proof.
  intros H. destruct (cexecs (mkC empty_limiter [] []) lost) as [st|] eqn:E; [|vm_compute in E; discriminate].
  assert (R : creach st) by (eapply cexecs_reach; [apply CR_new|exact E]). pose proof (ci_lim _ (creach_inv st R)) as L. vm_compute in E.
  injection E as E. assert (gsum (l_counts (c_lim st)) gA kA <= 1).
  { apply (H st kA gA 1); auto; [| |exact kA_counter|lia|].
    - subst st. intros [|[|i]] t; cbn [nth_error c_threads]; [intros [= <-]|intros [= <-]|destruct i; discriminate]; (split; [reflexivity|]); apply one_rule with (id := "r"%string); vm_compute; reflexivity.
    - apply fitb_ok. subst st. vm_compute. reflexivity.
    - apply (group_total_iff _ _ gA kA _ L); [apply (LimiterProofs.counter_rep kA kA_counter)|reflexivity]. }
  subst st. vm_compute in H0. apply H0. reflexivity.
Qed.
Print Assumptions C32_lost_lock_refuted.

(** ** C33: which limit applies *)
(** C33: an increment is refused iff a governing limit other than unlimited is reached, and changes nothing then; otherwise it
    adds to exactly one counter.  Without locks ([locked = false]) it fails only if there is a limit to check.
    [counts_fit]: the sum of all counters fits an int64. *)
Theorem C33_increment_partial : forall s used kv n id locked,
  lreach s used -> counts_fit s -> counter_kv kv -> 0 < n -> ~ In id used -> id <> EmptyString ->
  let s' := fst (UpsertCounters s kv n id locked) in
  let a := snd (UpsertCounters s kv n id locked) in
  (a = LDone \/ a = LConflict \/ (locked = false /\ a = LFailed /\ exists g limit, governs s kv g limit /\ limit <> -1)) /\
  (a <> LFailed -> a = LConflict <-> exists g limit total, governs s kv g limit /\ limit <> -1 /\ group_total s g kv total /\ limit <= total) /\
  (a <> LDone -> s' = s) /\
  (a = LDone -> l_rules s' = l_rules s /\ l_over s' = l_over s /\
     forall kv' m, has_count s' kv' m <-> (~ kv_same kv' kv /\ has_count s kv' m) \/
       (kv_same kv' kv /\ ((exists m0, has_count s kv m0 /\ wraps (m0 + n) m) \/ ((forall m0, ~ has_count s kv m0) /\ m = n)))).
Proof. exact c33_increment. Qed.
Print Assumptions C33_increment_partial.
Theorem C33_refused_requests : forall s kv n id locked, kv_arg kv -> ~ counter_kv kv ->
  UpsertCounters s kv n id locked = (s, LBad) /\ SetCounters s kv n id = (s, LBad).
Proof. exact c34_refused. Qed.
Print Assumptions C33_refused_requests.
(** Rules {a} limit 5 and {a,b} limit 1; the override {a=2} limit 0 replaces the first. *)
Definition kAB : KeyValues := [("a", Int 1); ("b", Str "x")]%string.
Definition kA2 : KeyValues := [("a", Int 2)]%string.
Definition history33 : list lop :=
  [LCreateRule gA "r1" 5; LCreateRule [("a", Any); ("b", Any)] "r2" 1; LCreateOverride "r1" kA2 "o1" 0; LUpsert kAB 1 "c1" true; LUpsert kA 3 "c2" true; LUpsert kA2 (-3) "c3" true]%string.
Example C33_nonvacuous : lreach (lops history33) (ids_of history33) /\ counts_fit (lops history33) /\
  map (fun p => snd (UpsertCounters (lops history33) (fst p) 1 "new" (snd p)))%string
    [(kA, true); (kAB, true); (kA2, true); (kA2, false); ([("b", Int 7)]%string, false); (kA, false)] = [LDone; LConflict; LConflict; LConflict; LDone; LFailed].
Proof. split; [apply run_reach; vm_compute; reflexivity|]. split; [apply fitb_ok; vm_compute; reflexivity|vm_compute; reflexivity]. Qed.
(** The full statement, without [counts_fit], is false: the sum of the group wraps around. *)
Theorem C33_overflow_refuted : ~ (forall s used kv n id g limit total,
  lreach s used -> counter_kv kv -> 0 < n -> ~ In id used -> id <> EmptyString -> governs s kv g limit -> limit <> -1 -> group_total s g kv total -> limit <= total ->
  snd (UpsertCounters s kv n id true) = LConflict).
Proof.
  intros H. set (xs := [LCreateRule gA "r" (2 ^ 63 - 1); LSet [("a", Int 1); ("b", Int 1)] (2 ^ 63 - 2) "c1"; LSet [("a", Int 1); ("b", Int 2)] 2 "c2"]%string).
  assert (R : lreach (lops xs) (ids_of xs)) by (apply run_reach; vm_compute; reflexivity).
  assert (C := H (lops xs) (ids_of xs) kA 1 "new"%string gA (2 ^ 63 - 1) (gsum (l_counts (lops xs)) gA kA) R kA_counter ltac:(lia)). 
  assert (X : snd (UpsertCounters (lops xs) kA 1 "new"%string true) = LConflict).
  { apply C.
    - subst xs. vm_compute. intros [E | [E | [E | []]]]; discriminate E.
    - discriminate.
    - apply one_rule with (id := "r"%string); vm_compute; reflexivity.
    - lia.
    - apply (gsum_total _ _ gA kA R kA_counter).
    - vm_compute. discriminate. }
  vm_compute in X. discriminate.
Qed.
Print Assumptions C33_overflow_refuted.

(** ** C34: decrement and set *)
Theorem C34_unique : forall s used kv m m', lreach s used -> has_count s kv m -> has_count s kv m' -> m = m'.
Proof. exact count_unique. Qed.
Print Assumptions C34_unique.
Theorem C34_decrement : forall s used kv n id locked, lreach s used -> counter_kv kv -> n <= 0 ->
  let s' := fst (UpsertCounters s kv n id locked) in
  snd (UpsertCounters s kv n id locked) = LDone /\ l_rules s' = l_rules s /\ l_over s' = l_over s /\
  forall kv' m, has_count s' kv' m <->
    (~ kv_same kv' kv /\ has_count s kv' m) \/ (kv_same kv' kv /\ exists m0, has_count s kv m0 /\ wraps (m0 + n) m /\ 0 < m).
Proof. exact c34_decrement. Qed.
Print Assumptions C34_decrement.
Theorem C34_set : forall s used kv n id, lreach s used -> counter_kv kv -> ~ In id used -> id <> EmptyString ->
  let s' := fst (SetCounters s kv n id) in
  snd (SetCounters s kv n id) = LDone /\ l_rules s' = l_rules s /\ l_over s' = l_over s /\
  forall kv' m, has_count s' kv' m <-> (~ kv_same kv' kv /\ has_count s kv' m) \/ (kv_same kv' kv /\ 0 < n /\ m = n).
Proof. exact c34_set. Qed.
Print Assumptions C34_set.
(** C34: a query of the counters answers exactly those that fit it (for the queries of C22). *)
Theorem C34_query_partial : forall s used q,
  lreach s used -> q_validate q = true -> query_no_nan q -> q = Q None None None \/ every_node node_simple q ->
  exists l, QueryCounters s q = Some l /\ forall kv n, In (kv, n) l <-> exists id, In (mkItem id kv n) (a_items (l_counts s)) /\ query_holds q id kv.
Proof. exact query_counters. Qed.
Print Assumptions C34_query_partial.
Definition history34 : list lop := [LUpsert kA 5 "c1" false; LUpsert kAB 2 "c2" false; LSet kA2 7 "c3"; LUpsert kA (-3) "c4" false; LUpsert kAB (-2) "c5" false]%string.
Example C34_nonvacuous : lreach (lops history34) (ids_of history34) /\
  QueryCounters (lops history34) (Q None None None) = Some [(kA, 2); (kA2, 7)] /\
  QueryCounters (fst (SetCounters (lops history34) kA 0 "c9"%string)) (Q None None None) = Some [(kA2, 7)] /\
  QueryCounters (fst (SetCounters (lops history34) kA2 9 "c9"%string)) (Q None None None) = Some [(kA, 2); (kA2, 9)].
Proof. split; [apply run_reach; vm_compute; reflexivity|]. vm_compute. repeat split. Qed.

(** ** C35: no deadlock *)
(** C35: increments never wait for each other in a circle. *)
Theorem C35_acyclic : forall st i, creach st -> ~ clos_trans nat (waits_for st) i i.
Proof. exact c35_acyclic. Qed.
Print Assumptions C35_acyclic.
(** C35: while some increment is not finished, one can move. *)
Theorem C35_progress : forall st id, creach st -> (exists i th, nth_error (c_threads st) i = Some th /\ ~ finished th) -> fresh (c_used st) id ->
  exists i st', cstep st (CThread i id) st'.
Proof. exact c35_progress. Qed.
Print Assumptions C35_progress.
(** C35: left to themselves, the increments all finish, however they are scheduled. *)
Theorem C35_finishes : forall st, creach st -> exists bound, forall n st', thread_steps n st st' ->
  (n <= bound)%nat /\ forall id, fresh (c_used st') id -> (forall i st'', ~ cstep st' (CThread i id) st'') -> forall i th, nth_error (c_threads st') i = Some th -> finished th.
Proof. exact c35_finishes. Qed.
Print Assumptions C35_finishes.
(** Two increments with crossed keys: the second waits for the first. *)
Definition kBA : KeyValues := [("b", Str "x"); ("a", Int 1)]%string.
Definition crossed : list clabel := [CEnv (LCreateRule gA "r" 9); CArrive kAB 1; CArrive kBA 1; th 0 "1"; th 1 "2"; th 0 "3"]%string.
Example C35_nonvacuous : exists st, cexecs (mkC empty_limiter [] []) crossed = Some st /\ creach st /\ waits_for st 1 0 /\ exists st', cexec st (th 0 "4"%string) = Some st'.
Proof.
  destruct (cexecs (mkC empty_limiter [] []) crossed) as [st|] eqn:E; [|vm_compute in E; discriminate]. exists st. split; [reflexivity|].
  split; [eapply cexecs_reach; [apply CR_new|exact E]|]. vm_compute in E. injection E as <-. split; [|vm_compute; eexists; reflexivity].
  unfold waits_for. cbn [c_threads nth_error]. eexists _, _, _, _, _. split; [reflexivity|]. split; [reflexivity|]. split; [discriminate|]. split; [reflexivity|].
  split; [left; reflexivity|]. exact (AssocMaps.same_value_refl (Int 1)).
Qed.

(** ** C36: rules and overrides *)
Theorem C36_rules_unique : forall s used id kv n id' kv' n',
  lreach s used -> has_rule s id kv n -> has_rule s id' kv' n' -> id = id' \/ kv_same kv kv' -> id = id' /\ kv = kv' /\ n = n'.
Proof. exact rules_unique. Qed.
Print Assumptions C36_rules_unique.
Theorem C36_overrides_unique : forall s used rid id kv n id' kv' n',
  lreach s used -> has_override s rid id kv n -> has_override s rid id' kv' n' -> id = id' \/ kv_same kv kv' -> id = id' /\ kv = kv' /\ n = n'.
Proof. exact overrides_unique. Qed.
Print Assumptions C36_overrides_unique.
(** C36: an override has a rule, and contains its keys. *)
Theorem C36_consistent : forall s used rid id kv n, lreach s used -> has_override s rid id kv n ->
  exists rkv rn, has_rule s rid rkv rn /\ forall k, In k (kv_keys rkv) -> In k (kv_keys kv).
Proof. exact consistent. Qed.
Print Assumptions C36_consistent.
Theorem C36_values : forall s used, lreach s used ->
  (forall id kv n, has_rule s id kv n -> id <> EmptyString /\ kv_valid kv /\ -1 <= n) /\ (forall rid id kv n, has_override s rid id kv n -> kv_valid kv /\ -1 <= n).
Proof. exact values_ok. Qed.
Print Assumptions C36_values.
(** C36: what creating a rule answers and changes. *)
Theorem C36_create_rule : forall s used kv id n,
  lreach s used -> kv_arg kv -> ~ In id used ->
  let s' := fst (CreateRule s kv id n) in let a := snd (CreateRule s kv id n) in
  l_over s' = l_over s /\ l_counts s' = l_counts s /\
  (~ (kv_valid kv /\ -1 <= n) -> a = LBad /\ s' = s) /\
  (kv_valid kv /\ -1 <= n -> (exists id' kv' n', has_rule s id' kv' n' /\ kv_same kv' kv) ->
     a = LConflict /\ forall i k m, has_rule s' i k m <-> has_rule s i k m) /\
  (kv_valid kv /\ -1 <= n -> ~ (exists id' kv' n', has_rule s id' kv' n' /\ kv_same kv' kv) ->
     a = LCreated id /\ forall i k m, has_rule s' i k m <-> has_rule s i k m \/ (i = id /\ k = kv /\ m = n)).
Proof. exact create_rule. Qed.
Print Assumptions C36_create_rule.
(** C36: updating a rule changes its limit only. *)
Theorem C36_update_rule : forall s used id n,
  lreach s used ->
  let s' := fst (UpdateRule s id n) in let a := snd (UpdateRule s id n) in
  l_over s' = l_over s /\ l_counts s' = l_counts s /\
  (n < -1 -> a = LBad /\ s' = s) /\
  (-1 <= n -> (forall k m, ~ has_rule s id k m) -> a = LMissing /\ s' = s) /\
  (-1 <= n -> forall kv m0, has_rule s id kv m0 ->
     a = LDone /\ forall i k m, has_rule s' i k m <-> (i <> id /\ has_rule s i k m) \/ (i = id /\ k = kv /\ m = n)).
Proof. exact update_rule. Qed.
Print Assumptions C36_update_rule.
Theorem C36_get_rule : forall s used id,
  lreach s used ->
  (forall kv n, has_rule s id kv n -> GetRule s id = (Some (kv, n), LDone)) /\ ((forall k m, ~ has_rule s id k m) -> GetRule s id = (None, LMissing)).
Proof. exact get_rule. Qed.
Print Assumptions C36_get_rule.
(** C36: deleting a rule deletes its overrides and no others. *)
Theorem C36_delete_rule : forall s used id,
  lreach s used -> id <> EmptyString ->
  let s' := fst (DeleteRule s id) in let a := snd (DeleteRule s id) in
  l_counts s' = l_counts s /\
  (forall i k m, has_rule s' i k m <-> has_rule s i k m /\ i <> id) /\
  (forall r i k m, has_override s' r i k m <-> has_override s r i k m /\ r <> id) /\
  (a = LDone <-> exists k m, has_rule s id k m) /\ (a = LMissing <-> forall k m, ~ has_rule s id k m).
Proof. exact delete_rule. Qed.
Print Assumptions C36_delete_rule.
Theorem C36_create_override : forall s used rid kv id n,
  lreach s used -> kv_arg kv -> ~ In id used ->
  let s' := fst (CreateOverride s rid kv id n) in let a := snd (CreateOverride s rid kv id n) in
  l_rules s' = l_rules s /\ l_counts s' = l_counts s /\
  (a <> LCreated id -> forall r i k m, has_override s' r i k m <-> has_override s r i k m) /\
  (~ (kv_valid kv /\ -1 <= n) -> a = LBad) /\
  (kv_valid kv /\ -1 <= n -> (forall rkv rn, ~ has_rule s rid rkv rn) -> a = LMissing) /\
  (kv_valid kv /\ -1 <= n -> forall rkv rn, has_rule s rid rkv rn -> ~ (forall k, In k (kv_keys rkv) -> In k (kv_keys kv)) -> a = LBad) /\
  (kv_valid kv /\ -1 <= n -> forall rkv rn, has_rule s rid rkv rn -> (forall k, In k (kv_keys rkv) -> In k (kv_keys kv)) -> 
     (reserved kv -> a = LFailed) /\
     (~ reserved kv -> (exists i k m, has_override s rid i k m /\ kv_same k kv) -> a = LConflict) /\
     (~ reserved kv -> ~ (exists i k m, has_override s rid i k m /\ kv_same k kv) -> a = LCreated id /\
        forall r i k m, has_override s' r i k m <-> has_override s r i k m \/ (r = rid /\ i = id /\ k = kv /\ m = n))).
Proof. exact create_override. Qed.
Print Assumptions C36_create_override.
Theorem C36_update_override : forall s used rid id n,
  lreach s used ->
  let s' := fst (UpdateOverride s rid id n) in let a := snd (UpdateOverride s rid id n) in
  l_rules s' = l_rules s /\ l_counts s' = l_counts s /\
  (n < -1 -> a = LBad /\ s' = s) /\
  (-1 <= n -> (forall k m, ~ has_override s rid id k m) -> a = LMissing /\ s' = s) /\
  (-1 <= n -> forall kv m0, has_override s rid id kv m0 -> a = LDone /\
     forall r i k m, has_override s' r i k m <-> (~ (r = rid /\ i = id) /\ has_override s r i k m) \/ (r = rid /\ i = id /\ k = kv /\ m = n)).
Proof. exact update_override. Qed.
Print Assumptions C36_update_override.
Theorem C36_get_override : forall s used rid id,
  lreach s used ->
  (forall kv n, has_override s rid id kv n -> GetOverride s rid id = (Some (kv, n), LDone)) /\ ((forall k m, ~ has_override s rid id k m) -> GetOverride s rid id = (None, LMissing)).
Proof. exact get_override. Qed.
Print Assumptions C36_get_override.
Theorem C36_delete_override : forall s used rid id,
  lreach s used -> id <> EmptyString ->
  let s' := fst (DeleteOverride s rid id) in let a := snd (DeleteOverride s rid id) in
  l_rules s' = l_rules s /\ l_counts s' = l_counts s /\
  (forall r i k m, has_override s' r i k m <-> has_override s r i k m /\ ~ (r = rid /\ i = id)) /\
  (a = LDone <-> exists rkv rn, has_rule s rid rkv rn) /\ (a = LMissing <-> forall rkv rn, ~ has_rule s rid rkv rn).
Proof. exact delete_override. Qed.
Print Assumptions C36_delete_override.
Definition history36 : list lop :=
  [LCreateRule gA "r1" 5; LCreateRule [("a", Any); ("b", Any)] "r2" 1; LCreateRule gA "r3" 7; LCreateOverride "r1" kA2 "o1" 0; LCreateOverride "r1" kAB "o2" 2;
   LCreateOverride "r2" kAB "o3" 3; LCreateOverride "r2" kA "o4" 3; LUpdateRule "r2" 4; LUpdateOverride "r1" "o2" 8; LDeleteOverride "r1" "o1"]%string.
Example C36_nonvacuous : lreach (lops history36) (ids_of history36) /\
  map it_id (a_items (l_rules (lops history36))) = ["r1"; "r2"]%string /\
  GetRule (lops history36) "r2"%string = (Some ([("a", Any); ("b", Any)]%string, 4), LDone) /\ GetOverride (lops history36) "r1"%string "o2"%string = (Some (kAB, 8), LDone) /\
  snd (GetOverride (lops history36) "r1"%string "o1"%string) = LMissing /\
  snd (GetOverride (fst (DeleteRule (lops history36) "r1"%string)) "r1"%string "o2"%string) = LMissing /\
  GetOverride (fst (DeleteRule (lops history36) "r1"%string)) "r2"%string "o3"%string = (Some (kAB, 3), LDone) /\
  snd (CreateRule (lops history36) gA "n"%string 1) = LConflict /\ snd (CreateOverride (lops history36) "r2"%string kA "n"%string 1) = LBad /\
  snd (CreateOverride (lops history36) "r1"%string kBA "n"%string 1) = LConflict /\ snd (CreateOverride (lops history36) "r9"%string kA "n"%string 1) = LMissing.
Proof. split; [apply run_reach; vm_compute; reflexivity|]. vm_compute. repeat split. Qed.
