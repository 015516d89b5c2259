(** Property C71: channels that are held back by a limit. *)
From Verif Require Import Datatypes SpecValues Query SpecQuery Assoc SpecAssoc OneToMany SpecOneToMany Limiter SpecLimiter LimiterSums PropLemmasLimiter LimiterExamples Willow Recheck RecheckProofs.
Local Open Scope Z_scope.
Local Open Scope list_scope.

(** C71: a channel that is found to be still held back (and so waits 5 seconds) was right at some moment of its check:
    a dequeue made then would have been refused.  Counters may change during the check, rules and overrides not. *)
Theorem C71_waits_partial : forall sts name kv,
  (forall n, exists used, lreach (sts n) used) -> (forall n, counts_fit (sts n)) -> counter_kv kv ->
  (forall n, l_rules (sts n) = l_rules (sts 0%nat) /\ l_over (sts n) = l_over (sts 0%nat)) ->
  Recheck sts name kv = Some false ->
  exists m, forall n id, 0 < n -> UpsertCounters (sts m) (running_kv name kv) n id true = (sts m, LConflict).
Proof. exact c71_waits. Qed.
Print Assumptions C71_waits_partial.
(** C71: such a check does not end the process. *)
Theorem C71_total_partial : forall sts name kv,
  (forall n, exists used, lreach (sts n) used) -> (forall n, counts_fit (sts n)) -> counter_kv kv ->
  (forall n, l_rules (sts n) = l_rules (sts 0%nat) /\ l_over (sts n) = l_over (sts 0%nat)) ->
  Recheck sts name kv <> None.
Proof. exact c71_total. Qed.
Print Assumptions C71_total_partial.
(** C71: a channel that is let go by a check during which nothing changes can be dequeued from then, if no limit that
    governs the channel is grouped by an Any value. *)
Theorem C71_let_go_partial : forall s used name kv id,
  lreach s used -> counts_fit s -> counter_kv kv -> ~ In id used -> id <> EmptyString ->
  (forall g limit, governs s (running_kv name kv) g limit -> forall k v, In (k, v) g -> v <> Any) ->
  Recheck (fun _ => s) name kv = Some true ->
  snd (UpsertCounters s (running_kv name kv) 1 id true) = LDone.
Proof. exact c71_let_go. Qed.
Print Assumptions C71_let_go_partial.

(** Queue "q" may run one item at a time (rule r1); an override lets channel {a=2} run two, another rule is unlimited.
    One item of channel {a=1} is running. *)
Definition run_q (kv : KeyValues) : KeyValues := ([(QueueKey, Str "q"); (RunningKey, Str "true")] ++ kv)%list.
Definition cA1 : KeyValues := [("a", Int 1)]%string.
Definition cA2 : KeyValues := [("a", Int 2)]%string.
Definition history71 : list lop :=
  [LCreateRule (run_q []) "r1" 1; LCreateOverride "r1" (run_q cA2) "o1" 2; LCreateRule [(RunningKey, Str "true")] "r2" (-1); LUpsert (running_kv "q" cA1) 1 "c1" true]%string.
Example C71_nonvacuous : lreach (lops history71) (ids_of history71) /\ counts_fit (lops history71) /\ counter_kv cA1 /\
  Recheck (fun _ => lops history71) "q" cA1 = Some false /\
  Recheck (fun _ => lops history71) "q" cA2 = Some true /\
  Recheck (fun _ => lops history71) "other" cA1 = Some true /\
  (* the item ends between the rules and the counters *)
  Recheck (fun n => if Nat.ltb n 2 then lops history71 else lops (history71 ++ [LUpsert (running_kv "q" cA1) (-1) "c2" true])) "q" cA1 = Some true.
Proof.
  split; [apply run_reach; vm_compute; reflexivity|]. split; [apply fitb_ok; vm_compute; reflexivity|].
  split; [apply counter_kvb; vm_compute; reflexivity|]. vm_compute. auto.
Qed.
(** The let-go of C71_let_go_partial has a case: the other channel *)
Example C71_let_go_nonvacuous :
  (forall g limit, governs (lops history71) (running_kv "q" cA2) g limit -> forall k v, In (k, v) g -> v <> Any) /\
  snd (UpsertCounters (lops history71) (running_kv "q" cA2) 1 "c9" true) = LDone.
Proof.
  split; [|vm_compute; reflexivity].
  set (ok := forallb (fun p : string * EV => negb (ev_type (snd p) =? T_any))).
  assert (OK : forall g, ok g = true -> forall k v, In (k, v) g -> v <> Any).
  { intros g HG k v HI ->. unfold ok in HG. rewrite forallb_forall in HG. specialize (HG _ HI). discriminate HG. }
  assert (RS : forallb (fun i => ok (it_kv i)) (a_items (l_rules (lops history71))) = true) by (vm_compute; reflexivity).
  assert (OS : forallb (fun i => forallb (fun o => ok (m_kv o)) (belongings (l_over (lops history71)) (it_id i))) (a_items (l_rules (lops history71))) = true) by (vm_compute; reflexivity).
  rewrite forallb_forall in RS, OS. unfold governs, has_rule, has_override.
  intros g limit (rid & rkv & rl & HR & _ & [(oid & HO & _) | (-> & _)]); apply OK; [|exact (RS _ HR)].
  specialize (OS _ HR). cbn [it_id] in OS. rewrite forallb_forall in OS. exact (OS _ HO).
Qed.

(** The full statement of C71_let_go_partial, for groups with Any, is false: the channel is let go although a dequeue is
    refused.  (It then asks again without waiting.) *)
Theorem C71_let_go_refuted : ~ (forall s used name kv id,
  lreach s used -> counts_fit s -> counter_kv kv -> ~ In id used -> id <> EmptyString ->
  Recheck (fun _ => s) name kv = Some true ->
  snd (UpsertCounters s (running_kv name kv) 1 id true) = LDone).
Proof.
  intros H. set (xs := [LCreateRule [(QueueKey, Any); (RunningKey, Str "true")] "r1" 1; LUpsert (running_kv "q" cA1) 1 "c1" true]%string).
  assert (X : snd (UpsertCounters (lops xs) (running_kv "q" cA1) 1 "c2" true) = LDone).
  { apply (H (lops xs) (ids_of xs)); [apply run_reach; vm_compute; reflexivity|apply fitb_ok; vm_compute; reflexivity|apply counter_kvb; vm_compute; reflexivity| |discriminate|vm_compute; reflexivity].
    subst xs. vm_compute. intros [E | [E | []]]; discriminate E. }
  vm_compute in X. discriminate X.
Qed.
Print Assumptions C71_let_go_refuted.
(** The full statement of C71_total_partial is false: a rule that is deleted during the check ends the process. *)
Theorem C71_total_refuted : ~ (forall sts name kv,
  (forall n, exists used, lreach (sts n) used) -> (forall n, counts_fit (sts n)) -> counter_kv kv -> Recheck sts name kv <> None).
Proof.
  intros H. apply (H (fun n => if Nat.eqb n 0 then lops history71 else lops (history71 ++ [LDeleteRule "r1"])) "q"%string cA1).
  - intros [|n]; eexists; cbn [Nat.eqb]; apply run_reach; vm_compute; reflexivity.
  - intros [|n]; cbn [Nat.eqb]; apply fitb_ok; vm_compute; reflexivity.
  - apply counter_kvb; vm_compute; reflexivity.
  - vm_compute. reflexivity.
Qed.
Print Assumptions C71_total_refuted.
(** The full statement of C71_waits_partial is false: the limit of a rule is raised between the request for the rules and
    the request for the counters, and then the counter goes up to the limit read before. *)
Theorem C71_waits_refuted : ~ (forall sts name kv,
  (forall n, exists used, lreach (sts n) used) -> (forall n, counts_fit (sts n)) -> counter_kv kv ->
  Recheck sts name kv = Some false ->
  exists m, forall n id, 0 < n -> UpsertCounters (sts m) (running_kv name kv) n id true = (sts m, LConflict)).
Proof.
  intros H.
  pose (s0 := lops [LCreateRule (run_q []) "r1" 1]%string).
  pose (s1 := lops [LCreateRule (run_q []) "r1" 1; LUpdateRule "r1" 5; LUpsert (running_kv "q" cA1) 1 "c1" true]%string).
  destruct (H (fun n => if Nat.eqb n 0 then s0 else s1) "q"%string cA1) as (m & HM).
  - intros [|n]; eexists; cbn [Nat.eqb]; apply run_reach; vm_compute; reflexivity.
  - intros [|n]; cbn [Nat.eqb]; apply fitb_ok; vm_compute; reflexivity.
  - apply counter_kvb; vm_compute; reflexivity.
  - vm_compute. reflexivity.
  - specialize (HM 1 "c9"%string ltac:(lia)). apply (f_equal snd) in HM. destruct m as [|m]; cbn [Nat.eqb] in HM; vm_compute in HM; discriminate HM.
Qed.
Print Assumptions C71_waits_refuted.
