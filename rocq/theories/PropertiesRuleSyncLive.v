(** C92: requests about rules and their overrides that overlap get their answers (model: RuleSync.v; specification: SpecRuleSync.v,
    SpecRuleSyncLive.v). *)
From Coq Require Import List Bool Arith.
Import ListNotations.
From Verif Require Import AssocSync SpecAssocSync RuleSync SpecRuleSync SpecRuleSyncLive RuleSyncLocks RuleSyncLive RuleSyncHang RuleSyncLiveExamples.

(** Nobody deletes one override (but rules with all of theirs): while a request has no answer some request can go on, ... *)
Theorem C92_no_deadlock_partial : forall s tr, lexec (s :: tr) -> ordinary s -> (exists i, waits i s) -> exists i s', goes_on i s s'.
Proof. exact rules_no_deadlock. Qed.
Print Assumptions C92_no_deadlock_partial.
(** ... and in whichever order they go on, all have an answer in the end *)
Theorem C92_all_answered_partial : forall s tr, lexec (s :: tr) -> ordinary s -> in_the_end all_have_answers s.
Proof. exact rules_all_end. Qed.
Print Assumptions C92_all_answered_partial.
(** The deletion of an override and the creation of another of the same rule can wait for each other for ever; then the deletion of the rule waits
    for ever too, and whatever is asked of the rule later gets no answer, or the one that there is no such rule *)
Theorem C92_refuted : exists s tr, lexec (s :: tr) /\ got 0 (NewRule [(1, 1)]) (NewIs 0) s /\ got 1 (Override 0 [(1, 1)]) (Told (RCreated 0)) s /\
  is_req 2 (DropOver 0 0) s /\ never_answered 2 s /\ is_req 3 (Override 0 [(1, 1); (2, 2)]) s /\ never_answered 3 s /\ is_req 4 (DropRule 0) s /\ never_answered 4 s /\
  forall tr' s' i q a, lexec (tr' ++ s :: tr) -> In s' tr' -> unmade i s -> about q = Some 0 -> got i q a s' -> a = Gone \/ a = Deleting.
Proof. exact hangs. Qed.
Print Assumptions C92_refuted.

Example C92_waiting_case : exists s tr, lexec (s :: tr) /\ ordinary s /\ waits 1 s /\ waits 2 s /\ waits 3 s /\ locked_by reads (l_threads s) 0 /\ (forall s', ~ goes_on 2 s s') /\ ~ all_have_answers s.
Proof. exact ordinary_case. Qed.
