(** C89.  Definitions: [SpecRuleSync.v]; executions: [lexec] of [RuleSync.v]. *)
From Coq Require Import List Bool Arith.
Import ListNotations.
From Verif Require Import AssocSync SpecAssocSync RuleSync SpecRuleSync RuleSyncProofs RuleSyncExamples.

(** An override never is without its rule, and always has all the keys of the rule *)
Theorem C89_no_orphans : forall s tr r x kv, lexec (s :: tr) -> over_there r x kv s -> exists g, rule_there r g s /\ covers g kv.
Proof. exact no_orphans. Qed.
(** Key-values have one override of a rule *)
Theorem C89_one : forall s tr r x y kv, lexec (s :: tr) -> over_there r x kv s -> over_there r y kv s -> ~ asked (DropOver r x) s -> ~ asked (DropOver r y) s -> x = y.
Proof. exact one_override. Qed.
(** What was accepted stays until somebody asks to delete it *)
Theorem C89_rule_stays : forall s tr i g r, lexec (s :: tr) -> got i (NewRule g) (NewIs r) s -> ~ asked (DropRule r) s -> rule_there r g s.
Proof. exact rule_stays. Qed.
Theorem C89_override_stays : forall s tr i r kv x, lexec (s :: tr) -> got i (Override r kv) (Told (RCreated x)) s -> ~ asked (DropOver r x) s -> ~ asked (DropRule r) s -> over_there r x kv s.
Proof. exact stays. Qed.
(** A check that has the rule has every override of it that was accepted before and matches, while nobody asks to delete an override of the rule: no check sees a rule
    of which the deletion has removed some overrides.  Full statement: while nobody asks to delete this override *)
Theorem C89_governs_partial : forall s tr1 s0 tr0 i j r kv x wants sees l xs, lexec (s :: tr1 ++ s0 :: tr0) -> got i (Override r kv) (Told (RCreated x)) s0 -> unmade j s0 -> sees kv = true ->
  got j (Limits wants sees) (Saw l) s -> In (r, xs) l -> ~ some_override_dropped r s -> In x xs.
Proof. exact whole_check. Qed.
(** ... which does not hold: at an override that is being deleted the search ends (btree_associated/threadsafe_match.go:138-148), and the overrides after it are not seen *)
Theorem C89_governs_refuted : ~ (forall s tr1 s0 tr0 i j r kv x wants sees l xs, lexec (s :: tr1 ++ s0 :: tr0) -> got i (Override r kv) (Told (RCreated x)) s0 -> unmade j s0 -> sees kv = true ->
  got j (Limits wants sees) (Saw l) s -> In (r, xs) l -> ~ asked (DropOver r x) s -> ~ asked (DropRule r) s -> In x xs).
Proof. exact other_override_refuted. Qed.
(** A check has every rule that was accepted before and matches, while nobody asks to delete a rule.  Full statement: while nobody asks to delete this rule *)
Theorem C89_checked_partial : forall s tr1 s0 tr0 i j g r wants sees l, lexec (s :: tr1 ++ s0 :: tr0) -> got i (NewRule g) (NewIs r) s0 -> unmade j s0 -> wants g = true ->
  got j (Limits wants sees) (Saw l) s -> ~ some_rule_dropped s -> exists xs, In (r, xs) l.
Proof. exact checked. Qed.
(** ... which does not hold: while another rule is being deleted, the rule is not applied *)
Theorem C89_checked_refuted : ~ (forall s tr1 s0 tr0 i j g r wants sees l, lexec (s :: tr1 ++ s0 :: tr0) -> got i (NewRule g) (NewIs r) s0 -> unmade j s0 -> wants g = true ->
  got j (Limits wants sees) (Saw l) s -> ~ asked (DropRule r) s -> exists xs, In (r, xs) l).
Proof. exact other_rule_refuted. Qed.
(** What a check has was there during the check, and matched *)
Theorem C89_seen : forall s tr j wants sees l r xs, lexec (s :: tr) -> got j (Limits wants sees) (Saw l) s -> In (r, xs) l ->
  (exists s' g, In s' tr /\ is_req j (Limits wants sees) s' /\ rule_there r g s' /\ wants g = true) /\
  forall x, In x xs -> exists s' kv, In s' tr /\ is_req j (Limits wants sees) s' /\ over_there r x kv s' /\ sees kv = true.
Proof. exact seen_there. Qed.
(** After the deletion of a rule has answered, no check has the rule *)
Theorem C89_gone_from_checks : forall s tr1 s0 tr0 i r a j wants sees l xs, lexec (s :: tr1 ++ s0 :: tr0) -> got i (DropRule r) a s0 -> a = Gone \/ a = Dropped -> unmade j s0 ->
  got j (Limits wants sees) (Saw l) s -> ~ In (r, xs) l.
Proof. exact gone_from_checks. Qed.
(** After the deletion of a rule has answered, the rule is not there for any request *)
Theorem C89_gone : forall s tr1 s0 tr0 i r a j q b, lexec (s :: tr1 ++ s0 :: tr0) -> got i (DropRule r) a s0 -> a = Gone \/ a = Dropped -> unmade j s0 -> about q = Some r ->
  got j q b s -> b = Gone \/ b = Deleting /\ q = DropRule r.
Proof. exact gone_for_good. Qed.
(** A request is told that a rule is gone only if somebody has asked to delete it *)
Theorem C89_told_gone : forall s tr i q r, lexec (s :: tr) -> about q = Some r -> got i q Gone s -> asked (DropRule r) s.
Proof. exact told_gone. Qed.
(** What C54 to C58 say of one tree holds for the overrides of a rule, but while the rule is being removed *)
Theorem C89_tree : forall s tr r, lexec (s :: tr) -> (forall i, ~ nth_error (l_threads s) i = Some (mkR (DropRule r) LHold)) -> exists tr', exec false true (l_over s r :: tr').
Proof. exact own_tree. Qed.

Example C89_seen_later : exists s tr1 s0 tr0, lexec (s :: tr1 ++ s0 :: tr0) /\ got 0 (NewRule [(1, 1)]) (NewIs 0) s0 /\ got 1 (Override 0 [(1, 1)]) (Told (RCreated 0)) s0 /\ unmade 2 s0 /\
  got 2 (Limits all all) (Saw [(0, [0])]) s /\ ~ some_override_dropped 0 s /\ ~ some_rule_dropped s.
Proof. exact seen_later. Qed.
Example C89_deleted : exists s tr1 s0 tr0, lexec (s :: tr1 ++ s0 :: tr0) /\ got 1 (Override 0 [(1, 1)]) (Told (RCreated 0)) s0 /\ got 2 (DropRule 0) Dropped s0 /\ unmade 3 s0 /\
  got 3 (Override 0 [(1, 1)]) Gone s /\ exists s', In s' tr0 /\ over_there 0 0 [(1, 1)] s' /\ is_req 2 (DropRule 0) s'.
Proof. exact deleted. Qed.

Print Assumptions C89_no_orphans.
Print Assumptions C89_one.
Print Assumptions C89_rule_stays.
Print Assumptions C89_override_stays.
Print Assumptions C89_governs_partial.
Print Assumptions C89_governs_refuted.
Print Assumptions C89_checked_partial.
Print Assumptions C89_checked_refuted.
Print Assumptions C89_seen.
Print Assumptions C89_gone_from_checks.
Print Assumptions C89_gone.
Print Assumptions C89_told_gone.
Print Assumptions C89_tree.
