(** C88.  Definitions: [SpecCounterSync.v]; executions: [cexec] of [CounterSync.v]. *)
From Coq Require Import List Bool Arith ZArith.
Import ListNotations.
From Verif Require Import AssocSync SpecAssocSync CounterSync SpecCounterSync CounterSyncProofs CounterSyncMore CounterSyncExamples.
Local Open Scope Z_scope.

(** Whatever calls run at the same time, there is an order of them that explains everything *)
Theorem C88_linear : forall s tr, cexec (s :: tr) -> exists l, explains s tr l.
Proof. exact explained. Qed.
(** No increment is lost *)
Theorem C88_sum : forall s tr kv, cexec (s :: tr) -> all_ended s -> (forall i o, does i o kv s -> exists d, o = Add d /\ 0 < d) ->
  sum (amounts kv s) < 9223372036854775808 -> amounts kv s <> [] -> counter kv (Some (sum (amounts kv s))) s.
Proof. exact sums. Qed.
(** Key-values have one counter *)
Theorem C88_one : forall s tr kv n m, cexec (s :: tr) -> counter kv n s -> counter kv m s -> n = m.
Proof. intros s tr kv n m E. exact (counter_fun s (map c_tree tr) kv n m (tree_exec _ E)). Qed.
(** Every call ends *)
Theorem C88_end : forall s tr, cexec (s :: tr) -> cinevitably all_ended s.
Proof. exact calls_end. Qed.

Example C88_two : exists s tr, cexec (s :: tr) /\ all_ended s /\ (forall i o, does i o [(1, 1)]%nat s -> exists d, o = Add d /\ 0 < d) /\ amounts [(1, 1)]%nat s = [2; 3].
Proof. exact two_at_once. Qed.
Example C88_mixed : exists s tr, cexec (s :: tr) /\ has_read 3 (Some 7) s /\ counter [(1, 1)]%nat (Some 5) s /\ all_ended s.
Proof. exact mixed. Qed.

Print Assumptions C88_linear.
Print Assumptions C88_sum.
Print Assumptions C88_one.
Print Assumptions C88_end.
