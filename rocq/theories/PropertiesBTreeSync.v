(** Concurrent calls of one B-tree: C65 and C66 of properties.jsonl.  The statements use [SpecBTreeSync.v]; the model is
    [BTreeSync.v]. *)
From Coq Require Import Permutation.
From Verif Require Import Datatypes SpecValues BTree SpecBTree BTreeSync SpecBTreeSync BTreeSyncLin BTreeSyncEnd PropLemmasTree3 BTreeSyncExamples.
Local Open Scope nat_scope.

(** C65: however Create, CreateOrFind, Delete and Find overlap, there is an order of the calls, compatible with who
    returned before whom was called, in which a plain map gives exactly the same answers; when nobody is left inside, the
    tree is well shaped and contains exactly what this order leaves. *)
Theorem C65_linearizable : forall V n (ops : nat -> cop V) tr s, 2 <= n -> good_calls ops -> exec n ops tr s ->
  exists order final, explains ops tr order final /\
    (all_returned tr -> well_shaped n (tree_of s) /\ Permutation (contents (tree_of s)) final).
Proof. exact @linearizable. Qed.
Print Assumptions C65_linearizable.

Theorem C65_nonvacuous : good_calls dops /\
  exists s, exec 2 dops run s /\ contents (tree_of s) = [(Int 1, 10); (Int 3, 30)] /\ all_returned run.
Proof. exact (conj dops_good overlapping). Qed.

(** C66: from every moment of every execution, if nobody makes a new call, then however the calls inside are scheduled
    somebody can go on and after finitely many steps every call has returned. *)
Theorem C66_calls_end : forall V n (ops : nat -> cop V) tr s, 2 <= n -> good_calls ops -> exec n ops tr s ->
  inevitably n ops all_back s.
Proof. exact @all_end. Qed.
Print Assumptions C66_calls_end.

Theorem C66_nonvacuous : good_calls dops /\
  exists s, exec 2 dops [ECall 0; ECall 1; ECall 2] s /\ ph s 0 = PWriting /\ ph s 1 = PWrite /\ ph s 2 = PWrite /\ holding 0 s = true.
Proof. exact (conj dops_good inside). Qed.
