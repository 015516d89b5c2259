(** Executions of [CounterSync.v]. *)
From Coq Require Import List Bool Arith ZArith Lia Permutation.
Import ListNotations.
From Verif Require Import AssocSync SpecAssocSync AssocSyncExamples CounterSync SpecCounterSync.
Local Open Scope Z_scope.

(** Call i takes the given step; a call begins *)
Ltac cgo E i rule := lazymatch type of E with cexec (mkC (mkState ?w ?ts) ?v ?cs :: ?tr) =>
  let o := eval vm_compute in (nth_error ts i) in let oc := eval vm_compute in (nth_error cs i) in
  lazymatch o with Some (mkThread ?c ?kv ?p) => lazymatch oc with Some ?cc =>
    let T := fresh "T" in eassert (T : tstep false i c kv w p _ _); [eapply rule; side|];
    lazymatch type of T with tstep _ _ _ _ _ _ ?w' ?p' =>
      let B := fresh "B" in eassert (B : called (hits p p') cc v _ _); [cbn; repeat split; reflexivity|];
      lazymatch type of B with called _ _ _ ?v' ?cc' =>
      let ts' := eval vm_compute in (set_thread ts i (mkThread c kv p')) in
      let cs' := eval cbv -[set_index set_item plus64] in (set_nth cs i cc') in
      let w1 := eval cbv -[set_index set_item] in w' in
      let E' := fresh "E" in assert (E' : cexec (mkC (mkState w1 ts') v' cs' :: mkC (mkState w ts) v cs :: tr)); [exact (CX_step _ _ _ E (CS_step w ts v cs i c kv p w' p' cc v' cc' eq_refl eq_refl T B))|]; clear T B E; rename E' into E
    end end end end end.
Ltac ccall E o kv := lazymatch type of E with cexec (mkC (mkState ?w ?ts) ?v ?cs :: ?tr) =>
    let ts' := eval vm_compute in (ts ++ [mkThread (call_of o) kv (start (call_of o) kv)]) in
    let cs' := eval vm_compute in (cs ++ [mkCall o None]) in
    let A := fresh "A" in assert (A : allowed false w (call_of o) kv); [split; [split; [discriminate|cbn; intuition lia]|cbn; auto]|];
    let E' := fresh "E" in assert (E' : cexec (mkC (mkState w ts') v cs' :: mkC (mkState w ts) v cs :: tr)); [exact (CX_step _ _ _ E (CS_call w ts v cs o kv A))|]; clear A E; rename E' into E end.

(** Two increments by 2 and 3 at the same time, neither finds anything at first; one creates the counter, the other finds it *)
Lemma two_at_once : exists s tr, cexec (s :: tr) /\ all_ended s /\ (forall i o, does i o [(1, 1)]%nat s -> exists d, o = Add d /\ 0 < d) /\ amounts [(1, 1)]%nat s = [2; 3].
Proof.
  pose proof CX_new as E. unfold c0, empty_world in E. ccall E (Add 2) [(1, 1)]%nat. ccall E (Add 3) [(1, 1)]%nat. cgo E 0%nat S_query_none. cgo E 1%nat S_query_none. cgo E 0%nat S_pin_new. cgo E 1%nat S_pin.
  cgo E 0%nat S_pin_end. cgo E 1%nat S_pin_end. cgo E 1%nat S_lock. cgo E 1%nat S_new. cgo E 1%nat S_created. cgo E 1%nat S_unlock. cgo E 0%nat S_lock. cgo E 0%nat S_check. cgo E 1%nat S_unlock_end. cgo E 0%nat S_found.
  cgo E 0%nat S_unlock. cgo E 0%nat S_unlock_end.
  eexists _, _. split; [exact E|]. split; [|split].
  - intros [|[|i]]; [right; unfold ended, answered; cbn; eauto..|left; unfold unmade; cbn; destruct i; reflexivity].
  - intros i o (_ & a & N). cbn in N. destruct i as [|[|i]]; [injection N as <- <-; eexists; split; [reflexivity|lia]..|destruct i; discriminate].
  - vm_compute. reflexivity.
Qed.
(** A query, a decrement and a set while an increment runs: the set makes it 7, the query returns 7, the decrement takes 2 *)
Lemma mixed : exists s tr, cexec (s :: tr) /\ has_read 3 (Some 7) s /\ counter [(1, 1)]%nat (Some 5) s /\ all_ended s.
Proof.
  pose proof CX_new as E. unfold c0, empty_world in E. ccall E (Add 2) [(1, 1)]%nat. cgo E 0%nat S_query_none. cgo E 0%nat S_pin_new. cgo E 0%nat S_pin_end. cgo E 0%nat S_lock. cgo E 0%nat S_new. cgo E 0%nat S_created. cgo E 0%nat S_unlock.
  ccall E (SetTo 7) [(1, 1)]%nat. ccall E (Take (-2)) [(1, 1)]%nat. ccall E Read [(1, 1)]%nat. cgo E 2%nat D_find. cgo E 2%nat D_all. cgo E 3%nat S_query. cgo E 3%nat S_query_end. cgo E 3%nat S_look.
  cgo E 1%nat S_query. cgo E 1%nat S_query_end. cgo E 1%nat S_look. cgo E 1%nat S_look_found. cgo E 3%nat S_look_found.
  cgo E 2%nat D_lock. cgo E 2%nat D_check. cgo E 2%nat D_refuse. cgo E 2%nat D_unlock. cgo E 2%nat D_unlock_end. cgo E 2%nat D_clean_keep. cgo E 2%nat D_clean_end. cgo E 0%nat S_unlock_end.
  eexists _, _. split; [exact E|]. split; [|split].
  - split; [unfold ended, answered; cbn; eauto|]. vm_compute. reflexivity.
  - exists 0%nat. split; vm_compute; reflexivity.
  - intros [|[|[|[|i]]]]; [right; unfold ended, answered; cbn; eauto..|left; unfold unmade; cbn; destruct i; reflexivity].
Qed.
