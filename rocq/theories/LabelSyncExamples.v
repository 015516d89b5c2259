(** Executions of [LabelSync.v]. *)
From Coq Require Import List Bool Arith Lia.
Import ListNotations.
From Verif Require Import AssocSync SpecAssocSync AssocSyncBase AssocSyncInv AssocSyncChanges AssocSyncExamples LabelSync LabelSyncProofs.

Lemma lift nils t ts : exec nils true (t :: ts) -> (forall th, In th (st_threads t) -> offered (th_call th)) -> exists tr, rel_exec nils (mkRel t (fun _ => None) [] [] :: tr).
Proof.
  intros E. remember (t :: ts) as l eqn:EL. revert t ts EL. induction E as [|s s' tr E IH ST]; intros t ts [= <- <-] H; [exists []; constructor|].
  destruct (IH s tr eq_refl) as (tr' & X).
  - intros th HI. apply In_nth_error in HI as (i & HI). destruct (step_since _ _ _ _ _ E ST) as (_ & _ & _ & F & _). destruct th as [c kv p]. destruct (F i c kv p HI) as (p' & N). apply (H _ (nth_error_In _ _ N)).
  - eexists. eapply RX_step; [exact X|]. apply R_tree; assumption.
Qed.
(** An item is shown while the creation that has stored it has not set its id yet, and once more afterwards *)
Lemma shown_early : exists s' s tr, rel_exec false (s' :: s :: tr) /\ answered 0 CFindCreate [(1, 1)] (RCreated 0) (rl_tree s) /\ In 0 (rl_back s) /\
  stored [(1, 1)] 0 (rl_tree s') /\ rl_shown s = [mkShown 0 None [(1, 1)]] /\ rl_shown s' = rl_shown s ++ [mkShown 0 (Some 0) [(1, 1)]] /\
  forall i c kv p, nth_error (st_threads (rl_tree s)) i = Some (mkThread c kv p) -> In i (rl_back s).
Proof.
  pose proof (EX_new false true) as E. unfold empty_world in E. call E CFindCreate [(1, 1)]. go E 0 S_query_none. create1 E 0.
  match type of E with exec _ _ (?t :: ?ts) => destruct (lift false t ts E) as (tr & X); [intros th [<- | []]; left; reflexivity|];
    assert (X1 := RX_step _ _ _ _ X (R_show false t _ [] [] 0 [(1, 1)] ltac:(side) eq_refl)) end.
  match type of X1 with rel_exec _ (mkRel ?t ?m ?b ?sn :: ?r) =>
    assert (X2 := RX_step _ _ _ _ X1 (R_created false t m b sn 0 [(1, 1)] 0 eq_refl ltac:(cbn; tauto))) end.
  match type of X2 with rel_exec _ (mkRel ?t ?m ?b ?sn :: ?r) =>
    assert (X3 := RX_step _ _ _ _ X2 (R_show false t m b sn 0 [(1, 1)] ltac:(side) eq_refl)) end.
  eexists _, _, _. split; [exact X3|]. split; [reflexivity|]. split; [left; reflexivity|]. split; [reflexivity|]. split; [reflexivity|]. split; [reflexivity|].
  intros [|[|i]] c kv p N; cbn in N; [left; reflexivity|discriminate|discriminate].
Qed.
