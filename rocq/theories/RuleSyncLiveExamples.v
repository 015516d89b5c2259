(** An execution of [RuleSync.v] with requests that wait. *)
From Coq Require Import List Bool Arith Lia.
Import ListNotations.
From Verif Require Import AssocSync SpecAssocSync AssocSyncBase RuleSync SpecRuleSync RuleSyncLocks RuleSyncProofs RuleSyncExamples SpecRuleSyncLive RuleSyncLive.

(** Somebody creates an override of a rule (within the rule's lock), somebody deletes the rule and waits for that, somebody makes a check *)
Lemma ordinary_case : exists s tr, lexec (s :: tr) /\ ordinary s /\ waits 1 s /\ waits 2 s /\ waits 3 s /\ locked_by reads (l_threads s) 0 /\
  (forall s', ~ goes_on 2 s s') /\ ~ all_have_answers s.
Proof.
  destruct made_rule as (s & tr & E & M & R & RX & D & T & W & N). pose proof (is_made _ _ E M (DropRule 0) (or_intror eq_refl)) as E1. rewrite T in E1. cbn [app] in E1.
  eapply takes with (i := 2) in E1; [|reflexivity|eapply (L_mark _ _ 0); exact D]. unfold at_pc in E1. fld.
  match type of E1 with lexec (?a :: ?t) => pose proof (is_made a t E1 M (Limits all all) (or_introl eq_refl)) as E2 end. fld.
  assert (TH : forall (s0 : lim) q, l_threads s0 = [mkR (NewRule [(1, 1)]) (LEnd (NewIs 0)); mkR (Override 0 [(1, 1)]) (LInside 0); mkR (DropRule 0) LMarked; mkR (Limits all all) LCheck] -> asked q s0 -> q = NewRule [(1, 1)] \/ q = Override 0 [(1, 1)] \/ q = DropRule 0 \/ q = Limits all all).
  { intros s0 q TE (i & p & H). rewrite TE in H. do 4 (destruct i as [|i]; [injection H as <- _; auto|]). destruct i; discriminate. }
  match type of E2 with lexec (?a :: ?t) => exists a, t; assert (TE : l_threads a = [mkR (NewRule [(1, 1)]) (LEnd (NewIs 0)); mkR (Override 0 [(1, 1)]) (LInside 0); mkR (DropRule 0) LMarked; mkR (Limits all all) LCheck]) by reflexivity end.
  split; [exact E2|]. match type of TE with l_threads ?a = _ => set (sf := a) in * end. assert (RF : l_rules sf 0 = Some [(1, 1)]) by exact R. clearbody sf.
  assert (WT : forall i q p, nth_error (l_threads sf) i = Some (mkR q p) -> (forall a, p <> LEnd a) -> waits i sf). { intros i q p H NE. split; [exists q, p; exact H|]. intros (q' & a & G). unfold got in G. rewrite H in G. injection G as _ ->. eapply NE; reflexivity. }
  assert (RD : locked_by reads (l_threads sf) 0) by (exists 1; eexists; split; [rewrite TE; reflexivity|reflexivity]).
  split; [|split; [|split; [|split; [|split; [exact RD|split]]]]].
  - intros q A. destruct (TH sf q TE A) as [-> | [-> | [-> | ->]]]; (split; [|discriminate]); cbn; auto; split; try discriminate; cbn; split; auto; intros y [].
  - eapply WT; [rewrite TE; reflexivity|discriminate].
  - eapply WT; [rewrite TE; reflexivity|discriminate].
  - eapply WT; [rewrite TE; reflexivity|discriminate].
  - intros s' (q & p & s1 & p' & H & ST & _). rewrite TE in H. injection H as <- <-. inversion ST; subst; congruence.
  - intros H. destruct (H 2 (DropRule 0)) as (q' & a & G); [eexists; rewrite TE; reflexivity|]. unfold got in G. rewrite TE in G. discriminate.
Qed.
