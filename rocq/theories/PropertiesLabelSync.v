(** C91: what queries, matches and deletions of a one-to-many tree are shown of an item while other calls run.
    [rel_exec nils tr]: any number of overlapping calls about one relation (LabelSync.v), states newest first; [rl_back]: the calls that have returned; [rl_shown]: what
    callbacks were shown, oldest first: [sh_many] is ManyID(), None if that is empty; [sh_kv] are ManyKeyValues(). *)
From Coq Require Import List Bool Arith.
Import ListNotations.
From Verif Require Import AssocSync SpecAssocSync AssocSyncAnswers LabelSync LabelSyncProofs LabelSyncExamples.

(** C91: an item is shown with the key-values it is stored with, and never with the id of another item. *)
Theorem C91_right : forall nils s tr sh, rel_exec nils (s :: tr) -> In sh (rl_shown s) ->
  (sh_many sh = None \/ sh_many sh = Some (sh_item sh)) /\ exists s', In s' (s :: tr) /\ stored (sh_kv sh) (sh_item sh) (rl_tree s').
Proof. intros nils s tr sh E H. eapply shown_right; eauto. Qed.
Print Assumptions C91_right.
(** C91: once the call that has created an item has returned, the item is shown with its id. *)
Theorem C91_returned : forall nils tr1 s tr s' i kv x l, rel_exec nils (tr1 ++ s :: tr) -> In s' (tr1 ++ [s]) ->
  In i (rl_back s) -> answered i CFindCreate kv (RCreated x) (rl_tree s) -> rl_shown s' = rl_shown s ++ l ->
  forall sh, In sh l -> sh_item sh = x -> sh_many sh = Some x.
Proof. intros nils tr1 s tr s' i kv x l E I B A H. eapply returned; eauto. Qed.
Print Assumptions C91_returned.
(** C91: an item that is shown while no call creates something with its key-values has its id.  Missing: while one does (refuted below). *)
Theorem C91_quiet_partial : forall nils s' s tr sh, rel_exec nils (s' :: s :: tr) -> rl_shown s' = rl_shown s ++ [sh] ->
  (forall i, call_is i CFindCreate (sh_kv sh) (rl_tree s) -> In i (rl_back s)) -> sh_many sh = Some (sh_item sh).
Proof.
  intros nils s' s tr sh E H Q. inversion E as [|? ? ? E0 ST]; subst. rewrite (shows_new nils s s' tr [sh] E0 ST H sh (or_introl eq_refl)).
  assert (S : stored (sh_kv sh) (sh_item sh) (rl_tree s)).
  { destruct ST; cbn [rl_shown rl_tree] in *; try (rewrite <- (app_nil_r seen) in H at 1; apply app_inv_head in H; discriminate). apply app_inv_head in H. injection H as <-. assumption. }
  destruct (unnamed nils s tr _ _ E0 S) as [EQ | (_ & i & p & N & _ & NB)]; [exact EQ|]. destruct NB. apply Q. exists p. exact N.
Qed.
Print Assumptions C91_quiet_partial.
(** C91 fails while the creation runs: the item is stored, and shown, without an id. *)
Theorem C91_shown_refuted : ~ (forall s tr sh, rel_exec false (s :: tr) -> In sh (rl_shown s) -> sh_many sh = Some (sh_item sh)).
Proof.
  intros H. destruct shown_early as (s' & s & tr & E & _ & _ & _ & SH & _). inversion E as [|? ? ? E0 _]; subst.
  specialize (H s tr (mkShown 0 None [(1, 1)]) E0 ltac:(rewrite SH; left; reflexivity)). discriminate.
Qed.
Print Assumptions C91_shown_refuted.
(** An item is shown before and after its creation has returned. *)
Example C91_nonvacuous : exists s' s tr, rel_exec false (s' :: s :: tr) /\ answered 0 CFindCreate [(1, 1)] (RCreated 0) (rl_tree s) /\ In 0 (rl_back s) /\
  stored [(1, 1)] 0 (rl_tree s') /\ rl_shown s = [mkShown 0 None [(1, 1)]] /\ rl_shown s' = rl_shown s ++ [mkShown 0 (Some 0) [(1, 1)]] /\
  forall i c kv p, nth_error (st_threads (rl_tree s)) i = Some (mkThread c kv p) -> In i (rl_back s).
Proof. exact shown_early. Qed.
Print Assumptions C91_nonvacuous.
