(** C90: matches of an associated tree that overlap creations and deletions.
    [history h]: any sequence of calls, [h n] being the tree after n moments; [match_run h readable mq from to its]: a match that starts at moment
    [from] and ends at [to] may visit exactly the items [its] (MatchSync.v). *)
From Coq Require Import String List.
From Verif Require Import Datatypes SpecValues Query SpecQuery QueryProofs Assoc SpecAssoc AssocProofs AssocOps AssocQueryProofs QuerySync SpecQuerySync QuerySyncProofs QuerySyncExamples
  MatchSync SpecMatchSync MatchSyncProofs MatchSyncAlone.
Local Open Scope nat_scope.

(** C90: no id is visited twice; every visited item matches, and was stored at some moment of the match. *)
Theorem C90_found : forall A (h : nat -> atree A) readable from to mq its,
  history h -> mq_validate mq = true -> match_arg mq -> match_run h readable mq from to its ->
  NoDup (map it_id its) /\ forall it, In it its -> match_holds mq (it_kv it) /\ exists n, from <= n /\ n <= to /\ In it (a_items (h n)).
Proof. intros A h readable from to mq its HH V M R. eapply match_found; eauto. Qed.
Print Assumptions C90_found.

(** C90: an item that matches and is stored during the whole match is visited, if no item that matches goes away meanwhile.
    Missing: the same without [none_leaves], which fails (below). *)
Theorem C90_stored_partial : forall A (h : nat -> atree A) readable from to mq its x kv,
  history h -> mq_validate mq = true -> match_arg mq -> match_run h readable mq from to its -> none_leaves h from to mq ->
  (forall n, from <= n -> n <= to -> stored_at h n x kv) -> match_holds mq kv ->
  exists it, In it its /\ it_id it = x /\ it_kv it = kv.
Proof. intros A h readable from to mq its x kv HH V M R NL S H. eapply match_stored; eauto. Qed.
Print Assumptions C90_stored_partial.

(** C90 fails if one is deleted: an item that matches and is never touched is not visited, because the match ends at the id of another item that has
    been deleted since the index was read. *)
Theorem C90_stored_refuted : exists (h : nat -> atree nat) mq its x kv,
  history h /\ mq_validate mq = true /\ match_arg mq /\ match_run h (fun _ _ _ => True) mq 0 1 its /\
  (forall n, 0 <= n -> n <= 1 -> stored_at h n x kv) /\ match_holds mq kv /\ ~ (exists it, In it its /\ it_id it = x).
Proof.
  exists gone_h, both, [], "new"%string, sync_kv. split; [exact gone_history|]. split; [apply both_ok|]. split; [apply both_ok|]. split; [exact cut|].
  split; [|split; [apply both_holds|intros (it & [] & _)]].
  intros [|[|n]] _ L; [| |lia]; exists (mkItem "new"%string sync_kv 7); (split; [cbn; auto|auto]).
Qed.
Print Assumptions C90_stored_refuted.

(** What the tree matches at rest (C23) is one of these runs: the runs are not too few.  (With crossed bounds the match panics.) *)
Theorem C90_at_rest : forall A (h : nat -> atree A) (readable : nat -> string -> EV -> Prop) n mq,
  history h -> (forall k v, readable n k v) -> mq_validate mq = true -> match_arg mq ->
  ~ (exists b, mq_max mq = Some b /\ b <> -1 /\ b < match mq_min mq with Some a => a | None => 0 end)%Z ->
  exists its, match_run h readable mq n n its /\ forall S (cb : S -> item A -> S * bool) s, MatchAction (h n) mq cb s = Some (Some (iterate cb s its)).
Proof. intros A h readable n mq HH RD V M NC. apply at_rest; auto. apply (history_ents h HH). Qed.
Print Assumptions C90_at_rest.

(** A match during which an item is created: the old item is stored all the time and visited, the new one is visited as well. *)
Example C90_nonvacuous :
  history sync_h /\ mq_validate both = true /\ match_arg both /\
  match_run sync_h (fun _ _ _ => True) both 0 1 [mkItem "old"%string sync_old 5; mkItem "new"%string sync_kv 7] /\ none_leaves sync_h 0 1 both /\
  (forall n, 0 <= n -> n <= 1 -> stored_at sync_h n "old"%string sync_old) /\ match_holds both sync_old /\
  ~ (exists b, mq_max both = Some b /\ b <> -1 /\ b < match mq_min both with Some a => a | None => 0 end)%Z.
Proof.
  split; [exact sync_history|]. split; [apply both_ok|]. split; [apply both_ok|]. split; [exact grows|]. split; [exact grows_only|].
  split; [|split; [apply both_holds|intros (b & [=] & _)]].
  intros [|[|n]] _ L; [| |lia]; exists (mkItem "old"%string sync_old 5); (split; [cbn; auto|auto]).
Qed.
