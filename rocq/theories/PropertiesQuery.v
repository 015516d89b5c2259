(** Properties C18 (query validation) and C19 (tag matching). *)
From Coq Require Import SpecFloat.
From Verif Require Import Datatypes SpecValues DatatypesProofs Query SpecQuery QueryProofs.
Local Open Scope nat_scope.

(** C18: a query passes validation iff it is absent (select all) or every node of it is present and every
    selection in it is well formed. *)
Theorem C18_query_validate_exact : forall q, q_validate q = true <-> query_ok q.
Proof. exact q_validate_iff. Qed.
Print Assumptions C18_query_validate_exact.

(** C18: evaluating a validated query against key-values never panics. *)
Theorem C18_match_never_panics : forall q tags,
  q_validate q = true -> q <> QNil -> query_no_nan q -> kvs_good tags -> MatchTags q tags <> None.
Proof.
  intros q tags HV Hq HN HG. apply q_validate_nonnil in HV; auto.
  destruct (MatchTags_computes q tags) as (b & -> & _); [|exact HG|discriminate].
  eapply every_node_impl; [|exact (every_node_and _ _ _ HV HN)].
  intros sel ors ands [H1 H2] s Hs. split; [auto|]. intros k v HI. eapply H2; eauto.
Qed.
Print Assumptions C18_match_never_panics.

(** C18 fails for the absent query: it passes validation ("select all") and then the matcher dereferences nil. *)
Theorem C18_nil_query_refuted : q_validate QNil = true /\ forall tags, MatchTags QNil tags = None.
Proof. split; reflexivity. Qed.
Print Assumptions C18_nil_query_refuted.

(** C19: on a validated query none of whose nodes consists of Or parts only, matching computes the meaning.
    Missing: nodes with Or parts only (refuted below). *)
Theorem C19_match_partial : forall q tags,
  q_validate q = true -> q <> QNil -> query_no_nan q -> kvs_good tags ->
  every_node (fun sel ors ands => sel <> None \/ ands <> [] \/ ors = []) q ->
  exists b, MatchTags q tags = Some b /\ (b = true <-> query_holds_tags q tags).
Proof.
  intros q tags HV Hq HN HG HO. apply q_validate_nonnil in HV; auto.
  destruct (MatchTags_computes q tags) as (b & E & Hb); [|exact HG|].
  - eapply every_node_impl; [|exact (every_node_and _ _ _ HV HN)].
    intros sel ors ands [H1 H2] s Hs. split; [auto|]. intros k v HI. eapply H2; eauto.
  - exists b. split; [exact E|]. rewrite Hb. apply mt_holds_meaning. exact HO.
Qed.
Print Assumptions C19_match_partial.

Definition is_int (z : Z) : Query := Q (Some (mkSel [] [("k", mkVQ (Int z) CEquals (mkTR T_int T_int))]%string None None)) None None.

(** C19 fails for a query that is only "this or that": it matches everything. *)
Theorem C19_or_only_refuted : exists q tags,
  q_validate q = true /\ q <> QNil /\ kvs_good tags /\ ~ query_holds_tags q tags /\ MatchTags q tags = Some true.
Proof.
  exists (Q None (Some [is_int 1; is_int 2]) None), [("k", Int 3)]%string.
  split; [reflexivity|]. split; [discriminate|]. split.
  { intros k v. unfold kv_get. destruct (String.eqb "k" k); [|discriminate]. intros [= <-]. split; [constructor|intros [|]; discriminate]. }
  split; [|reflexivity].
  cbn. intros [(_ & _ & [H | [H | H]])|H]; try congruence.
    assert (K : forall z, z <> 3%Z -> ~ tags_hold (mkSel [] [("k", mkVQ (Int z) CEquals (mkTR T_int T_int))]%string None None) [("k", Int 3)]%string).
    { intros z Hz [_ HK]. specialize (HK _ _ (or_introl eq_refl)). cbn in HK. destruct HK as (m & [= <-] & _ & HE).
      destruct HE as [HE | [HE | [_ HE]]]; [discriminate|discriminate|]. inversion HE. congruence. }
    destruct H as [[(H & _) | []] | [[(H & _) | []] | []]]; eapply K; [|exact H| |exact H]; lia.
Qed.
Print Assumptions C19_or_only_refuted.

(** Non-vacuity: a nested query with a range, a [!=] and an Or; and key-values on both sides of it. *)
Definition nested : Query :=
  Q (Some (mkSel [] [("n", mkVQ (Int 5) CGreaterEq (mkTR T_int8 T_any)); ("c", mkVQ (Str "red") CNotEquals (mkTR 1 13))]%string None (Some 3%Z)))
    (Some [is_int 1])
    (Some [Q (Some (mkSel [] [] (Some 2%Z) None)) None None]).
Example C19_nonvacuous :
  q_validate nested = true /\ query_no_nan nested /\
  every_node (fun sel ors ands => sel <> None \/ ands <> [] \/ ors = []) nested /\
  MatchTags nested [("n", Int 7); ("c", Str "blue")]%string = Some true /\
  MatchTags nested [("n", Int 7)]%string = Some false /\
  MatchTags nested [("n", Int 7); ("c", Str "red")]%string = Some false /\
  MatchTags nested [("n", Int 4); ("k", Int 1)]%string = Some true.
Proof.
  split; [reflexivity|]. split.
  { cbn. repeat split; auto; intros s k v [= <-]; cbn; intros HI; repeat (destruct HI as [[= <- <-] | HI]; [intros [|]; discriminate|]); destruct HI. }
  split; [cbn; repeat split; left; discriminate|]. vm_compute. auto.
Qed.
