(** Vocabulary for matches that overlap other calls. *)
From Verif Require Import Datatypes SpecValues Query SpecQuery Assoc SpecAssoc SpecQuerySync.
Local Open Scope nat_scope.
(** No item that matches goes away between two moments *)
Definition none_leaves {A} (h : nat -> atree A) (from to : nat) (mq : MatchQuery) : Prop :=
  forall n m x kv, from <= n -> n <= m -> m <= to -> stored_at h n x kv -> match_holds mq kv -> stored_at h m x kv.
