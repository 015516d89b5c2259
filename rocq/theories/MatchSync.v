(** Model of a match of an associated tree (internal/datastructures/btree_associated/threadsafe_match.go) that overlaps other calls.
    No proofs in this file.  ([Assoc.v] models the same match alone: the functions used here are defined there.)

    [h n] is the tree at moment n, as in [QuerySync.v]: a creation or deletion is one change, a destruction counts from the moment the id is marked;
    [readable n k v]: the node of (k, v) is not locked at moment n. *)
From Coq Require Import Permutation.
From Verif Require Import Datatypes SpecValues Collections Query Assoc.
Local Open Scope nat_scope.

Section Run.
  Context {A : Type} (h : nat -> atree A) (readable : nat -> string -> EV -> Prop) (mq : MatchQuery).

  (** The value of the match is looked up (btree Find): these stored values are visited *)
  Definition looks_at (v : MatchValue) (w : EV) : bool := visitb LFind (mv_value v) (mv_tr v) w.
  (** threadsafe_match.go:48-93, one key: the id nodes visited, each with the moment at which it was read.  A node that is there all the time is
      met; one that comes or goes may be met or not *)
  Definition reads_of (from to : nat) (k : string) (v : MatchValue) (reads : list (EV * nat)) : Prop :=
    (forall w n, In (w, n) reads -> good w /\ looks_at v w = true /\ from <= n <= to /\ readable n k w /\ node_of (a_index (h n)) k w <> None) /\
    (forall w, good w -> looks_at v w = true -> (forall n, from <= n <= to -> node_of (a_index (h n)) k w <> None) -> exists w' n, In (w', n) reads /\ veq w w' = true).
  (** keyIDs[key], :52-84 *)
  Definition levels_of (k : string) (reads : list (EV * nat)) : levels :=
    fold_left (merge_levels (mq_min mq) (mq_max mq) 0)
      (flat_map (fun p => match node_of (a_index (h (snd p))) k (fst p) with Some lv => [lv] | None => [] end) reads) [].
  (** :48-93: one key after the other; keys without entry are absent *)
  Inductive keys_run : nat -> list (string * MatchValue) -> nat -> list (string * levels) -> Prop :=
  | KR_end n : keys_run n [] n []
  | KR_key n m k v r reads to kl : n <= m -> reads_of n m k v reads -> keys_run m r to kl ->
      keys_run n ((k, v) :: r) to (match levels_of k reads with [] => kl | lv => (k, lv) :: kl end).
  (** :135-147: the ids are looked up one after the other; one that is not there (any more) ends the match *)
  Inductive visits : nat -> list string -> nat -> list (item A) -> Prop :=
  | VI_end n : visits n [] n []
  | VI_found n m x r it to its : n <= m -> find_item (a_items (h m)) x = Some it -> visits m r to its -> visits n (x :: r) to (it :: its)
  | VI_gone n m x r : n <= m -> find_item (a_items (h m)) x = None -> visits n (x :: r) m [].
  (** :30-153 MatchAction, validated: the items offered to the callback if that never stops the match.  Go's maps and sets come in any order.  A
      panic has no run *)
  Inductive match_run (from to : nat) (its : list (item A)) : Prop :=
  | MR keys mid kl kl' groups ids : Permutation (mq_kvs mq) keys -> keys_run from keys mid kl -> Permutation kl kl' ->
      GenerateStringPermutations (map fst kl') (match mq_min mq with Some m => m | None => 0%Z end) (match mq_max mq with Some m => m | None => (-1)%Z end) = Some groups ->
      Forall2 (fun g l => Permutation l (set_values (group_ids kl' (length g) g true []))) groups ids -> visits mid (concat ids) to its ->
      match_run from to its.
End Run.
