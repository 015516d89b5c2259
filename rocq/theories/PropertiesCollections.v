(** Properties C16 (key combinations) and C17 (id sets). *)
From Coq Require Import Sorted.
From Verif Require Import Datatypes Collections SpecCollections CollectionsProofs.
Local Open Scope nat_scope.

(** C16: an error iff the bounds cross; otherwise exactly the non-empty sub-combinations within the bounds; each
    once if the keys are distinct; ordered by size, then lexicographically, if the keys are given in increasing
    order; for distinct keys in any order (the callers range over a map) the same holds of the combinations written
    in increasing order. *)
Theorem C16_combinations : forall keys mn mx,
  (GenerateStringPermutations keys mn mx = None <-> (mx <> -1 /\ mx < mn)%Z) /\
  (forall l, GenerateStringPermutations keys mn mx = Some l -> forall c, In c l <-> subseq c keys /\ size_within mn mx c) /\
  (forall l, GenerateStringPermutations keys mn mx = Some l -> NoDup keys -> NoDup l) /\
  (forall l, GenerateStringPermutations keys mn mx = Some l -> StronglySorted (fun a b => str_ltb a b = true) keys ->
     StronglySorted comes_before l) /\
  (forall l, GenerateStringPermutations keys mn mx = Some l -> NoDup keys -> StronglySorted comes_before_when_sorted l).
Proof.
  intros keys mn mx. destruct (permutations_lemma keys mn mx) as (A & B & C & D).
  exact (conj A (conj B (conj C (conj D (permutations_any_order keys mn mx))))).
Qed.
Print Assumptions C16_combinations.

Example C16_nonvacuous :
  StronglySorted (fun a b => str_ltb a b = true) ["a"; "b"; "c"]%string /\
  GenerateStringPermutations ["a"; "b"; "c"]%string 1 (-1) =
    Some [["a"]; ["b"]; ["c"]; ["a"; "b"]; ["a"; "c"]; ["b"; "c"]; ["a"; "b"; "c"]]%string /\
  GenerateStringPermutations ["a"; "b"; "c"]%string 2 2 = Some [["a"; "b"]; ["a"; "c"]; ["b"; "c"]]%string /\
  GenerateStringPermutations ["a"; "b"; "c"]%string 3 2 = None.
Proof. split; [repeat constructor|]. vm_compute. auto. Qed.

(** C17: after any history the values are exactly the elements of the mathematical set, each once, and the size is
    their number. *)
Theorem C17_sets : forall init ops,
  NoDup (set_values (set_run init ops)) /\
  set_size (set_run init ops) = length (set_values (set_run init ops)) /\
  forall x, In x (set_values (set_run init ops)) <-> denote init ops x.
Proof. exact set_history_lemma. Qed.
Print Assumptions C17_sets.

(** C17, a defect outside the interface the queries use: SortedValues is always empty. *)
Theorem C17_sorted_values_refuted : exists s, set_size s = 2 /\ set_sorted_values s = [].
Proof. exists (set_new ["a"; "b"]%string). split; reflexivity. Qed.
Print Assumptions C17_sorted_values_refuted.

Example C17_nonvacuous :
  set_values (set_run ["a"; "b"; "a"]%string [OAddBulk ["c"; "d"]%string; ORemove "a"%string; OIntersection ["d"; "b"; "x"]%string]) = ["d"; "b"]%string.
Proof. reflexivity. Qed.
