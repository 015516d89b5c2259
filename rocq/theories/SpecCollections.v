(** Specification vocabulary: sub-combinations of a list, and operations on mathematical sets. *)
From Coq Require Import Sorted Permutation.
From Verif Require Import Datatypes Collections.
Local Open Scope nat_scope.

(** [c] is what is left of [l] after leaving out some of its positions. *)
Inductive subseq {A} : list A -> list A -> Prop :=
| Sub_nil l : subseq [] l
| Sub_take x c l : subseq c l -> subseq (x :: c) (x :: l)
| Sub_skip x c l : subseq c l -> subseq c (x :: l).

Definition size_within (mn mx : Z) (c : list string) : Prop :=
  c <> [] /\ (mn <= Z.of_nat (length c))%Z /\ (mx = (-1)%Z \/ (Z.of_nat (length c) <= mx)%Z).

(** Lexicographic order of two lists. *)
Inductive lex_before : list string -> list string -> Prop :=
| Lex_head x y a b : str_ltb x y = true -> lex_before (x :: a) (y :: b)
| Lex_tail x a b : lex_before a b -> lex_before (x :: a) (x :: b).
Definition comes_before (a b : list string) : Prop :=
  length a < length b \/ (length a = length b /\ lex_before a b).
(** The same for the two combinations written in increasing order. *)
Definition increasing (l : list string) : Prop := StronglySorted (fun a b => str_ltb a b = true) l.
Definition comes_before_when_sorted (a b : list string) : Prop :=
  forall a' b', Permutation a a' /\ increasing a' -> Permutation b b' /\ increasing b' -> comes_before a' b'.

(** Histories of set operations and the set they denote. *)
Inductive set_op := OAdd (v : string) | OAddBulk (vs : list string) | ORemove (v : string) | OIntersection (vs : list string) | OClear.
Definition set_step (s : sset) (o : set_op) : sset :=
  match o with
  | OAdd v => set_add s v | OAddBulk vs => set_add_bulk s vs | ORemove v => set_remove s v
  | OIntersection vs => set_intersection s vs | OClear => set_clear s end.
Definition set_run (init : list string) (ops : list set_op) : sset := fold_left set_step ops (set_new init).

Definition denote_op (P : string -> Prop) (o : set_op) : string -> Prop :=
  match o with
  | OAdd v => fun x => P x \/ x = v
  | OAddBulk vs => fun x => P x \/ In x vs
  | ORemove v => fun x => P x /\ x <> v
  | OIntersection vs => fun x => P x /\ In x vs
  | OClear => fun _ => False end.
Definition denote (init : list string) (ops : list set_op) : string -> Prop :=
  fold_left denote_op ops (fun x => In x init).
