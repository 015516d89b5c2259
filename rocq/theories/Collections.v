(** Model of pkg/datamanipulation/slice_manipulation.go and internal/datastructures/set/set.go.
    No proofs in this file. *)
From Verif Require Import Datatypes.
Local Open Scope nat_scope.

(** * GenerateStringPermutations.  [mn] and [mx] are Go ints; [mx = -1] means no upper bound. *)
Section Perm.
  Variables mn mx : Z.

  (** slice_manipulation.go:98-127 [generateStringGroups].  The inner fixpoint is the loop :122-124. *)
  Fixpoint generateStringGroups (suffix prefix : list string) {struct suffix} : list (list string) :=
    let loop :=
      (fix loop (s : list string) : list (list string) :=
         match s with
         | [] => []
         | x :: r => generateStringGroups r (prefix ++ [x]) ++ loop r
         end) in
    let len := Z.of_nat (length prefix) in
    if Z.ltb len mn then loop suffix
    else if Z.leb mn len && (Z.leb len mx || Z.eqb mx (-1)) then prefix :: loop suffix
    else if Z.ltb mx len && negb (Z.eqb mx (-1)) then []
    else loop suffix.

  (** The loop :89-93 of generateStringPairs: [i] runs over the keys after the first *)
  Fixpoint pairs_loop (k0 : string) (rest : list string) : list (list string) :=
    match rest with
    | [] => []
    | x :: r => generateStringGroups r [k0; x] ++ pairs_loop k0 r
    end.

  (** :64-96 [generateStringPairs] *)
  Fixpoint generateStringPairs (keys : list string) : list (list string) :=
    match keys with
    | [] => []
    | k0 :: rest =>
        match rest with
        | [] => if Z.ltb 1 mn || (Z.ltb mx 1 && negb (Z.eqb mx (-1))) then [] else [[k0]]
        | _ =>
            (if Z.leb mn 1 && (Z.leb 1 mx || Z.eqb mx (-1)) then [[k0]] else []) ++
            generateStringPairs rest ++ pairs_loop k0 rest
        end
    end.
End Perm.

(** :37-59, the comparison given to sort.SliceStable.  It also sorts both slices in place; for keys given in sorted
    order that changes nothing; otherwise the order of the strings inside a combination (irrelevant to the caller,
    which intersects over them) is not modelled. *)
Fixpoint lex_less (a b : list string) : bool :=
  match a, b with
  | x :: a', y :: b' => if str_ltb x y then true else if str_ltb y x then false else lex_less a' b'
  | _, _ => true
  end.
Definition perm_less (a b : list string) : bool :=
  if Nat.ltb (length a) (length b) then true
  else if Nat.eqb (length a) (length b) then lex_less (sort_strings a) (sort_strings b)
  else false.

(** sort.SliceStable, as an insertion sort *)
Fixpoint perm_insert (c : list string) (l : list (list string)) : list (list string) :=
  match l with
  | [] => [c]
  | d :: r => if perm_less c d then c :: l else d :: perm_insert c r
  end.
Definition perm_sort (l : list (list string)) : list (list string) := fold_right perm_insert [] l.

(** :27-62 [GenerateStringPermutations]; [None] = the error *)
Definition GenerateStringPermutations (strings : list string) (mn mx : Z) : option (list (list string)) :=
  if Z.ltb mx mn && negb (Z.eqb mx (-1)) then None
  else Some (perm_sort (generateStringPairs mn mx strings)).

(** * set.go, at string (the type it is used with).  A Go map with empty values is modelled by a list without
    duplicates; [Values] ranges over the map, so its order is arbitrary: the model gives one. *)
Definition sset := list string.
Definition mem (v : string) (s : sset) : bool := existsb (String.eqb v) s.
(** set.go:49-51 *)
Definition set_add (s : sset) (v : string) : sset := if mem v s then s else s ++ [v].
(** :53-57 *)
Definition set_add_bulk (s : sset) (vs : list string) : sset := fold_left set_add vs s.
(** :40-47 *)
Definition set_new (vs : list string) : sset := set_add_bulk [] vs.
(** :59-61 *)
Definition set_clear (s : sset) : sset := [].
(** :63-78 *)
Definition set_intersection (s : sset) (vs : list string) : sset :=
  match vs with
  | [] => []
  | _ => fold_left (fun acc v => if mem v s then set_add acc v else acc) vs []
  end.
(** :80-82 *)
Definition set_remove (s : sset) (v : string) : sset := filter (fun x => negb (String.eqb x v)) s.
(** :84-91 *)
Definition set_values (s : sset) : list string := s.
(** :93-101: the values are never copied, an empty slice is sorted and returned *)
Definition set_sorted_values (s : sset) : list string := [].
(** :103-105 *)
Definition set_size (s : sset) : nat := length s.
