(** What requests about rules and overrides that overlap are to achieve: they come to an end. *)
From Coq Require Import List Bool Arith.
Import ListNotations.
From Verif Require Import AssocSync RuleSync SpecRuleSync.

(** Request i takes a step *)
Definition goes_on (i : nat) (s s' : lim) : Prop := exists q p s1 p', nth_error (l_threads s) i = Some (mkR q p) /\ lstep s i q p s1 p' /\ s' = at_pc s1 i q p'.
Definition has_answer (i : nat) (s : lim) : Prop := exists q a, got i q a s.
Definition waits (i : nat) (s : lim) : Prop := (exists q, is_req i q s) /\ ~ has_answer i s.
Definition all_have_answers (s : lim) : Prop := forall i q, is_req i q s -> has_answer i s.
(** Whichever requests take steps, in whichever order, and no new ones come: P will hold *)
Inductive in_the_end (P : lim -> Prop) : lim -> Prop :=
| end_now s : P s -> in_the_end P s
| end_later s : (exists i s', goes_on i s s') -> (forall i s', goes_on i s s' -> in_the_end P s') -> in_the_end P s.
(** The key-values are not empty and given once each: other requests are refused before anything happens *)
Definition proper (q : req) : Prop := match q with NewRule g => kv_ok g | Override _ kv => kv_ok kv | _ => True end.
(** Every request is proper, and none is the deletion of one override *)
Definition ordinary (s : lim) : Prop := forall q, asked q s -> proper q /\ forall r x, q <> DropOver r x.
(** Request i will never get an answer, whatever happens *)
Definition never_answered (i : nat) (s : lim) : Prop := waits i s /\ forall tr tr', lexec (s :: tr) -> lexec (tr' ++ s :: tr) -> forall s', In s' tr' -> waits i s'.
