(** What requests about rules and overrides that overlap are to achieve. *)
From Coq Require Import List Bool Arith.
Import ListNotations.
From Verif Require Import AssocSync SpecAssocSync RuleSync.

(** Request i is q; it has the answer a; it has not been made yet *)
Definition is_req (i : nat) (q : req) (s : lim) : Prop := exists p, nth_error (l_threads s) i = Some (mkR q p).
Definition got (i : nat) (q : req) (a : lans) (s : lim) : Prop := nth_error (l_threads s) i = Some (mkR q (LEnd a)).
Definition unmade (i : nat) (s : lim) : Prop := nth_error (l_threads s) i = None.
(** Somebody has asked for q by now *)
Definition asked (q : req) (s : lim) : Prop := exists i, is_req i q s.
(** The rule r is there; the override x of r is there, with the key-values kv *)
Definition rule_there (r : nat) (g : kvs) (s : lim) : Prop := l_rules s r = Some g.
Definition over_there (r x : nat) (kv : kvs) (s : lim) : Prop := stored kv x (l_over s r).
(** Somebody has asked to delete a rule; an override of r *)
Definition some_rule_dropped (s : lim) : Prop := exists r, asked (DropRule r) s.
Definition some_override_dropped (r : nat) (s : lim) : Prop := exists x, asked (DropOver r x) s.
