(** Model of requests about rules and their overrides that overlap (internal/limiter/rules/rules_client_local.go,
    overrides/overrides_client_local.go): any number of goroutines.  No proofs in this file.  ([Limiter.v] has the same functions one at a
    time, with the limits.)

    What is said about the tree of the rules: a callback of a query or match runs while the item is read-locked in the B-tree associatedIDs
    (btree/threadsafe_find.go:38-58), the callback of DestroyByAssociatedID while it is write-locked (btree/threadsafe_delete.go:76-145) and the id is
    marked (btree/threadsafe_destroy.go:31-56).  Creating a rule is one step here (AssocSync.v has it in full), and a call waits only for
    the node of its own rule (more waiting allows fewer executions).  The overrides of each rule are an associated tree as in AssocSync.v
    (btree_one_to_many/btree_one_to_many.go), with DestroyByAssociatedID in use. *)
From Coq Require Import List Bool Arith.
Import ListNotations.
From Verif Require Import AssocSync.

(** CreateRule; CreateOverride; DeleteOverride; FindLimits, with the rules that match ([wants]) and their overrides that do ([sees]); DeleteRule.
    [r]: the id of a rule *)
Inductive req := NewRule (g : kvs) | Override (r : nat) (kv : kvs) | DropOver (r x : nat) | Limits (wants sees : kvs -> bool) | DropRule (r : nat).
(** The rule is not there; it is being deleted; the id of the new rule; the key-values are taken; keys of the rule are missing; what
    the tree of the overrides has answered; there is no such override; the rules and their overrides; the rule is deleted *)
Inductive lans := Gone | Deleting | NewIs (r : nat) | Taken | Short | Told (a : result) | NoOver | Saw (l : list (nat * list nat)) | Dropped.
(** Where a request is: before the check of the marks; at the lookup; in call n of the tree of the overrides; looking for rules (those there at
    the start); before the next of the rules found, with what was seen; at the lookup of one; looking for overrides of it (those there at the start);
    visiting these (those to come, those seen); the rule is marked; in the callback of the destruction; before the mark is removed; answered *)
Inductive lpc := LCheck | LFind | LInside (n : nat) | LRules (first : list nat) | LNext (todo : list nat) (seen : list (nat * list nat)) | LVisit (r : nat) (todo : list nat) (seen : list (nat * list nat)) |
  LRead (r : nat) (first : list nat) (todo : list nat) (seen : list (nat * list nat)) | LSee (r : nat) (ids xs : list nat) (todo : list nat) (seen : list (nat * list nat)) |
  LMarked | LHold | LUnmark (a : lans) | LEnd (a : lans).
Record rthread := mkR { r_req : req; r_pc : lpc }.
(** [l_made]: how many rules were created; their ids are the numbers below *)
Record lim := mkLim { l_made : nat; l_rules : nat -> option kvs; l_dying : nat -> bool; l_over : nat -> state; l_threads : list rthread }.
Definition no_overrides : state := mkState empty_world [].
Definition lim0 : lim := mkLim 0 (fun _ => None) (fun _ => false) (fun _ => no_overrides) [].

Definition about (q : req) : option nat := match q with NewRule _ | Limits _ _ => None | Override r _ | DropOver r _ | DropRule r => Some r end.
(** The rule that a request has read-locked; that it has write-locked *)
Definition reads (th : rthread) : option nat := match r_pc th with LInside _ => about (r_req th) | LRead r _ _ _ | LSee r _ _ _ _ => Some r | _ => None end.
Definition holds (th : rthread) : option nat := match r_pc th with LHold => about (r_req th) | _ => None end.
Definition locked_by (f : rthread -> option nat) (ts : list rthread) (r : nat) : Prop := exists i th, nth_error ts i = Some th /\ f th = Some r.
(** rules_client_local.go:282-287 *)
Definition covers (g kv : kvs) : Prop := incl (map fst g) (map fst kv).
(** The call of the tree of the overrides: overrides_client_local.go:59, :232 *)
Definition inner (q : req) : call := match q with DropOver _ x => CDestroy x | _ => CFindCreate end.
Definition inner_kv (q : req) : kvs := match q with Override _ kv => kv | _ => [(0, 0)] end.

Definition with_threads (s : lim) (ts : list rthread) : lim := mkLim (l_made s) (l_rules s) (l_dying s) (l_over s) ts.
Definition with_over (s : lim) (r : nat) (t : state) : lim := mkLim (l_made s) (l_rules s) (l_dying s) (set_item (l_over s) r t) (l_threads s).
Definition with_mark (s : lim) (r : nat) (b : bool) : lim := mkLim (l_made s) (l_rules s) (set_item (l_dying s) r b) (l_over s) (l_threads s).
Definition with_rule (s : lim) (r : nat) (g : option kvs) : lim := mkLim (l_made s) (set_item (l_rules s) r g) (l_dying s) (l_over s) (l_threads s).
Definition at_pc (s : lim) (i : nat) (q : req) (p : lpc) : lim := with_threads s (set_nth (l_threads s) i (mkR q p)).

(** Steps of request i, which is q and at p; afterwards it is at p' (and the rest of the state is s') *)
Inductive lstep (s : lim) (i : nat) : req -> lpc -> lim -> lpc -> Prop :=
(* CreateRule, rules_client_local.go:60-78 *)
| L_new g : kv_ok g -> (forall r, l_rules s r <> Some g) ->
    lstep s i (NewRule g) LCheck (mkLim (S (l_made s)) (set_item (l_rules s) (l_made s) (Some g)) (l_dying s) (l_over s) (l_threads s)) (LEnd (NewIs (l_made s)))
| L_taken g r : l_rules s r = Some g -> lstep s i (NewRule g) LCheck s (LEnd Taken)
(* QueryAction: btree_associated/threadsafe_query.go:58-78: a marked rule is passed over *)
| L_marked q r : about q = Some r -> q <> DropRule r -> l_dying s r = true -> lstep s i q LCheck s (LEnd Gone)
| L_check q r : about q = Some r -> q <> DropRule r -> l_dying s r = false -> lstep s i q LCheck s LFind
| L_missing q r : about q = Some r -> l_rules s r = None -> lstep s i q LFind s (LEnd Gone)
(* CreateOverride, :280-293 *)
| L_short r kv g : l_rules s r = Some g -> ~ locked_by holds (l_threads s) r -> ~ covers g kv -> lstep s i (Override r kv) LFind s (LEnd Short)
| L_override r kv g : l_rules s r = Some g -> ~ locked_by holds (l_threads s) r -> covers g kv -> kv_ok kv ->
    lstep s i (Override r kv) LFind
      (with_over s r (mkState (st_world (l_over s r)) (st_threads (l_over s r) ++ [mkThread CFindCreate kv (start CFindCreate kv)])))
      (LInside (length (st_threads (l_over s r))))
(* DeleteOverride, :446-449 *)
| L_no_over r x g : l_rules s r = Some g -> ~ locked_by holds (l_threads s) r -> ~ In x (w_known (st_world (l_over s r))) -> lstep s i (DropOver r x) LFind s (LEnd NoOver)
| L_drop_over r x g : l_rules s r = Some g -> ~ locked_by holds (l_threads s) r -> In x (w_known (st_world (l_over s r))) ->
    lstep s i (DropOver r x) LFind
      (with_over s r (mkState (st_world (l_over s r)) (st_threads (l_over s r) ++ [mkThread (CDestroy x) [(0, 0)] (start (CDestroy x) [(0, 0)])])))
      (LInside (length (st_threads (l_over s r))))
(* the call of the tree of the overrides goes on, and returns *)
| L_inside q r n kv p w' p' : about q = Some r -> nth_error (st_threads (l_over s r)) n = Some (mkThread (inner q) kv p) ->
    tstep false n (inner q) kv (st_world (l_over s r)) p w' p' ->
    lstep s i q (LInside n) (with_over s r (mkState w' (set_thread (st_threads (l_over s r)) n (mkThread (inner q) kv p')))) (LInside n)
| L_return q r n kv a : about q = Some r -> nth_error (st_threads (l_over s r)) n = Some (mkThread (inner q) kv (PDone a)) ->
    lstep s i q (LInside n) s (LEnd (Told a))
(* FindLimits, :470-528, MatchAction, threadsafe_match.go:48-155.  Simplifications: what is there and not marked while the index is read is found (QuerySync.v
   says so of queries); the visits do not stop at a limit of 0 *)
| L_start wants sees first : (forall r, In r first <-> exists g, l_rules s r = Some g /\ wants g = true) -> lstep s i (Limits wants sees) LCheck s (LRules first)
| L_rules wants sees first todo : (forall r, In r first -> l_rules s r <> None -> l_dying s r = false -> In r todo) -> (forall r, In r todo -> r < l_made s /\ forall g, l_rules s r = Some g -> wants g = true) ->
    lstep s i (Limits wants sees) (LRules first) s (LNext todo [])
(* threadsafe_match.go:138-148: a rule that is marked or not there any more ends the visits *)
| L_stop_marked wants sees r todo seen : l_dying s r = true -> lstep s i (Limits wants sees) (LNext (r :: todo) seen) s (LEnd (Saw seen))
| L_next wants sees r todo seen : l_dying s r = false -> lstep s i (Limits wants sees) (LNext (r :: todo) seen) s (LVisit r todo seen)
| L_stop_gone wants sees r todo seen : l_rules s r = None -> lstep s i (Limits wants sees) (LVisit r todo seen) s (LEnd (Saw seen))
(* rules_client_local.go:476-482, overrides_client_local.go:282-319; the same for the overrides *)
| L_read wants sees r todo seen g first : l_rules s r = Some g -> wants g = true -> ~ locked_by holds (l_threads s) r ->
    (forall x, In x first <-> exists kv, w_items (st_world (l_over s r)) x = Some kv /\ sees kv = true) -> lstep s i (Limits wants sees) (LVisit r todo seen) s (LRead r first todo seen)
| L_pass wants sees r first todo seen x : w_dying (st_world (l_over s r)) x = true ->
    lstep s i (Limits wants sees) (LRead r first todo seen) s (LRead r (filter (fun y => negb (Nat.eqb y x)) first) todo seen)
| L_found wants sees r first todo seen ids : (forall x, In x first -> w_items (st_world (l_over s r)) x <> None -> In x ids) ->
    (forall x, In x ids -> In x (w_known (st_world (l_over s r))) /\ exists kv, nth_error (w_made (st_world (l_over s r))) x = Some kv /\ sees kv = true) ->
    lstep s i (Limits wants sees) (LRead r first todo seen) s (LSee r ids [] todo seen)
| L_see wants sees r x kv ids xs todo seen : w_items (st_world (l_over s r)) x = Some kv -> sees kv = true ->
    lstep s i (Limits wants sees) (LSee r (x :: ids) xs todo seen) s (LSee r ids (xs ++ [x]) todo seen)
| L_cut wants sees r x ids xs todo seen : w_dying (st_world (l_over s r)) x = true \/ w_items (st_world (l_over s r)) x = None ->
    lstep s i (Limits wants sees) (LSee r (x :: ids) xs todo seen) s (LNext todo (seen ++ [(r, xs)]))
| L_seen wants sees r xs todo seen : lstep s i (Limits wants sees) (LSee r [] xs todo seen) s (LNext todo (seen ++ [(r, xs)]))
| L_saw wants sees seen : lstep s i (Limits wants sees) (LNext [] seen) s (LEnd (Saw seen))
(* DeleteRule, :240-271 and btree/threadsafe_destroy.go:31-56: the mark; the lookup *)
| L_deleting r : l_dying s r = true -> lstep s i (DropRule r) LCheck s (LEnd Deleting)
| L_mark r : l_dying s r = false -> lstep s i (DropRule r) LCheck (with_mark s r true) LMarked
| L_nothing r : l_rules s r = None -> lstep s i (DropRule r) LMarked s (LUnmark Gone)
| L_hold r g : l_rules s r = Some g -> ~ locked_by reads (l_threads s) r -> ~ locked_by holds (l_threads s) r -> lstep s i (DropRule r) LMarked s LHold
(* DestroyOverrides: btree_associated/threadsafe_destroy.go:63-93, one override after the other *)
| L_drop_one r x kv : w_items (st_world (l_over s r)) x = Some kv ->
    lstep s i (DropRule r) LHold (with_over s r (mkState (with_item (st_world (l_over s r)) x None) (st_threads (l_over s r)))) LHold
(* the tree of the overrides, then the rule are removed: btree_one_to_many/threadsafe_destroy.go:38-56 *)
| L_dropped r : (forall x, w_items (st_world (l_over s r)) x = None) ->
    lstep s i (DropRule r) LHold (with_rule (with_over s r no_overrides) r None) (LUnmark Dropped)
| L_unmark r a : lstep s i (DropRule r) (LUnmark a) (with_mark s r false) (LEnd a).
(** A request names a rule that was created some time *)
Inductive lnext : lim -> lim -> Prop :=
| N_call s q : (forall r, about q = Some r -> r < l_made s) -> lnext s (with_threads s (l_threads s ++ [mkR q LCheck]))
| N_step s i q p s' p' : nth_error (l_threads s) i = Some (mkR q p) -> lstep s i q p s' p' -> lnext s (at_pc s' i q p').
(** Executions: the states gone through, newest first *)
Inductive lexec : list lim -> Prop :=
| LX_new : lexec [lim0]
| LX_step s s' tr : lexec (s :: tr) -> lnext s s' -> lexec (s' :: s :: tr).
