(** Properties C06-C13: the ordered tree, used by one caller at a time. *)
From Coq Require Import Sorted Permutation.
From Verif Require Import Datatypes SpecValues BTree SpecBTree BTreeFind SpecFind BTreeCreateFind
  PropLemmasTree PropLemmasFind PropLemmasTree2 PropLemmasTree3.
Local Open Scope nat_scope.

(** C06: Create. *)
Theorem C06_create_is_map_insert : forall V n (root : option (node V)) k v,
  2 <= n -> well_shaped n root -> good k ->
  (exists v0 r, stored (contents root) k v0 /\ tree_create n root k (Some v) = TExists v0 r /\ well_shaped n r /\
                contents r = contents root) \/
  (not_stored (contents root) k /\ exists r, tree_create n root k (Some v) = TOk r /\ well_shaped n r /\
     Permutation (contents r) ((k, v) :: contents root)).
Proof. exact @tree_create_lemma. Qed.
Print Assumptions C06_create_is_map_insert.

(** C06: CreateOrFind. *)
Theorem C06_create_or_find : forall V n (root : option (node V)) k v,
  2 <= n -> well_shaped n root -> good k ->
  (exists v0 r, stored (contents root) k v0 /\ CreateOrFind n root k (Some v) = CofFound v0 r /\ well_shaped n r /\
                contents r = contents root) \/
  (not_stored (contents root) k /\ exists r, CreateOrFind n root k (Some v) = CofCreated r /\ well_shaped n r /\
     Permutation (contents r) ((k, v) :: contents root)).
Proof. exact @create_or_find_lemma. Qed.
Print Assumptions C06_create_or_find.

Example C06_nonvacuous :
  well_shaped 2 demo /\ length (contents demo) = 8 /\
  (exists r, CreateOrFind 2 demo (Int 2) (Some 99) = CofFound 2 r) /\
  (exists r, CreateOrFind 2 demo (Int 5) (Some 99) = CofCreated r /\ length (contents r) = 9).
Proof.
  split; [exact demo_shape|]. split; [reflexivity|]. split; eexists; [vm_compute; reflexivity|].
  split; vm_compute; reflexivity.
Qed.

(** C07: Delete.  [asked] is what the veto callback was given, if it was called. *)
Theorem C07_delete_is_map_remove : forall V n (root : option (node V)) k can,
  2 <= n -> well_shaped n root -> good k ->
  exists r asked, tree_delete n root k can = TDOk r asked /\ well_shaped n r /\
    match asked with
    | None => not_stored (contents root) k /\ r = root
    | Some (k', v) => same_value k k' /\ In (k', v) (contents root) /\
        if can k' v then Permutation (contents root) ((k', v) :: contents r) else r = root
    end.
Proof. exact @tree_delete_lemma. Qed.
Print Assumptions C07_delete_is_map_remove.

Example C07_nonvacuous :
  (exists r, tree_delete 2 demo (Str "a") (fun _ _ => true) = TDOk r (Some (Str "a", 4)) /\ length (contents r) = 7) /\
  tree_delete 2 demo (Str "a") (fun _ _ => false) = TDOk demo (Some (Str "a", 4)) /\
  tree_delete 2 demo (Str "zz") (fun _ _ => true) = TDOk demo None.
Proof. split; [eexists; split; vm_compute; reflexivity|]. split; vm_compute; reflexivity. Qed.

(** C08: any history from the empty tree, without panic, keeps the tree ordered and balanced, and its contents
    are those of a map put through the same history. *)
Theorem C08_histories : forall V n (ops : list (tree_op V)),
  2 <= n -> Forall (fun o => good (op_key o)) ops ->
  exists r, tree_run n None ops = Some r /\ well_shaped n r /\ map_run [] ops (contents r).
Proof. exact @tree_history_lemma. Qed.
Print Assumptions C08_histories.

(** C08: height is logarithmic in the number of entries. *)
Theorem C08_height : forall V n h (t : node V),
  2 <= n -> well_shaped n (Some t) -> balanced n h t -> 0 < h ->
  2 * (n / 2 + 1) ^ h - 1 <= length (contents (Some t)).
Proof. exact @height_lemma. Qed.
Print Assumptions C08_height.

Example C08_nonvacuous : exists t, demo = Some t /\ balanced 2 2 t /\ length (contents demo) = 8.
Proof. eexists. split; [vm_compute; reflexivity|]. split; [|reflexivity]. cbn. repeat (constructor; cbn); lia. Qed.

(** C09: lookup of a concrete key: the key's own value if its type is permitted and it is stored, then the
    value stored under Any if the upper bound is Any; nothing else. *)
Theorem C09_find_key : forall V n (root : option (node V)) key tr,
  well_shaped n root -> good key -> key <> Any -> tr_validate tr = true ->
  exists l1 l2,
    ((in_types tr key /\ exists v, stored (contents root) key v /\ l1 = [(key, v)]) \/
     (l1 = [] /\ (in_types tr key -> not_stored (contents root) key))) /\
    exactly (contents root) (fun k => k = Any /\ tr_max tr = T_any) l2 /\
    forall S (cb : S -> EV -> V -> S * bool) s, exists ev, Find cb root key tr s = FOk (fst (offer cb s (l1 ++ l2))) ev.
Proof. exact @find_key_lemma. Qed.
Print Assumptions C09_find_key.

Theorem C09_find_any : forall V n (root : option (node V)) tr,
  well_shaped n root -> tr_validate tr = true ->
  exists l, exactly (contents root) (in_types tr) l /\
    forall S (cb : S -> EV -> V -> S * bool) s, exists ev, Find cb root Any tr s = FOk (fst (offer cb s l)) ev.
Proof. exact @find_any_lemma. Qed.
Print Assumptions C09_find_any.

Example C09_nonvacuous :
  (exists ev, Find (recorder (fun _ => true)) demo (Int 2) (mkTR 1 1024) [] = FOk [(Int 2, 2); (Any, 7)] ev) /\
  (exists ev, Find (recorder (fun _ => true)) demo (Int 2) (mkTR 10 13) [] = FOk [(Int 2, 2)] ev).
Proof. split; eexists; vm_compute; reflexivity. Qed.

(** C10: what the range lookups visit, for every legal argument and restriction. *)
Theorem C10_range_lookups_exact : forall V n (root : option (node V)) w key tr,
  well_shaped n root -> w <> LkFind -> key_allowed w key -> tr_validate tr = true ->
  exists l,
    exactly (contents root)
      (fun k => match w with
                | LkFind => False
                | LkNotEqual => in_types tr k /\ ~ same_value key k
                | LkLess | LkLessEq =>
                    ((tr_min tr <= ev_type k)%Z /\ in_relation w key k) \/ (k = Any /\ tr_max tr = T_any)
                | LkGreater | LkGreaterEq => (ev_type k <= tr_max tr)%Z /\ in_relation w key k
                end) l /\
    forall S (cb : S -> EV -> V -> S * bool) s, exists ev, run_lookup w cb root key tr s = FOk (fst (offer cb s l)) ev.
Proof. exact @range_lookup_lemma'. Qed.
Print Assumptions C10_range_lookups_exact.

(** C10 as stated, when the argument's own type satisfies the restriction. *)
Theorem C10_range_lookups_partial : forall V n (root : option (node V)) w key tr,
  2 <= n -> well_shaped n root -> w <> LkFind -> key_allowed w key -> tr_validate tr = true -> in_types tr key ->
  exists l, exactly (contents root) (meant w key tr) l /\
    forall S (cb : S -> EV -> V -> S * bool) s, exists ev, run_lookup w cb root key tr s = FOk (fst (offer cb s l)) ev.
Proof. exact @range_lookup_meant. Qed.
Print Assumptions C10_range_lookups_partial.

(** C10 fails otherwise: entries of excluded types are visited. *)
Theorem C10_type_restriction_refuted :
  well_shaped 2 demo /\
  (exists seen ev, run_lookup LkLess (recorder (fun _ => true)) demo (Str "b") (mkTR 10 10) [] = FOk seen ev /\
     In (Str "a", 4) seen /\ ~ meant LkLess (Str "b") (mkTR 10 10) (Str "a")) /\
  (exists seen ev, run_lookup LkGreater (recorder (fun _ => true)) demo (Int 2) (mkTR 13 13) [] = FOk seen ev /\
     In (Int 3, 3) seen /\ ~ meant LkGreater (Int 2) (mkTR 13 13) (Int 3)).
Proof. exact (conj demo_shape (conj range_type_witness range_type_witness2)). Qed.
Print Assumptions C10_type_restriction_refuted.

Example C10_nonvacuous :
  key_allowed LkLessEq (Str "b") /\
  exists ev, run_lookup LkLessEq (recorder (fun _ => true)) demo (Str "b") (mkTR 13 1024) [] =
    FOk [(Str "a", 4); (Str "b", 5); (Any, 7)] ev.
Proof. split; [split; [apply good_str|discriminate]|]. eexists. vm_compute. reflexivity. Qed.

(** C11: with any callback that decides on what it has seen, the entries seen are a prefix of those seen by a
    callback that always continues; it never declined before the last one, and if anything is missing it
    declined at the last one. *)
Theorem C11_stops_when_told : forall V n (root : option (node V)) w key tr,
  well_shaped n root -> key_allowed w key -> tr_validate tr = true ->
  exists full,
    (exists ev, run_lookup w (recorder (fun _ => true)) root key tr [] = FOk full ev) /\
    forall go, exists seen rest ev, run_lookup w (recorder go) root key tr [] = FOk seen ev /\ full = seen ++ rest /\
      (forall p q, seen = p ++ q -> p <> [] -> q <> [] -> go p = true) /\
      (rest = [] \/ go seen = false /\ seen <> []).
Proof. exact @early_stop_lemma. Qed.
Print Assumptions C11_stops_when_told.

Example C11_nonvacuous :
  exists ev, run_lookup LkGreaterEq (recorder (fun l => Nat.ltb (length l) 2)) demo (Int 2) (mkTR 1 1024) [] =
    FOk [(Str "a", 4); (Int 2, 2)] ev.
Proof. eexists. vm_compute. reflexivity. Qed.

(** C12 fails: with a constructor that yields nothing, [2] is lost and [1] is duplicated. *)
Theorem C12_nil_constructor_refuted : exists (n : nat) (root : option (node nat)) k r,
  2 <= n /\ well_shaped n root /\ good k /\ not_stored (contents root) k /\
  tree_create n root k None = TOk r /\ CreateOrFind n root k None = CofCreated r /\
  contents root = [(Int 1, 10); (Int 2, 20)] /\ contents r = [(Int 1, 10); (Int 1, 10)].
Proof. exact nil_constructor_witness. Qed.
Print Assumptions C12_nil_constructor_refuted.

(** ... and an empty tree is no longer reported empty. *)
Theorem C12_empty_refuted :
  CreateOrFind 2 (@None (node nat)) (Int 0) None = CofCreated (Some (Node [] [])) /\ Empty (Some (Node (V:=nat) [] [])) = false.
Proof. exact nil_constructor_not_empty. Qed.
Print Assumptions C12_empty_refuted.

(** C12 holds when at most one stored key is greater than the new one. *)
Theorem C12_nil_constructor_partial : forall V n (root : option (node V)) k,
  2 <= n -> well_shaped n root -> good k -> not_stored (contents root) k ->
  (forall e1 e2, In e1 (contents root) -> In e2 (contents root) -> value_lt k (fst e1) -> value_lt k (fst e2) -> e1 = e2) ->
  exists r, tree_create n root k None = TOk r /\ well_shaped n r /\ contents r = contents root.
Proof. exact @nil_constructor_lemma. Qed.
Print Assumptions C12_nil_constructor_partial.

Example C12_nonvacuous : tree_create 2 demo2 (Str "d") None = TOk demo2.
Proof. vm_compute. reflexivity. Qed.

(** C13: locks are all released when the restriction admits the argument's type; for iterations ([Any] and
    NotEqual) moreover if no stored type is below the lower bound or the callback never stops early. *)
Theorem C13_locks_released_partial : forall V S (cb : S -> EV -> V -> S * bool) n (root : option (node V)) w key tr s,
  2 <= n -> well_shaped n root -> key_allowed w key -> tr_validate tr = true -> in_types tr key ->
  ((key = Any \/ w = LkNotEqual) ->
     (forall k v, In (k, v) (contents root) -> (tr_min tr <= ev_type k)%Z) \/ (forall s k v, snd (cb s k v) = true)) ->
  exists s' ev, run_lookup w cb root key tr s = FOk s' ev /\ lock_clean ev.
Proof. exact @locks_released_lemma. Qed.
Print Assumptions C13_locks_released_partial.

(** C13 for lookups of a concrete key: exactly when they leak. *)
Theorem C13_find_leaks_exactly : forall V S (cb : S -> EV -> V -> S * bool) n (root : option (node V)) key tr s,
  well_shaped n root -> good key -> key <> Any -> tr_validate tr = true ->
  exists s' ev, Find cb root key tr s = FOk s' ev /\
    (lock_clean ev <-> (root = None \/ in_types tr key \/ tr_max tr = T_any)).
Proof. exact @find_locks_lemma. Qed.
Print Assumptions C13_find_leaks_exactly.

(** C13 fails: a restriction that excludes the argument's type leaves the tree read-locked for ever. *)
Theorem C13_leak_refuted : well_shaped 2 demo /\
  forall w, w <> LkNotEqual ->
  exists key tr seen ev, key_allowed w key /\ tr_validate tr = true /\
    run_lookup w (recorder (fun _ => true)) demo key tr [] = FOk seen ev /\ ~ lock_clean ev.
Proof. exact (conj demo_shape leak_witness). Qed.
Print Assumptions C13_leak_refuted.

(** C13 fails: stopping an iteration early can release a lock that is not held (a fatal error in Go). *)
Theorem C13_iterate_refuted : well_shaped 2 demo2 /\
  (exists seen ev, run_lookup LkFind (recorder (fun l => Nat.ltb (length l) 2)) demo2 Any (mkTR 13 13) [] = FOk seen ev /\
    replay [] ev = None) /\
  (exists seen ev, run_lookup LkNotEqual (recorder (fun l => Nat.ltb (length l) 2)) demo2 (Str "z") (mkTR 13 13) [] = FOk seen ev /\
    replay [] ev = None).
Proof. exact (conj demo2_shape (conj iterate_witness iterate_witness_ne)). Qed.
Print Assumptions C13_iterate_refuted.

Example C13_nonvacuous :
  exists s ev, run_lookup LkLess (recorder (fun _ => true)) demo (Str "b") (mkTR 1 13) [] = FOk s ev /\ lock_clean ev /\ length ev = 14.
Proof. eexists _, _. split; [vm_compute; reflexivity|]. split; vm_compute; reflexivity. Qed.
