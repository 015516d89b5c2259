(** Properties C20-C24: trees of items with key-values. *)
From Verif Require Import Datatypes SpecValues Collections Query SpecQuery Assoc SpecAssoc PropLemmasAssoc.
Local Open Scope nat_scope.

(** C20: after any history, items with the same key-values are one item. *)
Theorem C20_unique : forall A (t : atree A) used it it',
  areach t used -> In it (a_items t) -> In it' (a_items t) -> kv_same (it_kv it) (it_kv it') -> it = it'.
Proof. exact @c20_unique. Qed.
Print Assumptions C20_unique.

(** C20: Create refuses an existing set (exactly that set: nothing is said about sub- and supersets in
    [holds_kv]) and otherwise adds the item. *)
Theorem C20_create : forall A (t : atree A) used kv id mk,
  areach t used -> kv_arg kv -> ~ In id used ->
  (~ kv_valid kv -> Create t kv id mk = (t, RInvalid)) /\
  (kv_valid kv -> holds_kv t kv -> snd (Create t kv id mk) = RExists /\ a_items (fst (Create t kv id mk)) = a_items t) /\
  (kv_valid kv -> ~ holds_kv t kv -> forall a, mk = Some a ->
     snd (Create t kv id mk) = RId id /\ a_items (fst (Create t kv id mk)) = a_items t ++ [mkItem id kv a]) /\
  (kv_valid kv -> ~ holds_kv t kv -> mk = None ->
     snd (Create t kv id mk) = REmpty /\ a_items (fst (Create t kv id mk)) = a_items t).
Proof. exact @c20_create. Qed.
Print Assumptions C20_create.

(** C20: CreateOrFind finds the existing item and otherwise adds it. *)
Theorem C20_create_or_find : forall A (t : atree A) used kv id mk,
  areach t used -> kv_arg kv -> ~ In id used ->
  (~ kv_valid kv -> CreateOrFind t kv id mk = (t, RInvalid)) /\
  (kv_valid kv -> forall it, In it (a_items t) -> kv_same (it_kv it) kv -> CreateOrFind t kv id mk = (t, RFound it)) /\
  (kv_valid kv -> ~ holds_kv t kv -> forall a, mk = Some a ->
     snd (CreateOrFind t kv id mk) = RId id /\ a_items (fst (CreateOrFind t kv id mk)) = a_items t ++ [mkItem id kv a]) /\
  (kv_valid kv -> ~ holds_kv t kv -> mk = None -> a_items (fst (CreateOrFind t kv id mk)) = a_items t).
Proof. exact @c20_create_or_find. Qed.
Print Assumptions C20_create_or_find.

(** C21: Delete removes exactly the item with these key-values, if the veto callback agrees. *)
Theorem C21_delete : forall A (t : atree A) used kv can,
  areach t used -> kv_arg kv -> kv_valid kv ->
  snd (Delete t kv can) = ROk /\
  forall i, In i (a_items (fst (Delete t kv can))) <-> In i (a_items t) /\ ~ (kv_same (it_kv i) kv /\ can i = true).
Proof. exact @c21_delete. Qed.
Print Assumptions C21_delete.

Theorem C21_delete_by_id : forall A (t : atree A) used id can,
  areach t used -> id <> EmptyString ->
  snd (DeleteByAssociatedID t id can) = ROk /\
  forall i, In i (a_items (fst (DeleteByAssociatedID t id can))) <-> In i (a_items t) /\ ~ (it_id i = id /\ can i = true).
Proof. exact @c21_delete_id. Qed.
Print Assumptions C21_delete_by_id.

Theorem C21_destroy_by_id : forall A (t : atree A) used id can,
  areach t used -> id <> EmptyString ->
  snd (DestroyByAssociatedID t id can) = ROk /\
  forall i, In i (a_items (fst (DestroyByAssociatedID t id can))) <-> In i (a_items t) /\ ~ (it_id i = id /\ can i = true).
Proof. exact @c21_destroy_id. Qed.
Print Assumptions C21_destroy_by_id.

(** C21: destroying the tree removes items one after the other up to the first that refuses. *)
Theorem C21_destroy_tree : forall A (t : atree A) used can,
  areach t used ->
  snd (DestroyTree t can) = ROk /\
  exists gone rest, a_items t = gone ++ rest /\ (forall i, In i gone -> can i = true) /\
    match rest with [] => True | i :: _ => can i = false end /\
    forall i, In i (a_items (fst (DestroyTree t can))) <-> In i rest.
Proof. exact @c21_destroy_tree. Qed.
Print Assumptions C21_destroy_tree.

(** C21: a value changed in place by a callback changes nothing else; and Delete offers its callback the item with
    these key-values only. *)
Theorem C21_update : forall A (t : atree A) used id f,
  areach t used -> areach (update_value t id f) used /\
  forall i, In i (a_items (update_value t id f)) <->
    (In i (a_items t) /\ it_id i <> id) \/ exists j, In j (a_items t) /\ it_id j = id /\ i = mkItem id (it_kv j) (f (it_val j)).
Proof. exact @c21_update. Qed.
Print Assumptions C21_update.
Theorem C21_offered : forall A (t : atree A) used kv,
  areach t used -> kv_arg kv -> kv_valid kv ->
  (forall it, In it (a_items t) -> kv_same (it_kv it) kv -> delete_target t kv = Some it) /\ (~ holds_kv t kv -> delete_target t kv = None).
Proof. exact @c21_offered. Qed.
Print Assumptions C21_offered.

(** C21: the index knows an id iff an item with it is stored, nothing empty is left in it, and ids are unique. *)
Theorem C21_index : forall A (t : atree A) used,
  areach t used ->
  (forall id, indexed t id <-> exists it, In it (a_items t) /\ it_id it = id) /\ no_leftovers t /\ NoDup (map it_id (a_items t)).
Proof. exact @c21_index. Qed.
Print Assumptions C21_index.

(** C21: looking up a set of key-values / an id. *)
Theorem C21_lookup_key_values : forall A (t : atree A) used kv,
  areach t used -> kv_arg kv -> kv_valid kv ->
  exists r, query_items t (ExactQuery kv) = Some (Some r) /\
    (forall it, In it r <-> In it (a_items t) /\ kv_same (it_kv it) kv) /\ length r <= 1.
Proof. exact @c21_lookup_kv. Qed.
Print Assumptions C21_lookup_key_values.

Theorem C21_lookup_id : forall A (t : atree A) used id,
  areach t used ->
  exists r, query_items t (StringToQuery id) = Some (Some r) /\
    (forall it, In it r <-> In it (a_items t) /\ it_id it = id) /\ length r <= 1.
Proof. exact @c21_lookup_id. Qed.
Print Assumptions C21_lookup_id.

(** A tree with four items, reached by a history with a failing constructor, a duplicate and a deletion. *)
Definition kvA : KeyValues := [("a", Int 1); ("b", Int 2)]%string.
Definition kvB : KeyValues := [("a", Int 1); ("b", Int 3)]%string.
Definition kvC : KeyValues := [("a", Str "b")]%string.
Definition kvD : KeyValues := [("b", Int 2); ("a", Any); ("c", Str "x")]%string.
Definition history : list (aop nat) :=
  [ACreate kvA "i1" (Some 1); ACreateOrFind kvB "i2" (Some 2); ACreate kvC "i3" None; ACreate kvC "i4" (Some 4);
   ACreate [("b", Int 3); ("a", Int 1)] "i5" (Some 5); ACreateOrFind kvD "i6" (Some 6);
   AUpdate "i2" (fun n => n + 40); ACreate [("z", Int 0)] "i7" (Some 7); ADelete [("z", Int 0)] (fun _ => true)]%string.
Definition sample : atree nat := fold_left (fun t o => fst (arun t o)) history (mkTree [] []).
Lemma sample_reached : areach sample ["i7"; "i6"; "i5"; "i4"; "i3"; "i2"; "i1"]%string.
Proof.
  assert (KA : forall kv : KeyValues, forallb (fun p => match ev_data (snd p) with PInt _ _ | PString _ | PNil => true | _ => false end) kv = true -> NoDup (kv_keys kv) -> kv_arg kv).
  { intros kv H ND. split; [exact ND|]. intros k v HI [C | C]; rewrite forallb_forall in H; specialize (H _ HI); cbn in H; rewrite C in H; discriminate. }
  unfold sample, history. cbn [fold_left].
  repeat match goal with |- areach (fst (arun ?t ?o)) ?u => 
    first [apply (AR_step t (tl u) o) | apply (AR_step t u o)]; [|cbn [op_arg]; first [exact I | apply KA; [reflexivity|cbn; repeat (constructor; [cbn; intuition discriminate|]); constructor]]
         |cbn [op_id]; intros ? E; first [discriminate | injection E as <-; split; [cbn; intuition discriminate|discriminate]]] end.
  constructor.
Qed.
Example C20_nonvacuous :
  length (a_items sample) = 4 /\
  snd (Create sample [("b", Int 3); ("a", Int 1)]%string "i9"%string (Some 9)) = RExists /\
  snd (Create sample [("a", Int 1)]%string "i9"%string (Some 9)) = RId "i9"%string /\
  (exists it, snd (CreateOrFind sample kvD "i9"%string (Some 9)) = RFound it /\ it_val it = 6) /\
  length (a_items (fst (Delete sample kvA (fun _ => true)))) = 3 /\
  length (a_items (fst (Delete sample kvA (fun _ => false)))) = 4.
Proof. vm_compute. repeat split; eauto. Qed.

(** C22: a query calls back each stored item that satisfies it exactly once and no other, until the callback stops.
    Missing: the validated queries excluded by the last hypothesis (refuted below). *)
Theorem C22_query_partial : forall A (t : atree A) used q,
  areach t used -> q_validate q = true -> query_no_nan q -> q = Q None None None \/ every_node node_simple q ->
  exists l, NoDup l /\ (forall it, In it l <-> In it (a_items t) /\ query_holds q (it_id it) (it_kv it)) /\
    forall S (cb : S -> item A -> S * bool) s, QueryAction t q cb s = Some (Some (iterate cb s l)).
Proof. exact @c22_query. Qed.
Print Assumptions C22_query_partial.

Definition is (k : string) (c : comparison) (v : EV) (tr : TypeRestrictions) : string * ValueQuery := (k, mkVQ v c tr).
Definition all_types : TypeRestrictions := mkTR MinDataType MaxDataType.
Definition only (kvs : list (string * ValueQuery)) : Query := Q (Some (mkSel [] kvs None None)) None None.
Definition ids_of (r : option (option (list (item nat)))) : option (option (list string)) := option_map (option_map (map it_id)) r.

(** C22 fails for two [!=]: an item is only excluded if it violates both. *)
Theorem C22_two_not_equals_refuted : exists (t : atree nat) used q it l,
  areach t used /\ q_validate q = true /\ query_no_nan q /\ query_items t q = Some (Some l) /\ In it l /\
  ~ query_holds q (it_id it) (it_kv it).
Proof.
  exists sample, ["i7"; "i6"; "i5"; "i4"; "i3"; "i2"; "i1"]%string, (only [is "a" CNotEquals (Int 1) all_types; is "b" CNotEquals (Int 2) all_types]%string),
    (mkItem "i2"%string kvB 42). eexists.
  split; [exact sample_reached|]. split; [reflexivity|]. split.
  { cbn. repeat split; auto. intros s k v [= <-] [[= <- <-] | [[= <- <-] | []]]; cbn; intros [|]; discriminate. }
  split; [vm_compute; reflexivity|]. split; [cbn; auto|].
  cbn. intros [([_ (_ & H)] & _) | []]. specialize (H _ _ (or_introl eq_refl)). cbn in H. apply (H (Int 1) eq_refl).
  - split; vm_compute; discriminate.
  - right; right. split; [reflexivity|constructor].
Qed.
Print Assumptions C22_two_not_equals_refuted.

(** C22 fails for a range whose value is outside its own type restriction: items of excluded types are visited. *)
Theorem C22_range_restriction_refuted : exists (t : atree nat) used q it l,
  areach t used /\ q_validate q = true /\ query_no_nan q /\ query_items t q = Some (Some l) /\ In it l /\
  ~ query_holds q (it_id it) (it_kv it).
Proof.
  exists sample, ["i7"; "i6"; "i5"; "i4"; "i3"; "i2"; "i1"]%string, (only [is "a" CLess (Str "x") (mkTR T_int T_int)]%string),
    (mkItem "i4"%string kvC 4). eexists.
  split; [exact sample_reached|]. split; [reflexivity|]. split.
  { cbn. repeat split; auto. intros s k v [= <-] [[= <- <-] | []]; cbn; intros [|]; discriminate. }
  split; [vm_compute; reflexivity|]. split; [cbn; auto|].
  cbn. intros [([_ (_ & H)] & _) | []]. specialize (H _ _ (or_introl eq_refl)). cbn in H. destruct H as (m & [= <-] & [_ HT] & _).
  cbn in HT. unfold T_int, T_string in HT. lia.
Qed.
Print Assumptions C22_range_restriction_refuted.

(** C22 and C18 fail: validated queries without any part, other than the literal "select all", crash. *)
Theorem C22_empty_part_refuted : forall A (t : atree A) S (cb : S -> item A -> S * bool) s,
  let bare := Q None None (Some []) in let nested := Q None None (Some [Q None None None]) in
  q_validate bare = true /\ QueryAction t bare cb s = None /\
  q_validate nested = true /\ QueryAction t nested cb s = None /\
  q_validate QNil = true /\ QueryAction t QNil cb s = None.
Proof. intros. repeat split; reflexivity. Qed.
Print Assumptions C22_empty_part_refuted.

Example C22_nonvacuous :
  let q := Q (Some (mkSel [] [is "b" CGreaterEq (Int 2) (mkTR T_int T_any); is "a" CNotEquals (Str "z") all_types]%string (Some 2%Z) None))
             (Some [only [is "a" CLess (Str "c") all_types]%string])
             (Some [Q (Some (mkSel ["i1"; "i6"; "i9"]%string [] None None)) None None]) in
  q_validate q = true /\ every_node node_simple q /\ ids_of (query_items sample q) = Some (Some ["i1"; "i2"; "i4"; "i6"]%string).
Proof.
  cbv zeta. split; [reflexivity|]. split; [|vm_compute; reflexivity].
  cbn. split; [split; [left; discriminate|]|].
  - intros s [= <-]. right. split.
    + intros p p' [<- | [<- | []]] [<- | [<- | []]]; cbn; congruence.
    + intros k q [[= <- <-] | [[= <- <-] | []]]; [vm_compute; discriminate|exact I].
  - split; [split; [|exact I]|split; [|exact I]].
    + split; [split; [left; discriminate|]|auto]. intros s [= <-]. left. discriminate.
    + split; [split; [left; discriminate|]|auto]. intros s [= <-]. right. split.
      * intros p p' [<- | []] [<- | []]; cbn; congruence.
      * intros k q [[= <- <-] | []]; vm_compute; discriminate.
Qed.

(** C23: the query of the tree and direct matching agree on every stored item, for validated queries without ids,
    none of whose nodes is empty or has Or parts only, and which C22 covers.  Missing: the others (refuted below). *)
Theorem C23_agree_partial : forall A (t : atree A) used q it,
  areach t used -> In it (a_items t) -> q_validate q = true -> query_no_nan q ->
  every_node (fun sel ors ands => node_simple sel ors ands /\ (forall s, sel = Some s -> s_ids s = []) /\ (sel <> None \/ ands <> [])) q ->
  exists l b, query_items t q = Some (Some l) /\ MatchTags q (it_kv it) = Some b /\ (In it l <-> b = true).
Proof. exact @c23_agree. Qed.
Print Assumptions C23_agree_partial.

Theorem C23_disagree_refuted : forall it, it = mkItem "i2"%string kvB 42 ->
  In it (a_items sample) /\
  (* two != *)
  (exists l, let q := only [is "a" CNotEquals (Int 1) all_types; is "b" CNotEquals (Int 2) all_types]%string in
     q_validate q = true /\ query_items sample q = Some (Some l) /\ In it l /\ MatchTags q (it_kv it) = Some false) /\
  (* Or parts only *)
  (exists l, let q := Q None (Some [only [is "a" CEquals (Int 7) all_types]%string]) None in
     q_validate q = true /\ query_items sample q = Some (Some l) /\ ~ In it l /\ MatchTags q (it_kv it) = Some true) /\
  (* ids *)
  (exists l, let q := StringToQuery "i1" in
     q_validate q = true /\ query_items sample q = Some (Some l) /\ ~ In it l /\ MatchTags q (it_kv it) = Some true).
Proof.
  intros it ->. split; [vm_compute; auto|]. repeat split; eexists; cbv zeta; (split; [reflexivity|]); (split; [vm_compute; reflexivity|]); (split; [|vm_compute; reflexivity]); vm_compute; intuition discriminate.
Qed.
Print Assumptions C23_disagree_refuted.

Example C23_nonvacuous :
  let q := Q (Some (mkSel [] [is "b" CGreaterEq (Int 2) (mkTR T_int T_any)]%string (Some 2%Z) None)) (Some [only [is "a" CLess (Str "c") all_types]%string]) None in
  q_validate q = true /\
  every_node (fun sel ors ands => node_simple sel ors ands /\ (forall s, sel = Some s -> s_ids s = []) /\ (sel <> None \/ ands <> [])) q /\
  ids_of (query_items sample q) = Some (Some ["i1"; "i6"; "i2"; "i4"]%string) /\ MatchTags q kvC = Some true.
Proof.
  cbv zeta. split; [reflexivity|]. split; [|vm_compute; auto].
  assert (S1 : forall s, s = mkSel [] [is "b" CGreaterEq (Int 2) (mkTR T_int T_any)]%string (Some 2%Z) None \/ s = mkSel [] [is "a" CLess (Str "c") all_types]%string None None -> sel_simple s /\ s_ids s = []).
  { intros s [-> | ->]; (split; [right; split|reflexivity]).
    - intros p p' [<- | []] [<- | []]; cbn; congruence.
    - intros k q [[= <- <-] | []]; vm_compute; discriminate.
    - intros p p' [<- | []] [<- | []]; cbn; congruence.
    - intros k q [[= <- <-] | []]; vm_compute; discriminate. }
  cbn. split; [|split; [exact I|split; [|exact I]]].
  - split; [split; [left; discriminate|intros s [= <-]; apply S1; auto]|]. split; [intros s [= <-]; reflexivity|left; discriminate].
  - split; [|auto]. split; [split; [left; discriminate|intros s [= <-]; apply S1; auto]|]. split; [intros s [= <-]; reflexivity|left; discriminate].
Qed.

(** C24: MatchAction calls back, once each until the callback stops, exactly the items whose every key is matched and
    whose number of keys is within the bounds.  Missing: crossed bounds (below). *)
Theorem C24_match_partial : forall A (t : atree A) used mq,
  areach t used -> mq_validate mq = true -> match_arg mq ->
  ~ (exists b, mq_max mq = Some b /\ b <> -1 /\ b < match mq_min mq with Some a => a | None => 0 end)%Z ->
  exists l, NoDup l /\ (forall it, In it l <-> In it (a_items t) /\ match_holds mq (it_kv it)) /\
    forall S (cb : S -> item A -> S * bool) s, MatchAction t mq cb s = Some (Some (iterate cb s l)).
Proof. exact @c24_match. Qed.
Print Assumptions C24_match_partial.

(** C24 fails when the upper bound is below the lower one (a validated query): the call panics. *)
Theorem C24_crossed_bounds_refuted : forall A (t : atree A) mq,
  mq_validate mq = true ->
  (exists b, mq_max mq = Some b /\ b <> -1 /\ b < match mq_min mq with Some a => a | None => 0 end)%Z ->
  forall S (cb : S -> item A -> S * bool) s, MatchAction t mq cb s = None.
Proof. exact @c24_crossed. Qed.
Print Assumptions C24_crossed_bounds_refuted.

Example C24_nonvacuous :
  let seen := fun (s : list string) (i : item nat) => (s ++ [it_id i], true) in
  MatchAction sample (mkMQ [("a", mkMV (Int 1) (mkTR T_int T_any)); ("b", mkMV (Int 2) all_types); ("c", mkMV (Str "x") all_types)]%string None None) seen [] =
    Some (Some ["i1"; "i6"]%string) /\
  MatchAction sample (mkMQ [("a", mkMV (Int 1) (mkTR T_int T_int)); ("b", mkMV Any all_types); ("c", mkMV (Str "x") all_types)]%string None (Some 2%Z)) seen [] =
    Some (Some ["i1"; "i2"]%string) /\
  mq_validate (mkMQ [("a", mkMV (Int 1) all_types)]%string (Some 3%Z) (Some 2%Z)) = true.
Proof. vm_compute. auto. Qed.
