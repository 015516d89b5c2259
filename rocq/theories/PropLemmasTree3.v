From Coq Require Import Sorted Permutation ZifyBool ZifyNat.
From Verif Require Import Datatypes SpecValues DatatypesProofs BTree SpecBTree BTreeProofs BTreeFind SpecFind
  PropLemmasValues BTreeFindProofs BTreeLockProofs PropLemmasTree PropLemmasFind BTreeCreateFind PropLemmasTree2.
Local Open Scope Z_scope.

Section T.
  Context {V : Type}.
  Notation node := (node V).
  Notation entry := (entry V).

  (** What the lookups really visit. *)
  Definition visits (w : lookup) (key : EV) (tr : TypeRestrictions) (k : EV) : Prop :=
    match w with
    | LkFind => (in_types tr k /\ in_relation LkFind key k) \/ (k = Any /\ tr_max tr = T_any)
    | LkNotEqual => in_types tr k /\ ~ same_value key k
    | LkLess | LkLessEq => (tr_min tr <= ev_type k /\ in_relation w key k) \/ (k = Any /\ tr_max tr = T_any)
    | LkGreater | LkGreaterEq => ev_type k <= tr_max tr /\ in_relation w key k
    end.

  Lemma not_any_string key : good key -> key <> Any -> ev_type key <= T_string.
  Proof.
    intros G N. pose proof (well_typed_tag _ _ (proj1 G)) as K. unfold known_tag in K.
    assert (ev_type key <> T_any) by (intros E; apply N, any_of_type; auto). unfold T_any, T_string in *. lia.
  Qed.

  Lemma any_good : good Any.
  Proof. exact good_any. Qed.

  Lemma find_order n (root : option node) w key tr :
    well_shaped n root -> key_allowed w key -> tr_validate tr = true ->
    exists l, forall S (cb : S -> EV -> V -> S * bool) s, exists ev, run_lookup w cb root key tr s = FOk (fst (offer cb s l)) ev.
  Proof.
    intros W [G N] TR. destruct w; cbn [run_lookup].
    - destruct (Z.eq_dec (ev_type key) T_any) as [E|E].
      + apply any_of_type in E; [subst|exact G]. destruct (find_any_lemma n root tr W TR) as (l & _ & H). eauto.
      + destruct (find_key_lemma n root key tr W G ltac:(intros ->; apply E; reflexivity) TR) as (l1 & l2 & _ & _ & H). eauto.
    - destruct (find_ne_lemma n root key tr W G (not_any_string _ G N) TR) as (l & _ & H). eauto.
    - destruct (find_lt_lemma n root key tr W G (not_any_string _ G N) TR) as (l & _ & H). eauto.
    - destruct (find_le_lemma n root key tr W G (not_any_string _ G N) TR) as (l & _ & H). eauto.
    - destruct (find_gt_lemma n root key tr W G (not_any_string _ G N) TR) as (l & _ & H). eauto.
    - destruct (find_ge_lemma n root key tr W G (not_any_string _ G N) TR) as (l & _ & H). eauto.
  Qed.

  Lemma range_lookup_lemma n (root : option node) w key tr :
    well_shaped n root -> w <> LkFind -> key_allowed w key -> tr_validate tr = true ->
    exists l, exactly (contents root) (visits w key tr) l /\
      forall S (cb : S -> EV -> V -> S * bool) s, exists ev, run_lookup w cb root key tr s = FOk (fst (offer cb s l)) ev.
  Proof.
    intros W NF [G N] TR. destruct w; cbn [run_lookup visits in_relation] in *; [contradiction| | | | |].
    - exact (find_ne_lemma n root key tr W G (not_any_string _ G N) TR).
    - exact (find_lt_lemma n root key tr W G (not_any_string _ G N) TR).
    - exact (find_le_lemma n root key tr W G (not_any_string _ G N) TR).
    - exact (find_gt_lemma n root key tr W G (not_any_string _ G N) TR).
    - exact (find_ge_lemma n root key tr W G (not_any_string _ G N) TR).
  Qed.

  Lemma exactly_ext (c l : list entry) (P Q : EV -> Prop) : (forall k v, In (k, v) c -> P k <-> Q k) -> exactly c P l -> exactly c Q l.
  Proof.
    intros E [N H]. split; [exact N|]. intros k v. rewrite H. split; intros [H1 H2]; (split; [exact H1|]); apply (E k v); auto.
  Qed.

  (** C10: when the argument's type lies within the restriction, exactly what is meant. *)
  Lemma range_lookup_meant n (root : option node) w key tr :
    (2 <= n)%nat -> well_shaped n root -> w <> LkFind -> key_allowed w key -> tr_validate tr = true -> in_types tr key ->
    exists l, exactly (contents root) (meant w key tr) l /\
      forall S (cb : S -> EV -> V -> S * bool) s, exists ev, run_lookup w cb root key tr s = FOk (fst (offer cb s l)) ev.
  Proof.
    intros Hn W NF K TR IT. destruct (range_lookup_lemma n root w key tr W NF K TR) as (l & El & H). exists l. split; [|exact H].
    revert El. apply exactly_ext. intros k v Hin. pose proof (goods_in _ _ (contents_goods n root Hn W) Hin) as Gk. cbn [fst] in Gk.
    destruct K as [G N]. unfold meant, visits, in_types in *.
    assert (NA : ev_type key <> T_any) by (destruct w; try contradiction; intros E; apply N, any_of_type; auto).
    assert (LA : k = Any -> lmt key k = true).
    { intros ->. apply any_comparisons; auto. intros ->. apply NA. reflexivity. }
    assert (LT : forall a b, good a -> good b -> value_lt a b -> ev_type a <= ev_type b).
    { intros a b Ga Gb HH. apply lmt_type_le; auto. apply lmt_spec; [apply Ga|apply Gb|exact HH]. }
    assert (ST : same_value key k -> ev_type key = ev_type k) by (intros [E _]; exact E).
    assert (VA : k = Any -> value_lt key k) by (intros EE; apply lmt_spec; [apply G|apply Gk|auto]).
    assert (TA : k = Any -> ev_type k = T_any) by (intros ->; reflexivity).
    destruct w; cbn [in_relation]; try contradiction.
    - split; [tauto|]. intros [HH|[HA HM]]; [tauto|]. split; [rewrite TA; auto; lia|]. intros HS. apply NA. rewrite ST, TA; auto.
    - split; [|tauto]. intros [[H1 H2]|HH]; [|tauto]. left. split; [|exact H2]. pose proof (LT k key Gk G H2). lia.
    - split; [|tauto]. intros [[H1 [H2|H2]]|HH]; [| |tauto].
      + left. split; [|tauto]. pose proof (LT k key Gk G H2). lia.
      + left. split; [|tauto]. pose proof (ST H2). lia.
    - split.
      + intros [H1 H2]. left. split; [|exact H2]. pose proof (LT key k G Gk H2). lia.
      + intros [HH|[HA HM]]; [tauto|]. split; [rewrite TA; auto; lia|auto].
    - split.
      + intros [H1 [H2|H2]]; left.
        * split; [|tauto]. pose proof (LT key k G Gk H2). lia.
        * split; [|tauto]. pose proof (ST H2). lia.
      + intros [HH|[HA HM]]; [tauto|]. split; [rewrite TA; auto; lia|auto].
  Qed.

  (** C11 *)
  Lemma offer_recorder (go : list entry -> bool) : forall l seen,
    exists pre rest, l = pre ++ rest /\ fst (offer (recorder go) seen l) = seen ++ pre /\
      (forall p q, pre = p ++ q -> p <> [] -> q <> [] -> go (seen ++ p) = true) /\
      (rest = [] \/ go (seen ++ pre) = false /\ pre <> []).
  Proof.
    induction l as [|[k v] l IH]; intros seen.
    - exists [], []. cbn. rewrite app_nil_r. repeat split; auto. intros p q E Np _. destruct p; [contradiction|discriminate].
    - cbn [offer recorder]. destruct (go (seen ++ [(k, v)])) eqn:E.
      + destruct (IH (seen ++ [(k, v)])) as (pre & rest & -> & H1 & H2 & H3). exists ((k, v) :: pre), rest.
        split; [reflexivity|]. rewrite <- app_assoc in H1. split; [exact H1|]. split.
        * intros p q EE Np Nq. destruct p as [|x p]; [contradiction|]. cbn in EE. injection EE as <- EE.
          destruct p as [|y p]; [exact E|]. specialize (H2 (y :: p) q EE ltac:(discriminate) Nq). rewrite <- app_assoc in H2. exact H2.
        * destruct H3 as [H3|[H3 H4]]; [auto|]. right. rewrite <- app_assoc in H3. split; [exact H3|discriminate].
      + exists [(k, v)], l. split; [reflexivity|]. split; [reflexivity|]. split.
        * intros p q EE Np Nq. destruct p as [|x [|y p]]; [contradiction| |discriminate].
          cbn in EE. injection EE as _ EE. subst q. contradiction.
        * right. split; [exact E|discriminate].
  Qed.

  Lemma early_stop_lemma n (root : option node) w key tr :
    well_shaped n root -> key_allowed w key -> tr_validate tr = true ->
    exists full,
      (exists ev, run_lookup w (recorder (fun _ => true)) root key tr [] = FOk full ev) /\
      forall go, exists seen rest ev, run_lookup w (recorder go) root key tr [] = FOk seen ev /\ full = seen ++ rest /\
        (forall p q, seen = p ++ q -> p <> [] -> q <> [] -> go p = true) /\
        (rest = [] \/ go seen = false /\ seen <> []).
  Proof.
    intros W K TR. destruct (find_order n root w key tr W K TR) as (l & H). exists l. split.
    - destruct (H _ (recorder (fun _ => true)) []) as (ev & ->). exists ev. f_equal.
      destruct (offer_recorder (fun _ => true) l []) as (pre & rest & E1 & E2 & _ & [->|[D _]]); [|discriminate].
      rewrite app_nil_r in E1. subst pre. exact E2.
    - intros go. destruct (H _ (recorder go) []) as (ev & ->). destruct (offer_recorder go l []) as (pre & rest & E1 & E2 & H2 & H3).
      exists pre, rest, ev. split; [f_equal; exact E2|]. auto.
  Qed.

  (** C13, all lookups *)
  Lemma locks_released_lemma {S} (cb : S -> EV -> V -> S * bool) n (root : option node) w key tr s :
    (2 <= n)%nat -> well_shaped n root -> key_allowed w key -> tr_validate tr = true -> in_types tr key ->
    ((key = Any \/ w = LkNotEqual) ->
       (forall k v, In (k, v) (contents root) -> tr_min tr <= ev_type k) \/ (forall s k v, snd (cb s k v) = true)) ->
    exists s' ev, run_lookup w cb root key tr s = FOk s' ev /\ lock_clean ev.
  Proof.
    intros Hn W [G N] TR IT C. destruct w; cbn [run_lookup].
    - destruct (Z.eq_dec (ev_type key) T_any) as [E|E].
      + apply any_of_type in E; [subst|exact G]. apply (find_any_locks_lemma cb n); auto.
      + destruct (find_locks_lemma cb n root key tr s W G ltac:(intros ->; apply E; reflexivity) TR) as (s' & ev & -> & H).
        exists s', ev. split; [reflexivity|]. apply H. auto.
    - apply (find_ne_locks_lemma cb n); auto. apply not_any_string; auto.
    - destruct (find_less_locks cb n root cls_lt key tr s W G (not_any_string _ G N) TR (mono_lt _ _ G)) as (s' & ev & E & H).
      exists s', ev. split; [exact E|]. apply H. unfold in_types in IT. lia.
    - destruct (find_less_locks cb n root cls_le key tr s W G (not_any_string _ G N) TR (mono_le _ _ G)) as (s' & ev & E & H).
      exists s', ev. split; [exact E|]. apply H. unfold in_types in IT. lia.
    - destruct (find_greater_locks cb n root cls_gt key tr s W G (not_any_string _ G N) TR (mono_gt _ _ G)) as (s' & ev & E & H).
      exists s', ev. split; [exact E|]. apply H. unfold in_types in IT. lia.
    - destruct (find_greater_locks cb n root cls_ge key tr s W G (not_any_string _ G N) TR (mono_ge _ _ G)) as (s' & ev & E & H).
      exists s', ev. split; [exact E|]. apply H. unfold in_types in IT. lia.
  Qed.
End T.

(** ** Witnesses *)
Definition build {V} (n : nat) (l : list (EV * V)) : option (node V) :=
  fold_left (fun r e => match tree_create n r (fst e) (Some (snd e)) with TOk r' => r' | TExists _ r' => r' | TPanic => r end) l None.

Lemma good_int z : good (Int z).
Proof. split; [constructor|]. intros [H|H]; discriminate. Qed.
Lemma good_str s : good (Str s).
Proof. split; [constructor|]. intros [H|H]; discriminate. Qed.

Lemma build_ops {V} n (l : list (EV * V)) : (2 <= n)%nat -> Forall (fun e => good (fst e)) l ->
  well_shaped n (build n l).
Proof.
  intros Hn F. unfold build. assert (H : well_shaped n (@None (node V))) by exact I. revert H. generalize (@None (node V)).
  induction F as [|e l G F IH]; intros r W; [exact W|]. cbn [fold_left]. apply IH.
  destruct (tree_create_lemma n r (fst e) (snd e) Hn W G) as [(v0 & r' & _ & -> & Wr & _)|(_ & r' & -> & Wr & _)]; exact Wr.
Qed.

Lemma nil_constructor_witness : exists (n : nat) (root : option (node nat)) k r,
  (2 <= n)%nat /\ well_shaped n root /\ good k /\ not_stored (contents root) k /\
  tree_create n root k None = TOk r /\ CreateOrFind n root k None = CofCreated r /\
  contents root = [(Int 1, 10%nat); (Int 2, 20%nat)] /\ contents r = [(Int 1, 10%nat); (Int 1, 10%nat)].
Proof.
  exists 2%nat, (build 2 [(Int 1, 10%nat); (Int 2, 20%nat)]), (Int 0).
  eexists. split; [lia|]. split; [apply build_ops; [lia|repeat constructor; apply good_int]|]. split; [apply good_int|]. split.
  { intros k' v [H|[H|[]]] [_ HS]; injection H as <- <-; inversion HS. }
  split; [vm_compute; reflexivity|]. split; [vm_compute; reflexivity|]. split; vm_compute; reflexivity.
Qed.
Lemma nil_constructor_not_empty :
  CreateOrFind 2 (@None (node nat)) (Int 0) None = CofCreated (Some (Node [] [])) /\ Empty (Some (Node (V:=nat) [] [])) = false.
Proof. split; vm_compute; reflexivity. Qed.

Definition demo : option (node nat) :=
  build 2 [(Int 1, 1%nat); (Int 2, 2%nat); (Int 3, 3%nat); (Str "a", 4%nat); (Str "b", 5%nat); (Str "c", 6%nat); (Any, 7%nat); (Uint8 9, 8%nat)].
Lemma demo_shape : well_shaped 2 demo.
Proof.
  apply build_ops; [lia|]. repeat (constructor; [first [apply good_int|apply good_str|apply good_any|split; [constructor|intros [H|H]; discriminate]]|]). constructor.
Qed.

(** Restrictions that exclude the argument's type: the upper (resp. lower) bound is not applied. *)
Lemma range_type_witness :
  exists seen ev, run_lookup LkLess (recorder (fun _ => true)) demo (Str "b") (mkTR 10 10) [] = FOk seen ev /\
    In (Str "a", 4%nat) seen /\ ~ meant LkLess (Str "b") (mkTR 10 10) (Str "a").
Proof.
  eexists _, _. split; [vm_compute; reflexivity|]. split; [cbn; tauto|].
  intros [[[H1 H2] _]|[H _]]; [|discriminate]. cbn in H2. unfold T_string in H2. lia.
Qed.
Lemma range_type_witness2 :
  exists seen ev, run_lookup LkGreater (recorder (fun _ => true)) demo (Int 2) (mkTR 13 13) [] = FOk seen ev /\
    In (Int 3, 3%nat) seen /\ ~ meant LkGreater (Int 2) (mkTR 13 13) (Int 3).
Proof.
  eexists _, _. split; [vm_compute; reflexivity|]. split; [cbn; tauto|].
  intros [[[H1 H2] _]|[H _]]; [|discriminate]. cbn in H1. unfold T_int in H1. lia.
Qed.

(** A lookup whose restriction excludes the key's type keeps the tree's own read lock. *)
Lemma leak_witness : forall w, w <> LkNotEqual ->
  exists key tr seen ev, key_allowed w key /\ tr_validate tr = true /\
    run_lookup w (recorder (fun _ => true)) demo key tr [] = FOk seen ev /\ ~ lock_clean ev.
Proof.
  intros w NE.
  exists (Int 2), (match w with LkGreater | LkGreaterEq => mkTR 1 9 | _ => mkTR 11 13 end).
  destruct w; try contradiction; eexists _, _;
    (split; [split; [apply good_int|try exact I; discriminate]|]; split; [reflexivity|]; split; [vm_compute; reflexivity|]);
    unfold lock_clean; vm_compute; discriminate.
Qed.
(** Stopping an iteration early after entries were skipped for their type releases locks never taken. *)
Definition demo2 : option (node nat) :=
  build 2 [(Int 1, 1%nat); (Int 2, 2%nat); (Int 3, 3%nat); (Str "b", 4%nat); (Str "c", 5%nat); (Str "a", 6%nat)].
Lemma demo2_shape : well_shaped 2 demo2.
Proof. apply build_ops; [lia|]. repeat (constructor; [first [apply good_int|apply good_str]|]). constructor. Qed.
Lemma iterate_witness :
  exists seen ev, run_lookup LkFind (recorder (fun l => Nat.ltb (length l) 2)) demo2 Any (mkTR 13 13) [] = FOk seen ev /\ replay [] ev = None.
Proof. eexists _, _. split; [vm_compute; reflexivity|]. vm_compute. reflexivity. Qed.
Lemma iterate_witness_ne :
  exists seen ev, run_lookup LkNotEqual (recorder (fun l => Nat.ltb (length l) 2)) demo2 (Str "z") (mkTR 13 13) [] = FOk seen ev /\ replay [] ev = None.
Proof. eexists _, _. split; [vm_compute; reflexivity|]. vm_compute. reflexivity. Qed.
Lemma range_lookup_lemma' V n (root : option (node V)) w key tr :
  well_shaped n root -> w <> LkFind -> key_allowed w key -> tr_validate tr = true ->
  exists l,
    exactly (contents root)
      (fun k => match w with
                | LkFind => False
                | LkNotEqual => in_types tr k /\ ~ same_value key k
                | LkLess | LkLessEq =>
                    ((tr_min tr <= ev_type k)%Z /\ in_relation w key k) \/ (k = Any /\ tr_max tr = T_any)
                | LkGreater | LkGreaterEq => (ev_type k <= tr_max tr)%Z /\ in_relation w key k
                end) l /\
    forall S (cb : S -> EV -> V -> S * bool) s, exists ev, run_lookup w cb root key tr s = FOk (fst (offer cb s l)) ev.
Proof.
  intros W N K T. destruct (range_lookup_lemma n root w key tr W N K T) as (l & El & H). exists l. split; [|exact H].
  revert El. apply exactly_ext. intros k v _. destruct w; cbn [visits]; try tauto; contradiction.
Qed.
Lemma tree_history_lemma V n (ops : list (tree_op V)) :
  (2 <= n)%nat -> Forall (fun o => good (op_key o)) ops ->
  exists r, tree_run n None ops = Some r /\ well_shaped n r /\ map_run [] ops (contents r).
Proof. intros Hn F. exact (tree_run_lemma n ops Hn F None I). Qed.
Lemma height_lemma V n h (t : node V) :
  (2 <= n)%nat -> well_shaped n (Some t) -> balanced n h t -> (0 < h)%nat ->
  (2 * (n / 2 + 1) ^ h - 1 <= length (contents (Some t)))%nat.
Proof.
  intros Hn (h' & B' & _ & L & _) B Hh. apply depth_lemma; auto. intros _. apply L.
  destruct h' as [|h']; [|lia]. destruct t as [vs ks]. apply (proj1 (balanced_0 _ _ _)) in B'. subst ks.
  destruct h; [lia|]. apply (proj1 (balanced_S _ _ _ _)) in B. cbn [vals_of kids_of] in B. destruct B as [B _]. discriminate.
Qed.
