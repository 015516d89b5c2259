From Coq Require Import Sorted Permutation ZifyBool ZifyNat.
From Verif Require Import Datatypes SpecValues DatatypesProofs BTree SpecBTree BTreeProofs BTreeFind SpecFind
  PropLemmasValues BTreeFindProofs BTreeLockProofs PropLemmasTree PropLemmasFind BTreeCreateFind.
Local Open Scope nat_scope.

Section T.
  Context {V : Type}.
  Notation node := (node V).
  Notation entry := (entry V).

  Definition greater_than (k : EV) (l : list entry) : list entry := filter (fun e => lmt k (fst e)) l.

  Lemma greater_app k l1 l2 : length (greater_than k (l1 ++ l2)) = length (greater_than k l1) + length (greater_than k l2).
  Proof. unfold greater_than. rewrite filter_app, app_length. reflexivity. Qed.

  Lemma search_above (vs : list entry) k : goods vs -> good k -> sorted vs -> absent k vs ->
    length vs <= search vs k + length (greater_than k vs).
  Proof.
    intros G Gk S A. induction vs as [|[kv v] vs IH]; [cbn; lia|].
    apply goods_cons in G as [Gv G]. apply sorted_cons in S as [S0 S1]. apply absent_cons in A as [A0 A1]. cbn [fst] in *.
    cbn [search]. destruct (lmt kv k) eqn:E; cbn [negb].
    - specialize (IH G S0 A1). unfold greater_than in *. cbn [filter fst length]. destruct (lmt k kv); cbn [length]; lia.
    - destruct A0 as [A0|A0]; [congruence|]. assert (FA : greater_than k ((kv, v) :: vs) = (kv, v) :: vs).
      { unfold greater_than. cbn [filter fst]. rewrite A0. f_equal. clear IH A1. induction vs as [|[k2 v2] vs IHv]; [reflexivity|].
        cbn [filter fst]. apply goods_cons in G as [G2 G]. apply sorted_cons in S0 as [S0 S2].
        rewrite (lmt_trans k kv k2); auto; [|apply (S1 (k2, v2)); left; reflexivity]. f_equal. apply IHv; auto.
        intros b Hb. apply S1. right. exact Hb. }
      cbn [Nat.add]. apply Nat.eq_le_incl. symmetry. exact (f_equal (@length _) FA).
  Qed.

  Lemma createTreeItem_nil (vs : list entry) k : goods vs -> good k -> sorted vs -> absent k vs ->
    length (greater_than k vs) <= 1 -> createTreeItem vs k None = inr vs.
  Proof.
    intros G Gk S A L. pose proof (search_above vs k G Gk S A) as SA.
    pose proof (createTreeItem_spec vs k None G Gk S) as C. unfold createTreeItem in *.
    destruct (search_spec vs k) as (vs1 & vs2 & E & L1 & B & N). rewrite <- L1 in *. subst vs.
    destruct (found_at (vs1 ++ vs2) (length vs1) k) as [[kf vf]|] eqn:EF.
    - destruct C as (k' & I & E1 & E2). unfold absent in A. rewrite Forall_forall in A. specialize (A _ I). cbn [fst] in A.
      destruct A; congruence.
    - rewrite app_length in SA. f_equal. destruct vs2 as [|e [|e2 vs2]].
      + replace (nth_error (vs1 ++ []) (length vs1)) with (@None entry) by (symmetry; apply nth_error_None; rewrite app_nil_r; lia).
        apply firstn_all.
      + rewrite nth_error_app_len, (firstn_app_len vs1 [e] _ eq_refl), (skipn_app_len vs1 [e] _ eq_refl) by reflexivity.
        replace (vs1 ++ e :: [e]) with ((vs1 ++ [e]) ++ [e]) by (rewrite <- app_assoc; reflexivity).
        apply firstn_app_len. reflexivity.
      + cbn [length] in SA. lia.
  Qed.

  Lemma create_nil_unchanged n h : forall (t : node) k, balanced n h t -> length (vals_of t) <= n ->
    goods (flat t) -> good k -> sorted (flat t) -> absent k (flat t) ->
    length (greater_than k (flat t)) <= 1 -> create n t k None = CSame t.
  Proof.
    induction h as [|h IH]; intros [vs ks] k Hb Ln G Gk S A L.
    - apply (proj1 (balanced_0 _ _ _)) in Hb. subst ks. cbn [create]. cbn [flat map] in *. rewrite weave_nil_r in *.
      rewrite (createTreeItem_nil vs k G Gk S A L). cbn [vals_of] in Ln. unfold maxValues.
      destruct (Nat.ltb_spec n (length vs)); [lia|reflexivity].
    - apply (proj1 (balanced_S _ _ _ _)) in Hb; cbn [vals_of kids_of] in *; destruct Hb as [LK FK].
      assert (CE : create n (Node vs ks) k None =
        match found_at vs (search vs k) k with
        | Some (_, v) => CExists v
        | None =>
            match on_nth (fun c => create n c k None) ks (search vs k) with
            | Some (CSame c') => CSame (Node vs (set_nth (search vs k) c' ks))
            | Some (CSplit p) =>
                match insertNode vs ks p with
                | Some (vs', ks') =>
                    if Nat.ltb (maxValues n) (length vs') then
                      match splitNode n vs' ks' with Some p' => CSplit p' | None => CPanic end
                    else CSame (Node vs' ks')
                | None => CPanic
                end
            | Some r => r
            | None => CPanic
            end
        end) by (destruct ks; [discriminate|reflexivity]).
      rewrite CE. clear CE.
      destruct (search_spec vs k) as (vs1 & vs2 & E & L1 & B & N). rewrite <- L1. subst vs.
      rewrite app_length in LK.
      destruct (split_elem ks (length vs1) ltac:(lia)) as (ks1 & c & ks2 & -> & L2).
      rewrite app_length in LK. cbn [length] in LK. assert (L3 : length vs2 = length ks2) by lia.
      rewrite flat_split in * by auto. pose proof (found_at_app vs1 vs2 k) as EF.
      destruct (found_at (vs1 ++ vs2) (length vs1) k) as [[kf vf]|] eqn:EF'.
      + destruct vs2 as [|[k2 v2] vs2]; [discriminate|]. specialize (N _ _ eq_refl). cbn [fst] in N.
        destruct (lmt k k2) eqn:E2; [discriminate|].
        exfalso. apply absent_app in A as [_ A]. apply absent_app in A as [_ A]. cbn [map post] in A.
        unfold absent in A. rewrite Forall_forall in A. specialize (A (k2, v2) (or_introl eq_refl)). cbn [fst] in A. destruct A; congruence.
      + rewrite on_nth_spec, nth_error_app_len by exact L2. cbn [option_map].
        apply Forall_app in FK as [_ FK]. apply Forall_cons_iff in FK as [[Bc Oc] _].
        apply goods_app in G as [_ G]. apply goods_app in G as [Gc _]. apply absent_app in A as [_ A]. apply absent_app in A as [Ac _].
        apply sorted_app in S as (_ & S & _). apply sorted_app in S as (Sc & _ & _).
        rewrite !greater_app in L. rewrite (IH c k Bc ltac:(lia) Gc Gk Sc Ac ltac:(lia)).
        rewrite set_nth_app by exact L2. reflexivity.
  Qed.

  (** C12, partial *)
  Lemma nil_constructor_lemma n (root : option node) k :
    2 <= n -> well_shaped n root -> good k -> not_stored (contents root) k ->
    (forall e1 e2, In e1 (contents root) -> In e2 (contents root) -> value_lt k (fst e1) -> value_lt k (fst e2) -> e1 = e2) ->
    exists r, tree_create n root k None = TOk r /\ well_shaped n r /\ contents r = contents root.
  Proof.
    intros Hn W Gk NS U. destruct (well_shaped_split n root Hn W) as (h & B & L1 & L2 & S & G & E).
    unfold tree_create. cbv zeta in *. set (t := match root with Some t => t | None => Node [] [] end) in *.
    assert (A : absent k (flat t)).
    { unfold absent. rewrite Forall_forall. intros [k' v'] Hin. cbn [fst].
      destruct (lmt k' k) eqn:E1; [auto|]. destruct (lmt k k') eqn:E2; [auto|]. exfalso.
      rewrite E in Hin. apply (NS k' v' Hin). rewrite <- E in Hin. apply (equiv_same (flat t) k k' v'); auto. }
    assert (L : length (greater_than k (flat t)) <= 1).
    { unfold greater_than. assert (ND : NoDup (filter (fun e => lmt k (fst e)) (flat t))) by (apply NoDup_filter, sorted_nodup, S).
      assert (U' : forall e1 e2, In e1 (filter (fun e => lmt k (fst e)) (flat t)) -> In e2 (filter (fun e => lmt k (fst e)) (flat t)) -> e1 = e2).
      { intros e1 e2 H1 H2. apply filter_In in H1 as [H1 H1'], H2 as [H2 H2'].
        apply U; try (rewrite <- E; assumption); apply lmt_spec; auto; try apply Gk; first [exact (proj1 (goods_in _ _ G H1))|exact (proj1 (goods_in _ _ G H2))]. }
      change (NoDup (greater_than k (flat t))) in ND. change (forall e1 e2, In e1 (greater_than k (flat t)) -> In e2 (greater_than k (flat t)) -> e1 = e2) in U'.
      change (length (greater_than k (flat t)) <= 1). destruct (greater_than k (flat t)) as [|a [|b l]]; cbn [length]; try lia. exfalso.
      apply NoDup_cons_iff in ND as [ND _]. apply ND. left. apply U'; cbn; auto. }
    rewrite (create_nil_unchanged n h t k B L1 G Gk S A L). exists (Some t). split; [reflexivity|]. split; [|exact E].
    exists h. repeat split; auto. apply ordered_iff. auto.
  Qed.

  (** CreateOrFind = lookup, else creation *)
  Lemma create_or_find_lemma n (root : option node) k v :
    2 <= n -> well_shaped n root -> good k ->
    (exists v0 r, stored (contents root) k v0 /\ CreateOrFind n root k (Some v) = CofFound v0 r /\ well_shaped n r /\
                  contents r = contents root) \/
    (not_stored (contents root) k /\ exists r, CreateOrFind n root k (Some v) = CofCreated r /\ well_shaped n r /\
       Permutation (contents r) ((k, v) :: contents root)).
  Proof.
    intros Hn W Gk.
    assert (TR : tr_validate (mkTR (ev_type k) (ev_type k)) = true).
    { pose proof (well_typed_tag _ _ (proj1 Gk)) as KT. apply type_restrictions_exact. cbn [tr_min tr_max]. repeat split; auto; lia. }
    set (cb := fun (_ : option V) (_ : EV) (v : V) => (Some v, false)).
    assert (F : exists o ev, Find cb root k (mkTR (ev_type k) (ev_type k)) None = FOk o ev /\
                  match o with Some v0 => stored (contents root) k v0 | None => not_stored (contents root) k end).
    { assert (K : ev_type k = T_any \/ ev_type k <> T_any) by lia. destruct K as [K|K].
      - assert (k = Any) by (apply any_of_type; auto). subst k.
        destruct (find_any_lemma n root _ W TR) as (l & [ND El] & H).
        destruct (H _ cb None) as (ev & ->). eexists _, _. split; [reflexivity|].
        destruct l as [|[k' v'] l]; cbn [offer fst cb].
        + intros k' v' Hin Hs. assert (I : In (k', v') []); [|destruct I]. apply El. split; [exact Hin|].
          unfold in_types. cbn [tr_min tr_max]. destruct Hs as [<- _]. lia.
        + exists k'. destruct (El k' v') as [E1 _]. destruct (E1 (or_introl eq_refl)) as [Hin T]. split; [|exact Hin].
          unfold in_types in T. cbn in T. assert (k' = Any); [|subst; split; [reflexivity|constructor]].
          apply any_of_type; [|change T_any with 1024%Z in *; lia]. exact (goods_in _ _ (contents_goods n root Hn W) Hin).
      - destruct (find_key_lemma n root k _ W Gk ltac:(intros ->; apply K; reflexivity) TR) as (l1 & l2 & C & [_ E2] & H).
        destruct (H _ cb None) as (ev & ->). eexists _, _. split; [reflexivity|].
        assert (l2 = []). { destruct l2 as [|[k' v'] l2]; [reflexivity|]. destruct (E2 k' v') as [E3 _].
          destruct (E3 (or_introl eq_refl)) as (_ & _ & E4). cbn [tr_max] in E4. contradiction. }
        subst l2. rewrite app_nil_r. assert (IT : in_types (mkTR (ev_type k) (ev_type k)) k) by (unfold in_types; cbn; lia).
        destruct C as [(_ & v0 & St & ->)|[-> NS]]; cbn [offer fst cb]; auto. }
    destruct F as (o & ev & F1 & F2). unfold CreateOrFind. fold cb. rewrite F1. destruct o as [v0|].
    - left. exists v0, root. auto.
    - destruct (tree_create_lemma n root k v Hn W Gk) as [(v0 & r & (k' & Hs & Hin) & _)|(NS & r & -> & Wr & P)].
      + exfalso. exact (F2 k' v0 Hin Hs).
      + right. split; [exact NS|]. exists r. auto.
  Qed.

  (** ** C13 *)
  Lemma lock_clean_frame ev1 A ev2 : turns ev1 [] A -> turns ev2 A [] -> lock_clean (ev1 ++ ev2).
  Proof. intros H1 H2. apply turns_clean. eapply turns_app; eauto. Qed.

  Lemma turns_L0root : turns [L0; Lroot] [] [LTree; LNode []].
  Proof. intros H. eexists. split; [reflexivity|]. cbn. apply perm_swap. Qed.
  Lemma turns_L0 : turns [L0] [] [LTree].
  Proof. apply (turns_lock [LTree]). Qed.
  Lemma turns_U0 : turns [U0] [LTree] [].
  Proof. apply (turns_unlock [LTree]). Qed.

  Lemma turns_add2 ev P Q : turns ev P [] -> turns ev (P ++ Q) Q.
  Proof. intros H. change Q with ([] ++ Q) at 2. apply turns_frame. exact H. Qed.

  Lemma then_any_locks {S} (cb : S -> EV -> V -> S * bool) n (t : node) tr s go ev :
    findable n t -> turns ev [] (if Z.ltb (tr_max tr) T_any then [] else [LTree]) ->
    (tr_max tr <= T_any)%Z ->
    exists s' ev', then_any cb t tr s go ev = FOk s' ev' /\ lock_clean ev'.
  Proof.
    intros (h & B & G & So) T M. unfold then_any. destruct (Z.eqb_spec (tr_max tr) T_any) as [E|E].
    - rewrite (proj2 (Z.ltb_ge _ _)) in T by lia.
      destruct (findMatchType_spec n h t [] Any B G good_any So) as (r & ev2 & -> & _ & T2).
      assert (C : lock_clean (ev ++ [Lroot; U0] ++ ev2)).
      { apply (lock_clean_frame ev [LTree]); [exact T|]. eapply turns_app; [|exact T2].
        intros H. eexists. split; [reflexivity|]. reflexivity. }
      destruct go; [destruct r as [[k v]|]; eauto|].
      eexists _, _. split; [reflexivity|]. apply (lock_clean_frame ev [LTree]); [exact T|]. apply turns_U0.
    - rewrite (proj2 (Z.ltb_lt _ _)) in T by lia. eexists _, _. split; [reflexivity|]. apply turns_clean, T.
  Qed.

  Lemma root_locks tr : (tr_max tr <= T_any)%Z ->
    turns ([L0; Lroot] ++ (if Z.ltb (tr_max tr) T_any then [U0] else [])) []
          ([LNode []] ++ (if Z.ltb (tr_max tr) T_any then [] else [LTree])).
  Proof.
    intros _. eapply turns_app; [apply turns_L0root|]. destruct (Z.ltb _ _).
    - apply (turns_perm _ ([LTree] ++ [LNode []]) _ [LNode []] _); [reflexivity|reflexivity|]. apply turns_add2, turns_U0.
    - cbn [app]. apply (turns_perm _ [LTree; LNode []] _ [LTree; LNode []]); [reflexivity|apply perm_swap|apply turns_nil].
  Qed.

  Lemma tr_validate_max tr : tr_validate tr = true -> (tr_max tr <= T_any)%Z.
  Proof.
    intros H. apply (proj1 type_restrictions_exact) in H as (H1 & H2 & _). unfold known_tag, T_any in *. lia.
  Qed.
  Lemma valid_no_any key : good key -> (ev_type key <= T_string)%Z -> ev_validate key MinDataType MaxWithoutAnyDataType = true.
  Proof.
    intros Gk Tk. apply validate_iff. split; [apply Gk|]. pose proof (well_typed_tag _ _ (proj1 Gk)) as K. unfold known_tag in K.
    unfold MinDataType, MaxWithoutAnyDataType, T_uint8, T_string in *. lia.
  Qed.

  Lemma leak_L0 : ~ lock_clean [L0].
  Proof. unfold lock_clean. cbn. discriminate. Qed.

  Lemma find_locks_lemma {S} (cb : S -> EV -> V -> S * bool) n (root : option node) key tr s :
    well_shaped n root -> good key -> key <> Any -> tr_validate tr = true ->
    exists s' ev, Find cb root key tr s = FOk s' ev /\
      (lock_clean ev <-> (root = None \/ in_types tr key \/ tr_max tr = T_any)).
  Proof.
    intros W Gk NA TR.
    assert (KT : known_tag (ev_type key)) by (apply well_typed_tag with (p := ev_data key), Gk).
    assert (NT : ev_type key <> T_any) by (intros E; apply NA, any_of_type; auto).
    assert (VK : ev_validate key MinDataType MaxDataType = true).
    { apply validate_iff. split; [apply Gk|]. unfold known_tag in KT.
      unfold MinDataType, MaxDataType, T_uint8, T_any in *. lia. }
    assert (GT : GeneralDataTypes (ev_type key) = true).
    { apply general_range. unfold known_tag, T_any in *. lia. }
    unfold Find. rewrite VK, TR, GT. cbn [negb andb]. destruct root as [t|].
    2: { eexists _, _. split; [reflexivity|]. split; [auto|]. intros _. reflexivity. }
    apply well_shaped_findable in W. pose proof (tr_validate_max _ TR) as M.
    destruct (negb (Z.ltb (ev_type key) (tr_min tr)) && negb (Z.ltb (tr_max tr) (ev_type key))) eqn:EI.
    - assert (IT : in_types tr key) by (unfold in_types; lia). pose proof W as (h & B & G & So).
      destruct (findMatchType_spec n h t [] key B G Gk So) as (r & ev2 & -> & R & T).
      assert (TT : turns (([L0; Lroot] ++ (if Z.ltb (tr_max tr) T_any then [U0] else [])) ++ ev2) []
                         (if Z.ltb (tr_max tr) T_any then [] else [LTree])).
      { eapply turns_app; [apply root_locks, M|]. apply turns_add2, T. }
      destruct r as [[k v]|].
      + destruct (cb s key v) as [s1 go]. destruct (then_any_locks cb n t tr s1 go _ W TT M) as (s' & ev' & -> & C).
        eexists _, _. split; [reflexivity|]. split; auto.
      + destruct (then_any_locks cb n t tr s true _ W TT M) as (s' & ev' & -> & C).
        eexists _, _. split; [reflexivity|]. split; auto.
    - destruct (Z.eq_dec (tr_max tr) T_any) as [E|E].
      + destruct (then_any_locks cb n t tr s true [L0] W) as (s' & ev' & -> & C); [|exact M|].
        { rewrite (proj2 (Z.ltb_ge _ _)) by lia. apply turns_L0. }
        eexists _, _. split; [reflexivity|]. split; auto.
      + unfold then_any. rewrite (proj2 (Z.eqb_neq _ _)) by exact E. eexists _, _. split; [reflexivity|].
        split; [intros C; destruct (leak_L0 C)|]. intros [H|[H|H]]; [discriminate| |contradiction]. exfalso. unfold in_types in H. lia.
  Qed.

  Lemma find_less_locks {S} (cb : S -> EV -> V -> S * bool) n (root : option node) cls key tr s :
    well_shaped n root -> good key -> (ev_type key <= T_string)%Z -> tr_validate tr = true -> mono (cls key tr) ->
    exists s' ev, find_less cb cls root key tr s = FOk s' ev /\
      (lock_clean ev <-> (root = None \/ (tr_min tr <= ev_type key)%Z \/ tr_max tr = T_any)).
  Proof.
    intros W Gk Tk TR Mo. unfold find_less. rewrite (valid_no_any key Gk Tk), TR. cbn [negb andb]. destruct root as [t|].
    2: { eexists _, _. split; [reflexivity|]. split; [auto|]. intros _. reflexivity. }
    apply well_shaped_findable in W. pose proof (tr_validate_max _ TR) as M.
    destruct (Z.ltb_spec (ev_type key) (tr_min tr)) as [Lt|Ge]; cbn [negb].
    - destruct (Z.eq_dec (tr_max tr) T_any) as [E|E].
      + destruct (then_any_locks cb n t tr s true [L0] W) as (s' & ev' & -> & C); [|exact M|].
        { rewrite (proj2 (Z.ltb_ge _ _)) by lia. apply turns_L0. }
        eexists _, _. split; [reflexivity|]. split; auto.
      + unfold then_any. rewrite (proj2 (Z.eqb_neq _ _)) by exact E. eexists _, _. split; [reflexivity|].
        split; [intros C; destruct (leak_L0 C)|]. intros [H|[H|H]]; [discriminate|lia|contradiction].
    - destruct (scan_exact n t (cls key tr) (fun k => visited (cls key tr) k = true) W Mo) as (l & _ & H); [tauto|].
      destruct (H S cb false [] s) as (ev & E). rewrite E. pose proof (scan_locks _ _ t [] s _ _ _ E) as T.
      match goal with |- context [then_any cb t tr ?s1 ?g ?e] => destruct (then_any_locks cb n t tr s1 g e W) as (s' & ev' & E' & C) end.
      + rewrite app_assoc. eapply turns_app; [apply root_locks, M|]. apply turns_add2, T.
      + exact M.
      + rewrite E'. eexists _, _. split; [reflexivity|]. split; auto.
  Qed.

  Lemma find_greater_locks {S} (cb : S -> EV -> V -> S * bool) n (root : option node) cls key tr s :
    well_shaped n root -> good key -> (ev_type key <= T_string)%Z -> tr_validate tr = true -> mono (cls key tr) ->
    exists s' ev, find_greater cb cls root key tr s = FOk s' ev /\
      (lock_clean ev <-> (root = None \/ (ev_type key <= tr_max tr)%Z)).
  Proof.
    intros W Gk Tk TR Mo. unfold find_greater. rewrite (valid_no_any key Gk Tk), TR. cbn [negb andb]. destruct root as [t|].
    2: { eexists _, _. split; [reflexivity|]. split; [auto|]. intros _. reflexivity. }
    apply well_shaped_findable in W.
    destruct (Z.ltb_spec (tr_max tr) (ev_type key)) as [Lt|Ge]; cbn [negb].
    - eexists _, _. split; [reflexivity|]. split; [intros C; destruct (leak_L0 C)|]. intros [H|H]; [discriminate|lia].
    - destruct (scan_exact n t (cls key tr) (fun k => visited (cls key tr) k = true) W Mo) as (l & _ & H); [tauto|].
      destruct (H S cb false [] s) as (ev & E). rewrite E. pose proof (scan_locks _ _ t [] s _ _ _ E) as T.
      eexists _, _. split; [reflexivity|]. split; [auto|]. intros _. apply (lock_clean_frame [L0; Lroot; U0] [LNode []]); [|exact T].
      intros H0. eexists. split; [reflexivity|]. reflexivity.
  Qed.

  Lemma all_entries_imp (P Q : entry -> Prop) : (forall e, P e -> Q e) -> forall t : node, all_entries P t -> all_entries Q t.
  Proof.
    intros HI. induction t as [vs ks IH] using node_ind2. intros A. inversion A; subst. constructor.
    - eapply Forall_impl; eauto.
    - rewrite Forall_forall in *. auto.
  Qed.

  Lemma iterate_clean {S} (cb : S -> EV -> V -> S * bool) n (t : node) tr s :
    findable n t ->
    (Forall (fun e => (tr_min tr <= ev_type (fst e))%Z) (flat t) \/ forall s k v, snd (cb s k v) = true) ->
    exists s' go ev, scan cb true (cls_iterate tr) t [] s = Some (s', go, ev) /\ lock_clean ([L0; Lroot; U0] ++ ev).
  Proof.
    intros W C. destruct (scan_exact n t (cls_iterate tr) (fun k => visited (cls_iterate tr) k = true) W (mono_iterate tr)) as (l & _ & H); [tauto|].
    assert (T0 : turns [L0; Lroot; U0] [] [LNode []]) by (intros H0; eexists; split; reflexivity).
    destruct (H S cb true [] s) as (ev & E). exists (fst (offer cb s l)), (snd (offer cb s l)), ev. split; [exact E|].
    apply (lock_clean_frame _ [LNode []]); [exact T0|].
    destruct C as [C|C].
    - rewrite scan_true_eq in E; [eapply scan_locks; exact E|]. destruct W as (h & B & _ & _).
      apply (all_entries_imp (fun e => (tr_min tr <= ev_type (fst e))%Z)); [|apply (all_entries_of_flat n h); auto].
      intros e He. unfold noskip, cls_iterate. rewrite (proj2 (Z.ltb_ge _ _)) by exact He. destruct (Z.ltb _ _); auto.
    - assert (OT : forall l s, snd (offer cb s l) = true).
      { clear - C. induction l as [|[k v] l IH]; intros s; [reflexivity|]. cbn [offer]. specialize (C s k v).
        destruct (cb s k v) as [s' go]. cbn [snd] in C. subst go. apply IH. }
      rewrite OT in E. apply scan_true_go in E. eapply scan_locks; exact E.
  Qed.

  Lemma find_any_locks_lemma {S} (cb : S -> EV -> V -> S * bool) n (root : option node) tr s :
    well_shaped n root -> tr_validate tr = true ->
    (forall k v, In (k, v) (contents root) -> (tr_min tr <= ev_type k)%Z) \/ (forall s k v, snd (cb s k v) = true) ->
    exists s' ev, Find cb root Any tr s = FOk s' ev /\ lock_clean ev.
  Proof.
    intros W TR C. destruct root as [t|].
    2: { unfold Find. rewrite TR. cbn. eexists _, _. split; reflexivity. }
    apply well_shaped_findable in W. destruct (iterate_clean cb n t tr s W) as (s' & go & ev & E & Cl).
    { destruct C as [C|C]; [left|right; exact C]. apply Forall_forall. intros [k v] Hin. exact (C k v Hin). }
    unfold Find. rewrite TR. cbn. rewrite E. eauto.
  Qed.
  Lemma find_ne_locks_lemma {S} (cb : S -> EV -> V -> S * bool) n (root : option node) key tr s :
    well_shaped n root -> good key -> (ev_type key <= T_string)%Z -> tr_validate tr = true ->
    (forall k v, In (k, v) (contents root) -> (tr_min tr <= ev_type k)%Z) \/ (forall s k v, snd (cb s k v) = true) ->
    exists s' ev, FindNotEqual cb root key tr s = FOk s' ev /\ lock_clean ev.
  Proof.
    intros W Gk Tk TR C. unfold FindNotEqual. rewrite (valid_no_any key Gk Tk), TR. cbn [negb andb]. destruct root as [t|].
    2: { cbn. eexists _, _. split; reflexivity. }
    apply well_shaped_findable in W.
    match goal with |- context [scan ?cb' _ _ _ _ _] => destruct (iterate_clean cb' n t tr s W) as (s' & go & ev & E & Cl) end.
    { destruct C as [C|C]; [left|right]. - apply Forall_forall. intros [k v] Hin. exact (C k v Hin).
      - intros s0 k v. destruct (_ && _); [reflexivity|apply C]. }
    rewrite E. eauto.
  Qed.
End T.
