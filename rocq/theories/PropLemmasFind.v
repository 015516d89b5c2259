From Coq Require Import Sorted Permutation ZifyBool ZifyNat.
From Verif Require Import Datatypes SpecValues DatatypesProofs BTree SpecBTree BTreeProofs BTreeFind SpecFind
  BTreeFindProofs BTreeLockProofs PropLemmasTree.
Local Open Scope Z_scope.

Lemma mono_iterate tr : mono (cls_iterate tr).
Proof.
  constructor; intros a b Ga Gb L; unfold cls_iterate; pose proof (lmt_type_le a b Ga Gb L);
    destruct (Z.ltb_spec (ev_type a) (tr_min tr)), (Z.ltb_spec (ev_type b) (tr_min tr)),
      (Z.ltb_spec (tr_max tr) (ev_type a)), (Z.ltb_spec (tr_max tr) (ev_type b)); intros; try discriminate; auto; lia.
Qed.
Lemma mono_lt key tr : good key -> mono (cls_lt key tr).
Proof.
  intros Gk. constructor; intros a b Ga Gb L; unfold cls_lt; pose proof (lmt_type_le a b Ga Gb L);
    destruct (Z.ltb_spec (ev_type a) (tr_min tr)), (Z.ltb_spec (ev_type b) (tr_min tr)),
      (Z.ltb_spec (ev_type key) (ev_type a)), (Z.ltb_spec (ev_type key) (ev_type b)); try lia;
    destruct (lmt a key) eqn:E1, (lmt b key) eqn:E2; intros; try discriminate; auto; try lia.
  all: exfalso; rewrite (lmt_trans a b key) in E1; auto; discriminate.
Qed.
Lemma mono_le key tr : good key -> mono (cls_le key tr).
Proof.
  intros Gk. constructor; intros a b Ga Gb L; unfold cls_le; pose proof (lmt_type_le a b Ga Gb L);
    destruct (Z.ltb_spec (ev_type a) (tr_min tr)), (Z.ltb_spec (ev_type b) (tr_min tr)),
      (Z.ltb_spec (ev_type key) (ev_type a)), (Z.ltb_spec (ev_type key) (ev_type b)); try lia;
    destruct (lmt a key) eqn:E1, (lmt b key) eqn:E2, (lmt key a) eqn:E3, (lmt key b) eqn:E4; cbn [negb];
    intros; try discriminate; auto; try lia.
  all: exfalso; try (rewrite (lmt_trans a b key) in E1; auto; discriminate).
  all: try (rewrite (lmt_trans key a b) in E4; auto; discriminate).
  all: destruct (lmt_cotrans a key b Ga Gk Gb L); congruence.
Qed.
Lemma mono_gt key tr : good key -> mono (cls_gt key tr).
Proof.
  intros Gk. constructor; intros a b Ga Gb L; unfold cls_gt; pose proof (lmt_type_le a b Ga Gb L);
    destruct (Z.ltb_spec (tr_max tr) (ev_type a)), (Z.ltb_spec (tr_max tr) (ev_type b)); try lia;
    destruct (lmt a key) eqn:E1, (lmt b key) eqn:E2, (lmt key a) eqn:E3, (lmt key b) eqn:E4; cbn [negb];
    intros; try discriminate; auto; try lia.
  all: exfalso; try (rewrite (lmt_trans a b key) in E1; auto; discriminate).
  all: try (rewrite (lmt_trans key a b) in E4; auto; discriminate).
Qed.
Lemma mono_ge key tr : good key -> mono (cls_ge key tr).
Proof.
  intros Gk. constructor; intros a b Ga Gb L; unfold cls_ge; pose proof (lmt_type_le a b Ga Gb L);
    destruct (Z.ltb_spec (tr_max tr) (ev_type a)), (Z.ltb_spec (tr_max tr) (ev_type b)); try lia;
    destruct (lmt a key) eqn:E1, (lmt b key) eqn:E2, (lmt key a) eqn:E3, (lmt key b) eqn:E4; cbn [negb];
    intros; try discriminate; auto; try lia.
  all: exfalso; try (rewrite (lmt_trans a b key) in E1; auto; discriminate).
  all: try (rewrite (lmt_trans key a b) in E4; auto; discriminate).
  all: destruct (lmt_cotrans a key b Ga Gk Gb L); congruence.
Qed.

Section Find.
  Context {V : Type}.
  Notation node := (node V).
  Notation entry := (entry V).

  Lemma sorted_nodup (l : list entry) : sorted l -> NoDup l.
  Proof.
    induction 1 as [|x l H IH F]; constructor; [|exact IH]. intros Hin. rewrite Forall_forall in F.
    specialize (F x Hin). unfold klt in F. rewrite lmt_irrefl in F. discriminate.
  Qed.

  Lemma exactly_of_perm (c l : list entry) (f : entry -> bool) (P : EV -> Prop) :
    sorted c -> Permutation l (filter f c) -> (forall e, In e c -> f e = true <-> P (fst e)) -> exactly c P l.
  Proof.
    intros S H HP. split.
    - apply (Permutation_NoDup (l := filter f c)); [symmetry; exact H|]. apply NoDup_filter, sorted_nodup, S.
    - intros k v. split.
      + intros Hin. apply (Permutation_in _ H) in Hin. apply filter_In in Hin as [Hin Hf]. split; [exact Hin|].
        apply (HP (k, v)); auto.
      + intros [Hin Hp]. apply (Permutation_in _ (Permutation_sym H)). apply filter_In. split; [exact Hin|].
        apply (HP (k, v)); auto.
  Qed.

  Lemma offer_filter {S} (cb : S -> EV -> V -> S * bool) (f : EV -> bool) l : forall s,
    offer (fun s k v => if f k then (s, true) else cb s k v) s l = offer cb s (filter (fun e => negb (f (fst e))) l).
  Proof.
    induction l as [|[k v] l IH]; intros s; cbn [offer filter]; [reflexivity|]. cbn [fst].
    destruct (f k); cbn [negb]; [apply IH|]. cbn [offer]. destruct (cb s k v) as [s' go]. destruct go; auto.
  Qed.
  Lemma filter_filter' {A} (f g : A -> bool) l : filter f (filter g l) = filter (fun x => g x && f x) l.
  Proof.
    induction l as [|x l IH]; [reflexivity|]. cbn. destruct (g x); cbn; [destruct (f x); rewrite IH; reflexivity|exact IH].
  Qed.

  Definition findable (n : nat) (t : node) : Prop := exists h, balanced n h t /\ goods (flat t) /\ sorted (flat t).
  Lemma well_shaped_findable n t : well_shaped n (Some t) -> findable n t.
  Proof. intros (h & B & _ & _ & O). apply ordered_iff in O as [S G]. exists h. auto. Qed.

  Definition visited (cls : EV -> verdict) (k : EV) : bool := match cls k with Skip | Break => false | _ => true end.

  Lemma scan_exact n t cls (P : EV -> Prop) :
    findable n t -> mono cls -> (forall k, good k -> visited cls k = true <-> P k) ->
    exists l, exactly (flat t) P l /\
      forall S (cb : S -> EV -> V -> S * bool) w p s, exists ev,
        scan cb w cls t p s = Some (fst (offer cb s l), snd (offer cb s l), ev).
  Proof.
    intros (h & B & G & S) M HP. destruct (scan_spec cls M n h t B G S) as (l & PL & H). exists l. split; [|exact H].
    apply (exactly_of_perm _ _ (vb cls)); auto. intros e He. apply (HP (fst e)). exact (goods_in _ _ G He).
  Qed.

  (** FindGreaterThan(OrEqual) *)
  Lemma find_greater_exact n (root : option node) cls key tr (P : EV -> Prop) :
    well_shaped n root -> good key -> (ev_type key <= T_string)%Z -> tr_validate tr = true ->
    mono (cls key tr) -> (forall k, good k -> visited (cls key tr) k = true <-> P k) ->
    (tr_max tr < ev_type key -> forall k, good k -> ~ P k) ->
    exists l, exactly (contents root) P l /\
      forall S (cb : S -> EV -> V -> S * bool) s, exists ev,
        find_greater cb cls root key tr s = FOk (fst (offer cb s l)) ev.
  Proof.
    intros W Gk Tk TR M HP HN.
    assert (VK : ev_validate key MinDataType MaxWithoutAnyDataType = true).
    { apply validate_iff. split; [apply Gk|]. pose proof (well_typed_tag _ _ (proj1 Gk)) as K. unfold known_tag in K.
      unfold MinDataType, MaxWithoutAnyDataType, T_uint8, T_string in *. lia. }
    destruct root as [t|].
    2: { exists []. split; [split; [constructor|]; intros k v; split; [intros []|intros [[] _]]|].
         intros S cb s. unfold find_greater. rewrite VK, TR. cbn. eauto. }
    apply well_shaped_findable in W. cbn [contents]. destruct (Z.ltb_spec (tr_max tr) (ev_type key)) as [Lt|Ge].
    - exists []. split.
      + split; [constructor|]. intros k v; split; [intros []|]. intros [Hin HPk]. destruct W as (h & _ & G & _).
        destruct (HN Lt k (goods_in _ _ G Hin) HPk).
      + intros S cb s. unfold find_greater. rewrite VK, TR. cbn [negb andb].
        rewrite (proj2 (Z.ltb_lt _ _) Lt). cbn. eauto.
    - destruct (scan_exact n t (cls key tr) P W M HP) as (l & El & H). exists l. split; [exact El|].
      intros S cb s. unfold find_greater. rewrite VK, TR. cbn [negb andb].
      rewrite (proj2 (Z.ltb_ge _ _) Ge). cbn [negb].
      destruct (H S cb false [] s) as (ev & ->). eauto.
  Qed.

  Lemma any_of_type k : good k -> ev_type k = T_any -> k = Any.
  Proof. intros G E. apply wt_any_nil; [apply G|exact E]. Qed.

  Lemma then_any_exact n (t : node) tr : findable n t ->
    exists l2, exactly (flat t) (fun k => k = Any /\ tr_max tr = T_any) l2 /\
      forall S (cb : S -> EV -> V -> S * bool) l1 s ev, exists ev',
        then_any cb t tr (fst (offer cb s l1)) (snd (offer cb s l1)) ev = FOk (fst (offer cb s (l1 ++ l2))) ev'.
  Proof.
    intros (h & B & G & S). unfold then_any. destruct (Z.eqb_spec (tr_max tr) T_any) as [E|E].
    - destruct (findMatchType_spec n h t [] Any B G good_any S) as (r & ev2 & FM & R & _). rewrite FM.
      destruct r as [[k v]|].
      + destruct R as (Hin & L1 & L2).
        assert (k = Any). { apply any_of_type; [exact (goods_in _ _ G Hin)|].
          apply (lmt_total Any k good_any (goods_in _ _ G Hin)) in L2; [|exact L1]. destruct L2 as [L2 _]. symmetry. exact L2. }
        subst k. exists [(Any, v)]. split.
        * split; [constructor; [intros []|constructor]|]. intros k w. split.
          -- intros [EE|[]]. injection EE as <- <-. auto.
          -- intros [Hin2 [-> _]]. left. f_equal.
             apply in_split in Hin as (l1 & l2 & EQ). rewrite EQ in Hin2, S, G.
             destruct (sorted_equiv_sides l1 (Any, v) l2 Any G good_any S) as [Bl Ab]; [apply lmt_irrefl..|].
             apply in_app_or in Hin2 as [Hin2|[Hin2|Hin2]].
             ++ apply (below_in _ _ _ Bl) in Hin2. cbn [fst] in Hin2. rewrite lmt_irrefl in Hin2. discriminate.
             ++ congruence.
             ++ apply (above_in _ _ _ Ab) in Hin2. cbn [fst] in Hin2. rewrite lmt_irrefl in Hin2. discriminate.
        * intros S0 cb l1 s ev. rewrite offer_app. destruct (offer cb s l1) as [s' go]. cbn [fst snd]. destruct go; [|eauto].
          cbn [offer]. destruct (cb s' Any v) as [s2 go2]. destruct go2; cbn; eauto.
      + exists []. split.
        * split; [constructor|]. intros k w. split; [intros []|]. intros [Hin [-> _]].
          unfold absent in R. rewrite Forall_forall in R. specialize (R _ Hin). cbn [fst] in R. rewrite !lmt_irrefl in R. destruct R; discriminate.
        * intros S0 cb l1 s ev. rewrite app_nil_r. destruct (snd (offer cb s l1)); eauto.
    - exists []. split.
      + split; [constructor|]. intros k w. split; [intros []|]. intros [_ [_ H]]. contradiction.
      + intros S0 cb l1 s ev. rewrite app_nil_r. eauto.
  Qed.

  Lemma exactly_app (c l1 l2 : list entry) (P Q R : EV -> Prop) :
    (forall e, In e c -> good (fst e)) ->
    exactly c P l1 -> exactly c Q l2 -> (forall k, good k -> P k -> Q k -> False) -> (forall k, good k -> R k <-> P k \/ Q k) ->
    exactly c R (l1 ++ l2).
  Proof.
    intros G [N1 H1] [N2 H2] D E. split.
    - clear E. induction l1 as [|x l1 IH]; [exact N2|]. apply NoDup_cons_iff in N1 as [N0 N1]. cbn. constructor.
      + intros Hin. apply in_app_or in Hin as [Hin|Hin]; [contradiction|].
        destruct x as [k v]. apply H2 in Hin as [Hc HQ]. apply (D k); auto; [apply (G _ Hc)|]. apply (H1 k v). left. reflexivity.
      + (* weaken *)
        assert (Hsub : forall a, In a l1 -> In a c /\ P (fst a)).
        { intros [k v] Ha. apply (H1 k v). right. exact Ha. }
        clear IH H1 N0. induction l1 as [|y l1 IH]; [exact N2|]. apply NoDup_cons_iff in N1 as [N0 N1]. cbn. constructor.
        * intros Hin. apply in_app_or in Hin as [Hin|Hin]; [contradiction|]. destruct y as [k' v'].
          apply H2 in Hin as [Hc HQ]. destruct (Hsub (k', v') (or_introl eq_refl)) as [_ HP]. apply (D k'); auto. apply (G _ Hc).
        * apply IH; auto. intros a Ha. apply Hsub. right. exact Ha.
    - intros k v. rewrite in_app_iff, H1, H2. split.
      + intros [[Hc H]|[Hc H]]; (split; [exact Hc|]); apply E; auto; apply (G _ Hc).
      + intros [Hc H]. apply E in H; [|apply (G _ Hc)]. tauto.
  Qed.

  Lemma find_less_exact n (root : option node) cls key tr (P R : EV -> Prop) :
    well_shaped n root -> good key -> (ev_type key <= T_string)%Z -> tr_validate tr = true ->
    mono (cls key tr) -> (forall k, good k -> visited (cls key tr) k = true <-> P k) ->
    (ev_type key < tr_min tr -> forall k, good k -> ~ P k) ->
    (forall k, good k -> P k -> k <> Any) ->
    (forall k, good k -> R k <-> P k \/ (k = Any /\ tr_max tr = T_any)) ->
    exists l, exactly (contents root) R l /\
      forall S (cb : S -> EV -> V -> S * bool) s, exists ev,
        find_less cb cls root key tr s = FOk (fst (offer cb s l)) ev.
  Proof.
    intros W Gk Tk TR M HP HN HA HR.
    assert (VK : ev_validate key MinDataType MaxWithoutAnyDataType = true).
    { apply validate_iff. split; [apply Gk|]. pose proof (well_typed_tag _ _ (proj1 Gk)) as K. unfold known_tag in K.
      unfold MinDataType, MaxWithoutAnyDataType, T_uint8, T_string in *. lia. }
    destruct root as [t|].
    2: { exists []. split; [split; [constructor|]; intros k v; split; [intros []|intros [[] _]]|].
         intros S cb s. unfold find_less. rewrite VK, TR. cbn. eauto. }
    apply well_shaped_findable in W. cbn [contents].
    assert (G : forall e, In e (flat t) -> good (fst e)) by (destruct W as (h & _ & G & _); intros e He; exact (goods_in _ _ G He)).
    destruct (then_any_exact n t tr W) as (l2 & E2 & H2).
    destruct (Z.ltb_spec (ev_type key) (tr_min tr)) as [Lt|Ge].
    - exists ([] ++ l2). split.
      + apply (exactly_app _ [] l2 (fun _ => False) (fun k => k = Any /\ tr_max tr = T_any)); auto.
        * split; [constructor|]. intros k v. split; [intros []|intros [_ []]].
        * intros k Gk'. rewrite HR by exact Gk'. split; [|tauto]. intros [HPk|HPk]; [destruct (HN Lt k Gk' HPk)|tauto].
      + intros S cb s. unfold find_less. rewrite VK, TR. cbn [negb andb]. rewrite (proj2 (Z.ltb_lt _ _) Lt). cbn [negb].
        destruct (H2 S cb [] s [L0]) as (ev & E). cbn [offer fst snd] in E. rewrite E. eauto.
    - destruct (scan_exact n t (cls key tr) P W M HP) as (l & El & H). exists (l ++ l2). split.
      + apply (exactly_app _ l l2 P (fun k => k = Any /\ tr_max tr = T_any)); auto.
        intros k Gk' HPk [HQ _]. apply (HA k Gk' HPk HQ).
      + intros S cb s. unfold find_less. rewrite VK, TR. cbn [negb andb]. rewrite (proj2 (Z.ltb_ge _ _) Ge). cbn [negb].
        destruct (H S cb false [] s) as (ev & ->). destruct (H2 S cb l s ([L0; Lroot] ++ (if tr_max tr <? T_any then [U0] else []) ++ ev)) as (ev' & ->). eauto.
  Qed.

  (** The five range lookups, exactly *)
  Lemma find_gt_lemma n (root : option node) key tr :
    well_shaped n root -> good key -> (ev_type key <= T_string)%Z -> tr_validate tr = true ->
    exists l, exactly (contents root) (fun k => ev_type k <= tr_max tr /\ value_lt key k) l /\
      forall S (cb : S -> EV -> V -> S * bool) s, exists ev, FindGreaterThan cb root key tr s = FOk (fst (offer cb s l)) ev.
  Proof.
    intros W Gk Tk TR. apply (find_greater_exact n root cls_gt); auto; [apply mono_gt, Gk| |].
    - intros k G. rewrite <- lmt_spec by (try apply Gk; apply G). unfold visited, cls_gt.
      destruct (Z.ltb_spec (tr_max tr) (ev_type k)); [split; [discriminate|lia]|].
      destruct (lmt k key) eqn:E1, (lmt key k) eqn:E2; intuition (try discriminate; try lia).
      rewrite (lmt_asym key k) in E1 by auto. discriminate.
    - intros Lt k G [H1 H2]. rewrite <- lmt_spec in H2 by (try apply Gk; apply G).
      apply (lmt_type_le key k) in H2; auto. lia.
  Qed.
  Lemma find_ge_lemma n (root : option node) key tr :
    well_shaped n root -> good key -> (ev_type key <= T_string)%Z -> tr_validate tr = true ->
    exists l, exactly (contents root) (fun k => ev_type k <= tr_max tr /\ (value_lt key k \/ same_value key k)) l /\
      forall S (cb : S -> EV -> V -> S * bool) s, exists ev, FindGreaterThanOrEqual cb root key tr s = FOk (fst (offer cb s l)) ev.
  Proof.
    intros W Gk Tk TR. apply (find_greater_exact n root cls_ge); auto; [apply mono_ge, Gk| |].
    - intros k G. rewrite <- lmt_spec by (try apply Gk; apply G). unfold visited, cls_ge.
      destruct (Z.ltb_spec (tr_max tr) (ev_type k)); [split; [discriminate|lia]|].
      destruct (lmt k key) eqn:E1, (lmt key k) eqn:E2.
      + rewrite (lmt_asym key k) in E1 by auto. discriminate.
      + split; [discriminate|]. intros [_ [HH|HH]]; [discriminate|]. destruct (same_value_incomparable key k Gk G HH). congruence.
      + intuition lia.
      + split; [|reflexivity]. intros _. split; [lia|]. right. apply lmt_total; auto.
    - intros Lt k G [H1 [H2|H2]].
      + rewrite <- lmt_spec in H2 by (try apply Gk; apply G). apply (lmt_type_le key k) in H2; auto. lia.
      + destruct H2 as [H2 _]. lia.
  Qed.
  Lemma find_lt_lemma n (root : option node) key tr :
    well_shaped n root -> good key -> (ev_type key <= T_string)%Z -> tr_validate tr = true ->
    exists l, exactly (contents root)
        (fun k => (tr_min tr <= ev_type k /\ value_lt k key) \/ (k = Any /\ tr_max tr = T_any)) l /\
      forall S (cb : S -> EV -> V -> S * bool) s, exists ev, FindLessThan cb root key tr s = FOk (fst (offer cb s l)) ev.
  Proof.
    intros W Gk Tk TR.
    apply (find_less_exact n root cls_lt key tr (fun k => tr_min tr <= ev_type k /\ value_lt k key)); auto; [apply mono_lt, Gk| | | |].
    - intros k G. rewrite <- lmt_spec by (try apply Gk; apply G). unfold visited, cls_lt.
      destruct (Z.ltb_spec (ev_type k) (tr_min tr)); [split; [discriminate|lia]|].
      destruct (Z.ltb_spec (ev_type key) (ev_type k)).
      + split; [discriminate|]. intros [_ HH]. apply (lmt_type_le k key) in HH; auto. lia.
      + destruct (lmt k key); intuition (try discriminate; try lia).
    - intros Lt k G [H1 H2]. rewrite <- lmt_spec in H2 by (try apply Gk; apply G). apply (lmt_type_le k key) in H2; auto. lia.
    - intros k G [H1 H2] ->. rewrite <- lmt_spec in H2 by (try apply Gk; apply G). rewrite lmt_any_greatest in H2 by auto. discriminate.
    - intros k G. reflexivity.
  Qed.
  Lemma find_le_lemma n (root : option node) key tr :
    well_shaped n root -> good key -> (ev_type key <= T_string)%Z -> tr_validate tr = true ->
    exists l, exactly (contents root)
        (fun k => (tr_min tr <= ev_type k /\ (value_lt k key \/ same_value key k)) \/ (k = Any /\ tr_max tr = T_any)) l /\
      forall S (cb : S -> EV -> V -> S * bool) s, exists ev, FindLessThanOrEqual cb root key tr s = FOk (fst (offer cb s l)) ev.
  Proof.
    intros W Gk Tk TR.
    apply (find_less_exact n root cls_le key tr (fun k => tr_min tr <= ev_type k /\ (value_lt k key \/ same_value key k))); auto; [apply mono_le, Gk| | | |].
    - intros k G. rewrite <- lmt_spec by (try apply Gk; apply G). unfold visited, cls_le.
      destruct (Z.ltb_spec (ev_type k) (tr_min tr)); [split; [discriminate|lia]|].
      destruct (Z.ltb_spec (ev_type key) (ev_type k)).
      + split; [discriminate|]. intros [_ [HH|[HH _]]]; [apply (lmt_type_le k key) in HH; auto; lia|lia].
      + destruct (lmt k key) eqn:E1; [intuition lia|]. destruct (lmt key k) eqn:E2; cbn [negb].
        * split; [discriminate|]. intros [_ [HH|HH]]; [discriminate|]. destruct (same_value_incomparable key k Gk G HH). congruence.
        * split; [|reflexivity]. intros _. split; [lia|]. right. apply lmt_total; auto.
    - intros Lt k G [H1 [H2|H2]].
      + rewrite <- lmt_spec in H2 by (try apply Gk; apply G). apply (lmt_type_le k key) in H2; auto. lia.
      + destruct H2 as [H2 _]. lia.
    - intros k G [H1 [H2|H2]] ->.
      + rewrite <- lmt_spec in H2 by (try apply Gk; apply G). rewrite lmt_any_greatest in H2 by auto. discriminate.
      + destruct H2 as [H2 _]. cbn in H2. unfold T_any, T_string in *. lia.
    - intros k G. reflexivity.
  Qed.

  Lemma visited_iterate tr k : visited (cls_iterate tr) k = true <-> in_types tr k.
  Proof.
    unfold visited, cls_iterate, in_types. destruct (Z.ltb_spec (ev_type k) (tr_min tr)); [split; [discriminate|lia]|].
    destruct (Z.ltb_spec (tr_max tr) (ev_type k)); [split; [discriminate|lia]|]. split; [lia|reflexivity].
  Qed.

  Lemma find_ne_lemma n (root : option node) key tr :
    well_shaped n root -> good key -> (ev_type key <= T_string)%Z -> tr_validate tr = true ->
    exists l, exactly (contents root) (fun k => in_types tr k /\ ~ same_value key k) l /\
      forall S (cb : S -> EV -> V -> S * bool) s, exists ev, FindNotEqual cb root key tr s = FOk (fst (offer cb s l)) ev.
  Proof.
    intros W Gk Tk TR.
    assert (VK : ev_validate key MinDataType MaxWithoutAnyDataType = true).
    { apply validate_iff. split; [apply Gk|]. pose proof (well_typed_tag _ _ (proj1 Gk)) as K. unfold known_tag in K.
      unfold MinDataType, MaxWithoutAnyDataType, T_uint8, T_string in *. lia. }
    destruct root as [t|].
    2: { exists []. split; [split; [constructor|]; intros k v; split; [intros []|intros [[] _]]|].
         intros S cb s. unfold FindNotEqual. rewrite VK, TR. cbn. eauto. }
    apply well_shaped_findable in W. cbn [contents].
    destruct (scan_exact n t (cls_iterate tr) (in_types tr) W (mono_iterate tr)) as (l & [N El] & H); [intros; apply visited_iterate|].
    set (f := fun k => negb (lmt key k) && negb (lmt k key)).
    assert (Hf : forall k, good k -> f k = true <-> same_value key k).
    { intros k G. unfold f. split.
      - intros HH. apply andb_prop in HH as [H1 H2]. apply negb_true_iff in H1, H2. apply lmt_total; auto.
      - intros HH. destruct (same_value_incomparable key k Gk G HH) as [-> ->]. reflexivity. }
    exists (filter (fun e => negb (f (fst e))) l). split.
    - split; [apply NoDup_filter, N|]. intros k v. rewrite filter_In, El. cbn [fst].
      split.
      + intros [[Hin Ht] HH]. split; [exact Hin|]. split; [exact Ht|]. intros HS. destruct W as (h & _ & G & _).
        apply (Hf k) in HS; [|exact (goods_in _ _ G Hin)]. rewrite HS in HH. discriminate.
      + intros [Hin [Ht HS]]. split; [auto|]. destruct (f k) eqn:E; [|reflexivity]. exfalso. apply HS. destruct W as (h & _ & G & _).
        apply (Hf k); [exact (goods_in _ _ G Hin)|exact E].
    - intros S cb s. unfold FindNotEqual. rewrite VK, TR. cbn [negb andb].
      destruct (H S (fun s k v => if f k then (s, true) else cb s k v) true [] s) as (ev & E).
      unfold f in E at 1. rewrite E. rewrite offer_filter. eauto.
  Qed.

  Lemma find_any_lemma n (root : option node) tr :
    well_shaped n root -> tr_validate tr = true ->
    exists l, exactly (contents root) (in_types tr) l /\
      forall S (cb : S -> EV -> V -> S * bool) s, exists ev, Find cb root Any tr s = FOk (fst (offer cb s l)) ev.
  Proof.
    intros W TR. destruct root as [t|].
    2: { exists []. split; [split; [constructor|]; intros k v; split; [intros []|intros [[] _]]|].
         intros S cb s. unfold Find. rewrite TR. cbn. eauto. }
    apply well_shaped_findable in W. cbn [contents].
    destruct (scan_exact n t (cls_iterate tr) (in_types tr) W (mono_iterate tr)) as (l & El & H); [intros; apply visited_iterate|].
    exists l. split; [exact El|]. intros S cb s. unfold Find. rewrite TR.
    destruct (H S cb true [] s) as (ev & E). cbn. rewrite E. eauto.
  Qed.

  Lemma find_key_lemma n (root : option node) key tr :
    well_shaped n root -> good key -> key <> Any -> tr_validate tr = true ->
    exists l1 l2,
      ((in_types tr key /\ exists v, stored (contents root) key v /\ l1 = [(key, v)]) \/
       (l1 = [] /\ (in_types tr key -> not_stored (contents root) key))) /\
      exactly (contents root) (fun k => k = Any /\ tr_max tr = T_any) l2 /\
      forall S (cb : S -> EV -> V -> S * bool) s, exists ev, Find cb root key tr s = FOk (fst (offer cb s (l1 ++ l2))) ev.
  Proof.
    intros W Gk NA TR.
    assert (KT : known_tag (ev_type key)) by (apply well_typed_tag with (p := ev_data key), Gk).
    assert (NT : ev_type key <> T_any) by (intros E; apply NA, any_of_type; auto).
    assert (VK : ev_validate key MinDataType MaxDataType = true).
    { apply validate_iff. split; [apply Gk|]. unfold known_tag in KT.
      unfold MinDataType, MaxDataType, T_uint8, T_any in *. lia. }
    assert (GT : GeneralDataTypes (ev_type key) = true).
    { apply general_range. unfold known_tag, T_any in *. lia. }
    destruct root as [t|].
    2: { exists [], []. split; [right; split; [reflexivity|]; intros _ k' v []|].
         split; [split; [constructor|]; intros k v; split; [intros []|intros [[] _]]|].
         intros S cb s. unfold Find. rewrite VK, TR. cbn. eauto. }
    apply well_shaped_findable in W. cbn [contents]. pose proof W as (h & B & G & S0).
    destruct (then_any_exact n t tr W) as (l2 & E2 & H2).
    destruct (negb (Z.ltb (ev_type key) (tr_min tr)) && negb (Z.ltb (tr_max tr) (ev_type key))) eqn:EI.
    - assert (IT : in_types tr key) by (unfold in_types; lia).
      destruct (findMatchType_spec n h t [] key B G Gk S0) as (r & ev2 & FM & R & _). destruct r as [[k v]|].
      + exists [(key, v)], l2. split; [left; split; [exact IT|]; exists v; split; [|reflexivity]|].
        { destruct R as (Hin & L1 & L2). exists k. split; [|exact Hin]. apply lmt_total; auto. exact (goods_in _ _ G Hin). }
        split; [exact E2|]. intros S cb s. unfold Find. rewrite VK, TR, GT, EI, FM. cbn [negb andb].
        destruct (cb s key v) as [s' go] eqn:EC.
        match goal with |- context [then_any cb t tr s' go ?e] => destruct (H2 S cb [(key, v)] s e) as (ev & E) end.
        cbn [offer fst snd] in E. rewrite EC in E. destruct go; cbn [fst snd] in E; rewrite E; eauto.
      + exists [], l2. split; [right; split; [reflexivity|]; intros _; apply absent_not_stored; auto|].
        split; [exact E2|]. intros S cb s. unfold Find. rewrite VK, TR, GT, EI, FM. cbn [negb andb].
        match goal with |- context [then_any cb t tr s true ?e] => destruct (H2 S cb [] s e) as (ev & E) end.
        cbn [offer fst snd] in E. rewrite E. eauto.
    - exists [], l2. split; [right; split; [reflexivity|]; unfold in_types; intros; lia|].
      split; [exact E2|]. intros S cb s. unfold Find. rewrite VK, TR, GT, EI. cbn [negb andb].
      destruct (H2 S cb [] s [L0]) as (ev & E). cbn [offer fst snd] in E. rewrite E. eauto.
  Qed.
End Find.
