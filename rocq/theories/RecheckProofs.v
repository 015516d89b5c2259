(** Proofs about [Recheck.v]. *)
From Coq Require Import String List Bool ZArith Lia Permutation.
From Verif Require Import Datatypes SpecValues DatatypesProofs Collections Query SpecQuery QueryProofs Assoc SpecAssoc AssocProofs AssocMaps PropLemmasAssoc OneToMany SpecOneToMany OneToManyProofs
  Limiter SpecLimiter LimiterProofs LimiterLimits LimiterSums LimiterCounts PropLemmasLimiter PropLemmasUnit Willow WillowMaps Recheck.
Import ListNotations.
Local Open Scope Z_scope.

(** ** The query of a group-by *)
Lemma own_query_in (g : KeyValues) k q : In (k, q) (map (fun p => (fst p, mkVQ (snd p) CEquals (mkTR (ev_type (snd p)) (ev_type (snd p))))) g) <->
  exists v, In (k, v) g /\ q = mkVQ v CEquals (mkTR (ev_type v) (ev_type v)).
Proof.
  rewrite in_map_iff. split.
  - intros ([k1 v] & [= <- <-] & HI). eauto.
  - intros (v & HI & ->). exists (k, v). auto.
Qed.
Lemma own_query_ok g : kv_rep g -> g <> [] ->
  q_validate (own_query g) = true /\ query_no_nan (own_query g) /\ every_node node_simple (own_query g).
Proof.
  intros [ND R] NE. split; [|split].
  - apply q_validate_iff. right. apply every_node_Q. split; [|split; constructor]. intros s [= <-]. split; [|split]; cbn [s_ids s_kvs s_min s_max].
    + right; left. destruct g; [contradiction|discriminate].
    + intros k q HI. apply own_query_in in HI as (v & HI & ->). destruct (R _ _ HI) as [WT _]. unfold value_query_ok. cbn.
      pose proof (well_typed_tag _ _ WT). repeat split; auto; try discriminate. lia.
    + intros a b [=].
  - apply every_node_Q. split; [|split; constructor]. intros s k q [= <-]. cbn [s_kvs]. intros HI. apply own_query_in in HI as (v & HI & ->). cbn. apply (R _ _ HI).
  - apply every_node_Q. split; [|split; constructor]. split; [left; discriminate|]. intros s [= <-]. right. split.
    + intros [k q] [k' q'] HI _ C1 _. apply own_query_in in HI as (v & HI & ->). discriminate.
    + intros k q HI. apply own_query_in in HI as (v & HI & ->). exact I.
Qed.
(** what it finds: nothing if a value is Any, the counters of the group otherwise *)
Lemma own_query_holds g kv kv' id : counter_kv kv -> counter_kv kv' -> covers g kv -> kv_rep g ->
  query_holds (own_query g) id kv' <-> (forall k v, In (k, v) g -> v <> Any) /\ in_group g kv kv'.
Proof.
  intros C C' HC G. destruct (counter_rep kv C) as [[ND R] _]. destruct (counter_rep kv' C') as [[ND' R'] _]. destruct C as (_ & _ & NA). destruct C' as (_ & _ & NA').
  unfold query_holds, own_query. rewrite q_holds_Q. cbn [elems]. rewrite Exists_nil. unfold sel_holds, tags_hold, size_holds. cbn [s_ids s_kvs s_min s_max].
  split.
  - intros [((_ & _ & H) & _) | []].
    assert (X : forall k v, In (k, v) g -> exists m, kv_get kv' k = Some m /\ v <> Any /\ same_value m v).
    { intros k v HI. specialize (H k (mkVQ v CEquals (mkTR (ev_type v) (ev_type v)))). destruct H as (m & EM & HT & HE); [apply own_query_in; eauto|].
      exists m. split; [exact EM|]. unfold type_permitted in HT. cbn in HT. cbn in HE.
      assert (NM : m <> Any) by (intros ->; apply kv_get_In in EM; eapply NA'; eauto).
      assert (NV : v <> Any).
      { intros ->. apply NM. apply type_any; [apply kv_get_In in EM; apply (R' _ _ EM)|]. change (ev_type Any) with T_any in HT. lia. }
      split; [exact NV|]. destruct HE as [E | [E | HE]]; [contradiction|contradiction|exact HE]. }
    split; [intros k v HI; apply X in HI as (m & _ & NV & _); exact NV|].
    intros k Hk. apply in_map_iff in Hk as ([k1 m] & <- & HI). cbn [fst]. destruct (X _ _ HI) as (m' & E' & NV & HS).
    apply (In_kv_get g) in HI; [|apply G]. destruct (HC k1 m HI) as (v & E & [-> | HS']); [contradiction|]. exists v, m'. split; [exact E|]. split; [exact E'|].
    eapply same_value_trans; eauto.
  - intros [NG H]. left. split; [|split; [constructor|left; discriminate]]. split; [left; reflexivity|]. split; [split; intros ? [=]|].
    intros k q HI. apply own_query_in in HI as (m & HI & ->). cbn.
    destruct (H k) as (v & v' & E & E' & HS). { apply in_map_iff. exists (k, m). auto. }
    exists v'. split; [exact E'|].
    assert (HM := NG _ _ HI). apply (In_kv_get g) in HI; [|apply G]. destruct (HC k m HI) as (v1 & E1 & [-> | HS1]); [contradiction|].
    assert (v1 = v) by congruence. subst v1. assert (X : same_value v' m) by (eapply same_value_trans; [exact HS|apply same_value_sym; exact HS1]).
    unfold type_permitted. cbn. split; [destruct X as [-> _]; lia|]. right; right. exact X.
Qed.

(** ** One group *)
Lemma adds_up_sum (l : list (item Z)) limit : (forall i, In i l -> 0 < it_val i) -> forall c, 0 <= c -> c < limit -> c + sum_of l < 2 ^ 63 ->
  adds_up limit c (map (fun i => (it_kv i, it_val i)) l) = (limit <=? c + sum_of l).
Proof.
  induction l as [|x r IH]; intros H c H0 HL HS; [cbn; symmetry; apply Z.leb_gt; lia|]. cbn [map adds_up].
  pose proof (H x (or_introl eq_refl)). pose proof (sum_nonneg r (fun i Hi => H i (or_intror Hi))). change (sum_of (x :: r)) with (it_val x + sum_of r) in *.
  rewrite i64_id by (unfold int64; lia). destruct (limit <=? c + it_val x) eqn:E.
  - apply Z.leb_le in E. symmetry. apply Z.leb_le. lia.
  - apply Z.leb_gt in E. rewrite IH; [f_equal; lia|intros i Hi; apply H; right; exact Hi|lia|lia|lia].
Qed.
Lemma own_reached_spec s used g kv limit : linv s used -> counts_fit s -> kv_rep g -> g <> [] -> counter_kv kv -> covers g kv -> 0 < limit ->
  exists b, own_reached s g limit = Some b /\ (b = true -> limit <= gsum (l_counts s) g kv) /\
    ((forall k v, In (k, v) g -> v <> Any) -> b = false -> gsum (l_counts s) g kv < limit).
Proof.
  intros L [CF1 CF2] G NE C HC LP. destruct (li_counts s used L) as (u & RU & _). destruct (own_query_ok g G NE) as (V & NN & SI).
  destruct (c22_query (l_counts s) u _ RU V NN (or_intror SI)) as (l & ND & HL & HQ).
  assert (QC : QueryCounters s (own_query g) = Some (map (fun i => (it_kv i, it_val i)) l)).
  { unfold QueryCounters. rewrite HQ. f_equal.
    assert (K : forall l acc, iterate (fun (acc : list (KeyValues * Z)) (i : item Z) => (acc ++ [(it_kv i, it_val i)], true)) acc l = acc ++ map (fun i => (it_kv i, it_val i)) l).
    { clear. induction l as [|x r IH]; intros acc; cbn; [symmetry; apply app_nil_r|]. rewrite IH, <- app_assoc. reflexivity. }
    apply (K l []). }
  assert (HL' : forall i, In i l <-> In i (a_items (l_counts s)) /\ (forall k v, In (k, v) g -> v <> Any) /\ in_group g kv (it_kv i)).
  { intros i. rewrite HL. split; intros [H1 H2]; (split; [exact H1|]); eapply (own_query_holds g kv (it_kv i)); eauto; apply (li_count s used L i H1). }
  assert (PL : forall i, In i l -> 0 < it_val i) by (intros i Hi; apply CF1; apply HL'; exact Hi).
  assert (GS := proj2 (group_total_iff s used g kv (gsum (l_counts s) g kv) L (proj1 (counter_rep kv C))) eq_refl). destruct GS as (l0 & ND0 & HL0 & E0).
  assert (P0 : forall i, In i l0 -> 0 < it_val i) by (intros i Hi; apply CF1; apply HL0; exact Hi).
  assert (PA : sum_of l0 <= sum_of (a_items (l_counts s))).
  { rewrite <- E0. unfold gsum. apply filter_sum_le. exact CF1. }
  assert (LE : sum_of l <= sum_of l0 /\ ((forall k v, In (k, v) g -> v <> Any) -> sum_of l = sum_of l0)).
  { assert (EQ : (forall k v, In (k, v) g -> v <> Any) -> sum_of l = sum_of l0).
    { intros NG. apply sum_perm. apply NoDup_Permutation; [exact ND|exact ND0|]. intros i. rewrite HL', HL0. tauto. }
    split; [|exact EQ]. destruct l as [|x r]; [apply sum_nonneg; exact P0|]. rewrite EQ; [lia|]. apply (HL' x). left; reflexivity. }
  destruct LE as [LE EQ]. unfold own_reached. rewrite V, QC.
  exists (limit <=? sum_of l). split; [f_equal; rewrite adds_up_sum; [f_equal; lia|exact PL|lia|lia|lia]|]. rewrite E0. split.
  - intros H. apply Z.leb_le in H. lia.
  - intros NG H. apply Z.leb_gt in H. rewrite <- (EQ NG). exact H.
Qed.

(** ** The rules and overrides found *)
Lemma match_rules_spec s used kv : linv s used -> counter_kv kv ->
  exists l, MatchRules s kv = Some l /\ forall rid g limit, In (rid, g, limit) l <-> has_rule s rid g limit /\ covers g kv.
Proof.
  intros L C. destruct (li_rules s used L) as (u & RU & _). destruct (counter_rep kv C) as [RP NK]. destruct (any_match_ok kv RP NK) as (V & MA & NC).
  destruct (c24_match (l_rules s) u (AnyMatchQuery kv) RU V MA NC) as (l & _ & HL & HC). exists (map (fun i => (it_id i, it_kv i, it_val i)) l).
  unfold MatchRules. rewrite HC. split.
  - f_equal. assert (K : forall l acc, iterate (fun (acc : list (string * KeyValues * Z)) (i : item Z) => (acc ++ [(it_id i, it_kv i, it_val i)], true)) acc l = acc ++ map (fun i => (it_id i, it_kv i, it_val i)) l).
    { clear. induction l as [|x r IH]; intros acc; cbn; [symmetry; apply app_nil_r|]. rewrite IH, <- app_assoc. reflexivity. }
    apply (K l []).
  - intros rid g limit. rewrite in_map_iff. unfold has_rule. split.
    + intros ([a b c] & [= <- <- <-] & HI). apply HL in HI as [H1 H2]. split; [exact H1|]. apply any_match_covers in H2; auto. apply (rule_rep s used _ L H1).
    + intros [H1 H2]. exists (mkItem rid g limit). split; [reflexivity|]. apply HL. split; [exact H1|]. apply any_match_covers; auto. apply (rule_rep s used _ L H1).
Qed.
Lemma match_overrides_spec s used rid g limit kv : linv s used -> counter_kv kv -> has_rule s rid g limit ->
  exists l, MatchOverrides s rid kv = Some l /\ forall o, In o l <-> has_override s rid (o_id o) (o_kv o) (o_limit o) /\ covers (o_kv o) kv.
Proof.
  intros L C HR. destruct (rule_rep s used _ L HR) as (_ & _ & NE). cbn in NE. destruct (li_over s used L) as (w & RW & _). destruct (counter_rep kv C) as [RP NK]. destruct (any_match_ok kv RP NK) as (V & MA & NC).
  destruct (c25_match (l_over s) w rid (AnyMatchQuery kv) RW NE V MA NC) as (l & _ & HL & HC). exists (map ov l).
  unfold MatchOverrides. rewrite (find_rule_spec s used rid L). destruct (li_rules s used L) as (u & RU & _).
  assert (FI : find_item (a_items (l_rules s)) rid = Some (mkItem rid g limit)) by (apply (areach_find (l_rules s) u rid RU); split; [exact HR|reflexivity]).
  rewrite FI, HC. split.
  - transitivity (Some ([] ++ map ov l)); [f_equal|reflexivity].
    assert (K : forall l acc, offer (fun (acc : list override) (i : many Z) => (acc ++ [mkOverride (m_id i) (m_kv i) (m_val i)], true)) acc l = acc ++ map ov l).
    { clear. induction l as [|x r IH]; intros acc; cbn; [symmetry; apply app_nil_r|]. rewrite IH, <- app_assoc. reflexivity. }
    apply K.
  - intros o. rewrite in_map_iff. unfold has_override. split.
    + intros (i & <- & HI). apply HL in HI as [H1 H2]. apply any_match_covers in H2; auto; [|apply (many_rep s used rid _ L H1)]. split; [|exact H2].
      assert (E := belongings_owner (l_over s) w _ _ RW H1). destruct i as [a b c d]. cbn in *. subst. exact H1.
    + intros [H1 H2]. eexists. split; [|apply HL; split; [exact H1|]; apply any_match_covers; auto; apply (many_rep s used rid _ L H1)].
      destruct o; reflexivity.
Qed.

(** ** The loops *)
Section Loops.
Variables (sts : nat -> limiter) (kv : KeyValues).
Hypothesis FIT : forall n, exists used, linv (sts n) used.
Hypothesis CF : forall n, counts_fit (sts n).
Hypothesis CK : counter_kv kv.
Hypothesis SR : forall n, l_rules (sts n) = l_rules (sts 0%nat).
Hypothesis SO : forall n, l_over (sts n) = l_over (sts 0%nat).

Lemma rule_steady n rid g limit : has_rule (sts n) rid g limit <-> has_rule (sts 0%nat) rid g limit.
Proof. unfold has_rule. rewrite (SR n). reflexivity. Qed.
Lemma override_steady n rid id g limit : has_override (sts n) rid id g limit <-> has_override (sts 0%nat) rid id g limit.
Proof. unfold has_override. rewrite (SO n). reflexivity. Qed.
Lemma governs_steady n g limit : governs (sts n) kv g limit <-> governs (sts 0%nat) kv g limit.
Proof. unfold governs, has_rule, has_override. rewrite (SR n), (SO n). reflexivity. Qed.

Lemma own_at n g limit : governs (sts 0%nat) kv g limit -> limit <> 0 -> limit <> -1 ->
  exists b, own_reached (sts n) g limit = Some b /\ (b = true -> limit <= gsum (l_counts (sts n)) g kv) /\
    ((forall k v, In (k, v) g -> v <> Any) -> b = false -> gsum (l_counts (sts n)) g kv < limit).
Proof.
  intros HG N0 N1. destruct (FIT n) as (used & L). apply (governs_steady n) in HG. destruct (governs_rep _ used kv g limit L HG) as (G1 & G2 & G3 & G4).
  apply (own_reached_spec (sts n) used g kv limit L (CF n) G1 G2 CK G3). lia.
Qed.
Lemma overrides_spec os : (forall o, In o os -> governs (sts 0%nat) kv (o_kv o) (o_limit o)) -> forall n under,
  exists b n', overrides_under sts n under os = Some (b, n') /\
    (b = false -> under = false \/ exists m, reached (sts m) kv) /\
    (b = true -> under = true /\ forall o, In o os -> o_limit o = -1 \/ exists m, o_limit o <> 0 /\ own_reached (sts m) (o_kv o) (o_limit o) = Some false).
Proof.
  induction os as [|o r IH]; intros H n under.
  { exists under, n. split; [reflexivity|]. split; [auto|]. intros ->. split; [reflexivity|]. intros o []. }
  specialize (IH (fun o' Ho => H o' (or_intror Ho))). assert (HG := H o (or_introl eq_refl)). cbn [overrides_under]. destruct (o_limit o =? 0) eqn:E0.
  { apply Z.eqb_eq in E0. exists false, n. split; [reflexivity|]. split; [|discriminate]. intros _. right. exists 0%nat. exists (o_kv o), (o_limit o). split; [exact HG|].
    split; [lia|]. rewrite E0. apply gsum_nonneg. apply (CF 0%nat). }
  apply Z.eqb_neq in E0. destruct (o_limit o =? -1) eqn:E1.
  { apply Z.eqb_eq in E1. destruct (IH n under) as (b & n' & E & A & B). exists b, n'. split; [exact E|]. split; [exact A|].
    intros HB. destruct (B HB) as [B1 B2]. split; [exact B1|]. intros o' [<- | Ho]; auto. }
  apply Z.eqb_neq in E1. destruct (own_at n (o_kv o) (o_limit o) HG E0 E1) as (b & EB & R1 & _). rewrite EB. destruct b.
  - destruct (IH (S n) false) as (b & n' & E & A & B). exists b, n'. split; [exact E|]. split.
    + intros _. right. exists n. exists (o_kv o), (o_limit o). split; [apply governs_steady; exact HG|]. split; [exact E1|]. apply R1. reflexivity.
    + intros HB. destruct (B HB) as [X _]. discriminate X.
  - destruct (IH (S n) under) as (b' & n' & E & A & B). exists b', n'. split; [exact E|]. split; [exact A|].
    intros HB. destruct (B HB) as [B1 B2]. split; [exact B1|]. intros o' [<- | Ho]; [|auto]. right. exists n. split; [exact E0|].
    exact EB.
Qed.
Lemma rules_spec rules : (forall rid g limit, In (rid, g, limit) rules -> has_rule (sts 0%nat) rid g limit /\ covers g kv) -> forall n,
  exists b, rules_under sts n kv rules = Some b /\
    (b = false -> exists m, reached (sts m) kv) /\
    (b = true -> forall rid g limit, In (rid, g, limit) rules ->
       ((forall oid okv ol, has_override (sts 0%nat) rid oid okv ol -> ~ covers okv kv) -> limit = -1 \/ exists m, limit <> 0 /\ own_reached (sts m) g limit = Some false) /\
       (forall oid okv ol, has_override (sts 0%nat) rid oid okv ol -> covers okv kv -> ol = -1 \/ exists m, ol <> 0 /\ own_reached (sts m) okv ol = Some false)).
Proof.
  induction rules as [|[[rid g] limit] r IH]; intros H n.
  { exists true. split; [reflexivity|]. split; [discriminate|]. intros _ ? ? ? []. }
  specialize (IH (fun a b c Hi => H a b c (or_intror Hi))). destruct (H rid g limit (or_introl eq_refl)) as [HR HC]. cbn [rules_under].
  destruct (FIT n) as (used & L). destruct (match_overrides_spec (sts n) used rid g limit kv L CK (proj2 (rule_steady n rid g limit) HR)) as (os & -> & HO).
  destruct os as [|o os'].
  - assert (NO : forall oid okv ol, has_override (sts 0%nat) rid oid okv ol -> ~ covers okv kv).
    { intros oid okv ol H1 H2. destruct (proj2 (HO (mkOverride oid okv ol))). split; [apply override_steady; exact H1|exact H2]. }
    assert (HG : governs (sts 0%nat) kv g limit).
    { exists rid, g, limit. split; [exact HR|]. split; [exact HC|]. right. auto. }
    assert (STEP : forall n', limit = -1 \/ (exists m, limit <> 0 /\ own_reached (sts m) g limit = Some false) -> exists b, rules_under sts n' kv r = Some b /\
       (b = false -> exists m, reached (sts m) kv) /\
       (b = true -> forall rid0 g0 limit0, In (rid0, g0, limit0) ((rid, g, limit) :: r) ->
          ((forall oid okv ol, has_override (sts 0%nat) rid0 oid okv ol -> ~ covers okv kv) -> limit0 = -1 \/ exists m, limit0 <> 0 /\ own_reached (sts m) g0 limit0 = Some false) /\
          (forall oid okv ol, has_override (sts 0%nat) rid0 oid okv ol -> covers okv kv -> ol = -1 \/ exists m, ol <> 0 /\ own_reached (sts m) okv ol = Some false))).
    { intros n' HL. destruct (IH n') as (b & E & A & B). exists b. split; [exact E|]. split; [exact A|]. intros HB rid0 g0 l0 [[= <- <- <-] | HI]; [|eapply (B HB); eauto].
      split; [auto|]. intros oid okv ol H1 H2. exfalso. eapply NO; eauto. }
    destruct (limit =? 0) eqn:E0.
    { apply Z.eqb_eq in E0. exists false. split; [reflexivity|]. split; [|discriminate]. intros _. exists 0%nat. exists g, limit. split; [exact HG|]. split; [lia|].
      rewrite E0. apply gsum_nonneg. apply (CF 0%nat). }
    apply Z.eqb_neq in E0. destruct (limit =? -1) eqn:E1.
    { apply Z.eqb_eq in E1. apply STEP. left. exact E1. }
    apply Z.eqb_neq in E1. destruct (own_at (S n) g limit HG E0 E1) as (b & EB & R1 & _). rewrite EB. destruct b.
    + exists false. split; [reflexivity|]. split; [|discriminate]. intros _. exists (S n). exists g, limit. split; [apply governs_steady; exact HG|]. split; [exact E1|]. apply R1. reflexivity.
    + apply STEP. right. exists (S n). auto.
  - assert (GO : forall o', In o' (o :: os') -> governs (sts 0%nat) kv (o_kv o') (o_limit o')).
    { intros o' Ho. apply HO in Ho as [H1 H2]. exists rid, g, limit. split; [exact HR|]. split; [exact HC|]. left. exists (o_id o'). split; [apply (override_steady n); exact H1|exact H2]. }
    destruct (overrides_spec (o :: os') GO (S n) true) as (b & n' & E & A & B). rewrite E. destruct b.
    + destruct (IH n') as (b & E' & A' & B'). exists b. split; [exact E'|]. split; [exact A'|]. intros HB rid0 g0 l0 [[= <- <- <-] | HI]; [|eapply (B' HB); eauto].
      split.
      * intros NO. exfalso. destruct (proj1 (HO o) (or_introl eq_refl)) as [H1 H2]. apply (NO (o_id o) (o_kv o) (o_limit o)); [apply (override_steady n); exact H1|exact H2].
      * intros oid okv ol H1 H2. destruct (B eq_refl) as [_ BB]. apply (BB (mkOverride oid okv ol)). apply HO. split; [apply override_steady; exact H1|exact H2].
    + exists false. split; [reflexivity|]. split; [|discriminate]. intros _. destruct (A eq_refl) as [X | X]; [discriminate X|exact X].
Qed.
Lemma loops_spec : exists b, match MatchRules (sts 0%nat) kv with None => None | Some rules => rules_under sts 1 kv rules end = Some b /\
  (b = false -> exists m, reached (sts m) kv) /\
  (b = true -> forall g limit, governs (sts 0%nat) kv g limit -> limit = -1 \/ exists m, limit <> 0 /\ own_reached (sts m) g limit = Some false).
Proof.
  destruct (FIT 0%nat) as (used & L). destruct (match_rules_spec (sts 0%nat) used kv L CK) as (l & -> & HL).
  destruct (rules_spec l (fun a b c Hi => proj1 (HL a b c) Hi) 1) as (b & E & A & B). exists b. split; [exact E|]. split; [exact A|].
  intros HB g limit (rid & rkv & rl & HR & HC & [(oid & HO & HCO) | (-> & -> & NO)]).
  - apply (proj2 (B HB rid rkv rl (proj2 (HL _ _ _) (conj HR HC))) oid); auto.
  - apply (proj1 (B HB rid rkv rl (proj2 (HL _ _ _) (conj HR HC)))). exact NO.
Qed.
End Loops.

(** ** C71 *)
Lemma reached_refused s used kv : linv s used -> counts_fit s -> counter_kv kv -> reached s kv ->
  forall n id, 0 < n -> UpsertCounters s kv n id true = (s, LConflict).
Proof.
  intros L CF C HR n id NP. unfold UpsertCounters. rewrite (proj1 (counter_kv_iff kv (proj1 C)) C). cbn [negb]. rewrite (proj2 (Z.ltb_lt 0 n) NP).
  unfold IncrementCounters. destruct (decide_spec s used kv true L CF C) as [[-> _] | [[_ N] | (X & _)]]; [reflexivity|contradiction|discriminate X].
Qed.
Lemma open_accepted s used kv : linv s used -> counts_fit s -> counter_kv kv -> ~ reached s kv ->
  decide s kv true = LDone.
Proof. intros L CF C HR. destruct (decide_spec s used kv true L CF C) as [[_ N] | [[-> _] | (X & _)]]; [contradiction|reflexivity|discriminate X]. Qed.

Lemma c71_waits sts name kv : (forall n, exists used, lreach (sts n) used) -> (forall n, counts_fit (sts n)) -> counter_kv kv ->
  (forall n, l_rules (sts n) = l_rules (sts 0%nat) /\ l_over (sts n) = l_over (sts 0%nat)) ->
  Recheck sts name kv = Some false ->
  exists m, forall n id, 0 < n -> UpsertCounters (sts m) (running_kv name kv) n id true = (sts m, LConflict).
Proof.
  intros R CF C SS E.
  assert (FIT : forall n, exists used, linv (sts n) used) by (intros n; destruct (R n) as (used & RU); exists used; apply lreach_inv; exact RU).
  destruct (loops_spec sts (running_kv name kv) FIT CF (running_counter name kv C) (fun n => proj1 (SS n)) (fun n => proj2 (SS n))) as (b & E' & A & _).
  unfold Recheck in E. cbn zeta in E. rewrite E' in E. injection E as ->. destruct (A eq_refl) as (m & HM). destruct (FIT m) as (used & L). exists m.
  intros n id NP. apply (reached_refused (sts m) used); auto. apply running_counter. exact C.
Qed.
Lemma c71_total sts name kv : (forall n, exists used, lreach (sts n) used) -> (forall n, counts_fit (sts n)) -> counter_kv kv ->
  (forall n, l_rules (sts n) = l_rules (sts 0%nat) /\ l_over (sts n) = l_over (sts 0%nat)) ->
  Recheck sts name kv <> None.
Proof.
  intros R CF C SS.
  assert (FIT : forall n, exists used, linv (sts n) used) by (intros n; destruct (R n) as (used & RU); exists used; apply lreach_inv; exact RU).
  destruct (loops_spec sts (running_kv name kv) FIT CF (running_counter name kv C) (fun n => proj1 (SS n)) (fun n => proj2 (SS n))) as (b & E' & _).
  unfold Recheck. cbn zeta. rewrite E'. discriminate.
Qed.
Lemma c71_let_go s used name kv id : lreach s used -> counts_fit s -> counter_kv kv -> ~ In id used -> id <> EmptyString ->
  (forall g limit, governs s (running_kv name kv) g limit -> forall k v, In (k, v) g -> v <> Any) ->
  Recheck (fun _ => s) name kv = Some true ->
  snd (UpsertCounters s (running_kv name kv) 1 id true) = LDone.
Proof.
  intros R CF C NI NE NG E. assert (L := lreach_inv s used R). assert (CR := running_counter name kv C).
  destruct (loops_spec (fun _ => s) (running_kv name kv) (fun _ => ex_intro _ used L) (fun _ => CF) CR (fun _ => eq_refl) (fun _ => eq_refl)) as (b & E' & _ & B).
  unfold Recheck in E. cbn zeta in E. rewrite E' in E. injection E as ->. specialize (B eq_refl).
  destruct (c33_increment s used (running_kv name kv) 1 id true R CF CR ltac:(lia) NI NE) as (A1 & A2 & _). destruct A1 as [A1 | [A1 | (X & _)]]; [exact A1| |discriminate X].
  exfalso. assert (NF : snd (UpsertCounters s (running_kv name kv) 1 id true) <> LFailed) by (rewrite A1; discriminate).
  destruct (proj1 (A2 NF) A1) as (g & limit & total & HG & NL & HT & LE). apply (group_total_iff s used g _ total L (proj1 (counter_rep _ CR))) in HT. subst total.
  destruct (B g limit HG) as [X | (m & N0 & EO)]; [contradiction|].
  destruct (own_at (fun _ => s) (running_kv name kv) (fun _ => ex_intro _ used L) (fun _ => CF) CR (fun _ => eq_refl) (fun _ => eq_refl) 0%nat g limit HG N0 NL) as (b & EB & _ & LT).
  rewrite EO in EB. injection EB as <-. specialize (LT (NG g limit HG) eq_refl). lia.
Qed.
