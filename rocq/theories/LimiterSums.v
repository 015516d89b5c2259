(** Sums of counters and the decision of an increment. *)
From Coq Require Import Permutation SpecFloat.
From Verif Require Import Datatypes SpecValues DatatypesProofs PropLemmasValues Collections SpecCollections CollectionsProofs Query SpecQuery QueryProofs
  Assoc SpecAssoc AssocMaps AssocProofs AssocQueryProofs AssocOps AssocMatchProofs PropLemmasAssoc OneToMany SpecOneToMany OneToManyProofs
  Limiter SpecLimiter LimiterProofs LimiterCounts LimiterLimits.
Local Open Scope Z_scope.

(** ** Groups *)
Definition in_groupb (keys : list string) (kv kv' : KeyValues) : bool :=
  forallb (fun k => match kv_get kv k, kv_get kv' k with Some v, Some v' => veq v' v | _, _ => false end) keys.
Lemma in_groupb_iff g kv kv' : kv_rep kv -> kv_rep kv' -> in_groupb (kv_keys g) kv kv' = true <-> in_group g kv kv'.
Proof.
  intros R R'. unfold in_groupb, in_group. rewrite forallb_forall. split; intros H k Hk; specialize (H k Hk).
  - destruct (kv_get kv k) as [v|] eqn:E; [|discriminate]. destruct (kv_get kv' k) as [v'|] eqn:E'; [|discriminate]. exists v, v'. split; [reflexivity|]. split; [reflexivity|].
    apply veq_iff; eauto using kv_get_good.
  - destruct H as (v & v' & E & E' & HS). rewrite E, E'. apply veq_iff; eauto using kv_get_good.
Qed.
Lemma in_group_same g kv a b : kv_same a b -> in_group g kv a -> in_group g kv b.
Proof.
  intros HS H k Hk. destruct (H k Hk) as (v & v' & E & E' & S). specialize (HS k). rewrite E' in HS. destruct (kv_get b k) as [w|] eqn:EB; [|contradiction].
  exists v, w. split; [exact E|]. split; [reflexivity|]. eapply same_value_trans; [apply same_value_sym; exact HS|exact S].
Qed.
Lemma sum_app a b : sum_of (a ++ b) = sum_of a + sum_of b.
Proof. unfold sum_of. induction a as [|x a IH]; cbn; [lia|]. cbn in IH. lia. Qed.
Lemma sum_perm a b : Permutation a b -> sum_of a = sum_of b.
Proof. unfold sum_of. induction 1; cbn in *; lia. Qed.
Lemma filter_perm {A} (f : A -> bool) a b : Permutation a b -> Permutation (filter f a) (filter f b).
Proof.
  induction 1 as [|x a b P IH|x y a|a b c P IH P' IH']; cbn; try reflexivity.
  - destruct (f x); [constructor|]; exact IH.
  - destruct (f x), (f y); try reflexivity. apply perm_swap.
  - etransitivity; eauto.
Qed.
Definition gsum (t : atree Z) (g kv : KeyValues) : Z := sum_of (filter (fun i => in_groupb (kv_keys g) kv (it_kv i)) (a_items t)).
Lemma group_total_iff s used g kv total : linv s used -> kv_rep kv -> group_total s g kv total <-> total = gsum (l_counts s) g kv.
Proof.
  intros L R. destruct (li_counts s used L) as (u & RU & _). pose proof (nodup_items _ u RU) as ND.
  assert (IFF : forall i, In i (a_items (l_counts s)) -> in_groupb (kv_keys g) kv (it_kv i) = true <-> in_group g kv (it_kv i)).
  { intros i Hi. apply in_groupb_iff; [exact R|]. apply counter_rep. apply (li_count s used L i Hi). }
  unfold group_total, gsum. split.
  - intros (l & NDL & HL & ->). apply sum_perm. apply NoDup_Permutation; [exact NDL|apply NoDup_filter; exact ND|]. intros i. rewrite HL, filter_In.
    split; intros [H1 H2]; (split; [exact H1|]); apply IFF; auto.
  - intros ->. eexists. split; [apply NoDup_filter; exact ND|]. split; [|reflexivity]. intros i. rewrite filter_In. split; intros [H1 H2]; (split; [exact H1|]); apply IFF; auto.
Qed.

(** ** The check of one limit *)
Lemma value_of_get kv k v : kv_get kv k = Some v -> value_of kv k = v.
Proof. unfold value_of. intros ->. reflexivity. Qed.
Lemma group_query_ok g kv : counter_kv kv -> kv_rep g -> g <> [] -> covers g kv ->
  q_validate (group_query (kv_keys g) kv) = true /\ query_no_nan (group_query (kv_keys g) kv) /\ every_node node_simple (group_query (kv_keys g) kv).
Proof.
  intros C G NE HC. destruct (counter_rep kv C) as [[ND R] _].
  assert (IN : forall k q, In (k, q) (map (fun k => (k, mkVQ (value_of kv k) CEquals (mkTR (ev_type (value_of kv k)) (ev_type (value_of kv k))))) (kv_keys g)) ->
     exists v, In (k, v) kv /\ q = mkVQ v CEquals (mkTR (ev_type v) (ev_type v))).
  { intros k q HI. apply in_map_iff in HI as (k' & [= <- <-] & HI). apply in_map_iff in HI as ([k1 m] & <- & HI). apply (In_kv_get g) in HI; [|apply G].
    destruct (HC k1 m HI) as (v & E & _). exists v. cbn [fst]. rewrite (value_of_get _ _ _ E). split; [apply kv_get_In; exact E|reflexivity]. }
  split; [|split].
  - apply q_validate_iff. right. apply every_node_Q. split; [|split; constructor]. intros s [= <-]. split; [|split]; cbn [s_ids s_kvs s_min s_max].
    + right; left. destruct g; [contradiction|discriminate].
    + intros k q HI. apply IN in HI as (v & HI & ->). destruct (R _ _ HI) as [WT _]. unfold value_query_ok. cbn.
      pose proof (well_typed_tag _ _ WT). repeat split; auto; try discriminate. lia.
    + intros a b [=].
  - apply every_node_Q. split; [|split; constructor]. intros s k q [= <-]. cbn [s_kvs]. intros HI. apply IN in HI as (v & HI & ->). cbn. apply (R _ _ HI).
  - apply every_node_Q. split; [|split; constructor]. split; [left; discriminate|]. intros s [= <-]. right. split.
    + intros [k q] [k' q'] HI _ C1 _. apply IN in HI as (v & HI & ->). discriminate.
    + intros k q HI. apply IN in HI as (v & HI & ->). exact I.
Qed.
Lemma group_query_holds g kv kv' id : counter_kv kv -> counter_kv kv' -> covers g kv -> kv_rep g ->
  query_holds (group_query (kv_keys g) kv) id kv' <-> in_group g kv kv'.
Proof.
  intros C C' HC G. destruct (counter_rep kv C) as [[ND R] _]. destruct (counter_rep kv' C') as [[ND' R'] _]. destruct C as (_ & _ & NA). destruct C' as (_ & _ & NA').
  unfold query_holds, group_query. rewrite q_holds_Q. cbn [elems]. rewrite Exists_nil. unfold sel_holds, tags_hold, size_holds. cbn [s_ids s_kvs s_min s_max].
  assert (GK : forall k, In k (kv_keys g) -> exists v, kv_get kv k = Some v).
  { intros k Hk. apply in_map_iff in Hk as ([k1 m] & <- & HI). apply (In_kv_get g) in HI; [|apply G]. destruct (HC k1 m HI) as (v & E & _). eauto. }
  split.
  - intros [((_ & _ & H) & _) | []]. intros k Hk. destruct (GK k Hk) as (v & E).
    specialize (H k (mkVQ (value_of kv k) CEquals (mkTR (ev_type (value_of kv k)) (ev_type (value_of kv k))))). rewrite (value_of_get _ _ _ E) in H.
    destruct H as (m & EM & HT & HE). { apply in_map_iff. exists k. rewrite (value_of_get _ _ _ E). auto. }
    exists v, m. split; [exact E|]. split; [exact EM|]. cbn in HE. destruct HE as [-> | [-> | HE]]; [| |exact HE].
    + exfalso. apply kv_get_In in EM. eapply NA'; eauto.
    + exfalso. apply kv_get_In in E. eapply NA; eauto.
  - intros H. left. split; [|split; [constructor|left; discriminate]]. split; [left; reflexivity|]. split; [split; intros ? [=]|].
    intros k q HI. apply in_map_iff in HI as (k' & [= <- <-] & HI). destruct (H k' HI) as (v & v' & E & E' & HS). rewrite (value_of_get _ _ _ E). cbn.
    exists v'. split; [exact E'|]. unfold type_permitted. cbn. split; [destruct HS as [-> _]; lia|]. right; right. exact HS.
Qed.
Lemma sum_nonneg l : (forall i, In i l -> 0 < it_val i) -> 0 <= sum_of l.
Proof. unfold sum_of. induction l as [|x r IH]; intros H; cbn; [lia|]. pose proof (H x (or_introl eq_refl)). specialize (IH (fun i Hi => H i (or_intror Hi))). lia. Qed.
Lemma check_sum l limit : (forall i, In i l -> 0 < it_val i) -> forall c, 0 <= c -> c + sum_of l < 2 ^ 63 ->
  (limit <=? iterate (fun sum i => let sum' := i64 (sum + it_val i) in (sum', sum' <? limit)) c l) = (limit <=? c + sum_of l).
Proof.
  induction l as [|x r IH]; intros H c H0 HS; [cbn; f_equal; lia|]. cbn [iterate].
  pose proof (H x (or_introl eq_refl)). pose proof (sum_nonneg r (fun i Hi => H i (or_intror Hi))). change (sum_of (x :: r)) with (it_val x + sum_of r) in *.
  rewrite i64_id by (unfold int64; lia). destruct (c + it_val x <? limit) eqn:E.
  - rewrite IH; [f_equal; lia|intros i Hi; apply H; right; exact Hi|lia|lia].
  - apply Z.ltb_ge in E. transitivity true; [apply Z.leb_le; lia|symmetry; apply Z.leb_le; lia].
Qed.
Lemma filter_sum_le (f : item Z -> bool) l : (forall i, In i l -> 0 < it_val i) -> sum_of (filter f l) <= sum_of l.
Proof.
  unfold sum_of. induction l as [|x r IH]; intros H; cbn; [lia|]. pose proof (H x (or_introl eq_refl)). specialize (IH (fun i Hi => H i (or_intror Hi))). destruct (f x); cbn; lia.
Qed.
Lemma check_spec s used g kv limit : linv s used -> counts_fit s -> counter_kv kv -> kv_rep g -> g <> [] -> covers g kv ->
  checkCounters (l_counts s) (kv_keys g) kv limit = Some (negb (limit <=? gsum (l_counts s) g kv)).
Proof.
  intros L [CF1 CF2] C G NE HC. destruct (li_counts s used L) as (u & RU & _). destruct (group_query_ok g kv C G NE HC) as (V & NN & SI).
  destruct (c22_query (l_counts s) u _ RU V NN (or_intror SI)) as (l & ND & HL & HQ). unfold checkCounters. rewrite HQ.
  assert (HL' : forall i, In i l <-> In i (a_items (l_counts s)) /\ in_group g kv (it_kv i)).
  { intros i. rewrite HL. split; intros [H1 H2]; (split; [exact H1|]); eapply group_query_holds; eauto; apply (li_count s used L i H1). }
  assert (E : sum_of l = gsum (l_counts s) g kv) by (apply (proj1 (group_total_iff s used g kv (sum_of l) L (proj1 (counter_rep kv C)))); exists l; auto).
  rewrite check_sum; [rewrite Z.add_0_l, E; reflexivity| |lia|].
  - intros i Hi. apply CF1. apply HL'. exact Hi.
  - rewrite E. pose proof (filter_sum_le (fun i => in_groupb (kv_keys g) kv (it_kv i)) (a_items (l_counts s)) CF1). unfold gsum. lia.
Qed.

(** ** The decision *)
Lemma check_all_spec counts kv (P : list string -> Z -> Prop) R :
  (forall keys limit, In (keys, limit) R -> limit <> -1 -> exists b, checkCounters counts keys kv limit = Some b /\ (b = false <-> P keys limit)) ->
  (check_all counts kv R = LConflict /\ exists keys limit, In (keys, limit) R /\ limit <> -1 /\ P keys limit) \/
  (check_all counts kv R = LDone /\ forall keys limit, In (keys, limit) R -> limit <> -1 -> ~ P keys limit).
Proof.
  induction R as [|[keys limit] R IH]; intros H; [right; split; [reflexivity|intros ? ? []]|].
  assert (REST := IH (fun k l Hk => H k l (or_intror Hk))). cbn [check_all]. destruct (limit =? -1) eqn:EL.
  - apply Z.eqb_eq in EL. destruct REST as [(E & k & l & H1 & H2 & H3) | [E N]]; [left|right]; (split; [exact E|]).
    + exists k, l. cbn; auto.
    + intros k l [[= <- <-] | Hk] NL; [contradiction|auto].
  - apply Z.eqb_neq in EL. destruct (H keys limit (or_introl eq_refl) EL) as (b & -> & HB). destruct b.
    + destruct REST as [(E & k & l & H1 & H2 & H3) | [E N]]; [left|right]; (split; [exact E|]).
      * exists k, l. cbn; auto.
      * intros k l [[= <- <-] | Hk] NL; [|auto]. intros HP. apply HB in HP. discriminate.
    + left. split; [reflexivity|]. exists keys, limit. split; [left; reflexivity|]. split; [exact EL|]. apply HB. reflexivity.
Qed.
Lemma governs_rep s used kv g limit : linv s used -> governs s kv g limit -> kv_rep g /\ g <> [] /\ covers g kv /\ -1 <= limit < 2 ^ 63.
Proof.
  intros L (rid & rkv & rl & HR & HC & [(oid & HO & HCO) | (-> & -> & _)]).
  - destruct (many_rep s used rid _ L HO). split; [assumption|]. split; [assumption|]. split; [assumption|]. apply (li_olimit s used L _ _ HO).
  - destruct (rule_rep s used _ L HR) as (H1 & H2 & _). split; [assumption|]. split; [assumption|]. split; [assumption|]. apply (li_limit s used L _ HR).
Qed.
Lemma gsum_nonneg t g kv : (forall i, In i (a_items t) -> 0 < it_val i) -> 0 <= gsum t g kv.
Proof. intros H. apply sum_nonneg. intros i Hi. apply filter_In in Hi as [Hi _]. auto. Qed.
Definition reached (s : limiter) (kv : KeyValues) : Prop :=
  exists g limit, governs s kv g limit /\ limit <> -1 /\ limit <= gsum (l_counts s) g kv.
Lemma decide_spec s used kv locked : linv s used -> counts_fit s -> counter_kv kv ->
  (decide s kv locked = LConflict /\ reached s kv) \/ (decide s kv locked = LDone /\ ~ reached s kv) \/
  (locked = false /\ decide s kv locked = LFailed /\ exists g limit, governs s kv g limit /\ limit <> -1).
Proof.
  intros L CF C. destruct (limits_complete s used kv L C) as (rs & E & A & B). unfold decide. rewrite E.
  destruct rs as [|r rs'].
  { right; left. split; [reflexivity|]. intros (g & limit & HG & _). destruct (B eq_refl g limit HG) as [[] | (k & [])]. }
  remember (r :: rs') as rs eqn:ER. clear ER r rs'.
  destruct (last_is_zero rs) eqn:LZ.
  { left. split; [reflexivity|]. destruct (last_is_zero_spec rs LZ) as (keys & H). destruct (A keys 0 H) as (g & HG & _). exists g, 0. split; [exact HG|]. split; [lia|].
    apply gsum_nonneg. apply CF. }
  specialize (B eq_refl).
  destruct (all_unlimited rs) eqn:AU.
  { right; left. split; [reflexivity|]. unfold all_unlimited in AU. rewrite forallb_forall in AU. intros (g & limit & HG & NL & _).
    destruct (B g limit HG) as [H | (keys & H)]; specialize (AU _ H); apply Z.eqb_eq in AU; cbn in AU; lia. }
  destruct locked.
  2: { right; right. split; [reflexivity|]. split; [reflexivity|]. unfold all_unlimited in AU.
       assert (X : exists p, In p (flat_map limits_of rs) /\ snd p =? -1 = false).
       { clear -AU. induction (flat_map limits_of rs) as [|p l IH]; [discriminate|]. cbn in AU. destruct (snd p =? -1) eqn:E; [|exists p; cbn; auto]. cbn in AU. destruct (IH AU) as (q & H1 & H2). exists q. cbn; auto. }
       destruct X as ([keys limit] & H1 & H2). destruct (A _ _ H1) as (g & HG & _). apply Z.eqb_neq in H2. exists g, limit. auto. }
  destruct (check_all_spec (l_counts s) kv (fun keys limit => forall g, governs s kv g limit -> keys = kv_keys g -> limit <= gsum (l_counts s) g kv) (flat_map limits_of rs)) as [(-> & keys & limit & H1 & H2 & H3) | [-> N]].
  - intros keys limit HI NL. destruct (A keys limit HI) as (g & HG & ->). destruct (governs_rep s used kv g limit L HG) as (G1 & G2 & G3 & _).
    exists (negb (limit <=? gsum (l_counts s) g kv)). split; [apply check_spec with (used := used); auto|]. rewrite negb_false_iff, Z.leb_le. split; [|auto].
    intros H g' HG' EK. replace (gsum (l_counts s) g' kv) with (gsum (l_counts s) g kv); [exact H|]. unfold gsum. rewrite EK. reflexivity.
  - left. split; [reflexivity|]. destruct (A _ _ H1) as (g & HG & EK). exists g, limit. auto.
  - right; left. split; [reflexivity|]. intros (g & limit & HG & NL & HS). destruct (B g limit HG) as [H | (keys & H)].
    + apply (N _ _ H NL). intros g' HG' EK. replace (gsum (l_counts s) g' kv) with (gsum (l_counts s) g kv); [exact HS|]. unfold gsum. rewrite EK. reflexivity.
    + apply (N _ _ H); [lia|]. intros g' HG' EK. apply gsum_nonneg. apply CF.
Qed.
