(** Unit increments, queries of counters. *)
From Coq Require Import Permutation SpecFloat.
From Verif Require Import Datatypes SpecValues DatatypesProofs PropLemmasValues Collections SpecCollections CollectionsProofs Query SpecQuery QueryProofs
  Assoc SpecAssoc AssocMaps AssocProofs AssocQueryProofs AssocOps AssocMatchProofs PropLemmasAssoc OneToMany SpecOneToMany OneToManyProofs
  Limiter SpecLimiter LimiterProofs LimiterCounts LimiterLimits LimiterSums PropLemmasLimiter.
Local Open Scope Z_scope.

Lemma in_nil kv kv' : in_group [] kv kv'.
Proof. intros k []. Qed.
Lemma group_nil kv s used bound : kv_rep kv -> linv s used -> group_ok [] kv bound s -> bound < 2 ^ 63 -> counts_fit s.
Proof.
  intros R L [P B] LT. split; [intros i Hi; apply P; [exact Hi|apply in_nil]|].
  replace (sum_of (a_items (l_counts s))) with (gsum (l_counts s) [] kv); [lia|]. unfold gsum. f_equal. clear. induction (a_items (l_counts s)) as [|x r IH]; cbn; [reflexivity|]. f_equal. exact IH.
Qed.
Lemma unit_ok g kv limit m s used : counter_kv kv -> Z.of_nat m < 2 ^ 63 -> unit_run g kv limit m s used -> lreach s used /\ group_ok [] kv (Z.of_nat m) s.
Proof.
  intros C LT RUN. destruct (counter_rep kv C) as [R _]. induction RUN as [|m s used x RUN IH HA HID HI HS].
  - split; [constructor|]. split; [intros i []|cbn; lia].
  - destruct IH as [RS OK]; [lia|]. split; [apply LR_step; auto|]. assert (L : linv s used) by (apply lreach_inv; exact RS).
    assert (OK1 : group_ok [] kv (Z.of_nat (S m)) s) by (destruct OK as [OK1 OK2]; split; [exact OK1|lia]).
    assert (Q : (forall kv' n id locked, x = LUpsert kv' n id locked -> 0 < n -> ~ in_group [] kv kv') -> group_ok [] kv (Z.of_nat (S m)) (fst (lrun s x))).
    { intros Q. eapply quiet_step; eauto. intros kv' n id E. exfalso. eapply HS; eauto. }
    destruct x as [kv' id li|id li|id|rid kv' id li|rid id li|rid id|kv' n id locked|kv' n id]; try (apply Q; intros; discriminate).
    destruct (0 <? n) eqn:EN.
    2: { apply Z.ltb_ge in EN. apply Q. intros kv0 n0 id0 l0 [= <- <- <- <-] X. lia. }
    cbn [lrun lop_id lop_arg] in *. destruct HA as [HA HN]. destruct (HID id eq_refl) as [NU NE].
    destruct (kv_validate kv' MinDataType MaxWithoutAnyDataType) eqn:V; [|unfold UpsertCounters; rewrite V; exact OK1].
    apply (counter_kv_iff kv' HA) in V. unfold UpsertCounters. rewrite (proj1 (counter_kv_iff kv' HA) V). cbn [negb]. rewrite EN. apply Z.ltb_lt in EN. unfold IncrementCounters.
    destruct (decide s kv' locked); try exact OK1. destruct (HI kv' n id locked eq_refl) as [NM _].
    assert (OK2 : group_ok [] kv (Z.of_nat m + 1 + 1 - 1) s) by (destruct OK as [OKa OKb]; split; [exact OKa|lia]).
    destruct (add_ok [] kv (Z.of_nat m + 1) 1 s used kv' n id R ltac:(lia) ltac:(lia) L OK2 V HN ltac:(lia) NU NE (in_nil _ _)) as [_ AO]; [destruct OK; lia|].
    destruct (add_count (l_counts s) kv' n id). cbn [fst] in *. destruct AO as [A1 A2]. split; [exact A1|lia].
Qed.
Lemma unit_group g kv limit m s used : counter_kv kv -> 0 <= limit -> Z.of_nat m < 2 ^ 63 -> unit_run g kv limit m s used -> group_run g kv limit 1 s used.
Proof.
  intros C L0 LT RUN. destruct (counter_rep kv C) as [R _]. induction RUN as [|m s used x RUN IH HA HID HI HS].
  - apply GR_start; [constructor|intros i []|]. intros total T. apply (group_total_iff empty_limiter []) in T; [|apply lreach_inv; constructor|exact R]. subst total. cbn. lia.
  - assert (LT' : Z.of_nat m < 2 ^ 63) by lia. specialize (IH LT'). destruct (unit_ok g kv limit m s used C LT' RUN) as [RS OK].
    apply GR_step; auto.
    + intros kv' n id locked E HG. destruct (HI kv' n id locked E) as [H1 H2]. split; [exact H1|]. intros NP. split; [auto|]. eapply group_nil; eauto. apply lreach_inv. exact RS.
    + intros kv' n id E. exfalso. eapply HS; eauto.
Qed.
Lemma c32_unit g kv limit m s used : counter_kv kv -> 0 <= limit < 2 ^ 63 -> Z.of_nat m < 2 ^ 63 -> unit_run g kv limit m s used ->
  forall total, group_total s g kv total -> 0 <= total <= limit.
Proof.
  intros C L0 LT RUN total T. assert (0 <= total <= limit + 1 - 1); [|lia]. eapply (c32_bulk g kv limit 1); eauto; try lia. eapply unit_group; eauto. lia.
Qed.
Lemma query_counters s used q : lreach s used -> q_validate q = true -> query_no_nan q -> q = Q None None None \/ every_node node_simple q ->
  exists l, QueryCounters s q = Some l /\ forall kv n, In (kv, n) l <-> exists id, In (mkItem id kv n) (a_items (l_counts s)) /\ query_holds q id kv.
Proof.
  intros R V N S. apply lreach_inv in R. destruct (li_counts s used R) as (u & RU & _). destruct (c22_query (l_counts s) u q RU V N S) as (l & ND & HL & HQ).
  exists (map (fun i => (it_kv i, it_val i)) l). unfold QueryCounters. rewrite HQ. split.
  - f_equal. assert (K : forall l acc, iterate (fun (acc : list (KeyValues * Z)) (i : item Z) => (acc ++ [(it_kv i, it_val i)], true)) acc l = acc ++ map (fun i => (it_kv i, it_val i)) l).
    { clear. induction l as [|x r IH]; intros acc; cbn; [symmetry; apply app_nil_r|]. rewrite IH, <- app_assoc. reflexivity. }
    apply (K l []).
  - intros kv n. rewrite in_map_iff. split.
    + intros ([id k v] & [= <- <-] & HI). apply HL in HI as [H1 H2]. exists id. auto.
    + intros (id & H1 & H2). exists (mkItem id kv n). split; [reflexivity|]. apply HL. auto.
Qed.
