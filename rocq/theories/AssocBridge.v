(** The link between the finite maps that [Assoc.v] uses for the B-trees inside the associated tree and the model of
    the B-tree code itself: looking a key up, and which entries a lookup hands to the callback. *)
From Coq Require Import Permutation Sorted.
From Verif Require Import Datatypes SpecValues DatatypesProofs BTree SpecBTree BTreeFind SpecFind PropLemmasFind PropLemmasTree PropLemmasTree2 PropLemmasTree3
  Query SpecQuery QueryProofs Assoc AssocMaps AssocQueryProofs PropertiesTree.
Local Open Scope nat_scope.

Lemma shaped_contents {V} n (root : option (node V)) : well_shaped n root -> ordered (contents root).
Proof. destruct root as [t|]; cbn; [intros (h & _ & _ & _ & H); exact H|intros _; split; constructor]. Qed.
Lemma value_lt_irrefl a : good a -> ~ value_lt a a.
Proof. intros G H. apply lmt_iff in H; auto. rewrite lmt_irrefl in H. discriminate. Qed.
Lemma value_lt_not_same a b : good a -> good b -> value_lt a b -> ~ same_value a b.
Proof. intros Ga Gb H E. apply incomparable_iff in E as [E _]; auto. apply lmt_iff in H; auto. congruence. Qed.
Lemma ordered_unique {V} (l : list (EV * V)) k v k' v' : ordered l -> In (k, v) l -> In (k', v') l -> same_value k k' -> (k, v) = (k', v').
Proof.
  intros [S G]. induction S as [|[k0 v0] l S IH F]; [intros []|]. inversion G as [|? ? G0 G']; subst. cbn in G0.
  rewrite Forall_forall in F, G'. intros [E | H1] [E' | H2] HS.
  - congruence.
  - injection E as -> ->. exfalso. specialize (F _ H2). specialize (G' _ H2). cbn in F, G'. exact (value_lt_not_same _ _ G0 G' F HS).
  - injection E' as -> ->. exfalso. specialize (F _ H1). specialize (G' _ H1). cbn in F, G'. apply (value_lt_not_same _ _ G0 G' F). apply same_value_sym; exact HS.
  - apply IH; auto. apply Forall_forall. exact G'.
Qed.
Lemma ordered_nodup {V} (l : list (EV * V)) : ordered l -> NoDup l.
Proof.
  intros [S G]. induction S as [|[k0 v0] l S IH F]; [constructor|]. inversion G as [|? ? G0 G']; subst. constructor; [|auto].
  intros C. rewrite Forall_forall in F. specialize (F _ C). cbn in F. exact (value_lt_irrefl _ G0 F).
Qed.
Lemma ordered_good {V} (l : list (EV * V)) k v : ordered l -> In (k, v) l -> good k.
Proof. intros [_ G] HI. rewrite Forall_forall in G. apply (G _ HI). Qed.

(** [aget] on the contents is the B-tree's own notion of being stored. *)
Theorem bridge_get : forall V n (root : option (node V)) k v, well_shaped n root -> good k ->
  aget veq k (contents root) = Some v <-> stored (contents root) k v.
Proof.
  intros V n root k v W Gk. pose proof (shaped_contents n root W) as O. split.
  - intros E. apply aget_In in E as (k0 & HI & E). exists k0. split; [|exact HI]. apply veq_iff; auto. eapply ordered_good; eauto.
  - intros (k0 & HS & HI). assert (G0 : good k0) by (eapply ordered_good; eauto).
    destruct (aget veq k (contents root)) as [v'|] eqn:E.
    + apply aget_In in E as (k1 & HI1 & E1). assert (G1 : good k1) by (eapply ordered_good; eauto). apply veq_iff in E1; auto.
      assert (EE : (k0, v) = (k1, v')) by (eapply ordered_unique; eauto; eapply same_value_trans; eauto using same_value_sym). congruence.
    + exfalso. assert (HV : veq k k0 = true) by (apply veq_iff; auto). clear -E HV HI.
      induction (contents root) as [|[k1 v1] l IH]; [destruct HI|]. cbn in E. destruct (veq k k1) eqn:EV; [discriminate|].
      destruct HI as [[= -> ->] | HI]; [congruence|auto].
Qed.

Definition kind_of (w : lookup_kind) : lookup :=
  match w with LFind => LkFind | LLess => LkLess | LLessEq => LkLessEq | LGreater => LkGreater | LGreaterEq => LkGreaterEq end.
(** A lookup of the B-tree hands the callback, each once, exactly the values whose key satisfies [visitb]. *)
Theorem bridge_lookup : forall V n (root : option (node V)) w key tr,
  well_shaped n root -> key_allowed (kind_of w) key -> tr_validate tr = true ->
  exists l, Permutation (map snd l) (map snd (filter (fun p => visitb w key tr (fst p)) (contents root))) /\
    forall S (cb : S -> EV -> V -> S * bool) s, exists ev, run_lookup (kind_of w) cb root key tr s = FOk (fst (offer cb s l)) ev.
Proof.
  intros V n root w key tr W KA TV. pose proof (shaped_contents n root W) as O.
  assert (GD : forall k v, In (k, v) (contents root) -> good k) by (intros; eapply ordered_good; eauto).
  assert (NF : NoDup (filter (fun p => visitb w key tr (fst p)) (contents root))) by (apply CollectionsProofs.nodup_filter, ordered_nodup, O).
  assert (TR := TV). apply tr_validate_iff in TR. destruct TR as (T1 & T2 & T3).
  assert (EX : forall P l, exactly (contents root) P l -> (forall k v, In (k, v) (contents root) -> visitb w key tr k = true <-> P k) ->
            Permutation (map snd l) (map snd (filter (fun p => visitb w key tr (fst p)) (contents root)))).
  { intros P l [NL HL] HP. apply Permutation_map. apply NoDup_Permutation; auto. intros [k v]. rewrite HL, filter_In. cbn [fst].
    split; intros [H1 H2]; (split; [exact H1|]); apply (HP k v H1); exact H2. }
  assert (ANY : forall k v, In (k, v) (contents root) -> k = Any <-> ev_type k = T_any).
  { intros k v HI. split; [intros ->; reflexivity|]. destruct (any_or_concrete k (GD k v HI)); congruence. }
  destruct KA as [Gk KA].
  destruct w; cbn [kind_of] in *.
  - destruct (any_or_concrete key Gk) as [-> | NA].
    + destruct (C09_find_any V n root tr W TV) as (l & HL & HR). exists l. split; [|exact HR].
      apply (EX _ _ HL). intros k v HI. unfold visitb, in_types. cbn. apply tr_within_iff.
    + assert (NK : key <> Any) by (intros ->; apply NA; reflexivity).
      destruct (C09_find_key V n root key tr W Gk NK TV) as (l1 & l2 & H1 & [N2 H2] & HR). exists (l1 ++ l2). split; [|exact HR].
      assert (SP : exists l1', map snd l1 = map snd l1' /\ NoDup l1' /\ forall k v, In (k, v) l1' <-> In (k, v) (contents root) /\ in_types tr key /\ same_value key k).
      { destruct H1 as [(HT & v & (k' & HS & HI) & ->) | [-> HN]].
        - exists [(k', v)]. split; [reflexivity|]. split; [repeat constructor; intros []|]. intros k0 v0. cbn. split.
          + intros [[= <- <-] | []]. auto.
          + intros (HI0 & _ & HS0). left. eapply ordered_unique; eauto. eapply same_value_trans; eauto using same_value_sym.
        - exists []. split; [reflexivity|]. split; [constructor|]. intros k0 v0. cbn. split; [intros []|]. intros (HI & HT & HS). exact (HN HT k0 v0 HI HS). }
      destruct SP as (l1' & E1 & N1 & H1'). rewrite map_app, E1, <- map_app. apply Permutation_map. apply NoDup_Permutation; auto.
      * apply CollectionsProofs.nodup_app; auto. intros [k v] I1 I2. apply H1' in I1 as (_ & _ & HS). apply H2 in I2 as (_ & -> & _).
        destruct HS as [HS _]. apply NA. exact HS.
      * intros [k v]. rewrite in_app_iff, H1', H2, filter_In. cbn [fst]. unfold visitb. rewrite (proj2 (Z.eqb_neq _ _) NA).
        rewrite orb_true_iff, !andb_true_iff, !Z.eqb_eq, tr_within_iff. unfold in_types. split.
        -- intros [(HI & HT & HS) | (HI & -> & HM)]; (split; [exact HI|]); [left|right; auto]. split; [exact HT|]. apply veq_iff; eauto.
        -- intros [HI [[HT HV] | [HA HM]]]; [left|right]; (split; [exact HI|]); [split; [exact HT|]; apply veq_iff in HV; eauto|].
           split; [apply (ANY k v HI); exact HA|exact HM].
  - destruct (C10_range_lookups_exact V n root LkLess key tr W) as (l & HL & HR); [discriminate|split; auto|auto|]. exists l. split; [|exact HR].
    apply (EX _ _ HL). intros k v HI. unfold visitb, in_relation. rewrite orb_true_iff, !andb_true_iff, !Z.eqb_eq, Z.leb_le, lmt_iff, (ANY k v HI) by eauto. tauto.
  - destruct (C10_range_lookups_exact V n root LkLessEq key tr W) as (l & HL & HR); [discriminate|split; auto|auto|]. exists l. split; [|exact HR].
    apply (EX _ _ HL). intros k v HI. pose proof (GD k v HI) as G. unfold visitb, in_relation. rewrite orb_true_iff, !andb_true_iff, !Z.eqb_eq, Z.leb_le, negb_true_iff, (ANY k v HI).
    assert (LE : lmt key k = false <-> value_lt k key \/ same_value key k).
    { destruct (lmt k key) eqn:E1.
      - split; [intros _; left; apply lmt_iff; auto|]. intros _. apply lmt_asym; auto.
      - split; [intros E2; right; apply incomparable_iff; auto|]. intros [H | H]; [apply lmt_iff in H; auto; congruence|]. apply incomparable_iff in H as [H _]; auto. }
    rewrite LE. tauto.
  - destruct (C10_range_lookups_exact V n root LkGreater key tr W) as (l & HL & HR); [discriminate|split; auto|auto|]. exists l. split; [|exact HR].
    apply (EX _ _ HL). intros k v HI. unfold visitb, in_relation. rewrite !andb_true_iff, Z.leb_le, lmt_iff by eauto. tauto.
  - destruct (C10_range_lookups_exact V n root LkGreaterEq key tr W) as (l & HL & HR); [discriminate|split; auto|auto|]. exists l. split; [|exact HR].
    apply (EX _ _ HL). intros k v HI. pose proof (GD k v HI) as G. unfold visitb, in_relation. rewrite !andb_true_iff, Z.leb_le, negb_true_iff.
    assert (LE : lmt k key = false <-> value_lt key k \/ same_value key k).
    { destruct (lmt key k) eqn:E1.
      - split; [intros _; left; apply lmt_iff; auto|]. intros _. apply lmt_asym; auto.
      - split; [intros E2; right; apply incomparable_iff; auto|]. intros [H | H]; [apply lmt_iff in H; auto; congruence|]. apply incomparable_iff in H as [_ H]; auto. }
    rewrite LE. tauto.
Qed.
Print Assumptions bridge_get.
Print Assumptions bridge_lookup.
