(** All the ways down of a lookup together want exactly the entries it should visit. *)
From Coq Require Import Sorted Permutation ZifyBool ZifyNat.
From Verif Require Import Datatypes SpecValues DatatypesProofs BTree SpecBTree BTreeProofs BTreeFind SpecFind BTreeFindProofs
  PropLemmasTree PropLemmasFind PropLemmasTree3
  BTreeSync SpecBTreeSync BTreeSyncSeq BTreeSyncInv BTreeSyncStep BTreeSyncStep3 BTreeSyncSem BTreeIter SpecBTreeIter BTreeIterEr BTreeIterTk BTreeIterVisit.
Local Open Scope Z_scope.

Lemma perm_forall2 {A B} (R : A -> B -> Prop) l1 l2 : Permutation l1 l2 -> forall m2, Forall2 R l2 m2 -> exists m1, Permutation m1 m2 /\ Forall2 R l1 m1.
Proof.
  induction 1 as [|x l1 l2 H IH|x y l|l1 l2 l3 H1 IH1 H2 IH2]; intros m2 F.
  - inversion F; subst. exists []. split; constructor.
  - inversion F as [|? b ? m Rb F']; subst. destruct (IH m F') as (m1 & P & F1). exists (b :: m1). split; [apply perm_skip, P|constructor; assumption].
  - inversion F as [|? b ? m Rb F']; subst. inversion F' as [|? b' ? m' Rb' F'']; subst. exists (b' :: b :: m'). split; [apply perm_swap|].
    constructor; [assumption|constructor; assumption].
  - destruct (IH2 m2 F) as (m & P & F'). destruct (IH1 m F') as (m1 & P1 & F1). exists m1. split; [etransitivity; eassumption|exact F1].
Qed.

Section Sees.
  Context {V : Type}.
  Notation entry := (entry V).
  Notation node := (node V).

  Definition eqk (key : EV) (e : entry) : bool := negb (lmt (fst e) key) && negb (lmt key (fst e)).
  (** What a way down wants of a map: the entries, and what it reports *)
  Definition ents (d : descent) (m : list entry) : list entry :=
    match d with DScan cls keep => filter (fun e => vb cls e && keep (fst e)) m | DMatch key => filter (eqk key) m end.
  Definition tgtM (d : descent) (m : list entry) : list entry :=
    match d with DScan cls keep => filter (fun e => vb cls e && keep (fst e)) m | DMatch key => map (fun e => (key, snd e)) (filter (eqk key) m) end.
  Definition wants (ds : list descent) (m : list entry) : list entry := concat (map (fun d => tgtM d m) ds).
  Definition stand (ds : list descent) (m : list entry) : list entry := concat (map (fun d => ents d m) ds).

  Lemma tgtM_perm d m m' : Permutation m m' -> Permutation (tgtM d m) (tgtM d m').
  Proof. intros H. destruct d; cbn [tgtM]; [|apply Permutation_map]; apply perm_filter, H. Qed.
  Lemma wants_perm ds m m' : Permutation m m' -> Permutation (wants ds m) (wants ds m').
  Proof. intros H. unfold wants. induction ds as [|d ds IH]; [constructor|]. cbn. apply Permutation_app; [apply tgtM_perm, H|exact IH]. Qed.
  Lemma wants_nil ds : wants ds [] = [].
  Proof. unfold wants. induction ds as [|d ds IH]; [reflexivity|]. cbn. rewrite IH. destruct d; reflexivity. Qed.

  Lemma eqk_same key (c : list entry) e : good key -> goods c -> In e c -> eqk key e = true <-> same_value key (fst e).
  Proof.
    intros Gk G He. pose proof (goods_in _ _ G He) as Ge. unfold eqk. split.
    - intros H. apply andb_prop in H as [H1 H2]. apply negb_true_iff in H1, H2. apply lmt_total; auto.
    - intros H. destruct (same_value_incomparable _ _ Gk Ge H) as [-> ->]. reflexivity.
  Qed.

  (** A way down in a tree and in its map *)
  Lemma one_match key (c : list entry) : good key -> goods c -> sorted c ->
    forall v, stored c key v -> map (fun e => (key, snd e)) (filter (eqk key) c) = [(key, v)].
  Proof.
    intros Gk. induction c as [|e c IH]; intros G S v (k' & Sm & Hin); [destruct Hin|].
    pose proof G as G0. apply goods_cons in G as [Ge G]. pose proof S as S0. apply sorted_cons in S as [S Sgt].
    cbn [filter]. destruct (eqk key e) eqn:E.
    - assert (N : filter (eqk key) c = []).
      { assert (Hn : forall x, In x c -> eqk key x = false).
        { intros x Hx. destruct (eqk key x) eqn:Ex; [|reflexivity]. exfalso. pose proof (goods_in _ _ G Hx) as Gx.
          pose proof (Sgt x Hx) as L. unfold klt in L.
          apply andb_prop in E as [E1 E2]. apply andb_prop in Ex as [X1 X2]. apply negb_true_iff in E1, E2, X1, X2.
          destruct (lmt_cotrans (fst e) key (fst x) Ge Gk Gx L); congruence. }
        clear - Hn. induction c as [|x c IHc]; [reflexivity|]. cbn [filter]. rewrite (Hn x) by (left; reflexivity). apply IHc. intros y Hy. apply Hn. right. exact Hy. }
      rewrite N. cbn [map]. f_equal. f_equal. destruct Hin as [->|Hin]; [reflexivity|]. exfalso.
      assert (X : In (k', v) (filter (eqk key) c)).
      { apply filter_In. split; [exact Hin|]. apply (eqk_same key c (k', v) Gk G Hin). exact Sm. }
      rewrite N in X. destruct X.
    - apply (IH G S v). exists k'. split; [exact Sm|]. destruct Hin as [->|Hin]; [|exact Hin].
      apply (eqk_same key ((k', v) :: c) (k', v) Gk G0 (or_introl eq_refl)) in Sm. congruence.
  Qed.
  Lemma no_match key (c : list entry) : good key -> goods c -> not_stored c key -> filter (eqk key) c = [].
  Proof.
    intros Gk G N. destruct (filter (eqk key) c) as [|[k v] l] eqn:E; [reflexivity|]. exfalso.
    assert (H : In (k, v) (filter (eqk key) c)) by (rewrite E; left; reflexivity). apply filter_In in H as [H1 H2].
    apply (eqk_same key c (k, v) Gk G H1) in H2. apply (N k v H1 H2).
  Qed.
  Lemma tgt_map n h d (t : node) m : descent_ok d -> balanced n h t -> goods (flat t) -> sorted (flat t) -> Permutation m (flat t) ->
    Permutation (tgt d t) (tgtM d m).
  Proof.
    intros Ok B G S Pm. etransitivity; [|apply (tgtM_perm d (flat t) m); symmetry; exact Pm].
    destruct d as [cls keep|key]; cbn [tgt tgtM descent_ok] in *; [reflexivity|].
    pose proof (get_spec n h t key B G Ok S) as H. destruct (get t key) as [v|].
    - rewrite (one_match key _ Ok G S v H). reflexivity.
    - rewrite (no_match key _ Ok G H). reflexivity.
  Qed.

  (** What the classifications select *)
  Lemma visited_gt key tr : good key -> forall k, good k -> visited (cls_gt key tr) k = true <-> ev_type k <= tr_max tr /\ value_lt key k.
  Proof.
    intros Gk k G. rewrite <- lmt_spec by (try apply Gk; apply G). unfold visited, cls_gt.
    destruct (Z.ltb_spec (tr_max tr) (ev_type k)); [split; [discriminate|lia]|].
    destruct (lmt k key) eqn:E1, (lmt key k) eqn:E2; intuition (try discriminate; try lia).
    rewrite (lmt_asym key k) in E1 by auto. discriminate.
  Qed.
  Lemma visited_ge key tr : good key -> forall k, good k -> visited (cls_ge key tr) k = true <-> ev_type k <= tr_max tr /\ (value_lt key k \/ same_value key k).
  Proof.
    intros Gk k G. rewrite <- lmt_spec by (try apply Gk; apply G). unfold visited, cls_ge.
    destruct (Z.ltb_spec (tr_max tr) (ev_type k)); [split; [discriminate|lia]|].
    destruct (lmt k key) eqn:E1, (lmt key k) eqn:E2.
    - rewrite (lmt_asym key k) in E1 by auto. discriminate.
    - split; [discriminate|]. intros [_ [HH|HH]]; [discriminate|]. destruct (same_value_incomparable key k Gk G HH). congruence.
    - intuition lia.
    - split; [|reflexivity]. intros _. split; [lia|]. right. apply lmt_total; auto.
  Qed.
  Lemma visited_lt key tr : good key -> forall k, good k -> visited (cls_lt key tr) k = true <-> tr_min tr <= ev_type k /\ value_lt k key.
  Proof.
    intros Gk k G. rewrite <- lmt_spec by (try apply Gk; apply G). unfold visited, cls_lt.
    destruct (Z.ltb_spec (ev_type k) (tr_min tr)); [split; [discriminate|lia]|].
    destruct (Z.ltb_spec (ev_type key) (ev_type k)).
    - split; [discriminate|]. intros [_ HH]. apply (lmt_type_le k key) in HH; auto. lia.
    - destruct (lmt k key); intuition (try discriminate; try lia).
  Qed.
  Lemma visited_le key tr : good key -> forall k, good k -> visited (cls_le key tr) k = true <-> tr_min tr <= ev_type k /\ (value_lt k key \/ same_value key k).
  Proof.
    intros Gk k G. rewrite <- lmt_spec by (try apply Gk; apply G). unfold visited, cls_le.
    destruct (Z.ltb_spec (ev_type k) (tr_min tr)); [split; [discriminate|lia]|].
    destruct (Z.ltb_spec (ev_type key) (ev_type k)).
    - split; [discriminate|]. intros [_ [HH|[HH _]]]; [apply (lmt_type_le k key) in HH; auto; lia|lia].
    - destruct (lmt k key) eqn:E1; [intuition lia|]. destruct (lmt key k) eqn:E2; cbn [negb].
      + split; [discriminate|]. intros [_ [HH|HH]]; [discriminate|]. destruct (same_value_incomparable key k Gk G HH). congruence.
      + split; [|reflexivity]. intros _. split; [lia|]. right. apply lmt_total; auto.
  Qed.

  Lemma descents_ok q : (let '(w, key, tr) := q in key_allowed w key) -> Forall descent_ok (descents q).
  Proof.
    destruct q as [[w key] tr]. intros [G N]. unfold descents.
    assert (A : Forall descent_ok (if Z.eqb (tr_max tr) T_any then [DMatch Any] else [])).
    { destruct (Z.eqb _ _); constructor; [apply good_any|constructor]. }
    assert (O : forall (b : bool) d, descent_ok d -> Forall descent_ok (if b then [d] else [])).
    { intros [] d H; constructor; [exact H|constructor]. }
    destruct w.
    - destruct (GeneralDataTypes _).
      + apply Forall_app. split; [apply O, G|exact A].
      + apply O. apply mono_iterate.
    - apply (O true). apply mono_iterate.
    - apply Forall_app. split; [apply O, mono_lt, G|exact A].
    - apply Forall_app. split; [apply O, mono_le, G|exact A].
    - apply O, mono_gt, G.
    - apply O, mono_ge, G.
  Qed.

  Section C.
    Variable c : list entry.
    Hypothesis Gc : goods c.
    Hypothesis Sc : sorted c.
    Lemma scan_part cls (Q : EV -> Prop) : (forall k, good k -> visited cls k = true <-> Q k) -> exactly c Q (stand [DScan cls all_keys] c).
    Proof using Gc Sc.
      intros H. unfold stand. cbn [map concat ents]. rewrite app_nil_r.
      apply (exactly_of_perm c _ (fun e => vb cls e && all_keys (fst e)) Q Sc (Permutation_refl _)).
      intros e He. unfold all_keys. rewrite andb_true_r. apply (H (fst e)). exact (goods_in _ _ Gc He).
    Qed.
    Lemma match_part key : good key -> exactly c (same_value key) (stand [DMatch key] c).
    Proof using Gc Sc.
      intros G. unfold stand. cbn [map concat ents]. rewrite app_nil_r.
      apply (exactly_of_perm c _ (eqk key) (same_value key) Sc (Permutation_refl _)).
      intros e He. apply (eqk_same key c e G Gc He).
    Qed.
    Lemma none_part (Q : EV -> Prop) : (forall k, good k -> ~ Q k) -> exactly c Q (stand [] c).
    Proof using Gc Sc.
      intros H. split; [constructor|]. intros k v. split; [intros []|]. intros [Hin HQ]. destruct (H k (goods_in _ _ Gc Hin) HQ).
    Qed.
    Lemma exactly_weaken (Q R : EV -> Prop) l : (forall k, good k -> Q k <-> R k) -> exactly c Q l -> exactly c R l.
    Proof using Gc Sc. intros H. apply exactly_ext. intros k v Hin. apply H. exact (goods_in _ _ Gc Hin). Qed.
    Lemma same_any k : good k -> same_value Any k <-> k = Any.
    Proof using.
      intros G. split; [|intros ->; apply lmt_total; auto using good_any, lmt_irrefl]. intros [H _]. apply any_of_type; [exact G|]. symmetry. exact H.
    Qed.
    Lemma any_part tr : exactly c (fun k => k = Any /\ tr_max tr = T_any) (stand (if Z.eqb (tr_max tr) T_any then [DMatch Any] else []) c).
    Proof using Gc Sc.
      destruct (Z.eqb_spec (tr_max tr) T_any) as [E|E]; [|apply none_part; tauto].
      eapply exactly_weaken; [|apply (match_part Any good_any)]. intros k G. rewrite same_any by exact G. tauto.
    Qed.
    Lemma stand_app a b : stand (a ++ b) c = stand a c ++ stand b c.
    Proof using. unfold stand. rewrite map_app, concat_app. reflexivity. Qed.

    Lemma less_part cls key tr (P : EV -> Prop) : good key -> ev_type key <= T_string ->
      (forall k, good k -> visited cls k = true <-> P k) -> (ev_type key < tr_min tr -> forall k, good k -> ~ P k) -> (forall k, good k -> P k -> k <> Any) ->
      exactly c (fun k => P k \/ (k = Any /\ tr_max tr = T_any))
        (stand ((if negb (Z.ltb (ev_type key) (tr_min tr)) then [DScan cls all_keys] else []) ++ (if Z.eqb (tr_max tr) T_any then [DMatch Any] else [])) c).
    Proof using Gc Sc.
      intros G T HP HN HA. rewrite stand_app. apply (exactly_app c _ _ P (fun k => k = Any /\ tr_max tr = T_any)).
      - intros e He. exact (goods_in _ _ Gc He).
      - destruct (Z.ltb_spec (ev_type key) (tr_min tr)); cbn [negb]; [apply none_part; auto|apply scan_part, HP].
      - apply any_part.
      - intros k Gk H1 [H2 _]. exact (HA k Gk H1 H2).
      - intros k Gk. reflexivity.
    Qed.
    Lemma greater_part cls key tr (P : EV -> Prop) : good key ->
      (forall k, good k -> visited cls k = true <-> P k) -> (tr_max tr < ev_type key -> forall k, good k -> ~ P k) ->
      exactly c P (stand (if negb (Z.ltb (tr_max tr) (ev_type key)) then [DScan cls all_keys] else []) c).
    Proof using Gc Sc.
      intros G HP HN. destruct (Z.ltb_spec (tr_max tr) (ev_type key)); cbn [negb]; [apply none_part; auto|apply scan_part, HP].
    Qed.

    Lemma lt_type a b : good a -> good b -> value_lt a b -> ev_type a <= ev_type b.
    Proof using. intros Ga Gb H. apply lmt_type_le; auto. apply lmt_spec; [apply Ga|apply Gb|exact H]. Qed.

    Lemma stand_exactly w key tr : key_allowed w key -> tr_validate tr = true -> exactly c (wanted (w, key, tr)) (stand (descents (w, key, tr)) c).
    Proof using Gc Sc.
      intros K TR. pose proof K as [G N]. apply tr_validate_iff in TR as (T1 & T2 & T3).
      assert (NotAny : key <> Any -> forall k, value_lt k key \/ same_value key k -> good k -> k <> Any).
      { intros NA k H Gk ->. destruct H as [H|H].
        - apply lmt_spec in H; [|apply Gk|apply G]. rewrite lmt_any_greatest in H by exact G. discriminate.
        - destruct H as [H _]. apply NA, any_of_type; auto. }
      destruct w; unfold wanted, in_relation; unfold descents.
      - destruct (Z.eq_dec (ev_type key) T_any) as [E|E].
        + apply any_of_type in E; [|exact G]. subst key. change (GeneralDataTypes (ev_type Any)) with false. change (AnyDataType (ev_type Any)) with true. cbn [orb].
          eapply exactly_weaken; [|apply (scan_part (cls_iterate tr) (in_types tr)); intros; apply visited_iterate].
          intros k Gk. unfold in_types in *. split; [tauto|]. intros [[H _]|[-> H]]; [exact H|]. change (ev_type Any) with T_any.
          unfold known_tag, T_any in *. lia.
        + assert (GT : GeneralDataTypes (ev_type key) = true).
          { apply general_range. pose proof (well_typed_tag _ _ (proj1 G)) as Kt. unfold known_tag, T_any in *. lia. }
          rewrite GT. rewrite stand_app.
          apply (exactly_app c _ _ (fun k => in_types tr key /\ same_value key k) (fun k => k = Any /\ tr_max tr = T_any)).
          * intros e He. exact (goods_in _ _ Gc He).
          * destruct (negb (ev_type key <? tr_min tr) && negb (tr_max tr <? ev_type key)) eqn:EI.
            -- eapply exactly_weaken; [|apply (match_part key G)]. intros k Gk. unfold in_types. split; [|tauto]. intros H. split; [lia|exact H].
            -- apply none_part. intros k Gk [H _]. unfold in_types in H. lia.
          * apply any_part.
          * intros k Gk [_ [H _]] [-> _]. apply E. exact H.
          * intros k Gk. assert (NA : key <> Any) by (intros ->; apply E; reflexivity). unfold in_types. split.
            -- intros [[H1 [H2|H2]]|H]; [contradiction| |right; exact H]. left. split; [|exact H2]. destruct H2 as [H2 _]. lia.
            -- intros [[H1 H2]|H]; [left|right; exact H]. split; [destruct H2 as [H2 _]; lia|right; exact H2].
      - unfold stand. cbn [map concat ents]. rewrite app_nil_r.
        apply (exactly_of_perm c _ (fun e => vb (cls_iterate tr) e && other_key key (fst e)) _ Sc (Permutation_refl _)).
        intros e He. pose proof (goods_in _ _ Gc He) as Ge. rewrite andb_true_iff.
        rewrite (visited_iterate tr (fst e) : vb (cls_iterate tr) e = true <-> _). unfold other_key.
        pose proof (eqk_same key c e G Gc He) as Q. unfold eqk in Q. rewrite andb_comm in Q. rewrite negb_true_iff.
        destruct (negb (lmt key (fst e)) && negb (lmt (fst e) key)); intuition discriminate.
      - pose proof (not_any_string _ G N). apply (less_part (cls_lt key tr) key tr (fun k => tr_min tr <= ev_type k /\ value_lt k key)); auto.
        + apply visited_lt, G.
        + intros Lt k Gk [H1 H2]. apply lt_type in H2; auto. lia.
        + intros k Gk [_ H2]. apply (NotAny N k (or_introl H2) Gk).
      - pose proof (not_any_string _ G N). apply (less_part (cls_le key tr) key tr (fun k => tr_min tr <= ev_type k /\ (value_lt k key \/ same_value key k))); auto.
        + apply visited_le, G.
        + intros Lt k Gk [H1 [H2|[H2 _]]]; [apply lt_type in H2; auto|]; lia.
        + intros k Gk [_ H2]. apply (NotAny N k H2 Gk).
      - apply (greater_part (cls_gt key tr) key tr); auto.
        + apply visited_gt, G.
        + intros Lt k Gk [H1 H2]. apply lt_type in H2; auto. lia.
      - apply (greater_part (cls_ge key tr) key tr); auto.
        + apply visited_ge, G.
        + intros Lt k Gk [H1 [H2|[H2 _]]]; [apply lt_type in H2; auto|]; lia.
    Qed.

    Lemma wants_stand ds : Forall descent_ok ds -> Forall2 (fun x y => same_value (fst x) (fst y) /\ snd x = snd y) (wants ds c) (stand ds c).
    Proof using Gc Sc.
      induction 1 as [|d ds Ok H IH]; [constructor|]. unfold wants, stand. cbn [map concat]. apply Forall2_app; [|exact IH].
      assert (Rf : forall l : list entry, (forall e, In e l -> good (fst e)) -> Forall2 (fun x y => same_value (fst x) (fst y) /\ snd x = snd y) l l).
      { induction l as [|e l IHl]; intros Hl; constructor; [|apply IHl; intros; apply Hl; right; assumption].
        split; [|reflexivity]. apply lmt_total; try (apply Hl; left; reflexivity); apply lmt_irrefl. }
      destruct d as [cls keep|key]; cbn [tgtM ents].
      - apply Rf. intros e He. apply filter_In in He as [He _]. exact (goods_in _ _ Gc He).
      - assert (Hk : forall e, In e (filter (eqk key) c) -> same_value key (fst e)).
        { intros e He. apply filter_In in He as [H1 H2]. apply (eqk_same key c e Ok Gc H1). exact H2. }
        revert Hk. generalize (filter (eqk key) c) as l. induction l as [|e l IHl]; intros Hk; constructor.
        + split; [apply Hk; left; reflexivity|reflexivity].
        + apply IHl. intros x Hx. apply Hk. right. exact Hx.
    Qed.
  End C.

  Lemma sees_wants q (m c l : list entry) : goods c -> sorted c -> Permutation m c ->
    (let '(w, key, tr) := q in key_allowed w key /\ tr_validate tr = true) -> Permutation l (wants (descents q) m) -> sees q m l.
  Proof.
    intros G S Pm K Pl. assert (Ok : Forall descent_ok (descents q)) by (apply descents_ok; destruct q as [[w key] tr]; apply K).
    rewrite (wants_perm _ _ _ Pm) in Pl. destruct (perm_forall2 _ _ _ Pl _ (wants_stand c G S _ Ok)) as (l' & Pl' & F).
    exists l'. split; [|exact F]. destruct q as [[w key] tr]. destruct K as [K TR]. destruct (stand_exactly c G S w key tr K TR) as [ND H].
    split; [eapply Permutation_NoDup; [symmetry; exact Pl'|exact ND]|]. intros k v. split.
    - intros Hin. eapply Permutation_in in Hin; [|exact Pl']. apply H in Hin as [H1 H2]. split; [|exact H2]. eapply Permutation_in; [symmetry; exact Pm|exact H1].
    - intros [H1 H2]. eapply Permutation_in; [symmetry; exact Pl'|]. apply H. split; [|exact H2]. eapply Permutation_in; [exact Pm|exact H1].
  Qed.
End Sees.
