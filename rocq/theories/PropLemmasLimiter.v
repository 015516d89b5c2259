(** The limiter's properties, proved from the lemmas about its parts. *)
From Coq Require Import Permutation SpecFloat.
From Verif Require Import Datatypes SpecValues DatatypesProofs PropLemmasValues Collections SpecCollections CollectionsProofs Query SpecQuery QueryProofs
  Assoc SpecAssoc AssocMaps AssocProofs AssocQueryProofs AssocOps AssocMatchProofs PropLemmasAssoc OneToMany SpecOneToMany OneToManyProofs
  Limiter SpecLimiter LimiterProofs LimiterCounts LimiterLimits LimiterSums.
Local Open Scope Z_scope.

(** ** C34: counters *)
Lemma count_unique s used kv m m' : lreach s used -> has_count s kv m -> has_count s kv m' -> m = m'.
Proof.
  intros R (id & k1 & H1 & S1) (id' & k2 & H2 & S2). apply lreach_inv in R. destruct (li_counts s used R) as (u & RU & _). destruct (areach_inv _ u RU) as [AI _].
  assert (E : mkItem id k1 m = mkItem id' k2 m') by (eapply item_unique; eauto). congruence.
Qed.
Lemma held_count s u kv o m : areach (l_counts s) u -> held (l_counts s) kv o -> has_count s kv m <-> exists i, o = Some i /\ it_val i = m.
Proof.
  intros R H. destruct (areach_inv _ u R) as [AI _]. split.
  - intros (id & k & HI & HS). destruct o as [i|]; [|exfalso; apply H; exists (mkItem id k m); auto]. exists i. split; [reflexivity|].
    assert (E : i = mkItem id k m) by (eapply item_unique; [exact AI|apply H|exact HI|apply H|exact HS]). subst i. reflexivity.
  - intros (i & -> & <-). destruct i as [a b c]. exists a, b. exact H.
Qed.
Lemma step_count s t' kv o new : counter_step (l_counts s) t' kv o new ->
  forall kv' m, has_count (with_counts s t') kv' m <-> (~ kv_same kv' kv /\ has_count s kv' m) \/ (kv_same kv' kv /\ exists i, new = Some i /\ it_val i = m).
Proof.
  intros S kv' m. unfold has_count. cbn [with_counts l_counts]. split.
  - intros (id & k & HI & HS). apply (step_in _ _ _ _ _ S) in HI as [[HI N] | E].
    + left. split; [|eauto]. intros C. apply N. eapply kv_same_trans; eauto.
    + right. split; [|exists (mkItem id k m); auto]. pose proof (cs_new _ _ _ _ _ S _ E) as X. cbn in X. eapply kv_same_trans; [apply kv_same_sym; exact HS|exact X].
  - intros [[N (id & k & HI & HS)] | [HS (i & E & <-)]].
    + exists id, k. split; [|exact HS]. apply (step_in _ _ _ _ _ S). left. split; [exact HI|]. intros C. apply N. eapply kv_same_trans; [apply kv_same_sym; exact HS|exact C].
    + pose proof (cs_new _ _ _ _ _ S _ E) as X. destruct i as [a b c]. exists a, b. split; [apply (step_in _ _ _ _ _ S); auto|]. eapply kv_same_trans; [exact X|apply kv_same_sym; exact HS].
Qed.
Lemma c34_decrement s used kv n id locked : lreach s used -> counter_kv kv -> n <= 0 ->
  let s' := fst (UpsertCounters s kv n id locked) in
  snd (UpsertCounters s kv n id locked) = LDone /\ l_rules s' = l_rules s /\ l_over s' = l_over s /\
  forall kv' m, has_count s' kv' m <->
    (~ kv_same kv' kv /\ has_count s kv' m) \/ (kv_same kv' kv /\ exists m0, has_count s kv m0 /\ wraps (m0 + n) m /\ 0 < m).
Proof.
  intros R C N. apply lreach_inv in R. destruct (li_counts s used R) as (u & RU & _). unfold UpsertCounters.
  rewrite (proj1 (counter_kv_iff kv (proj1 C)) C). cbn [negb]. replace (0 <? n) with false by (symmetry; apply Z.ltb_ge; exact N).
  destruct (held_ex (l_counts s) u kv RU C) as (o & H). destruct (dec_at s u kv n RU C o H) as (t' & E & R' & S). rewrite E. cbn [fst snd].
  split; [reflexivity|]. split; [reflexivity|]. split; [reflexivity|]. intros kv' m. rewrite (step_count s t' kv o _ S kv' m).
  assert (X : (exists i, dec_result n o = Some i /\ it_val i = m) <-> exists m0, has_count s kv m0 /\ wraps (m0 + n) m /\ 0 < m); [|tauto].
  split.
  - intros (i & E1 & E2). unfold dec_result in E1. destruct o as [j|]; [|discriminate]. destruct (i64 (it_val j + n) <=? 0) eqn:EL; [discriminate|]. injection E1 as <-. cbn in E2.
    exists (it_val j). split; [apply (held_count s u kv (Some j)); eauto|]. rewrite i64_wraps. apply Z.leb_gt in EL. split; [congruence|lia].
  - intros (m0 & HC & HW & HP). apply (held_count s u kv o m0 RU H) in HC as (j & -> & <-). apply i64_wraps in HW. unfold dec_result.
    rewrite <- HW. replace (m <=? 0) with false by (symmetry; apply Z.leb_gt; lia). eexists. split; [reflexivity|reflexivity].
Qed.
Lemma c34_set s used kv n id : lreach s used -> counter_kv kv -> ~ In id used -> id <> EmptyString ->
  let s' := fst (SetCounters s kv n id) in
  snd (SetCounters s kv n id) = LDone /\ l_rules s' = l_rules s /\ l_over s' = l_over s /\
  forall kv' m, has_count s' kv' m <-> (~ kv_same kv' kv /\ has_count s kv' m) \/ (kv_same kv' kv /\ 0 < n /\ m = n).
Proof.
  intros R C NU NE. apply lreach_inv in R. destruct (li_counts s used R) as (u & RU & I).
  destruct (held_ex (l_counts s) u kv RU C) as (o & H). destruct (set_at s u kv n id RU C (fun X => NU (I _ X)) NE o H) as (t' & u' & E & R' & I' & S). rewrite E. cbn [fst snd].
  split; [reflexivity|]. split; [reflexivity|]. split; [reflexivity|]. intros kv' m. rewrite (step_count s t' kv o _ S kv' m).
  assert (X : (exists i, set_result n id kv o = Some i /\ it_val i = m) <-> 0 < n /\ m = n); [|tauto].
  unfold set_result. destruct (n <=? 0) eqn:EN.
  - apply Z.leb_le in EN. split; [intros (i & [=] & _)|lia].
  - apply Z.leb_gt in EN. split; [intros (i & [= <-] & <-)|intros [_ ->]; eexists; split; [reflexivity|]]; destruct o; cbn; auto; split; auto; lia.
Qed.
Lemma c34_refused s kv n id locked : kv_arg kv -> ~ counter_kv kv ->
  UpsertCounters s kv n id locked = (s, LBad) /\ SetCounters s kv n id = (s, LBad).
Proof.
  intros HA N. unfold UpsertCounters, SetCounters. destruct (kv_validate kv MinDataType MaxWithoutAnyDataType) eqn:E; [|auto]. exfalso. apply N, counter_kv_iff; auto.
Qed.

(** ** C33: the decision and effect of an increment *)
Lemma c33_increment s used kv n id locked : lreach s used -> counts_fit s -> counter_kv kv -> 0 < n -> ~ In id used -> id <> EmptyString ->
  let s' := fst (UpsertCounters s kv n id locked) in
  let a := snd (UpsertCounters s kv n id locked) in
  (a = LDone \/ a = LConflict \/ (locked = false /\ a = LFailed /\ exists g limit, governs s kv g limit /\ limit <> -1)) /\
  (a <> LFailed -> a = LConflict <-> exists g limit total, governs s kv g limit /\ limit <> -1 /\ group_total s g kv total /\ limit <= total) /\
  (a <> LDone -> s' = s) /\
  (a = LDone -> l_rules s' = l_rules s /\ l_over s' = l_over s /\
     forall kv' m, has_count s' kv' m <-> (~ kv_same kv' kv /\ has_count s kv' m) \/
       (kv_same kv' kv /\ ((exists m0, has_count s kv m0 /\ wraps (m0 + n) m) \/ ((forall m0, ~ has_count s kv m0) /\ m = n)))).
Proof.
  intros R CF C N NU NE. apply lreach_inv in R. destruct (li_counts s used R) as (u & RU & I). unfold UpsertCounters.
  rewrite (proj1 (counter_kv_iff kv (proj1 C)) C). cbn [negb]. replace (0 <? n) with true by (symmetry; apply Z.ltb_lt; exact N).
  unfold IncrementCounters.
  assert (RCH : reached s kv <-> exists g limit total, governs s kv g limit /\ limit <> -1 /\ group_total s g kv total /\ limit <= total).
  { unfold reached. split.
    - intros (g & limit & H1 & H2 & H3). exists g, limit, (gsum (l_counts s) g kv). split; [exact H1|]. split; [exact H2|]. split; [|exact H3].
      apply (group_total_iff s used); auto. apply counter_rep. exact C.
    - intros (g & limit & total & H1 & H2 & H3 & H4). exists g, limit. apply (group_total_iff s used) in H3; [subst total; auto|auto|apply counter_rep; exact C]. }
  rewrite <- RCH. clear RCH.
  destruct (decide_spec s used kv locked R CF C) as [[-> H] | [[-> H] | (EL & -> & H)]].
  - cbn. split; [auto|]. split; [tauto|]. split; [auto|discriminate].
  - destruct (held_ex (l_counts s) u kv RU C) as (o & HO). destruct (inc_at (l_counts s) u kv n id RU C (fun X => NU (I _ X)) NE o HO) as (t' & u' & new & E & R' & I' & S & V1 & V2 & V3).
    rewrite E. cbn [fst snd]. split; [auto|]. split; [intros _; split; [discriminate|tauto]|]. split; [congruence|]. intros _. split; [reflexivity|]. split; [reflexivity|].
    intros kv' m. rewrite (step_count s t' kv o _ S kv' m).
    assert (X : (exists i, Some new = Some i /\ it_val i = m) <-> (exists m0, has_count s kv m0 /\ wraps (m0 + n) m) \/ ((forall m0, ~ has_count s kv m0) /\ m = n)); [|tauto].
    assert (HC : forall m0, has_count s kv m0 <-> exists i, o = Some i /\ it_val i = m0) by (intros; eapply held_count; eauto).
    split.
    + intros (i & [= <-] & <-). destruct o as [j|]; [left; exists (it_val j); split; [apply HC; eauto|apply i64_wraps; exact V2]|right; split; [|exact V2]].
      intros m0 X. apply HC in X as (i & [=] & _).
    + intros [(m0 & X & W) | [X ->]].
      * apply HC in X as (j & -> & <-). apply i64_wraps in W. exists new. split; [reflexivity|congruence].
      * destruct o as [j|]; [exfalso; apply (X (it_val j)), HC; eauto|]. exists new. auto.
  - cbn. split; [auto|]. split; [intros X; contradiction|]. split; [auto|discriminate].
Qed.

(** ** C32: a group stays within its limit *)
Lemma gsum_perm t t' g kv : Permutation (a_items t) (a_items t') -> gsum t g kv = gsum t' g kv.
Proof. intros P. apply sum_perm, filter_perm, P. Qed.
Definition part (g kv : KeyValues) (o : option (item Z)) : Z :=
  match o with Some i => if in_groupb (kv_keys g) kv (it_kv i) then it_val i else 0 | None => 0 end.
Lemma gsum_opt g kv o rest : sum_of (filter (fun i => in_groupb (kv_keys g) kv (it_kv i)) (opt o ++ rest)) =
  part g kv o + sum_of (filter (fun i => in_groupb (kv_keys g) kv (it_kv i)) rest).
Proof.
  destruct o as [i|]; cbn [opt app filter part]; [|lia]. destruct (in_groupb (kv_keys g) kv (it_kv i)); [|lia]. unfold sum_of. cbn [map fold_right]. lia.
Qed.
Lemma gsum_step t t' kv' o new g kv : counter_step t t' kv' o new -> gsum t' g kv - part g kv new = gsum t g kv - part g kv o.
Proof.
  intros [(rest & P & P' & _) _ _]. unfold gsum. rewrite (sum_perm _ _ (filter_perm _ _ _ P)), (sum_perm _ _ (filter_perm _ _ _ P')), !gsum_opt. lia.
Qed.
Lemma part_out g kv kv' o : kv_rep kv -> (forall i, o = Some i -> kv_rep (it_kv i) /\ kv_same (it_kv i) kv') -> ~ in_group g kv kv' -> part g kv o = 0.
Proof.
  intros R H N. destruct o as [i|]; [|reflexivity]. destruct (H i eq_refl) as [Ri S]. cbn. destruct (in_groupb (kv_keys g) kv (it_kv i)) eqn:E; [|reflexivity].
  exfalso. apply N. apply in_groupb_iff in E; auto. eapply in_group_same; eauto.
Qed.
Lemma group_run_reach g kv limit most s used : group_run g kv limit most s used -> lreach s used.
Proof. induction 1; [assumption|]. apply LR_step; auto. Qed.
(** the group may be named by any of its members *)
Lemma in_group_sym g kv kv' : in_group g kv kv' -> in_group g kv' kv.
Proof. intros H k Hk. destruct (H k Hk) as (v & v' & E & E' & S). exists v', v. split; [exact E'|]. split; [exact E|]. apply same_value_sym. exact S. Qed.
Lemma in_group_trans g kv kv' kv'' : in_group g kv kv' -> in_group g kv' kv'' -> in_group g kv kv''.
Proof.
  intros H H' k Hk. destruct (H k Hk) as (v & v' & E & E' & S). destruct (H' k Hk) as (w & w' & F & F' & S'). rewrite E' in F. injection F as <-.
  exists v, w'. split; [exact E|]. split; [exact F'|]. eapply same_value_trans; eauto.
Qed.
Lemma gsum_same s used g kv kv' : linv s used -> kv_rep kv -> kv_rep kv' -> in_group g kv kv' -> gsum (l_counts s) g kv' = gsum (l_counts s) g kv.
Proof.
  intros L R R' H. apply (group_total_iff s used); auto. destruct (proj2 (group_total_iff s used g kv' _ L R') eq_refl) as (l & ND & HL & E).
  exists l. split; [exact ND|]. split; [|exact E]. intros i. rewrite HL. split; intros [H1 H2]; (split; [exact H1|]); eapply in_group_trans; eauto using in_group_sym.
Qed.

Lemma part_in g kv kv' i : kv_rep kv -> kv_rep (it_kv i) -> kv_same (it_kv i) kv' -> in_group g kv kv' -> part g kv (Some i) = it_val i.
Proof.
  intros R Ri S G. cbn. replace (in_groupb (kv_keys g) kv (it_kv i)) with true; [reflexivity|]. symmetry. apply in_groupb_iff; auto. eapply in_group_same; [|exact G]. apply kv_same_sym. exact S.
Qed.
Lemma part_bounds s used u g kv kv' o : linv s used -> areach (l_counts s) u -> kv_rep kv -> held (l_counts s) kv' o ->
  (forall i, In i (a_items (l_counts s)) -> in_group g kv (it_kv i) -> 0 < it_val i) -> 0 <= part g kv o <= gsum (l_counts s) g kv.
Proof.
  intros L RU R H P. pose proof (step_refl _ u kv' o RU H) as [(rest & P1 & _ & _) _ _]. 
  assert (IFF : forall i, In i (a_items (l_counts s)) -> in_groupb (kv_keys g) kv (it_kv i) = true -> 0 < it_val i).
  { intros i Hi E. apply P; [exact Hi|]. apply in_groupb_iff in E; auto. apply counter_rep. apply (li_count s used L i Hi). }
  unfold gsum. rewrite (sum_perm _ _ (filter_perm _ _ _ P1)), gsum_opt.
  assert (0 <= sum_of (filter (fun i => in_groupb (kv_keys g) kv (it_kv i)) rest)).
  { apply sum_nonneg. intros i Hi. apply filter_In in Hi as [Hi E]. apply IFF; [|exact E]. eapply Permutation_in; [symmetry; exact P1|apply in_or_app; auto]. }
  assert (0 <= part g kv o); [|lia]. destruct o as [i|]; cbn; [|lia]. destruct (in_groupb _ _ _) eqn:E; [|lia]. pose proof (IFF i (proj1 H) E). lia.
Qed.

Definition group_ok (g kv : KeyValues) (bound : Z) (s : limiter) : Prop :=
  (forall i, In i (a_items (l_counts s)) -> in_group g kv (it_kv i) -> 0 < it_val i) /\ gsum (l_counts s) g kv <= bound.
Lemma group_ok_other g kv bound s used t' kv' o new : linv s used -> kv_rep kv -> group_ok g kv bound s -> held (l_counts s) kv' o ->
  counter_step (l_counts s) t' kv' o new -> (forall i, new = Some i -> kv_rep (it_kv i)) ->
  (~ in_group g kv kv' \/ forall i, new = Some i -> 0 < it_val i) ->
  gsum (l_counts s) g kv - part g kv o + part g kv new <= bound -> group_ok g kv bound (with_counts s t').
Proof.
  intros L R [P B] H S RN K HB. split; cbn [with_counts l_counts].
  - intros i Hi G. apply (step_in _ _ _ _ _ S) in Hi as [[Hi _] | ->]; [auto|]. destruct K as [K | K]; [|auto]. exfalso. apply K. eapply in_group_same; [|exact G]. apply (cs_new _ _ _ _ _ S). reflexivity.
  - pose proof (gsum_step _ _ _ _ _ g kv S). lia.
Qed.
Lemma counts_same s s' : l_counts s' = l_counts s -> forall g kv bound, group_ok g kv bound s -> group_ok g kv bound s'.
Proof. intros E g kv bound [A B]. split; rewrite E; auto. Qed.

Lemma group_dec g kv kv' : kv_rep kv -> kv_rep kv' -> in_group g kv kv' \/ ~ in_group g kv kv'.
Proof. intros R R'. destruct (in_groupb (kv_keys g) kv kv') eqn:EG; [left; apply in_groupb_iff; auto|right; intros X; apply (in_groupb_iff g) in X; auto; congruence]. Qed.
Lemma held_rep s used kv' o : linv s used -> held (l_counts s) kv' o -> forall i, o = Some i -> kv_rep (it_kv i) /\ kv_same (it_kv i) kv'.
Proof. intros L HO i ->. split; [apply counter_rep; apply (li_count s used L i); apply HO|apply HO]. Qed.
(** adding to a counter of the group *)
Lemma add_ok g kv limit most s used kv' n id : kv_rep kv -> 0 < most -> limit + most <= 2 ^ 63 -> linv s used -> group_ok g kv (limit + most - 1) s ->
  counter_kv kv' -> int64 n -> 0 < n <= most -> ~ In id used -> id <> EmptyString -> in_group g kv kv' -> gsum (l_counts s) g kv < limit ->
  snd (add_count (l_counts s) kv' n id) = LDone /\ group_ok g kv (limit + most - 1) (with_counts s (fst (add_count (l_counts s) kv' n id))).
Proof.
  intros R HM HLM L IH V HN [EN NM] NU NE G LT. destruct (li_counts s used L) as (u & RU & I). destruct (held_ex (l_counts s) u kv' RU V) as (o & HO). destruct (counter_rep kv' V) as [RK _].
  pose proof (held_rep s used kv' o L HO) as PO.
  destruct (inc_at (l_counts s) u kv' n id RU V (fun X => NU (I _ X)) NE o HO) as (t' & u' & new & E & R' & I' & S & V1 & V2 & V3). rewrite E. cbn [fst snd]. split; [reflexivity|].
  assert (RN : kv_rep (it_kv new)) by (rewrite V1; destruct o as [i|]; [apply PO; reflexivity|exact RK]).
  assert (NEW : part g kv (Some new) = it_val new) by (apply (part_in g kv kv'); auto; apply (cs_new _ _ _ _ _ S); reflexivity).
  assert (OLD : 0 <= part g kv o <= gsum (l_counts s) g kv) by (eapply part_bounds; eauto; apply IH).
  assert (VAL : it_val new = part g kv o + n).
  { rewrite V2. destruct o as [i|]; [|cbn; lia]. destruct (PO i eq_refl) as [P1 P2]. rewrite (part_in g kv kv' i R P1 P2 G) in OLD |- *.
    apply i64_id. unfold int64. lia. }
  eapply group_ok_other; eauto.
  - intros i [= <-]. exact RN.
  - right. intros i [= <-]. lia.
  - lia.
Qed.
(** adding to another counter *)
Lemma add_out g kv bound s used kv' n id : kv_rep kv -> linv s used -> group_ok g kv bound s -> counter_kv kv' -> ~ In id used -> id <> EmptyString -> ~ in_group g kv kv' ->
  group_ok g kv bound (with_counts s (fst (add_count (l_counts s) kv' n id))).
Proof.
  intros R L IH V NU NE G. destruct (li_counts s used L) as (u & RU & I). destruct (held_ex (l_counts s) u kv' RU V) as (o & HO). destruct (counter_rep kv' V) as [RK _].
  pose proof (held_rep s used kv' o L HO) as PO.
  destruct (inc_at (l_counts s) u kv' n id RU V (fun X => NU (I _ X)) NE o HO) as (t' & u' & new & E & R' & I' & S & V1 & V2 & V3). rewrite E. cbn [fst].
  assert (RN : kv_rep (it_kv new)) by (rewrite V1; destruct o as [i|]; [apply PO; reflexivity|exact RK]).
  eapply group_ok_other; eauto.
  - intros i [= <-]. exact RN.
  - rewrite (part_out g kv kv' o R PO G), (part_out g kv kv' (Some new) R); [destruct IH; lia| |exact G].
    intros i [= <-]. split; [exact RN|]. apply (cs_new _ _ _ _ _ S). reflexivity.
Qed.
(** requests that do not raise the group's counters *)
Lemma quiet_step g kv bound s used x : kv_rep kv -> linv s used -> group_ok g kv bound s -> lop_arg x ->
  (forall id, lop_id x = Some id -> ~ In id used /\ id <> EmptyString) ->
  (forall kv' n id locked, x = LUpsert kv' n id locked -> 0 < n -> ~ in_group g kv kv') ->
  (forall kv' n id, x = LSet kv' n id -> ~ in_group g kv kv') -> group_ok g kv bound (fst (lrun s x)).
Proof.
  intros R L IH HA HID HI HS. destruct (li_counts s used L) as (u & RU & I).
  destruct x as [kv' id li|id li|id|rid kv' id li|rid id li|rid id|kv' n id locked|kv' n id]; cbn [lrun lop_id lop_arg] in *.
  + eapply counts_same; [|exact IH]. unfold CreateRule. destruct (negb _); [reflexivity|]. destruct (Create _ _ _ _). reflexivity.
  + eapply counts_same; [|exact IH]. unfold UpdateRule. destruct (_ <? _); [reflexivity|]. destruct (find_rule s id) as [[]|]; reflexivity.
  + eapply counts_same; [|exact IH]. unfold DeleteRule. destruct (DestroyByAssociatedID _ _ _) as [t []]; try reflexivity. destruct (find_item _ _); reflexivity.
  + eapply counts_same; [|exact IH]. unfold CreateOverride. destruct (negb _); [reflexivity|]. destruct (find_rule s rid) as [[]|]; try reflexivity. destruct (forallb _ _); [|reflexivity]. destruct (OtmCreateOrFind _ _ _ _ _). reflexivity.
  + eapply counts_same; [|exact IH]. unfold UpdateOverride. destruct (_ <? _); [reflexivity|]. destruct (find_rule s rid) as [[]|]; try reflexivity. destruct (find_override s rid id) as [[]|]; reflexivity.
  + eapply counts_same; [|exact IH]. unfold DeleteOverride. destruct (find_rule s rid) as [[]|]; try reflexivity. destruct (OtmDestroyByID _ _ _ _). reflexivity.
  + destruct HA as [HA HN]. destruct (HID id eq_refl) as [NU NE]. unfold UpsertCounters. destruct (kv_validate kv' MinDataType MaxWithoutAnyDataType) eqn:V; cbn [negb]; [|exact IH].
    apply (counter_kv_iff kv' HA) in V. destruct (held_ex (l_counts s) u kv' RU V) as (o & HO). destruct (counter_rep kv' V) as [RK _].
    pose proof (held_rep s used kv' o L HO) as PO. destruct (0 <? n) eqn:EN.
    * apply Z.ltb_lt in EN. unfold IncrementCounters. destruct (decide s kv' locked); try exact IH.
      pose proof (add_out g kv bound s used kv' n id R L IH V NU NE (HI kv' n id locked eq_refl EN)) as AO. destruct (add_count (l_counts s) kv' n id). exact AO.
    * apply Z.ltb_ge in EN. destruct (dec_at s u kv' n RU V o HO) as (t' & E & R' & S). rewrite E. cbn [fst].
      assert (RN : forall i, dec_result n o = Some i -> kv_rep (it_kv i)).
      { unfold dec_result. intros i. destruct o as [j|]; [|discriminate]. destruct (_ <=? _); [discriminate|]. intros [= <-]. apply (PO j eq_refl). }
      eapply group_ok_other; eauto.
      { right. unfold dec_result. intros i. destruct o as [j|]; [|discriminate]. destruct (_ <=? _) eqn:EL; [discriminate|]. intros [= <-]. apply Z.leb_gt in EL. exact EL. }
      destruct (group_dec g kv kv' R RK) as [G | G].
      { assert (OLD : 0 <= part g kv o <= gsum (l_counts s) g kv) by (eapply part_bounds; eauto; apply IH).
        assert (part g kv (dec_result n o) <= part g kv o); [|destruct IH; lia]. unfold dec_result in *. destruct o as [j|]; [|cbn; lia].
        destruct (PO j eq_refl) as [P1 P2]. rewrite (part_in g kv kv' j R P1 P2 G) in *.
        destruct (i64 (it_val j + n) <=? 0) eqn:EL; [exact (proj1 OLD)|]. apply Z.leb_gt in EL.
        rewrite (part_in g kv kv' (mkItem (it_id j) (it_kv j) (i64 (it_val j + n)))); auto. cbn [it_val].
        pose proof (proj2 (li_count s used L j (proj1 HO))) as J. unfold int64 in J, HN. rewrite i64_id in * by (unfold int64; lia). lia. }
      { rewrite (part_out g kv kv' o R PO G), (part_out g kv kv' (dec_result n o) R); [destruct IH; lia| |exact G].
        intros i Ei. split; [apply RN; exact Ei|]. apply (cs_new _ _ _ _ _ S). exact Ei. }
  + destruct HA as [HA HN]. destruct (HID id eq_refl) as [NU NE]. specialize (HS kv' n id eq_refl). destruct (kv_validate kv' MinDataType MaxWithoutAnyDataType) eqn:V.
    2: { unfold SetCounters. rewrite V. exact IH. }
    apply (counter_kv_iff kv' HA) in V. destruct (held_ex (l_counts s) u kv' RU V) as (o & HO). destruct (counter_rep kv' V) as [RK _].
    pose proof (held_rep s used kv' o L HO) as PO.
    destruct (set_at s u kv' n id RU V (fun X => NU (I _ X)) NE o HO) as (t' & u' & E & R' & I' & S). rewrite E. cbn [fst].
    assert (RN : forall i, set_result n id kv' o = Some i -> kv_rep (it_kv i)).
    { unfold set_result. intros i. destruct (n <=? 0); [discriminate|]. intros [= <-]. destruct o as [j|]; [apply (PO j eq_refl)|exact RK]. }
    eapply group_ok_other; eauto.
    rewrite (part_out g kv kv' o R PO HS), (part_out g kv kv' (set_result n id kv' o) R); [destruct IH; lia| |exact HS].
    intros i Ei. split; [apply RN; exact Ei|]. apply (cs_new _ _ _ _ _ S). exact Ei.
Qed.

Lemma group_run_ok g kv limit most s used : kv_rep kv -> 0 <= limit -> 0 < most -> limit + most <= 2 ^ 63 ->
  group_run g kv limit most s used -> group_ok g kv (limit + most - 1) s.
Proof.
  intros R HL0 HM HLM. induction 1 as [s used RS P T|s used x RUN IH HA HID HI HS].
  - split; [exact P|]. apply T. apply (group_total_iff s used); auto. apply lreach_inv. exact RS.
  - assert (L : linv s used) by (apply lreach_inv; eapply group_run_reach; eauto).
    assert (Q : (forall kv' n id locked, x = LUpsert kv' n id locked -> 0 < n -> ~ in_group g kv kv') -> group_ok g kv (limit + most - 1) (fst (lrun s x))).
    { intros Q. eapply quiet_step; eauto. }
    destruct x as [kv' id li|id li|id|rid kv' id li|rid id li|rid id|kv' n id locked|kv' n id]; try (apply Q; intros; discriminate).
    cbn [lrun lop_id lop_arg] in *. destruct HA as [HA HN]. destruct (HID id eq_refl) as [NU NE].
    destruct (kv_validate kv' MinDataType MaxWithoutAnyDataType) eqn:V; [|unfold UpsertCounters; rewrite V; exact IH].
    apply (counter_kv_iff kv' HA) in V. destruct (counter_rep kv' V) as [RK _]. destruct (group_dec g kv kv' R RK) as [G | G].
    2: { apply Q. intros kv0 n0 id0 l0 [= <- <- <- <-] _. exact G. }
    destruct (0 <? n) eqn:EN.
    2: { apply Z.ltb_ge in EN. apply Q. intros kv0 n0 id0 l0 [= <- <- <- <-] X. lia. }
    unfold UpsertCounters. rewrite (proj1 (counter_kv_iff kv' HA) V). cbn [negb]. rewrite EN. apply Z.ltb_lt in EN. unfold IncrementCounters.
    destruct (HI kv' n id locked eq_refl G) as [NM GV]. destruct (GV EN) as [GOV CF].
    destruct (decide_spec s used kv' locked L CF V) as [[-> _] | [[-> NR] | (_ & -> & _)]]; try exact IH.
    assert (LT : gsum (l_counts s) g kv < limit).
    { rewrite <- (gsum_same s used g kv kv' L R RK G). apply Z.nle_gt. intros C. apply NR. exists g, limit. split; [exact GOV|]. split; [lia|exact C]. }
    destruct (add_ok g kv limit most s used kv' n id R HM HLM L IH V HN (conj EN NM) NU NE G LT) as [_ AO]. destruct (add_count (l_counts s) kv' n id). exact AO.
Qed.
Lemma c32_bulk g kv limit most s used : counter_kv kv -> 0 <= limit -> 0 < most -> limit + most <= 2 ^ 63 ->
  group_run g kv limit most s used -> forall total, group_total s g kv total -> 0 <= total <= limit + most - 1.
Proof.
  intros C L0 M LM RUN total T. destruct (counter_rep kv C) as [R _]. pose proof (lreach_inv s used (group_run_reach _ _ _ _ _ _ RUN)) as L. apply (group_total_iff s used) in T; auto. subst total.
  destruct (group_run_ok g kv limit most s used R L0 M LM RUN) as [P B]. split; [|exact B]. apply sum_nonneg. intros i Hi. apply filter_In in Hi as [Hi G].
  apply P; [exact Hi|]. apply in_groupb_iff in G; auto. apply counter_rep. apply (li_count s used L i Hi).
Qed.
