(** What the calls of the limiter do to the counters of willow. *)
From Coq Require Import String List Bool Arith NArith ZArith Lia Permutation.
Import ListNotations.
From Verif Require Import Datatypes SpecValues DatatypesProofs PropLemmasValues Collections Query SpecQuery Assoc SpecAssoc AssocMaps AssocProofs AssocOps OneToMany SpecOneToMany OneToManyProofs
  Limiter SpecLimiter LimiterProofs LimiterCounts LimiterLimits LimiterSums PropLemmasLimiter PropLemmasRules PropLemmasUnit Channel SpecChannel Willow SpecWillow WillowMaps.
Local Open Scope Z_scope.

(** ** A limiter whose counters are positive and sum up to at most k *)
Record sound (k : Z) (s : limiter) (u : list string) : Prop := { so_reach : lreach s u; so_ok : group_ok [] [] k s }.
Lemma rep_nil : kv_rep [].
Proof. split; [constructor|intros k v []]. Qed.
Lemma sound_fit k s u : sound k s u -> k < 2 ^ 63 -> counts_fit s.
Proof. intros [R O] LT. eapply group_nil; eauto; [apply rep_nil|apply lreach_inv; exact R]. Qed.
Lemma gsum_nil t : gsum t [] [] = sum_of (a_items t).
Proof. unfold gsum. f_equal. induction (a_items t) as [|x r IH]; cbn; [reflexivity|]. f_equal. exact IH. Qed.
Lemma sound_iff k s u : sound k s u <-> lreach s u /\ (forall i, In i (a_items (l_counts s)) -> 0 < it_val i) /\ sum_of (a_items (l_counts s)) <= k.
Proof.
  split.
  - intros [R [P B]]. rewrite gsum_nil in B. split; [exact R|]. split; [intros i Hi; apply P; [exact Hi|apply in_nil]|exact B].
  - intros (R & P & B). split; [exact R|]. split; [auto|]. rewrite gsum_nil. exact B.
Qed.
Lemma sound_more k k' s u : sound k s u -> k <= k' -> sound k' s u.
Proof. intros [R [P B]] H. split; [exact R|]. split; [exact P|lia]. Qed.
Definition lcost (x : lop) : Z := match x with LUpsert _ n _ _ | LSet _ n _ => Z.max 0 n | _ => 0 end.
Lemma lcost_pos x : 0 <= lcost x.
Proof. destruct x; cbn; lia. Qed.
Definition with_id (x : lop) (u : list string) : list string := match lop_id x with Some id => id :: u | None => u end.
Lemma sound_run k s u x : sound k s u -> lop_arg x -> (forall id, lop_id x = Some id -> ~ In id u /\ id <> EmptyString) -> k + lcost x < 2 ^ 63 ->
  sound (k + lcost x) (fst (lrun s x)) (with_id x u).
Proof.
  intros [R O] HA HID LT. split; [apply LR_step; auto|]. assert (L : linv s u) by (apply lreach_inv; exact R). pose proof (lcost_pos x) as CP. pose proof rep_nil as RN.
  assert (OK1 : group_ok [] [] (k + lcost x) s) by (destruct O as [O1 O2]; split; [exact O1|lia]).
  assert (Q : (forall kv' n id locked, x = LUpsert kv' n id locked -> 0 < n -> ~ in_group [] [] kv') -> (forall kv' n id, x = LSet kv' n id -> ~ in_group [] [] kv') -> group_ok [] [] (k + lcost x) (fst (lrun s x))).
  { intros Q1 Q2. eapply quiet_step; eauto. }
  destruct x as [kv' id li|id li|id|rid kv' id li|rid id li|rid id|kv' n id locked|kv' n id]; try (apply Q; intros; discriminate).
  - destruct (0 <? n) eqn:EN.
    2: { apply Z.ltb_ge in EN. apply Q; [|discriminate]. intros kv0 n0 id0 l0 [= <- <- <- <-] X. lia. }
    cbn [lrun lop_id lop_arg lcost] in *. destruct HA as [HA HN]. destruct (HID id eq_refl) as [NU NE].
    destruct (kv_validate kv' MinDataType MaxWithoutAnyDataType) eqn:V; [|unfold UpsertCounters; rewrite V; exact OK1].
    apply (counter_kv_iff kv' HA) in V. unfold UpsertCounters. rewrite (proj1 (counter_kv_iff kv' HA) V). cbn [negb]. rewrite EN. apply Z.ltb_lt in EN. unfold IncrementCounters.
    destruct (decide s kv' locked); try exact OK1.
    assert (OK2 : group_ok [] [] (k + 1 + n - 1) s) by (destruct O as [OKa OKb]; split; [exact OKa|lia]).
    destruct (add_ok [] [] (k + 1) n s u kv' n id RN ltac:(lia) ltac:(lia) L OK2 V HN ltac:(lia) NU NE (in_nil _ _)) as [_ AO]; [destruct O; lia|].
    destruct (add_count (l_counts s) kv' n id). cbn [fst] in *. destruct AO as [A1 A2]. split; [exact A1|lia].
  - cbn [lrun lop_id lop_arg lcost] in *. destruct HA as [HA HN]. destruct (HID id eq_refl) as [NU NE].
    destruct (kv_validate kv' MinDataType MaxWithoutAnyDataType) eqn:V; [|unfold SetCounters; rewrite V; exact OK1].
    apply (counter_kv_iff kv' HA) in V. destruct (li_counts s u L) as (u0 & RU & I). destruct (held_ex (l_counts s) u0 kv' RU V) as (o & HO).
    destruct (set_at s u0 kv' n id RU V (fun X => NU (I _ X)) NE o HO) as (t' & u' & E & R' & I' & S). rewrite E. cbn [fst].
    pose proof (held_rep s u kv' o L HO) as PO. destruct (counter_rep kv' V) as [RK _].
    assert (PB : 0 <= part [] [] o <= gsum (l_counts s) [] []) by (eapply part_bounds; eauto; apply O).
    assert (RES : forall i, set_result n id kv' o = Some i -> kv_rep (it_kv i) /\ it_val i = n /\ 0 < n).
    { intros i. unfold set_result. destruct (n <=? 0) eqn:EN; [discriminate|]. apply Z.leb_gt in EN. intros [= <-]. destruct o as [j|]; cbn; [|auto]. split; [apply (PO j eq_refl)|auto]. }
    eapply group_ok_other; eauto.
    + intros i Hi. apply (RES i Hi).
    + right. intros i Hi. destruct (RES i Hi) as (_ & -> & P). exact P.
    + destruct O as [_ O]. assert (part [] [] (set_result n id kv' o) <= Z.max 0 n); [|lia]. unfold part. destruct (set_result n id kv' o) as [i|] eqn:ES; [|lia].
      destruct (RES i eq_refl) as (_ & -> & P). destruct (in_groupb _ _ _); lia.
Qed.

(** ** The value of a counter *)
Lemma count_of_held s used kv o : linv s used -> counter_kv kv -> LimiterCounts.held (l_counts s) kv o ->
  count_of s kv = match o with Some i => Z.to_nat (it_val i) | None => O end.
Proof.
  intros L C H. unfold count_of. destruct (counter_rep kv C) as [RK _]. destruct (li_counts s used L) as (u & RU & _). destruct (areach_inv _ u RU) as [AI _].
  assert (REP : forall i, In i (a_items (l_counts s)) -> kv_rep (it_kv i)) by (intros i Hi; apply counter_rep, (li_count s used L i Hi)).
  destruct (find _ _) as [j|] eqn:F.
  - apply find_some in F as [Hj E]. apply kv_sameb_iff in E; auto. apply kv_same_sym in E. destruct o as [i|]; [|exfalso; apply H; exists j; auto].
    destruct H as [Hi S]. assert (j = i) by (eapply item_unique; eauto). subst j. reflexivity.
  - destruct o as [i|]; [|reflexivity]. destruct H as [Hi S]. exfalso. apply (find_none _ _ F) in Hi as E. apply Bool.not_true_iff_false in E. apply E. apply kv_sameb_iff; auto. apply kv_same_sym. exact S.
Qed.
Lemma count_of_frame s s' used used' kv kv' o new t' : linv s used -> linv s' used' -> l_counts s' = t' -> counter_kv kv -> counter_kv kv' -> LimiterCounts.held (l_counts s) kv o ->
  counter_step (l_counts s) t' kv o new -> ~ kv_same kv' kv -> count_of s' kv' = count_of s kv'.
Proof.
  intros L L' <- C C' H S N. destruct (li_counts s used L) as (u & RU & _). destruct (li_counts s' used' L') as (u' & RU' & _).
  destruct (held_ex (l_counts s) u kv' RU C') as (o' & HO). rewrite (count_of_held s used kv' o' L C' HO). apply (count_of_held s' used' kv' o' L' C').
  pose proof (step_in _ _ _ _ _ S) as SI. destruct o' as [i|]; cbn in *.
  - destruct HO as [Hi HS]. split; [|exact HS]. apply SI. left. split; [exact Hi|]. intros X. apply N. eapply kv_same_trans; [apply kv_same_sym; exact HS|exact X].
  - intros (i & Hi & HS). apply SI in Hi as [[Hi _] | ->]; [apply HO; exists i; auto|]. apply N. eapply kv_same_trans; [apply kv_same_sym; exact HS|]. apply (cs_new _ _ _ _ _ S). reflexivity.
Qed.
Lemma count_of_same s used kv kv' : linv s used -> counter_kv kv -> counter_kv kv' -> kv_same kv kv' -> count_of s kv = count_of s kv'.
Proof.
  intros L C C' S. destruct (li_counts s used L) as (u & RU & _). destruct (held_ex (l_counts s) u kv RU C) as (o & HO).
  rewrite (count_of_held s used kv o L C HO). symmetry. apply (count_of_held s used kv' o L C'). destruct o as [i|]; cbn in *.
  - split; [apply HO|]. eapply kv_same_trans; [apply HO|exact S].
  - intros (i & Hi & HS). apply HO. exists i. split; [exact Hi|]. eapply kv_same_trans; [exact HS|apply kv_same_sym; exact S].
Qed.

(** One counter changes to n *)
Record changes (s s' : limiter) (kv : KeyValues) (n : nat) : Prop := {
  ch_rules : l_rules s' = l_rules s; ch_over : l_over s' = l_over s;
  ch_this : count_of s' kv = n;
  ch_other : forall kv', counter_kv kv' -> ~ kv_same kv' kv -> count_of s' kv' = count_of s kv';
  ch_in : forall g q, kv_rep q -> in_group g q kv -> gsum (l_counts s') g q = gsum (l_counts s) g q + Z.of_nat n - Z.of_nat (count_of s kv);
  ch_out : forall g q, kv_rep q -> ~ in_group g q kv -> gsum (l_counts s') g q = gsum (l_counts s) g q }.
(** the sums, once the counter's values are known *)
Lemma part_count s u kv o g q : linv s u -> (forall i, In i (a_items (l_counts s)) -> 0 < it_val i) -> counter_kv kv -> LimiterCounts.held (l_counts s) kv o ->
  kv_rep q -> in_group g q kv -> part g q o = Z.of_nat (count_of s kv).
Proof.
  intros L P C H RQ G. rewrite (count_of_held s u kv o L C H). destruct o as [i|]; [|reflexivity]. pose proof (held_rep s u kv (Some i) L H i eq_refl) as [R S].
  rewrite (part_in g q kv i RQ R S G). pose proof (P i (proj1 H)). lia.
Qed.
Lemma sums_step s s' u u' kv o new : linv s u -> linv s' u' -> (forall i, In i (a_items (l_counts s)) -> 0 < it_val i) -> (forall i, In i (a_items (l_counts s')) -> 0 < it_val i) ->
  counter_kv kv -> LimiterCounts.held (l_counts s) kv o -> counter_step (l_counts s) (l_counts s') kv o new ->
  (forall g q, kv_rep q -> in_group g q kv -> gsum (l_counts s') g q = gsum (l_counts s) g q + Z.of_nat (count_of s' kv) - Z.of_nat (count_of s kv)) /\
  (forall g q, kv_rep q -> ~ in_group g q kv -> gsum (l_counts s') g q = gsum (l_counts s) g q).
Proof.
  intros L L' P P' C H S. pose proof (step_held _ _ _ _ _ S) as H'. split; intros g q RQ G; pose proof (gsum_step _ _ _ _ _ g q S) as E.
  - rewrite (part_count s u kv o g q L P C H RQ G), (part_count s' u' kv new g q L' P' C H' RQ G) in E. lia.
  - rewrite (part_out g q kv o RQ (held_rep s u kv o L H) G), (part_out g q kv new RQ (held_rep s' u' kv new L' H') G) in E. lia.
Qed.

Lemma upsert_id kv n id l u : with_id (LUpsert kv n id l) u = id :: u.
Proof. reflexivity. Qed.
Lemma inc_effect k s u kv id locked : sound k s u -> k + 1 < 2 ^ 63 -> counter_kv kv -> ~ In id u -> id <> EmptyString ->
  let s' := fst (UpsertCounters s kv 1 id locked) in let a := snd (UpsertCounters s kv 1 id locked) in
  sound (k + 1) s' (id :: u) /\ (a <> LDone -> s' = s) /\
  (a = LDone -> changes s s' kv (Datatypes.S (count_of s kv)) /\
     forall g limit total, governs s kv g limit -> limit <> -1 -> group_total s g kv total -> total < limit).
Proof.
  intros SO LT C NU NE. cbv zeta. assert (FIT : counts_fit s) by (eapply sound_fit; eauto; lia). pose proof (so_reach _ _ _ SO) as R. pose proof (lreach_inv s u R) as L.
  assert (SO' : sound (k + 1) (fst (UpsertCounters s kv 1 id locked)) (id :: u)).
  { apply (sound_run k s u (LUpsert kv 1 id locked)); auto; [split; [apply C|unfold int64; lia]|intros i [= <-]; auto]. }
  split; [exact SO'|]. pose proof (lreach_inv _ _ (so_reach _ _ _ SO')) as L'.
  destruct (c33_increment s u kv 1 id locked R FIT C ltac:(lia) NU NE) as (_ & CONF & SAME & _). cbv zeta in *. split; [exact SAME|].
  intros A. rewrite A in *. split.
  2: { intros g limit total G NL T. destruct (Z_lt_ge_dec total limit) as [|GE]; [assumption|]. exfalso. assert (LDone = LConflict); [|discriminate]. apply CONF; [discriminate|]. exists g, limit, total. repeat split; auto. lia. }
  clear CONF SAME. destruct (li_counts s u L) as (u0 & RU & I). destruct (held_ex (l_counts s) u0 kv RU C) as (o & HO).
  revert A L'. assert (PN := proj1 (proj2 (proj1 (sound_iff _ _ _) SO'))). revert PN. unfold UpsertCounters. rewrite (proj1 (counter_kv_iff kv (proj1 C)) C). cbn [negb]. change (0 <? 1) with true. cbv iota. unfold IncrementCounters.
  destruct (decide s kv locked); try discriminate.
  destruct (inc_at (l_counts s) u0 kv 1 id RU C (fun X => NU (I _ X)) NE o HO) as (t' & u' & new & E & R' & I' & S & V1 & V2 & V3). rewrite E. cbn [fst snd]. intros PN _ L'.
  cut (count_of (with_counts s t') kv = Datatypes.S (count_of s kv)).
  { intros TH. destruct (sums_step s (with_counts s t') u _ kv o (Some new) L L' (proj1 (proj2 (proj1 (sound_iff _ _ _) SO))) PN C HO S) as [SI SU].
    constructor; try reflexivity; auto.
    - intros kv' C' N. eapply (count_of_frame s (with_counts s t') u _ kv kv' o (Some new) t'); eauto.
    - intros g q RQ G. rewrite (SI g q RQ G), TH. reflexivity. }
  rewrite (count_of_held _ _ kv (Some new) L' C); [|eapply step_held; eauto]. rewrite (count_of_held s u kv o L C HO), V2. destruct o as [i|]; [|reflexivity].
    destruct (proj1 (sound_iff k s u) SO) as (_ & P & B). pose proof (P i (proj1 HO)) as PI.
    assert (it_val i <= sum_of (a_items (l_counts s))).
    { destruct HO as [Hi _]. apply in_split in Hi as (l1 & l2 & EI). rewrite EI in P |- *. rewrite sum_app. change (sum_of (i :: l2)) with (it_val i + sum_of l2).
      assert (0 <= sum_of l1 /\ 0 <= sum_of l2); [|lia]. split; apply sum_nonneg; intros j Hj; apply P; apply in_or_app; [left|right; right]; assumption. }
    rewrite i64_id by (unfold int64; lia). lia.
Qed.
Lemma dec_effect k s u kv id locked : sound k s u -> k < 2 ^ 63 -> counter_kv kv -> ~ In id u -> id <> EmptyString ->
  let s' := fst (UpsertCounters s kv (-1) id locked) in
  snd (UpsertCounters s kv (-1) id locked) = LDone /\ sound k s' (id :: u) /\ changes s s' kv (pred (count_of s kv)).
Proof.
  intros SO LT C NU NE. cbv zeta. pose proof (so_reach _ _ _ SO) as R. pose proof (lreach_inv s u R) as L.
  assert (SO' : sound k (fst (UpsertCounters s kv (-1) id locked)) (id :: u)).
  { replace k with (k + lcost (LUpsert kv (-1) id locked)) by (cbn; lia). apply (sound_run k s u (LUpsert kv (-1) id locked)); auto; [split; [apply C|unfold int64; lia]|intros i [= <-]; auto|cbn; lia]. }
  pose proof (lreach_inv _ _ (so_reach _ _ _ SO')) as L'. revert SO' L'. destruct (li_counts s u L) as (u0 & RU & I). destruct (held_ex (l_counts s) u0 kv RU C) as (o & HO).
  unfold UpsertCounters. rewrite (proj1 (counter_kv_iff kv (proj1 C)) C). cbn [negb]. change (0 <? -1) with false. cbv iota.
  destruct (dec_at s u0 kv (-1) RU C o HO) as (t' & E & R' & S). rewrite E. cbn [fst snd]. intros SO' L'. split; [reflexivity|]. split; [exact SO'|].
  cut (count_of (with_counts s t') kv = pred (count_of s kv)).
  { intros TH. destruct (sums_step s (with_counts s t') u _ kv o _ L L' (proj1 (proj2 (proj1 (sound_iff _ _ _) SO))) (proj1 (proj2 (proj1 (sound_iff _ _ _) SO'))) C HO S) as [SI SU].
    constructor; try reflexivity; auto.
    - intros kv' C' N. eapply (count_of_frame s (with_counts s t') u _ kv kv' o _ t'); eauto.
    - intros g q RQ G. rewrite (SI g q RQ G), TH. reflexivity. }
  rewrite (count_of_held _ _ kv _ L' C (step_held _ _ _ _ _ S)), (count_of_held s u kv o L C HO). destruct o as [i|]; [|reflexivity]. cbn [dec_result].
    destruct (li_count s u L i (proj1 HO)) as [_ IR]. destruct (proj1 (sound_iff k s u) SO) as (_ & P & B). pose proof (P i (proj1 HO)) as PI.
    rewrite i64_id by (unfold int64 in *; lia). destruct (it_val i + -1 <=? 0) eqn:E0; [apply Z.leb_le in E0; lia|]. cbn [it_val]. lia.
Qed.
Lemma zero_effect k s u kv id : sound k s u -> k < 2 ^ 63 -> counter_kv kv -> ~ In id u -> id <> EmptyString ->
  let s' := fst (SetCounters s kv 0 id) in
  snd (SetCounters s kv 0 id) = LDone /\ sound k s' (id :: u) /\ changes s s' kv 0.
Proof.
  intros SO LT C NU NE. cbv zeta. pose proof (so_reach _ _ _ SO) as R. pose proof (lreach_inv s u R) as L.
  assert (SO' : sound k (fst (SetCounters s kv 0 id)) (id :: u)).
  { replace k with (k + lcost (LSet kv 0 id)) by (cbn; lia). apply (sound_run k s u (LSet kv 0 id)); auto; [split; [apply C|unfold int64; lia]|intros i [= <-]; auto|cbn; lia]. }
  pose proof (lreach_inv _ _ (so_reach _ _ _ SO')) as L'. revert SO' L'. destruct (li_counts s u L) as (u0 & RU & I). destruct (held_ex (l_counts s) u0 kv RU C) as (o & HO).
  destruct (set_at s u0 kv 0 id RU C (fun X => NU (I _ X)) NE o HO) as (t' & u' & E & R' & I' & S). rewrite E. cbn [fst snd]. intros SO' L'. split; [reflexivity|]. split; [exact SO'|].
  cut (count_of (with_counts s t') kv = O).
  { intros TH. destruct (sums_step s (with_counts s t') u _ kv o _ L L' (proj1 (proj2 (proj1 (sound_iff _ _ _) SO))) (proj1 (proj2 (proj1 (sound_iff _ _ _) SO'))) C HO S) as [SI SU].
    constructor; try reflexivity; auto.
    - intros kv' C' N. eapply (count_of_frame s (with_counts s t') u _ kv kv' o _ t'); eauto.
    - intros g q RQ G. rewrite (SI g q RQ G), TH. reflexivity. }
  rewrite (count_of_held _ _ kv _ L' C (step_held _ _ _ _ _ S)). reflexivity.
Qed.
