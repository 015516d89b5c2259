(** Rules and overrides. *)
From Coq Require Import Permutation SpecFloat.
From Verif Require Import Datatypes SpecValues DatatypesProofs PropLemmasValues Collections SpecCollections CollectionsProofs Query SpecQuery QueryProofs
  Assoc SpecAssoc AssocMaps AssocProofs AssocQueryProofs AssocOps AssocMatchProofs PropLemmasAssoc OneToMany SpecOneToMany OneToManyProofs
  Limiter SpecLimiter LimiterProofs LimiterCounts LimiterLimits.
Local Open Scope Z_scope.

Lemma definition_iff kv limit : definition_ok kv limit = true <-> kv_valid kv /\ -1 <= limit.
Proof. unfold definition_ok. rewrite andb_true_iff, Z.leb_le, <- kv_valid_iff. reflexivity. Qed.
Lemma definition_no kv limit : ~ (kv_valid kv /\ -1 <= limit) -> definition_ok kv limit = false.
Proof. intros H. destruct (definition_ok kv limit) eqn:E; [|reflexivity]. apply definition_iff in E. contradiction. Qed.

(** ** Uniqueness and consistency *)
Lemma rules_unique s used id kv n id' kv' n' : lreach s used -> has_rule s id kv n -> has_rule s id' kv' n' -> id = id' \/ kv_same kv kv' ->
  id = id' /\ kv = kv' /\ n = n'.
Proof.
  intros R H H' E. apply lreach_inv in R. destruct (li_rules s used R) as (u & RU & _). destruct (areach_inv _ u RU) as [AI _].
  assert (X : mkItem id kv n = mkItem id' kv' n').
  { destruct E as [-> | E].
    - pose proof (in_find_item _ _ (ainv_nodup _ AI) H). pose proof (in_find_item _ _ (ainv_nodup _ AI) H'). cbn in *. congruence.
    - eapply item_unique; [exact AI|exact H|exact H'|exact E|apply kv_same_refl]. }
  injection X as -> -> ->. auto.
Qed.
Lemma overrides_unique s used rid id kv n id' kv' n' : lreach s used -> has_override s rid id kv n -> has_override s rid id' kv' n' -> id = id' \/ kv_same kv kv' ->
  id = id' /\ kv = kv' /\ n = n'.
Proof.
  intros R H H' E. apply lreach_inv in R. destruct (li_over s used R) as (w & RW & _).
  assert (X : mkMany n rid id kv = mkMany n' rid id' kv') by (apply (belongings_unique (l_over s) w rid); auto). injection X as -> -> ->. auto.
Qed.
Lemma consistent s used rid id kv n : lreach s used -> has_override s rid id kv n ->
  exists rkv rn, has_rule s rid rkv rn /\ forall k, In k (kv_keys rkv) -> In k (kv_keys kv).
Proof.
  intros R H. apply lreach_inv in R. destruct (li_owner s used R _ _ H) as ([a b c] & HR & E & K). cbn in *. subst a. exists b, c. auto.
Qed.
Lemma values_ok s used : lreach s used ->
  (forall id kv n, has_rule s id kv n -> id <> EmptyString /\ kv_valid kv /\ -1 <= n) /\ (forall rid id kv n, has_override s rid id kv n -> kv_valid kv /\ -1 <= n).
Proof.
  intros R. apply lreach_inv in R. split.
  - intros id kv n H. destruct (rule_rep s used _ R H) as ([ND G] & NE & NI). cbn in *. pose proof (li_limit s used R _ H) as L. cbn in L. split; [exact NI|]. split; [|lia].
    split; [exact NE|]. intros k v HI. apply (G k v HI).
  - intros rid id kv n H. destruct (many_rep s used _ _ R H) as ([ND G] & NE). cbn in *. pose proof (li_olimit s used R _ _ H) as L. cbn in L. split; [|lia].
    split; [exact NE|]. intros k v HI. apply (G k v HI).
Qed.

(** ** Requests on rules *)
Lemma create_rule s used kv id n : lreach s used -> kv_arg kv -> ~ In id used ->
  let s' := fst (CreateRule s kv id n) in let a := snd (CreateRule s kv id n) in
  l_over s' = l_over s /\ l_counts s' = l_counts s /\
  (~ (kv_valid kv /\ -1 <= n) -> a = LBad /\ s' = s) /\
  (kv_valid kv /\ -1 <= n -> (exists id' kv' n', has_rule s id' kv' n' /\ kv_same kv' kv) ->
     a = LConflict /\ forall i k m, has_rule s' i k m <-> has_rule s i k m) /\
  (kv_valid kv /\ -1 <= n -> ~ (exists id' kv' n', has_rule s id' kv' n' /\ kv_same kv' kv) ->
     a = LCreated id /\ forall i k m, has_rule s' i k m <-> has_rule s i k m \/ (i = id /\ k = kv /\ m = n)).
Proof.
  intros R HA NU. apply lreach_inv in R. destruct (li_rules s used R) as (u & RU & I).
  assert (HK : (exists id' kv' n', has_rule s id' kv' n' /\ kv_same kv' kv) <-> holds_kv (l_rules s) kv).
  { split; [intros (i & k & m & H & S); exists (mkItem i k m); auto|intros ([i k m] & H & S); exists i, k, m; auto]. }
  cbv zeta. rewrite HK. clear HK. unfold CreateRule. destruct (definition_ok kv n) eqn:D; cbn [negb].
  - apply definition_iff in D as [V N]. destruct (c20_create (l_rules s) u kv id (Some n) RU HA (fun X => NU (I _ X))) as (_ & C2 & C3 & _).
    destruct (Create (l_rules s) kv id (Some n)) as [t r] eqn:E. cbn [fst snd] in *. split; [reflexivity|]. split; [reflexivity|]. split; [tauto|]. split; intros _ H.
    + destruct (C2 V H) as [-> EI]. split; [reflexivity|]. intros i k m. unfold has_rule. cbn. rewrite EI. reflexivity.
    + destruct (C3 V H n eq_refl) as [-> EI]. split; [reflexivity|]. intros i k m. unfold has_rule. cbn. rewrite EI, in_app_iff. cbn. split.
      * intros [X | [[= -> -> ->] | []]]; auto.
      * intros [X | (-> & -> & ->)]; auto.
  - split; [reflexivity|]. split; [reflexivity|]. split; [auto|]. split; intros H; apply definition_iff in H; congruence.
Qed.
Lemma rule_find s used id : linv s used ->
  match find_item (a_items (l_rules s)) id with
  | Some i => it_id i = id /\ has_rule s id (it_kv i) (it_val i)
  | None => forall k m, ~ has_rule s id k m
  end.
Proof.
  intros L. destruct (find_item _ id) as [i|] eqn:E.
  - apply find_item_some in E as [H <-]. split; [reflexivity|]. destruct i; exact H.
  - intros k m H. apply (proj1 (find_item_none _ _) E). apply (in_map it_id) in H. exact H.
Qed.
Lemma update_rule s used id n : lreach s used ->
  let s' := fst (UpdateRule s id n) in let a := snd (UpdateRule s id n) in
  l_over s' = l_over s /\ l_counts s' = l_counts s /\
  (n < -1 -> a = LBad /\ s' = s) /\
  (-1 <= n -> (forall k m, ~ has_rule s id k m) -> a = LMissing /\ s' = s) /\
  (-1 <= n -> forall kv m0, has_rule s id kv m0 ->
     a = LDone /\ forall i k m, has_rule s' i k m <-> (i <> id /\ has_rule s i k m) \/ (i = id /\ k = kv /\ m = n)).
Proof.
  intros R. assert (RR := R). apply lreach_inv in R. cbv zeta. unfold UpdateRule. destruct (n <? -1) eqn:D.
  - apply Z.ltb_lt in D. repeat split; auto; try lia.
  - apply Z.ltb_ge in D. rewrite (find_rule_spec s used id R). pose proof (rule_find s used id R) as F. destruct (find_item (a_items (l_rules s)) id) as [r|].
    + destruct F as [EI H]. cbn [fst snd]. split; [reflexivity|]. split; [reflexivity|]. split; [lia|]. split; [intros _ N; exfalso; eapply N; eauto|].
      intros _ kv m0 H0. destruct (rules_unique s used _ _ _ _ _ _ RR H0 H (or_introl eq_refl)) as (_ & -> & _). split; [reflexivity|]. intros i k m. unfold has_rule. cbn [with_rules l_rules].
      rewrite in_update_value. rewrite EI. split.
      * intros [[H1 H2] | (j & H1 & H2 & [= -> -> ->])]; [left; cbn in H2; auto|right]. split; [reflexivity|]. split; [|reflexivity].
        destruct j as [a b c]. cbn in *. subst a. destruct (rules_unique s used _ _ _ _ _ _ RR H1 H0 (or_introl eq_refl)) as (_ & -> & _). reflexivity.
      * intros [[H1 H2] | (-> & -> & ->)]; [left; auto|right]. eexists. split; [exact H0|]. auto.
    + cbn [fst snd]. split; [reflexivity|]. split; [reflexivity|]. split; [lia|]. split; [auto|]. intros _ kv m0 H. exfalso. eapply F; eauto.
Qed.
Lemma get_rule s used id : lreach s used ->
  (forall kv n, has_rule s id kv n -> GetRule s id = (Some (kv, n), LDone)) /\ ((forall k m, ~ has_rule s id k m) -> GetRule s id = (None, LMissing)).
Proof.
  intros R. assert (RR := R). apply lreach_inv in R. unfold GetRule. rewrite (find_rule_spec s used id R). pose proof (rule_find s used id R) as F. destruct (find_item (a_items (l_rules s)) id) as [r|].
  - destruct F as [EI H]. split; [|intros N; exfalso; eapply N; eauto]. intros kv n H0. destruct (rules_unique s used _ _ _ _ _ _ RR H0 H (or_introl eq_refl)) as (_ & -> & ->). reflexivity.
  - split; [intros kv n H; exfalso; eapply F; eauto|reflexivity].
Qed.
Lemma destroy_over s used id : linv s used -> id <> EmptyString ->
  forall o i, In i (belongings (fst (OtmDestroyOne (l_over s) id (fun _ => true))) o) <-> In i (belongings (l_over s) o) /\ o <> id.
Proof.
  intros L NE o i. destruct (li_over s used L) as (w & RW & _). destruct (string_dec o id) as [-> | N].
  - destruct (c25_destroy_one (l_over s) w id (fun _ => true) RW NE) as (_ & gone & rest & _ & _ & HR & H). rewrite H. destruct rest; [|discriminate]. cbn. tauto.
  - change (OtmDestroyOne (l_over s) id (fun _ => true)) with (orun (l_over s) (ODestroyOne id (fun _ => true))).
    rewrite (c25_isolated (l_over s) w (ODestroyOne id (fun _ => true)) o RW); [tauto|]. cbn. congruence.
Qed.
Lemma delete_rule s used id : lreach s used -> id <> EmptyString ->
  let s' := fst (DeleteRule s id) in let a := snd (DeleteRule s id) in
  l_counts s' = l_counts s /\
  (forall i k m, has_rule s' i k m <-> has_rule s i k m /\ i <> id) /\
  (forall r i k m, has_override s' r i k m <-> has_override s r i k m /\ r <> id) /\
  (a = LDone <-> exists k m, has_rule s id k m) /\ (a = LMissing <-> forall k m, ~ has_rule s id k m).
Proof.
  intros R NE. assert (RR := R). apply lreach_inv in R. destruct (li_rules s used R) as (u & RU & _). destruct (c21_destroy_id (l_rules s) u id (fun _ => true) RU NE) as [E IT].
  pose proof (destroy_over s used id R NE) as OV. pose proof (rule_find s used id R) as F. cbv zeta. unfold DeleteRule.
  destruct (DestroyByAssociatedID (l_rules s) id (fun _ => true)) as [t r]. cbn [fst snd] in *. subst r.
  assert (RU' : forall i k m, In (mkItem i k m) (a_items t) <-> has_rule s i k m /\ i <> id).
  { intros i k m. rewrite IT. cbn. unfold has_rule. intuition. }
  destruct (find_item (a_items (l_rules s)) id) as [r|]; cbn [fst snd].
  - destruct F as [EI H]. split; [reflexivity|]. split; [exact RU'|]. split; [intros; apply OV|]. split; split; intros X; try discriminate; eauto. exfalso. eapply X; eauto.
  - split; [reflexivity|]. split; [exact RU'|]. split.
    + intros r i k m. unfold has_override. cbn. split; [|tauto]. intros X. split; [exact X|]. intros ->. destruct (consistent s used _ _ _ _ RR X) as (rk & rn & HR & _). eapply F; eauto.
    + split; split; intros X; try discriminate; auto. destruct X as (k & m & X). exfalso. eapply F; eauto.
Qed.

(** ** Requests on overrides *)
Lemma other_over s used rid x : linv s used -> owner x = rid -> forall r i, r <> rid -> In i (belongings (fst (orun (l_over s) x)) r) <-> In i (belongings (l_over s) r).
Proof.
  intros L E r i N. destruct (li_over s used L) as (w & RW & _). rewrite (c25_isolated (l_over s) w x r RW) by congruence. reflexivity.
Qed.
Lemma create_override s used rid kv id n : lreach s used -> kv_arg kv -> ~ In id used ->
  let s' := fst (CreateOverride s rid kv id n) in let a := snd (CreateOverride s rid kv id n) in
  l_rules s' = l_rules s /\ l_counts s' = l_counts s /\
  (a <> LCreated id -> forall r i k m, has_override s' r i k m <-> has_override s r i k m) /\
  (~ (kv_valid kv /\ -1 <= n) -> a = LBad) /\
  (kv_valid kv /\ -1 <= n -> (forall rkv rn, ~ has_rule s rid rkv rn) -> a = LMissing) /\
  (kv_valid kv /\ -1 <= n -> forall rkv rn, has_rule s rid rkv rn -> ~ (forall k, In k (kv_keys rkv) -> In k (kv_keys kv)) -> a = LBad) /\
  (kv_valid kv /\ -1 <= n -> forall rkv rn, has_rule s rid rkv rn -> (forall k, In k (kv_keys rkv) -> In k (kv_keys kv)) -> 
     (reserved kv -> a = LFailed) /\
     (~ reserved kv -> (exists i k m, has_override s rid i k m /\ kv_same k kv) -> a = LConflict) /\
     (~ reserved kv -> ~ (exists i k m, has_override s rid i k m /\ kv_same k kv) -> a = LCreated id /\
        forall r i k m, has_override s' r i k m <-> has_override s r i k m \/ (r = rid /\ i = id /\ k = kv /\ m = n))).
Proof.
  intros R HA NU. assert (RR := R). apply lreach_inv in R. destruct (li_over s used R) as (w & RW & IW). cbv zeta. unfold CreateOverride. destruct (definition_ok kv n) eqn:D; cbn [negb].
  2: { split; [reflexivity|]. split; [reflexivity|]. split; [reflexivity|]. split; [auto|]. assert (X : ~ (kv_valid kv /\ -1 <= n)) by (intros X; apply definition_iff in X; congruence). tauto. }
  apply definition_iff in D as [V N]. rewrite (find_rule_spec s used rid R). pose proof (rule_find s used rid R) as F. destruct (find_item (a_items (l_rules s)) rid) as [rule|].
  2: { cbn [fst snd]. split; [reflexivity|]. split; [reflexivity|]. split; [reflexivity|]. split; [tauto|]. split; [reflexivity|]. split; intros _ rkv rn H; exfalso; eapply F; eauto. }
  destruct F as [EI H]. assert (NR : rid <> EmptyString) by (apply (proj1 (values_ok s used RR) _ _ _ H)).
  assert (KEYS : forallb (fun k => match kv_get kv k with Some _ => true | None => false end) (kv_keys (it_kv rule)) = true <-> forall k, In k (kv_keys (it_kv rule)) -> In k (kv_keys kv)).
  { rewrite forallb_forall. split; intros X k Hk; specialize (X k Hk).
    - destruct (kv_get kv k) as [v|] eqn:EG; [|discriminate]. apply kv_get_In in EG. apply (in_map fst) in EG. exact EG.
    - apply in_map_iff in X as ([k' v] & <- & X). cbn [fst]. rewrite (In_kv_get kv k' v (proj1 HA) X). reflexivity. }
  assert (SAME : forall rkv rn, has_rule s rid rkv rn -> rkv = it_kv rule) by (intros rkv rn H0; apply (rules_unique s used _ _ _ _ _ _ RR H0 H (or_introl eq_refl))).
  destruct (forallb _ (kv_keys (it_kv rule))) eqn:FB.
  2: { cbn [fst snd]. split; [reflexivity|]. split; [reflexivity|]. split; [reflexivity|]. split; [tauto|]. split; [intros _ X; exfalso; eapply X; eauto|]. split; [reflexivity|].
       intros _ rkv rn H0 X. rewrite (SAME _ _ H0) in X. apply KEYS in X. discriminate. }
  assert (OTH := other_over s used rid (OCreateOrFind rid kv id (Some n)) R eq_refl). cbn [orun] in OTH.
  assert (RC : hasReservedKeys kv = true \/ hasReservedKeys kv = false) by (destruct (hasReservedKeys kv); auto).
  destruct RC as [RC | RC].
  { apply reserved_iff in RC. rewrite (proj1 (c25_refused (l_over s) rid kv id (Some n) (fun _ => true))) by auto. cbn [fst snd].
    split; [reflexivity|]. split; [reflexivity|]. split; [reflexivity|]. split; [tauto|]. split; [intros _ X; exfalso; eapply X; eauto|]. 
    split; [intros _ rkv rn H0 X; exfalso; apply X; rewrite (SAME _ _ H0); apply KEYS; reflexivity|]. intros _ rkv rn H0 _. split; [reflexivity|]. split; intros X; contradiction. }
  assert (NRS : ~ reserved kv) by (intros X; apply reserved_iff in X; congruence).
  destruct (c25_create (l_over s) w rid kv id (Some n) RW HA (fun X => NU (IW _ X)) NR V NRS) as [C1 C2].
  destruct (OtmCreateOrFind (l_over s) rid kv id (Some n)) as [m r] eqn:E. cbn [fst snd] in *.
  assert (HDEC : (exists i k m, has_override s rid i k m /\ kv_same k kv) \/ ~ (exists i k m, has_override s rid i k m /\ kv_same k kv)).
  { destruct (tree_of_ok (l_over s) w rid RW NR) as [(_ & (u & RU & _) & LB) EB]. destruct (areach_inv _ u RU) as [AI _].
    destruct (validate_rep kv HA (proj1 (kv_valid_iff kv) V)) as [RP NEK]. destruct (holds_dec (tree_of (l_over s) rid) kv AI RP NEK) as [(it0 & H0 & HS0) | NH].
    - left. destruct (LB it0 H0) as (L1 & L2 & L3). exists (it_id it0), (it_kv it0), (m_val (it_val it0)). split; [|exact HS0]. unfold has_override. rewrite EB. apply in_map_iff. exists it0. split; [|exact H0].
      destruct (it_val it0) as [a b c d]. cbn in *. congruence.
    - right. intros (i & k & m0 & HO & HS). unfold has_override in HO. rewrite EB in HO. apply in_map_iff in HO as (it1 & E1 & H1). apply NH. exists it1. split; [exact H1|].
      destruct (LB it1 H1) as (_ & _ & L3). rewrite E1 in L3. cbn in L3. rewrite <- L3. exact HS. }
  destruct HDEC as [(i & k & m0 & HO & HS) | NH].
  - destruct (C1 _ HO HS) as [(it & -> & _) EB]. cbn [fst snd]. split; [reflexivity|]. split; [reflexivity|]. split.
    { intros _ r i' k' m'. unfold has_override. cbn [with_over l_over]. destruct (string_dec r rid) as [-> | NRR]; [rewrite EB; reflexivity|apply OTH; exact NRR]. }
    split; [tauto|]. split; [intros _ X; exfalso; eapply X; eauto|]. split; [intros _ rkv rn H0 X; exfalso; apply X; rewrite (SAME _ _ H0); apply KEYS; reflexivity|].
    intros _ rkv rn H0 _. split; [intros X; contradiction|]. split; [reflexivity|]. intros _ X. exfalso. apply X. eauto.
  - destruct C2 as [-> EB].
    { intros [a b c d] Hj HS. apply NH. destruct (li_over s used R) as (w' & RW' & _). pose proof (belongings_owner _ _ _ _ RW' Hj) as OO. cbn in OO, HS. subst b. exists c, d, a. auto. }
    cbn [fst snd]. split; [reflexivity|]. split; [reflexivity|]. split; [intros X; contradiction|]. 
    split; [tauto|]. split; [intros _ X; exfalso; eapply X; eauto|]. split; [intros _ rkv rn H0 X; exfalso; apply X; rewrite (SAME _ _ H0); apply KEYS; reflexivity|].
    intros _ rkv rn H0 _. split; [intros X; contradiction|]. split; [intros _ X; contradiction|]. intros _ _. split; [reflexivity|]. intros r i k m0. unfold has_override. cbn [with_over l_over].
    destruct (string_dec r rid) as [-> | NRR].
    + rewrite EB, in_app_iff. cbn. split; [intros [X | [[= -> -> ->] | []]]; auto|intros [X | (_ & -> & -> & ->)]; auto].
    + rewrite (OTH r _ NRR). split; [auto|intros [X | (-> & _)]; [exact X|contradiction]].
Qed.
Lemma update_override s used rid id n : lreach s used ->
  let s' := fst (UpdateOverride s rid id n) in let a := snd (UpdateOverride s rid id n) in
  l_rules s' = l_rules s /\ l_counts s' = l_counts s /\
  (n < -1 -> a = LBad /\ s' = s) /\
  (-1 <= n -> (forall k m, ~ has_override s rid id k m) -> a = LMissing /\ s' = s) /\
  (-1 <= n -> forall kv m0, has_override s rid id kv m0 -> a = LDone /\
     forall r i k m, has_override s' r i k m <-> (~ (r = rid /\ i = id) /\ has_override s r i k m) \/ (r = rid /\ i = id /\ k = kv /\ m = n)).
Proof.
  intros R. assert (RR := R). apply lreach_inv in R. cbv zeta. unfold UpdateOverride. destruct (n <? -1) eqn:D.
  { apply Z.ltb_lt in D. repeat split; auto; try lia. }
  apply Z.ltb_ge in D. rewrite (find_rule_spec s used rid R). pose proof (rule_find s used rid R) as F. destruct (find_item (a_items (l_rules s)) rid) as [rule|].
  2: { cbn [fst snd]. split; [reflexivity|]. split; [reflexivity|]. split; [lia|]. split; [auto|]. intros _ kv m0 H. destruct (consistent s used _ _ _ _ RR H) as (rk & rn & HR & _). exfalso. eapply F; eauto. }
  destruct F as [EI H]. assert (NR : rid <> EmptyString) by (apply (proj1 (values_ok s used RR) _ _ _ H)).
  destruct (find_override_spec s used rid id R NR) as (r & -> & HR). destruct (li_over s used R) as (w & RW & IW). destruct r as [[a b c d]|].
  - destruct HR as [HR E]. cbn in E. subst c. cbn [m_id fst snd]. pose proof (belongings_owner _ _ _ _ RW HR) as OO. cbn in OO. subst b.
    split; [reflexivity|]. split; [reflexivity|]. split; [lia|]. split; [intros _ X; exfalso; eapply X; exact HR|]. intros _ kv m0 H0. split; [reflexivity|].
    destruct (c25_update (l_over s) w rid id (fun _ => n) RW) as [_ IT].
    intros r i k m. unfold has_override. cbn [with_over l_over]. destruct (string_dec r rid) as [-> | NRR].
    + rewrite IT. cbn [m_id]. split.
      * intros [[X NX] | (j & HJ & EJ & [= -> -> ->])]; [left; split; [intros [_ C]; contradiction|exact X]|]. right. split; [reflexivity|]. split; [reflexivity|]. split; [|reflexivity].
        pose proof (belongings_owner _ _ _ _ RW HJ) as OJ. destruct j as [a' b' c' d']. cbn in *. subst b' c'. apply (overrides_unique s used _ _ _ _ _ _ _ RR HJ H0 (or_introl eq_refl)).
      * intros [[X NX] | (_ & -> & -> & ->)]; [left; split; [exact NX|intros ->; apply X; auto]|]. right. eexists. split; [exact H0|]. auto.
    + pose proof (other_over s used rid (OUpdate rid id (fun _ => n)) R eq_refl r (mkMany m r i k) NRR) as OTH. cbn [orun fst] in OTH. rewrite OTH. split; [left; split; [intros [C _]; contradiction|assumption]|].
      intros [[_ X] | (-> & _)]; [exact X|contradiction].
  - cbn [fst snd]. split; [reflexivity|]. split; [reflexivity|]. split; [lia|]. split; [auto|]. intros _ kv m0 H0. exfalso. apply (HR _ H0). reflexivity.
Qed.
Lemma get_override s used rid id : lreach s used ->
  (forall kv n, has_override s rid id kv n -> GetOverride s rid id = (Some (kv, n), LDone)) /\ ((forall k m, ~ has_override s rid id k m) -> GetOverride s rid id = (None, LMissing)).
Proof.
  intros R. assert (RR := R). apply lreach_inv in R. unfold GetOverride. rewrite (find_rule_spec s used rid R). pose proof (rule_find s used rid R) as F. destruct (find_item (a_items (l_rules s)) rid) as [rule|].
  2: { split; [|reflexivity]. intros kv m0 H. destruct (consistent s used _ _ _ _ RR H) as (rk & rn & HR & _). exfalso. eapply F; eauto. }
  destruct F as [EI H]. assert (NR : rid <> EmptyString) by (apply (proj1 (values_ok s used RR) _ _ _ H)).
  destruct (find_override_spec s used rid id R NR) as (r & -> & HR). destruct (li_over s used R) as (w & RW & IW). destruct r as [[a b c d]|].
  - destruct HR as [HR E]. cbn in E. subst c. pose proof (belongings_owner _ _ _ _ RW HR) as OO. cbn in OO. subst b. cbn [m_kv m_val]. split; [|intros X; exfalso; eapply X; exact HR].
    intros kv n H0. destruct (overrides_unique s used _ _ _ _ _ _ _ RR H0 HR (or_introl eq_refl)) as (_ & -> & ->). reflexivity.
  - split; [|reflexivity]. intros kv n H0. exfalso. apply (HR _ H0). reflexivity.
Qed.
Lemma delete_override s used rid id : lreach s used -> id <> EmptyString ->
  let s' := fst (DeleteOverride s rid id) in let a := snd (DeleteOverride s rid id) in
  l_rules s' = l_rules s /\ l_counts s' = l_counts s /\
  (forall r i k m, has_override s' r i k m <-> has_override s r i k m /\ ~ (r = rid /\ i = id)) /\
  (a = LDone <-> exists rkv rn, has_rule s rid rkv rn) /\ (a = LMissing <-> forall rkv rn, ~ has_rule s rid rkv rn).
Proof.
  intros R NI. assert (RR := R). apply lreach_inv in R. cbv zeta. unfold DeleteOverride. rewrite (find_rule_spec s used rid R). pose proof (rule_find s used rid R) as F. destruct (find_item (a_items (l_rules s)) rid) as [rule|].
  2: { cbn [fst snd]. split; [reflexivity|]. split; [reflexivity|]. split; [|split; split; intros X; try discriminate; auto; destruct X as (a & b & X); exfalso; eapply F; eauto].
       intros r i k m. split; [|tauto]. intros X. split; [exact X|]. intros [-> _]. destruct (consistent s used _ _ _ _ RR X) as (rk & rn & HR & _). eapply F; eauto. }
  destruct F as [EI H]. assert (NR : rid <> EmptyString) by (apply (proj1 (values_ok s used RR) _ _ _ H)). destruct (li_over s used R) as (w & RW & IW).
  destruct (c25_destroy_id (l_over s) w rid id (fun _ => true) RW NR NI) as [E IT].
  pose proof (other_over s used rid (ODestroyByID rid id (fun _ => true)) R eq_refl) as OTH. cbn [orun] in OTH.
  destruct (OtmDestroyByID (l_over s) rid id (fun _ => true)) as [m r]. cbn [fst snd] in *. subst r. split; [reflexivity|]. split; [reflexivity|]. split.
  - intros r i k m0. unfold has_override. cbn [with_over l_over]. destruct (string_dec r rid) as [-> | NRR]; [rewrite IT; cbn [m_id]; intuition|].
    rewrite (OTH r _ NRR). intuition.
  - split; split; intros X; try discriminate; eauto. exfalso. eapply X; eauto.
Qed.
