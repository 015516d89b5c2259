(** Proofs about the limiter: matching, the invariant of histories. *)
From Coq Require Import Permutation SpecFloat.
From Verif Require Import Datatypes SpecValues DatatypesProofs PropLemmasValues Collections SpecCollections CollectionsProofs Query SpecQuery QueryProofs
  Assoc SpecAssoc AssocMaps AssocProofs AssocQueryProofs AssocOps AssocMatchProofs PropLemmasAssoc OneToMany SpecOneToMany OneToManyProofs
  Limiter SpecLimiter.
Local Open Scope Z_scope.

(** ** Counter key-values *)
Lemma counter_kv_iff kv : kv_arg kv -> counter_kv kv <-> kv_validate kv MinDataType MaxWithoutAnyDataType = true.
Proof.
  intros HA. unfold counter_kv. rewrite kv_validate_iff. unfold kv_valid. split.
  - intros (_ & (NE & V) & NA). split; [exact NE|]. intros k v HI. specialize (V k v HI). split; [exact V|].
    pose proof (well_typed_tag _ _ V) as K. unfold known_tag in K. unfold MinDataType, MaxWithoutAnyDataType, T_uint8, T_string.
    destruct K as [K | K]; [lia|]. exfalso. apply (NA k v HI). destruct v as [t p]. cbn in *. subst t. inversion V. reflexivity.
  - intros [NE V]. split; [exact HA|]. split; [split; [exact NE|]; intros k v HI; apply (V k v HI)|].
    intros k v HI ->. destruct (V k Any HI) as [_ H]. unfold MinDataType, MaxWithoutAnyDataType, T_uint8, T_string in H. cbn in H. unfold T_any in H. lia.
Qed.
Lemma counter_valid kv : counter_kv kv -> kv_validate kv MinDataType MaxDataType = true.
Proof. intros (_ & V & _). apply kv_valid_iff. exact V. Qed.
Lemma counter_rep kv : counter_kv kv -> kv_rep kv /\ kv <> [].
Proof. intros C. apply validate_rep; [apply C|apply counter_valid; exact C]. Qed.
Lemma type_any v : well_typed (ev_type v) (ev_data v) -> ev_type v = T_any <-> v = Any.
Proof. destruct v as [t p]. cbn. intros V. split; [intros ->; inversion V; reflexivity|intros [= -> ->]; reflexivity]. Qed.

(** ** Matching with Any *)
Lemma in_any_match kv k mv : In (k, mv) (mq_kvs (AnyMatchQuery kv)) <-> exists v, In (k, v) kv /\ mv = mkMV v (mkTR (ev_type v) T_any).
Proof.
  unfold AnyMatchQuery. cbn [mq_kvs]. rewrite in_map_iff. split.
  - intros ([k' v] & [= <- <-] & HI). eauto.
  - intros (v & HI & ->). exists (k, v). auto.
Qed.
Lemma any_match_ok kv : kv_rep kv -> kv <> [] -> mq_validate (AnyMatchQuery kv) = true /\ match_arg (AnyMatchQuery kv) /\
  ~ (exists b, mq_max (AnyMatchQuery kv) = Some b /\ b <> -1 /\ b < match mq_min (AnyMatchQuery kv) with Some a => a | None => 0 end)%Z.
Proof.
  intros [ND G] NE. split; [|split].
  - unfold mq_validate. destruct (mq_kvs (AnyMatchQuery kv)) as [|x l] eqn:E; [destruct kv; [contradiction|discriminate]|]. rewrite <- E. clear E x l.
    apply forallb_forall. intros [k mv] HI. apply in_any_match in HI as (v & HI & ->). cbn [snd mv_tr mv_value]. destruct (G k v HI) as [WT _].
    pose proof (well_typed_tag _ _ WT) as K. unfold known_tag in K. apply andb_true_iff. split.
    + apply tr_validate_iff. cbn [tr_min tr_max]. unfold known_tag, T_any. lia.
    + apply validate_iff. split; [exact WT|]. unfold MinDataType, MaxDataType, T_uint8, T_any. lia.
  - split; [unfold AnyMatchQuery; cbn [mq_kvs]; rewrite map_map; cbn [fst]; exact ND|].
    intros k mv HI. apply in_any_match in HI as (v & HI & ->). apply (G k v HI).
  - intros (b & E & _). discriminate.
Qed.
Lemma any_match_covers kv g : counter_kv kv -> kv_rep g -> match_holds (AnyMatchQuery kv) g <-> covers g kv.
Proof.
  intros C R. destruct (counter_rep kv C) as [[ND G] _]. destruct C as (_ & _ & NA). unfold match_holds, covers, size_holds. cbn [mq_min mq_max AnyMatchQuery].
  split.
  - intros [_ H] k m E. destruct (H k m E) as (mv & HI & HT & HE). apply in_any_match in HI as (v & HI & ->). cbn [mv_tr mv_value] in *.
    exists v. split; [apply In_kv_get; auto|]. destruct HE as [-> | [-> | HE]]; auto. exfalso. eapply NA; eauto.
  - intros H. split; [split; intros ? [=]|]. intros k m E. destruct (H k m E) as (v & EV & HM). apply kv_get_In in EV. exists (mkMV v (mkTR (ev_type v) T_any)).
    split; [apply in_any_match; eauto|]. cbn [mv_tr mv_value]. unfold type_permitted, equal_values. cbn [tr_min tr_max].
    destruct (kv_get_good g k m R E) as [WT _]. pose proof (well_typed_tag _ _ WT) as K. destruct (G k v EV) as [WV _]. pose proof (well_typed_tag _ _ WV) as KV. unfold known_tag, T_any in *.
    destruct HM as [-> | [ET HS]]; [split; [cbn; unfold T_any; lia|auto]|]. split; [rewrite ET; lia|]. right; right. split; assumption.
Qed.

(** ** The invariant *)
Record linv (s : limiter) (used : list string) : Prop := {
  li_rules : exists u, areach (l_rules s) u /\ incl u used;
  li_over : exists u, oreach (l_over s) u /\ incl u used;
  li_counts : exists u, areach (l_counts s) u /\ incl u used;
  li_limit : forall i, In i (a_items (l_rules s)) -> -1 <= it_val i < 2 ^ 63;
  li_olimit : forall o i, In i (belongings (l_over s) o) -> -1 <= m_val i < 2 ^ 63;
  li_owner : forall o i, In i (belongings (l_over s) o) -> exists r, In r (a_items (l_rules s)) /\ it_id r = o /\ forall k, In k (kv_keys (it_kv r)) -> In k (kv_keys (m_kv i));
  li_count : forall i, In i (a_items (l_counts s)) -> counter_kv (it_kv i) /\ int64 (it_val i)
}.

Lemma i64_range z : int64 (i64 z).
Proof. unfold int64, i64. pose proof (Z.mod_pos_bound (z + 2 ^ 63) (2 ^ 64) ltac:(lia)). lia. Qed.
Lemma i64_id z : int64 z -> i64 z = z.
Proof. unfold int64, i64. intros H. rewrite Z.mod_small by lia. lia. Qed.

Lemma find_rule_spec s used id : linv s used -> find_rule s id = Some (find_item (a_items (l_rules s)) id).
Proof.
  intros L. destruct (li_rules s used L) as (u & R & _). destruct (areach_inv _ u R) as [AI U]. unfold find_rule.
  destruct (string_dec id EmptyString) as [-> | NE].
  - destruct (c21_lookup_id (l_rules s) u EmptyString R) as (r & E & HR & _).
    unfold QueryAction. rewrite E. destruct r as [|i r].
    + cbn [iterate]. f_equal. symmetry. apply find_item_none. intros C. apply in_map_iff in C as (i & E1 & HI). destruct (U i HI). contradiction.
    + destruct (proj1 (HR i) (or_introl eq_refl)) as [HI E1]. destruct (U i HI). contradiction.
  - rewrite id_first by auto. reflexivity.
Qed.
Lemma find_override_spec s used rid id : linv s used -> rid <> EmptyString ->
  exists r, find_override s rid id = Some r /\
    match r with
    | Some i => In i (belongings (l_over s) rid) /\ m_id i = id
    | None => forall i, In i (belongings (l_over s) rid) -> m_id i <> id
    end.
Proof.
  intros L NE. destruct (li_over s used L) as (u & R & _). unfold find_override.
  assert (V1 : q_validate (StringToQuery id) = true) by reflexivity.
  assert (NN : query_no_nan (StringToQuery id)) by (apply every_node_Q; split; [intros s0 k v [= <-] []|split; constructor]).
  assert (SI : every_node node_simple (StringToQuery id)) by (apply every_node_Q; split; [split; [left; discriminate|intros s0 [= <-]; left; discriminate]|split; constructor]).
  destruct (c25_query (l_over s) u rid (StringToQuery id) R NE V1 NN (or_intror SI)) as (l & _ & HL & HC).
  rewrite HC. destruct l as [|i l]; cbn [offer]; eexists; (split; [reflexivity|]).
  - intros i HI E. apply (HL i). split; [exact HI|]. apply id_holds. exact E.
  - destruct (proj1 (HL i) (or_introl eq_refl)) as [HI E]. apply id_holds in E. auto.
Qed.

Lemma areach_find t u id (A := Z) : areach t u -> forall i, find_item (A := A) (a_items t) id = Some i <-> In i (a_items t) /\ it_id i = id.
Proof.
  intros R i. destruct (areach_inv t u R) as [AI _]. split.
  - apply find_item_some.
  - intros [HI <-]. apply in_find_item; [apply ainv_nodup; exact AI|exact HI].
Qed.

Lemma linv_mono s u u' : incl u u' -> linv s u -> linv s u'.
Proof.
  intros I [A B C]. constructor; auto.
  - destruct A as (v & H1 & H2). exists v. split; [exact H1|]. intros x Hx. auto.
  - destruct B as (v & H1 & H2). exists v. split; [exact H1|]. intros x Hx. auto.
  - destruct C as (v & H1 & H2). exists v. split; [exact H1|]. intros x Hx. auto.
Qed.

(** *** Steps on rules *)
Lemma rules_update s used i limit : linv s used -> -1 <= limit < 2 ^ 63 ->
  linv (with_rules s (update_value (l_rules s) i (fun _ => limit))) used.
Proof.
  intros L HL. destruct L as [A B C D E F G]. constructor; cbn [with_rules l_rules l_over l_counts]; auto.
  - destruct A as (u & R & I). exists u. split; [apply c21_update; exact R|exact I].
  - intros j Hj. apply in_update_value in Hj as [[Hj _] | (j' & Hj & _ & ->)]; auto.
  - intros o j Hj. destruct (F o j Hj) as (r & HR & ER & K). destruct (string_dec o i) as [-> | N].
    + exists (mkItem i (it_kv r) limit). split; [apply in_update_value; right; exists r; auto|]. auto.
    + exists r. split; [apply in_update_value; left; split; [exact HR|congruence]|]. auto.
Qed.
Lemma rules_create s used kv id limit : linv s used -> kv_arg kv -> ~ In id used -> id <> EmptyString -> -1 <= limit < 2 ^ 63 ->
  linv (with_rules s (fst (Create (l_rules s) kv id (Some limit)))) (id :: used).
Proof.
  intros L HA NU NE HL. assert (L' := L). destruct L as [A B C D E F G]. destruct A as (u & R & I).
  destruct (areach_inv _ u R) as [AI _].
  assert (IT : forall j, In j (a_items (fst (Create (l_rules s) kv id (Some limit)))) <-> In j (a_items (l_rules s)) \/
             (j = mkItem id kv limit /\ kv_valid kv /\ ~ holds_kv (l_rules s) kv)).
  { destruct (c20_create (l_rules s) u kv id (Some limit) R HA (fun X => NU (I _ X))) as (C1 & C2 & C3 & _). intros j.
    destruct (kv_validate kv MinDataType MaxDataType) eqn:V.
    - destruct (validate_rep kv HA V) as [RP NEK]. apply kv_valid_iff in V. destruct (holds_dec _ kv AI RP NEK) as [H | H].
      + destruct (C2 V H) as [_ ->]. tauto.
      + destruct (C3 V H limit eq_refl) as [_ ->]. rewrite in_app_iff. cbn. intuition.
    - apply kv_invalid_iff in V. rewrite (C1 V). cbn. tauto. }
  constructor; cbn [with_rules l_rules l_over l_counts]; auto.
  - exists (id :: u). split; [|intros x [<- | Hx]; [left; reflexivity|right; auto]].
    apply (AR_step (l_rules s) u (ACreate kv id (Some limit))); [exact R|exact HA|]. intros id0 [= <-]. auto.
  - destruct B as (v & H1 & H2). exists v. split; [exact H1|]. intros x Hx. right; auto.
  - destruct C as (v & H1 & H2). exists v. split; [exact H1|]. intros x Hx. right; auto.
  - intros j Hj. apply IT in Hj as [Hj | (-> & _)]; auto.
  - intros o j Hj. destruct (F o j Hj) as (r & HR & ER & K). exists r. split; [apply IT; auto|auto].
Qed.
Lemma rules_destroy s used id : linv s used -> id <> EmptyString ->
  linv (mkLimiter (fst (DestroyByAssociatedID (l_rules s) id (fun _ => true))) (fst (OtmDestroyOne (l_over s) id (fun _ => true))) (l_counts s)) used.
Proof.
  intros L NE. destruct L as [A B C D E F G]. destruct A as (u & R & I). destruct B as (w & RW & IW).
  destruct (c21_destroy_id (l_rules s) u id (fun _ => true) R NE) as [_ IT].
  assert (OB : forall o i, In i (belongings (fst (OtmDestroyOne (l_over s) id (fun _ => true))) o) <-> In i (belongings (l_over s) o) /\ o <> id).
  { intros o i. destruct (string_dec o id) as [-> | N].
    - destruct (c25_destroy_one (l_over s) w id (fun _ => true) RW NE) as (_ & gone & rest & _ & _ & HR & H). rewrite H. destruct rest; [|discriminate].
      cbn. tauto.
    - change (OtmDestroyOne (l_over s) id (fun _ => true)) with (orun (l_over s) (ODestroyOne id (fun _ => true))).
      rewrite (c25_isolated (l_over s) w (ODestroyOne id (fun _ => true)) o RW); [tauto|]. cbn. congruence. }
  constructor; cbn [l_rules l_over l_counts]; auto.
  - exists u. split; [|exact I]. apply (AR_step (l_rules s) u (ADestroyByID id (fun _ => true))); [exact R|constructor|discriminate].
  - exists w. split; [|exact IW]. apply (OR_step (l_over s) w (ODestroyOne id (fun _ => true))); [exact RW|constructor|discriminate].
  - intros j Hj. apply IT in Hj as [Hj _]. auto.
  - intros o j Hj. apply OB in Hj as [Hj _]. eauto.
  - intros o j Hj. apply OB in Hj as [Hj N]. destruct (F o j Hj) as (r & HR & ER & K). exists r. split; [apply IT; split; [exact HR|]; intros [C1 _]; congruence|auto].
Qed.
(** *** Steps on overrides *)
Lemma over_update s used rid id limit : linv s used -> -1 <= limit < 2 ^ 63 -> linv (with_over s (otm_update (l_over s) rid id (fun _ => limit))) used.
Proof.
  intros L HL. destruct L as [A B C D E F G]. destruct B as (w & RW & IW).
  destruct (c25_update (l_over s) w rid id (fun _ => limit) RW) as [RW' IT].
  assert (OTH : forall o, o <> rid -> belongings (otm_update (l_over s) rid id (fun _ => limit)) o = belongings (l_over s) o).
  { intros o N. apply (c25_isolated (l_over s) w (OUpdate rid id (fun _ => limit)) o RW). cbn. congruence. }
  constructor; cbn [with_over l_rules l_over l_counts]; auto.
  - exists w. auto.
  - intros o i Hi. destruct (string_dec o rid) as [-> | N]; [|rewrite OTH in Hi by exact N; eauto].
    apply IT in Hi as [[Hi _] | (j & Hj & _ & ->)]; eauto.
  - intros o i Hi. destruct (string_dec o rid) as [-> | N]; [|rewrite OTH in Hi by exact N; eauto].
    apply IT in Hi as [[Hi _] | (j & Hj & _ & ->)]; eauto. cbn [m_kv]. eauto.
Qed.
Lemma over_destroy s used rid id : linv s used -> rid <> EmptyString -> linv (with_over s (fst (OtmDestroyByID (l_over s) rid id (fun _ => true)))) used.
Proof.
  intros L NR. destruct (string_dec id EmptyString) as [-> | NE].
  { rewrite (proj1 (proj2 (proj2 (c25_refused (l_over s) rid [] EmptyString None (fun _ => true)))) (or_intror eq_refl)). destruct s; exact L. }
  destruct L as [A B C D E F G]. destruct B as (w & RW & IW).
  destruct (c25_destroy_id (l_over s) w rid id (fun _ => true) RW NR NE) as [_ IT].
  assert (OTH : forall o, o <> rid -> belongings (fst (OtmDestroyByID (l_over s) rid id (fun _ => true))) o = belongings (l_over s) o).
  { intros o N. apply (c25_isolated (l_over s) w (ODestroyByID rid id (fun _ => true)) o RW). cbn. congruence. }
  constructor; cbn [with_over l_rules l_over l_counts]; auto.
  - exists w. split; [|exact IW]. apply (OR_step (l_over s) w (ODestroyByID rid id (fun _ => true))); [exact RW|constructor|discriminate].
  - intros o i Hi. destruct (string_dec o rid) as [-> | N]; [|rewrite OTH in Hi by exact N; eauto]. apply IT in Hi as [Hi _]; eauto.
  - intros o i Hi. destruct (string_dec o rid) as [-> | N]; [|rewrite OTH in Hi by exact N; eauto]. apply IT in Hi as [Hi _]; eauto.
Qed.
Lemma over_create s used r kv id limit : linv s used -> kv_arg kv -> ~ In id used -> id <> EmptyString -> -1 <= limit < 2 ^ 63 ->
  In r (a_items (l_rules s)) -> (forall k, In k (kv_keys (it_kv r)) -> In k (kv_keys kv)) ->
  linv (with_over s (fst (OtmCreateOrFind (l_over s) (it_id r) kv id (Some limit)))) (id :: used).
Proof.
  intros L HA NU NE HL HR HK. assert (L' := L). destruct L as [A B C D E F G]. destruct B as (w & RW & IW).
  assert (NR : it_id r <> EmptyString) by (destruct A as (u & RU & _); destruct (areach_inv _ u RU) as [_ U]; apply (U r HR)).
  set (rid := it_id r) in *.
  assert (OTH : forall o, o <> rid -> belongings (fst (OtmCreateOrFind (l_over s) rid kv id (Some limit))) o = belongings (l_over s) o).
  { intros o N. apply (c25_isolated (l_over s) w (OCreateOrFind rid kv id (Some limit)) o RW). cbn. congruence. }
  assert (IT : forall i, In i (belongings (fst (OtmCreateOrFind (l_over s) rid kv id (Some limit))) rid) -> In i (belongings (l_over s) rid) \/ i = mkMany limit rid id kv).
  { intros i Hi. destruct (kv_validate kv MinDataType MaxDataType) eqn:V.
    2: { apply kv_invalid_iff in V. rewrite (proj1 (c25_refused (l_over s) rid kv id (Some limit) (fun _ => true))) in Hi by auto. auto. }
    apply kv_valid_iff in V. destruct (hasReservedKeys kv) eqn:EH.
    { apply reserved_iff in EH. rewrite (proj1 (c25_refused (l_over s) rid kv id (Some limit) (fun _ => true))) in Hi by auto. auto. }
    assert (NRS : ~ reserved kv) by (intros X; apply reserved_iff in X; congruence).
    destruct (c25_create (l_over s) w rid kv id (Some limit) RW HA (fun X => NU (IW _ X)) NR V NRS) as [C1 C2].
    destruct (tree_of_ok (l_over s) w rid RW NR) as [(_ & (u & RU & _) & LB) EB]. destruct (areach_inv _ u RU) as [AI _].
    destruct (validate_rep kv HA (proj1 (kv_valid_iff kv) V)) as [RP NEK].
    destruct (holds_dec (tree_of (l_over s) rid) kv AI RP NEK) as [(it0 & H0 & HS0) | NH].
    - destruct (C1 (it_val it0)) as [_ EQ]; [rewrite EB; apply in_map; exact H0|destruct (LB it0 H0) as (_ & _ & ->); exact HS0|]. rewrite EQ in Hi. auto.
    - destruct C2 as [_ EQ].
      + intros j Hj HS. rewrite EB in Hj. apply in_map_iff in Hj as (it1 & <- & Hj). apply NH. exists it1. split; [exact Hj|]. destruct (LB it1 Hj) as (_ & _ & <-). exact HS.
      + rewrite EQ in Hi. apply in_app_iff in Hi as [Hi | [<- | []]]; auto. }
  constructor; cbn [with_over l_rules l_over l_counts]; auto.
  - destruct A as (u & H1 & H2). exists u. split; [exact H1|]. intros x Hx. right; auto.
  - exists (id :: w). split; [|intros x [<- | Hx]; [left; reflexivity|right; auto]].
    apply (OR_step (l_over s) w (OCreateOrFind rid kv id (Some limit))); [exact RW|exact HA|]. intros id0 [= <-]. auto.
  - destruct C as (u & H1 & H2). exists u. split; [exact H1|]. intros x Hx. right; auto.
  - intros o i Hi. destruct (string_dec o rid) as [-> | N]; [|rewrite OTH in Hi by exact N; eauto]. apply IT in Hi as [Hi | ->]; eauto.
  - intros o i Hi. destruct (string_dec o rid) as [-> | N]; [|rewrite OTH in Hi by exact N; eauto]. apply IT in Hi as [Hi | ->]; eauto.
Qed.
(** *** Steps on counters *)
Lemma counts_replace s used used' t u : linv s used -> incl used used' -> areach t u -> incl u used' ->
  (forall i, In i (a_items t) -> counter_kv (it_kv i) /\ int64 (it_val i)) -> linv (with_counts s t) used'.
Proof.
  intros L I R IU H. apply (linv_mono s used used' I) in L. destruct L as [A B C D E F G]. constructor; cbn [with_counts l_rules l_over l_counts]; auto. exists u; auto.
Qed.
