(** The theorems of PropertiesAssoc. *)
From Coq Require Import Permutation SpecFloat.
From Verif Require Import Datatypes SpecValues DatatypesProofs PropLemmasValues Collections SpecCollections CollectionsProofs Query SpecQuery QueryProofs
  Assoc SpecAssoc AssocMaps AssocProofs AssocQueryProofs AssocOps AssocMatchProofs.
Local Open Scope nat_scope.

Lemma kv_valid_iff kv : kv_valid kv <-> kv_validate kv MinDataType MaxDataType = true.
Proof.
  rewrite kv_validate_iff. unfold kv_valid. split; intros [H1 H2]; (split; [exact H1|]); intros k v HI; specialize (H2 k v HI).
  - pose proof (well_typed_tag _ _ H2) as K. unfold known_tag in K. split; [exact H2|]. unfold MinDataType, MaxDataType, T_uint8, T_any. lia.
  - apply H2.
Qed.
Lemma kv_invalid_iff kv : ~ kv_valid kv <-> kv_validate kv MinDataType MaxDataType = false.
Proof. rewrite kv_valid_iff. destruct (kv_validate kv MinDataType MaxDataType); split; try congruence; intros H; try reflexivity; contradiction. Qed.

Section P.
  Context {A : Type}.
  Implicit Type t : atree A.

  Lemma c20_unique t used it it' : areach t used -> In it (a_items t) -> In it' (a_items t) -> kv_same (it_kv it) (it_kv it') -> it = it'.
  Proof. intros R H1 H2 HS. destruct (areach_inv t used R) as [AI _]. apply (item_unique t it it' (it_kv it') AI); auto using kv_same_refl. Qed.
  Lemma fresh_id t used id : areach t used -> ~ In id used -> ~ In id (map it_id (a_items t)).
  Proof. intros R N C. destruct (areach_inv t used R) as [_ U]. apply in_map_iff in C as (it & <- & HI). apply N. apply (U it HI). Qed.

  Lemma c20_create t used kv id mk : areach t used -> kv_arg kv -> ~ In id used ->
    (~ kv_valid kv -> Create t kv id mk = (t, RInvalid)) /\
    (kv_valid kv -> holds_kv t kv -> snd (Create t kv id mk) = RExists /\ a_items (fst (Create t kv id mk)) = a_items t) /\
    (kv_valid kv -> ~ holds_kv t kv -> forall a, mk = Some a ->
       snd (Create t kv id mk) = RId id /\ a_items (fst (Create t kv id mk)) = a_items t ++ [mkItem id kv a]) /\
    (kv_valid kv -> ~ holds_kv t kv -> mk = None ->
       snd (Create t kv id mk) = REmpty /\ a_items (fst (Create t kv id mk)) = a_items t).
  Proof.
    intros R HA N. destruct (areach_inv t used R) as [AI _].
    destruct (Create_spec t kv id mk AI HA (fresh_id t used id R N)) as (_ & S2 & S3 & S4).
    rewrite kv_invalid_iff, kv_valid_iff. split; [auto|]. split; [auto|]. split.
    - intros V NH a ->. auto.
    - intros V NH ->. auto.
  Qed.
  Lemma c20_create_or_find t used kv id mk : areach t used -> kv_arg kv -> ~ In id used ->
    (~ kv_valid kv -> CreateOrFind t kv id mk = (t, RInvalid)) /\
    (kv_valid kv -> forall it, In it (a_items t) -> kv_same (it_kv it) kv -> CreateOrFind t kv id mk = (t, RFound it)) /\
    (kv_valid kv -> ~ holds_kv t kv -> forall a, mk = Some a ->
       snd (CreateOrFind t kv id mk) = RId id /\ a_items (fst (CreateOrFind t kv id mk)) = a_items t ++ [mkItem id kv a]) /\
    (kv_valid kv -> ~ holds_kv t kv -> mk = None -> a_items (fst (CreateOrFind t kv id mk)) = a_items t).
  Proof.
    intros R HA N. destruct (areach_inv t used R) as [AI _].
    destruct (CreateOrFind_spec t kv id mk AI HA (fresh_id t used id R N)) as (_ & S2 & S3 & S4).
    rewrite kv_invalid_iff, kv_valid_iff. split; [auto|]. split; [auto|]. split.
    - intros V NH a ->. auto.
    - intros V NH ->. apply S4; auto.
  Qed.

  Lemma c21_delete t used kv can : areach t used -> kv_arg kv -> kv_valid kv ->
    snd (Delete t kv can) = ROk /\
    forall i, In i (a_items (fst (Delete t kv can))) <-> In i (a_items t) /\ ~ (kv_same (it_kv i) kv /\ can i = true).
  Proof.
    intros R HA V. destruct (areach_inv t used R) as [AI _]. apply kv_valid_iff in V. destruct (Delete_spec t kv can AI HA) as (_ & _ & S).
    destruct (S V) as (S1 & S2 & S3). split; [exact S1|]. destruct (validate_rep kv HA V) as [RP NE].
    assert (U : forall a b, In a (a_items t) -> In b (a_items t) -> kv_same (it_kv a) kv -> kv_same (it_kv b) kv -> a = b) by (intros; eapply item_unique; eauto).
    destruct (holds_dec t kv AI RP NE) as [(it0 & H0 & HS0) | NH].
    - destruct (can it0) eqn:EC.
      + rewrite (S2 it0 H0 HS0 EC). intros i. rewrite in_remove_item. split; intros [H1 H2]; (split; [exact H1|]).
        * intros [HS _]. apply H2. f_equal. auto.
        * intros E. apply H2. rewrite (item_eq t i it0 AI H1 H0 E). auto.
      + rewrite S3 by (intros it HI HS; rewrite (U it it0); auto). intros i. split; [|intros [H _]; exact H].
        intros H. split; [exact H|]. intros [HS HC]. rewrite (U i it0) in HC; auto. congruence.
    - rewrite S3 by (intros it HI HS; exfalso; apply NH; exists it; auto). intros i. split; [|intros [H _]; exact H].
      intros H. split; [exact H|]. intros [HS HC]. apply NH. exists i; auto.
  Qed.
  Lemma by_id_set t (t' : atree A) id can : ainv t ->
    (forall it, In it (a_items t) -> it_id it = id -> can it = true -> a_items t' = remove_item (a_items t) id) ->
    ((forall it, In it (a_items t) -> it_id it = id -> can it = false) -> a_items t' = a_items t) ->
    forall i, In i (a_items t') <-> In i (a_items t) /\ ~ (it_id i = id /\ can i = true).
  Proof.
    intros AI S2 S3 i. destruct (find_item (a_items t) id) as [it0|] eqn:EF.
    - apply find_item_some in EF as [H0 E0]. destruct (can it0) eqn:EC.
      + rewrite (S2 it0 H0 E0 EC), in_remove_item. split; intros [H1 H2]; (split; [exact H1|]).
        * intros [HS _]. auto.
        * intros E. apply H2. rewrite (item_eq t i it0 AI H1 H0) by congruence. auto.
      + rewrite S3 by (intros it HI E; rewrite (item_eq t it it0 AI); auto; congruence). split; [|intros [H _]; exact H].
        intros H. split; [exact H|]. intros [E HC]. rewrite (item_eq t i it0 AI) in HC; auto; congruence.
    - apply find_item_none in EF. assert (NI : forall it, In it (a_items t) -> it_id it <> id) by (intros it HI E; apply EF; rewrite <- E; apply in_map; exact HI).
      rewrite S3 by (intros it HI E; exfalso; eapply NI; eauto). split; [|intros [H _]; exact H].
      intros H. split; [exact H|]. intros [E _]. eapply NI; eauto.
  Qed.
  Lemma c21_delete_id t used id can : areach t used -> id <> EmptyString ->
    snd (DeleteByAssociatedID t id can) = ROk /\
    forall i, In i (a_items (fst (DeleteByAssociatedID t id can))) <-> In i (a_items t) /\ ~ (it_id i = id /\ can i = true).
  Proof.
    intros R NE. destruct (areach_inv t used R) as [AI _]. destruct (DeleteByID_spec t id can AI) as (_ & _ & S). destruct (S NE) as (S1 & S2 & S3).
    split; [exact S1|]. apply by_id_set; auto.
  Qed.
  Lemma c21_destroy_id t used id can : areach t used -> id <> EmptyString ->
    snd (DestroyByAssociatedID t id can) = ROk /\
    forall i, In i (a_items (fst (DestroyByAssociatedID t id can))) <-> In i (a_items t) /\ ~ (it_id i = id /\ can i = true).
  Proof.
    intros R NE. destruct (areach_inv t used R) as [AI _]. destruct (DestroyByID_spec t id can AI) as (_ & _ & S). destruct (S NE) as (S1 & S2 & S3).
    split; [exact S1|]. apply by_id_set; auto.
  Qed.
  Lemma c21_destroy_tree t used can : areach t used ->
    snd (DestroyTree t can) = ROk /\
    exists gone rest, a_items t = gone ++ rest /\ (forall i, In i gone -> can i = true) /\
      match rest with [] => True | i :: _ => can i = false end /\
      forall i, In i (a_items (fst (DestroyTree t can))) <-> In i rest.
  Proof.
    intros R. destruct (areach_inv t used R) as [AI _]. pose proof (ainv_nodup t AI) as ND.
    destruct (destroy_items_spec (a_items t) t can AI ND (fun _ H => H)) as (_ & S1 & gone & rest & E & F & HR & S2).
    split; [exact S1|]. exists gone, rest. split; [exact E|]. split; [apply Forall_forall; exact F|]. split; [exact HR|].
    intros i. unfold DestroyTree. rewrite S2, E, in_app_iff. split.
    - intros [[H | H] N]; [contradiction|exact H].
    - intros H. split; [auto|]. intros C. rewrite E, map_app in ND. apply (in_map it_id) in C, H. clear -ND C H.
      induction gone as [|g gone IH]; [destruct C|]. cbn in *. apply NoDup_cons_iff in ND as [N ND]. destruct C as [C | C]; [|auto].
      apply N. apply in_app_iff. right. rewrite C. exact H.
  Qed.
  Lemma c21_update t used id f : areach t used -> areach (update_value t id f) used /\
    forall i, In i (a_items (update_value t id f)) <->
      (In i (a_items t) /\ it_id i <> id) \/ exists j, In j (a_items t) /\ it_id j = id /\ i = mkItem id (it_kv j) (f (it_val j)).
  Proof. intros R. split; [apply (AR_step t used (AUpdate id f)); [exact R|exact I|discriminate]|]. intros i. apply in_update_value. Qed.
  Lemma c21_offered t used kv : areach t used -> kv_arg kv -> kv_valid kv ->
    (forall it, In it (a_items t) -> kv_same (it_kv it) kv -> delete_target t kv = Some it) /\ (~ holds_kv t kv -> delete_target t kv = None).
  Proof. intros R HA V. destruct (areach_inv t used R) as [AI _]. apply kv_valid_iff in V. apply delete_target_spec; assumption. Qed.
  Lemma c21_index t used : areach t used -> (forall id, indexed t id <-> exists it, In it (a_items t) /\ it_id it = id) /\ no_leftovers t /\
    NoDup (map it_id (a_items t)).
  Proof. intros R. destruct (areach_inv t used R) as [AI _]. split; [intros; apply indexed_iff; auto|]. split; [apply no_leftovers_inv; auto|apply ainv_nodup; auto]. Qed.
  Lemma c21_lookup_kv t used kv : areach t used -> kv_arg kv -> kv_valid kv ->
    exists r, query_items t (ExactQuery kv) = Some (Some r) /\ (forall it, In it r <-> In it (a_items t) /\ kv_same (it_kv it) kv) /\ length r <= 1.
  Proof.
    intros R HA V. destruct (areach_inv t used R) as [AI _]. apply kv_valid_iff in V. destruct (exact_sel_ok kv HA V) as (V1 & V2 & V3). destruct (validate_rep kv HA V) as [RP NE].
    destruct (query_items_spec t AI (ExactQuery kv) V1 V2 (or_intror V3)) as (l & EQ & N & HL). exists l. split; [exact EQ|].
    assert (H : forall it, In it l <-> In it (a_items t) /\ kv_same (it_kv it) kv).
    { intros it. rewrite HL. split; intros [H1 H2]; (split; [exact H1|]); apply (exact_holds kv (it_kv it) (it_id it) RP (proj1 (item_rep t it AI H1))); exact H2. }
    split; [exact H|]. destruct l as [|a [|b l]]; cbn; try lia. exfalso.
    apply NoDup_cons_iff in N as [N _]. apply N. left. destruct (proj1 (H a)) as [A1 A2]; [left; reflexivity|]. destruct (proj1 (H b)) as [B1 B2]; [right; left; reflexivity|].
    symmetry. eapply item_unique; eauto.
  Qed.
  Lemma c21_lookup_id t used id : areach t used ->
    exists r, query_items t (StringToQuery id) = Some (Some r) /\ (forall it, In it r <-> In it (a_items t) /\ it_id it = id) /\ length r <= 1.
  Proof.
    intros R. destruct (areach_inv t used R) as [AI _].
    destruct (string_dec id EmptyString) as [-> | NE].
    - assert (V1 : q_validate (StringToQuery EmptyString) = true) by reflexivity.
      assert (NN : query_no_nan (StringToQuery EmptyString)) by (apply every_node_Q; split; [intros s k v [= <-] []|split; constructor]).
      assert (SI : every_node node_simple (StringToQuery EmptyString)) by (apply every_node_Q; split; [split; [left; discriminate|intros s [= <-]; left; discriminate]|split; constructor]).
      destruct (query_items_spec t AI _ V1 NN (or_intror SI)) as (l & EQ & N & HL). exists l. split; [exact EQ|].
      assert (H : forall it, In it l <-> In it (a_items t) /\ it_id it = EmptyString) by (intros it; rewrite HL, id_holds; reflexivity).
      split; [exact H|]. destruct l as [|a [|b l]]; cbn; try lia. exfalso. apply NoDup_cons_iff in N as [N _]. apply N. left.
      destruct (proj1 (H a)) as [A1 A2]; [left; reflexivity|]. destruct (proj1 (H b)) as [B1 B2]; [right; left; reflexivity|]. symmetry. apply (item_eq t); auto; congruence.
    - destruct (id_sel_ok id NE) as (V1 & V2 & V3).
      destruct (query_items_spec t AI _ V1 V2 (or_intror V3)) as (l & EQ & N & HL). exists l. split; [exact EQ|].
      assert (H : forall it, In it l <-> In it (a_items t) /\ it_id it = id) by (intros it; rewrite HL, id_holds; reflexivity).
      split; [exact H|]. destruct l as [|a [|b l]]; cbn; try lia. exfalso. apply NoDup_cons_iff in N as [N _]. apply N. left.
      destruct (proj1 (H a)) as [A1 A2]; [left; reflexivity|]. destruct (proj1 (H b)) as [B1 B2]; [right; left; reflexivity|]. symmetry. apply (item_eq t); auto; congruence.
  Qed.

  Lemma c22_query t used q : areach t used -> q_validate q = true -> query_no_nan q -> q = Q None None None \/ every_node node_simple q ->
    exists l, NoDup l /\ (forall it, In it l <-> In it (a_items t) /\ query_holds q (it_id it) (it_kv it)) /\
      forall S (cb : S -> item A -> S * bool) s, QueryAction t q cb s = Some (Some (iterate cb s l)).
  Proof.
    intros R V NN SI. destruct (areach_inv t used R) as [AI _]. destruct (query_items_spec t AI q V NN SI) as (l & E & N & H).
    exists l. split; [exact N|]. split; [exact H|]. intros S cb s. unfold QueryAction. rewrite E. reflexivity.
  Qed.

  (** selections without ids: the two meanings coincide *)
  Lemma no_ids_holds q id tags : every_node (fun sel _ _ => forall s, sel = Some s -> s_ids s = []) q ->
    query_holds q id tags <-> query_holds_tags q tags.
  Proof.
    unfold query_holds, query_holds_tags. induction q as [|sel ors ands IO IA] using query_ind'; [intros []|].
    intros H. apply every_node_Q in H as (HS & HA & HO). rewrite !q_holds_Q.
    assert (S1 : match sel with Some s => sel_holds s id tags | None => True end <-> match sel with Some s => tags_hold s tags | None => True end).
    { destruct sel as [s|]; [|tauto]. unfold sel_holds. rewrite (HS s eq_refl). tauto. }
    assert (EA : Forall (q_holds (fun s => sel_holds s id tags)) (elems ands) <-> Forall (q_holds (fun s => tags_hold s tags)) (elems ands)).
    { rewrite !Forall_forall in *. split; intros H x Hx; apply IA; auto. }
    assert (EO : Exists (q_holds (fun s => sel_holds s id tags)) (elems ors) <-> Exists (q_holds (fun s => tags_hold s tags)) (elems ors)).
    { rewrite !Exists_exists, !Forall_forall in *. split; intros (x & Hx & H); exists x; (split; [auto|]); apply IO; auto. }
    rewrite S1, EA, EO. reflexivity.
  Qed.
  Lemma c23_agree t used q it : areach t used -> In it (a_items t) -> q_validate q = true -> query_no_nan q ->
    every_node (fun sel ors ands => node_simple sel ors ands /\ (forall s, sel = Some s -> s_ids s = []) /\ (sel <> None \/ ands <> [])) q ->
    exists l b, query_items t q = Some (Some l) /\ MatchTags q (it_kv it) = Some b /\ (In it l <-> b = true).
  Proof.
    intros R HI V NN HS. destruct (areach_inv t used R) as [AI _].
    assert (H1 : every_node node_simple q) by (eapply every_node_impl; [|exact HS]; intros ? ? ? H; apply H).
    assert (H2 : every_node (fun sel _ _ => forall s, sel = Some s -> s_ids s = []) q) by (eapply every_node_impl; [|exact HS]; intros ? ? ? H; apply H).
    assert (H3 : every_node node_not_or_only q) by (eapply every_node_impl; [|exact HS]; unfold node_not_or_only; intros ? ? ? (_ & _ & H); tauto).
    destruct (query_items_spec t AI q V NN (or_intror H1)) as (l & E & N & H). exists l.
    assert (NQ : q <> QNil) by (intros ->; exact H1).
    assert (NOK : every_node node_ok q).
    { apply q_validate_nonnil in V; auto. eapply every_node_impl; [|exact (every_node_and _ _ _ V NN)].
      intros sel ors ands [A1 A2] s Hs. split; [auto|]. intros k v Hk. eapply A2; eauto. }
    destruct (MatchTags_computes q (it_kv it) NOK) as (b & EB & HB).
    { intros k v HG. eapply kv_get_good; [apply (item_rep t it AI HI)|exact HG]. }
    exists b. split; [exact E|]. split; [exact EB|]. rewrite H, HB, mt_holds_meaning by exact H3. rewrite <- (no_ids_holds q (it_id it)) by exact H2. tauto.
  Qed.

  Lemma c24_match t used mq : areach t used -> mq_validate mq = true -> match_arg mq ->
    ~ (exists b, mq_max mq = Some b /\ b <> -1 /\ b < match mq_min mq with Some a => a | None => 0 end)%Z ->
    exists l, NoDup l /\ (forall it, In it l <-> In it (a_items t) /\ match_holds mq (it_kv it)) /\
      forall S (cb : S -> item A -> S * bool) s, MatchAction t mq cb s = Some (Some (iterate cb s l)).
  Proof.
    intros R V AR NC. destruct (areach_inv t used R) as [AI _].
    destruct (match_ids_spec t AI mq V AR NC) as (ids & E & ND & H).
    exists (items_of t ids). destruct (items_of_spec t AI ids ND) as [N1 H1]. split; [exact N1|]. split.
    - intros it. rewrite H1, H. split.
      + intros [HI (kv & HE & HM)]. split; [exact HI|]. destruct AI as [OK _].
        rewrite (ents_fun _ _ _ (it_kv it) OK HE) in HM; [exact HM|]. apply in_ents_of; eauto.
      + intros [HI HM]. split; [exact HI|]. exists (it_kv it). split; [apply in_ents_of; eauto|exact HM].
    - intros S cb s. unfold MatchAction. rewrite E. rewrite match_loop_iterate; [reflexivity|exact AI|]. intros x Hx. apply H in Hx as (kv & HI & _). eauto.
  Qed.
  Lemma c24_crossed t mq : mq_validate mq = true ->
    (exists b, mq_max mq = Some b /\ b <> -1 /\ b < match mq_min mq with Some a => a | None => 0 end)%Z ->
    forall S (cb : S -> item A -> S * bool) s, MatchAction t mq cb s = None.
  Proof.
    intros V (b & EB & NB & LB) S cb s. unfold MatchAction, match_ids. rewrite V. cbn [negb]. rewrite EB.
    destruct (permutations_lemma (map fst (key_levels (a_index t) mq)) (match mq_min mq with Some a => a | None => 0%Z end) b) as (P1 & _).
    rewrite (proj2 P1) by auto. reflexivity.
  Qed.
End P.
