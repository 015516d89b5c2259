(** The operations of the associated tree that query it, and histories of operations. *)
From Coq Require Import Permutation SpecFloat.
From Verif Require Import Datatypes SpecValues DatatypesProofs Collections SpecCollections CollectionsProofs Query SpecQuery QueryProofs Assoc SpecAssoc AssocMaps AssocProofs AssocQueryProofs PropLemmasValues.
Local Open Scope nat_scope.

(** ** The exact query *)
Lemma exact_sel_ok kv : kv_arg kv -> kv_validate kv MinDataType MaxDataType = true ->
  q_validate (ExactQuery kv) = true /\ query_no_nan (ExactQuery kv) /\ every_node node_simple (ExactQuery kv).
Proof.
  intros HA V. pose proof (validate_rep kv HA V) as [R NE]. apply kv_validate_iff in V as [_ V].
  assert (IN : forall k q, In (k, q) (map (fun p : string * EV => (fst p, mkVQ (snd p) CEquals (mkTR (ev_type (snd p)) (ev_type (snd p))))) kv) ->
     exists v, In (k, v) kv /\ q = mkVQ v CEquals (mkTR (ev_type v) (ev_type v))).
  { intros k q HI. apply in_map_iff in HI as ([k' v] & [= <- <-] & HI). eauto. }
  split; [|split].
  - apply q_validate_iff. right. apply every_node_Q. split; [|split; constructor]. intros s [= <-]. split; [|split]; cbn [s_ids s_kvs s_min s_max].
    + right; right; left. discriminate.
    + intros k q HI. apply IN in HI as (v & HI & ->). destruct R as [_ R]. destruct (R _ _ HI) as [WT _]. unfold value_query_ok. cbn.
      pose proof (well_typed_tag _ _ WT). repeat split; auto; try discriminate. lia.
    + intros a b [= <-] [= <-]. lia.
  - apply every_node_Q. split; [|split; constructor]. intros s k q [= <-]. cbn [s_kvs]. intros HI. apply IN in HI as (v & HI & ->). cbn.
    destruct R as [_ R]. apply (R _ _ HI).
  - apply every_node_Q. split; [|split; constructor]. split; [left; discriminate|]. intros s [= <-]. right. split.
    + intros [k q] [k' q'] HI _ C _. apply IN in HI as (v & HI & ->). discriminate.
    + intros k q HI. apply IN in HI as (v & HI & ->). exact I.
Qed.

Lemma exact_holds kv kv' id : kv_rep kv -> kv_rep kv' -> query_holds (ExactQuery kv) id kv' <-> kv_same kv' kv.
Proof.
  intros R R'. unfold query_holds. unfold ExactQuery. rewrite q_holds_Q. cbn [elems]. rewrite Exists_nil. unfold sel_holds, tags_hold, size_holds. cbn [s_ids s_kvs s_min s_max].
  split.
  - intros [((_ & (H1 & H2) & H3) & _) | []]. specialize (H1 _ eq_refl). specialize (H2 _ eq_refl).
    apply kv_same_of; auto; [lia|]. intros k v EG. apply kv_get_In in EG.
    specialize (H3 k (mkVQ v CEquals (mkTR (ev_type v) (ev_type v)))). destruct H3 as (m & E & HT & HE).
    { apply in_map_iff. exists (k, v). auto. }
    exists m. split; [exact E|]. assert (Gm : good m) by (eapply kv_get_good; eauto). assert (Gv : good v) by (destruct R; eauto).
    apply veq_iff; auto. unfold type_permitted in HT. cbn in HT, HE.
    destruct HE as [-> | [-> | HE]]; [| |exact HE].
    + destruct (any_or_concrete v Gv) as [-> | C]; [apply same_value_refl|]. cbn in HT. exfalso. apply C. unfold T_any in *. cbn in HT. lia.
    + destruct (any_or_concrete m Gm) as [-> | C]; [apply same_value_refl|]. cbn in HT. exfalso. apply C. unfold T_any in *. cbn in HT. lia.
  - intros HS. left. pose proof (kv_same_length _ _ R R' HS) as HL. split; [|split; [constructor|left; discriminate]].
    split; [left; reflexivity|]. split; [split; intros ? [= <-]; lia|].
    intros k q HI. apply in_map_iff in HI as ([k' v] & [= <- <-] & HI). apply In_kv_get in HI; [|apply R]. specialize (HS k'). rewrite HI in HS.
    destruct (kv_get kv' k') as [m|]; [|destruct HS]. exists m. split; [reflexivity|]. split.
    + destruct HS as [HT _]. unfold type_permitted. cbn. lia.
    + cbn. right; right. exact HS.
Qed.

Lemma id_sel_ok id : id <> EmptyString ->
  q_validate (StringToQuery id) = true /\ query_no_nan (StringToQuery id) /\ every_node node_simple (StringToQuery id).
Proof.
  intros _. split; [reflexivity|]. split; (apply every_node_Q; split; [|split; constructor]).
  - intros s k v [= <-] [].
  - split; [left; discriminate|]. intros s [= <-]. left. discriminate.
Qed.
Lemma id_holds id id' kv : query_holds (StringToQuery id) id' kv <-> id' = id.
Proof.
  unfold query_holds, StringToQuery. rewrite q_holds_Q. cbn [elems]. rewrite Exists_nil. unfold sel_holds, tags_hold, size_holds. cbn. split.
  - intros [(([C | [C | []]] & _) & _) | []]; congruence.
  - intros ->. left. repeat split; auto; try discriminate; try (left; discriminate). intros ? ? [].
Qed.

Section Ops.
  Context {A : Type}.
  Implicit Type t : atree A.

  Lemma iterate_first (l : list (item A)) : iterate (fun (_ : option (item A)) i => (Some i, false)) None l = hd_error l.
  Proof. destruct l; reflexivity. Qed.

  Lemma item_rep t it : ainv t -> In it (a_items t) -> kv_rep (it_kv it) /\ it_kv it <> [].
  Proof. intros [(_ & O & _) _] HI. eapply O. apply in_ents_of; eauto. Qed.
  Lemma kv_same_trans a b c : kv_same a b -> kv_same b c -> kv_same a c.
  Proof.
    intros H1 H2 k. specialize (H1 k). specialize (H2 k). destruct (kv_get a k), (kv_get b k), (kv_get c k); try contradiction; auto.
    eapply same_value_trans; eauto.
  Qed.
  Lemma item_eq t it it' : ainv t -> In it (a_items t) -> In it' (a_items t) -> it_id it = it_id it' -> it = it'.
  Proof.
    intros AI H1 H2 E. pose proof (in_find_item _ _ (ainv_nodup t AI) H1) as F1. pose proof (in_find_item _ _ (ainv_nodup t AI) H2) as F2.
    rewrite E in F1. congruence.
  Qed.
  Lemma item_unique t it it' kv : ainv t -> In it (a_items t) -> In it' (a_items t) -> kv_same (it_kv it) kv -> kv_same (it_kv it') kv -> it = it'.
  Proof.
    intros AI H1 H2 S1 S2. apply (item_eq t); auto. destruct AI as [(_ & _ & U) _].
    eapply U; [apply in_ents_of; eauto|apply in_ents_of; eauto|]. eapply kv_same_trans; eauto using kv_same_sym.
  Qed.
  Lemma holds_dec t kv : ainv t -> kv_rep kv -> kv <> [] -> holds_kv t kv \/ ~ holds_kv t kv.
  Proof. intros [OK _] R NE. rewrite <- present_iff. apply present_dec; auto. Qed.

  Lemma exact_first t kv : ainv t -> kv_arg kv -> kv_validate kv MinDataType MaxDataType = true ->
    exists r, QueryAction t (ExactQuery kv) (fun (_ : option (item A)) i => (Some i, false)) None = Some (Some r) /\
      match r with Some it => In it (a_items t) /\ kv_same (it_kv it) kv | None => ~ holds_kv t kv end.
  Proof.
    intros AI HA V. destruct (exact_sel_ok kv HA V) as (V1 & V2 & V3). destruct (validate_rep kv HA V) as [R NE].
    destruct (query_items_spec t AI (ExactQuery kv) V1 V2 (or_intror V3)) as (l & EQ & _ & HL).
    unfold QueryAction. rewrite EQ. rewrite iterate_first. exists (hd_error l). split; [reflexivity|].
    destruct l as [|it l]; cbn.
    - intros (it & HI & HS). apply (HL it). split; [exact HI|]. apply exact_holds; auto. apply (item_rep t it AI HI).
    - destruct (proj1 (HL it) (or_introl eq_refl)) as [HI HQ]. split; [exact HI|]. apply exact_holds in HQ; auto. apply (item_rep t it AI HI).
  Qed.

  Lemma CreateOrFind_spec t kv id mk : ainv t -> kv_arg kv -> ~ In id (map it_id (a_items t)) ->
    let r := CreateOrFind t kv id mk in
    ainv (fst r) /\
    (kv_validate kv MinDataType MaxDataType = false -> r = (t, RInvalid)) /\
    (kv_validate kv MinDataType MaxDataType = true -> forall it, In it (a_items t) -> kv_same (it_kv it) kv -> r = (t, RFound it)) /\
    (kv_validate kv MinDataType MaxDataType = true -> ~ holds_kv t kv ->
       match mk with
       | Some a => snd r = RId id /\ a_items (fst r) = a_items t ++ [mkItem id kv a]
       | None => snd r = RId id /\ a_items (fst r) = a_items t
       end).
  Proof.
    intros AI HA FR. cbv zeta. unfold CreateOrFind. destruct (kv_validate kv MinDataType MaxDataType) eqn:V; cbn [negb].
    2:{ split; [exact AI|]. split; [auto|]. split; discriminate. }
    destruct (validate_rep kv HA V) as [R NE].
    destruct (exact_first t kv AI HA V) as (r & -> & HR). destruct r as [it|].
    - destruct HR as [HI HS]. cbn [fst snd]. split; [exact AI|]. split; [discriminate|]. split.
      + intros _ it' HI' HS'. rewrite (item_unique t it it' kv AI); auto.
      + intros _ C. exfalso. apply C. exists it. auto.
    - pose proof AI as [OK I]. destruct (prepare_spec (a_index t) _ kv I OK R NE) as (_ & _ & P1 & P2).
      destruct (prepare (a_index t) kv) as [ix ids] eqn:EP. cbn [fst snd] in *.
      rewrite P2 by (rewrite present_iff; exact HR). pose proof (store_spec t kv id mk (RId id) AI HA V FR HR) as SP. rewrite EP in SP. cbn [fst] in SP.
      destruct SP as [S1 S2]. split; [exact S1|]. split; [discriminate|]. split; [|intros _ _; exact S2].
      intros _ it HI HS. exfalso. apply HR. exists it; auto.
  Qed.

  Lemma id_first t id : ainv t -> id <> EmptyString ->
    QueryAction t (StringToQuery id) (fun (_ : option (item A)) i => (Some i, false)) None = Some (Some (find_item (a_items t) id)).
  Proof.
    intros AI NE. destruct (id_sel_ok id NE) as (V1 & V2 & V3).
    destruct (query_items_spec t AI (StringToQuery id) V1 V2 (or_intror V3)) as (l & EQ & _ & HL).
    unfold QueryAction. rewrite EQ. rewrite iterate_first. do 2 f_equal.
    destruct l as [|it l]; cbn.
    - symmetry. apply find_item_none. intros C. apply in_map_iff in C as (it & E & HI). apply (HL it). split; [exact HI|]. apply id_holds. exact E.
    - destruct (proj1 (HL it) (or_introl eq_refl)) as [HI HQ]. apply id_holds in HQ. rewrite <- HQ. symmetry. apply in_find_item; auto. apply ainv_nodup; auto.
  Qed.

  (** the key-values of a stored item are valid *)
  Lemma rep_validate kv : kv_rep kv -> kv <> [] -> kv_validate kv MinDataType MaxDataType = true.
  Proof.
    intros [_ R] NE. apply kv_validate_iff. split; [exact NE|]. intros k v HI. destruct (R k v HI) as [WT NN]. split; [exact WT|].
    apply well_typed_tag in WT. unfold known_tag in WT. unfold MinDataType, MaxDataType, T_uint8, T_any. lia.
  Qed.
  Lemma rep_arg kv : kv_rep kv -> kv_arg kv.
  Proof. intros [N R]. split; [exact N|]. intros k v HI. apply (R k v HI). Qed.

  Lemma DeleteByID_spec t id can : ainv t ->
    let r := DeleteByAssociatedID t id can in
    ainv (fst r) /\
    (id = EmptyString -> r = (t, RInvalid)) /\
    (id <> EmptyString -> snd r = ROk /\
       (forall it, In it (a_items t) -> it_id it = id -> can it = true -> a_items (fst r) = remove_item (a_items t) id) /\
       ((forall it, In it (a_items t) -> it_id it = id -> can it = false) -> a_items (fst r) = a_items t)).
  Proof.
    intros AI. cbv zeta. unfold DeleteByAssociatedID. destruct (String.eqb_spec id EmptyString) as [-> | NE].
    { cbn [fst snd]. split; [exact AI|]. split; [auto|congruence]. }
    rewrite (id_first t id AI NE). destruct (find_item (a_items t) id) as [it|] eqn:EF.
    - apply find_item_some in EF as [HI EI]. destruct (item_rep t it AI HI) as [R NE'].
      destruct (Delete_spec t (it_kv it) can AI (rep_arg _ R)) as (D1 & _ & D3). destruct (D3 (rep_validate _ R NE')) as (D4 & D5 & D6).
      split; [exact D1|]. split; [congruence|]. intros _. split; [exact D4|]. split.
      + intros it' HI' EI' HC. assert (it' = it) by (apply (item_eq t); auto; congruence). subst it'. rewrite <- EI. apply D5; auto using kv_same_refl.
      + intros H. apply D6. intros it' HI' HS'. apply H; auto. rewrite <- EI. f_equal. apply (item_unique t it' it (it_kv it)); auto using kv_same_refl.
    - cbn [fst snd]. split; [exact AI|]. split; [congruence|]. intros _. split; [reflexivity|]. split; [|auto].
      intros it HI EI. apply find_item_none in EF. exfalso. apply EF. rewrite <- EI. apply in_map. exact HI.
  Qed.

  (** ** Changing a value in place *)
  Lemma update_value_ents t id f : ents_of (a_items (update_value t id f)) = ents_of (a_items t).
  Proof. unfold update_value, ents_of. cbn [a_items]. rewrite map_map. apply map_ext. intros i. destruct (String.eqb (it_id i) id); reflexivity. Qed.
  Lemma update_value_inv t id f : ainv t -> ainv (update_value t id f).
  Proof. intros [OK I]. split; rewrite update_value_ents; assumption. Qed.
  Lemma in_update_value t id f i : In i (a_items (update_value t id f)) <->
    (In i (a_items t) /\ it_id i <> id) \/ exists j, In j (a_items t) /\ it_id j = id /\ i = mkItem id (it_kv j) (f (it_val j)).
  Proof.
    unfold update_value. cbn [a_items]. rewrite in_map_iff. split.
    - intros (j & E & HI). destruct (String.eqb_spec (it_id j) id) as [E1 | N1].
      + right. exists j. split; [exact HI|]. split; [exact E1|]. rewrite <- E1. auto.
      + left. subst i. auto.
    - intros [[HI N] | (j & HI & E & ->)].
      + exists i. split; [|exact HI]. destruct (String.eqb_spec (it_id i) id); [contradiction|reflexivity].
      + exists j. split; [|exact HI]. rewrite E, String.eqb_refl. reflexivity.
  Qed.
  (** ** Which item Delete offers *)
  Lemma remove_item_absent (items : list (item A)) id : find_item items id = None -> remove_item items id = items.
  Proof.
    intros H. apply find_item_none in H. unfold remove_item. induction items as [|i items IH]; [reflexivity|]. cbn in *.
    destruct (String.eqb_spec (it_id i) id) as [E | N]; [exfalso; apply H; auto|]. cbn. f_equal. apply IH. tauto.
  Qed.
  Lemma delete_target_removed t kv : a_items (fst (Delete t kv (fun _ => true))) =
    match delete_target t kv with Some it => remove_item (a_items t) (it_id it) | None => a_items t end.
  Proof.
    unfold Delete, delete_target. destruct (negb (kv_validate kv MinDataType MaxDataType)); [reflexivity|].
    cbv zeta. destruct (Nat.eqb _ _); [|reflexivity]. destruct (existsb _ _); [reflexivity|].
    destruct (scan (length kv) (found_nodes (a_index t) (sorted_kv kv))) as [[|id [|? ?]]|]; try reflexivity.
    destruct (find_item (a_items t) id) as [it|] eqn:E; cbn [fst a_items].
    - apply find_item_some in E as [_ <-]. reflexivity.
    - apply remove_item_absent. exact E.
  Qed.
  Lemma delete_target_in t kv it : delete_target t kv = Some it -> In it (a_items t).
  Proof.
    unfold delete_target. destruct (negb (kv_validate kv MinDataType MaxDataType)); [discriminate|].
    cbv zeta. destruct (Nat.eqb _ _); [|discriminate]. destruct (existsb _ _); [discriminate|].
    destruct (scan (length kv) (found_nodes (a_index t) (sorted_kv kv))) as [[|id [|? ?]]|]; try discriminate.
    intros E. apply find_item_some in E. apply E.
  Qed.
  Lemma delete_target_spec t kv : ainv t -> kv_arg kv -> kv_validate kv MinDataType MaxDataType = true ->
    (forall it, In it (a_items t) -> kv_same (it_kv it) kv -> delete_target t kv = Some it) /\
    (~ holds_kv t kv -> delete_target t kv = None).
  Proof.
    intros AI HA V. destruct (Delete_spec t kv (fun _ => true) AI HA) as (_ & _ & S3). destruct (S3 V) as (_ & S4 & S5).
    rewrite delete_target_removed in S4, S5. split.
    - intros it HI HS. specialize (S4 it HI HS eq_refl). destruct (delete_target t kv) as [it'|] eqn:E.
      + apply delete_target_in in E. f_equal. symmetry. apply (item_eq t it it' AI HI E).
        destruct (string_dec (it_id it) (it_id it')) as [|N]; [assumption|]. exfalso.
        assert (H : In it (remove_item (a_items t) (it_id it'))) by (apply in_remove_item; auto). rewrite S4 in H. apply in_remove_item in H. destruct H; contradiction.
      + rewrite S4 in HI. apply in_remove_item in HI. destruct HI; contradiction.
    - intros NH. destruct (delete_target t kv) as [it|] eqn:E; [|reflexivity]. exfalso. apply delete_target_in in E.
      assert (H : In it (remove_item (a_items t) (it_id it))); [|apply in_remove_item in H; destruct H; contradiction].
      rewrite S5; [exact E|]. intros i HI HS. exfalso. apply NH. exists i; auto.
  Qed.

  (** ** Histories *)
  Lemma areach_inv t used : areach t used -> ainv t /\ forall it, In it (a_items t) -> In (it_id it) used /\ it_id it <> EmptyString.
  Proof.
    induction 1 as [|t used o H [AI U] HA HF].
    - split; [apply ainv_empty|intros ? []].
    - assert (FR : forall id, op_id o = Some id -> ~ In id (map it_id (a_items t))).
      { intros id E C. apply (proj1 (HF id E)). apply in_map_iff in C as (it & <- & HI). apply (U it HI). }
      assert (G : forall t' : atree A, ainv t' -> (forall it, In it (a_items t') -> In it (a_items t) \/ (op_id o = Some (it_id it))) ->
        ainv t' /\ forall it, In it (a_items t') -> In (it_id it) (match op_id o with Some id => id :: used | None => used end) /\ it_id it <> EmptyString).
      { intros t' AI' HI. split; [exact AI'|]. intros it Hit. destruct (HI it Hit) as [H1 | H1].
        - destruct (U it H1) as [H2 H3]. split; [|exact H3]. destruct (op_id o); [right|]; exact H2.
        - rewrite H1. split; [left; reflexivity|]. apply (HF _ H1). }
      destruct o as [kv id mk|kv id mk|kv can|id can|id can|can|id f]; cbn [arun op_id op_arg] in *.
      + destruct (Create_spec t kv id mk AI HA (FR id eq_refl)) as (S1 & S2 & S3 & S4). apply G; [exact S1|].
        destruct (kv_validate kv MinDataType MaxDataType) eqn:V.
        * destruct (validate_rep kv HA V) as [R NE]. destruct (holds_dec t kv AI R NE) as [P|NP].
          -- destruct (S3 eq_refl P) as [_ ->]. auto.
          -- specialize (S4 eq_refl NP). destruct mk; destruct S4 as [_ ->]; [|auto]. intros it Hit. apply in_app_iff in Hit as [Hit | [<- | []]]; auto.
        * rewrite (S2 eq_refl). auto.
      + destruct (CreateOrFind_spec t kv id mk AI HA (FR id eq_refl)) as (S1 & S2 & S3 & S4). apply G; [exact S1|].
        destruct (kv_validate kv MinDataType MaxDataType) eqn:V.
        * destruct (validate_rep kv HA V) as [R NE]. destruct (holds_dec t kv AI R NE) as [(it0 & P1 & P2)|NP].
          -- rewrite (S3 eq_refl it0 P1 P2). auto.
          -- specialize (S4 eq_refl NP). destruct mk; destruct S4 as [_ ->]; [|auto]. intros it Hit. apply in_app_iff in Hit as [Hit | [<- | []]]; auto.
        * rewrite (S2 eq_refl). auto.
      + destruct (Delete_spec t kv can AI HA) as (S1 & S2 & S3). apply G; [exact S1|].
        destruct (kv_validate kv MinDataType MaxDataType) eqn:V; [|rewrite (S2 eq_refl); auto].
        destruct (S3 eq_refl) as (_ & S4 & S5). intros it Hit. left.
        destruct (validate_rep kv HA V) as [R NE]. destruct (holds_dec t kv AI R NE) as [(it0 & P1 & P2)|NP].
        * destruct (can it0) eqn:EC; [rewrite (S4 it0 P1 P2 EC) in Hit; apply in_remove_item in Hit; apply Hit|].
          rewrite S5 in Hit; [exact Hit|]. intros it1 H1 H2. rewrite (item_unique t it1 it0 kv AI); auto.
        * rewrite S5 in Hit; [exact Hit|]. intros it1 H1 H2. exfalso. apply NP. exists it1; auto.
      + destruct (DeleteByID_spec t id can AI) as (S1 & S2 & S3). apply G; [exact S1|].
        destruct (String.eqb_spec id EmptyString) as [E|NE]; [rewrite (S2 E); auto|].
        destruct (S3 NE) as (_ & S4 & S5). intros it Hit. left. destruct (find_item (a_items t) id) as [it0|] eqn:EF.
        * apply find_item_some in EF as [P1 P2]. destruct (can it0) eqn:EC; [rewrite (S4 it0 P1 P2 EC) in Hit; apply in_remove_item in Hit; apply Hit|].
          rewrite S5 in Hit; [exact Hit|]. intros it1 H1 H2. rewrite (item_eq t it1 it0 AI); auto; congruence.
        * rewrite S5 in Hit; [exact Hit|]. intros it1 H1 H2. exfalso. apply find_item_none in EF. apply EF. rewrite <- H2. apply in_map; exact H1.
      + destruct (DestroyByID_spec t id can AI) as (S1 & S2 & S3). apply G; [exact S1|].
        destruct (String.eqb_spec id EmptyString) as [E|NE]; [rewrite (S2 E); auto|].
        destruct (S3 NE) as (_ & S4 & S5). intros it Hit. left. destruct (find_item (a_items t) id) as [it0|] eqn:EF.
        * apply find_item_some in EF as [P1 P2]. destruct (can it0) eqn:EC; [rewrite (S4 it0 P1 P2 EC) in Hit; apply in_remove_item in Hit; apply Hit|].
          rewrite S5 in Hit; [exact Hit|]. intros it1 H1 H2. rewrite (item_eq t it1 it0 AI); auto; congruence.
        * rewrite S5 in Hit; [exact Hit|]. intros it1 H1 H2. exfalso. apply find_item_none in EF. apply EF. rewrite <- H2. apply in_map; exact H1.
      + destruct (destroy_items_spec (a_items t) t can AI (ainv_nodup t AI) (fun _ H => H)) as (S1 & S2 & gone & rest & _ & _ & _ & S3).
        apply G; [exact S1|]. intros it Hit. left. apply S3 in Hit. apply Hit.
      + cbn [fst]. split; [apply update_value_inv; exact AI|]. intros it Hit. apply in_update_value in Hit as [[Hit _] | (j & Hj & E & ->)]; [apply U; exact Hit|].
        cbn [it_id]. rewrite <- E. apply U. exact Hj.
  Qed.

  (** ** What the index holds *)
  Lemma indexed_iff t id : ainv t -> indexed t id <-> exists it, In it (a_items t) /\ it_id it = id.
  Proof.
    intros [OK I]. pose proof I as (W & H1 & H2). split.
    - intros (k & vs & v & lv & l & HK & HV & HL & HI). assert (EK : aget String.eqb k (a_index t) = Some vs) by (eapply (In_aget String.eqb anything); eauto with amap; apply W).
      destruct (node_in _ _ _ _ _ W EK HV) as [Gv EN]. destruct (H1 k v lv Gv EN) as [[HR _] _].
      apply In_nth with (d := []) in HL as (L & _ & EL). rewrite <- EL in HI. apply HR in HI as (kv & w & HI & _).
      apply in_ents_of in HI as (it & ? & ? & _). eauto.
    - intros (it & HI & <-). assert (HE : In (it_id it, it_kv it) (ents_of (a_items t))) by (apply in_ents_of; eauto).
      assert (O := OK). destruct O as (_ & O & _). destruct (O _ _ HE) as [R NE].
      destruct (it_kv it) as [|[k m] r] eqn:EKV; [contradiction|].
      assert (HG : kv_get (it_kv it) k = Some m) by (rewrite EKV; cbn; rewrite String.eqb_refl; reflexivity). rewrite <- EKV in *.
      destruct (node_of (a_index t) k m) as [lv|] eqn:EN; [|exfalso; eapply H2; eauto].
      pose proof (ents_good _ OK _ _ _ _ HE HG) as Gm. destruct (H1 k m lv Gm EN) as [[HR _] _].
      assert (HIN : In (it_id it) (nth (length (it_kv it) - 1) lv [])).
      { apply HR. exists (it_kv it), m. repeat split; auto using veq_refl. rewrite EKV. cbn. lia. }
      unfold node_of in EN. destruct (aget String.eqb k (a_index t)) as [vs|] eqn:EK; [|discriminate].
      apply aget_In in EK as (k' & HK & _). apply aget_In in EN as (v & HV & _).
      exists k', vs, v, lv, (nth (length (it_kv it) - 1) lv []). repeat split; auto. apply nth_In.
      destruct (Nat.lt_ge_cases (length (it_kv it) - 1) (length lv)); [auto|]. rewrite nth_overflow in HIN by auto. destruct HIN.
  Qed.
  Lemma no_leftovers_inv t : ainv t -> no_leftovers t.
  Proof.
    intros [OK (W & H1 & H2)] k vs HK. assert (EK : aget String.eqb k (a_index t) = Some vs) by (eapply (In_aget String.eqb anything); eauto with amap; apply W).
    split; [apply W in HK; apply HK|]. intros v lv HV. destruct (node_in _ _ _ _ _ W EK HV) as [Gv EN]. apply (H1 k v lv Gv EN).
  Qed.
End Ops.
