(** The index of the associated tree records exactly the stored items. *)
From Coq Require Import Permutation SpecFloat.
From Verif Require Import Datatypes SpecValues DatatypesProofs PropLemmasValues Collections SpecCollections CollectionsProofs Query SpecQuery QueryProofs Assoc AssocMaps SpecAssoc.
Local Open Scope nat_scope.

Definition ents := list (string * KeyValues).
(** the entry [id] has a pair veq to (k, v) and L+1 pairs *)
Definition recorded (es : ents) (k : string) (v : EV) (L : nat) (id : string) : Prop :=
  exists kv w, In (id, kv) es /\ length kv = Datatypes.S L /\ kv_get kv k = Some w /\ veq w v = true.
Definition node_right (es : ents) (k : string) (v : EV) (lv : levels) : Prop :=
  (forall L id, In id (nth L lv []) <-> recorded es k v L id) /\ (forall L, NoDup (nth L lv [])).
Definition idx (ix : index) (es : ents) : Prop :=
  iwf ix /\
  (forall k v lv, good v -> node_of ix k v = Some lv -> node_right es k v lv /\ tidy lv) /\
  (forall id kv k w, In (id, kv) es -> kv_get kv k = Some w -> node_of ix k w <> None).
Definition ents_ok (es : ents) : Prop :=
  NoDup (map fst es) /\ (forall id kv, In (id, kv) es -> kv_rep kv /\ kv <> []) /\
  (forall id kv id' kv', In (id, kv) es -> In (id', kv') es -> kv_same kv kv' -> id = id').

Lemma ents_fun es id kv kv' : ents_ok es -> In (id, kv) es -> In (id, kv') es -> kv = kv'.
Proof.
  intros [ND _]. induction es as [|[i k] r IH]; [intros []|]. cbn in ND. apply NoDup_cons_iff in ND as [N ND].
  intros [E1 | H1] [E2 | H2]; try congruence; auto; [injection E1 as -> -> | injection E2 as -> ->].
  - exfalso. apply N. apply (in_map fst) in H2. exact H2.
  - exfalso. apply N. apply (in_map fst) in H1. exact H1.
Qed.

Lemma recorded_none es k v : (forall id kv k w, In (id, kv) es -> kv_get kv k = Some w -> good w) ->
  forall ix, good v -> iwf ix -> (forall id kv k w, In (id, kv) es -> kv_get kv k = Some w -> node_of ix k w <> None) ->
  node_of ix k v = None -> forall L id, ~ recorded es k v L id.
Proof.
  intros HG ix Gv W H3 E L id (kv & w & HI & _ & HK & HV). apply (H3 id kv k w HI HK).
  rewrite (node_congr ix k w v); eauto.
Qed.
Lemma ents_good es : ents_ok es -> forall id kv k w, In (id, kv) es -> kv_get kv k = Some w -> good w.
Proof. intros (_ & H & _) id kv k w HI HK. destruct (H _ _ HI). eapply kv_get_good; eauto. Qed.

(** pointwise equal indexes satisfy the same invariant *)
Lemma idx_ext ix ix' es : ents_ok es -> idx ix es -> iwf ix' -> (forall k v, good v -> node_of ix' k v = node_of ix k v) -> idx ix' es.
Proof.
  intros OK (W & H1 & H2) W' H. split; [auto|]. split.
  - intros k v lv Gv E. rewrite H in E by auto. eauto.
  - intros id kv k w HI HK. rewrite H; [eauto|]. eapply ents_good; eauto.
Qed.

(** ** Adding an entry *)
Lemma idx_add ix ix' es id kv : idx ix es -> ents_ok es -> kv_rep kv -> kv <> [] -> ~ In id (map fst es) ->
  iwf ix' ->
  (forall k v, good v -> node_of ix' k v =
     match kv_get kv k with
     | Some w => if veq w v then Some (add_id (length kv) id (extend (length kv) (match node_of ix k v with Some l => l | None => [] end)))
                 else node_of ix k v
     | None => node_of ix k v
     end) ->
  idx ix' ((id, kv) :: es).
Proof.
  intros (W & H1 & H2) OK R NE FR W' HN.
  assert (Hn : 1 <= length kv) by (destruct kv; [contradiction|cbn; lia]).
  assert (Old : forall k v L i, recorded ((id, kv) :: es) k v L i <->
     recorded es k v L i \/ (i = id /\ length kv = Datatypes.S L /\ exists w, kv_get kv k = Some w /\ veq w v = true)).
  { intros k v L i. unfold recorded. split.
    - intros (kv' & w & [[= <- <-] | HI] & HL & HK & HV); [right; eauto|left; eauto 6].
    - intros [(kv' & w & HI & HL & HK & HV) | (-> & HL & w & HK & HV)]; [exists kv', w; cbn; auto|exists kv, w; cbn; auto]. }
  split; [auto|]. split.
  - intros k v lv Gv E. rewrite HN in E by auto.
    assert (Miss : (forall w, kv_get kv k = Some w -> veq w v = false) -> node_of ix k v = Some lv ->
       node_right ((id, kv) :: es) k v lv /\ tidy lv).
    { intros HM E'. destruct (H1 k v lv Gv E') as [[HR HD] HT]. split; [split; [|exact HD]|exact HT].
      intros L i. rewrite HR, Old. split; [auto|]. intros [? | (_ & _ & w & HK & HV)]; [auto|]. rewrite (HM w HK) in HV. discriminate. }
    destruct (kv_get kv k) as [w|] eqn:EK; [|apply Miss; [discriminate|exact E]].
    destruct (veq w v) eqn:EV; [|apply Miss; [intros ? [= <-]; exact EV|exact E]].
    injection E as <-. clear Miss.
    set (lv := match node_of ix k v with Some l => l | None => [] end).
    assert (LR : node_right es k v lv /\ (tidy lv \/ lv = [])).
    { unfold lv. destruct (node_of ix k v) as [l|] eqn:EN.
      - destruct (H1 k v l Gv EN). auto.
      - split; [|auto]. split; [|intros L; destruct L; constructor]. intros L i. split; [destruct L; intros []|].
        intros HR. exfalso. eapply (recorded_none es k v (ents_good es OK) ix); eauto. }
    destruct LR as [[HR HD] HT]. unfold add_id, level. rewrite nth_extend.
    assert (LL : length kv - 1 < length (extend (length kv) lv)) by (rewrite extend_length; lia).
    split; [split|].
    + intros L i. rewrite nth_set_level by exact LL. rewrite Old. destruct (Nat.eqb_spec (length kv - 1) L) as [<- | NL].
      * rewrite in_app_iff, HR. cbn. split; [intros [? | [<- | []]]; auto|].
        -- right. split; [reflexivity|]. split; [lia|eauto].
        -- intros [? | (-> & _)]; auto.
      * rewrite nth_extend, HR. split; [auto|]. intros [? | (_ & ? & _)]; [auto|lia].
    + intros L. rewrite nth_set_level by exact LL. destruct (Nat.eqb_spec (length kv - 1) L) as [<- | NL]; [|rewrite nth_extend; apply HD].
      apply nodup_app; [apply HD|constructor; [intros []|constructor]|].
      intros x Hx [<- | []]. apply HR in Hx as (kv' & w' & HI & _). apply FR. apply (in_map fst) in HI. exact HI.
    + split; [intros C; apply (f_equal (@length _)) in C; rewrite set_level_length in C; cbn in C; lia|].
      rewrite last_nth, set_level_length, nth_set_level by exact LL. rewrite extend_length.
      destruct (Nat.eqb_spec (length kv - 1) (max (length kv) (length lv) - 1)) as [_ | NL].
      * destruct (nth (length kv - 1) lv []); discriminate.
      * rewrite nth_extend. destruct HT as [[T1 T2] | ->]; [|cbn in NL; lia]. rewrite last_nth in T2.
        replace (max (length kv) (length lv)) with (length lv) by lia. exact T2.
  - intros i kv' k w [[= <- <-] | HI] HK.
    + rewrite HN by (eapply kv_get_good; eauto). rewrite HK, veq_refl by (eapply kv_get_good; eauto). discriminate.
    + assert (Gw : good w) by (eapply ents_good; eauto). rewrite HN by auto. specialize (H2 i kv' k w HI HK).
      destruct (kv_get kv k) as [w'|]; [|exact H2]. destruct (veq w' w); [discriminate|exact H2].
Qed.

(** ** Removing an entry *)
Definition without (id : string) (es : ents) : ents := filter (fun e => negb (String.eqb (fst e) id)) es.
Lemma in_without id es i kv : In (i, kv) (without id es) <-> In (i, kv) es /\ i <> id.
Proof. unfold without. rewrite filter_In. cbn. rewrite negb_true_iff, String.eqb_neq. tauto. Qed.
Lemma nodup_map_filter {A B} (f : A -> B) (p : A -> bool) l : NoDup (map f l) -> NoDup (map f (filter p l)).
Proof.
  induction l as [|x l IH]; cbn; [auto|]. intros H. apply NoDup_cons_iff in H as [N ND]. destruct (p x); cbn; auto.
  constructor; auto. intros C. apply N. apply in_map_iff in C as (y & <- & HI). apply filter_In in HI as [HI _]. apply in_map. exact HI.
Qed.
Lemma ents_ok_without id es : ents_ok es -> ents_ok (without id es).
Proof.
  intros (H1 & H2 & H3). split; [|split].
  - apply nodup_map_filter, H1.
  - intros i kv HI. apply in_without in HI as [HI _]. eauto.
  - intros i kv i' kv' HI HI'. apply in_without in HI as [HI _]. apply in_without in HI' as [HI' _]. eauto.
Qed.

Definition g_drop (n : nat) (id : string) (o : option levels) : option levels :=
  match o with Some lv => match remove_id n id lv with [] => None | l => Some l end | None => None end.

Lemma remove_id_right es id kv k v lv : ents_ok es -> In (id, kv) es ->
  (exists w, kv_get kv k = Some w /\ veq w v = true) -> node_right es k v lv ->
  node_right (without id es) k v (remove_id (length kv) id lv).
Proof.
  intros OK HI (w & HK & HV) [HR HD]. assert (NE : kv <> []) by (destruct OK as (_ & H & _); destruct (H _ _ HI); auto).
  assert (Hn : 1 <= length kv) by (destruct kv; [contradiction|cbn; lia]).
  assert (IN : In id (nth (length kv - 1) lv [])).
  { apply HR. exists kv, w. repeat split; auto. lia. }
  assert (LL : length kv - 1 < length lv).
  { destruct (Nat.lt_ge_cases (length kv - 1) (length lv)) as [?|C]; auto. rewrite nth_overflow in IN by auto. destruct IN. }
  assert (NT : forall L, nth L (remove_id (length kv) id lv) [] = if Nat.eqb (length kv - 1) L then swap_pop id (nth (length kv - 1) lv []) else nth L lv []).
  { intros L. unfold remove_id, level. rewrite nth_truncate, nth_set_level by exact LL. reflexivity. }
  assert (RW : forall L i, recorded (without id es) k v L i <-> recorded es k v L i /\ i <> id).
  { intros L i. unfold recorded. setoid_rewrite in_without. split.
    - intros (kv' & w' & [? ?] & ? & ? & ?). split; [eauto 7|auto].
    - intros [(kv' & w' & ? & ? & ? & ?) ?]. eauto 8. }
  split.
  - intros L i. rewrite NT, RW. destruct (Nat.eqb_spec (length kv - 1) L) as [<- | NL].
    + rewrite (proj2 (swap_pop_spec id _ (HD _))). rewrite HR. tauto.
    + rewrite HR. split; [|tauto]. intros HRec. split; [exact HRec|]. intros ->.
      destruct HRec as (kv' & w' & HI' & HL & _). pose proof (ents_fun es id kv kv' OK HI HI') as <-. lia.
  - intros L. rewrite NT. destruct (Nat.eqb (length kv - 1) L); [apply swap_pop_spec|]; apply HD.
Qed.

Lemma idx_remove ix ix' es id kv : idx ix es -> ents_ok es -> In (id, kv) es -> iwf ix' ->
  (forall k v, good v -> node_of ix' k v =
     match kv_get kv k with
     | Some w => if veq w v then g_drop (length kv) id (node_of ix k v) else node_of ix k v
     | None => node_of ix k v
     end) ->
  idx ix' (without id es).
Proof.
  intros (W & H1 & H2) OK HI W' HN.
  assert (Same : forall k v lv, good v -> (forall w, kv_get kv k = Some w -> veq w v = false) ->
     node_right es k v lv -> node_right (without id es) k v lv).
  { intros k v lv Gv HM [HR HD]. split; [|exact HD]. intros L i. rewrite HR. unfold recorded. setoid_rewrite in_without. split.
    - intros (kv' & w' & HI' & HL & HK & HV). exists kv', w'. repeat split; auto. intros ->.
      pose proof (ents_fun es id kv kv' OK HI HI') as <-. rewrite (HM w' HK) in HV. discriminate.
    - intros (kv' & w' & [HI' _] & ?). eauto. }
  split; [auto|]. split.
  - intros k v lv Gv E. rewrite HN in E by auto.
    assert (Miss : (forall w, kv_get kv k = Some w -> veq w v = false) -> node_of ix k v = Some lv -> node_right (without id es) k v lv /\ tidy lv).
    { intros HM E'. destruct (H1 k v lv Gv E') as [HR HT]. split; auto. }
    destruct (kv_get kv k) as [w|] eqn:EK; [|apply Miss; [discriminate|exact E]].
    destruct (veq w v) eqn:EV; [|apply Miss; [intros ? [= <-]; exact EV|exact E]].
    unfold g_drop in E. destruct (node_of ix k v) as [l|] eqn:EN; [|discriminate]. destruct (H1 k v l Gv EN) as [HR HT].
    assert (RR : node_right (without id es) k v (remove_id (length kv) id l)) by (eapply remove_id_right; eauto).
    destruct (remove_id (length kv) id l) as [|x r] eqn:ER; [discriminate|]. injection E as <-. split; [exact RR|].
    rewrite <- ER. unfold remove_id in *. destruct (truncate_tidy (set_level (length kv - 1) (swap_pop id (level (length kv) l)) l)) as [C|T]; [congruence|exact T].
  - intros i kv' k w HI' HK. apply in_without in HI' as [HI' NE]. assert (Gw : good w) by (eapply ents_good; eauto).
    rewrite HN by auto. specialize (H2 i kv' k w HI' HK).
    destruct (kv_get kv k) as [w'|] eqn:EK; [|exact H2]. destruct (veq w' w) eqn:EV; [|exact H2].
    destruct (node_of ix k w) as [l|] eqn:EN; [|contradiction]. destruct (H1 k w l Gw EN) as [HR HT].
    assert (RR : node_right (without id es) k w (remove_id (length kv) id l)) by (eapply remove_id_right; eauto).
    cbn [g_drop]. destruct (remove_id (length kv) id l) as [|x r] eqn:ER; [|discriminate]. exfalso.
    destruct RR as [RR _]. assert (In i (nth (length kv' - 1) [] [])).
    { apply RR. exists kv', w. rewrite in_without. repeat split; auto.
      - destruct kv'; [discriminate|cbn; lia].
      - apply veq_refl; auto. }
    destruct (length kv' - 1); destruct H.
Qed.

(** ** The candidate ids *)
Lemma in_level_length n lv x : 1 <= n -> In x (level n lv) -> n <= length lv.
Proof. unfold level. intros H HI. destruct (Nat.lt_ge_cases (n - 1) (length lv)); [lia|]. rewrite nth_overflow in HI by auto. destruct HI. Qed.
Lemma scan_fold n nodes acc : 1 <= n -> (forall s, acc = Some s -> NoDup s) -> (acc <> None \/ nodes <> []) ->
  exists s, fold_left (scan_step n) nodes acc = Some s /\ NoDup s /\
    forall x, In x s <-> (forall a, acc = Some a -> In x a) /\ Forall (fun lv => In x (level n lv)) nodes.
Proof.
  intros Hn. revert acc. induction nodes as [|lv r IH]; intros acc HA HE.
  - destruct acc as [s|]; [|destruct HE; contradiction]. exists s. split; [reflexivity|]. split; [auto|].
    intros x. split; [intros H; split; [intros ? [= <-]; auto|constructor]|intros [H _]; auto].
  - cbn [fold_left]. destruct (IH (scan_step n acc lv)) as (s & E & ND & HS).
    + intros s. unfold scan_step. destruct (Nat.ltb (length lv) n); [intros [= <-]; constructor|].
      destruct acc; intros [= <-]; [apply set_intersection_spec|apply set_add_bulk_spec; constructor].
    + left. unfold scan_step. destruct (Nat.ltb _ _); [discriminate|]. destruct acc; discriminate.
    + exists s. split; [exact E|]. split; [exact ND|]. intros x. rewrite HS.
      assert (K : (forall a, scan_step n acc lv = Some a -> In x a) <-> (forall a, acc = Some a -> In x a) /\ In x (level n lv)).
      { unfold scan_step. destruct (Nat.ltb_spec (length lv) n) as [L|L].
        - split; [intros H; destruct (H [] eq_refl)|]. intros [_ H]. apply in_level_length in H; [lia|auto].
        - destruct acc as [a|].
          + split.
            * intros H. specialize (H _ eq_refl). apply set_intersection_spec in H as [? ?]. split; [intros ? [= <-]; auto|auto].
            * intros [H H'] ? [= <-]. apply set_intersection_spec. auto.
          + split.
            * intros H. specialize (H _ eq_refl). apply (proj2 (set_add_bulk_spec _ [] (NoDup_nil _))) in H. destruct H as [[] | H]. split; [discriminate|auto].
            * intros [_ H] ? [= <-]. apply (proj2 (set_add_bulk_spec _ [] (NoDup_nil _))). auto. }
      rewrite K, Forall_cons_iff. tauto.
Qed.
Lemma nodup_single (s : list string) x : NoDup s -> In x s -> (forall y, In y s -> y = x) -> s = [x].
Proof.
  intros ND HI HU. destruct s as [|a [|b r]]; [destruct HI| |].
  - f_equal. apply HU. cbn; auto.
  - exfalso. apply NoDup_cons_iff in ND as [N _]. apply N. rewrite (HU a), (HU b) by (cbn; auto). left; reflexivity.
Qed.

(** an entry with a pair equal to every pair of [kv], and as many pairs, is the same set *)
Lemma kv_same_of kv kv' : kv_rep kv -> kv_rep kv' -> length kv' = length kv ->
  (forall k v, kv_get kv k = Some v -> exists w, kv_get kv' k = Some w /\ veq w v = true) -> kv_same kv' kv.
Proof.
  intros R R' HL H k. destruct (kv_get kv k) as [v|] eqn:E.
  - destruct (H k v E) as (w & E1 & HV). rewrite E1. apply (proj1 (veq_iff w v (kv_get_good _ _ _ R' E1) (kv_get_good _ _ _ R E))). exact HV.
  - destruct (kv_get kv' k) as [w|] eqn:E'; [|exact I].
    assert (HI : incl (kv_keys kv') (kv_keys kv)).
    { apply NoDup_length_incl; [apply R| |].
      - unfold kv_keys. rewrite !map_length. lia.
      - intros x Hx. destruct (kv_get kv x) as [y|] eqn:EX.
        + destruct (H x y EX) as (z & EZ & _). apply kv_get_In in EZ. apply (in_map fst) in EZ. exact EZ.
        + apply kv_get_none in EX. contradiction. }
    apply kv_get_none in E. apply E. apply HI. apply kv_get_In in E'. apply (in_map fst) in E'. exact E'.
Qed.
Lemma kv_same_length kv kv' : kv_rep kv -> kv_rep kv' -> kv_same kv' kv -> length kv' = length kv.
Proof.
  intros [ND _] [ND' _] H.
  assert (P : forall x, In x (kv_keys kv) <-> In x (kv_keys kv')).
  { intros x. specialize (H x). destruct (kv_get kv x) eqn:E, (kv_get kv' x) eqn:E'; try contradiction.
    - apply kv_get_In in E, E'. apply (in_map fst) in E, E'. tauto.
    - apply kv_get_none in E, E'. tauto. }
  pose proof (NoDup_Permutation ND ND' P) as Q. apply Permutation_length in Q. unfold kv_keys in Q. rewrite !map_length in Q. auto.
Qed.
Lemma kv_same_get kv kv' : kv_rep kv -> kv_rep kv' -> kv_same kv' kv ->
  forall k v, kv_get kv k = Some v -> exists w, kv_get kv' k = Some w /\ veq w v = true.
Proof.
  intros R R' H k v E. specialize (H k). rewrite E in H. destruct (kv_get kv' k) as [w|] eqn:E'; [|contradiction].
  exists w. split; [reflexivity|]. apply veq_iff; eauto using kv_get_good.
Qed.
Lemma recorded_all es kv id : ents_ok es -> kv_rep kv -> kv <> [] ->
  ((forall k v, kv_get kv k = Some v -> recorded es k v (length kv - 1) id) <->
   exists kv', In (id, kv') es /\ kv_same kv' kv).
Proof.
  intros OK R NE. assert (Hn : 1 <= length kv) by (destruct kv; [contradiction|cbn; lia]). split.
  - intros H. destruct kv as [|[k0 v0] r]; [contradiction|]. set (kv := (k0, v0) :: r) in *.
    assert (E0 : kv_get kv k0 = Some v0) by (cbn; rewrite String.eqb_refl; reflexivity).
    destruct (H k0 v0 E0) as (kv' & w & HI & HL & HK & HV). exists kv'. split; [exact HI|].
    apply kv_same_of; auto.
    + destruct OK as (_ & O & _). destruct (O _ _ HI). auto.
    + lia.
    + intros k v E. destruct (H k v E) as (kv2 & w2 & HI2 & _ & HK2 & HV2).
      pose proof (ents_fun es id kv' kv2 OK HI HI2) as <-. eauto.
  - intros (kv' & HI & HS) k v E. assert (R' : kv_rep kv') by (destruct OK as (_ & O & _); destruct (O _ _ HI); auto).
    destruct (kv_same_get kv kv' R R' HS k v E) as (w & HK & HV). exists kv', w. repeat split; auto.
    rewrite (kv_same_length kv kv') by auto. lia.
Qed.

Definition present (es : ents) (kv : KeyValues) : Prop := exists id kv', In (id, kv') es /\ kv_same kv' kv.

(** what the scan of a list of nodes finds, if there is one right node for each pair *)
Lemma scan_spec es kv nodes : ents_ok es -> kv_rep kv -> kv <> [] ->
  (forall x, Forall (fun lv => In x (level (length kv) lv)) nodes <->
             forall k v, kv_get kv k = Some v -> recorded es k v (length kv - 1) x) ->
  nodes <> [] ->
  (forall id kv', In (id, kv') es -> kv_same kv' kv -> scan (length kv) nodes = Some [id]) /\
  (~ present es kv -> scan (length kv) nodes = Some []).
Proof.
  intros OK R NE HF HN. assert (Hn : 1 <= length kv) by (destruct kv; [contradiction|cbn; lia]).
  destruct (scan_fold (length kv) nodes None Hn) as (s & E & ND & HS); [discriminate|auto|].
  assert (E' : scan (length kv) nodes = Some s) by exact E. rewrite E'.
  assert (HS' : forall x, In x s <-> exists kv', In (x, kv') es /\ kv_same kv' kv).
  { intros x. rewrite HS, HF, recorded_all by auto. split; [tauto|]. intros H; split; [discriminate|auto]. }
  split.
  - intros id kv' HI HK. f_equal. apply nodup_single; [exact ND|apply HS'; eauto|].
    intros y Hy. apply HS' in Hy as (kv2 & HI2 & HK2). destruct OK as (_ & _ & U). apply (U y kv2 id kv' HI2 HI).
    intros k. specialize (HK k). specialize (HK2 k).
    destruct (kv_get kv2 k), (kv_get kv k), (kv_get kv' k); try contradiction; auto.
    eapply same_value_trans; eauto using same_value_sym.
  - intros NP. destruct s as [|x s]; [reflexivity|]. exfalso. apply NP. destruct (proj1 (HS' x)) as (kv' & ? & ?); [left; reflexivity|].
    exists x, kv'. auto.
Qed.

Lemma in_sorted_get kv k v : kv_rep kv -> In (k, v) (sorted_kv kv) <-> kv_get kv k = Some v.
Proof.
  intros R. rewrite kv_get_iff by apply R. split; apply Permutation_in; [|symmetry]; apply sorted_kv_perm.
Qed.
(** the nodes found for the pairs, when every pair has one *)
Lemma found_nodes_forall ix kv (P : levels -> Prop) : kv_rep kv ->
  Forall P (found_nodes ix (sorted_kv kv)) <->
  forall k v lv, kv_get kv k = Some v -> node_of ix k v = Some lv -> P lv.
Proof.
  intros R. unfold found_nodes. rewrite Forall_flat_map, Forall_forall. split.
  - intros H k v lv HK HNode. apply in_sorted_get in HK; auto. specialize (H _ HK). cbn in H. rewrite HNode in H. inversion H; auto.
  - intros H [k v] HI. cbn. destruct (node_of ix k v) as [lv|] eqn:E; [|constructor]. constructor; [|constructor].
    apply in_sorted_get in HI; auto. eauto.
Qed.
Lemma found_nodes_length ix kv : length (found_nodes ix kv) <= length kv.
Proof.
  induction kv as [|[k v] r IH]; cbn; [lia|]. destruct (node_of ix k v); cbn; unfold found_nodes in IH; lia.
Qed.
Lemma found_nodes_all ix kv : length (found_nodes ix kv) = length kv <-> (forall k v, In (k, v) kv -> node_of ix k v <> None).
Proof.
  induction kv as [|[k v] r IH]; cbn; [split; [intros _ ? ? []|reflexivity]|].
  pose proof (found_nodes_length ix r) as HL. unfold found_nodes in *.
  destruct (node_of ix k v) as [lv|] eqn:E; cbn.
  - rewrite <- Nat.succ_inj_wd in IH. rewrite IH. split.
    + intros H k' v' [[= <- <-] | HI]; [congruence|auto].
    + intros H k' v' HI. apply H. auto.
  - split; [lia|]. intros H. exfalso. apply (H k v); auto.
Qed.

(** ** prepare *)
Lemma prepare_spec ix es kv : idx ix es -> ents_ok es -> kv_rep kv -> kv <> [] ->
  let r := prepare ix kv in
  iwf (fst r) /\
  (forall k v, good v -> node_of (fst r) k v =
     match kv_get kv k with
     | Some w => if veq w v then Some (extend (length kv) (match node_of ix k v with Some l => l | None => [] end)) else node_of ix k v
     | None => node_of ix k v
     end) /\
  (forall id kv', In (id, kv') es -> kv_same kv' kv -> snd r = Some [id]) /\
  (~ present es kv -> snd r = Some []).
Proof.
  intros (W & H1 & H2) OK R NE. cbv zeta. unfold prepare. cbn [fst snd].
  destruct (fold_sorted ensure_node g_ensure kv ix ensure_pointwise R W) as [W1 N1].
  destruct (fold_sorted _ _ kv _ (upd_pointwise (extend (length kv))) R W1) as [W2 N2].
  split; [exact W2|]. split.
  { intros k v Gv. rewrite N2, N1 by auto. destruct (kv_get kv k) as [w|]; [|reflexivity]. destruct (veq w v); reflexivity. }
  apply scan_spec; auto.
  - intros x. rewrite found_nodes_forall by auto.
    assert (K : forall k v, kv_get kv k = Some v -> exists lv, node_of (fold_left ensure_node (sorted_kv kv) ix) k v = Some lv /\ node_right es k v lv).
    { intros k v E. assert (Gv : good v) by eauto using kv_get_good. rewrite N1, E, veq_refl by auto. eexists. split; [reflexivity|].
      destruct (node_of ix k v) as [l|] eqn:EN; [apply H1; auto|].
      split; [|intros L; destruct L; constructor]. intros L i. split; [destruct L; intros []|].
      intros HR. exfalso. eapply (recorded_none es k v (ents_good es OK) ix); eauto. }
    split.
    + intros H k v E. destruct (K k v E) as (lv & EN & HR & _). apply HR. apply (H k v lv E EN).
    + intros H k v lv E EN. destruct (K k v E) as (lv' & EN' & HR & _). rewrite EN in EN'. injection EN' as <-. apply HR, H, E.
  - intros C. apply (f_equal (@length _)) in C.
    assert (L : length (found_nodes (fold_left ensure_node (sorted_kv kv) ix) (sorted_kv kv)) = length (sorted_kv kv)).
    { apply found_nodes_all. intros k v HI. apply in_sorted_get in HI; auto. rewrite N1 by eauto using kv_get_good. rewrite HI.
      rewrite veq_refl by eauto using kv_get_good. discriminate. }
    rewrite L, (Permutation_length (sorted_kv_perm kv)) in C. destruct kv; [contradiction|discriminate].
Qed.

(** when the set is present nothing changes *)
Lemma prepare_present ix es kv : idx ix es -> ents_ok es -> kv_rep kv -> kv <> [] -> present es kv -> idx (fst (prepare ix kv)) es.
Proof.
  intros I OK R NE (id & kv' & HI & HS). destruct (prepare_spec ix es kv I OK R NE) as (W & N & _ & _).
  apply (idx_ext ix); auto. intros k v Gv. rewrite N by auto. destruct (kv_get kv k) as [w|] eqn:E; [|reflexivity].
  destruct (veq w v) eqn:EV; [|reflexivity]. destruct I as (IW & H1 & H2).
  assert (R' : kv_rep kv') by (destruct OK as (_ & O & _); destruct (O _ _ HI); auto).
  destruct (kv_same_get kv kv' R R' HS k w E) as (w' & E' & EV').
  assert (Gw : good w) by eauto using kv_get_good. assert (Gw' : good w') by eauto using kv_get_good.
  assert (V' : veq w' v = true) by (rewrite (veq_tr w' w v) by auto; exact EV).
  specialize (H2 id kv' k w' HI E'). rewrite (node_congr ix k w' v) in H2 by auto.
  destruct (node_of ix k v) as [lv|] eqn:EN; [|contradiction]. f_equal. apply extend_id.
  destruct (H1 k v lv Gv EN) as [[HR _] _]. assert (IN : In id (nth (length kv - 1) lv [])).
  { apply HR. exists kv', w'. repeat split; auto. rewrite (kv_same_length kv kv') by auto. destruct kv; [contradiction|cbn; lia]. }
  apply in_level_length in IN; [exact IN|]. destruct kv; [contradiction|cbn; lia].
Qed.

Definition kv_sameb (kv kv' : KeyValues) : bool :=
  Nat.eqb (length kv') (length kv) && forallb (fun p => match kv_get kv' (fst p) with Some w => veq w (snd p) | None => false end) kv.
Lemma kv_sameb_iff kv kv' : kv_rep kv -> kv_rep kv' -> kv_sameb kv kv' = true <-> kv_same kv' kv.
Proof.
  intros R R'. unfold kv_sameb. rewrite andb_true_iff, Nat.eqb_eq, forallb_forall. split.
  - intros [HL H]. apply kv_same_of; auto. intros k v E. apply kv_get_In in E. specialize (H _ E). cbn in H.
    destruct (kv_get kv' k); [eauto|discriminate].
  - intros HS. split; [apply kv_same_length; auto|]. intros [k v] HI. cbn. apply In_kv_get in HI; [|apply R].
    destruct (kv_same_get kv kv' R R' HS k v HI) as (w & -> & EV). exact EV.
Qed.
Lemma kv_same_sym a b : kv_same a b -> kv_same b a.
Proof. intros H k. specialize (H k). destruct (kv_get a k), (kv_get b k); auto using same_value_sym. Qed.
Lemma kv_same_refl a : kv_same a a.
Proof. intros k. destruct (kv_get a k); auto using same_value_refl. Qed.
Lemma present_dec es kv : ents_ok es -> kv_rep kv -> kv <> [] -> present es kv \/ ~ present es kv.
Proof.
  intros OK R _. destruct (existsb (fun e => kv_sameb kv (snd e)) es) eqn:E.
  - left. apply existsb_exists in E as ([id kv'] & HI & E). exists id, kv'. split; [exact HI|]. apply kv_sameb_iff; auto.
    destruct OK as (_ & O & _). destruct (O _ _ HI); auto.
  - right. intros (id & kv' & HI & HS). apply not_true_iff_false in E. apply E. apply existsb_exists. exists (id, kv'). split; [exact HI|].
    apply kv_sameb_iff; auto. destruct OK as (_ & O & _). destruct (O _ _ HI); auto.
Qed.

(** * The operations *)
Section Ops.
  Context {A : Type}.
  Definition ents_of (items : list (item A)) : ents := map (fun it => (it_id it, it_kv it)) items.
  Definition ainv (t : atree A) : Prop := ents_ok (ents_of (a_items t)) /\ idx (a_index t) (ents_of (a_items t)).

  Lemma in_ents_of items id kv : In (id, kv) (ents_of items) <-> exists it, In it items /\ it_id it = id /\ it_kv it = kv.
  Proof.
    unfold ents_of. rewrite in_map_iff. split.
    - intros (it & [= <- <-] & HI). eauto.
    - intros (it & HI & <- & <-). eauto.
  Qed.
  Lemma ents_ids (items : list (item A)) : map fst (ents_of items) = map it_id items.
  Proof. unfold ents_of. rewrite map_map. reflexivity. Qed.
  Lemma find_item_some items id it : find_item items id = Some it -> In it items /\ it_id (A := A) it = id.
  Proof. intros H. apply find_some in H as [H E]. apply String.eqb_eq in E. auto. Qed.
  Lemma find_item_none (items : list (item A)) id : find_item items id = None <-> ~ In id (map it_id items).
  Proof.
    unfold find_item. split.
    - intros H C. apply in_map_iff in C as (it & <- & HI). apply (find_none _ _ H) in HI. rewrite String.eqb_refl in HI. discriminate.
    - intros H. destruct (find _ items) as [it|] eqn:E; [|reflexivity]. apply find_some in E as [HI E]. apply String.eqb_eq in E. subst.
      exfalso. apply H. apply in_map. exact HI.
  Qed.
  Lemma in_find_item items (it : item A) : NoDup (map it_id items) -> In it items -> find_item items (it_id it) = Some it.
  Proof.
    unfold find_item. induction items as [|i r IH]; [intros _ []|]. cbn. intros ND. apply NoDup_cons_iff in ND as [N ND].
    intros [-> | HI]; [rewrite String.eqb_refl; reflexivity|]. destruct (String.eqb_spec (it_id i) (it_id it)) as [E|NE]; [|auto].
    exfalso. apply N. rewrite E. apply in_map. exact HI.
  Qed.
  Lemma ents_remove (items : list (item A)) id : ents_of (remove_item items id) = without id (ents_of items).
  Proof.
    unfold ents_of, remove_item, without. induction items as [|i r IH]; [reflexivity|]. cbn.
    destruct (String.eqb (it_id i) id); cbn; rewrite IH; reflexivity.
  Qed.
  Lemma in_remove_item (items : list (item A)) id it : In it (remove_item items id) <-> In it items /\ it_id it <> id.
  Proof. unfold remove_item. rewrite filter_In, negb_true_iff, String.eqb_neq. tauto. Qed.
  Lemma remove_item_id (items : list (item A)) id : ~ In id (map it_id items) -> remove_item items id = items.
  Proof.
    induction items as [|i r IH]; [reflexivity|]. cbn. intros H. destruct (String.eqb_spec (it_id i) id) as [E|NE].
    - exfalso. auto.
    - cbn. f_equal. apply IH. auto.
  Qed.
  Lemma ainv_nodup t : ainv t -> NoDup (map it_id (a_items t)).
  Proof. intros [(ND & _) _]. rewrite ents_ids in ND. exact ND. Qed.

  Lemma present_iff (t : atree A) kv : present (ents_of (a_items t)) kv <-> holds_kv t kv.
  Proof.
    unfold present, holds_kv. setoid_rewrite in_ents_of. split.
    - intros (id & kv' & (it & HI & <- & <-) & HS). eauto.
    - intros (it & HI & HS). exists (it_id it), (it_kv it). eauto.
  Qed.

  (** cleaning up a tidy index changes no node *)
  Lemma cleanup_idx ix es kv : idx ix es -> ents_ok es -> kv_rep kv -> idx (fold_left cleanup_node (sorted_kv kv) ix) es.
  Proof.
    intros I OK R. destruct I as (W & H1 & H2). destruct (fold_sorted _ _ kv ix cleanup_pointwise R W) as [W' N'].
    apply (idx_ext ix); [exact OK|split; auto|exact W'|]. intros k v Gv. rewrite N' by auto.
    destruct (kv_get kv k) as [w|]; [|reflexivity]. destruct (veq w v); [|reflexivity].
    destruct (node_of ix k v) as [lv|] eqn:E; [|reflexivity]. destruct (H1 k v lv Gv E) as [_ [T _]]. destruct lv; [contradiction|reflexivity].
  Qed.
  (** removing an id and cleaning up *)
  Lemma remove_idx ix es id kv kv' : idx ix es -> ents_ok es -> kv_rep kv -> In (id, kv') es -> kv_same kv' kv ->
    idx (fold_left cleanup_node (sorted_kv kv) (fold_left (upd_node (remove_id (length kv) id)) (sorted_kv kv) ix)) (without id es).
  Proof.
    intros I OK R HI HS. assert (R' : kv_rep kv') by (destruct OK as (_ & O & _); destruct (O _ _ HI); auto).
    pose proof I as (W & H1 & H2).
    destruct (fold_sorted _ _ kv ix (upd_pointwise (remove_id (length kv) id)) R W) as [W1 N1].
    destruct (fold_sorted _ _ kv _ cleanup_pointwise R W1) as [W2 N2].
    apply (idx_remove ix _ es id kv' I OK HI W2). intros k v Gv. rewrite N2, N1 by auto.
    rewrite (kv_same_length kv kv') by auto. specialize (HS k).
    destruct (kv_get kv' k) as [w'|] eqn:E', (kv_get kv k) as [w|] eqn:E; try contradiction; try reflexivity.
    assert (Gw : good w) by eauto using kv_get_good. assert (Gw' : good w') by eauto using kv_get_good.
    apply veq_iff in HS; auto. rewrite (veq_tr w' w v) by auto. destruct (veq w v); [|reflexivity].
    destruct (node_of ix k v) as [lv|]; [|reflexivity]. cbn. destruct (remove_id (length kv) id lv); reflexivity.
  Qed.

  Lemma validate_rep kv : kv_arg kv -> kv_validate kv MinDataType MaxDataType = true -> kv_rep kv /\ kv <> [].
  Proof.
    intros [ND HN] V. apply kv_validate_iff in V as [NE V]. split; [|exact NE]. split; [exact ND|].
    intros k v HI. split; [|eauto]. destruct (V k v HI) as [? _]. auto.
  Qed.

  (** ** Delete, on entries that may lack an item (the id of a create whose constructor returned nil) *)
  Lemma Delete_core items ix es kv can id kv' :
    idx ix es -> ents_ok es -> kv_rep kv -> kv_validate kv MinDataType MaxDataType = true -> In (id, kv') es -> kv_same kv' kv ->
    Delete (A := A) (mkTree items ix) kv can =
      let deleted := match find_item items id with Some it => can it | None => true end in
      if deleted then
        (mkTree (remove_item items id) (fold_left cleanup_node (sorted_kv kv) (fold_left (upd_node (remove_id (length kv) id)) (sorted_kv kv) ix)), ROk)
      else (mkTree items (fold_left cleanup_node (sorted_kv kv) ix), ROk).
  Proof.
    intros I OK R V HI HS. assert (NE : kv <> []) by (destruct kv; [discriminate|discriminate]).
    assert (Hn : 1 <= length kv) by (destruct kv; [contradiction|cbn; lia]).
    assert (R' : kv_rep kv') by (destruct OK as (_ & O & _); destruct (O _ _ HI); auto).
    pose proof I as (W & H1 & H2). unfold Delete. rewrite V. cbn [negb a_items a_index].
    assert (NN : forall k v, kv_get kv k = Some v -> exists lv, node_of ix k v = Some lv /\ node_right es k v lv).
    { intros k v E. assert (Gv : good v) by eauto using kv_get_good.
      destruct (kv_same_get kv kv' R R' HS k v E) as (w & E' & EV). specialize (H2 id kv' k w HI E').
      rewrite (node_congr ix k w v) in H2 by eauto using kv_get_good. destruct (node_of ix k v) as [lv|] eqn:EN; [|contradiction].
      exists lv. split; [reflexivity|]. apply (H1 k v lv Gv EN). }
    assert (LN : length (found_nodes ix (sorted_kv kv)) = length kv).
    { rewrite <- (Permutation_length (sorted_kv_perm kv)). apply found_nodes_all. intros k v HIk. apply in_sorted_get in HIk; auto.
      destruct (NN k v HIk) as (lv & -> & _). discriminate. }
    rewrite LN, Nat.eqb_refl.
    assert (REC : forall x, Forall (fun lv => In x (level (length kv) lv)) (found_nodes ix (sorted_kv kv)) <->
             forall k v, kv_get kv k = Some v -> recorded es k v (length kv - 1) x).
    { intros x. rewrite found_nodes_forall by auto. split.
      - intros H k v E. destruct (NN k v E) as (lv & EN & HR & _). apply HR. apply (H k v lv E EN).
      - intros H k v lv E EN. destruct (NN k v E) as (lv' & EN' & HR & _). rewrite EN in EN'. injection EN' as <-. apply HR, H, E. }
    assert (EX : existsb (fun lv : list (list string) => length lv <? length kv) (found_nodes ix (sorted_kv kv)) = false).
    { apply not_true_is_false. intros C. apply existsb_exists in C as (lv & HL & C). apply Nat.ltb_lt in C.
      assert (F : Forall (fun lv => In id (level (length kv) lv)) (found_nodes ix (sorted_kv kv))).
      { apply REC. apply recorded_all; eauto. }
      rewrite Forall_forall in F. specialize (F lv HL). apply in_level_length in F; auto. lia. }
    rewrite EX.
    destruct (scan_spec es kv (found_nodes ix (sorted_kv kv)) OK R NE REC) as [SC _].
    { intros C. rewrite C in LN. cbn in LN. lia. }
    rewrite (SC id kv' HI HS). reflexivity.
  Qed.
  Lemma Delete_absent items ix es kv can :
    idx ix es -> ents_ok es -> kv_rep kv -> ~ present es kv ->
    a_items (fst (Delete (A := A) (mkTree items ix) kv can)) = items /\ idx (a_index (fst (Delete (mkTree items ix) kv can))) es /\
    (kv_validate kv MinDataType MaxDataType = true -> snd (Delete (mkTree items ix) kv can) = ROk).
  Proof.
    intros I OK R NP. unfold Delete. destruct (kv_validate kv MinDataType MaxDataType) eqn:V; cbn [negb a_items a_index fst snd].
    2:{ split; [reflexivity|]. split; [exact I|discriminate]. }
    assert (NE : kv <> []) by (destruct kv; discriminate).
    assert (FIN : idx (fold_left cleanup_node (sorted_kv kv) ix) es) by (apply cleanup_idx; auto).
    destruct (Nat.eqb_spec (length (found_nodes ix (sorted_kv kv))) (length kv)) as [LN|LN]; [|split; [|split]; auto].
    destruct (existsb _ _); [split; [|split]; auto|].
    pose proof I as (W & H1 & H2).
    assert (SC : scan (length kv) (found_nodes ix (sorted_kv kv)) = Some []).
    { apply scan_spec with (es := es); auto.
      - intros x. rewrite found_nodes_forall by auto.
        assert (AL : forall k v, kv_get kv k = Some v -> exists lv, node_of ix k v = Some lv /\ node_right es k v lv).
        { intros k v E. rewrite <- (Permutation_length (sorted_kv_perm kv)) in LN. rewrite found_nodes_all in LN.
          specialize (LN k v). rewrite in_sorted_get in LN by auto. specialize (LN E). destruct (node_of ix k v) as [lv|] eqn:EN; [|contradiction].
          exists lv. split; [reflexivity|]. apply (H1 k v lv); eauto using kv_get_good. }
        split.
        + intros H k v E. destruct (AL k v E) as (lv & EN & HR & _). apply HR. apply (H k v lv E EN).
        + intros H k v lv E EN. destruct (AL k v E) as (lv' & EN' & HR & _). rewrite EN in EN'. injection EN' as <-. apply HR, H, E.
      - intros C. rewrite C in LN. cbn in LN. destruct kv; [contradiction|discriminate]. }
    rewrite SC. split; [|split]; auto.
  Qed.

  Lemma Delete_spec t kv can : ainv t -> kv_arg kv ->
    let r := Delete t kv can in
    ainv (fst r) /\
    (kv_validate kv MinDataType MaxDataType = false -> r = (t, RInvalid)) /\
    (kv_validate kv MinDataType MaxDataType = true -> snd r = ROk /\
      (forall it, In it (a_items t) -> kv_same (it_kv it) kv -> can it = true -> a_items (fst r) = remove_item (a_items t) (it_id it)) /\
      ((forall it, In it (a_items t) -> kv_same (it_kv it) kv -> can it = false) -> a_items (fst r) = a_items t)).
  Proof.
    intros AI HA. cbv zeta. destruct (kv_validate kv MinDataType MaxDataType) eqn:V.
    2:{ assert (E : Delete t kv can = (t, RInvalid)) by (unfold Delete; rewrite V; reflexivity). rewrite E.
        split; [exact AI|]. split; [auto|discriminate]. }
    destruct (validate_rep kv HA V) as [R NE]. pose proof AI as [OK I]. destruct t as [items ix]. cbn [a_items a_index] in *.
    destruct (present_dec (ents_of items) kv OK R NE) as [P|NP].
    - pose proof P as (id & kv' & HI & HS). pose proof HI as HI'. apply in_ents_of in HI' as (it & Hit & Eid & Ekv). subst id kv'.
      rewrite (Delete_core items ix (ents_of items) kv can _ _ I OK R V HI HS). cbv zeta.
      rewrite (in_find_item items it) by (auto; apply (ainv_nodup _ AI)).
      assert (U : forall it', In it' items -> kv_same (it_kv it') kv -> it' = it).
      { intros it' HI2 HS2. assert (E : it_id it' = it_id it).
        { destruct OK as (_ & _ & U). eapply U; [apply in_ents_of; eauto|exact HI|].
          intros k. specialize (HS k). specialize (HS2 k). destruct (kv_get (it_kv it') k), (kv_get kv k), (kv_get (it_kv it) k); try contradiction; auto.
          eapply same_value_trans; eauto using same_value_sym. }
        pose proof (in_find_item items it' (ainv_nodup _ AI) HI2) as F1. pose proof (in_find_item items it (ainv_nodup _ AI) Hit) as F2.
        rewrite E in F1. congruence. }
      destruct (can it) eqn:EC; cbn [fst snd a_items].
      + split; [|split; [discriminate|]].
        * split; cbn [a_items a_index]; rewrite ents_remove; [apply ents_ok_without; auto|eapply remove_idx; eauto].
        * intros _. split; [reflexivity|]. split.
          -- intros it' HI2 HS2 HC2. rewrite (U it' HI2 HS2). reflexivity.
          -- intros H. rewrite (H it Hit HS) in EC. discriminate.
      + split; [|split; [discriminate|]].
        * split; [exact OK|]. cbn [a_items a_index]. apply cleanup_idx; auto.
        * intros _. split; [reflexivity|]. split; [|reflexivity].
          intros it' HI2 HS2 HC2. rewrite (U it' HI2 HS2) in HC2. congruence.
    - destruct (Delete_absent items ix (ents_of items) kv can I OK R NP) as (E1 & E2 & E3).
      split; [split; rewrite E1; auto|]. split; [discriminate|]. intros _. split; [auto|]. split; [|auto].
      intros it HI HS. exfalso. apply NP. exists (it_id it), (it_kv it). split; [apply in_ents_of; eauto|exact HS].
  Qed.

  (** ** Storing a new item *)
  Lemma store_idx ix es kv id : idx ix es -> ents_ok es -> kv_rep kv -> kv <> [] -> ~ In id (map fst es) -> ~ present es kv ->
    idx (fold_left (upd_node (add_id (length kv) id)) (sorted_kv kv) (fst (prepare ix kv))) ((id, kv) :: es) /\ ents_ok ((id, kv) :: es).
  Proof.
    intros I OK R NE FR NP. destruct (prepare_spec ix es kv I OK R NE) as (W & N & _).
    destruct (fold_sorted _ _ kv _ (upd_pointwise (add_id (length kv) id)) R W) as [W1 N1]. split.
    - apply (idx_add ix); auto. intros k v Gv. rewrite N1, N by auto. destruct (kv_get kv k) as [w|]; [|reflexivity].
      destruct (veq w v); reflexivity.
    - destruct OK as (O1 & O2 & O3). split; [|split].
      + cbn. constructor; auto.
      + intros i kv' [[= <- <-] | HI]; eauto.
      + intros i kv1 i' kv2 [E1 | H1] [E2 | H2] HS.
        * congruence.
        * injection E1 as <- <-. exfalso. apply NP. exists i', kv2. split; [exact H2|apply kv_same_sym; exact HS].
        * injection E2 as <- <-. exfalso. apply NP. exists i, kv1. auto.
        * eauto.
  Qed.
  Lemma idx_perm ix es es' : (forall e, In e es <-> In e es') -> idx ix es -> idx ix es'.
  Proof.
    intros P (W & H1 & H2).
    assert (RR : forall k v L i, recorded es k v L i <-> recorded es' k v L i).
    { intros. unfold recorded. setoid_rewrite P. reflexivity. }
    split; [auto|]. split.
    - intros k v lv Gv E. destruct (H1 k v lv Gv E) as [[HR HD] HT]. split; [split; [|exact HD]|exact HT]. intros. rewrite HR. apply RR.
    - intros id kv k w HI. apply P in HI. eauto.
  Qed.
  Lemma store_spec t kv id mk failed : ainv t -> kv_arg kv -> kv_validate kv MinDataType MaxDataType = true ->
    ~ In id (map it_id (a_items t)) -> ~ holds_kv t kv ->
    let r := store t (fst (prepare (a_index t) kv)) kv id mk failed in
    ainv (fst r) /\
    match mk with
    | Some a => snd r = RId id /\ a_items (fst r) = a_items t ++ [mkItem id kv a]
    | None => snd r = failed /\ a_items (fst r) = a_items t
    end.
  Proof.
    intros AI HA V FR NP. pose proof AI as [OK I]. destruct (validate_rep kv HA V) as [R NE].
    rewrite <- present_iff in NP. rewrite <- ents_ids in FR.
    destruct (store_idx (a_index t) _ kv id I OK R NE FR NP) as [I' OK']. rewrite ents_ids in FR.
    cbv zeta. unfold store. destruct mk as [a|].
    - rewrite (proj2 (find_item_none _ _) FR). cbn [fst snd a_items]. split; [|auto].
      assert (EE : ents_of (a_items t ++ [mkItem id kv a]) = ents_of (a_items t) ++ [(id, kv)]) by (unfold ents_of; rewrite map_app; reflexivity).
      split; cbn [a_items a_index]; rewrite EE.
      + destruct OK' as (O1 & O2 & O3).
        assert (P : Permutation ((id, kv) :: ents_of (a_items t)) (ents_of (a_items t) ++ [(id, kv)])) by apply Permutation_cons_append.
        split; [|split].
        * apply (Permutation_NoDup (Permutation_map fst P)). exact O1.
        * intros i kv' HI. apply (Permutation_in _ (Permutation_sym P)) in HI. eauto.
        * intros i kv1 i' kv2 H1 H2. apply (Permutation_in _ (Permutation_sym P)) in H1, H2. eauto.
      + eapply idx_perm; [|exact I']. intros e. rewrite in_app_iff. cbn. tauto.
    - cbn [fst snd].
      rewrite (Delete_core (a_items t) _ _ kv (fun _ => true) id kv I' OK' R V (or_introl eq_refl)) by (apply kv_same_refl).
      rewrite (proj2 (find_item_none _ _) FR). cbv zeta. cbn [fst a_items]. rewrite remove_item_id by exact FR.
      split; [|auto]. split; [exact OK|]. cbn [a_items a_index].
      pose proof (remove_idx _ _ id kv kv I' OK' R (or_introl eq_refl) (kv_same_refl kv)) as RI.
      assert (EW : without id ((id, kv) :: ents_of (a_items t)) = ents_of (a_items t)).
      { unfold without. cbn. rewrite String.eqb_refl. cbn. fold (without id (ents_of (a_items t))). rewrite <- ents_remove, remove_item_id by exact FR. reflexivity. }
      rewrite EW in RI. exact RI.
  Qed.

  Lemma Create_spec t kv id mk : ainv t -> kv_arg kv -> ~ In id (map it_id (a_items t)) ->
    let r := Create t kv id mk in
    ainv (fst r) /\
    (kv_validate kv MinDataType MaxDataType = false -> r = (t, RInvalid)) /\
    (kv_validate kv MinDataType MaxDataType = true -> holds_kv t kv -> snd r = RExists /\ a_items (fst r) = a_items t) /\
    (kv_validate kv MinDataType MaxDataType = true -> ~ holds_kv t kv ->
       match mk with
       | Some a => snd r = RId id /\ a_items (fst r) = a_items t ++ [mkItem id kv a]
       | None => snd r = REmpty /\ a_items (fst r) = a_items t
       end).
  Proof.
    intros AI HA FR. cbv zeta. unfold Create. destruct (kv_validate kv MinDataType MaxDataType) eqn:V; cbn [negb].
    2:{ split; [exact AI|]. split; [auto|]. split; discriminate. }
    destruct (validate_rep kv HA V) as [R NE]. pose proof AI as [OK I].
    destruct (prepare_spec (a_index t) _ kv I OK R NE) as (_ & _ & P1 & P2).
    destruct (prepare (a_index t) kv) as [ix ids] eqn:EP. cbn [fst snd] in *.
    destruct (present_dec (ents_of (a_items t)) kv OK R NE) as [P|NP].
    - pose proof P as (id' & kv' & HI & HS). rewrite (P1 id' kv' HI HS). cbn [fst snd a_items].
      split; [|split; [discriminate|]].
      + split; [exact OK|]. cbn [a_items a_index]. pose proof (prepare_present _ _ kv I OK R NE P) as PP. rewrite EP in PP. exact PP.
      + split; [auto|]. intros _ H. exfalso. apply H. apply present_iff. exact P.
    - rewrite (P2 NP). rewrite present_iff in NP. pose proof (store_spec t kv id mk REmpty AI HA V FR NP) as SP. rewrite EP in SP. cbn [fst] in SP.
      destruct SP as [S1 S2]. split; [exact S1|]. split; [discriminate|]. split; [intros _ H; contradiction|]. intros _ _. exact S2.
  Qed.

  (** ** Destroying *)
  Lemma drop_node_pointwise n id ix k v : iwf ix -> good v -> (forall lv, node_of ix k v = Some lv -> n <= length lv) ->
    exists ix', drop_node n id (Some ix) (k, v) = Some ix' /\ iwf ix' /\
      forall k' v', good v' ->
        node_of ix' k' v' = if String.eqb k k' && veq v v' then g_drop n id (node_of ix k' v') else node_of ix k' v'.
  Proof.
    intros W Gv HL. unfold drop_node. cbn [fst snd]. unfold node_of in HL. destruct (aget String.eqb k ix) as [vs|] eqn:EK.
    2:{ exists ix. split; [reflexivity|]. split; [auto|]. intros k' v' Gv'. destruct (String.eqb_spec k k') as [-> | N]; [|reflexivity].
        unfold node_of. rewrite EK. destruct (veq v v'); reflexivity. }
    destruct (iwf_get ix k vs W EK) as [VW NE].
    destruct (aget veq v vs) as [lv|] eqn:EV.
    2:{ destruct vs as [|p r]; [contradiction|]. exists ix. split; [reflexivity|]. split; [auto|].
        intros k' v' Gv'. destruct (String.eqb_spec k k') as [-> | N]; [|reflexivity]. cbn [andb]. destruct (veq v v') eqn:E; [|reflexivity].
        unfold node_of. rewrite EK. rewrite <- (aget_congr veq good veq_tr v v') by auto. rewrite EV. reflexivity. }
    specialize (HL lv eq_refl). destruct (Nat.ltb_spec (length lv) n) as [C|_]; [lia|].
    set (vs' := match remove_id n id lv with [] => adel veq v vs | _ => aset veq v (remove_id n id lv) vs end).
    assert (VW' : vwf vs').
    { unfold vs'. destruct (remove_id n id lv); [apply adel_wf; auto|apply aset_wf; auto with amap]. }
    destruct (put_vals ix k vs' W VW') as [W' N']. eexists. split; [reflexivity|]. split; [exact W'|].
    intros k' v' Gv'. etransitivity; [apply N'|]. destruct (String.eqb_spec k k') as [-> | N]; [|reflexivity]. cbn [andb].
    unfold node_of. rewrite EK. unfold vs'. destruct (veq v v') eqn:E.
    - rewrite <- (aget_congr veq good veq_tr v v' vs) by auto. rewrite EV. cbn [g_drop].
      destruct (remove_id n id lv) eqn:ER.
      + rewrite (aget_adel veq good) by auto with amap. rewrite E. reflexivity.
      + rewrite (aget_aset veq good) by auto with amap. rewrite E. reflexivity.
    - destruct (remove_id n id lv) eqn:ER.
      + rewrite (aget_adel veq good) by auto with amap. rewrite E. reflexivity.
      + rewrite (aget_aset veq good) by auto with amap. rewrite E. reflexivity.
  Qed.
  Lemma drop_fold n id kv : forall ix, kv_rep kv -> iwf ix -> (forall k v lv, In (k, v) kv -> node_of ix k v = Some lv -> n <= length lv) ->
    exists ix', fold_left (drop_node n id) kv (Some ix) = Some ix' /\ iwf ix' /\
      forall k v, good v -> node_of ix' k v =
        match kv_get kv k with
        | Some w => if veq w v then g_drop n id (node_of ix k v) else node_of ix k v
        | None => node_of ix k v
        end.
  Proof.
    induction kv as [|[k0 v0] r IH]; intros ix [ND HG] W HL; [exists ix; auto|]. cbn [fold_left].
    apply NoDup_cons_iff in ND as [N ND]. assert (G0 : good v0) by (eapply HG; left; reflexivity).
    destruct (drop_node_pointwise n id ix k0 v0 W G0) as (ix1 & E1 & W1 & N1); [intros; eapply HL; [left; reflexivity|eassumption]|].
    rewrite E1. destruct (IH ix1) as (ix2 & E2 & W2 & N2); auto.
    { split; [exact ND|]. intros; eapply HG; right; eauto. }
    { intros k v lv HI E. rewrite N1 in E by (eapply HG; right; eauto).
      destruct (String.eqb_spec k0 k) as [-> | NK]; [exfalso; apply N; apply (in_map fst) in HI; exact HI|]. cbn in E. eapply HL; [right; eauto|exact E]. }
    exists ix2. split; [exact E2|]. split; [exact W2|]. intros k v Gv. rewrite N2, N1 by auto. cbn [kv_get].
    destruct (String.eqb_spec k0 k) as [-> | NK].
    - assert (EN : kv_get r k = None) by (apply kv_get_none; exact N). rewrite EN. cbn. destruct (veq v0 v); reflexivity.
    - reflexivity.
  Qed.
  Lemma drop_kv_spec ix es id kv : idx ix es -> ents_ok es -> In (id, kv) es -> exists ix', drop_kv ix id kv = Some ix' /\ idx ix' (without id es).
  Proof.
    intros I OK HI. pose proof I as (W & H1 & H2). destruct OK as (O1 & O2 & O3) eqn:EO. destruct (O2 _ _ HI) as [R NE].
    assert (OK' : ents_ok es) by auto. clear EO.
    unfold drop_kv. destruct (drop_fold (length kv) id (sorted_kv kv) ix (sorted_kv_rep kv R) W) as (ix' & E & W' & N).
    { intros k v lv HK EN. apply in_sorted_get in HK; auto. assert (Gv : good v) by eauto using kv_get_good.
      destruct (H1 k v lv Gv EN) as [[HR _] _]. assert (IN : In id (nth (length kv - 1) lv [])).
      { apply HR. exists kv, v. repeat split; auto using veq_refl. destruct kv; [contradiction|cbn; lia]. }
      apply in_level_length in IN; auto. destruct kv; [contradiction|cbn; lia]. }
    exists ix'. split; [exact E|]. apply (idx_remove ix _ es id kv); auto. intros k v Gv. rewrite N by auto. rewrite sorted_kv_get by auto. reflexivity.
  Qed.

  Lemma DestroyByID_spec t id can : ainv t ->
    let r := DestroyByAssociatedID (A := A) t id can in
    ainv (fst r) /\
    (id = EmptyString -> r = (t, RInvalid)) /\
    (id <> EmptyString -> snd r = ROk /\
      (forall it, In it (a_items t) -> it_id it = id -> can it = true -> a_items (fst r) = remove_item (a_items t) id) /\
      ((forall it, In it (a_items t) -> it_id it = id -> can it = false) -> a_items (fst r) = a_items t)).
  Proof.
    intros AI. cbv zeta. unfold DestroyByAssociatedID. destruct (String.eqb_spec id EmptyString) as [-> | NE].
    { split; [exact AI|]. split; [auto|contradiction]. }
    pose proof AI as [OK I].
    destruct (find_item (a_items t) id) as [it|] eqn:EF.
    - apply find_item_some in EF as [HI Eid]. destruct (can it) eqn:EC.
      + destruct (drop_kv_spec (a_index t) _ id (it_kv it) I OK) as (ix' & -> & I'); [apply in_ents_of; eauto|]. cbn [fst snd a_items].
        split; [split; cbn [a_items a_index]; rewrite ents_remove; auto using ents_ok_without|]. split; [congruence|]. intros _.
        split; [reflexivity|]. split; [auto|]. intros H. rewrite (H it HI Eid) in EC. discriminate.
      + cbn [fst snd]. split; [exact AI|]. split; [congruence|]. intros _. split; [reflexivity|]. split; [|auto].
        intros it' HI' Eid' EC'. pose proof (in_find_item _ it' (ainv_nodup t AI) HI') as F1. pose proof (in_find_item _ it (ainv_nodup t AI) HI) as F2.
        rewrite Eid' in F1. rewrite Eid in F2. congruence.
    - cbn [fst snd]. split; [exact AI|]. split; [congruence|]. intros _. split; [reflexivity|]. split; [|auto].
      intros it HI Eid. apply find_item_none in EF. exfalso. apply EF. rewrite <- Eid. apply in_map. exact HI.
  Qed.

  Lemma destroy_items_spec its : forall (t : atree A) can, ainv t -> NoDup (map it_id its) -> incl its (a_items t) ->
    let r := destroy_items t its can in
    ainv (fst r) /\ snd r = ROk /\ exists gone rest, its = gone ++ rest /\ Forall (fun i => can i = true) gone /\
      match rest with [] => True | i :: _ => can i = false end /\
      forall i, In i (a_items (fst r)) <-> In i (a_items t) /\ ~ In i gone.
  Proof.
    induction its as [|it r IH]; intros t can AI ND HI; cbn [destroy_items].
    - split; [exact AI|]. split; [reflexivity|]. exists [], []. repeat split; auto; tauto.
    - destruct (can it) eqn:EC.
      + pose proof AI as [OK I]. assert (Hit : In it (a_items t)) by (apply HI; left; reflexivity).
        destruct (drop_kv_spec (a_index t) _ (it_id it) (it_kv it) I OK) as (ix' & -> & I'); [apply in_ents_of; eauto|].
        cbn in ND. apply NoDup_cons_iff in ND as [N ND].
        destruct (IH (mkTree (remove_item (a_items t) (it_id it)) ix') can) as (A1 & A2 & gone & rest & -> & F & RR & IN); auto.
        { split; cbn [a_items a_index]; rewrite ents_remove; auto using ents_ok_without. }
        { intros i Hi. cbn [a_items]. apply in_remove_item. split; [apply HI; right; exact Hi|]. intros E. apply N. rewrite <- E. apply in_map. exact Hi. }
        cbn [a_items] in IN. split; [exact A1|]. split; [exact A2|]. exists (it :: gone), rest. split; [reflexivity|]. split; [constructor; auto|].
        split; [exact RR|]. intros i. rewrite IN, in_remove_item. cbn. split.
        * intros [[H1 H2] H3]. split; [exact H1|]. intros [<- | C]; auto.
        * intros [H1 H2]. split; [split; [exact H1|]|auto]. intros E. apply H2. left.
          pose proof (in_find_item _ i (ainv_nodup t AI) H1) as F1. pose proof (in_find_item _ it (ainv_nodup t AI) Hit) as F2. rewrite E in F1. congruence.
      + cbn [fst snd]. split; [exact AI|]. split; [reflexivity|]. exists [], (it :: r). repeat split; auto; tauto.
  Qed.
  Lemma ainv_empty : ainv (mkTree [] []).
  Proof.
    split.
    - split; [constructor|]. split; [intros ? ? []|intros ? ? ? ? []].
    - split; [apply iwf_nil|]. split; [intros; discriminate|intros ? ? ? ? []].
  Qed.
End Ops.
