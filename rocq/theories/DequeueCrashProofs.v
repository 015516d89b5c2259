(** When a search panics. *)
From Coq Require Import String List.
From Verif Require Import Datatypes SpecValues DatatypesProofs Collections SpecCollections CollectionsProofs Query SpecQuery QueryProofs Assoc SpecAssoc AssocMaps AssocProofs
  AssocQueryProofs AssocOps PropLemmasAssoc QuerySyncProofs SpecDequeue DequeueCrash.
Local Open Scope nat_scope.


Section Q.
  Context {A : Type} (t : atree A).
  Hypothesis INV : ainv t.
  Lemma sel_loop_total s keys : (forall k q, In (k, q) keys -> vq_cmp q <> CUnknown) -> forall va ia valid invalid,
    sel_loop (a_index t) s keys va ia valid invalid <> SPanic.
  Proof using.
    induction keys as [|[k q] r IH]; intros H va ia valid invalid; cbn [sel_loop]; [discriminate|].
    assert (IH' := IH (fun k' q' HI => H k' q' (or_intror HI))). specialize (H k q (or_introl eq_refl)).
    destruct (vq_cmp q); try congruence; try (match goal with |- context [Nat.eqb ?a 0] => destruct (Nat.eqb a 0) end; try destruct va; cbn [andb]; try discriminate; apply IH').
  Qed.
  Lemma by_ids_total s ids : selection_ok s -> sel_no_nan s -> forall acc, exists r, by_ids (a_items t) s ids acc = Some r.
  Proof.
    intros SO SN. induction ids as [|id ids IH]; intros acc; cbn [by_ids]; [eauto|]. destruct (find_item (a_items t) id) as [it|] eqn:EF; [|apply IH].
    apply find_item_some in EF as [HI _]. assert (KG : kvs_good (it_kv it)).
    { intros k v HG. eapply ents_good; [exact (proj1 INV)| |exact HG]. apply in_ents_of. exists it. split; [exact HI|]. split; reflexivity. }
    destruct (MatchKeyValues_iff s (it_kv it) SO SN KG) as (b & -> & _). apply IH.
  Qed.
  Lemma findIDs_total s : selection_ok s -> sel_no_nan s -> exists r, findIDs t s = Some r.
  Proof.
    intros SO SN. unfold findIDs. destruct (s_ids s) as [|id0 ids0] eqn:EI.
    - assert (NP := sel_loop_total s (sorted_sel (s_kvs s))). destruct (sel_loop (a_index t) s (sorted_sel (s_kvs s)) false false [] []) eqn:E; eauto.
      exfalso. eapply NP; [|exact E]. intros k q HI. apply sorted_in in HI. destruct SO as (_ & SO & _). specialize (SO k q HI). apply SO.
    - apply by_ids_total; auto.
  Qed.
  Lemma query_total q : every_node node_ok q -> has_parts q -> exists s, query t q = Some (Some s).
  Proof.
    induction q as [|sel ors ands IO IA] using query_ind'; [intros []|]. intros H1 H2. apply every_node_Q in H1 as (HS & HA & HO). apply every_node_Q in H2 as (HN & HA2 & HO2).
    rewrite query_Q.
    assert (FA : Forall (fun c => exists s, query t c = Some (Some s)) (elems ands)) by (rewrite Forall_forall in *; intros c Hc; apply IA; [exact Hc|exact (HA c Hc)|exact (HA2 c Hc)]).
    assert (FO : Forall (fun c => exists s, query t c = Some (Some s)) (elems ors)) by (rewrite Forall_forall in *; intros c Hc; apply IO; [exact Hc|exact (HO c Hc)|exact (HO2 c Hc)]).
    assert (AND : forall s, exists s', q_and (query t) (elems ands) (Some (Some s)) = Some (Some (Some s'))).
    { clear -FA. induction FA as [|c l (s' & E) _ IH]; intros s; cbn [q_and]; [eauto|]. destruct (Nat.eqb (set_size s) 0); [eauto|]. rewrite E. apply IH. }
    assert (OR : forall s, exists s', q_or (query t) (elems ors) (Some (Some s)) = Some (Some (Some s'))).
    { clear -FO. induction FO as [|c l (s' & E) _ IH]; intros s; cbn [q_or]; [eauto|]. rewrite E. apply IH. }
    assert (CUR : (exists s, (match sel with Some s => match findIDs t s with Some v => Some (Some (Some v)) | None => None end | None => Some None end) = Some (Some (Some s))) \/ sel = None).
    { destruct sel as [s|]; [left|auto]. destruct (HS s eq_refl) as [SO SN]. destruct (findIDs_total s SO SN) as (r & ->). eauto. }
    destruct CUR as [(s & ->) | ->].
    - destruct (AND s) as (s1 & ->). destruct (OR s1) as (s2 & ->). eauto.
    - destruct (elems ands) as [|c l]; cbn [q_and].
      + destruct (elems ors) as [|c l]; [exfalso; intuition congruence|]. cbn [q_or]. inversion FO as [|? ? (s & E) FO' EQ]; subst. rewrite E.
        assert (OR' : forall s0, exists s', q_or (query t) l (Some (Some s0)) = Some (Some (Some s'))).
        { clear -FO'. induction FO' as [|c' l' (s' & E') _ IH]; intros s0; cbn [q_or]; [eauto|]. rewrite E'. apply IH. }
        destruct (OR' s) as (s2 & ->). eauto.
      + inversion FA as [|? ? (s & E) FA' EQ]; subst. rewrite E.
        assert (AND' : forall s0, exists s', q_and (query t) l (Some (Some s0)) = Some (Some (Some s'))).
        { clear -FA'. induction FA' as [|c' l' (s' & E') _ IH]; intros s0; cbn [q_and]; [eauto|]. destruct (Nat.eqb (set_size s0) 0); [eauto|]. rewrite E'. apply IH. }
        destruct (AND' s) as (s1 & ->). destruct (OR s1) as (s2 & ->). eauto.
  Qed.
  Lemma items_total q : q_validate q = true -> query_no_nan q -> q = Q None None None \/ has_parts q -> exists its, query_items t q = Some (Some its).
  Proof.
    intros V NN [-> | HP]; [unfold query_items; rewrite V; cbn; eauto|].
    assert (NQ : q <> QNil) by (intros ->; exact NN).
    assert (NOK : every_node node_ok q).
    { pose proof V as V'. apply q_validate_nonnil in V'; auto. eapply every_node_impl; [|exact (every_node_and _ _ _ V' NN)].
      intros sel ors ands [A1 A2] s Hs. split; [auto|]. intros k v Hk. eapply A2; eauto. }
    destruct (query_total q NOK HP) as (s & E). unfold query_items. rewrite V. cbn [negb]. destruct q as [|sel ors ands]; [congruence|].
    destruct sel, ors, ands; rewrite ?E; eauto.
  Qed.
End Q.

Lemma sreach_inv s : sreach s -> (forall t, sv_chans s = Some t -> areach t (sv_used s)) /\ (sv_chans s = None -> sv_used s = []) /\
  (forall d, In d (sv_dqs s) -> q_validate (dq_query d) = true /\ query_no_nan (dq_query d)).
Proof.
  induction 1 as [|s s' R (I1 & I0 & I2) ST]; [split; [discriminate|split; [reflexivity|intros d []]]|].
  assert (MID : forall l q b c b' c' r, sv_dqs s = l ++ mkDq q b c :: r -> forall d, In d (l ++ mkDq q b' c' :: r) -> q_validate (dq_query d) = true /\ query_no_nan (dq_query d)).
  { intros l q b c b' c' r E d HI. apply in_app_iff in HI as [HI | [<- | HI]].
    - apply I2. rewrite E. apply in_app_iff. auto.
    - apply (I2 (mkDq q b c)). rewrite E. apply in_app_iff. right. left. reflexivity.
    - apply I2. rewrite E. apply in_app_iff. right. right. exact HI. }
  destruct ST; cbn [sv_chans sv_used sv_dqs] in *; try (split; [first [exact I1|discriminate]|split; [first [exact I0|reflexivity]|first [exact I2|solve [eapply MID; eauto]]]]).
  - split; [exact I1|]. split; [exact I0|]. intros d HI. apply in_app_iff in HI as [HI | [<- | []]]; [auto|]. cbn. auto.
  - split; [|split; [discriminate|exact I2]]. intros t [= <-]. apply AR_step; auto. destruct (sv_chans s) as [t0|]; [auto|]. rewrite I0 by reflexivity. constructor.
Qed.

Lemma crash_why s s' : sreach s -> sstep s s' -> sv_up s' = false -> exists d, In d (sv_dqs s) /\ dq_searches d = true /\
  (sv_phase s = Wiping /\ dq_waits d = false \/ dq_query d <> Q None None None /\ ~ has_parts (dq_query d)).
Proof.
  intros R ST D. destruct (sreach_inv s R) as (I1 & _ & I2). assert (W : sv_phase s = Wiping \/ sv_phase s = Deleting -> forall d, In d (sv_dqs s) -> dq_waits d = false).
  { clear -R. induction R as [|s s' R IH ST]; [intros [C | C]; discriminate|].
    destruct ST; cbn [sv_phase sv_dqs] in *; intros HP d HI; try (destruct HP; discriminate); try (destruct HP; congruence); auto.
    - apply in_app_iff in HI as [HI | [<- | HI]]; [|reflexivity|]; apply IH; auto; rewrite H0; apply in_app_iff; cbn; auto.
    - apply in_app_iff in HI as [HI | [<- | HI]]; [apply IH; auto; rewrite H0; apply in_app_iff; cbn; auto|cbn|apply IH; auto; rewrite H0; apply in_app_iff; cbn; auto].
      apply (IH HP (mkDq q b true)). rewrite H0. apply in_app_iff. cbn. auto. }
  destruct ST; cbn [sv_up] in D; try discriminate.
  - exists (mkDq q b true). assert (HI : In (mkDq q b true) (sv_dqs s)) by (rewrite H0; apply in_app_iff; cbn; auto). split; [exact HI|]. split; [reflexivity|]. right. cbn.
    destruct (I2 _ HI) as [V NN]. cbn in V, NN. assert (AI : ainv t) by (apply (areach_inv _ _ (I1 t H2))).
    assert (TOT := items_total t AI q V NN). split.
    + intros ->. destruct TOT as (its & E); [auto|]. congruence.
    + intros HP. destruct TOT as (its & E); [auto|]. congruence.
  - exists (mkDq q b true). assert (HI : In (mkDq q b true) (sv_dqs s)) by (rewrite H0; apply in_app_iff; cbn; auto). split; [exact HI|]. split; [reflexivity|].
    left. split; [assumption|]. apply W; auto.
Qed.

(** ** Both happen *)
Definition bare : Query := Q None None (Some []).
Definition everything : Query := Q None None None.
Definition one_kv : KeyValues := [("k"%string, Int 1)].
Lemma one_arg : kv_arg one_kv.
Proof. split; [repeat constructor; intros []|]. intros k v [[= <- <-] | []]; cbn; intros [|]; discriminate. Qed.
Definition one_chan : atree unit := fst (arun (mkTree [] []) (ACreate one_kv "x"%string (Some tt))).
Lemma s1_reach : sreach (mkSv Serving (Some one_chan) ["x"%string] [] true).
Proof.
  eapply SR_step; [apply SR_start|].
  exact (S_channel (mkSv Serving None [] [] true) (ACreate one_kv "x"%string (Some tt)) eq_refl eq_refl one_arg ltac:(intros id [= <-]; split; [intros []|discriminate])).
Qed.
Lemma crash_bare : exists s s', sreach s /\ sstep s s' /\ sv_phase s = Serving /\ sv_dqs s = [mkDq bare true true] /\ sv_up s = true /\ sv_up s' = false.
Proof.
  exists (mkSv Serving (Some one_chan) ["x"%string] [mkDq bare true true] true), (mkSv Serving (Some one_chan) ["x"%string] [mkDq bare true true] false).
  split; [eapply SR_step; [exact s1_reach|]; apply (S_dequeue (mkSv Serving (Some one_chan) ["x"%string] [] true) bare); [reflexivity|reflexivity|reflexivity|cbn; repeat split; intros; discriminate]|].
  split; [|auto 10]. apply (S_panics (mkSv Serving (Some one_chan) ["x"%string] [mkDq bare true true] true) [] bare true [] one_chan); cbn; auto. discriminate.
Qed.
Lemma crash_delete : exists s s', sreach s /\ sstep s s' /\ sv_phase s = Wiping /\ sv_dqs s = [mkDq everything false true] /\ sv_up s = true /\ sv_up s' = false.
Proof.
  assert (R : sreach (mkSv Wiping (Some one_chan) ["x"%string] [mkDq everything false true] true)).
  { eapply SR_step; [|apply (S_wipe (mkSv Deleting (Some one_chan) ["x"%string] [mkDq everything false true] true)); reflexivity].
    eapply SR_step; [|apply (S_delete (mkSv Serving (Some one_chan) ["x"%string] [mkDq everything false true] true)); [reflexivity|reflexivity|intros d [<- | []]; reflexivity]].
    eapply SR_step; [|exact (S_return (mkSv Serving (Some one_chan) ["x"%string] [mkDq everything true true] true) [] everything true [] eq_refl eq_refl)].
    eapply SR_step; [exact s1_reach|]. apply (S_dequeue (mkSv Serving (Some one_chan) ["x"%string] [] true) everything); [reflexivity|reflexivity|reflexivity|cbn; repeat split; intros; discriminate]. }
  exists (mkSv Wiping (Some one_chan) ["x"%string] [mkDq everything false true] true), (mkSv Wiping (Some one_chan) ["x"%string] [mkDq everything false true] false).
  split; [exact R|]. split; [apply (S_busy (mkSv Wiping (Some one_chan) ["x"%string] [mkDq everything false true] true) [] everything false []); reflexivity|]. auto 10.
Qed.
