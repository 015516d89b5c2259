(** The lemmas behind PropertiesWillow.v. *)
From Coq Require Import String List Bool Arith NArith ZArith Lia Permutation.
Import ListNotations.
From Verif Require Import Datatypes SpecValues DatatypesProofs PropLemmasValues Collections Query SpecQuery QueryProofs Assoc SpecAssoc AssocMaps AssocProofs AssocOps PropLemmasAssoc OneToMany SpecOneToMany OneToManyProofs
  Limiter SpecLimiter LimiterProofs LimiterCounts LimiterLimits LimiterSums PropLemmasLimiter PropLemmasRules PropLemmasUnit.
From Verif Require Import BTree BTreeFind SpecBTree WillowQueues.
From Verif Require Import Channel SpecChannel ChannelProofs ChannelContents ChannelOrder ChannelCounts Willow SpecWillow WillowMaps WillowCounts WillowPerform WillowInv WillowSteps WillowDir WillowApart WillowTotals.
Local Open Scope Z_scope.

(** ** C51 *)
Definition no_dir (o : wop) : bool := match o with WCreateQueue _ _ | WUpdateQueue _ _ | WDropQueue _ => false | _ => true end.
Lemma outcome_dir w a w' b : outcome w a = (w', b) -> w_queues w' = w_queues w /\ w_objs w' = w_objs w.
Proof. unfold outcome. destruct a; intros [= <- <-]; auto. Qed.
Lemma same_dir w o e w' a : wstep w o e = Some (w', a) -> no_dir o = true -> w_queues w' = w_queues w /\ w_objs w' = w_objs w.
Proof.
  intros H N. unfold wstep in H. destruct (negb (w_up w)); [discriminate|].
  destruct o; try discriminate N; clear N; unfold DeleteQueue, Enqueue, ItemRequest, DeleteChannel, Expire, Tick, CloseForQueue, TickOld in H; cbv zeta in H;
  repeat match type of H with
  | context [if ?b then _ else _] => destruct b
  | context [match ?x with _ => _ end] => destruct x
  end; try discriminate; try (injection H as <- <-; auto; fail); injection H as H; apply outcome_dir in H; exact H.
Qed.
Lemma about_dec w o name : about w o name \/ ~ about w o name.
Proof.
  destruct o; cbn [about]; try (destruct (string_dec name name0); auto; fail).
  - destruct (nth_error (w_old w) n) as [[[name' kv] c]|]; [destruct (string_dec name name') as [-> | N]|]; [left; eauto|right|right]; intros (kv' & c' & [=]). congruence.
  - right. intros [].
Qed.
Lemma no_queue_empty k w used name : winv k w used -> (forall q, ~ queue_at w name q) -> belongings (w_chans w) name = [].
Proof.
  intros I N. destruct (belongings (w_chans w) name) as [|ch l] eqn:E; [reflexivity|]. destruct (wi_chan _ _ _ I name ch) as [(q & A) _]; [rewrite E; left; reflexivity|]. destruct (N q A).
Qed.
Lemma wreach_up_ok k w used : wreach_up k w used -> k < 2 ^ 63 -> winv k w used /\ forall name q, queue_at w name q -> q_limit q = -1 \/ Z.of_nat (stored_in w name) <= q_limit q.
Proof.
  induction 1 as [k s used id w LR POS SUM F S|k w used o e w' a H IH KL G]; intros LT.
  - destruct (start_ok k s used id w LR POS SUM LT F S) as [I Z]. split; [exact I|]. intros name q A. destruct (at_name _ _ _ _ _ I A) as (_ & _ & R). rewrite Z. lia.
  - assert (LC : 0 <= cost o) by (destruct o as [| | | | | | | | | | | |[]]; cbn; lia). destruct (IH ltac:(lia)) as [I B]. clear IH. destruct (step_result k w used o e w' a I G LT) as [I' GR]. split; [exact I'|].
    intros name q' A'. destruct (about_dec w o name) as [AB | NA].
    2: { destruct (step_apart k w used o e w' a name I G LT NA) as [AT _ CH _]. rewrite (stored_same w w' name CH). apply B, AT, A'. }
    destruct (GR name) as [LE | (m & GQ & BD)].
    2: { destruct (get_at _ _ _ name I') as [[_ E] | [_ [(q & A & E) | [_ E]]]]; rewrite E in GQ; try discriminate. injection GQ as <-. rewrite <- (at_unique _ _ _ _ A' A) in BD. exact BD. }
    destruct (no_dir o) eqn:ND.
    + destruct G as (_ & _ & _ & G). destruct (same_dir _ _ _ _ _ G ND) as [E1 E2]. apply (same_at w w') in A'; auto. destruct (B name q' A'); [auto|right; lia].
    + destruct G as (HA & T & F & G). unfold wstep in G. destruct (w_up w); [|discriminate]. cbn [negb] in G.
      destruct o as [nm max|nm m|nm|nm|nm kv p i|nm kv i passed|nm kv i|nm kv|nm kv|nm cid x|nm cid|n0 x|x]; try discriminate ND; cbn [about tame wop_arg keeps_limits cost] in *; subst nm; try injection G as G.
      * destruct T as (m & -> & LM). destruct (create_at k w used _ e I F name m w' a HA LM G) as [_ [(_ & -> & _) | (_ & _ & _ & NQ & AT & _)]]; [apply B; exact A'|].
        apply AT in A' as ->. cbn [q_limit]. pose proof (no_queue_empty k w used name I NQ) as EM. assert (stored_in w name = 0)%nat by (unfold stored_in, channels; rewrite EM; reflexivity). lia.
      * destruct (update_at k w used I name m w' a HA T G) as [_ [(-> & _) | (_ & NB & (q & A) & AT & _)]]; [apply B; exact A'|].
        apply AT in A' as ->. cbn [q_limit]. destruct (get_at k w used name I) as [[X _] | [_ [(q0 & A0 & E) | [X _]]]]; [congruence| |destruct (X q A)].
        specialize (KL (q_limit q0)). rewrite E in KL. destruct (KL eq_refl) as [| [NU LE']]; [auto|]. right. destruct (B name q0 A0); [congruence|lia].
      * destruct (drop_at k w used I name w' a G) as (_ & _ & _ & _ & NQ & _). destruct (NQ q' A').
Qed.
Lemma c51_history k w used name m : wreach_up k w used -> k < 2 ^ 63 -> GetQueue w name = (Some m, XOk) -> m = -1 \/ Z.of_nat (stored_in w name) <= m.
Proof.
  intros R LT G. destruct (wreach_up_ok k w used R LT) as [I B]. destruct (get_at k w used name I) as [[_ E] | [_ [(q & A & E) | [_ E]]]]; rewrite E in G; try discriminate. injection G as <-. apply B. exact A.
Qed.
Lemma c51_step k w used o e w' a name : wreach k w used -> k + cost o < 2 ^ 63 -> good_step w used o e w' a ->
  (stored_in w' name <= stored_in w name)%nat \/ exists m, GetQueue w' name = (Some m, XOk) /\ (m = -1 \/ Z.of_nat (stored_in w' name) <= m).
Proof.
  intros R LT G. assert (LC : 0 <= cost o) by (destruct o as [| | | | | | | | | | | |[]]; cbn; lia). destruct (step_result k w used o e w' a (wreach_inv k w used R ltac:(lia)) G LT) as [_ GR]. apply GR.
Qed.
(** ** C49 *)
Lemma cost_pos o : 0 <= cost o.
Proof. destruct o as [| | | | | | | | | | | |[]]; cbn; lia. Qed.
Lemma c49 k w used o e w' a : wreach k w used -> k + cost o < 2 ^ 63 -> good_step w used o e w' a ->
  (forall i, a = XChan (AStored i) -> exists name kv p j, o = WEnqueue name kv p j /\
     (forall total, queue_total w name total -> queue_total w' name (total + 1)) /\
     (forall other total, other <> name -> queue_total w other total -> queue_total w' other total)) /\
  ((forall i, a <> XChan (AStored i)) -> forall name total total', queue_total w name total -> queue_total w' name total' -> total' <= total).
Proof.
  intros R LT G. pose proof (cost_pos o) as LC. pose proof (wreach_inv k w used R ltac:(lia)) as I. destruct (step_result k w used o e w' a I G LT) as [I' _].
  destruct (step_counted k w used o e w' a I G LT) as [C1 C2]. split.
  - intros i HA. destruct (C1 i HA) as (name & kv & p & j & ->). exists name, kv, p, j. split; [reflexivity|]. split.
    + intros total T. apply (total_iff _ _ _ _ _ I) in T. apply (total_iff _ _ _ _ _ I'). destruct (C2 name eq_refl) as [C _]. rewrite C by eauto. lia.
    + intros other total N T. apply (total_iff _ _ _ _ _ I) in T. apply (total_iff _ _ _ _ _ I'). destruct (step_apart k w used _ e w' a other I G LT) as [_ _ _ E]; [exact N|]. congruence.
  - intros NA name total total' T T'. apply (total_iff _ _ _ _ _ I) in T. apply (total_iff _ _ _ _ _ I') in T'. subst. destruct (about_dec w o name) as [AB | AB].
    + apply (C2 name AB). exact NA.
    + destruct (step_apart k w used o e w' a name I G LT AB) as [_ _ _ E]. lia.
Qed.
(** ** C45 *)
Lemma c45_isolated k w used o e w' a name : wreach k w used -> k + cost o < 2 ^ 63 -> good_step w used o e w' a -> ~ about w o name ->
  GetQueue w' name = GetQueue w name /\ belongings (w_chans w') name = belongings (w_chans w) name /\ (forall total, queue_total w' name total <-> queue_total w name total).
Proof.
  intros R LT G N. pose proof (cost_pos o) as LC. pose proof (wreach_inv k w used R ltac:(lia)) as I. destruct (step_result k w used o e w' a I G LT) as [I' _].
  pose proof (step_apart k w used o e w' a name I G LT N) as A. split; [eapply agree_get; eauto|]. split; [apply A|]. intros total. rewrite (total_iff _ _ _ _ _ I), (total_iff _ _ _ _ _ I'), (ag_total _ _ _ A). reflexivity.
Qed.
Lemma c45_create k w used e name m : wreach k w used -> k + 1 < 2 ^ 63 -> fresh used [e_id e; e_id2 e] -> int64 m -> -1 <= m -> name <> EmptyString ->
  let w' := fst (CreateQueue w name (Some m) e) in let a := snd (CreateQueue w name (Some m) e) in
  (snd (GetQueue w name) <> XMissing -> w' = w /\ a = XConflict) /\
  (snd (GetQueue w name) = XMissing -> a = XCreated /\ GetQueue w' name = (Some m, XOk) /\ belongings (w_chans w') name = []).
Proof.
  intros R LT F HM LM NE. cbv zeta. pose proof (wreach_inv k w used R ltac:(lia)) as I. assert (F' : fresh used (drawn (WCreateQueue name (Some m)) e)) by exact F.
  destruct (CreateQueue w name (Some m) e) as [w1 b] eqn:E. cbn [fst snd]. destruct (create_at k w used _ e I F' name m w1 b HM LM E) as [_ H].
  destruct (create_queue_ok k w used _ e I F' LT name m w1 b HM LM E) as [I' _].
  destruct (get_at k w used name I) as [[B G] | [B [(q & A & G) | [NQ G]]]]; rewrite G; cbn [snd].
  - split; [intros _|discriminate]. destruct H as [(_ & -> & _) | (_ & _ & B' & _)]; [|congruence]. split; [reflexivity|]. clear - E B NE. unfold CreateQueue in E. destruct (String.eqb_spec name EmptyString); [congruence|]. rewrite B in E. congruence.
  - split; [intros _|discriminate]. destruct H as [(_ & -> & _) | (_ & _ & _ & NQ & _)]; [|destruct (NQ q A)]. split; [reflexivity|].
    destruct A as (p & FQ & _). pose proof (create_queue_spec (w_queues w) name (length (w_objs w)) (wi_tree k w used I)) as CQ. rewrite FQ in CQ. destruct CQ as (r & CQ).
    unfold CreateQueue in E. destruct (String.eqb_spec name EmptyString); [congruence|]. rewrite B, CQ in E. congruence.
  - split; [congruence|intros _]. destruct H as [(_ & _ & [H | [H | (q & H)]]) | (-> & _ & _ & _ & AT & B' & CH & _)]; [congruence|congruence|destruct (NQ q H)|]. split; [reflexivity|]. split.
    + destruct (get_at _ w1 _ name I') as [[X _] | [_ [(q & A & ->) | [X _]]]]; [congruence| |destruct (X (mkQueue name m)); apply AT; reflexivity]. apply AT in A. subst q. reflexivity.
    + rewrite CH. eapply no_queue_empty; eauto.
Qed.
Lemma c45_update k w used name m : wreach k w used -> k + 1 < 2 ^ 63 -> int64 m -> -1 <= m ->
  let w' := fst (UpdateQueue w name m) in let a := snd (UpdateQueue w name m) in
  (snd (GetQueue w name) <> XOk -> w' = w /\ a = snd (GetQueue w name)) /\
  (snd (GetQueue w name) = XOk -> a = XOk /\ GetQueue w' name = (Some m, XOk) /\ belongings (w_chans w') name = belongings (w_chans w) name).
Proof.
  intros R LT HM LM. cbv zeta. pose proof (wreach_inv k w used R ltac:(lia)) as I.
  destruct (UpdateQueue w name m) as [w1 b] eqn:E. cbn [fst snd]. destruct (update_at k w used I name m w1 b HM LM E) as [_ H].
  destruct (get_at k w used name I) as [[B G] | [B [(q & A & G) | [NQ G]]]]; rewrite G; cbn [snd].
  - split; [intros _|discriminate]. destruct H as [(-> & [[_ ->] | (B' & _)]) | (_ & B' & _)]; try congruence. auto.
  - split; [congruence|intros _]. destruct H as [(_ & [[X _] | (_ & X & _)]) | (-> & _ & _ & AT & B' & CH & _)]; [congruence|destruct (X q A)|]. split; [reflexivity|]. split; [|exact CH].
    unfold GetQueue. rewrite B', B. destruct (proj2 (AT _) eq_refl) as (p & -> & ->). reflexivity.
  - split; [intros _|discriminate]. destruct H as [(-> & [[X _] | (_ & _ & ->)]) | (_ & _ & (q & A) & _)]; [congruence|auto|destruct (NQ q A)].
Qed.
Lemma c45_delete k w used name : wreach k w used -> k < 2 ^ 63 ->
  let w' := fst (DeleteQueue w name) in let a := snd (DeleteQueue w name) in
  (snd (GetQueue w name) = XOk -> a = XOk /\ GetQueue w' name = (None, XConflict)) /\
  (snd (GetQueue w name) <> XOk -> w' = w).
Proof.
  intros R LT. cbv zeta. pose proof (wreach_inv k w used R LT) as I.
  destruct (DeleteQueue w name) as [w1 b] eqn:E. cbn [fst snd]. destruct (delete_at k w used I name w1 b E) as (_ & _ & _ & _ & H).
  destruct (get_at k w used name I) as [[B G] | [B [(q & A & G) | [NQ G]]]]; rewrite G; cbn [snd].
  - split; [discriminate|intros _]. destruct H as [(-> & _) | (_ & X & _)]; [reflexivity|congruence].
  - split; [intros _|congruence]. destruct H as [(_ & [[X _] | (_ & X & _)]) | (-> & _ & _ & B')]; [congruence|destruct (X q A)|]. split; [reflexivity|]. unfold GetQueue. rewrite B'. reflexivity.
  - split; [discriminate|intros _]. destruct H as [(-> & _) | (_ & _ & (q & A) & _)]; [reflexivity|destruct (NQ q A)].
Qed.
Lemma c45_dropped k w used name w' a : wreach k w used -> k < 2 ^ 63 -> DropQueue w name = Some (w', a) ->
  a = XOk /\ belongings (w_chans w) name = [] /\ GetQueue w' name = (None, XMissing).
Proof.
  intros R LT H. pose proof (wreach_inv k w used R LT) as I. destruct (drop_at k w used I name w' a H) as (_ & -> & _ & B & NQ & E & _). split; [reflexivity|]. split; [exact E|].
  unfold GetQueue. rewrite B. destruct (find_queue (w_queues w') name) as [p|] eqn:FQ; [|reflexivity]. exfalso.
  assert (LIFE : nth_error (w_objs w') p <> None).
  { clear - H FQ I. unfold DropQueue in H. destruct (busy w name && _) eqn:EB; [|discriminate]. cbv zeta in H. apply andb_prop in EB as [NB _]. apply busy_iff in NB.
    destruct (wi_busy k w used I name NB) as (q & A). cbn [w_lim w_rule set_chans w_queues w_objs] in H. destruct (query_override k w used name q None I A (or_introl eq_refl)) as (oid & E & NO & HO). rewrite E in H.
    destruct (lrun (w_lim w) (LDeleteOverride (w_rule w) oid)) as [s a0] eqn:EL. destruct A as (p0 & FQ0 & _).
    destruct (delete_queue_spec (w_queues w) name p0 (wi_tree k w used I) FQ0) as (t & x & ED & WS & PM). rewrite ED in H.
    assert (OB : w_objs w' = w_objs w) by (destruct a0; try discriminate; injection H as <-; reflexivity). rewrite OB. destruct (find_queue (w_queues w) name) as [p1|] eqn:F1; [|congruence].
    assert (w_queues w' = t \/ w_queues w' = w_queues w) as [EQ | EQ] by (destruct a0; try discriminate; injection H as <-; auto); rewrite EQ in FQ.
    - apply find_queue_in in FQ; [|exact WS]. destruct (wi_objs k w used I (Str name) p) as (q' & E' & _); [apply (Permutation_in _ (Permutation_sym PM)); right; exact FQ|congruence].
    - rewrite F1 in FQ. injection FQ as <-. destruct (find_at k w used name p1 I F1) as (q' & E' & _). congruence. }
  destruct (nth_error (w_objs w') p) as [q|] eqn:EN; [|congruence]. apply (NQ q). exists p. auto.
Qed.
Lemma c45_unknown k w used name : wreach k w used -> k < 2 ^ 63 -> snd (GetQueue w name) = XMissing ->
  (forall kv p i e, counter_kv kv -> Enqueue w name kv p i e = Some (w, XMissing)) /\
  (forall kv o e, counter_kv kv -> ItemRequest w name kv o e = Some (w, XMissing)) /\
  (forall kv, DeleteChannel w name kv = Some (w, XMissing)).
Proof.
  intros R LT G. pose proof (wreach_inv k w used R LT) as I. destruct (get_at k w used name I) as [[_ E] | [B [(q & _ & E) | [NQ E]]]]; rewrite E in G; try discriminate.
  assert (FQ : find_queue (w_queues w) name = None). { destruct (find_queue (w_queues w) name) as [p|] eqn:F; [|reflexivity]. destruct (find_at k w used name p I F) as (q & EQ & _). exfalso. apply (NQ q). exists p. auto. }
  assert (V : forall kv, counter_kv kv -> kv_validate kv MinDataType MaxWithoutAnyDataType = true) by (intros kv C; apply (counter_kv_iff kv (proj1 C)); exact C).
  split; [|split]; intros kv; intros; unfold Enqueue, ItemRequest, DeleteChannel; rewrite ?V, B, FQ by assumption; reflexivity.
Qed.
Lemma c45_list k w used : wreach k w used -> k < 2 ^ 63 ->
  exists l, ListQueues w = Some l /\ NoDup (map fst l) /\ forall name m, In (name, m) l <-> GetQueue w name = (Some m, XOk) \/ (GetQueue w name = (None, XConflict) /\ exists q, queue_at w name q /\ q_limit q = m).
Proof.
  intros R LT. pose proof (wreach_inv k w used R LT) as I.
  assert (ST : strings (BTree.contents (w_queues w))) by (intros x p H; destruct (wi_objs k w used I x p H) as (q & _ & -> & _); eauto).
  destruct (list_all (w_queues w) (wi_tree k w used I) ST) as (l & ev & E & ND & HL). unfold ListQueues. rewrite E. eexists. split; [reflexivity|].
  set (f := fun e : EV * nat => match ev_data (fst e), nth_error (w_objs w) (snd e) with PString s, Some q => [(s, q_limit q)] | _, _ => [] end).
  assert (FE : forall x p, In (x, p) l -> exists q, x = Str (q_name q) /\ queue_at w (q_name q) q /\ f (x, p) = [(q_name q, q_limit q)]).
  { intros x p H. apply HL in H. destruct (wi_objs k w used I x p H) as (q & EQ & -> & _). exists q. split; [reflexivity|]. split; [|unfold f; cbn [fst snd]; rewrite EQ; reflexivity].
    exists p. split; [apply find_queue_in; [apply I|exact H]|exact EQ]. }
  split.
  - assert (K : NoDup (map fst l)).
    { pose proof (contents_nodup (w_queues w) (wi_tree k w used I)) as NC. clear - ND HL NC.
      assert (U : forall x p p', In (x, p) l -> In (x, p') l -> p = p').
      { intros x p p' H1 H2. apply HL in H1, H2. induction (BTree.contents (w_queues w)) as [|[k0 p0] c IH]; [destruct H1|]. cbn in NC. apply NoDup_cons_iff in NC as [NI NC]. destruct H1 as [H1 | H1], H2 as [H2 | H2]; try congruence.
        - injection H1 as -> ->. exfalso. apply NI. apply (in_map fst) in H2. exact H2.
        - injection H2 as -> ->. exfalso. apply NI. apply (in_map fst) in H1. exact H1.
        - assert (X : forall k p, In (k, p) l -> In (k, p) c -> True) by auto. clear IH X. revert H1 H2 NC. clear. induction c as [|[k0 p0] c IH]; [intros []|]. intros H1 H2 NC. cbn in NC. apply NoDup_cons_iff in NC as [NI NC].
          destruct H1 as [H1 | H1], H2 as [H2 | H2]; try congruence; auto; [injection H1 as -> ->|injection H2 as -> ->]; exfalso; apply NI; [apply (in_map fst) in H2; exact H2|apply (in_map fst) in H1; exact H1]. }
      clear HL NC. induction l as [|[x p] l IH]; [constructor|]. apply NoDup_cons_iff in ND as [NI ND]. cbn. constructor; [|apply IH; [exact ND|intros; eapply U; right; eauto]].
      intros C. apply in_map_iff in C as ([y p'] & EY & HY). cbn in EY. subst y. assert (p = p') by (eapply U; [left; reflexivity|right; exact HY]). subst p'. contradiction. }
    assert (M : map fst (flat_map f l) = map (fun x => match ev_data (fst x) with PString s => s | _ => EmptyString end) l).
    { clear K ND HL E. induction l as [|[x p] l IH]; [reflexivity|]. cbn [flat_map map]. destruct (FE x p (or_introl eq_refl)) as (q & -> & _ & EF). rewrite EF. cbn [app map fst]. f_equal. apply IH. intros; apply FE; right; assumption. }
    fold f. rewrite M. clear M E HL ND. induction l as [|[x p] l IH]; [constructor|]. cbn in *. apply NoDup_cons_iff in K as [NI K]. constructor; [|apply IH; [intros; apply FE; right; assumption|exact K]].
    intros C. apply NI. apply in_map_iff in C as ([y p'] & EY & HY). cbn in EY. destruct (FE x p (or_introl eq_refl)) as (q & -> & _). destruct (FE y p' (or_intror HY)) as (q' & -> & _). cbn in EY. rewrite <- EY. apply in_map_iff. exists (Str (q_name q'), p'). auto.
  - intros name m. fold f. rewrite in_flat_map. split.
    + intros ([x p] & H & HF). destruct (FE x p H) as (q & -> & A & EF). rewrite EF in HF. destruct HF as [[= <- <-] | []].
      destruct (get_at k w used (q_name q) I) as [[_ G] | [_ [(q' & A' & G) | [NQ _]]]]; [right|left|destruct (NQ q A)]; [eauto|]. rewrite G, (at_unique _ _ _ _ A A'). reflexivity.
    + intros H. assert (exists q, queue_at w name q /\ q_limit q = m) as (q & (p & FP & EP) & <-).
      { destruct H as [H | [_ H]]; [|exact H]. destruct (get_at k w used name I) as [[_ G] | [_ [(q' & A' & G) | [NQ G]]]]; rewrite G in H; try discriminate. injection H as <-. eauto. }
      destruct (at_name k w used name q I (ex_intro _ p (conj FP EP))) as (EN & _). apply find_queue_in in FP; [|apply I]. apply HL in FP. exists (Str name, p). split; [exact FP|]. unfold f. cbn [fst snd]. rewrite EP. left. cbn. congruence.
Qed.
