(** When an item is refused for lack of room; restarting.  Lemmas for C52 and C53. *)
From Coq Require Import String List Bool Arith NArith ZArith Lia.
Import ListNotations.
From Verif Require Import Datatypes SpecValues DatatypesProofs PropLemmasValues Collections Query SpecQuery QueryProofs Assoc SpecAssoc AssocMaps AssocProofs AssocOps PropLemmasAssoc OneToMany SpecOneToMany OneToManyProofs
  Limiter SpecLimiter LimiterProofs LimiterCounts LimiterLimits LimiterSums PropLemmasLimiter PropLemmasRules PropLemmasUnit.
From Verif Require Import BTree BTreeFind SpecBTree WillowQueues.
From Verif Require Import Channel SpecChannel ChannelProofs ChannelContents ChannelOrder ChannelCounts Willow SpecWillow WillowMaps WillowCounts WillowPerform WillowInv WillowSteps WillowDir WillowApart WillowTotals.
Local Open Scope Z_scope.

Lemma perform_full k s u q kv c p i e s' c' : sound k s u -> k < 2 ^ 63 -> counter_kv kv -> fresh u [e_id e; e_id2 e] -> e_locked e = true ->
  perform s q kv c (OEnqueue p i true) e = Some (s', c', AFull) ->
  s' = s /\ c' = c /\ exists g limit total, governs s (enqueued_kv q kv) g limit /\ limit <> -1 /\ group_total s g (enqueued_kv q kv) total /\ limit <= total.
Proof.
  intros SO LT C F EL. unfold perform. cbn [granted]. unfold qstep. destruct (dead c); [discriminate|]. unfold guard. destruct (indexed c && _ && _); [|discriminate].
  destruct (enqueue c p i true) as [c1 a1] eqn:E1. destruct (wanted (OEnqueue p i true) a1) as [x|] eqn:W.
  - cbn [wanted] in W. destruct a1; try discriminate W. injection W as <-. destruct F as [_ F]. destruct (F (e_id e) (or_introl eq_refl)) as [NU NE].
    cbn [lrun]. destruct (c33_increment s u (enqueued_kv q kv) 1 (e_id e) (e_locked e) (so_reach _ _ _ SO) (sound_fit k s u SO LT) (counter_of_ok CEnqueued q kv C) ltac:(lia) NU NE) as (A1 & A2 & A3 & _).
    cbn [counter_of]. destruct (UpsertCounters s (enqueued_kv q kv) 1 (e_id e) (e_locked e)) as [s1 la]. cbn [fst snd] in *.
    destruct A1 as [-> | [-> | (A1 & _)]]; [intros [= _ _ ->]; unfold enqueue in E1; cbn [negb] in E1; repeat match type of E1 with context [match ?x with _ => _ end] => destruct x end; discriminate| |congruence].
    destruct (enqueue c p i false) as [c2 a2] eqn:E2. intros [= <- <- ->]. split; [apply A3; discriminate|]. split; [unfold enqueue in E2; cbn [negb] in E2; repeat match type of E2 with context [match ?x with _ => _ end] => destruct x end; congruence|]. apply A2; [discriminate|reflexivity].
  - destruct (run_calls s q kv (calls c (OEnqueue p i true) a1) [e_id e; e_id2 e] e); [|discriminate]. intros [= _ _ ->].
    unfold enqueue in E1; cbn [negb] in E1. repeat match type of E1 with context [match ?x with _ => _ end] => destruct x end; discriminate.
Qed.
Lemma perform_in k s u q kv c p i e s' c' j : sound k s u -> k + 1 < 2 ^ 63 -> counter_kv kv -> plain kv -> fresh u [e_id e; e_id2 e] -> qinv c ->
  perform s q kv c (OEnqueue p i true) e = Some (s', c', AStored j) ->
  forall g limit total, governs s (enqueued_kv q kv) g limit -> limit <> -1 -> group_total s g (enqueued_kv q kv) total -> total < limit.
Proof.
  intros SO LT C P F Q H. destruct (perform_spec k s u q kv c _ e s' c' _ SO LT C P F Q H) as (_ & _ & f & _ & _ & _ & _ & X). apply (X j eq_refl).
Qed.
(** The limit of the queue is the only one, if there is no other rule *)
Lemma only_governs k w used name q kv : winv k w used -> queue_at w name q -> counter_kv kv -> plain kv -> (forall id kv' n, has_rule (w_lim w) id kv' n -> id = w_rule w) ->
  forall g limit, governs (w_lim w) (enqueued_kv name kv) g limit -> g = queue_kv name /\ limit = q_limit q.
Proof.
  intros I A C P ONE g limit (rid & rkv & rl & HR & CV & H). assert (rid = w_rule w) as -> by (eapply ONE; eauto).
  destruct (wi_over1 _ _ _ I name q A) as (oid & _ & HO). destruct (enqueued_queue name kv (proj1 (proj1 C)) P) as [E1 E2].
  assert (CQ : covers (queue_kv name) (enqueued_kv name kv)).
  { intros x m E. unfold queue_kv in E. cbn [kv_get] in E.
    destruct (String.eqb_spec QueueKey x) as [<-|]; [injection E as <-; exists (Str name); split; [exact E1|right; apply same_value_refl]|].
    destruct (String.eqb_spec EnqueuedKey x) as [<-|]; [injection E as <-; exists (Str "true"); split; [exact E2|right; apply same_value_refl]|discriminate]. }
  destruct H as [(oid' & HO' & CG) | (_ & _ & N)]; [|destruct (N _ _ _ HO CQ)].
  destruct (wi_over2 _ _ _ I oid' g limit HO') as (name' & q' & A' & -> & ->).
  destruct (CG QueueKey (Str name') eq_refl) as (v & E & [X | S]); [discriminate|]. rewrite E1 in E. injection E as <-.
  assert (name' = name) as -> by (destruct S as [_ S]; cbn in S; inversion S; congruence). split; [reflexivity|]. f_equal. eapply at_unique; eauto.
Qed.
Section Step.
  Variables (k : Z) (w : willow) (used : list string) (o : wop) (e : env).
  Hypothesis I : winv k w used.
  Hypothesis F : fresh used [e_id e; e_id2 e].
  Hypothesis LT : k + 1 < 2 ^ 63.
  (** The answer is that of the channel, old or new *)
  Lemma enqueue_answer name kv p i w' a : kv_arg kv -> plain kv -> Enqueue w name kv p i e = Some (w', XChan a) ->
    busy w name = false /\ counter_kv kv /\ (exists q, queue_at w name q) /\
    exists kv' c s c', counter_kv kv' /\ plain kv' /\ qinv c /\ perform (w_lim w) name kv' c (OEnqueue p i true) e = Some (s, c', a) /\ w_lim w' = s.
  Proof.
    intros HA HP. unfold Enqueue. destruct (kv_validate kv MinDataType MaxWithoutAnyDataType) eqn:V; cbn [negb]; [|discriminate].
    apply (counter_kv_iff kv HA) in V. destruct (busy w name); [discriminate|].
    destruct (find_queue (w_queues w) name) as [ptr|] eqn:FQ; [|discriminate]. destruct (wi_chans k w used I) as (u & R & RU).
    destruct F as [_ F2]. destruct (F2 (e_id2 e)) as [NU NI]; [right; left; reflexivity|]. assert (NU' : ~ In (e_id2 e) u) by (intros X; apply NU, RU; exact X).
    set (c0 := newChannel _ _). cbv zeta. set (made := perform (w_lim w) name kv c0 (OEnqueue p i true) e).
    set (mk := match made with Some (_, c, AStored _) => Some c | _ => None end). destruct (OtmCreateOrFind (w_chans w) name kv (e_id2 e) mk) as [m r] eqn:EC.
    assert (OC : forall s m' b, outcome (set_chans (set_lim w s) m') b = (w', XChan a) -> b = a /\ w_lim w' = s).
    { intros s m' b. unfold outcome. destruct b; intros [= <- <-]; auto. }
    destruct (find_at k w used name ptr I FQ) as (q & EQ & _). intros H. split; [reflexivity|]. split; [exact V|]. split; [exists q, ptr; auto|]. revert H.
    assert (FOUND : forall it, r = RFound it -> match perform (w_lim w) name (m_kv (it_val it)) (m_val (it_val it)) (OEnqueue p i true) e with
      | Some (s, c, a) => Some (outcome (set_chans (set_lim w s) (otm_update (w_chans w) name (m_id (it_val it)) (fun _ => c))) a) | None => None end = Some (w', XChan a) ->
      exists kv' c s c', counter_kv kv' /\ plain kv' /\ qinv c /\ perform (w_lim w) name kv' c (OEnqueue p i true) e = Some (s, c', a) /\ w_lim w' = s).
    { intros it ->. destruct (c25_found (w_chans w) u name kv (e_id2 e) mk it R HA NU') as (_ & HB & _); [rewrite EC; reflexivity|].
      destruct (perform (w_lim w) name (m_kv (it_val it)) (m_val (it_val it)) (OEnqueue p i true) e) as [[[s2 c2] a2]|] eqn:EP2; [|discriminate]. intros [= HO]. apply OC in HO as [-> HO].
      destruct (chan_inv k w used I name _ HB) as (_ & K & P & Q). exists (m_kv (it_val it)), (m_val (it_val it)), s2, c2. auto. }
    assert (NEW : match made with Some (s, _, a) => Some (outcome (set_chans (set_lim w s) m) a) | None => None end = Some (w', XChan a) ->
      exists kv' c s c', counter_kv kv' /\ plain kv' /\ qinv c /\ perform (w_lim w) name kv' c (OEnqueue p i true) e = Some (s, c', a) /\ w_lim w' = s).
    { destruct made as [[[s c] b]|] eqn:EM; [|discriminate]. intros [= HO]. apply OC in HO as [-> HO]. exists kv, c0, s, c. split; [exact V|]. split; [exact HP|]. split; [apply qinv_new|]. auto. }
    destruct r as [|it| | | | |]; try exact NEW; [apply FOUND; reflexivity|]. discriminate.
  Qed.
End Step.

Lemma c53_full k w used name kv p i e w' : wreach k w used -> k + 1 < 2 ^ 63 -> good_step w used (WEnqueue name kv p i) e w' (XChan AFull) -> e_locked e = true ->
  w_lim w' = w_lim w /\ exists kv' g limit total, counter_kv kv' /\ plain kv' /\ governs (w_lim w) (enqueued_kv name kv') g limit /\ limit <> -1 /\ group_total (w_lim w) g (enqueued_kv name kv') total /\ limit <= total.
Proof.
  intros R LT (HA & T & F & S) EL. pose proof (wreach_inv k w used R ltac:(lia)) as I. unfold wstep in S. destruct (w_up w); [|discriminate]. cbn [negb] in S.
  assert (F' : fresh used [e_id e; e_id2 e]) by exact F. destruct (enqueue_answer k w used e I F' name kv p i w' AFull HA T S) as (_ & _ & _ & kv' & c & s & c' & C & P & Q & EP & EW).
  destruct (wi_lim k w used I) as (u & SO & IU). destruct (perform_full k (w_lim w) u name kv' c p i e s c' SO ltac:(lia) C) as (-> & _ & g & limit & total & X); auto.
  { destruct F' as [ND F']. split; [exact ND|]. intros x Hx. destruct (F' x Hx) as [F1 F2]. split; [intros Y; apply F1, IU; exact Y|exact F2]. }
  split; [exact EW|]. exists kv', g, limit, total. tauto.
Qed.
Lemma c53_only k w used name kv p i e w' a : wreach k w used -> k + 1 < 2 ^ 63 -> good_step w used (WEnqueue name kv p i) e w' (XChan a) -> e_locked e = true ->
  (forall id kv' n, has_rule (w_lim w) id kv' n -> id = w_rule w) ->
  exists m total, GetQueue w name = (Some m, XOk) /\ queue_total w name total /\
    (a = AFull -> m <> -1 /\ m <= total) /\ (forall j, a = AStored j -> m = -1 \/ total < m).
Proof.
  intros R LT (HA & T & F & S) EL ONE. pose proof (wreach_inv k w used R ltac:(lia)) as I. unfold wstep in S. destruct (w_up w); [|discriminate]. cbn [negb] in S.
  assert (F' : fresh used [e_id e; e_id2 e]) by exact F. destruct (enqueue_answer k w used e I F' name kv p i w' a HA T S) as (NB & CK & (q & A) & kv' & c & s & c' & C & P & Q & EP & EW).
  destruct (wi_lim k w used I) as (u & SO & IU). assert (FU : fresh u [e_id e; e_id2 e]).
  { destruct F' as [ND F']. split; [exact ND|]. intros x Hx. destruct (F' x Hx) as [F1 F2]. split; [intros Y; apply F1, IU; exact Y|exact F2]. }
  pose proof (lreach_inv _ _ (so_reach _ _ _ SO)) as L. pose proof (enqueued_counter name kv' C) as CE. destruct (counter_rep _ CE) as [RE _]. destruct (counter_rep _ (queue_counter name)) as [RQ _].
  destruct (total_exists (w_lim w) u (queue_kv name) (queue_kv name) L RQ) as (total & TT).
  assert (GS : gsum (l_counts (w_lim w)) (queue_kv name) (enqueued_kv name kv') = total).
  { apply (group_total_iff _ u) in TT; auto. rewrite TT. apply (gsum_same _ u); auto. apply enqueued_group; assumption. }
  exists (q_limit q), total. split; [|split; [exact TT|]].
  { unfold GetQueue. rewrite NB. destruct A as (ptr & -> & ->). reflexivity. }
  split.
  - intros ->. destruct (perform_full k (w_lim w) u name kv' c p i e s c' SO ltac:(lia) C FU EL EP) as (_ & _ & g & limit & total' & G & NL & GT & LE).
    destruct (only_governs k w used name q kv' I A C P ONE g limit G) as [-> ->]. split; [exact NL|]. apply (group_total_iff _ u) in GT; auto. lia.
  - intros j ->. destruct (Z.eq_dec (q_limit q) (-1)) as [|N]; [auto|]. right.
    apply (perform_in k (w_lim w) u name kv' c p i e s c' j SO LT C P FU Q EP (queue_kv name) (q_limit q) total (queue_governs k w used name q kv' I A C P) N). apply (group_total_iff _ u); auto.
Qed.
(** ** Restarting *)
Lemma c52_restart k w used id : wreach k w used -> k < 2 ^ 63 -> ~ In id used -> start (w_lim w) id = None.
Proof.
  intros R LT NU. pose proof (wreach_inv k w used R LT) as I. destruct (wi_lim k w used I) as (u & SO & IU).
  assert (HA : kv_arg rule_kv). { split; [repeat constructor; cbn; intuition discriminate|]. intros x v [[= <- <-] | [[= <- <-] | []]]; intros [X | X]; discriminate. }
  destruct (create_rule (w_lim w) u rule_kv id 0 (so_reach _ _ _ SO) HA (fun X => NU (IU _ X))) as (_ & _ & _ & X & _). destruct X as [E _].
  - split; [apply kv_valid_iff; reflexivity|lia].
  - exists (w_rule w), rule_kv, 0. split; [apply I|apply kv_same_refl]. 
  - unfold start. cbn [lrun]. destruct (CreateRule (w_lim w) rule_kv id 0) as [s a]. cbn [snd] in E. subst a. reflexivity.
Qed.
