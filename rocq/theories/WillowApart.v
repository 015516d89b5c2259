(** A step about one queue leaves the others alone. *)
From Coq Require Import String List Bool Arith NArith ZArith Lia Permutation.
Import ListNotations.
From Verif Require Import Datatypes SpecValues DatatypesProofs PropLemmasValues Collections Query SpecQuery QueryProofs Assoc SpecAssoc AssocMaps AssocProofs AssocOps PropLemmasAssoc OneToMany SpecOneToMany OneToManyProofs
  Limiter SpecLimiter LimiterProofs LimiterCounts LimiterLimits LimiterSums PropLemmasLimiter PropLemmasRules PropLemmasUnit.
From Verif Require Import BTree SpecBTree WillowQueues.
From Verif Require Import Channel SpecChannel ChannelProofs ChannelContents ChannelOrder ChannelCounts Willow SpecWillow WillowMaps WillowCounts WillowPerform WillowInv WillowSteps WillowDir.
Local Open Scope Z_scope.

Record agree (w w' : willow) (n : string) : Prop := {
  ag_at : forall q, queue_at w' n q <-> queue_at w n q;
  ag_busy : busy w' n = busy w n;
  ag_chans : belongings (w_chans w') n = belongings (w_chans w) n;
  ag_total : total_of (w_lim w') n = total_of (w_lim w) n }.
Definition apart (w w' : willow) (name : string) : Prop := forall n, n <> name -> agree w w' n.
Lemma agree_refl w n : agree w w n.
Proof. constructor; intros; reflexivity. Qed.
Lemma apart_refl w name : apart w w name.
Proof. intros n _. apply agree_refl. Qed.
Lemma agree_down w w' n : agree w w' n -> agree w (set_down w') n.
Proof. intros []. constructor; assumption. Qed.
Lemma agree_outcome w w1 a w' x n : outcome w1 a = (w', x) -> agree w w1 n -> agree w w' n.
Proof. intros E A. unfold outcome in E. destruct a; injection E as <- <-; try exact A. apply agree_down. exact A. Qed.
Lemma get_at k w used n : winv k w used ->
  (busy w n = true /\ GetQueue w n = (None, XConflict)) \/ (busy w n = false /\ ((exists q, queue_at w n q /\ GetQueue w n = (Some (q_limit q), XOk)) \/ ((forall q, ~ queue_at w n q) /\ GetQueue w n = (None, XMissing)))).
Proof.
  intros I. unfold GetQueue. destruct (busy w n); [auto|]. right. split; [reflexivity|]. destruct (find_queue (w_queues w) n) as [p|] eqn:F.
  - destruct (find_at k w used n p I F) as (q & E & _). left. exists q. rewrite E. split; [exists p; auto|reflexivity].
  - right. split; [|reflexivity]. intros q (p & F' & _). congruence.
Qed.
Lemma agree_get k w used k' w' used' n : winv k w used -> winv k' w' used' -> agree w w' n -> GetQueue w' n = GetQueue w n.
Proof.
  intros I I' [A B _ _]. destruct (get_at k w used n I) as [[B1 ->] | [B1 H]], (get_at k' w' used' n I') as [[B2 ->] | [B2 H']]; try congruence.
  destruct H as [(q & H1 & ->) | [H1 ->]], H' as [(q' & H2 & ->) | [H2 ->]]; auto.
  - apply A in H2. rewrite (at_unique _ _ _ _ H1 H2). reflexivity.
  - exfalso. apply (H2 q), A, H1.
  - exfalso. apply (H1 q'), A, H2.
Qed.
Lemma total_iff k w used n total : winv k w used -> queue_total w n total <-> total = total_of (w_lim w) n.
Proof. intros I. destruct (wi_lim _ _ _ I) as (u & SO & _). apply (group_total_iff _ u); [apply lreach_inv; apply SO|apply queue_rep]. Qed.
Lemma agree_same w w' n : w_queues w' = w_queues w -> w_objs w' = w_objs w -> busy w' n = busy w n -> belongings (w_chans w') n = belongings (w_chans w) n -> total_of (w_lim w') n = total_of (w_lim w) n -> agree w w' n.
Proof. intros E1 E2 E3 E4 E5. constructor; auto. intros q. apply same_at; auto. Qed.
Lemma total_counts s s' n : l_counts s' = l_counts s -> total_of s' n = total_of s n.
Proof. unfold total_of. intros ->. reflexivity. Qed.

Section Apart.
  Variables (k : Z) (w : willow) (used : list string) (o : wop) (e : env).
  Hypothesis (I : winv k w used) (F : fresh used (drawn o e)) (LT : k + 1 < 2 ^ 63).
  Lemma update_apart name id f s' n : n <> name -> total_of s' n = total_of (w_lim w) n -> agree w (set_chans (set_lim w s') (otm_update (w_chans w) name id f)) n.
  Proof.
    intros N T. destruct (wi_chans k w used I) as (u & R & RU). apply agree_same; auto. cbn [w_chans set_chans]. rewrite (index_update (w_chans w) u name id f n R). destruct (String.eqb_spec name n); [congruence|reflexivity].
  Qed.
  Lemma perform_apart name kv c x s' c' a n : counter_kv kv -> plain kv -> qinv c -> perform (w_lim w) name kv c x e = Some (s', c', a) -> n <> name -> total_of s' n = total_of (w_lim w) n.
  Proof. intros K P Q H N. destruct (perform_at k w used o e I F LT name kv c x s' c' a K P Q H) as (_ & _ & f & M & _). apply (mk_sums _ _ _ _ _ M). exact N. Qed.
  Lemma request_apart name ch x s' c' a w1 b : In ch (belongings (w_chans w) name) -> perform (w_lim w) name (m_kv ch) (m_val ch) x e = Some (s', c', a) ->
    outcome (set_chans (set_lim w s') (otm_update (w_chans w) name (m_id ch) (fun _ => c'))) a = (w1, b) -> apart w w1 name.
  Proof.
    intros HC HP HO n N. eapply agree_outcome; [exact HO|]. destruct (chan_inv k w used I name ch HC) as (_ & K & P & Q). apply update_apart; [exact N|]. eapply perform_apart; eauto.
  Qed.
  Lemma remove_apart name ch s' c' : In ch (belongings (w_chans w) name) -> (forall n, n <> name -> total_of s' n = total_of (w_lim w) n) -> apart w (remove_channel (set_lim w s') name ch c') name.
  Proof.
    intros HC T n N. destruct (wi_chans k w used I) as (u & R & RU). destruct (wi_chan k w used I name ch HC) as [[q A] CO]. destruct (at_name k w used name q I A) as (_ & NE & _). destruct (co_kv _ _ _ _ CO) as (KA & KV & _).
    destruct (index_delete (w_chans w) u name ch R HC NE KA KV) as (_ & _ & D). apply agree_same; auto.
  Qed.
  Lemma enqueue_apart name kv p i w1 b : kv_arg kv -> plain kv -> Enqueue w name kv p i e = Some (w1, b) -> apart w w1 name.
  Proof.
    intros HA HP. unfold Enqueue. destruct (kv_validate kv MinDataType MaxWithoutAnyDataType) eqn:V; cbn [negb]; [|intros [= <- <-]; apply apart_refl].
    apply (counter_kv_iff kv HA) in V. destruct (busy w name); [intros [= <- <-]; apply apart_refl|].
    destruct (find_queue (w_queues w) name) as [ptr|] eqn:FQ; [|intros [= <- <-]; apply apart_refl]. destruct (wi_chans k w used I) as (u & R & RU).
    destruct F as [_ F2]. destruct (F2 (e_id2 e)) as [NU NI]; [right; left; reflexivity|]. assert (NU' : ~ In (e_id2 e) u) by (intros X; apply NU, RU; exact X).
    set (c0 := newChannel _ _). cbv zeta. set (made := perform (w_lim w) name kv c0 (OEnqueue p i true) e).
    set (mk := match made with Some (_, c, AStored _) => Some c | _ => None end). destruct (OtmCreateOrFind (w_chans w) name kv (e_id2 e) mk) as [m r] eqn:EC.
    assert (FOUND : forall it, r = RFound it -> match perform (w_lim w) name (m_kv (it_val it)) (m_val (it_val it)) (OEnqueue p i true) e with
      | Some (s, c, a) => Some (outcome (set_chans (set_lim w s) (otm_update (w_chans w) name (m_id (it_val it)) (fun _ => c))) a) | None => None end = Some (w1, b) -> apart w w1 name).
    { intros it ->. destruct (c25_found (w_chans w) u name kv (e_id2 e) mk it R HA NU') as (_ & HB & _); [rewrite EC; reflexivity|].
      destruct (perform (w_lim w) name (m_kv (it_val it)) (m_val (it_val it)) (OEnqueue p i true) e) as [[[s2 c2] a2]|] eqn:EP2; [|discriminate]. intros [= HO].
      eapply (request_apart name (it_val it)); eauto. }
    assert (NEW : match made with Some (s, _, a) => Some (outcome (set_chans (set_lim w s) m) a) | None => None end = Some (w1, b) -> apart w w1 name).
    { destruct made as [[[s c] a]|] eqn:EM; [|discriminate]. intros [= HO] n N. eapply agree_outcome; [exact HO|]. apply agree_same; auto.
      - pose proof (c25_isolated (w_chans w) u (OCreateOrFind name kv (e_id2 e) mk) n R) as ISO. cbn [owner orun] in ISO. rewrite EC in ISO. apply ISO. congruence.
      - eapply (perform_apart name kv c0); eauto. apply qinv_new. }
    destruct r as [|it| | | | |]; try exact NEW; [apply FOUND; reflexivity|]. intros [= <- <-]. apply apart_refl.
  Qed.
  Lemma find_channel_in name kv ch : find_channel (w_chans w) name kv = Some (Some ch) -> In ch (belongings (w_chans w) name).
  Proof.
    intros FC. unfold find_channel in FC. destruct (wi_chans k w used I) as (u & R & RU). destruct (c25_query_reveals (w_chans w) u name (ExactQuery kv) R) as (l & HL & HQ).
    destruct (HQ _ (fun (_ : option (many channel)) x => (Some x, false)) None) as [E | [E | E]]; rewrite E in FC; try discriminate. destruct l as [|y l]; cbn in FC; [discriminate|]. injection FC as <-. apply (HL y). left. reflexivity.
  Qed.
  Lemma item_apart name kv x w1 b : ItemRequest w name kv x e = Some (w1, b) -> apart w w1 name.
  Proof.
    unfold ItemRequest. destruct (negb (kv_validate kv MinDataType MaxWithoutAnyDataType)); [intros [= <- <-]; apply apart_refl|].
    destruct (busy w name); [intros [= <- <-]; apply apart_refl|]. destruct (find_queue (w_queues w) name) as [ptr|] eqn:FQ; [|intros [= <- <-]; apply apart_refl].
    destruct (find_channel (w_chans w) name kv) as [[ch|]|] eqn:FC; try (intros [= <- <-]; apply apart_refl). apply find_channel_in in FC.
    destruct (perform (w_lim w) name (m_kv ch) (m_val ch) x e) as [[[s2 c2] a2]|] eqn:EP2; [|discriminate]. intros [= HO]. eapply request_apart; eauto.
  Qed.
  Lemma close_apart name id f : apart w (set_chans w (otm_update (w_chans w) name id f)) name.
  Proof. intros n N. pose proof (update_apart name id f (w_lim w) n N eq_refl) as H. destruct w. exact H. Qed.
  Lemma delete_channel_apart name kv w1 b : DeleteChannel w name kv = Some (w1, b) -> apart w w1 name.
  Proof.
    unfold DeleteChannel. destruct (busy w name); [intros [= <- <-]; apply apart_refl|]. destruct (find_queue (w_queues w) name) as [ptr|]; [|intros [= <- <-]; apply apart_refl].
    destruct (negb (kv_validate kv MinDataType MaxDataType)); [intros [= <- <-] n N; apply agree_down, agree_refl|].
    destruct (indexed_channel (w_chans w) name kv) as [ch|]; [|intros [= <- <-]; apply apart_refl].
    destruct (qstep (m_val ch) OClose) as [[c a]|]; [|discriminate]. intros [= <- <-]. apply close_apart.
  Qed.
  Lemma close_for_apart name cid w1 b : CloseForQueue w name cid = Some (w1, b) -> apart w w1 name.
  Proof.
    unfold CloseForQueue. destruct (negb (busy w name)); [discriminate|]. destruct (channel_by_id (w_chans w) name cid) as [ch|]; [|discriminate].
    destruct (qstep (m_val ch) OClose) as [[c a]|]; [|discriminate]. intros [= <- <-]. apply close_apart.
  Qed.
  Lemma expire_apart name kv w1 b : kv_arg kv -> Expire w name kv = Some (w1, b) -> apart w w1 name.
  Proof.
    intros HA. unfold Expire. destruct (indexed_channel (w_chans w) name kv) as [ch|] eqn:EI; [|discriminate].
    destruct (wi_chans k w used I) as (u & R & RU). pose proof (index_by_kv (w_chans w) u name kv R HA) as IX. unfold indexed_channel in EI. rewrite EI in IX. destruct IX as [HC _].
    destruct (qstep (m_val ch) Channel.ODelete) as [[c a]|]; [|discriminate]. destruct a; try discriminate. intros [= <- <-]. pose proof (remove_apart name ch (w_lim w) c HC (fun _ _ => eq_refl)) as H. destruct w. exact H.
  Qed.
  Lemma tick_apart name cid x w1 b : Tick w name cid x e = Some (w1, b) -> apart w w1 name.
  Proof.
    unfold Tick. destruct (negb (background x)); [discriminate|]. destruct (channel_by_id (w_chans w) name cid) as [ch|] eqn:EI; [|discriminate]. pose proof (by_id k w used I name cid ch EI) as HC.
    destruct (perform (w_lim w) name (m_kv ch) (m_val ch) x e) as [[[s c] a]|] eqn:EP; [|discriminate]. cbv zeta.
    assert (NW : Some (outcome (set_chans (set_lim w s) (otm_update (w_chans (set_lim w s)) name (m_id ch) (fun _ => c))) a) = Some (w1, b) -> apart w w1 name) by (intros [= HO]; eapply request_apart; eauto).
    destruct x; try exact NW. clear NW. intros [= <- <-]. destruct (chan_inv k w used I name ch HC) as (_ & K & P & Q). apply remove_apart; [exact HC|]. intros n N. eapply perform_apart; eauto.
  Qed.
  Lemma old_apart n x w1 b : TickOld w n x e = Some (w1, b) -> exists name kv c, nth_error (w_old w) n = Some (name, kv, c) /\ apart w w1 name.
  Proof.
    unfold TickOld. destruct (negb (background x)); [discriminate|]. destruct (nth_error (w_old w) n) as [[[name kv] c]|] eqn:EN; [|discriminate].
    pose proof (nth_error_In _ _ EN) as HI. destruct (wi_old k w used I name kv c HI) as [K P Q IT RM].
    destruct (perform (w_lim w) name kv c x e) as [[[s c'] a]|] eqn:EP; [|discriminate]. intros [= HO]. exists name, kv, c. split; [reflexivity|]. intros n' N. eapply agree_outcome; [exact HO|].
    apply agree_same; auto. eapply perform_apart; eauto.
  Qed.
  (** Requests for queues *)
  Lemma create_at name m w1 b : int64 m -> -1 <= m -> CreateQueue w name (Some m) e = (w1, b) ->
    apart w w1 name /\ ((b <> XCreated /\ w1 = w /\ (name = EmptyString \/ busy w name = true \/ exists q, queue_at w name q)) \/
      (b = XCreated /\ name <> EmptyString /\ busy w name = false /\ (forall q, ~ queue_at w name q) /\ (forall q, queue_at w1 name q <-> q = mkQueue name m) /\
       busy w1 name = busy w name /\ belongings (w_chans w1) name = belongings (w_chans w) name /\ total_of (w_lim w1) name = total_of (w_lim w) name)).
  Proof.
    intros HM LM. unfold CreateQueue. destruct (String.eqb_spec name EmptyString) as [|NE]; [intros [= <- <-]; split; [apply apart_refl|left; repeat split; auto; discriminate]|].
    destruct (busy w name) eqn:NB; [intros [= <- <-]; split; [apply apart_refl|left; repeat split; auto; discriminate]|].
    pose proof (create_queue_spec (w_queues w) name (length (w_objs w)) (wi_tree k w used I)) as CQ. destruct (find_queue (w_queues w) name) as [p|] eqn:FQ.
    { destruct CQ as (r & ->). intros [= <- <-]. split; [apply apart_refl|left]. split; [discriminate|]. split; [reflexivity|]. right. right. destruct (find_at k w used name p I FQ) as (q & E & _). exists q, p. auto. }
    destruct CQ as (t & -> & WS & PM). destruct (lrun (w_lim w) (LCreateOverride (w_rule w) (queue_kv name) (e_id e) m)) as [s a] eqn:EL.
    destruct (wi_lim k w used I) as (u & SO & IU). destruct F as [_ F2]. destruct (F2 (e_id e) (or_introl eq_refl)) as [NU NID]. pose proof (so_reach _ _ _ SO) as LR.
    destruct (queue_kv_facts name) as (HA & HV & NR & KEYS).
    pose proof (create_override (w_lim w) u (w_rule w) (queue_kv name) (e_id e) m LR HA (fun X => NU (IU _ X))) as CO. cbn [lrun] in EL. cbv zeta in CO. rewrite EL in CO. cbn [fst snd] in CO.
    destruct CO as (RU & CN & _ & _ & _ & _ & GO). specialize (GO (conj HV LM) rule_kv 0 (wi_rule k w used I) KEYS). destruct GO as (_ & _ & GO).
    destruct GO as [-> OV]; [exact NR| |].
    { intros (i & kv & m0 & HO & S). destruct (wi_over2 k w used I _ _ _ HO) as (name' & q & (p & FP & _) & -> & _). apply queue_kv_inj in S. subst name'. congruence. }
    intros [= <- <-]. set (w' := set_queues (set_lim w s) t (w_objs w ++ [mkQueue name m])).
    assert (AT : forall n q, queue_at w' n q <-> queue_at w n q \/ n = name /\ q = mkQueue name m).
    { intros n q. unfold queue_at. cbn [w_queues w_objs w' set_queues]. split.
      - intros (p & FP & EP). apply find_queue_in in FP; [|exact WS]. apply (Permutation_in _ PM) in FP as [[= <- <-] | FP].
        + right. split; [reflexivity|]. rewrite nth_error_app2 in EP by lia. rewrite Nat.sub_diag in EP. cbn in EP. congruence.
        + left. exists p. split; [apply find_queue_in; [apply I|exact FP]|]. destruct (wi_objs k w used I _ _ FP) as (q0 & E0 & _). rewrite nth_error_app1 in EP; [exact EP|]. apply nth_error_Some. congruence.
      - intros [(p & FP & EP) | [-> ->]].
        + exists p. split.
          * apply find_queue_in in FP; [|apply I]. apply find_queue_in; [exact WS|]. apply (Permutation_in _ (Permutation_sym PM)). right. exact FP.
          * rewrite nth_error_app1; [exact EP|]. apply nth_error_Some. congruence.
        + exists (length (w_objs w)). split; [apply find_queue_in; [exact WS|]; apply (Permutation_in _ (Permutation_sym PM)); left; reflexivity|].
          rewrite nth_error_app2 by lia. rewrite Nat.sub_diag. reflexivity. }
    assert (NQ : forall q, ~ queue_at w name q) by (intros q (p & FP & _); congruence).
    split.
    - intros n N. constructor; try reflexivity; [|apply total_counts; exact CN]. intros q. rewrite AT. split; [intros [H | [H _]]; [exact H|congruence]|auto].
    - right. split; [reflexivity|]. split; [exact NE|]. split; [first [exact NB|reflexivity]|]. split; [exact NQ|]. split; [|split; [first [exact NB|reflexivity]|split; [reflexivity|apply total_counts; exact CN]]].
      intros q. rewrite AT. split; [intros [H | [_ H]]; [exfalso; eapply NQ; eauto|exact H]|auto].
  Qed.
  Lemma update_at name m w1 b : int64 m -> -1 <= m -> UpdateQueue w name m = (w1, b) ->
    apart w w1 name /\ ((w1 = w /\ (busy w name = true /\ b = XConflict \/ busy w name = false /\ (forall q, ~ queue_at w name q) /\ b = XMissing)) \/
      (b = XOk /\ busy w name = false /\ (exists q, queue_at w name q) /\ (forall q, queue_at w1 name q <-> q = mkQueue name m) /\
       busy w1 name = busy w name /\ belongings (w_chans w1) name = belongings (w_chans w) name /\ total_of (w_lim w1) name = total_of (w_lim w) name)).
  Proof.
    intros HM LM. unfold UpdateQueue. destruct (busy w name) eqn:NB; [intros [= <- <-]; split; [apply apart_refl|left; auto]|].
    destruct (find_queue (w_queues w) name) as [p|] eqn:FQ; [|intros [= <- <-]; split; [apply apart_refl|left; split; [reflexivity|right; split; [reflexivity|split; [|reflexivity]]; intros q (p & FP & _); congruence]]].
    destruct (find_at k w used name p I FQ) as (q & EQ & EN & NE & RG). assert (A : queue_at w name q) by (exists p; auto). cbv zeta.
    cbn [w_lim w_rule set_queues w_queues w_objs]. destruct (query_override k w used name q (Some 2) I A (or_intror eq_refl)) as (oid & -> & NO & HO).
    destruct (lrun (w_lim w) (LUpdateOverride (w_rule w) oid m)) as [s a] eqn:EL. destruct (wi_lim k w used I) as (u & SO & IU). pose proof (so_reach _ _ _ SO) as LR.
    pose proof (update_override (w_lim w) u (w_rule w) oid m LR) as UO. cbn [lrun] in EL. cbv zeta in UO. rewrite EL in UO. cbn [fst snd] in UO. destruct UO as (RU & CN & _ & _ & GO).
    destruct (GO LM _ _ HO) as [-> OV]. intros [= <- <-]. unfold set_limit. rewrite EQ.
    set (w' := set_lim (set_queues w (w_queues w) (set_nth p (mkQueue (q_name q) m) (w_objs w))) s).
    assert (AT : forall n q', queue_at w' n q' <-> n <> name /\ queue_at w n q' \/ n = name /\ q' = mkQueue name m).
    { intros n q'. unfold queue_at. cbn [w_queues w_objs w' set_queues set_lim]. split.
      - intros (p' & FP & EP). rewrite nth_set_nth in EP. destruct (Nat.eqb_spec p p') as [<- | NP].
        + rewrite EQ in EP. injection EP as <-. destruct (find_at k w used n p I FP) as (q0 & E0 & N0 & _). right. rewrite EQ in E0. injection E0 as <-. rewrite EN in *. auto.
        + left. split; [intros ->; rewrite FQ in FP; congruence|eauto].
      - intros [[NN (p' & FP & EP)] | [-> ->]].
        + exists p'. split; [exact FP|]. rewrite nth_set_nth. destruct (Nat.eqb_spec p p') as [<- | NP]; [|exact EP]. destruct (find_at k w used n p I FP) as (q0 & E0 & N0 & _). congruence.
        + exists p. split; [exact FQ|]. rewrite nth_set_nth, Nat.eqb_refl, EQ, EN. reflexivity. }
    split.
    - intros n N. constructor; try reflexivity; [|apply total_counts; exact CN]. intros q'. rewrite AT. split; [intros [[_ H] | [H _]]; [exact H|congruence]|auto].
    - right. split; [reflexivity|]. split; [reflexivity|]. split; [eauto|]. split; [|split; [first [exact NB|reflexivity]|split; [reflexivity|apply total_counts; exact CN]]].
      intros q'. rewrite AT. split; [intros [[H _] | [_ H]]; [congruence|exact H]|auto].
  Qed.
  Lemma delete_at name w1 b : DeleteQueue w name = (w1, b) ->
    apart w w1 name /\ (forall q, queue_at w1 name q <-> queue_at w name q) /\ belongings (w_chans w1) name = belongings (w_chans w) name /\ total_of (w_lim w1) name = total_of (w_lim w) name /\
    ((w1 = w /\ (busy w name = true /\ b = XConflict \/ busy w name = false /\ (forall q, ~ queue_at w name q) /\ b = XOk)) \/ (b = XOk /\ busy w name = false /\ (exists q, queue_at w name q) /\ busy w1 name = true)).
  Proof.
    unfold DeleteQueue. destruct (busy w name) eqn:NB; [intros [= <- <-]; split; [apply apart_refl|]; split; [reflexivity|]; split; [reflexivity|]; split; [reflexivity|]; auto|].
    destruct (find_queue (w_queues w) name) as [p|] eqn:FQ.
    2: { intros [= <- <-]; split; [apply apart_refl|]; split; [reflexivity|]; split; [reflexivity|]; split; [reflexivity|]; left; split; [reflexivity|right; split; [reflexivity|split; [|reflexivity]]]. intros q (p & FP & _); congruence. }
    intros [= <- <-]. split.
    - intros n N. apply agree_same; try reflexivity. unfold busy. cbn [w_busy set_busy existsb]. destruct (String.eqb_spec n name); [congruence|reflexivity].
    - split; [reflexivity|]. split; [reflexivity|]. split; [reflexivity|]. right. split; [reflexivity|]. split; [reflexivity|]. split.
      + destruct (find_at k w used name p I FQ) as (q & E & _). exists q, p. auto.
      + unfold busy. cbn [w_busy set_busy existsb]. rewrite String.eqb_refl. reflexivity.
  Qed.
  Lemma drop_at name w1 b : DropQueue w name = Some (w1, b) ->
    apart w w1 name /\ b = XOk /\ busy w name = true /\ busy w1 name = false /\ (forall q, ~ queue_at w1 name q) /\ belongings (w_chans w) name = [] /\ belongings (w_chans w1) name = [] /\ total_of (w_lim w1) name = total_of (w_lim w) name.
  Proof.
    unfold DropQueue. destruct (busy w name) eqn:NB; [|discriminate].
    assert (EMP : match otm_get (w_chans w) name with Some t => match a_items t with [] => true | _ => false end | None => true end = true -> belongings (w_chans w) name = []).
    { unfold belongings. destruct (otm_get (w_chans w) name) as [t|]; [|auto]. destruct (a_items t); [auto|discriminate]. }
    destruct (match otm_get (w_chans w) name with Some t => match a_items t with [] => true | _ => false end | None => true end); [|discriminate]. specialize (EMP eq_refl). cbn [andb].
    apply busy_iff in NB. destruct (wi_busy k w used I name NB) as (q & A). assert (A0 := A). destruct A0 as (p & FQ & EQ). destruct (at_name k w used name q I A) as (EN & NE & RG). cbv zeta.
    cbn [w_lim w_rule set_chans w_queues w_objs]. destruct (query_override k w used name q None I A (or_introl eq_refl)) as (oid & -> & NO & HO).
    destruct (lrun (w_lim w) (LDeleteOverride (w_rule w) oid)) as [s a] eqn:EL. destruct (wi_lim k w used I) as (u & SO & IU). pose proof (so_reach _ _ _ SO) as LR.
    pose proof (delete_override (w_lim w) u (w_rule w) oid LR NO) as DO. cbn [lrun] in EL. cbv zeta in DO. rewrite EL in DO. cbn [fst snd] in DO. destruct DO as (RU & CN & OV & LD & _).
    replace a with LDone by (symmetry; apply LD; exists rule_kv, 0; apply I).
    destruct (delete_queue_spec (w_queues w) name p (wi_tree k w used I) FQ) as (t & x & -> & WS & PM). intros [= <- <-].
    destruct (wi_chans k w used I) as (uc & RC & IC).
    pose proof (fun n N => c25_isolated (w_chans w) uc (SpecOneToMany.ODestroyOne name (fun _ => true)) n RC N) as ISO. cbn [owner orun] in ISO.
    destruct (c25_destroy_one (w_chans w) uc name (fun _ => true) RC NE) as (_ & gone & rest & EB & _ & _ & RB). rewrite EMP in EB. symmetry in EB. apply app_eq_nil in EB as [-> ->].
    set (m' := fst (OtmDestroyOne (w_chans w) name (fun _ => true))) in *.
    set (w' := not_busy (set_queues (set_lim (set_chans w m') s) t (w_objs w)) name).
    assert (AT : forall n q', queue_at w' n q' <-> n <> name /\ queue_at w n q').
    { intros n q'. unfold queue_at. cbn [w_queues w_objs w' not_busy set_busy set_queues set_lim set_chans]. split.
      - intros (p' & FP & EP). apply find_queue_in in FP; [|exact WS]. assert (FP0 : In (Str n, p') (tree_contents (w_queues w))) by (apply (Permutation_in _ (Permutation_sym PM)); right; exact FP).
        split; [|exists p'; split; [apply find_queue_in; [apply I|exact FP0]|exact EP]]. intros ->. pose proof (contents_nodup (w_queues w) (wi_tree k w used I)) as ND.
        apply (Permutation_NoDup (Permutation_map fst PM)) in ND. cbn [map fst] in ND. apply NoDup_cons_iff in ND as [NI _]. apply NI. apply (in_map fst) in FP. exact FP.
      - intros [NN (p' & FP & EP)]. exists p'. split; [|exact EP]. apply find_queue_in in FP; [|apply I]. apply find_queue_in; [exact WS|]. apply (Permutation_in _ PM) in FP as [[= <- _] | FP]; [congruence|exact FP]. }
    assert (BB : forall n, busy w' n = true <-> busy w n = true /\ n <> name).
    { intros n. rewrite !busy_iff. cbn [w_busy w' not_busy set_busy set_queues set_lim set_chans]. rewrite filter_In. destruct (String.eqb_spec name n); cbn; split; intros [H1 H2]; split; auto; congruence. }
    split; [|split; [reflexivity|split; [reflexivity|split; [|split; [|split; [exact EMP|split; [|apply total_counts; exact CN]]]]]]].
    - intros n N. constructor.
      + intros q'. rewrite AT. tauto.
      + apply Bool.eq_iff_eq_true. rewrite BB. tauto.
      + cbn [w_chans w' not_busy set_busy set_queues set_lim set_chans]. apply ISO. congruence.
      + apply total_counts. exact CN.
    - fold w'. apply Bool.not_true_iff_false. rewrite BB. tauto.
    - intros q' H. apply AT in H. tauto.
    - cbn [w_chans w' not_busy set_busy set_queues set_lim set_chans]. destruct (belongings m' name) as [|i l]; [reflexivity|]. exfalso. apply (RB i). left. reflexivity.
  Qed.
End Apart.
(** Other clients of the limiter *)
Lemma out_step s s' u u' kv o new g q : linv s u -> linv s' u' -> LimiterCounts.held (l_counts s) kv o -> counter_step (l_counts s) (l_counts s') kv o new -> kv_rep q -> ~ in_group g q kv ->
  gsum (l_counts s') g q = gsum (l_counts s) g q.
Proof.
  intros L L' H S RQ G. pose proof (step_held _ _ _ _ _ S) as H'. pose proof (gsum_step _ _ _ _ _ g q S) as E.
  rewrite (part_out g q kv o RQ (held_rep s u kv o L H) G), (part_out g q kv new RQ (held_rep s' u' kv new L' H') G) in E. lia.
Qed.
Lemma unmarked_group name kv : ~ In EnqueuedKey (kv_keys kv) -> ~ in_group (queue_kv name) (queue_kv name) kv.
Proof.
  intros N G. destruct (G EnqueuedKey (or_intror (or_introl eq_refl))) as (v & v' & _ & E & _). apply N. apply kv_get_In in E. apply (in_map fst) in E. exact E.
Qed.
Lemma limiter_total k s u r x n : sound k s u -> lop_arg x -> tame r (WLimiter x) -> (forall id, lop_id x = Some id -> ~ In id u /\ id <> EmptyString) -> k + lcost x < 2 ^ 63 ->
  total_of (fst (lrun s x)) n = total_of s n.
Proof.
  intros SO HA T ID LT. pose proof (so_reach _ _ _ SO) as LR. pose proof (lreach_inv _ _ LR) as L. pose proof (lreach_inv _ _ (so_reach _ _ _ (sound_run k s u x SO HA ID LT))) as L'.
  destruct (lrun s x) as [s' a] eqn:E. cbn [fst] in *.
  destruct x as [kv id li|id li|id|rid kv id li|rid id li|rid id|kv n0 id locked|kv n0 id]; cbn [tame lop_arg lrun lop_id] in *.
  - apply total_counts. destruct HA as [HA _]. destruct (ID id eq_refl) as [NU _]. pose proof (create_rule s u kv id li LR HA NU) as X. cbv zeta in X. rewrite E in X. apply X.
  - apply total_counts. pose proof (update_rule s u id li LR) as X. cbv zeta in X. rewrite E in X. apply X.
  - apply total_counts. destruct T as [T NE]. pose proof (delete_rule s u id LR NE) as X. cbv zeta in X. rewrite E in X. apply X.
  - apply total_counts. destruct HA as [HA _]. destruct (ID id eq_refl) as [NU _]. pose proof (create_override s u rid kv id li LR HA NU) as X. cbv zeta in X. rewrite E in X. apply X.
  - apply total_counts. pose proof (update_override s u rid id li LR) as X. cbv zeta in X. rewrite E in X. apply X.
  - apply total_counts. destruct T as [T NE]. pose proof (delete_override s u rid id LR NE) as X. cbv zeta in X. rewrite E in X. apply X.
  - destruct HA as [HA _]. destruct (ID id eq_refl) as [NU NE]. destruct (kv_validate kv MinDataType MaxWithoutAnyDataType) eqn:V; [|unfold UpsertCounters in E; rewrite V in E; injection E as <- _; reflexivity].
    pose proof V as C. apply (counter_kv_iff kv HA) in C. destruct (li_counts s u L) as (u0 & RU & IU). destruct (held_ex (l_counts s) u0 kv RU C) as (o & HO). revert E. unfold UpsertCounters. rewrite V. cbn [negb].
    destruct (0 <? n0).
    + unfold IncrementCounters. destruct (decide s kv locked); try (intros [= <- _]; reflexivity).
      destruct (inc_at (l_counts s) u0 kv n0 id RU C (fun X => NU (IU _ X)) NE o HO) as (t' & u' & new & E & R' & I' & S & _). rewrite E. intros [= <- _].
      eapply (out_step s (with_counts s t')); eauto; [apply queue_rep|apply unmarked_group; exact T].
    + destruct (dec_at s u0 kv n0 RU C o HO) as (t' & E & R' & S). rewrite E. intros [= <- _]. eapply (out_step s (with_counts s t')); eauto; [apply queue_rep|apply unmarked_group; exact T].
  - destruct HA as [HA _]. destruct (ID id eq_refl) as [NU NE]. destruct (kv_validate kv MinDataType MaxWithoutAnyDataType) eqn:V; [|unfold SetCounters in E; rewrite V in E; injection E as <- _; reflexivity].
    pose proof V as C. apply (counter_kv_iff kv HA) in C. destruct (li_counts s u L) as (u0 & RU & IU). destruct (held_ex (l_counts s) u0 kv RU C) as (o & HO).
    destruct (set_at s u0 kv n0 id RU C (fun X => NU (IU _ X)) NE o HO) as (t' & u' & E' & R' & I' & S). rewrite E' in E. injection E as <- _.
    eapply (out_step s (with_counts s t')); eauto; [apply queue_rep|apply unmarked_group; exact T].
Qed.

(** The queue a step is about *)
Lemma step_apart k w used o e w' a n : winv k w used -> good_step w used o e w' a -> k + cost o < 2 ^ 63 -> ~ about w o n -> agree w w' n.
Proof.
  intros I (HA & T & F & H) LT. unfold wstep in H. destruct (w_up w); cbn [negb] in H; [|discriminate].
  destruct o as [name max|name m|name|name|name kv p i|name kv i passed|name kv i|name kv|name kv|name cid x|name cid|n0 x|x]; cbn [cost wop_arg tame about] in *; intros N; try injection H as H.
  - destruct T as (m & -> & LM). eapply create_at; eauto.
  - eapply update_at; eauto.
  - eapply delete_at; eauto.
  - eapply drop_at; eauto.
  - eapply enqueue_apart; eauto.
  - eapply item_apart; eauto.
  - eapply item_apart; eauto.
  - eapply delete_channel_apart; eauto.
  - eapply expire_apart; eauto.
  - eapply tick_apart; eauto.
  - eapply close_for_apart; eauto.
  - destruct (old_apart k w used (WOld n0 x) e I F LT n0 x w' a H) as (name & kv & c & E & AP). apply AP. intros ->. apply N. eauto.
  - destruct (lrun (w_lim w) x) as [s' b] eqn:E. injection H as <- <-. apply agree_same; try reflexivity. destruct (wi_lim k w used I) as (u & SO & IU).
    pose proof (limiter_total k (w_lim w) u (w_rule w) x n SO HA T) as X. rewrite E in X. apply X; [|fold (cost (WLimiter x)) in LT; rewrite cost_limiter in LT; exact LT].
    intros id HI. destruct F as [_ F]. destruct (F id) as [F1 F2]; [unfold drawn; rewrite HI; right; right; left; reflexivity|]. split; [intros Y; apply F1, IU; exact Y|exact F2].
Qed.
