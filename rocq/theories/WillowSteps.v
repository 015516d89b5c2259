(** Each step of willow keeps its invariant. *)
From Coq Require Import String List Bool Arith NArith ZArith Lia Permutation.
Import ListNotations.
From Verif Require Import Datatypes SpecValues DatatypesProofs PropLemmasValues Collections Query SpecQuery Assoc SpecAssoc AssocMaps AssocProofs AssocOps PropLemmasAssoc OneToMany SpecOneToMany OneToManyProofs
  Limiter SpecLimiter LimiterProofs LimiterCounts LimiterLimits LimiterSums PropLemmasLimiter PropLemmasRules PropLemmasUnit.
From Verif Require Import BTree SpecBTree WillowQueues.
From Verif Require Import Channel SpecChannel ChannelProofs ChannelContents ChannelOrder ChannelCounts Willow SpecWillow WillowMaps WillowCounts WillowPerform WillowInv.
Local Open Scope Z_scope.

(** ** The channel *)
Lemma step_down c o c' a : qinv c -> qstep c o = Some (c', a) -> o <> OShutdown -> down c' = down c.
Proof. intros Q H N. qcases Q H; bools; qfail; sel; congruence. Qed.
Lemma step_rem c o c' a : qinv c -> qstep c o = Some (c', a) -> o <> OWipe -> o <> Channel.ODelete -> rem c <> RGone -> rem c' <> RGone.
Proof. intros Q H N1 N2 R. qcases Q H; bools; qfail; sel; congruence. Qed.
Lemma step_old c o c' a : qinv c -> qstep c o = Some (c', a) -> items c = [] -> rem c = RGone -> items c' = [] /\ rem c' = RGone.
Proof.
  intros Q H E R. pose proof (q_keys c Q) as K. qcases Q H; bools; qfail; sel; auto; try congruence; try (rewrite E in *; cbn in *; congruence).
Qed.
Definition news (a : qans) : nat := match a with AStored _ => 1 | _ => 0 end.
Lemma step_stored c o c' a : qinv c -> qstep c o = Some (c', a) -> serving c' -> serving c /\ (number_stored c' <= number_stored c + news a)%nat.
Proof.
  intros Q H SV. split; [eapply serving_back; eauto|]. pose proof (step_effect c o c' a Q SV H) as E. unfold number_stored.
  inversion E; subst; cbn [news]; try lia;
    repeat match goal with
    | H : items ?x = put _ _ _ |- context [items ?x] => rewrite H | H : items ?x = del _ _ |- context [items ?x] => rewrite H | H : items ?x = items _ |- context [items ?x] => rewrite H
    end; try (erewrite length_put_some by eassumption; lia); try (rewrite length_put_none by assumption; lia);
    try (match goal with G : get ?i (items ?c) = Some ?x |- context [del ?i (items ?c)] => pose proof (length_del i x (items c) G); lia end); try (cbn; lia).
  assert (DL : forall i l, (length (del i l) <= length l)%nat) by (clear; induction l as [|[j y] l IH]; cbn [del length]; [lia|]; destruct (Nat.eqb i j); cbn [length]; lia).
  inversion H2; subst; match goal with HI : items c' = _ |- _ => rewrite HI end; try (rewrite (length_put_some _ _ x) by assumption; lia).
  - specialize (DL i (items c)). lia.
  - specialize (DL i (items c)). lia.
  - match goal with |- (length (del ?j ?l) <= _)%nat => specialize (DL j l) end. rewrite (length_put_some _ _ x) in DL by assumption. lia.
Qed.
Lemma stored_op c o c' i : qinv c -> qstep c o = Some (c', AStored i) -> exists p ok, o = OEnqueue p i ok.
Proof. intros Q H. qcases Q H; bools; qfail; sel; try discriminate; eauto; injection H as _ <-; eauto. Qed.

Lemma close_cases c c' a : qstep c OClose = Some (c', a) -> c' = set_rem c RClosed /\ a = AUnit.
Proof. unfold qstep, guard. destruct (dead c); [discriminate|]. destruct (indexed c && _); [|discriminate]. intros [= <- <-]. auto. Qed.
Lemma delete_cases c c' : qstep c Channel.ODelete = Some (c', AUnit) -> items c' = [] /\ rem c' = RGone.
Proof. unfold qstep, guard. destruct (dead c); [discriminate|]. destruct (indexed c && _); [|discriminate]. destruct (items c) eqn:E; intros [= <-]. auto. Qed.
Lemma wipe_cases c c' a : qstep c OWipe = Some (c', a) -> items c' = [] /\ rem c' = RGone /\ a = AUnit.
Proof. unfold qstep, guard. destruct (dead c); [discriminate|]. destruct (rem c); try discriminate. destruct (forallb _ _); [|discriminate]. intros [= <- <-]. auto. Qed.

(** ** Steps that leave the directory alone *)
Lemma same_at w w' name q : w_queues w' = w_queues w -> w_objs w' = w_objs w -> queue_at w' name q <-> queue_at w name q.
Proof. intros E1 E2. unfold queue_at. rewrite E1, E2. reflexivity. Qed.
Lemma winv_frame k k' w w' used used' : winv k w used -> w_rule w' = w_rule w -> w_queues w' = w_queues w -> w_objs w' = w_objs w -> incl (w_busy w') (w_busy w) ->
  (exists u, sound k' (w_lim w') u /\ incl u used') -> l_rules (w_lim w') = l_rules (w_lim w) -> l_over (w_lim w') = l_over (w_lim w) ->
  (exists u, oreach (w_chans w') u /\ incl u used') ->
  (forall name ch, In ch (belongings (w_chans w') name) -> (exists q, queue_at w name q) /\ chan_ok (w_lim w') name (m_kv ch) (m_val ch)) ->
  (forall name kv c, In (name, kv, c) (w_old w') -> old_ok kv c) -> winv k' w' used'.
Proof.
  intros I ER EQ EO EB SO LR LO HC CH OL.
  constructor; auto.
  - rewrite ER. unfold has_rule. rewrite LR. apply I.
  - rewrite EQ. apply I.
  - rewrite EQ, EO. apply I.
  - intros name q A. apply (same_at w w') in A; auto. rewrite ER. unfold has_override. rewrite LO. apply (wi_over1 _ _ _ I name q A).
  - intros oid kv m. rewrite ER. unfold has_override. rewrite LO. intros H. destruct (wi_over2 _ _ _ I oid kv m H) as (name & q & A & E). exists name, q. split; [apply (same_at w w'); auto|exact E].
  - intros name ch H. destruct (CH name ch H) as [(q & A) C]. split; [exists q; apply (same_at w w'); auto|exact C].
  - intros name H. destruct (wi_busy _ _ _ I name (EB _ H)) as (q & A). exists q. apply (same_at w w'); auto.
Qed.
Lemma stored_same w w' name : belongings (w_chans w') name = belongings (w_chans w) name -> stored_in w' name = stored_in w name.
Proof. intros E. unfold stored_in, channels. rewrite E. reflexivity. Qed.
(** The counters of the other channels *)
Lemma other_count k w used name ch name' ch' s' f : winv k w used -> In ch (belongings (w_chans w) name) -> In ch' (belongings (w_chans w) name') -> marks (w_lim w) s' name (m_kv ch) f ->
  (name = name' /\ ch = ch') \/ count_of s' (enqueued_kv name' (m_kv ch')) = count_of (w_lim w) (enqueued_kv name' (m_kv ch')).
Proof.
  intros I H H' M. destruct (wi_chan _ _ _ I name ch H) as [_ C]. destruct (wi_chan _ _ _ I name' ch' H') as [_ C']. destruct (wi_chans _ _ _ I) as (u & R & _).
  pose proof (enqueued_counter name (m_kv ch) (co_kv _ _ _ _ C)) as E. pose proof (enqueued_counter name' (m_kv ch') (co_kv _ _ _ _ C')) as E'.
  pose proof (proj1 (counter_rep _ E)) as RE. pose proof (proj1 (counter_rep _ E')) as RE'.
  destruct (kv_sameb (enqueued_kv name (m_kv ch)) (enqueued_kv name' (m_kv ch'))) eqn:S.
  - apply kv_sameb_iff in S; auto. left. destruct (enqueued_inj name' (m_kv ch') name (m_kv ch) (proj1 (proj1 (co_kv _ _ _ _ C'))) (proj1 (proj1 (co_kv _ _ _ _ C))) (co_plain _ _ _ _ C') (co_plain _ _ _ _ C) S) as [-> SK].
    split; [reflexivity|]. eapply belongings_unique; eauto. right. apply kv_same_sym. exact SK.
  - right. apply (mk_other _ _ _ _ _ M); [exact E'|apply marked_enqueued; apply C'|]. intros X. apply kv_sameb_iff in X; auto. congruence.
Qed.
(** A step of a channel in the index *)
Lemma update_channel k k' w used used' name ch o c' a s' f : winv k w used -> In ch (belongings (w_chans w) name) -> qstep (m_val ch) o = Some (c', a) ->
  o <> OShutdown -> o <> OWipe -> o <> Channel.ODelete -> (exists u, sound k' s' u /\ incl u used') -> incl used used' -> marks (w_lim w) s' name (m_kv ch) f -> enq c' = f (enq (m_val ch)) ->
  let w' := set_chans (set_lim w s') (otm_update (w_chans w) name (m_id ch) (fun _ => c')) in
  winv k' w' used' /\ (forall n, n <> name -> stored_in w' n = stored_in w n) /\ (stored_in w' name <= stored_in w name + news a)%nat.
Proof.
  intros I HC HS N1 N2 N3 SO IU M EE. cbv zeta. destruct (wi_chans _ _ _ I) as (u & R & RU). destruct (wi_chan _ _ _ I name ch HC) as [A CO].
  pose proof (fun n => index_update (w_chans w) u name (m_id ch) (fun _ => c') n R) as UP. destruct CO as [K P (tr & RE) D CE RM]. pose proof (reach_inv _ _ RE) as Q.
  assert (OWN : forall n i, In i (belongings (otm_update (w_chans w) name (m_id ch) (fun _ => c')) n) -> In i (belongings (w_chans w) n) /\ ~ (n = name /\ i = ch) \/ n = name /\ m_kv i = m_kv ch /\ m_val i = c').
  { intros n i. rewrite UP. destruct (String.eqb name n) eqn:E; [apply String.eqb_eq in E; subst n|apply String.eqb_neq in E; intros H; left; split; [exact H|intros [X _]; congruence]].
    rewrite in_map_iff. intros (j & EJ & HJ). destruct (String.eqb_spec (m_id j) (m_id ch)) as [EI|NI].
    - right. assert (j = ch) by (eapply belongings_unique; eauto). subst j i. auto.
    - left. subst i. split; [exact HJ|]. intros [_ ->]. congruence. }
  split; [|split].
  - apply (winv_frame k k' w _ used used' I); try reflexivity; cbn [w_lim w_chans w_old w_busy set_chans set_lim].
    + apply incl_refl.
    + exact SO.
    + apply M.
    + apply M.
    + exists u. split; [apply index_update_reach; exact R|]. intros x Hx. auto.
    + intros n i Hi. destruct (OWN n i Hi) as [[H1 H2] | (-> & EK & EV)].
      * destruct (wi_chan _ _ _ I n i H1) as [AI CI]. split; [exact AI|]. destruct CI as [K1 P1 R1 D1 C1 M1]. constructor; auto.
        destruct (other_count k w used name ch n i s' f I HC H1 M) as [[-> ->] | ->]; [exfalso; apply H2; auto|exact C1].
      * split; [exact A|]. rewrite EK, EV. constructor; auto.
        -- destruct RE as (e & r & RE). exists ((o, a) :: tr), e, r. econstructor; eauto.
        -- rewrite (step_down _ _ _ _ Q HS N1). exact D.
        -- rewrite (mk_this _ _ _ _ _ M), CE. auto.
        -- eapply step_rem; eauto.
    + intros n kv c. apply (wi_old _ _ _ I).
  - intros n N. apply stored_same. cbn [w_chans set_chans]. rewrite UP. destruct (String.eqb_spec name n); [congruence|reflexivity].
  - rewrite !stored_weight. cbn [w_chans set_chans]. rewrite UP, String.eqb_refl. apply (sum_replace _ ch c').
    + eapply index_nodup; eauto.
    + exact HC.
    + unfold weight. cbn [m_val]. destruct (rem c') eqn:ER; try lia.
      assert (SV : serving c') by (split; [rewrite (step_down _ _ _ _ Q HS N1); exact D|exact ER]).
      destruct (step_stored _ _ _ _ Q HS SV) as [[_ ->] LE]. exact LE.
Qed.
(** A channel leaves the index *)
Lemma leave_channel k k' w used used' name ch s' c' : winv k w used -> In ch (belongings (w_chans w) name) -> (exists u, sound k' s' u /\ incl u used') -> incl used used' ->
  marks (w_lim w) s' name (m_kv ch) (fun n => n) -> old_ok (m_kv ch) c' ->
  let w' := remove_channel (set_lim w s') name ch c' in
  winv k' w' used' /\ forall n, (stored_in w' n <= stored_in w n)%nat.
Proof.
  intros I HC SO IU M OK. cbv zeta. destruct (wi_chans _ _ _ I) as (u & R & RU). destruct (wi_chan _ _ _ I name ch HC) as [[q A] CO].
  destruct (at_name _ _ _ _ _ I A) as (_ & NE & _). destruct (co_kv _ _ _ _ CO) as (KA & KV & _).
  destruct (index_delete (w_chans w) u name ch R HC NE KA KV) as (R' & D1 & D2). unfold remove_channel. cbn [w_chans set_lim].
  set (m' := fst (OtmDelete (w_chans w) name (m_kv ch) (fun x => String.eqb (m_id x) (m_id ch)))) in *.
  assert (IN : forall n i, In i (belongings m' n) -> In i (belongings (w_chans w) n) /\ ~ (n = name /\ i = ch)).
  { intros n i. destruct (string_dec n name) as [-> | N]; [rewrite D1; tauto|]. rewrite (D2 n N). intros H. split; [exact H|tauto]. }
  split.
  - apply (winv_frame k k' w _ used used' I); try reflexivity; cbn [w_lim w_chans w_old w_busy set_chans set_lim set_old].
    + apply incl_refl.
    + exact SO.
    + apply M.
    + apply M.
    + exists u. split; [exact R'|]. intros x Hx. auto.
    + intros n i Hi. destruct (IN n i Hi) as [H1 H2]. destruct (wi_chan _ _ _ I n i H1) as [AI CI]. split; [exact AI|]. destruct CI as [K1 P1 R1 DD C1 M1]. constructor; auto.
      destruct (other_count k w used name ch n i s' (fun n => n) I HC H1 M) as [[-> ->] | ->]; [exfalso; apply H2; auto|exact C1].
    + intros n kv c [[= <- <- <-] | H]; [exact OK|]. eapply (wi_old _ _ _ I); eauto.
  - intros n. rewrite !stored_weight. cbn [w_chans set_chans set_old]. apply sum_incl; [eapply index_nodup'; eauto|]. intros i Hi. apply (IN n i Hi).
Qed.
(** A new channel *)
Lemma enter_channel k k' w used used' name q ch m' u' s' f o c' a n : winv k w used -> queue_at w name q ->
  oreach m' u' -> incl u' used' -> belongings m' name = belongings (w_chans w) name ++ [ch] -> (forall n, n <> name -> belongings m' n = belongings (w_chans w) n) ->
  counter_kv (m_kv ch) -> plain (m_kv ch) -> (forall i, In i (belongings (w_chans w) name) -> ~ kv_same (m_kv i) (m_kv ch)) ->
  qstep (newChannel (count_of (w_lim w) (enqueued_kv name (m_kv ch))) n) o = Some (c', a) -> o <> OShutdown -> o <> OWipe -> o <> Channel.ODelete -> m_val ch = c' ->
  (exists u, sound k' s' u /\ incl u used') -> marks (w_lim w) s' name (m_kv ch) f -> enq c' = f (count_of (w_lim w) (enqueued_kv name (m_kv ch))) ->
  let w' := set_chans (set_lim w s') m' in
  winv k' w' used' /\ (forall n, n <> name -> stored_in w' n = stored_in w n) /\ (stored_in w' name <= stored_in w name + news a)%nat.
Proof.
  intros I A R IU B1 B2 K P NS HS N1 N2 N3 EV SO M EE. cbv zeta. pose proof (qinv_new (count_of (w_lim w) (enqueued_kv name (m_kv ch))) n) as Q.
  split; [|split].
  - apply (winv_frame k k' w _ used used' I); try reflexivity; cbn [w_lim w_chans w_old w_busy set_chans set_lim].
    + apply incl_refl.
    + exact SO.
    + apply M.
    + apply M.
    + eauto.
    + intros n' i Hi. assert (HI : In i (belongings (w_chans w) n') \/ n' = name /\ i = ch).
      { destruct (string_dec n' name) as [-> | N]; [|rewrite (B2 n' N) in Hi; auto]. rewrite B1 in Hi. apply in_app_iff in Hi as [Hi | [<- | []]]; auto. }
      destruct HI as [HI | [-> ->]].
      * destruct (wi_chan _ _ _ I n' i HI) as [AI CI]. split; [exact AI|]. destruct CI as [K1 P1 R1 D1 C1 M1]. constructor; auto. rewrite <- C1.
        apply (mk_other _ _ _ _ _ M); [apply enqueued_counter; exact K1|apply marked_enqueued; assumption|]. intros S.
        destruct (enqueued_inj n' (m_kv i) name (m_kv ch) (proj1 (proj1 K1)) (proj1 (proj1 K)) P1 P S) as [-> SK]. apply (NS i HI SK).
      * split; [eauto|]. constructor; auto.
        -- eexists. rewrite EV. eexists _, _. econstructor; [apply QE_init|exact HS].
        -- rewrite EV, (step_down _ _ _ _ Q HS N1). reflexivity.
        -- rewrite (mk_this _ _ _ _ _ M), EV. auto.
        -- rewrite EV. eapply step_rem; eauto. discriminate.
    + intros n' kv c. apply (wi_old _ _ _ I).
  - intros n' N. apply stored_same. apply B2. exact N.
  - rewrite !stored_weight. cbn [w_chans set_chans]. rewrite B1, map_app, list_sum_app. unfold list_sum at 2. cbn [map fold_right]. unfold weight at 2. rewrite EV. destruct (rem c') eqn:ER; try lia.
    assert (SV : serving c') by (split; [rewrite (step_down _ _ _ _ Q HS N1); reflexivity|exact ER]).
    destruct (step_stored _ _ _ _ Q HS SV) as [_ LE]. cbn [newChannel items number_stored] in LE. unfold number_stored in *. cbn [length newChannel items] in LE. lia.
Qed.
(** Nothing enters the index *)
Lemma same_channels k k' w used used' s' m' u' : winv k w used -> (exists u, sound k' s' u /\ incl u used') ->
  l_rules s' = l_rules (w_lim w) -> l_over s' = l_over (w_lim w) -> oreach m' u' -> incl u' used' ->
  (forall name i, In i (belongings m' name) -> In i (belongings (w_chans w) name)) ->
  (forall name i, In i (belongings m' name) -> count_of s' (enqueued_kv name (m_kv i)) = count_of (w_lim w) (enqueued_kv name (m_kv i))) ->
  let w' := set_chans (set_lim w s') m' in winv k' w' used' /\ forall n, (stored_in w' n <= stored_in w n)%nat.
Proof.
  intros I SO LR LO R IU B CO. cbv zeta. split.
  - apply (winv_frame k k' w _ used used' I); try reflexivity; cbn [w_lim w_chans w_old w_busy set_chans set_lim]; auto.
    + apply incl_refl.
    + eauto.
    + intros n i Hi. destruct (wi_chan _ _ _ I n i (B n i Hi)) as [AI CI]. split; [exact AI|]. destruct CI as [K1 P1 R1 DD C1 M1]. constructor; auto. rewrite CO; auto.
    + apply (wi_old _ _ _ I).
  - intros n. rewrite !stored_weight. cbn [w_chans set_chans]. apply sum_incl; [eapply index_nodup'; eauto|]. intros i Hi. apply B. exact Hi.
Qed.
Definition grows (w w' : willow) : Prop :=
  forall name, (stored_in w' name <= stored_in w name)%nat \/ exists m, GetQueue w' name = (Some m, XOk) /\ (m = -1 \/ Z.of_nat (stored_in w' name) <= m).
Lemma winv_down k w used : winv k w used -> winv k (set_down w) used.
Proof. intros []. constructor; assumption. Qed.
Lemma outcome_ok k w used w0 a w' x : outcome w a = (w', x) -> winv k w used -> grows w0 w -> winv k w' used /\ grows w0 w'.
Proof.
  intros E I G. assert (w' = w \/ w' = set_down w) as [-> | ->] by (unfold outcome in E; destruct a; injection E as <- <-; auto); [auto|]. split; [apply winv_down; exact I|exact G].
Qed.
Lemma stays k k' w used used' : winv k w used -> k <= k' -> incl used used' -> winv k' w used' /\ grows w w.
Proof.
  intros [] LE IU. split; [|intros name; left; lia]. constructor; auto.
  - destruct wi_lim as (u & S & HI). exists u. split; [eapply sound_more; eauto|]. intros x Hx. auto.
  - destruct wi_chans as (u & S & HI). exists u. split; [exact S|]. intros x Hx. auto.
Qed.
(** A stored item fits *)
Lemma grows_store k w used name q kv w' : winv k w used -> queue_at w name q -> counter_kv kv -> plain kv -> busy w name = false ->
  w_queues w' = w_queues w -> w_objs w' = w_objs w -> w_busy w' = w_busy w ->
  (forall n, n <> name -> stored_in w' n = stored_in w n) ->
  (stored_in w' name <= stored_in w name)%nat \/
  (stored_in w' name <= stored_in w name + 1)%nat /\ (forall g limit total, governs (w_lim w) (enqueued_kv name kv) g limit -> limit <> -1 -> group_total (w_lim w) g (enqueued_kv name kv) total -> total < limit) ->
  grows w w'.
Proof.
  intros I A C P NB EQ EO EB OTH H n. destruct (string_dec n name) as [-> | N]; [|left; rewrite OTH by exact N; lia].
  destruct H as [H | [H G]]; [auto|]. right. exists (q_limit q). split.
  - unfold GetQueue, busy. rewrite EB. unfold busy in NB. rewrite NB, EQ, EO. destruct A as (p & -> & ->). reflexivity.
  - destruct (room k w used name q kv I A C P G) as [E | LT]; [auto|right; lia].
Qed.
Lemma grows_less w w' : (forall n, (stored_in w' n <= stored_in w n)%nat) -> grows w w'.
Proof. intros H n. left. apply H. Qed.
Lemma fresh_env used u o e : fresh used (drawn o e) -> incl u used -> fresh u [e_id e; e_id2 e].
Proof.
  intros [ND F] IU. unfold drawn in *. split.
  - apply NoDup_cons_iff in ND as [N1 ND]. apply NoDup_cons_iff in ND as [N2 ND]. constructor; [|constructor; [intros []|constructor]]. intros [E | []]. apply N1. left. exact E.
  - intros x [<- | [<- | []]]; (split; [intros X; apply IU in X; revert X|]); apply F; [left|left|right; left|right; left]; reflexivity.
Qed.
Lemma incl_drawn o e used u : incl u (e_id e :: e_id2 e :: used) -> incl u (drawn o e ++ used).
Proof. intros H x Hx. unfold drawn. destruct (H x Hx) as [<- | [<- | X]]; [left; reflexivity|right; left; reflexivity|]. apply in_or_app. right. exact X. Qed.
Lemma incl_used o e used : incl used (drawn o e ++ used).
Proof. intros x Hx. apply in_or_app. auto. Qed.

(** ** Requests for items *)
Section Steps.
  Variables (k : Z) (w : willow) (used : list string) (o : wop) (e : env).
  Hypothesis (I : winv k w used) (F : fresh used (drawn o e)) (LT : k + 1 < 2 ^ 63).
  Let used' := drawn o e ++ used.
  Lemma perform_at name kv c x s' c' a : counter_kv kv -> plain kv -> qinv c -> perform (w_lim w) name kv c x e = Some (s', c', a) ->
    (exists b, qstep c (granted x b) = Some (c', a)) /\ (exists u', sound (k + 1) s' u' /\ incl u' used') /\
    (exists f, marks (w_lim w) s' name kv f /\ enq c' = f (enq c) /\ (items c = [] -> rem c = RGone -> forall n, f n = n) /\
       ((forall i, a <> AStored i) -> forall n, (f n <= n)%nat) /\
       (forall i, a = AStored i -> (forall n, f n = S n) /\ forall g limit total, governs (w_lim w) (enqueued_kv name kv) g limit -> limit <> -1 -> group_total (w_lim w) g (enqueued_kv name kv) total -> total < limit)).
  Proof.
    intros C P Q H. destruct (wi_lim _ _ _ I) as (u & SO & IU). destruct (perform_spec k (w_lim w) u name kv c x e s' c' a SO LT C P (fresh_env used u o e F IU) Q H) as (H1 & (u' & S' & I') & H3).
    split; [exact H1|]. split; [|exact H3]. exists u'. split; [exact S'|]. apply incl_drawn. intros y Hy. destruct (I' y Hy) as [-> | [-> | X]]; [left; reflexivity|right; left; reflexivity|right; right; auto].
  Qed.
  Lemma chan_inv name ch : In ch (belongings (w_chans w) name) -> (exists q, queue_at w name q) /\ counter_kv (m_kv ch) /\ plain (m_kv ch) /\ qinv (m_val ch).
  Proof. intros H. destruct (wi_chan _ _ _ I name ch H) as [A [K P (tr & R) D E G]]. split; [exact A|]. split; [exact K|]. split; [exact P|eapply reach_inv; eauto]. Qed.
  (** An operation, not one of those that end the channel *)
  Lemma request_ok name ch x s' c' a w1 b : In ch (belongings (w_chans w) name) -> (forall b, granted x b <> OShutdown /\ granted x b <> OWipe /\ granted x b <> Channel.ODelete) ->
    (busy w name = false \/ forall p i ok, x <> OEnqueue p i ok) ->
    perform (w_lim w) name (m_kv ch) (m_val ch) x e = Some (s', c', a) ->
    outcome (set_chans (set_lim w s') (otm_update (w_chans w) name (m_id ch) (fun _ => c'))) a = (w1, b) -> winv (k + 1) w1 used' /\ grows w w1.
  Proof.
    intros HC NX NB HP HO. destruct (chan_inv name ch HC) as ((q & A) & K & P & Q). destruct (perform_at name (m_kv ch) (m_val ch) x s' c' a K P Q HP) as ((g & HS) & SO & f & M & EE & _ & LE & ST).
    destruct (NX g) as (N1 & N2 & N3). destruct (update_channel k (k + 1) w used used' name ch _ c' a s' f I HC HS N1 N2 N3 SO (incl_used o e used) M EE) as (I' & OTH & WE).
    eapply outcome_ok; eauto. clear HO.
    assert (AS : (exists i, a = AStored i) \/ forall i, a <> AStored i) by (destruct a; try (right; discriminate); left; eauto).
    destruct AS as [(i & ->) | NS].
    - destruct (stored_op _ _ _ _ Q HS) as (p & ok & EG). destruct NB as [NB | NB]; [|destruct x; cbn in EG; try discriminate; exfalso; eapply NB; reflexivity].
      eapply (grows_store k w used name q (m_kv ch)); eauto; try reflexivity. right. split; [exact WE|]. apply (ST i eq_refl).
    - apply grows_less. intros n. destruct (string_dec n name) as [-> | N]; [|rewrite OTH by exact N; lia]. replace (news a) with O in WE by (destruct a; try reflexivity; exfalso; eapply NS; reflexivity). lia.
  Qed.
  Lemma stay : winv (k + 1) w used' /\ grows w w.
  Proof. apply (stays k (k + 1) w used used'); [exact I|lia|apply incl_used]. Qed.
  Lemma found_at name p : find_queue (w_queues w) name = Some p -> exists q, queue_at w name q.
  Proof. intros H. destruct (find_at k w used name p I H) as (q & E & _). exists q, p. auto. Qed.

  Lemma enqueue_ok name kv p i w1 b : kv_arg kv -> plain kv -> Enqueue w name kv p i e = Some (w1, b) -> winv (k + 1) w1 used' /\ grows w w1.
  Proof.
    intros HA HP. unfold Enqueue. destruct (kv_validate kv MinDataType MaxWithoutAnyDataType) eqn:V; cbn [negb]; [|intros [= <- <-]; apply stay].
    apply (counter_kv_iff kv HA) in V. destruct (busy w name) eqn:NB; [intros [= <- <-]; apply stay|].
    destruct (find_queue (w_queues w) name) as [ptr|] eqn:FQ; [|intros [= <- <-]; apply stay].
    destruct (found_at name ptr FQ) as (q & A). destruct (at_name k w used _ _ I A) as (_ & NE & _). destruct (wi_chans k w used I) as (u & R & RU).
    destruct F as [_ F2]. destruct (F2 (e_id2 e)) as [NU NI]; [right; left; reflexivity|]. assert (NU' : ~ In (e_id2 e) u) by (intros X; apply NU, RU; exact X).
    set (c0 := newChannel _ _). cbv zeta. destruct (perform (w_lim w) name kv c0 (OEnqueue p i true) e) as [[[s1 c1] a1]|] eqn:EP.
    2: { destruct (OtmCreateOrFind (w_chans w) name kv (e_id2 e) None) as [m r] eqn:EC. destruct r as [|it| | | | |]; try discriminate; [|intros [= <- <-]; apply stay].
         destruct (c25_found (w_chans w) u name kv (e_id2 e) None it R HA NU') as (_ & HB & _); [rewrite EC; reflexivity|].
         destruct (perform (w_lim w) name (m_kv (it_val it)) (m_val (it_val it)) (OEnqueue p i true) e) as [[[s2 c2] a2]|] eqn:EP2; [|discriminate]. intros [= HO].
         eapply (request_ok name (it_val it)); eauto. intros g. cbn. repeat split; discriminate. }
    set (mk := match a1 with AStored _ => Some c1 | _ => None end).
    replace (match a1 with AStored _ => Some c1 | _ => None end) with mk by reflexivity.
    destruct (OtmCreateOrFind (w_chans w) name kv (e_id2 e) mk) as [m r] eqn:EC.
    assert (Q0 : qinv c0) by apply qinv_new.
    destruct (perform_at name kv c0 (OEnqueue p i true) s1 c1 a1 V HP Q0 EP) as ((g & HS) & SO & f & M & EE & _ & LE & ST).
    assert (FOUND : forall it, r = RFound it -> match perform (w_lim w) name (m_kv (it_val it)) (m_val (it_val it)) (OEnqueue p i true) e with
      | Some (s, c, a) => Some (outcome (set_chans (set_lim w s) (otm_update (w_chans w) name (m_id (it_val it)) (fun _ => c))) a) | None => None end = Some (w1, b) -> winv (k + 1) w1 used' /\ grows w w1).
    { intros it ->. destruct (c25_found (w_chans w) u name kv (e_id2 e) mk it R HA NU') as (_ & HB & _); [rewrite EC; reflexivity|].
      destruct (perform (w_lim w) name (m_kv (it_val it)) (m_val (it_val it)) (OEnqueue p i true) e) as [[[s2 c2] a2]|] eqn:EP2; [|discriminate]. intros [= HO].
      eapply (request_ok name (it_val it)); eauto. intros g0. cbn. repeat split; discriminate. }
    destruct (hasReservedKeys kv) eqn:RES.
    { apply reserved_iff in RES. rewrite (proj1 (c25_refused (w_chans w) name kv (e_id2 e) mk (fun _ => true))) in EC by auto. injection EC as <- <-. intros [= <- <-]. apply stay. }
    assert (NR : ~ reserved kv) by (intros X; apply reserved_iff in X; congruence).
    destruct (c25_create (w_chans w) u name kv (e_id2 e) mk R HA NU' NE (proj1 (proj2 V)) NR) as [C1 C2].
    pose proof (OR_step (w_chans w) u (OCreateOrFind name kv (e_id2 e) mk) R HA) as R'. cbn [oop_id orun] in R'. specialize (R' ltac:(intros ? [= <-]; auto)).
    pose proof (fun n N => c25_isolated (w_chans w) u (OCreateOrFind name kv (e_id2 e) mk) n R N) as ISO. cbn [owner orun] in ISO.
    rewrite EC in C1, C2, R', ISO. cbn [fst snd] in *.
    assert (IU : incl (e_id2 e :: u) used') by (apply incl_drawn; intros y [-> | Hy]; [right; left; reflexivity|right; right; auto]).
    assert (GO : (forall it, r <> RFound it) -> outcome (set_chans (set_lim w s1) m) a1 = (w1, b) -> winv (k + 1) w1 used' /\ grows w w1).
    { intros NF HO. assert (NS : forall i, In i (belongings (w_chans w) name) -> ~ kv_same (m_kv i) kv).
      { intros j Hj S. destruct (C1 j Hj S) as [(it & E & _) _]. exact (NF it E). }
      specialize (C2 NS). destruct mk as [c|] eqn:EM.
      - assert (exists j, a1 = AStored j /\ c = c1) as (j & -> & ->) by (unfold mk in EM; destruct a1; try discriminate; injection EM as <-; eauto).
        destruct C2 as [-> B1]. destruct (enter_channel k (k + 1) w used used' name q (mkMany c1 name (e_id2 e) kv) m (e_id2 e :: u) s1 f (OEnqueue p i g) c1 (AStored j) (count_of (w_lim w) (running_kv name kv)) I A R' IU B1) as (I' & OTH & WE); auto; try discriminate.
        eapply outcome_ok; eauto. eapply (grows_store k w used name q kv); eauto; try reflexivity. right. split; [exact WE|]. apply (ST j eq_refl).
      - assert (BE : forall n, belongings m n = belongings (w_chans w) n) by (intros n; destruct (string_dec n name) as [-> | N]; [exact C2|apply ISO; congruence]).
        destruct (same_channels k (k + 1) w used used' s1 m (e_id2 e :: u) I SO) as [I' ST']; auto; [apply M|apply M|intros n j; rewrite BE; auto| |].
        + intros n j Hj. rewrite BE in Hj. destruct (wi_chan _ _ _ I n j Hj) as [_ CJ]. apply (mk_other _ _ _ _ _ M); [apply enqueued_counter; apply CJ|apply marked_enqueued; apply CJ|].
          intros S. destruct (enqueued_inj n (m_kv j) name kv (proj1 (proj1 (co_kv _ _ _ _ CJ))) (proj1 HA) (co_plain _ _ _ _ CJ) HP S) as [-> SK]. exact (NS j Hj SK).
        + eapply outcome_ok; eauto. apply grows_less. exact ST'. }
    destruct r as [|it| | | | |]; try (intros [= HO]; apply GO; [discriminate|exact HO]); [apply FOUND; reflexivity|intros [= <- <-]; apply stay].
  Qed.
  Lemma item_ok name kv x w1 b : kv_arg kv -> (exists i, x = OAck i \/ x = ONack i \/ x = OBeat i) -> ItemRequest w name kv x e = Some (w1, b) -> winv (k + 1) w1 used' /\ grows w w1.
  Proof.
    intros HA HX. unfold ItemRequest. destruct (kv_validate kv MinDataType MaxWithoutAnyDataType) eqn:V; cbn [negb]; [|intros [= <- <-]; apply stay].
    destruct (busy w name) eqn:NB; [intros [= <- <-]; apply stay|]. destruct (find_queue (w_queues w) name) as [ptr|] eqn:FQ; [|intros [= <- <-]; apply stay].
    destruct (find_channel (w_chans w) name kv) as [[ch|]|] eqn:FC; try (intros [= <- <-]; apply stay).
    assert (HC : In ch (belongings (w_chans w) name)).
    { unfold find_channel in FC. destruct (wi_chans k w used I) as (u & R & RU). destruct (c25_query_reveals (w_chans w) u name (ExactQuery kv) R) as (l & HL & HQ).
      destruct (HQ _ (fun (_ : option (many channel)) x => (Some x, false)) None) as [E | [E | E]]; rewrite E in FC; try discriminate. destruct l as [|y l]; cbn in FC; [discriminate|]. injection FC as <-. apply (HL y). left. reflexivity. }
    destruct (perform (w_lim w) name (m_kv ch) (m_val ch) x e) as [[[s2 c2] a2]|] eqn:EP2; [|discriminate]. intros [= HO].
    eapply (request_ok name ch); eauto. intros g. destruct HX as (i & [-> | [-> | ->]]); cbn; repeat split; discriminate.
  Qed.
  (** ... that make no call of the limiter *)
  Lemma close_ok name ch c a : In ch (belongings (w_chans w) name) -> qstep (m_val ch) OClose = Some (c, a) ->
    winv (k + 1) (set_chans w (otm_update (w_chans w) name (m_id ch) (fun _ => c))) used' /\ grows w (set_chans w (otm_update (w_chans w) name (m_id ch) (fun _ => c))).
  Proof.
    intros HC HS. destruct (wi_lim k w used I) as (u & SO & IU). destruct (chan_inv name ch HC) as (_ & _ & _ & Q).
    assert (E : enq c = enq (m_val ch) /\ a = AUnit) by (destruct (close_cases _ _ _ HS) as [-> ->]; auto). destruct E as [E ->].
    destruct (update_channel k (k + 1) w used used' name ch OClose c AUnit (w_lim w) (fun n => n) I HC HS) as (I' & OTH & WE); try discriminate; auto.
    - exists u. split; [eapply sound_more; eauto; lia|]. intros y Hy. apply incl_used. auto.
    - apply incl_used.
    - apply marks_refl.
    - split; [exact I'|]. apply grows_less. intros n. destruct (string_dec n name) as [-> | N]; [cbn in WE; unfold set_lim in *; destruct w; cbn in *; lia|].
      specialize (OTH n N). unfold set_lim in *. destruct w. cbn in *. lia.
  Qed.
  Lemma delete_channel_ok name kv w1 b : kv_arg kv -> DeleteChannel w name kv = Some (w1, b) -> winv (k + 1) w1 used' /\ grows w w1.
  Proof.
    intros HA. unfold DeleteChannel. destruct (busy w name) eqn:NB; [intros [= <- <-]; apply stay|]. destruct (find_queue (w_queues w) name) as [ptr|] eqn:FQ; [|intros [= <- <-]; apply stay].
    destruct (negb (kv_validate kv MinDataType MaxDataType)); [intros [= <- <-]; destruct stay; split; [apply winv_down|]; assumption|].
    destruct (indexed_channel (w_chans w) name kv) as [ch|] eqn:EI; [|intros [= <- <-]; apply stay].
    destruct (wi_chans k w used I) as (u & R & RU). pose proof (index_by_kv (w_chans w) u name kv R HA) as IX. unfold indexed_channel in EI. rewrite EI in IX.
    destruct (qstep (m_val ch) OClose) as [[c a]|] eqn:HS; [|discriminate]. intros [= <- <-]. eapply close_ok; eauto. apply IX.
  Qed.
  Lemma by_id name cid ch : channel_by_id (w_chans w) name cid = Some ch -> In ch (belongings (w_chans w) name).
  Proof. intros E. destruct (wi_chans k w used I) as (u & R & RU). pose proof (index_by_id (w_chans w) u name cid R) as IX. unfold channel_by_id in E. rewrite E in IX. apply IX. Qed.
  Lemma close_for_ok name cid w1 b : CloseForQueue w name cid = Some (w1, b) -> winv (k + 1) w1 used' /\ grows w w1.
  Proof.
    unfold CloseForQueue. destruct (negb (busy w name)); [discriminate|]. destruct (channel_by_id (w_chans w) name cid) as [ch|] eqn:E; [|discriminate].
    destruct (qstep (m_val ch) OClose) as [[c a]|] eqn:HS; [|discriminate]. intros [= <- <-]. eapply close_ok; eauto. eapply by_id; eauto.
  Qed.
  Lemma expire_ok name kv w1 b : kv_arg kv -> Expire w name kv = Some (w1, b) -> winv (k + 1) w1 used' /\ grows w w1.
  Proof.
    intros HA. unfold Expire. destruct (indexed_channel (w_chans w) name kv) as [ch|] eqn:EI; [|discriminate].
    destruct (wi_chans k w used I) as (u & R & RU). pose proof (index_by_kv (w_chans w) u name kv R HA) as IX. unfold indexed_channel in EI. rewrite EI in IX. destruct IX as [HC _].
    destruct (qstep (m_val ch) Channel.ODelete) as [[c a]|] eqn:HS; [|discriminate]. destruct a; try discriminate. intros [= <- <-].
    destruct (chan_inv name ch HC) as (_ & K & P & Q). destruct (wi_lim k w used I) as (ul & SO & IU).
    destruct (leave_channel k (k + 1) w used used' name ch (w_lim w) c I HC) as [I' ST].
    - exists ul. split; [eapply sound_more; eauto; lia|]. intros y Hy. apply incl_used. auto.
    - apply incl_used.
    - apply marks_refl.
    - pose proof (qinv_step _ _ _ _ Q HS) as Q'. destruct (delete_cases _ _ HS). constructor; auto.
    - destruct w. split; [exact I'|]. apply grows_less. exact ST.
  Qed.
  Lemma tick_ok name cid x w1 b : Tick w name cid x e = Some (w1, b) -> winv (k + 1) w1 used' /\ grows w w1.
  Proof.
    unfold Tick. destruct (background x) eqn:BG; cbn [negb]; [|discriminate]. destruct (channel_by_id (w_chans w) name cid) as [ch|] eqn:EI; [|discriminate]. pose proof (by_id name cid ch EI) as HC.
    destruct (perform (w_lim w) name (m_kv ch) (m_val ch) x e) as [[[s c] a]|] eqn:EP; [|discriminate]. cbv zeta.
    assert (NW : x <> OWipe -> Some (outcome (set_chans (set_lim w s) (otm_update (w_chans (set_lim w s)) name (m_id ch) (fun _ => c))) a) = Some (w1, b) -> winv (k + 1) w1 used' /\ grows w w1).
    { intros N [= HO]. eapply (request_ok name ch); eauto.
      - intros g. destruct x; cbn in *; repeat split; discriminate || congruence.
      - right. intros. intros ->. discriminate. }
    destruct (match x with OWipe => true | _ => false end) eqn:EW.
    2: { destruct x; try discriminate; apply NW; discriminate. }
    destruct x; try discriminate. intros [= <- <-].
    destruct (chan_inv name ch HC) as ((q & A) & K & P & Q). destruct (perform_at name (m_kv ch) (m_val ch) OWipe s c a K P Q EP) as ((g & HS) & SO & f & M & EE & _ & LE & ST). cbn [granted] in HS.
    assert (s = w_lim w) as ->.
    { unfold perform in EP. cbn [granted] in EP. rewrite HS in EP. destruct (wipe_cases _ _ _ HS) as (_ & _ & ->). cbn in EP. congruence. }
    pose proof (qinv_step _ _ _ _ Q HS) as Q'.
    destruct (leave_channel k (k + 1) w used used' name ch (w_lim w) c I HC SO) as [I' ST'].
    - apply incl_used.
    - apply marks_refl.
    - destruct (wipe_cases _ _ _ HS) as (? & ? & _). constructor; auto.
    - split; [exact I'|]. apply grows_less. exact ST'.
  Qed.
  Lemma set_nth_in {X} (l : list X) : forall n x y, In y (set_nth n x l) -> y = x \/ In y l.
  Proof. induction l as [|z l IH]; intros [|n] x y; cbn; intros H; auto; destruct H as [<- | H]; auto. apply IH in H as [-> | H]; auto. Qed.
  Lemma old_step n x w1 b : TickOld w n x e = Some (w1, b) -> winv (k + 1) w1 used' /\ grows w w1.
  Proof.
    unfold TickOld. destruct (background x) eqn:BG; cbn [negb]; [|discriminate]. destruct (nth_error (w_old w) n) as [[[name kv] c]|] eqn:EN; [|discriminate].
    apply nth_error_In in EN. destruct (wi_old k w used I name kv c EN) as [K P Q IT RM].
    destruct (perform (w_lim w) name kv c x e) as [[[s c'] a]|] eqn:EP; [|discriminate]. intros [= HO].
    destruct (perform_at name kv c x s c' a K P Q EP) as ((g & HS) & SO & f & M & EE & ID & LE & ST). specialize (ID IT RM).
    destruct (step_old _ _ _ _ Q HS IT RM) as [IT' RM']. pose proof (qinv_step _ _ _ _ Q HS) as Q'.
    assert (I' : winv (k + 1) (set_old (set_lim w s) (set_nth n (name, kv, c') (w_old w))) used').
    { apply (winv_frame k (k + 1) w _ used used' I); try reflexivity; cbn [w_lim w_chans w_old w_busy set_chans set_lim set_old].
      - apply incl_refl.
      - exact SO.
      - apply M.
      - apply M.
      - destruct (wi_chans k w used I) as (u & R & RU). exists u. split; [exact R|]. intros y Hy. apply incl_used. auto.
      - intros n' i Hi. destruct (wi_chan k w used I n' i Hi) as [AI CI]. split; [exact AI|]. destruct CI as [K1 P1 R1 DD C1 M1]. constructor; auto. rewrite <- C1.
        pose proof (enqueued_counter name kv K) as E1. pose proof (enqueued_counter n' (m_kv i) K1) as E2. pose proof (proj1 (counter_rep _ E1)) as RE. pose proof (proj1 (counter_rep _ E2)) as RE'.
        destruct (kv_sameb (enqueued_kv name kv) (enqueued_kv n' (m_kv i))) eqn:SB.
        + apply kv_sameb_iff in SB; auto. destruct SO as (us & SO & _). destruct (wi_lim k w used I) as (ul & SO0 & _).
          rewrite (count_of_same s us _ (enqueued_kv name kv)); [|apply lreach_inv; apply SO|auto|auto|exact SB].
          rewrite (count_of_same (w_lim w) ul (enqueued_kv n' (m_kv i)) (enqueued_kv name kv)); [|apply lreach_inv; apply SO0|auto|auto|exact SB].
          rewrite (mk_this _ _ _ _ _ M). apply ID.
        + apply (mk_other _ _ _ _ _ M); [exact E2|apply marked_enqueued; assumption|]. intros S. apply kv_sameb_iff in S; auto. congruence.
      - intros n' kv' c2 H. apply set_nth_in in H as [[= -> -> ->] | H]; [constructor; auto|]. eapply (wi_old k w used I); eauto. }
    eapply outcome_ok; eauto. apply grows_less. intros n'. reflexivity.
  Qed.
End Steps.
