(** The invariant of willow's histories. *)
From Coq Require Import String List Bool Arith NArith ZArith Lia Permutation.
Import ListNotations.
From Verif Require Import Datatypes SpecValues DatatypesProofs PropLemmasValues Collections Query SpecQuery Assoc SpecAssoc AssocMaps AssocProofs AssocOps PropLemmasAssoc OneToMany SpecOneToMany OneToManyProofs
  Limiter SpecLimiter LimiterProofs LimiterCounts LimiterLimits LimiterSums PropLemmasLimiter PropLemmasRules PropLemmasUnit.
From Verif Require Import BTree SpecBTree WillowQueues.
From Verif Require Import Channel SpecChannel ChannelProofs ChannelContents ChannelOrder ChannelCounts Willow SpecWillow WillowMaps WillowCounts WillowPerform.
Local Open Scope Z_scope.
Notation tree_contents := BTree.contents.

Definition queue_at (w : willow) (name : string) (q : queue) : Prop :=
  exists p, find_queue (w_queues w) name = Some p /\ nth_error (w_objs w) p = Some q.
Record chan_ok (s : limiter) (name : string) (kv : KeyValues) (c : channel) : Prop := {
  co_kv : counter_kv kv; co_plain : plain kv; co_reach : exists tr, reach tr c; co_down : down c = false;
  co_enq : count_of s (enqueued_kv name kv) = enq c; co_rem : rem c <> RGone }.
Record old_ok (kv : KeyValues) (c : channel) : Prop := {
  oo_kv : counter_kv kv; oo_plain : plain kv; oo_inv : qinv c; oo_items : items c = []; oo_rem : rem c = RGone }.
Record winv (k : Z) (w : willow) (used : list string) : Prop := {
  wi_lim : exists u, sound k (w_lim w) u /\ incl u used;
  wi_rule : has_rule (w_lim w) (w_rule w) rule_kv 0;
  wi_chans : exists u, oreach (w_chans w) u /\ incl u used;
  wi_tree : well_shaped order (w_queues w);
  wi_objs : forall k p, In (k, p) (tree_contents (w_queues w)) ->
    exists q, nth_error (w_objs w) p = Some q /\ k = Str (q_name q) /\ q_name q <> EmptyString /\ -1 <= q_limit q < 2 ^ 63;
  wi_over1 : forall name q, queue_at w name q -> exists oid, oid <> EmptyString /\ has_override (w_lim w) (w_rule w) oid (queue_kv name) (q_limit q);
  wi_over2 : forall oid kv m, has_override (w_lim w) (w_rule w) oid kv m -> exists name q, queue_at w name q /\ kv = queue_kv name /\ m = q_limit q;
  wi_chan : forall name ch, In ch (belongings (w_chans w) name) -> (exists q, queue_at w name q) /\ chan_ok (w_lim w) name (m_kv ch) (m_val ch);
  wi_old : forall name kv c, In (name, kv, c) (w_old w) -> old_ok kv c;
  wi_busy : forall name, In name (w_busy w) -> exists q, queue_at w name q }.

(** ** Queues *)
Lemma find_at k w used name p : winv k w used -> find_queue (w_queues w) name = Some p ->
  exists q, nth_error (w_objs w) p = Some q /\ q_name q = name /\ name <> EmptyString /\ -1 <= q_limit q < 2 ^ 63.
Proof.
  intros I F. apply find_queue_in in F; [|apply I]. destruct (wi_objs _ _ _ I _ _ F) as (q & E & EN & NE & R). injection EN as ->. exists q. auto.
Qed.
Lemma at_name k w used name q : winv k w used -> queue_at w name q -> q_name q = name /\ name <> EmptyString /\ -1 <= q_limit q < 2 ^ 63.
Proof. intros I (p & F & E). destruct (find_at k w used name p I F) as (q' & E' & H). rewrite E in E'. injection E' as <-. exact H. Qed.
Lemma at_unique w name q q' : queue_at w name q -> queue_at w name q' -> q = q'.
Proof. intros (p & F & E) (p' & F' & E'). rewrite F in F'. injection F' as <-. congruence. Qed.
Lemma busy_iff w name : busy w name = true <-> In name (w_busy w).
Proof. unfold busy. rewrite existsb_exists. split; [intros (x & H & E); apply String.eqb_eq in E; subst; exact H|intros H; exists name; split; [exact H|apply String.eqb_refl]]. Qed.
Lemma queue_kv_inj a b : kv_same (queue_kv a) (queue_kv b) -> a = b.
Proof. intros H. specialize (H QueueKey). cbn in H. destruct H as [_ H]. inversion H. reflexivity. Qed.

(** ** Stored items *)
Definition weight (ch : many channel) : nat := match rem (m_val ch) with RNo => number_stored (m_val ch) | _ => O end.
Lemma stored_weight w name : stored_in w name = list_sum (map weight (belongings (w_chans w) name)).
Proof.
  unfold stored_in, channels. induction (belongings (w_chans w) name) as [|ch l IH]; [reflexivity|]. cbn [filter map list_sum]. unfold weight at 1.
  destruct (rem (m_val ch)); cbn [map]; unfold list_sum in *; cbn [fold_right]; lia.
Qed.
Lemma sum_incl {X} (f : X -> nat) l l' : NoDup l' -> incl l' l -> (list_sum (map f l') <= list_sum (map f l))%nat.
Proof.
  revert l. induction l' as [|x l' IH]; intros l ND I; [cbn; lia|]. apply NoDup_cons_iff in ND as [NI ND].
  assert (HX : In x l) by (apply I; left; reflexivity). apply in_split in HX as (a & b & ->).
  rewrite map_app, list_sum_app. cbn [map list_sum]. specialize (IH (a ++ b) ND). rewrite map_app, list_sum_app in IH. unfold list_sum in *. cbn [fold_right].
  assert (incl l' (a ++ b)); [|specialize (IH H); lia]. intros y Hy. assert (In y (a ++ x :: b)) by (apply I; right; exact Hy).
  apply in_app_iff in H as [H | [-> | H]]; [apply in_or_app; auto|contradiction|apply in_or_app; auto].
Qed.
Definition replace (id : string) (c : channel) (i : many channel) : many channel := if String.eqb (m_id i) id then mkMany c (m_one i) (m_id i) (m_kv i) else i.
Lemma sum_replace l ch c d : NoDup (map m_id l) -> In ch l -> (weight (mkMany c (m_one ch) (m_id ch) (m_kv ch)) <= weight ch + d)%nat ->
  (list_sum (map weight (map (replace (m_id ch) c) l)) <= list_sum (map weight l) + d)%nat.
Proof.
  intros ND HI HW. apply in_split in HI as (a & b & ->). rewrite map_app in ND. cbn [map] in ND.
  assert (NA : forall x, In x a \/ In x b -> replace (m_id ch) c x = x).
  { intros x Hx. unfold replace. destruct (String.eqb_spec (m_id x) (m_id ch)) as [E|]; [|reflexivity]. exfalso. apply NoDup_remove_2 in ND. apply ND. apply in_or_app. rewrite <- E. destruct Hx; [left|right]; apply in_map; assumption. }
  rewrite !map_app, !list_sum_app. cbn [map list_sum].
  replace (map (replace (m_id ch) c) a) with a by (symmetry; rewrite <- (map_id a) at 2; apply map_ext_in; intros; apply NA; auto).
  replace (map (replace (m_id ch) c) b) with b by (symmetry; rewrite <- (map_id b) at 2; apply map_ext_in; intros; apply NA; auto).
  unfold replace at 1. rewrite String.eqb_refl. unfold list_sum in *. cbn [fold_right]. lia.
Qed.
Lemma weight_enq s name ch : chan_ok s name (m_kv ch) (m_val ch) -> (weight ch <= count_of s (enqueued_kv name (m_kv ch)))%nat.
Proof.
  intros [K P (tr & e & r & E) D CE R]. rewrite CE. unfold weight. destruct (rem (m_val ch)) eqn:ER; try lia.
  rewrite (enq_count e r tr (m_val ch) E (conj D ER)). lia.
Qed.
(** Counters of different channels are different *)
Lemma sum_counters (l : list (many channel)) (its : list (Assoc.item Z)) (P : many channel -> Assoc.item Z -> Prop) : NoDup l ->
  (forall x, In x l -> weight x = O \/ exists i, In i its /\ P x i /\ Z.of_nat (weight x) <= it_val i) ->
  (forall x y i, In x l -> In y l -> P x i -> P y i -> x = y) -> (forall i, In i its -> 0 <= it_val i) ->
  Z.of_nat (list_sum (map weight l)) <= sum_of its.
Proof.
  revert its. induction l as [|x l IH]; intros its ND H U POS.
  - cbn. unfold sum_of. clear - POS. induction its as [|i its IH]; cbn; [lia|]. pose proof (POS i (or_introl eq_refl)). assert (forall j, In j its -> 0 <= it_val j) by (intros; apply POS; right; assumption). specialize (IH H0). lia.
  - apply NoDup_cons_iff in ND as [NI ND]. unfold list_sum. cbn [map fold_right]. fold (list_sum (map weight l)).
    assert (H' : forall y, In y l -> weight y = O \/ exists i, In i its /\ P y i /\ Z.of_nat (weight y) <= it_val i) by (intros; apply H; right; assumption).
    assert (U' : forall y z i, In y l -> In z l -> P y i -> P z i -> y = z) by (intros; eapply U; eauto; right; assumption).
    destruct (H x (or_introl eq_refl)) as [-> | (i & Hi & PX & LE)]; [apply (IH its ND H' U' POS)|].
    apply in_split in Hi as (a & b & ->). rewrite sum_app. change (sum_of (i :: b)) with (it_val i + sum_of b).
    assert (Z.of_nat (list_sum (map weight l)) <= sum_of (a ++ b)); [|rewrite sum_app in *; lia]. apply IH; auto.
    + intros y Hy. destruct (H' y Hy) as [E | (j & Hj & PY & LY)]; [auto|]. right. exists j. split; [|auto]. apply in_app_iff in Hj as [Hj | [<- | Hj]]; [apply in_or_app; auto| |apply in_or_app; auto].
      exfalso. apply NI. replace x with y; [exact Hy|]. eapply U; eauto; [right; exact Hy|left; reflexivity].
    + intros j Hj. apply POS. apply in_app_iff in Hj. apply in_or_app. destruct Hj; [auto|right; right; assumption].
Qed.
Lemma has_count_of s u kv : linv s u -> counter_kv kv -> count_of s kv <> O -> exists i, In i (a_items (l_counts s)) /\ kv_same (it_kv i) kv /\ Z.of_nat (count_of s kv) <= it_val i.
Proof.
  intros L C N. destruct (li_counts s u L) as (u0 & RU & _). destruct (held_ex (l_counts s) u0 kv RU C) as (o & HO).
  pose proof (count_of_held s u kv o L C HO) as E. destruct o as [i|]; [|congruence]. exists i. destruct HO as [HI HS]. split; [exact HI|]. split; [exact HS|]. lia.
Qed.
Lemma stored_total k w used name total : winv k w used -> queue_total w name total -> Z.of_nat (stored_in w name) <= total.
Proof.
  intros I (l & ND & HL & ->). destruct (wi_lim _ _ _ I) as (u & SO & _). destruct (proj1 (sound_iff _ _ _) SO) as (R & POS & _). pose proof (lreach_inv _ _ R) as L.
  destruct (wi_chans _ _ _ I) as (u' & RO & _). rewrite stored_weight.
  apply (sum_counters _ _ (fun ch i => kv_same (it_kv i) (enqueued_kv name (m_kv ch)))).
  - eapply index_nodup'; eauto.
  - intros ch Hc. destruct (wi_chan _ _ _ I name ch Hc) as [_ CO]. pose proof (weight_enq _ _ _ CO) as WE.
    destruct (Nat.eq_dec (weight ch) 0) as [E | N]; [auto|]. right.
    destruct (has_count_of (w_lim w) u (enqueued_kv name (m_kv ch)) L (enqueued_counter _ _ (co_kv _ _ _ _ CO)) ltac:(lia)) as (i & Hi & HS & LE).
    exists i. split; [|split; [exact HS|lia]]. apply HL. split; [exact Hi|]. eapply in_group_same; [apply kv_same_sym; exact HS|]. apply enqueued_group; apply CO.
  - intros x y i Hx Hy P1 P2. destruct (wi_chan _ _ _ I name x Hx) as [_ CX]. destruct (wi_chan _ _ _ I name y Hy) as [_ CY].
    eapply belongings_unique; eauto. right. apply (enqueued_inj name _ name _); [apply CX|apply CY|apply CX|apply CY|]. eapply kv_same_trans; [apply kv_same_sym; exact P1|exact P2].
  - intros i Hi. apply HL in Hi as [Hi _]. specialize (POS i Hi). lia.
Qed.
Lemma queue_governs k w used name q kv : winv k w used -> queue_at w name q -> counter_kv kv -> plain kv ->
  governs (w_lim w) (enqueued_kv name kv) (queue_kv name) (q_limit q).
Proof.
  intros I A C P. destruct (wi_over1 _ _ _ I name q A) as (oid & _ & HO). destruct (enqueued_queue name kv (proj1 (proj1 C)) P) as [E1 E2].
  exists (w_rule w), rule_kv, 0. split; [apply I|]. split.
  - intros x m E. unfold rule_kv in E. cbn [kv_get] in E. destruct (String.eqb_spec QueueKey x) as [<-|]; [injection E as <-; eauto|]. destruct (String.eqb_spec EnqueuedKey x) as [<-|]; [injection E as <-; eauto|discriminate].
  - left. exists oid. split; [exact HO|]. intros x m E. unfold queue_kv in E. cbn [kv_get] in E.
    destruct (String.eqb_spec QueueKey x) as [<-|]; [injection E as <-; exists (Str name); split; [exact E1|right; apply same_value_refl]|].
    destruct (String.eqb_spec EnqueuedKey x) as [<-|]; [injection E as <-; exists (Str "true"); split; [exact E2|right; apply same_value_refl]|discriminate].
Qed.
Lemma total_exists s u g kv : linv s u -> kv_rep kv -> exists total, group_total s g kv total.
Proof. intros L R. eexists. apply (group_total_iff s u); eauto. Qed.
(** An item that the limiter lets in fits *)
Lemma room k w used name q kv : winv k w used -> queue_at w name q -> counter_kv kv -> plain kv ->
  (forall g limit total, governs (w_lim w) (enqueued_kv name kv) g limit -> limit <> -1 -> group_total (w_lim w) g (enqueued_kv name kv) total -> total < limit) ->
  q_limit q = -1 \/ Z.of_nat (stored_in w name) < q_limit q.
Proof.
  intros I A C P H. destruct (Z.eq_dec (q_limit q) (-1)) as [|N]; [auto|]. right. destruct (wi_lim _ _ _ I) as (u & SO & _). pose proof (lreach_inv _ _ (so_reach _ _ _ SO)) as L.
  pose proof (enqueued_counter name kv C) as CE. destruct (counter_rep _ CE) as [RE _]. destruct (counter_rep _ (queue_counter name)) as [RQ _].
  destruct (total_exists (w_lim w) u (queue_kv name) (queue_kv name) L RQ) as (total & T). pose proof (stored_total k w used name total I T) as ST.
  assert (T' : group_total (w_lim w) (queue_kv name) (enqueued_kv name kv) total).
  { apply (group_total_iff _ u); auto. apply (group_total_iff _ u) in T; auto. rewrite T. symmetry. apply (gsum_same _ u); auto. apply enqueued_group; assumption. }
  specialize (H _ _ _ (queue_governs k w used name q kv I A C P) N T'). lia.
Qed.
