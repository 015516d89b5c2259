(** What a step does to the limiter's total for a queue. *)
From Coq Require Import String List Bool Arith NArith ZArith Lia Permutation.
Import ListNotations.
From Verif Require Import Datatypes SpecValues DatatypesProofs PropLemmasValues Collections Query SpecQuery QueryProofs Assoc SpecAssoc AssocMaps AssocProofs AssocOps PropLemmasAssoc OneToMany SpecOneToMany OneToManyProofs
  Limiter SpecLimiter LimiterProofs LimiterCounts LimiterLimits LimiterSums PropLemmasLimiter PropLemmasRules PropLemmasUnit.
From Verif Require Import BTree SpecBTree WillowQueues.
From Verif Require Import Channel SpecChannel ChannelProofs ChannelContents ChannelOrder ChannelCounts Willow SpecWillow WillowMaps WillowCounts WillowPerform WillowInv WillowSteps WillowDir WillowApart.
Local Open Scope Z_scope.

Definition counted (w w' : willow) (a : wans) (name : string) : Prop :=
  ((exists i, a = XChan (AStored i)) -> total_of (w_lim w') name = total_of (w_lim w) name + 1) /\
  ((forall i, a <> XChan (AStored i)) -> total_of (w_lim w') name <= total_of (w_lim w) name).
Lemma counted_same w w' a name : total_of (w_lim w') name = total_of (w_lim w) name -> (forall i, a <> XChan (AStored i)) -> counted w w' a name.
Proof. intros E N. split; [intros (i & H); exfalso; exact (N i H)|intros _; lia]. Qed.
Lemma outcome_lim w a w' b : outcome w a = (w', b) -> w_lim w' = w_lim w /\ (forall i, b = XChan (AStored i) <-> a = AStored i).
Proof. unfold outcome. destruct a; intros [= <- <-]; (split; [reflexivity|]); intros j; split; congruence. Qed.

Section Totals.
  Variables (k : Z) (w : willow) (used : list string) (o : wop) (e : env).
  Hypothesis (I : winv k w used) (F : fresh used (drawn o e)) (LT : k + 1 < 2 ^ 63).
  Lemma perform_counted name kv c x s' c' a w0 w1 b : counter_kv kv -> plain kv -> qinv c -> perform (w_lim w) name kv c x e = Some (s', c', a) ->
    w_lim w0 = s' -> outcome w0 a = (w1, b) -> counted w w1 b name.
  Proof.
    intros K P Q H EL HO. destruct (perform_at k w used o e I F LT name kv c x s' c' a K P Q H) as (_ & _ & f & M & _ & _ & LE & ST). pose proof (mk_sum _ _ _ _ _ M) as MS.
    destruct (outcome_lim _ _ _ _ HO) as [E1 E2]. unfold counted. rewrite E1, EL. split.
    - intros (i & HI). apply E2 in HI. destruct (ST i HI) as [SF _]. rewrite SF in MS. lia.
    - intros N. assert (NA : forall i, a <> AStored i) by (intros i HI; apply (N i), E2, HI). specialize (LE NA (count_of (w_lim w) (enqueued_kv name kv))). lia.
  Qed.
  Lemma request_counted name ch x s' c' a w1 b : In ch (belongings (w_chans w) name) -> perform (w_lim w) name (m_kv ch) (m_val ch) x e = Some (s', c', a) ->
    outcome (set_chans (set_lim w s') (otm_update (w_chans w) name (m_id ch) (fun _ => c'))) a = (w1, b) -> counted w w1 b name.
  Proof. intros HC HP HO. destruct (chan_inv k w used I name ch HC) as (_ & K & P & Q). eapply perform_counted; eauto. reflexivity. Qed.
  Lemma enqueue_counted name kv p i w1 b : kv_arg kv -> plain kv -> Enqueue w name kv p i e = Some (w1, b) -> counted w w1 b name.
  Proof.
    intros HA HP. unfold Enqueue. destruct (kv_validate kv MinDataType MaxWithoutAnyDataType) eqn:V; cbn [negb]; [|intros [= <- <-]; apply counted_same; [reflexivity|discriminate]].
    apply (counter_kv_iff kv HA) in V. destruct (busy w name); [intros [= <- <-]; apply counted_same; [reflexivity|discriminate]|].
    destruct (find_queue (w_queues w) name) as [ptr|] eqn:FQ; [|intros [= <- <-]; apply counted_same; [reflexivity|discriminate]]. destruct (wi_chans k w used I) as (u & R & RU).
    destruct F as [_ F2]. destruct (F2 (e_id2 e)) as [NU NI]; [right; left; reflexivity|]. assert (NU' : ~ In (e_id2 e) u) by (intros X; apply NU, RU; exact X).
    set (c0 := newChannel _ _). cbv zeta. set (made := perform (w_lim w) name kv c0 (OEnqueue p i true) e).
    set (mk := match made with Some (_, c, AStored _) => Some c | _ => None end). destruct (OtmCreateOrFind (w_chans w) name kv (e_id2 e) mk) as [m r] eqn:EC.
    assert (FOUND : forall it, r = RFound it -> match perform (w_lim w) name (m_kv (it_val it)) (m_val (it_val it)) (OEnqueue p i true) e with
      | Some (s, c, a) => Some (outcome (set_chans (set_lim w s) (otm_update (w_chans w) name (m_id (it_val it)) (fun _ => c))) a) | None => None end = Some (w1, b) -> counted w w1 b name).
    { intros it ->. destruct (c25_found (w_chans w) u name kv (e_id2 e) mk it R HA NU') as (_ & HB & _); [rewrite EC; reflexivity|].
      destruct (perform (w_lim w) name (m_kv (it_val it)) (m_val (it_val it)) (OEnqueue p i true) e) as [[[s2 c2] a2]|] eqn:EP2; [|discriminate]. intros [= HO].
      eapply (request_counted name (it_val it)); eauto. }
    assert (NEW : match made with Some (s, _, a) => Some (outcome (set_chans (set_lim w s) m) a) | None => None end = Some (w1, b) -> counted w w1 b name).
    { destruct made as [[[s c] a]|] eqn:EM; [|discriminate]. intros [= HO]. eapply (perform_counted name kv c0); eauto; [apply qinv_new|reflexivity]. }
    destruct r as [|it| | | | |]; try exact NEW; [apply FOUND; reflexivity|]. intros [= <- <-]. apply counted_same; [reflexivity|discriminate].
  Qed.
  Lemma item_counted name kv x w1 b : ItemRequest w name kv x e = Some (w1, b) -> counted w w1 b name.
  Proof.
    unfold ItemRequest. destruct (negb (kv_validate kv MinDataType MaxWithoutAnyDataType)); [intros [= <- <-]; apply counted_same; [reflexivity|discriminate]|].
    destruct (busy w name); [intros [= <- <-]; apply counted_same; [reflexivity|discriminate]|]. destruct (find_queue (w_queues w) name) as [ptr|] eqn:FQ; [|intros [= <- <-]; apply counted_same; [reflexivity|discriminate]].
    destruct (find_channel (w_chans w) name kv) as [[ch|]|] eqn:FC; try (intros [= <- <-]; apply counted_same; [reflexivity|discriminate]). apply (find_channel_in k w used I) in FC.
    destruct (perform (w_lim w) name (m_kv ch) (m_val ch) x e) as [[[s2 c2] a2]|] eqn:EP2; [|discriminate]. intros [= HO]. eapply request_counted; eauto.
  Qed.
  Lemma tick_counted name cid x w1 b : Tick w name cid x e = Some (w1, b) -> counted w w1 b name /\ forall i, b <> XChan (AStored i).
  Proof.
    unfold Tick. destruct (background x) eqn:BG; cbn [negb]; [|discriminate]. destruct (channel_by_id (w_chans w) name cid) as [ch|] eqn:EI; [|discriminate]. pose proof (by_id k w used I name cid ch EI) as HC.
    destruct (perform (w_lim w) name (m_kv ch) (m_val ch) x e) as [[[s c] a]|] eqn:EP; [|discriminate]. cbv zeta. destruct (chan_inv k w used I name ch HC) as (_ & K & P & Q).
    assert (NA : forall i, a <> AStored i).
    { intros i ->. destruct (perform_at k w used o e I F LT name _ _ x s c _ K P Q EP) as ((g & HS) & _). destruct (stored_op _ _ _ _ Q HS) as (p & ok & E). destruct x; cbn in E; discriminate. }
    assert (NW : Some (outcome (set_chans (set_lim w s) (otm_update (w_chans (set_lim w s)) name (m_id ch) (fun _ => c))) a) = Some (w1, b) -> counted w w1 b name /\ forall i, b <> XChan (AStored i)).
    { intros [= HO]. split; [eapply request_counted; eauto|]. intros i HI. apply (outcome_lim _ _ _ _ HO) in HI. exact (NA i HI). }
    destruct x; try exact NW. clear NW. intros [= <- <-]. split; [|intros i [= ->]; exact (NA i eq_refl)].
    unfold counted. destruct (perform_at k w used o e I F LT name _ _ _ s c a K P Q EP) as (_ & _ & f & M & _ & _ & LE & _). pose proof (mk_sum _ _ _ _ _ M) as MS. specialize (LE NA (count_of (w_lim w) (enqueued_kv name (m_kv ch)))).
    cbn [w_lim remove_channel set_old set_chans set_lim]. split; [intros (i & [= ->]); exfalso; exact (NA i eq_refl)|intros _; lia].
  Qed.
  Lemma old_counted n x w1 b : TickOld w n x e = Some (w1, b) -> (forall i, b <> XChan (AStored i)) /\ exists name kv c, nth_error (w_old w) n = Some (name, kv, c) /\ counted w w1 b name.
  Proof.
    unfold TickOld. destruct (background x) eqn:BG; cbn [negb]; [|discriminate]. destruct (nth_error (w_old w) n) as [[[name kv] c]|] eqn:EN; [|discriminate].
    pose proof (nth_error_In _ _ EN) as HI. destruct (wi_old k w used I name kv c HI) as [K P Q IT RM].
    destruct (perform (w_lim w) name kv c x e) as [[[s c'] a]|] eqn:EP; [|discriminate]. intros [= HO].
    assert (NA : forall i, a <> AStored i).
    { intros i ->. destruct (perform_at k w used o e I F LT name _ _ x s c' _ K P Q EP) as ((g & HS) & _). destruct (stored_op _ _ _ _ Q HS) as (p & ok & E). destruct x; cbn in E; discriminate. }
    split; [intros i X; apply (outcome_lim _ _ _ _ HO) in X; exact (NA i X)|]. exists name, kv, c. split; [reflexivity|]. eapply perform_counted; eauto. reflexivity.
  Qed.
End Totals.

Lemma step_counted k w used o e w' a : winv k w used -> good_step w used o e w' a -> k + cost o < 2 ^ 63 ->
  (forall i, a = XChan (AStored i) -> exists name kv p j, o = WEnqueue name kv p j) /\ forall name, about w o name -> counted w w' a name.
Proof.
  intros I (HA & T & F & H) LT. unfold wstep in H. destruct (w_up w); cbn [negb] in H; [|discriminate].
  destruct o as [name max|name m|name|name|name kv p i|name kv i passed|name kv i|name kv|name kv|name cid x|name cid|n0 x|x]; cbn [cost wop_arg tame about] in *; try injection H as H.
  - destruct T as (m & -> & LM). destruct (create_at k w used _ e I F name m w' a HA LM H) as [_ [(N & -> & _) | (-> & _ & _ & _ & _ & _ & _ & E)]].
    + assert (NA : forall i, a <> XChan (AStored i)).
      { intros i ->. clear - H. unfold CreateQueue in H. repeat match type of H with context [if ?b then _ else _] => destruct b | context [match ?x with _ => _ end] => destruct x | _ => discriminate end. }
      split; [intros i ->; exfalso; exact (NA i eq_refl)|]. intros n ->. apply counted_same; auto.
    + split; [discriminate|]. intros n ->. apply counted_same; [exact E|discriminate].
  - destruct (update_at k w used I name m w' a HA T H) as [_ [(-> & H2) | (-> & _ & _ & _ & _ & _ & E)]].
    + assert (NA : forall i, a <> XChan (AStored i)) by (intros i ->; destruct H2 as [[_ H2] | (_ & _ & H2)]; discriminate). split; [intros i ->; exfalso; exact (NA i eq_refl)|]. intros n ->. apply counted_same; auto.
    + split; [discriminate|]. intros n ->. apply counted_same; [exact E|discriminate].
  - destruct (delete_at k w used I name w' a H) as (_ & _ & _ & E & H2). assert (NA : forall i, a <> XChan (AStored i)) by (intros i ->; destruct H2 as [(_ & [[_ H2] | (_ & _ & H2)]) | (H2 & _)]; discriminate).
    split; [intros i ->; exfalso; exact (NA i eq_refl)|]. intros n ->. apply counted_same; auto.
  - destruct (drop_at k w used I name w' a H) as (_ & -> & _ & _ & _ & _ & _ & E). split; [discriminate|]. intros n ->. apply counted_same; [exact E|discriminate].
  - split; [intros; eauto|]. intros n ->. eapply enqueue_counted; eauto.
  - split.
    + intros j ->. exfalso. unfold ItemRequest in H. repeat match type of H with (if ?b then _ else _) = _ => destruct b eqn:?; [discriminate|] end. destruct (find_queue _ _) eqn:?; [|discriminate].
      destruct (find_channel _ _ _) as [[ch|]|] eqn:FC; try discriminate. apply (find_channel_in k w used I) in FC. destruct (chan_inv k w used I name ch FC) as (_ & K & P & Q).
      destruct (perform _ _ _ _ _ _) as [[[s c] a]|] eqn:EP; [|discriminate]. injection H as HO. destruct (outcome_lim _ _ _ _ HO) as [_ E]. pose proof (proj1 (E j) eq_refl) as ->.
      destruct (perform_at k w used _ e I F LT name _ _ _ s c _ K P Q EP) as ((g & HS) & _). destruct (stored_op _ _ _ _ Q HS) as (p & ok & E1). destruct passed; discriminate.
    + intros n ->. eapply item_counted; eauto.
  - split.
    + intros j ->. exfalso. unfold ItemRequest in H. repeat match type of H with (if ?b then _ else _) = _ => destruct b eqn:?; [discriminate|] end. destruct (find_queue _ _) eqn:?; [|discriminate].
      destruct (find_channel _ _ _) as [[ch|]|] eqn:FC; try discriminate. apply (find_channel_in k w used I) in FC. destruct (chan_inv k w used I name ch FC) as (_ & K & P & Q).
      destruct (perform _ _ _ _ _ _) as [[[s c] a]|] eqn:EP; [|discriminate]. injection H as HO. destruct (outcome_lim _ _ _ _ HO) as [_ E]. pose proof (proj1 (E j) eq_refl) as ->.
      destruct (perform_at k w used _ e I F LT name _ _ _ s c _ K P Q EP) as ((g & HS) & _). destruct (stored_op _ _ _ _ Q HS) as (p & ok & E1). discriminate.
    + intros n ->. eapply item_counted; eauto.
  - assert (X : w_lim w' = w_lim w /\ forall i, a <> XChan (AStored i)).
    { unfold DeleteChannel in H. repeat match type of H with context [if ?b then _ else _] => destruct b | context [match ?x with _ => _ end] => destruct x end; try discriminate; injection H as <- <-; split; try reflexivity; discriminate. }
    destruct X as [E NA]. split; [intros i ->; exfalso; exact (NA i eq_refl)|]. intros n ->. apply counted_same; [rewrite E; reflexivity|exact NA].
  - assert (X : w_lim w' = w_lim w /\ forall i, a <> XChan (AStored i)).
    { unfold Expire in H. destruct (indexed_channel _ _ _); [|discriminate]. destruct (qstep _ _) as [[c b]|]; [|discriminate]. destruct b; try discriminate; injection H as <- <-; split; try reflexivity; discriminate. }
    destruct X as [E NA]. split; [intros i ->; exfalso; exact (NA i eq_refl)|]. intros n ->. apply counted_same; [rewrite E; reflexivity|exact NA].
  - destruct (tick_counted k w used _ e I F LT name cid x w' a H) as [C NA]. split; [intros i ->; exfalso; exact (NA i eq_refl)|]. intros n ->. exact C.
  - assert (X : w_lim w' = w_lim w /\ forall i, a <> XChan (AStored i)).
    { unfold CloseForQueue in H. repeat match type of H with context [if ?b then _ else _] => destruct b | context [match ?x with _ => _ end] => destruct x end; try discriminate; injection H as <- <-; split; try reflexivity; discriminate. }
    destruct X as [E NA]. split; [intros i ->; exfalso; exact (NA i eq_refl)|]. intros n ->. apply counted_same; [rewrite E; reflexivity|exact NA].
  - destruct (old_counted k w used _ e I F LT n0 x w' a H) as [NA (name & kv & c & E & C)]. split; [intros i ->; exfalso; exact (NA i eq_refl)|]. intros n (kv' & c' & E'). rewrite E in E'. injection E' as <- _ _. exact C.
  - destruct (lrun (w_lim w) x) as [s' b] eqn:E. injection H as <- <-. split; [discriminate|]. intros n [].
Qed.
