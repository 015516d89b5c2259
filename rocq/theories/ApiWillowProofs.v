(** Proofs about willow's client and service (ApiWillow.v). *)
From Coq Require Import String Ascii List Bool NArith ZArith SpecFloat Lia.
Import ListNotations.
From Verif Require Import Datatypes SpecValues DatatypesProofs PropLemmasValues Query SpecQuery Assoc SpecAssoc OneToMany SpecOneToMany Limiter SpecLimiter LimiterProofs
  Channel SpecChannel Willow SpecWillow WillowInv WillowDir PropLemmasWillow
  Json Models SpecModels ModelsProofs Http ApiLimiter SpecApiLimiter ApiLimiterProofs ApiWillow SpecApiWillow.
Local Open Scope Z_scope.
Local Open Scope string_scope.

(** ** Histories *)
Lemma text_reach k w used : wreach_text k w used -> wreach k w used.
Proof. induction 1; [eapply WR_start; eassumption|eapply WR_step; eassumption]. Qed.
Definition text_objs (w : willow) : Prop := forall q, In q (w_objs w) -> text (q_name q).
Lemma outcome_objs w a : w_objs (fst (Willow.outcome w a)) = w_objs w.
Proof. unfold Willow.outcome. destruct a; reflexivity. Qed.
Lemma set_limit_names l p m q : In q (set_limit l p m) -> exists q', In q' l /\ q_name q' = q_name q.
Proof.
  unfold set_limit. destruct (nth_error l p) as [q0|] eqn:E; [|eauto]. revert p E. induction l as [|x l IH]; intros [|p] E H; cbn in E; try discriminate.
  - inversion E; subst x. cbn in H. destruct H as [<-|H]; [exists q0; split; [left|]; reflexivity|exists q; split; [right; exact H|reflexivity]].
  - cbn in H. destruct H as [<-|H]; [exists x; split; [left|]; reflexivity|]. destruct (IH p E H) as (q' & I & N). exists q'. split; [right; exact I|exact N].
Qed.
Ltac cases_in H := repeat match type of H with context[match ?x with _ => _ end] => destruct x eqn:? end.
Ltac same_objs H := inversion H; subst; try reflexivity;
  match goal with
  | E : context[Willow.outcome ?a ?b] |- _ => let OO := fresh in pose proof (outcome_objs a b) as OO; destruct (Willow.outcome a b); inversion E; subst; exact OO
  end.
Lemma enqueue_objs w name kv p i e w' a : Enqueue w name kv p i e = Some (w', a) -> w_objs w' = w_objs w.
Proof. intros H. unfold Enqueue in H. cases_in H; same_objs H. Qed.
Lemma item_objs w name kv o e w' a : ItemRequest w name kv o e = Some (w', a) -> w_objs w' = w_objs w.
Proof. intros H. unfold ItemRequest in H. cases_in H; same_objs H. Qed.
Lemma delete_objs w name kv w' a : DeleteChannel w name kv = Some (w', a) -> w_objs w' = w_objs w.
Proof. intros H. unfold DeleteChannel in H. cases_in H; inversion H; subst; reflexivity. Qed.
Lemma expire_objs w name kv w' a : Expire w name kv = Some (w', a) -> w_objs w' = w_objs w.
Proof. intros H. unfold Expire in H. cases_in H; inversion H; subst; reflexivity. Qed.
Lemma tick_objs w name cid o e w' a : Tick w name cid o e = Some (w', a) -> w_objs w' = w_objs w.
Proof.
  intros H. unfold Tick in H. destruct (negb (background o)); [discriminate|]. destruct (channel_by_id _ _ _); [|discriminate].
  destruct (perform _ _ _ _ _ _) as [[[s c] b]|]; [|discriminate].
  match type of H with context[Willow.outcome ?a ?b] => pose proof (outcome_objs a b) as OO; destruct (Willow.outcome a b) as [v x] end.
  destruct o; inversion H; subst; try exact OO; reflexivity.
Qed.
Lemma close_objs w name cid w' a : CloseForQueue w name cid = Some (w', a) -> w_objs w' = w_objs w.
Proof. intros H. unfold CloseForQueue in H. cases_in H; inversion H; subst; reflexivity. Qed.
Lemma old_objs w n o e w' a : TickOld w n o e = Some (w', a) -> w_objs w' = w_objs w.
Proof. intros H. unfold TickOld in H. cases_in H; same_objs H. Qed.
Lemma step_objs w o e w' a : wstep w o e = Some (w', a) -> text_name o -> text_objs w -> text_objs w'.
Proof.
  intros H TN T. unfold wstep in H. destruct (negb (w_up w)); [discriminate|].
  assert (K : w_objs w' = w_objs w -> text_objs w') by (intros E q; rewrite E; apply T). destruct o.
  - inversion H as [[H1]]. unfold CreateQueue in H1. cases_in H1; inversion H1; subst; try exact T. intros q HI; cbn [w_objs set_queues set_lim] in HI.
    apply in_app_iff in HI as [HI|[<-|[]]]; [auto|]. exact TN.
  - inversion H as [[H1]]. unfold UpdateQueue in H1. cases_in H1; inversion H1; subst; try exact T; intros q HI; cbn [w_objs set_queues set_lim] in HI;
      apply set_limit_names in HI as (q' & HI & <-); auto.
  - inversion H as [[H1]]. unfold DeleteQueue in H1. cases_in H1; inversion H1; subst; exact T.
  - unfold DropQueue in H. cases_in H; inversion H; subst; exact T.
  - apply K. eapply enqueue_objs, H.
  - apply K. eapply item_objs, H.
  - apply K. eapply item_objs, H.
  - apply K. eapply delete_objs, H.
  - apply K. eapply expire_objs, H.
  - apply K. eapply tick_objs, H.
  - apply K. eapply close_objs, H.
  - apply K. eapply old_objs, H.
  - apply K. destruct (lrun _ _). inversion H; subst. reflexivity.
Qed.
Lemma text_reach_objs k w used : wreach_text k w used -> text_objs w.
Proof.
  induction 1 as [k s used id w R P S F ST|k w used o e w' a R IH TN (_ & _ & _ & G)]; [|eapply step_objs; eassumption].
  unfold start in ST. destruct (lrun _ _) as [s' [ | | | | |]]; inversion ST; subst. intros q [].
Qed.
Lemma listed_queues k w used l : wreach_text k w used -> k < 2 ^ 63 -> ListQueues w = Some l -> forall name m, In (name, m) l -> text name /\ name <> "" /\ -1 <= m < 2 ^ 63.
Proof.
  intros R LT E name m HI. pose proof (text_reach k w used R) as R'. pose proof (wreach_inv k w used R' LT) as I.
  destruct (c45_list k w used R' LT) as (l' & E' & _ & HL). rewrite E in E'. inversion E'; subst l'. apply HL in HI.
  assert (Q : exists q, queue_at w name q /\ q_limit q = m).
  { destruct HI as [HI|[_ HI]]; [|exact HI]. unfold GetQueue in HI. destruct (busy w name); [discriminate|].
    destruct (find_queue (w_queues w) name) as [p|] eqn:F; [|discriminate]. destruct (nth_error (w_objs w) p) as [q|] eqn:N; [|discriminate].
    inversion HI; subst m. exists q. split; [exists p; auto|reflexivity]. }
  destruct Q as (q & Q & <-). destruct (at_name k w used name q I Q) as (EN & NE & L). split; [|auto].
  destruct Q as (p & _ & N). rewrite <- EN. apply (text_reach_objs k w used R). eapply nth_error_In, N.
Qed.

Lemma network_eq : forall n, n = RequestLost \/ n <> RequestLost.
Proof. intros []; auto; right; discriminate. Qed.

Section Main.
  Variable fmt_float : bool -> spec_float -> string.
  Variable parse_float : bool -> string -> option spec_float.
  Variable number : string -> id.
  Variable router : method -> string -> option wroute.
  Hypothesis HR : willow_router router.

  (** ** The call reaches the service's function *)
  Lemma queue_spec_some : forall q, queue_create_ok q = true -> exists name max, queue_spec q = Some (name, max) /\ name <> "".
  Proof.
    intros [[[[[name|]|] p]|] st] H; try discriminate. unfold queue_create_ok in H. cbn in H. apply andb_true_iff in H as [H _].
    cbn [queue_spec aq_spec]. unfold queue_spec_ok in H. cbn in H. apply andb_true_iff in H as [H _]. apply negb_true_iff, String.eqb_neq in H. eauto.
  Qed.
  Lemma item_spec_some : forall x, item_create_ok x = true -> exists kv p, item_spec x = Some (kv, p) /\ typed_kv kv = true.
  Proof.
    intros [[[[kv|] [p|]]|] st] H; try discriminate.
    - unfold item_create_ok in H. cbn in H. apply andb_true_iff in H as [H _]. unfold item_spec_ok in H. cbn in H. apply andb_true_iff in H as [HK HP].
      destruct p as [d [u|] [r|] [ps|] [t|]]; unfold item_props_ok in HP; cbn in HP; rewrite ?andb_false_r in HP; try discriminate.
      cbn [item_spec ai_spec]. eauto.
    - unfold item_create_ok, item_spec_ok in H. cbn in H. rewrite andb_false_r in H. discriminate.
  Qed.
  Ltac spec_names := change given_queue with queue_spec in *; change given_item with item_spec in *; change shown_queue with queue_model in *.
  Lemma reaches : forall c r pick, proper_willow_call fmt_float parse_float c -> wask fmt_float c = Some r ->
    exists rt t, router (rq_method r) (rq_path r) = Some rt /\ whandler parse_float rt (rq_body r) pick = Run t /\ handed c = Some t.
  Proof.
    intros c r pick (PL & AD) H. destruct HR as (R1 & R2 & R3). destruct (c78_willow fmt_float parse_float) as (A1 & A2 & A3 & A4 & A5 & A6).
    assert (SF : forall name, addressable name -> Forall safe (chars (queue_url name)) /\ Forall safe (chars (channels_url name)) /\ Forall safe (chars (items_url name)) /\
      Forall safe (chars (items_url name ++ "/ack"))).
    { intros name AN. unfold items_url, channels_url, queue_url, queues_url. repeat split; repeat (apply safe_app; [|try solve [safe_literal]]); try solve [safe_literal]; apply safe_addressable, AN. }
    assert (EQ : forall name, channels_url name = "/v1/queues/" ++ name ++ "/channels" /\ items_url name = "/v1/queues/" ++ name ++ "/channels/items" /\
      items_url name ++ "/ack" = "/v1/queues/" ++ name ++ "/channels/items/ack" /\ queue_url name = "/v1/queues/" ++ name).
    { intros name. unfold items_url, channels_url, queue_url, queues_url. rewrite !string_app_assoc. cbn [String.append]. auto. }
    destruct c as [q| |name q|name p|name|name x|name q|name kv|name item kv passed]; cbn [queue_of when] in AD; cbn [wask] in H.
    1: { apply tell_safe in H as (body & S & ->); [|unfold queues_url; safe_literal]. cbn [rq_method rq_path rq_body].
         pose proof (sent_valid _ _ _ _ _ S) as V. destruct (queue_spec_some q V) as (name & max & E & _).
         exists RwCreate, (KCreate name max). split; [exact R1|]. cbn [whandler handed]. spec_names. unfold reading, deref. rewrite (A1 q body PL S), E. auto. }
    1: { rewrite ask_safe in H by (unfold queues_url; safe_literal). inversion H; subst r. exists RwList, KList. split; [exact R2|]. auto. }
    all: destruct (SF name AD) as (S1 & S2 & S3 & S4); destruct (EQ name) as (E1 & E2 & E3 & E4); destruct (R3 name (proj1 AD)) as (Q1 & Q2 & Q3 & _ & Q4 & Q5 & Q6 & Q7 & _).
    - apply tell_safe in H as (body & S & ->); [|exact S1]. cbn [rq_method rq_path rq_body]. rewrite E4. exists (RwGet name), (KGet name). auto.
    - apply tell_safe in H as (body & S & ->); [|exact S1]. cbn [rq_method rq_path rq_body]. rewrite E4.
      pose proof (sent_valid _ _ _ _ _ S) as V. destruct p as [[m|]]; [|discriminate]. exists (RwUpdate name), (KUpdate name m). split; [exact Q2|].
      cbn [whandler handed]. spec_names. unfold reading, deref. rewrite (A2 _ body PL S). auto.
    - rewrite ask_safe in H by exact S1. inversion H; subst r. cbn [rq_method rq_path rq_body]. rewrite E4. exists (RwDelete name), (KDelete name). auto.
    - apply tell_safe in H as (body & S & ->); [|exact S3]. cbn [rq_method rq_path rq_body]. rewrite E2.
      pose proof (sent_valid _ _ _ _ _ S) as V. destruct (item_spec_some x V) as (kv & p & E & _). exists (RwEnqueue name), (KEnqueue name kv p). split; [exact Q5|].
      cbn [whandler handed]. spec_names. unfold reading, deref. rewrite (A3 x body PL S), E. auto.
    - apply tell_safe in H as (body & S & ->); [|exact S3]. cbn [rq_method rq_path rq_body]. rewrite E2. exists (RwDequeue name), (KDequeue name (told q)). split; [exact Q6|].
      cbn [whandler handed]. unfold reading. destruct PL as [_ PL]. rewrite (c78_query fmt_float parse_float q body PL S). auto.
    - apply tell_safe in H as (body & S & ->); [|exact S2]. cbn [rq_method rq_path rq_body]. rewrite E1. exists (RwDeleteChannel name), (KDeleteChannel name kv false). split; [exact Q4|].
      cbn [whandler handed]. pose proof (A6 kv body PL S) as R. unfold receive in R. cbn [bind] in R. destruct (dec_kv parse_float body) as [kv'|]; [|discriminate]. cbn [bind] in R.
      destruct (typed_kv kv') eqn:T; [|discriminate]. injection R as ->. auto.
    - apply tell_safe in H as (body & S & ->); [|exact S4]. cbn [rq_method rq_path rq_body]. rewrite E3. exists (RwAck name), (KAck name item kv passed). split; [exact Q7|].
      cbn [whandler handed]. unfold reading. rewrite (A4 (mkApiAck item kv passed) body PL S). auto.
  Qed.

  (** ** The answer reaches the caller *)
  Lemma respond_judge : forall c good a,
    (forall st, wrespond good a = Some (refuse st) -> whear parse_float c (refuse st) = ServiceError message) ->
    whear parse_float c (empty_reply good) = Returned WNothing -> whear parse_float c Broken = OtherError ->
    option_map (whear parse_float c) (wrespond good a) = returned (judge a).
  Proof.
    intros c good a R E B. destruct a as [ | | | | | | | |x|x]; cbn [wrespond judge returned option_map] in *; try (f_equal; assumption);
      try (f_equal; apply R; reflexivity); try reflexivity.
    destruct x; try (match goal with ok : bool |- _ => destruct ok end); cbn [wrespond judge returned option_map] in *; try reflexivity; try (f_equal; assumption); f_equal; apply R; reflexivity.
  Qed.
  Lemma refused_status : forall good a st, wrespond good a = Some (refuse st) ->
    (st = 409 /\ (a = XConflict \/ a = XChan AFull)) \/ (st = 400 /\ a = XBad) \/ (st = 404 /\ (a = XMissing \/ a = XChan ANotFound \/ a = XChan (ABeat false))) \/ (st = 500 /\ a = XFailed).
  Proof.
    intros good a st H. destruct a as [ | | | | | | | |[ | | | | | | | | | |[]| | |]|x]; cbn in H; unfold empty_reply, refuse in H; inversion H; subst; tauto.
  Qed.
  Lemma whear_refused : forall c st, In st [400; 404; 409; 500] ->
    match c with CallCreateQueue _ | CallListQueues => False | CallDeleteQueue _ => st <> 400 | _ => True end -> whear parse_float c (refuse st) = ServiceError message.
  Proof.
    intros c st HI HC. destruct c; try contradiction; cbn [In] in HI; repeat (destruct HI as [<-|HI]; [try reflexivity; exfalso; apply HC; reflexivity|]); destruct HI.
  Qed.
  Lemma int64_range : forall z, -1 <= z < 2 ^ 63 -> SpecModels.int64 z.
  Proof. intros z H. unfold SpecModels.int64. lia. Qed.
  Lemma queue_model_ok : forall name m, name <> "" -> queue_ok (queue_model name m) = true.
  Proof.
    intros name m NE. apply String.eqb_neq in NE. unfold queue_ok, queue_model, queue_spec_ok, queue_db_ok, queue_props_ok, needed, allowed.
    cbn [aq_spec aq_state qs_db qs_props qp_max]. rewrite NE. reflexivity.
  Qed.
  Lemma queue_answer : forall known name m, text name -> name <> "" -> -1 <= m < 2 ^ 63 ->
    hear 200 known (wmodel queue_ok dec_queue WQueue) (reply queue_ok enc_queue 200 (queue_model name m)) = Returned (WQueue (queue_model name m)).
  Proof.
    intros known name m T NE L. apply hear_reply with (plain := plain_queue).
    - apply (c78_answers fmt_float parse_float).
    - cbn. split; [exact T|]. apply int64_range, L.
    - apply queue_model_ok, NE.
  Qed.
  Lemma queues_answer : forall known l, Forall (fun x => text (fst x) /\ fst x <> "" /\ -1 <= snd x < 2 ^ 63) l ->
    let m := map (fun '(name, m) => Some (queue_model name m)) l in
    hear 200 known (wmodel (list_ok queue_ok) dec_queues WQueues) (reply (list_ok queue_ok) enc_queues 200 m) = Returned (WQueues m).
  Proof.
    intros known l F m. apply hear_reply with (plain := Forall (when plain_queue)).
    - destruct (c78_answers fmt_float parse_float) as (_ & A & _). intros a body P S. destruct a as [|x a].
      + cbn in S. inversion S. reflexivity.
      + assert (S' : send (list_ok queue_ok) (fun l => JArr (map (null_or enc_queue) l)) (x :: a) = Some body) by exact S.
        specialize (A (x :: a) body P S'). unfold receive in *. cbn [bind] in *. unfold dec_queues. destruct body; try discriminate A; exact A.
    - subst m. induction F as [|[name z] l (T & NE & L) F IH]; [constructor|]. cbn [map]. constructor; [|exact IH]. cbn. split; [exact T|]. apply int64_range, L.
    - subst m. induction F as [|[name z] l (T & NE & L) F IH]; [reflexivity|]. cbn [map list_ok forallb]. unfold list_ok in IH. rewrite IH, andb_true_r. apply queue_model_ok, NE.
  Qed.
  Lemma create_answers : forall w name max e w' a, CreateQueue w name max e = (w', a) -> In a [XCreated; XConflict; XBad; XFailed; XPanic].
  Proof. intros w name max e w' a H. unfold CreateQueue in H. cases_in H; inversion H; subst; cbn; tauto. Qed.
  Lemma delete_answers : forall w name w' a, DeleteQueue w name = (w', a) -> In a [XOk; XConflict].
  Proof. intros w name w' a H. unfold DeleteQueue in H. cases_in H; inversion H; subst; cbn; tauto. Qed.
  Lemma get_answers : forall w name o a, GetQueue w name = (o, a) -> In a [XOk; XConflict; XMissing; XPanic] /\ (o = None -> a <> XOk).
  Proof. intros w name o a H. unfold GetQueue in H. cases_in H; inversion H; subst; cbn; split; try tauto; discriminate. Qed.

  Lemma willow_works : forall k w used c r pick i e, wreach_text k w used -> k < 2 ^ 63 -> w_up w = true ->
    proper_willow_call fmt_float parse_float c -> wask fmt_float c = Some r ->
    willow_exchange fmt_float parse_float number router w c pick i e Works = option_map (fun x => (fst x, returned (snd x))) (wdirect number w c i e).
  Proof.
    intros k w used c r pick i e RE LT UP PC A. destruct (reaches c r pick PC A) as (rt & t & RT & HD & HN).
    pose proof (wreach_inv k w used (text_reach k w used RE) LT) as IV.
    unfold willow_exchange. rewrite A. unfold wserve. rewrite UP, RT, HD. cbn [negb]. clear RT HD.
    destruct c as [q| |name q|name p|name|name x|name q|name kv|name item kv passed]; cbn [handed] in HN; cbn [wdirect]; spec_names.
    - destruct (queue_spec q) as [[name max]|]; [|discriminate]. inversion HN; subst t. cbn [wperform]. destruct (CreateQueue w name max e) as [w' a] eqn:E. unfold judged. cbn [option_map fst snd].
      do 2 f_equal. apply respond_judge; [|reflexivity..]. intros st H. apply create_answers in E.
      apply refused_status in H as [[-> [-> | ->]] | [[-> ->] | [[-> [-> | [-> | ->]]] | [-> ->]]]]; try reflexivity; cbn in E; repeat (destruct E as [E|E]; [discriminate E|]); destruct E.
    - inversion HN; subst t. cbn [wperform option_map fst snd]. destruct (ListQueues w) as [l|] eqn:E; [|reflexivity]. cbn [returned]. do 3 f_equal. apply queues_answer.
      apply Forall_forall. intros [name m] HI. apply (listed_queues k w used l RE LT E name m HI).
    - inversion HN; subst t. cbn [wperform option_map fst snd]. destruct (GetQueue w name) as [[m|] a] eqn:E.
      + cbn [option_map returned]. do 3 f_equal. destruct PC as [[T _] [[NE _] _]]. apply queue_answer; [exact T|exact NE|].
        unfold GetQueue in E. destruct (busy w name); [discriminate|]. destruct (find_queue (w_queues w) name) as [p|] eqn:F; [|discriminate].
        destruct (find_at k w used name p IV F) as (q0 & N & _ & _ & L). rewrite N in E. inversion E; subst m. exact L.
      + do 2 f_equal. pose proof (get_answers w name None a E) as [GA GN]. specialize (GN eq_refl). cbn in GA.
        repeat (destruct GA as [<-|GA]; [try congruence; reflexivity|]). destruct GA.
    - destruct p as [[m|]]; [|discriminate]. inversion HN; subst t. cbn [wperform qp_max]. destruct (UpdateQueue w name m) as [w' a] eqn:E. unfold judged. cbn [option_map fst snd].
      do 2 f_equal. apply respond_judge; [|reflexivity..]. intros st H. apply refused_status in H. apply whear_refused; [cbn; intuition (subst; tauto)|exact Logic.I].
    - inversion HN; subst t. cbn [wperform]. destruct (DeleteQueue w name) as [w' a] eqn:E. pose proof (delete_answers w name w' a E) as DA. cbn [option_map fst snd].
      unfold DeleteQueue in E. unfold known_queue. destruct (busy w name) eqn:EB.
      + inversion E; subst w' a. rewrite andb_false_r. destruct (find_queue _ _); reflexivity.
      + destruct (find_queue (w_queues w) name) as [p|] eqn:F; inversion E; subst w' a.
        * assert (B : busy (set_busy w (name :: w_busy w)) name = true) by (unfold busy, set_busy; cbn; rewrite String.eqb_refl; reflexivity). rewrite B. reflexivity.
        * rewrite EB. reflexivity.
    - destruct (item_spec x) as [[kv p]|]; [|discriminate]. inversion HN; subst t. cbn [wperform]. destruct (Enqueue w name kv p i e) as [[w' a]|]; [|reflexivity].
      unfold judged. cbn [option_map fst snd]. do 2 f_equal. apply respond_judge; [|reflexivity..]. intros st H. apply refused_status in H. apply whear_refused; [cbn; intuition (subst; tauto)|exact Logic.I].
    - inversion HN; subst t. cbn [wperform option_map fst snd]. unfold known_queue. destruct (busy w name); [reflexivity|]. destruct (find_queue (w_queues w) name); reflexivity.
    - inversion HN; subst t. cbn [wperform]. destruct (DeleteChannel w name kv) as [[w' a]|] eqn:E; [|reflexivity]. cbn [option_map fst snd].
      assert (X : option_map (whear parse_float (CallDeleteChannel name kv)) (written false (wrespond 204 a)) = returned (judge a)).
      { unfold written. replace (match wrespond 204 a with Some (Answer _ _) => wrespond 204 a | _ => wrespond 204 a end) with (wrespond 204 a) by (destruct (wrespond 204 a) as [[]|]; reflexivity).
        apply respond_judge; [|reflexivity..]. intros st H. apply refused_status in H. apply whear_refused; [cbn; intuition (subst; tauto)|exact Logic.I]. }
      destruct a; try (unfold judged; cbn [fst snd]; do 2 f_equal; exact X). destruct (indexed_channel (w_chans w) name kv); reflexivity.
    - inversion HN; subst t. cbn [wperform]. destruct (ItemRequest w name kv _ e) as [[w' a]|]; [|reflexivity].
      unfold judged. cbn [option_map fst snd]. do 2 f_equal. apply respond_judge; [|reflexivity..]. intros st H. apply refused_status in H. apply whear_refused; [cbn; intuition (subst; tauto)|exact Logic.I].
  Qed.

  (** ** C79, C81, C82 *)
  Section Call.
    Variable k : Z.
    Variable w : willow.
    Variable used : list string.
    Variable c : willow_call.
    Variable pick : string -> bool.
    Variable i : id.
    Variable e : env.
    Hypothesis RE : wreach_text k w used.
    Hypothesis LT : k < 2 ^ 63.
    Hypothesis UP : w_up w = true.
    Hypothesis PC : proper_willow_call fmt_float parse_float c.
    Notation exchange n := (willow_exchange fmt_float parse_float number router w c pick i e n).

    Lemma c79_willow : wask fmt_float c <> None -> exchange Works = option_map (fun x => (fst x, returned (snd x))) (wdirect number w c i e).
    Proof. destruct (wask fmt_float c) as [r|] eqn:A; [|congruence]. intros _. eapply willow_works; eassumption. Qed.
    Lemma returned_inv : forall v x, returned v = Some (Returned x) -> v = Success x.
    Proof. intros [y| | |] x H; inversion H; reflexivity. Qed.
    Lemma sent : forall n w' x, exchange n = Some (w', Some (Returned x)) -> n = Works /\ wask fmt_float c <> None.
    Proof.
      intros n w' x H. unfold willow_exchange in H. destruct (wask fmt_float c) as [r|]; [|discriminate]. split; [|discriminate].
      destruct n; [reflexivity|discriminate|]. destruct (wserve _ _ _ _ _ _ _ _ _) as [[w1 y]|]; discriminate.
    Qed.
    Lemma c81_willow_returned : forall n w' x, exchange n = Some (w', Some (Returned x)) -> n = Works /\ wdirect number w c i e = Some (w', Success x).
    Proof.
      intros n w' x H. destruct (sent n w' x H) as [-> A]. split; [reflexivity|]. rewrite (c79_willow A) in H.
      destruct (wdirect number w c i e) as [[w1 v]|]; [|discriminate]. cbn [option_map fst snd] in H. inversion H as [[H1 H2]]. apply returned_inv in H2. subst. reflexivity.
    Qed.
    Lemma direct_step : forall w' v, wdirect number w c i e = Some (w', v) ->
      (step_of number c i = None /\ w' = w) \/
      (exists o a, step_of number c i = Some o /\ wstep w o e = Some (w', a) /\ (v = Later \/ v = judge a)).
    Proof.
      intros w' v H. destruct c as [q| |name q|name p|name|name x|name q|name kv|name item kv passed]; cbn [wdirect step_of] in *; spec_names; unfold wstep; rewrite UP; cbn [negb].
      - destruct (queue_spec q) as [[name max]|]; [|discriminate]. right. cbn [option_map]. destruct (CreateQueue w name max e) as [w1 a] eqn:EC. unfold judged in H. cbn [fst snd] in H. inversion H; subst.
        do 2 eexists. split; [reflexivity|]. cbn beta iota. rewrite EC. auto.
      - left. inversion H; auto.
      - left. inversion H; auto.
      - destruct (qp_max p) as [m|]; [|discriminate]. right. cbn [option_map]. destruct (UpdateQueue w name m) as [w1 a] eqn:EC. unfold judged in H. cbn [fst snd] in H. inversion H; subst.
        do 2 eexists. split; [reflexivity|]. cbn beta iota. rewrite EC. auto.
      - right. exists (WDeleteQueue name). destruct (DeleteQueue w name) as [w1 a]. exists a. split; [reflexivity|]. destruct (known_queue w name && negb (busy w name)); inversion H; subst; auto.
      - destruct (item_spec x) as [[kv p]|]; [|discriminate]. right. cbn [option_map]. destruct (Enqueue w name kv p i e) as [[w1 a]|] eqn:E; [|discriminate]. cbn [option_map] in H. inversion H; subst.
        exists (WEnqueue name kv p i), a. split; [reflexivity|]. cbn beta iota. rewrite E. auto.
      - left. inversion H; auto.
      - right. exists (WDeleteChannel name kv). destruct (DeleteChannel w name kv) as [[w1 a]|] eqn:E; [|discriminate]. exists a. split; [reflexivity|]. cbn [option_map fst snd] in H.
        destruct a; try (unfold judged in H; cbn [fst snd] in H; inversion H; subst; auto). destruct (indexed_channel (w_chans w) name kv); unfold judged in H; cbn [fst snd] in H; inversion H; subst; auto.
      - right. exists (WAck name kv (number item) passed). destruct (ItemRequest w name kv _ e) as [[w1 a]|] eqn:E; [|discriminate]. exists a. split; [reflexivity|]. cbn [option_map] in H.
        inversion H; subst. auto.
    Qed.
    Lemma c81_willow_effect : forall n w' r, exchange n = Some (w', r) ->
      (w' = w /\ (n = RequestLost \/ wask fmt_float c = None \/ step_of number c i = None)) \/
      (n <> RequestLost /\ exists o a, step_of number c i = Some o /\ wstep w o e = Some (w', a)).
    Proof.
      intros n w' r H. destruct (wask fmt_float c) as [q|] eqn:A.
      2: { left. unfold willow_exchange in H. rewrite A in H. inversion H; auto. }
      destruct (network_eq n) as [->|N].
      { left. unfold willow_exchange in H. rewrite A in H. inversion H; auto. }
      assert (X : exists v, wdirect number w c i e = Some (w', v)).
      { pose proof (c79_willow ltac:(congruence)) as O. unfold willow_exchange in *. rewrite A in *. destruct n; [|congruence|].
        - destruct (wserve _ _ _ _ _ _ _ _ _) as [[w1 y]|]; [|discriminate]. cbn [option_map fst snd] in *. inversion H; subst w1.
          destruct (wdirect number w c i e) as [[w2 v]|]; [|discriminate]. cbn [option_map fst snd] in O. inversion O; subst w2. eauto.
        - destruct (wserve _ _ _ _ _ _ _ _ _) as [[w1 y]|]; [|discriminate]. cbn [option_map fst snd] in *. inversion H; subst w1.
          destruct (wdirect number w c i e) as [[w2 v]|]; [|discriminate]. cbn [option_map fst snd] in O. inversion O; subst w2. eauto. }
      destruct X as (v & X). destruct (direct_step w' v X) as [[S E]|(o & a & S & E & _)]; [left; auto|right; eauto].
    Qed.
    Lemma c82_willow : wask fmt_float c <> None -> forall w' v, wdirect number w c i e = Some (w', v) ->
      exchange Works = Some (w', match v with Success x => Some (Returned x) | Refuses => Some (ServiceError message) | Breaks => Some OtherError | Later => None end).
    Proof. intros A w' v H. rewrite (c79_willow A), H. destruct v; reflexivity. Qed.

    (** *** In the words of C45 *)
    Lemma c79_create_queue : forall q name m r, c = CallCreateQueue q -> given_queue q = Some (name, Some m) -> -1 <= m -> k + 1 < 2 ^ 63 -> fresh used [e_id e; e_id2 e] ->
      wask fmt_float c <> None ->
      forall w', exchange Works = Some (w', r) ->
      (GetQueue w name = (None, XMissing) /\ r = Some (Returned WNothing) /\ GetQueue w' name = (Some m, XOk) /\ forall other, other <> name -> GetQueue w' other = GetQueue w other) \/
      (GetQueue w name <> (None, XMissing) /\ r = Some (ServiceError message) /\ w' = w).
    Proof.
      intros q name m r E S M LT1 F A w' H. pose proof (text_reach k w used RE) as R.
      rewrite (c79_willow A), (f_equal (fun c => wdirect number w c i e) E) in H. cbn [wdirect] in H. rewrite S in H.
      assert (V : SpecLimiter.int64 m /\ name <> "").
      { destruct (wask fmt_float c) as [r0|] eqn:W; [|congruence]. rewrite E in W, PC. cbn [wask] in W. apply tell_safe in W as (body & SD & _); [|unfold queues_url; safe_literal].
        apply sent_valid in SD. destruct (queue_spec_some q SD) as (n0 & m0 & S0 & NE). change queue_spec with given_queue in S0. rewrite S in S0. inversion S0; subst n0 m0. split; [|exact NE].
        destruct PC as [PQ _]. cbn in PQ. destruct q as [[[[[n1|]|] [[[m1|]]|]]|] st]; try discriminate S. cbn in S. inversion S; subst. cbn in PQ. unfold plain_queue in PQ. cbn in PQ.
        destruct PQ as [_ PQ]. unfold SpecModels.int64 in PQ. unfold SpecLimiter.int64. lia. }
      destruct V as [V NE]. destruct (c45_create k w used e name m R LT1 F V M NE) as [C1 C2].
      destruct (CreateQueue w name (Some m) e) as [w1 a] eqn:EC. unfold judged in H. cbn [fst snd option_map] in *. inversion H; subst w1 r. clear H.
      destruct (GetQueue w name) as [o b] eqn:EG. cbn [snd] in *.
      destruct (get_answers w name o b EG) as [GA GN].
      assert (D : b = XMissing \/ b <> XMissing) by (destruct b; auto; right; discriminate). destruct D as [->|D].
      - left. assert (o = None).
        { destruct o as [z|]; [|reflexivity]. unfold GetQueue in EG. cases_in EG; inversion EG. }
        subst o. destruct (C2 eq_refl) as (-> & G & B). split; [reflexivity|]. split; [reflexivity|]. split; [exact G|].
        intros other NO. assert (GS : good_step w used (WCreateQueue name (Some m)) e w' XCreated).
        { split; [exact V|]. split; [exists m; auto|]. split; [exact F|]. unfold wstep. rewrite UP. cbn [negb]. rewrite EC. reflexivity. }
        apply (c45_isolated k w used (WCreateQueue name (Some m)) e w' XCreated other R); [cbn; exact LT1|exact GS|cbn; exact NO].
      - right. destruct (C1 D) as [-> ->]. split; [congruence|]. split; reflexivity.
    Qed.
    Lemma c79_get_queue : forall name q r, c = CallGetQueue name q -> wask fmt_float c <> None -> forall w', exchange Works = Some (w', r) ->
      w' = w /\ forall x, r = Some (Returned x) <-> exists m, GetQueue w name = (Some m, XOk) /\ x = WQueue (shown_queue name m).
    Proof.
      intros name q r E A w' H. rewrite (c79_willow A), (f_equal (fun c => wdirect number w c i e) E) in H. cbn [wdirect option_map fst snd] in H. inversion H; subst w' r. clear H.
      split; [reflexivity|]. intros x. destruct (GetQueue w name) as [[m|] a] eqn:EG; cbn [snd].
      - assert (a = XOk) by (unfold GetQueue in EG; cases_in EG; inversion EG; reflexivity). subst a. cbn [returned]. split.
        + intros H. inversion H; subst. eauto.
        + intros (m' & H & ->). inversion H; subst. reflexivity.
      - split; [|intros (m & H & _); discriminate]. intros H. destruct (get_answers w name None a EG) as [GA GN]. specialize (GN eq_refl). cbn in GA.
        repeat (destruct GA as [<-|GA]; [try congruence; discriminate H|]). destruct GA.
    Qed.
    Lemma c79_list_queues : c = CallListQueues -> forall w' r, exchange Works = Some (w', r) ->
      w' = w /\ exists l, r = Some (Returned (WQueues (map (fun '(name, m) => Some (shown_queue name m)) l))) /\ NoDup (map fst l) /\
        (forall name m, GetQueue w name = (Some m, XOk) -> In (name, m) l) /\
        (forall name m, In (name, m) l -> GetQueue w name = (Some m, XOk) \/ GetQueue w name = (None, XConflict)).
    Proof.
      intros E w' r H. assert (A : wask fmt_float c <> None) by (rewrite E; cbn [wask]; rewrite ask_safe by (unfold queues_url; safe_literal); discriminate).
      rewrite (c79_willow A), (f_equal (fun c => wdirect number w c i e) E) in H. cbn [wdirect option_map fst snd] in H. inversion H; subst w' r. clear H.
      split; [reflexivity|]. destruct (c45_list k w used (text_reach k w used RE) LT) as (l & EL & ND & HL). exists l. rewrite EL. split; [reflexivity|]. split; [exact ND|]. split.
      - intros name m G. apply HL. left. exact G.
      - intros name m HI. apply HL in HI as [HI|[HI _]]; auto.
    Qed.
    Lemma c79_update_queue : forall name m r, c = CallUpdateQueue name (mkQueueProperties (Some m)) -> -1 <= m -> k + 1 < 2 ^ 63 -> fresh used [e_id e; e_id2 e] -> wask fmt_float c <> None ->
      forall w', exchange Works = Some (w', r) ->
      (snd (GetQueue w name) = XOk /\ r = Some (Returned WNothing) /\ GetQueue w' name = (Some m, XOk) /\ forall other, other <> name -> GetQueue w' other = GetQueue w other) \/
      (snd (GetQueue w name) <> XOk /\ (forall x, r <> Some (Returned x)) /\ w' = w).
    Proof.
      intros name m r E M LT1 F A w' H. pose proof (text_reach k w used RE) as R.
      rewrite (c79_willow A), (f_equal (fun c => wdirect number w c i e) E) in H. cbn [wdirect qp_max] in H.
      assert (V : SpecLimiter.int64 m) by (rewrite E in PC; destruct PC as [PQ _]; cbn in PQ; unfold plain_queue_props in PQ; cbn in PQ; unfold SpecModels.int64 in PQ; unfold SpecLimiter.int64; lia).
      destruct (c45_update k w used name m R LT1 V M) as [C1 C2].
      destruct (UpdateQueue w name m) as [w1 a] eqn:EC. unfold judged in H. cbn [fst snd option_map] in *. inversion H; subst w1 r. clear H.
      destruct (GetQueue w name) as [o b] eqn:EG. cbn [snd] in *. destruct (get_answers w name o b EG) as [GA GN].
      assert (D : b = XOk \/ b <> XOk) by (destruct b; auto; right; discriminate). destruct D as [->|D].
      - left. destruct (C2 eq_refl) as (-> & G & B). split; [reflexivity|]. split; [reflexivity|]. split; [exact G|]. intros other NO.
        assert (GS : good_step w used (WUpdateQueue name m) e w' XOk).
        { split; [exact V|]. split; [exact M|]. split; [exact F|]. unfold wstep. rewrite UP. cbn [negb]. rewrite EC. reflexivity. }
        apply (c45_isolated k w used (WUpdateQueue name m) e w' XOk other R); [cbn; exact LT1|exact GS|cbn; exact NO].
      - right. destruct (C1 D) as [-> ->]. split; [exact D|]. split; [|reflexivity]. intros x. cbn in GA. repeat (destruct GA as [<-|GA]; [try congruence; discriminate|]). destruct GA.
    Qed.
  End Call.

  (** ** Answers that come later *)
  Lemma late_deleted : forall k w used name w' a, wreach_text k w used -> k < 2 ^ 63 -> DropQueue w name = Some (w', a) ->
    option_map (whear parse_float (CallDeleteQueue name)) (late_delete a) = Some (Returned WNothing) /\ GetQueue w' name = (None, XMissing).
  Proof.
    intros k w used name w' a R L H. destruct (c45_dropped k w used name w' a (text_reach k w used R) L H) as (-> & _ & G). split; [reflexivity|exact G].
  Qed.
  Lemma late_closed : forall name kv, option_map (whear parse_float (CallDeleteChannel name kv)) (late_channel false) = Some (Returned WNothing).
  Proof. reflexivity. Qed.
  Lemma enqueued_dequeued : forall name q x kv p id, item_create_ok x = true -> plain_item fmt_float parse_float x -> given_item x = Some (kv, p) -> text id -> id <> "" ->
    option_map (whear parse_float (CallDequeue name q)) (late_item fmt_float kv id p) = Some (Returned (WItem (mkApiItem (ai_spec x) (Some id)))).
  Proof.
    intros name q x kv p id V PL S T NE. unfold late_item. cbn [option_map whear]. f_equal.
    assert (E : item_model kv id p = mkApiItem (ai_spec x) (Some id)).
    { destruct x as [[[[kv0|] [[d [u|] [r|] [ps|] [t|]]|]]|] st]; try discriminate S. cbn [given_item ai_spec] in S. inversion S; subst. unfold item_model. cbn [p_data p_upd p_max p_pos p_timeout ai_spec].
      unfold plain_item in PL. cbn in PL. destruct PL as [[_ (U & _ & _)] _]. cbn in U. unfold item_create_ok, item_spec_ok, item_props_ok in V. cbn [ai_spec needed is_db is_props ip_data ip_updateable ip_retries ip_position ip_timeout] in V.
      repeat (apply andb_true_iff in V as [V ?]). apply andb_true_iff in H0 as [H0 H2]. apply andb_true_iff in H0 as [H0 H3]. 
      rewrite Z2N.id by apply U. destruct (String.eqb_spec ps "front") as [->|N]; [reflexivity|]. apply orb_true_iff in H3 as [H3|H3]; [discriminate|]. apply String.eqb_eq in H3. subst ps. reflexivity. }
    rewrite E. apply hear_reply with (plain := plain_item fmt_float parse_float).
    - apply (c78_answers fmt_float parse_float).
    - destruct PL as [P1 _]. split; [exact P1|exact T].
    - unfold item_ok. unfold item_create_ok in V. apply andb_true_iff in V as [V _]. cbn [ai_spec ai_state needed]. rewrite V. apply String.eqb_neq in NE. rewrite NE. reflexivity.
  Qed.
End Main.

(** ** C80 *)
Lemma c80_willow : forall fmt_float parse_float number router w r pick i e, w_up w = true ->
  (exists t, valid_wtask t /\ wserve fmt_float parse_float number router w r pick i e = wperform fmt_float number w t i e) \/
  (exists st b, wserve fmt_float parse_float number router w r pick i e = Some (w, Some (Answer st b)) /\ (st = 400 \/ st = 404)) \/
  (router (rq_method r) (rq_path r) = Some RwCreate /\ no_properties (rq_body r)) \/
  (exists name, router (rq_method r) (rq_path r) = Some (RwDeleteChannel name) /\ receive typed_kv (dec_kv parse_float) (rq_body r) = None).
Proof.
  intros ff pf number router w r pick i e UP. unfold wserve. rewrite UP. cbn [negb]. destruct (router (rq_method r) (rq_path r)) as [rt|]; [|right; left; eauto].
  assert (X : (exists t, whandler pf rt (rq_body r) pick = Run t /\ valid_wtask t) \/ whandler pf rt (rq_body r) pick = Refused 400 \/
    (rt = RwCreate /\ no_properties (rq_body r)) \/ (exists name, rt = RwDeleteChannel name /\ receive typed_kv (dec_kv pf) (rq_body r) = None)).
  { destruct rt; cbn [whandler]; unfold reading, deref.
    - destruct (receive queue_create_ok dec_queue (rq_body r)) as [q|] eqn:R; [|auto]. pose proof R as V; apply received in V.
      destruct q as [[[[[name|]|] p]|] st]; try discriminate. destruct p as [[m]|].
      + left. cbn [given_queue aq_spec]. eexists. split; [reflexivity|]. unfold queue_create_ok, queue_spec_ok, queue_db_ok, queue_props_ok in V. cbn in V. split.
        * intros ->. cbn in V. discriminate.
        * intros ->. cbn in V. rewrite !andb_false_r in V. discriminate.
      + right. right. left. split; [reflexivity|]. do 2 eexists. split; [exact R|]. split; reflexivity.
    - left. eexists. split; [reflexivity|exact Logic.I].
    - left. eexists. split; [reflexivity|exact Logic.I].
    - destruct (receive queue_props_ok dec_queue_props (rq_body r)) as [[[m|]]|] eqn:R; [left; eexists; split; [reflexivity|exact Logic.I]| |auto].
      apply received in R. discriminate.
    - left. eexists. split; [reflexivity|exact Logic.I].
    - destruct (receive q_validate (dec_query pf) (rq_body r)) as [q|] eqn:R; [|auto]. left. eexists. split; [reflexivity|]. apply received in R; exact R.
    - destruct (receive typed_kv (dec_kv pf) (rq_body r)) as [kv|] eqn:R; [|right; right; right; eauto]. left. pose proof R as V; apply received in V. unfold receive in R. destruct (rq_body r) as [j|]; [|discriminate].
      cbn [bind] in R. destruct (dec_kv pf j) as [kv'|]; [|discriminate]. cbn [bind] in R. destruct (typed_kv kv') eqn:T; [|discriminate]. inversion R; subst kv'. cbn [negb].
      eexists. split; [reflexivity|]. apply (no_any pf), T.
    - destruct (receive item_create_ok (dec_item pf) (rq_body r)) as [x|] eqn:R; [|auto]. apply received in R. destruct (item_spec_some x R) as (kv & p & E & T). left. rewrite E.
      eexists. split; [reflexivity|]. apply (no_any pf), T.
    - destruct (receive q_validate (dec_query pf) (rq_body r)) as [q|] eqn:R; [|auto]. left. eexists. split; [reflexivity|]. apply received in R; exact R.
    - destruct (receive ack_ok (dec_ack pf) (rq_body r)) as [a|] eqn:R; [|auto]. apply received in R. left. eexists. split; [reflexivity|]. unfold ack_ok in R. apply andb_true_iff in R as [_ R]. apply (no_any pf), R.
    - destruct (receive beat_ok (dec_beat pf) (rq_body r)) as [a|] eqn:R; [|auto]. apply received in R. left. eexists. split; [reflexivity|]. unfold beat_ok in R. apply andb_true_iff in R as [_ R]. apply (no_any pf), R. }
  destruct X as [(t & E & V)|[E|[[E N]|(name & E & N)]]].
  - left. exists t. split; [exact V|]. rewrite E. reflexivity.
  - right. left. rewrite E. do 2 eexists. split; [reflexivity|auto].
  - subst rt. auto.
  - subst rt. right. right. right. eauto.
Qed.
Lemma c80_type : forall fmt_float parse_float number router w m p l v pick i e name, w_up w = true ->
  router m p = Some (RwUpdate name) -> member "MaxItems" l = Some v -> v <> JNull -> (forall z, v = JNum z -> ~ SpecModels.int64 z) ->
  wserve fmt_float parse_float number router w (mkReq m p (Some (JObj l))) pick i e = Some (w, Some (refuse 400)).
Proof.
  intros ff pf number router w m p l v pick i e name UP RT M NN NZ. unfold wserve. cbn [rq_method rq_path rq_body]. rewrite UP, RT. cbn [negb whandler]. unfold reading, receive. cbn [bind].
  unfold dec_queue_props, struct, ptr. rewrite M. destruct v as [|b|z| |s|a|o]; try congruence; try reflexivity. unfold is_int64. specialize (NZ z eq_refl). unfold SpecModels.int64 in NZ.
  destruct (Z.leb_spec (-9223372036854775808) z) as [A|A]; [|reflexivity]. destruct (Z.leb_spec z 9223372036854775807) as [B|B]; [|reflexivity]. exfalso. apply NZ. split; assumption.
Qed.
