(** Proofs about the list of the channels of a queue (ApiWillow.v QueryChannels). *)
From Coq Require Import String Ascii List Bool NArith ZArith SpecFloat Lia.
Import ListNotations.
From Verif Require Import Datatypes SpecValues DatatypesProofs PropLemmasValues Query SpecQuery Assoc SpecAssoc AssocProofs PropLemmasAssoc OneToMany SpecOneToMany OneToManyProofs
  Limiter SpecLimiter LimiterProofs Channel SpecChannel Willow SpecWillow WillowInv WillowDir PropLemmasWillow
  Json Models SpecModels ModelsProofs ModelsExamples Http ApiLimiter SpecApiLimiter ApiLimiterProofs ApiLimiterExamples ApiWillow SpecApiWillow ApiWillowProofs ApiSent WillowExamples WillowCases ApiWillowExamples.
Local Open Scope Z_scope.
Local Open Scope string_scope.

Lemma offer_all : forall A (acc : list KeyValues) (l : list (Assoc.item (many A))),
  Assoc.iterate (fun acc i => ((acc ++ [m_kv (it_val i)])%list, true)) acc l = (acc ++ map (fun i => m_kv (it_val i)) l)%list.
Proof.
  intros A acc l. revert acc. induction l as [|i l IH]; intros acc; cbn [Assoc.iterate map]; [rewrite app_nil_r; reflexivity|]. rewrite IH, <- app_assoc. reflexivity.
Qed.
Lemma nodup_map_in : forall A B (f : A -> B) l, (forall a b, In a l -> In b l -> f a = f b -> a = b) -> NoDup l -> NoDup (map f l).
Proof.
  intros A B f l H N. induction N as [|x l NI N IH]; [constructor|]. cbn [map]. constructor.
  - intros HI. apply in_map_iff in HI as (y & E & HI). apply NI. replace x with y; [exact HI|]. apply H; [right; exact HI|left; reflexivity|exact E].
  - apply IH. intros a b HA HB. apply H; right; assumption.
Qed.
Lemma found_kvs : forall A (m : otm A) used name q, oreach m used -> name <> "" -> q_validate q = true -> query_no_nan q -> q = Q None None None \/ every_node node_simple q ->
  exists l, NoDup l /\ (forall kv, In kv l <-> exists ch, In ch (belongings m name) /\ m_kv ch = kv /\ query_holds q (m_id ch) kv) /\
    OtmQueryAction m name q (fun acc i => ((acc ++ [m_kv i])%list, true)) [] = Some (Some l).
Proof.
  intros A m used name q R NE V NN SI. destruct (oreach_inv m used R) as [_ INV]. unfold OtmQueryAction, belongings. rewrite V. apply String.eqb_neq in NE. rewrite NE. cbn [negb].
  destruct (otm_get m name) as [t|] eqn:E.
  2: { exists []. split; [constructor|]. split; [|reflexivity]. intros kv. split; [intros []|intros (ch & [] & _)]. }
  destruct (INV name t E) as (_ & (u & RU & _) & L). destruct (c22_query t u q RU V NN SI) as (l & N & HL & HQ). rewrite HQ, offer_all. cbn [app].
  exists (map (fun i => m_kv (it_val i)) l). split; [|split; [|reflexivity]].
  - apply nodup_map_in; [|exact N]. intros a b HA HB EQ. apply HL in HA as [HA _], HB as [HB _]. destruct (L a HA) as (_ & _ & KA), (L b HB) as (_ & _ & KB).
    rewrite KA, KB in EQ.
    eapply (c20_unique t u a b RU HA HB). rewrite EQ. apply kv_same_refl. 
  - intros kv. rewrite in_map_iff. split.
    + intros (i & <- & HI). apply HL in HI as [HI HQ']. destruct (L i HI) as (_ & LI & LK). exists (it_val i). split; [apply in_map; exact HI|]. split; [reflexivity|]. rewrite LI, LK. exact HQ'.
    + intros (ch & HC & <- & HQ'). apply in_map_iff in HC as (i & <- & HI). exists i. split; [reflexivity|]. apply HL. split; [exact HI|]. destruct (L i HI) as (_ & <- & <-). exact HQ'.
Qed.

Definition shown_channel (kv : KeyValues) : ApiChannel := mkApiChannel (Some (Some kv)) (Some (-1, -1)).
Lemma found_queue : forall k w used name, wreach k w used -> k < 2 ^ 63 -> snd (GetQueue w name) = XOk ->
  busy w name = false /\ (exists p, find_queue (w_queues w) name = Some p) /\ name <> "".
Proof.
  intros k w used name R LT G. pose proof (wreach_inv k w used R LT) as I. unfold GetQueue in G. destruct (busy w name); [discriminate|].
  destruct (find_queue (w_queues w) name) as [p|] eqn:F; [|discriminate]. destruct (find_at k w used name p I F) as (q & _ & _ & NE & _). eauto.
Qed.
Lemma channels_answer : forall ff pf l, Forall (fun kv => typed_kv kv = true /\ plain_kv ff pf kv) l ->
  exists body, reply (list_ok channel_ok) (fun l => JArr (map (null_or (enc_channel ff)) l)) 200 (map (fun kv => Some (channel_model kv)) l) = Answer 200 (Some body) /\
    receive (list_ok channel_ok) (slice (pointee (dec_channel pf))) (Some body) = Some (map (fun kv => Some (shown_channel kv)) l).
Proof.
  intros ff pf l F. set (m := map (fun kv => Some (channel_model kv)) l). change (map (fun kv => Some (shown_channel kv)) l) with m.
  assert (V : list_ok channel_ok m = true).
  { subst m. induction F as [|kv l [T _] F IH]; [reflexivity|]. cbn [map list_ok forallb]. unfold list_ok in IH. rewrite IH, andb_true_r.
    unfold needed, channel_ok, channel_model. cbn [ac_spec ac_state needed]. rewrite T. reflexivity. }
  assert (P : Forall (when (plain_channel ff pf)) m).
  { subst m. clear V. induction F as [|kv l [_ T] F IH]; [constructor|]. cbn [map]. constructor; [|exact IH]. cbn. split; [exact T|]. unfold SpecModels.int64. cbn [fst snd]. repeat split; discriminate. }
  destruct (c78_answers ff pf) as (_ & _ & _ & A & _). unfold reply. unfold send in *. unfold arrives, send in A. specialize (A m). rewrite V in *. eexists. split; [reflexivity|]. apply A; [exact P|reflexivity].
Qed.
Lemma counter_typed : forall kv, counter_kv kv -> typed_kv kv = true.
Proof. intros kv (_ & V & N). apply definite_typed. split; assumption. Qed.
Lemma c87_listed : forall ff pf number router k w used r pick i e name q, wreach k w used -> k < 2 ^ 63 -> w_up w = true ->
  router (rq_method r) (rq_path r) = Some (RwChannels name) -> receive q_validate (dec_query pf) (rq_body r) = Some q ->
  query_no_nan q -> q = Q None None None \/ every_node node_simple q ->
  (forall ch, In ch (belongings (w_chans w) name) -> plain_kv ff pf (m_kv ch)) -> snd (GetQueue w name) = XOk ->
  exists body l, wserve ff pf number router w r pick i e = Some (w, Some (Answer 200 (Some body))) /\
    receive (list_ok channel_ok) (slice (pointee (dec_channel pf))) (Some body) = Some (map (fun kv => Some (shown_channel kv)) l) /\
    NoDup l /\ forall kv, In kv l <-> exists ch, In ch (belongings (w_chans w) name) /\ m_kv ch = kv /\ query_holds q (m_id ch) kv.
Proof.
  intros ff pf number router k w used r pick i e name q R LT UP RT RQ NN SI PL G. pose proof (wreach_inv k w used R LT) as I. destruct (found_queue k w used name R LT G) as (B & (p & F) & NE).
  pose proof (received _ _ _ _ _ RQ) as V. destruct (wi_chans _ _ _ I) as (u & RU & _).
  destruct (found_kvs channel (w_chans w) u name q RU NE V NN SI) as (l & N & HL & HQ).
  destruct (channels_answer ff pf l) as (body & E1 & E2).
  { apply Forall_forall. intros kv HI. apply HL in HI as (ch & HI & <- & _). split; [|apply PL, HI]. apply counter_typed. destruct (wi_chan _ _ _ I name ch HI) as [_ CO]. apply CO. }
  exists body, l. split; [|split; [exact E2|split; [exact N|exact HL]]].
  unfold wserve. rewrite UP, RT. cbn [negb whandler]. unfold reading. rewrite RQ. cbn [wperform]. unfold QueryChannels, Channels. rewrite B, F, HQ, E1. reflexivity.
Qed.
Lemma c87_empty : forall ff pf number router w r pick i e name q, w_up w = true ->
  router (rq_method r) (rq_path r) = Some (RwChannels name) -> receive q_validate (dec_query pf) (rq_body r) = Some q -> GetQueue w name = (None, XMissing) ->
  wserve ff pf number router w r pick i e = Some (w, Some (Answer 200 (Some (JArr [])))).
Proof.
  intros ff pf number router w r pick i e name q UP RT RQ G. unfold GetQueue in G. unfold wserve. rewrite UP, RT. cbn [negb whandler]. unfold reading. rewrite RQ. cbn [wperform]. unfold QueryChannels.
  destruct (busy w name); [discriminate|]. destruct (find_queue (w_queues w) name) as [p|]; [destruct (nth_error (w_objs w) p); discriminate|]. reflexivity.
Qed.
Lemma c87_busy : forall ff pf number router w r pick i e name q, w_up w = true ->
  router (rq_method r) (rq_path r) = Some (RwChannels name) -> receive q_validate (dec_query pf) (rq_body r) = Some q -> GetQueue w name = (None, XConflict) ->
  wserve ff pf number router w r pick i e = Some (w, Some (refuse 409)).
Proof.
  intros ff pf number router w r pick i e name q UP RT RQ G. unfold GetQueue in G. unfold wserve. rewrite UP, RT. cbn [negb whandler]. unfold reading. rewrite RQ. cbn [wperform]. unfold QueryChannels.
  destruct (busy w name); [reflexivity|]. destruct (find_queue (w_queues w) name) as [p|]; [destruct (nth_error (w_objs w) p); discriminate|]. discriminate.
Qed.

(** ** Examples *)
Definition channels_of (name : string) (q : Query) : request := mkReq GET ("/v1/queues/" ++ name ++ "/channels") (Some (on_wire (enc_query ff0 q))).
Definition no_part : Query := Q None None (Some []).
Definition all : Query := Q None None None.
Definition got (x : option (willow * option response)) : option (list (option ApiChannel)) :=
  match x with Some (_, Some (Answer 200 b)) => receive (list_ok channel_ok) (slice (pointee (dec_channel pf0))) b | _ => None end.
Lemma hw_stored : (exists a b, belongings (w_chans (after hw)) "a" = [a; b] /\ m_kv a = kv1 /\ m_kv b = red /\ items (m_val a) <> [] /\ items (m_val b) <> []).
Proof. vm_compute. eexists. eexists. split; [reflexivity|]. repeat split; discriminate. Qed.
Lemma hw_channels : got (wserve ff0 pf0 (fun _ => 2%nat) split_wrouter (after hw) (channels_of "a" all) (fun _ => true) 9%nat (ev 40)) = Some (map (fun kv => Some (shown_channel kv)) [kv1; red]).
Proof. vm_compute. reflexivity. Qed.
Lemma c87_panic : forall ff pf number router w pick i e, willow_router router -> w_up w = true -> snd (GetQueue w "a") = XOk -> belongings (w_chans w) "a" <> [] ->
  receive q_validate (dec_query pf) (Some (JObj [("And", JArr [])])) = Some no_part /\
  wserve ff pf number router w (mkReq GET "/v1/queues/a/channels" (Some (JObj [("And", JArr [])]))) pick i e = Some (w, Some Broken).
Proof.
  intros ff pf number router w pick i e RT UP G B. assert (RQ : receive q_validate (dec_query pf) (Some (JObj [("And", JArr [])])) = Some no_part) by reflexivity.
  split; [exact RQ|]. destruct RT as (_ & _ & RT). destruct (RT "a" (proj1 a_addressable)) as (_ & _ & _ & RT'). 
  assert (E : router GET "/v1/queues/a/channels" = Some (RwChannels "a")) by (apply RT').
  unfold wserve. cbn [rq_method rq_path rq_body]. rewrite UP, E. cbn [negb whandler]. unfold reading. rewrite RQ. cbn [wperform]. unfold QueryChannels, Channels, OtmQueryAction, belongings, GetQueue in *.
  destruct (busy w "a"); [discriminate|]. destruct (find_queue (w_queues w) "a") as [p|]; [|discriminate]. destruct (otm_get (w_chans w) "a") as [t|]; [|contradiction].
  cbn [q_validate negb]. reflexivity.
Qed.
Lemma hw_meets : wreach 4 (after hw) (ids hw) /\ w_up (after hw) = true /\ snd (GetQueue (after hw) "a") = XOk /\
  split_wrouter GET "/v1/queues/a/channels" = Some (RwChannels "a") /\ receive q_validate (dec_query pf0) (rq_body (channels_of "a" (Q None None None))) = Some (Q None None None) /\
  query_no_nan (Q None None None) /\ (forall ch, In ch (belongings (w_chans (after hw)) "a") -> plain_kv ff0 pf0 (m_kv ch)).
Proof.
  split; [apply text_reach, hw_reached|]. split; [exact hw_up|]. split; [vm_compute; reflexivity|]. split; [vm_compute; reflexivity|]. split; [vm_compute; reflexivity|].
  split; [repeat split; intros s k v [=]|]. destruct hw_stored as (a & b & E & Ea & Eb & _). intros ch HI. rewrite E in HI. destruct HI as [<- |[<- |[]]]; [rewrite Ea|rewrite Eb].
  - exact kv1_plain.
  - split; [repeat constructor; cbn; intuition discriminate|]. repeat constructor; cbn; plain_text.
Qed.
