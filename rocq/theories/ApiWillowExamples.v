(** A router, a history and odd requests for PropertiesApiWillow.v. *)
From Coq Require Import String Ascii List Bool NArith ZArith SpecFloat Lia.
Import ListNotations.
From Verif Require Import Datatypes SpecValues Query Assoc SpecAssoc OneToMany SpecOneToMany Limiter SpecLimiter Channel SpecChannel Willow SpecWillow WillowExamples WillowCases
  Json Models SpecModels ModelsExamples Http ApiLimiter SpecApiLimiter ApiLimiterProofs ApiLimiterExamples ApiWillow SpecApiWillow ApiWillowProofs.
Local Open Scope Z_scope.
Local Open Scope string_scope.

(** ** A router that takes a path apart *)
Definition split_wrouter (m : method) (path : string) : option wroute :=
  let l := split path in
  if same_list (firstn 3 l) ["";"v1";"queues"] then
    match m, skipn 3 l with
    | POST, [] => Some RwCreate
    | GET, [] => Some RwList
    | GET, [x] => Some (RwGet x)
    | PUT, [x] => Some (RwUpdate x)
    | DELETE, [x] => Some (RwDelete x)
    | GET, [x; y] => if String.eqb y "channels" then Some (RwChannels x) else None
    | DELETE, [x; y] => if String.eqb y "channels" then Some (RwDeleteChannel x) else None
    | POST, [x; y; z] => if String.eqb y "channels" && String.eqb z "items" then Some (RwEnqueue x) else None
    | GET, [x; y; z] => if String.eqb y "channels" && String.eqb z "items" then Some (RwDequeue x) else None
    | POST, [x; y; z; a] => if String.eqb y "channels" && String.eqb z "items" && String.eqb a "ack" then Some (RwAck x)
                            else if String.eqb y "channels" && String.eqb z "items" && String.eqb a "heartbeat" then Some (RwBeat x) else None
    | _, _ => None
    end
  else None.
Lemma split_willow : willow_router split_wrouter.
Proof.
  split; [reflexivity|]. split; [reflexivity|]. intros name (_ & _ & _ & N). unfold split_wrouter.
  assert (S0 : forall t, split ("/v1/queues/" ++ t) = (["";"v1";"queues"] ++ split t)%list) by reflexivity.
  assert (S1 : forall t, split (name ++ "/channels" ++ t) = name :: split ("channels" ++ t)) by (intros t; apply (split_app name ("channels" ++ t) N)).
  assert (E0 : split ("/v1/queues/" ++ name) = ["";"v1";"queues"; name]) by (rewrite S0, (split_end name N); reflexivity).
  assert (E1 : split ("/v1/queues/" ++ name ++ "/channels") = ["";"v1";"queues"; name; "channels"]).
  { rewrite S0. change "/channels" with ("/channels" ++ "") at 1. rewrite S1. reflexivity. }
  assert (E2 : split ("/v1/queues/" ++ name ++ "/channels/items") = ["";"v1";"queues"; name; "channels"; "items"]).
  { rewrite S0. change "/channels/items" with ("/channels" ++ "/items"). rewrite S1. reflexivity. }
  assert (E3 : split ("/v1/queues/" ++ name ++ "/channels/items/ack") = ["";"v1";"queues"; name; "channels"; "items"; "ack"]).
  { rewrite S0. change "/channels/items/ack" with ("/channels" ++ "/items/ack"). rewrite S1. reflexivity. }
  assert (E4 : split ("/v1/queues/" ++ name ++ "/channels/items/heartbeat") = ["";"v1";"queues"; name; "channels"; "items"; "heartbeat"]).
  { rewrite S0. change "/channels/items/heartbeat" with ("/channels" ++ "/items/heartbeat"). rewrite S1. reflexivity. }
  rewrite E0, E1, E2, E3, E4. repeat split.
Qed.

(** ** A history: two queues, and two channels with an item each *)
Definition red : KeyValues := [("color", Str umlaut)].
Definition props1 : props := mkProps umlaut true 2 Front 5000000000.
Definition hw : list (wop * env) := numbered [WCreateQueue "a" (Some 2); WCreateQueue "a?b" (Some (-1)); WEnqueue "a" kv1 props1 2%nat; WEnqueue "a" red props1 3%nat].
Lemma run_text l : forall k w used w', allb (histb true) w used l = true -> Forall (fun x => text_name (fst x)) l -> wreach_text k w used -> wrun w l = Some w' ->
  wreach_text (fold_left (fun k x => k + cost (fst x)) l k) w' (drew l used).
Proof.
  induction l as [|[o e] l IH]; intros k w used w' H F R E; cbn [wrun allb] in *; [injection E as <-; exact R|]. apply andb_true_iff in H as [H1 H2]. destruct (wstep w o e) as [[w1 a]|] eqn:ES; [|discriminate].
  inversion F as [|? ? T F']; subst. unfold drew. cbn [fold_left fst snd]. apply (IH _ w1); auto. unfold histb in H1. rewrite !andb_true_iff in H1. destruct H1 as (((A & TM) & KP) & FR).
  eapply (WT_step _ w used o e w1 a); [exact R|exact T|]. split; [apply wargb_ok; exact A|]. split; [apply tameb_ok; exact TM|]. split; [apply freshb_ok; exact FR|exact ES].
Qed.
Lemma hw_reached : wreach_text 4 (after hw) (ids hw).
Proof.
  unfold after. destruct (world hw) as [w|] eqn:E; [|vm_compute in E; discriminate]. unfold world in E. destruct (start empty_limiter "rule") as [w0|] eqn:S; [|discriminate].
  change 4 with (fold_left (fun k (x : wop * env) => k + cost (fst x)) hw 0). unfold ids. eapply run_text; [| | |exact E].
  - assert (G : goodb true hw = true) by (vm_compute; reflexivity). unfold goodb in G. rewrite S in G. exact G.
  - repeat constructor; cbn [fst text_name]; try exact Logic.I; plain_text.
  - apply (WT_start 0 empty_limiter []); [constructor|intros i []|cbn; lia|apply freshb_ok; reflexivity|exact S].
Qed.
Definition wx (w : willow) (c : willow_call) (n : network) := willow_exchange ff0 pf0 (fun _ => 2%nat) split_wrouter w c (fun _ => true) 9%nat (ev 40) n.
Lemma a_addressable : addressable "a".
Proof. split; [repeat split; try discriminate; cbn; intuition discriminate|]. cbn. intros c [<-|[]]; repeat split; discriminate. Qed.
Lemma hw_up : w_up (after hw) = true.
Proof. vm_compute. reflexivity. Qed.
Lemma proper_item : proper_willow_call ff0 pf0 (CallEnqueue "a" item1).
Proof. split; [exact item1_plain|exact a_addressable]. Qed.
(** An item is refused by the limit; the next one updates the waiting one *)
Lemma hw_item : option_map snd (wx (after hw) (CallEnqueue "a" item1) Works) = Some (Some (Returned WNothing)).
Proof. vm_compute. reflexivity. Qed.
Definition blue : ApiItem := mkApiItem (Some (mkItemSpec (Some [("color", Str "b")]) (Some (mkItemProperties "x" (Some true) (Some 2) (Some "back") (Some 5000000000))))) None.
Lemma hw_full : option_map snd (wx (after hw) (CallEnqueue "a" blue) Works) = Some (Some (ServiceError message)).
Proof. vm_compute. reflexivity. Qed.
Lemma hw_get : option_map snd (wx (after hw) (CallGetQueue "a" (Q None None None)) Works) = Some (Some (Returned (WQueue (queue_model "a" 2)))).
Proof. vm_compute. reflexivity. Qed.
Lemma hw_waits : option_map snd (wx (after hw) (CallDequeue "a" (Q None None None)) Works) = Some None.
Proof. vm_compute. reflexivity. Qed.
Definition queue3 : ApiQueue := mkApiQueue (Some (mkQueueSpec (Some (Some "c")) (Some (mkQueueProperties (Some 7))))) None.
Lemma proper_queue3 : proper_willow_call ff0 pf0 (CallCreateQueue queue3).
Proof. split; [|exact Logic.I]. split; [plain_text|]. cbn. unfold plain_queue_props. cbn. unfold SpecModels.int64. lia. Qed.

(** ** C79: a queue whose name cannot be addressed *)
Lemma wrong_queue : forall ff pf number router pick i e, willow_router router ->
  exists w', willow_exchange ff pf number router (after hw) (CallDeleteQueue "a?b") pick i e Works = Some (w', None) /\
    GetQueue (after hw) "a" = (Some 2, XOk) /\ GetQueue w' "a" = (None, XConflict) /\ GetQueue w' "a?b" = (Some (-1), XOk).
Proof.
  intros ff pf number router pick i e (_ & _ & R). destruct (R "a" (proj1 a_addressable)) as (_ & _ & D & _).
  exists (fst (DeleteQueue (after hw) "a")). split; [|vm_compute; auto].
  unfold willow_exchange. change (wask ff (CallDeleteQueue "a?b")) with (Some (mkReq DELETE ("/v1/queues/" ++ "a") None)). unfold wserve. rewrite hw_up. cbn [negb rq_method rq_path]. rewrite D.
  vm_compute. reflexivity.
Qed.

(** ** C80: requests that are not refused *)
Definition bare_queue : ApiQueue := mkApiQueue (Some (mkQueueSpec (Some (Some "c")) None)) None.
(** The client sends a queue without Properties, and the handler panics *)
Lemma bare_panics : forall ff pf number router pick i e, willow_router router ->
  option_map snd (willow_exchange ff pf number router (after hw) (CallCreateQueue bare_queue) pick i e Works) = Some (Some OtherError) /\
  wserve ff pf number router (after hw) (mkReq POST "/v1/queues" (Some (on_wire (enc_queue bare_queue)))) pick i e = Some (fst (CreateQueue (after hw) "c" None e), Some Broken).
Proof.
  intros ff pf number router pick i e (R & _).
  assert (X : wserve ff pf number router (after hw) (mkReq POST "/v1/queues" (Some (on_wire (enc_queue bare_queue)))) pick i e = Some (fst (CreateQueue (after hw) "c" None e), Some Broken)).
  { unfold wserve. rewrite hw_up. cbn [negb rq_method rq_path rq_body]. rewrite R. vm_compute. reflexivity. }
  split; [|exact X]. unfold willow_exchange. change (wask ff (CallCreateQueue bare_queue)) with (Some (mkReq POST "/v1/queues" (Some (on_wire (enc_queue bare_queue))))). cbv beta iota. rewrite X. reflexivity.
Qed.
(** DELETE /v1/queues/a/channels without a body, or with an empty object, stops the process *)
Lemma no_body_stops : forall ff pf number router w pick i e body, willow_router router -> w_up w = true -> snd (GetQueue w "a") = XOk -> body = None \/ body = Some (JObj []) ->
  exists w', wserve ff pf number router w (mkReq DELETE "/v1/queues/a/channels" body) pick i e = Some (w', Some Broken) /\ w_up w' = false.
Proof.
  intros ff pf number router w pick i e body (_ & _ & R) UP G HB. destruct (R "a" (proj1 a_addressable)) as (_ & _ & _ & _ & D & _).
  exists (set_down w). split; [|reflexivity]. unfold wserve. rewrite UP. cbn [negb rq_method rq_path rq_body]. change "/v1/queues/a/channels" with ("/v1/queues/" ++ "a" ++ "/channels"). rewrite D.
  assert (H : exists b, whandler pf (RwDeleteChannel "a") body pick = Run (KDeleteChannel "a" [] b)) by (destruct HB as [-> | ->]; eexists; vm_compute; reflexivity).
  destruct H as (b & H). rewrite H. cbn [wperform]. unfold GetQueue in G. unfold DeleteChannel. destruct (busy w "a"); [discriminate|].
  destruct (find_queue (w_queues w) "a") as [p|]; [|discriminate]. reflexivity.
Qed.
(** A body of which one member is no value is refused with 400 once the channel of the others is gone *)
Definition half : json := JObj [("color", on_wire (enc_ev ff0 (Str umlaut))); ("size", JObj [("Type", JNum 99)])].
Lemma half_closes : forall number router i e, willow_router router ->
  exists w', receive typed_kv (dec_kv pf0) (Some half) = None /\
    wserve ff0 pf0 number router (after hw) (mkReq DELETE "/v1/queues/a/channels" (Some half)) (fun _ => true) i e = Some (w', None) /\
    late_channel true = Some (refuse 400) /\
    (exists ch, indexed_channel (w_chans (after hw)) "a" red = Some ch /\ rem (m_val ch) = RNo) /\
    (exists ch, indexed_channel (w_chans w') "a" red = Some ch /\ rem (m_val ch) <> RNo).
Proof.
  intros number router i e (_ & _ & R). destruct (R "a" (proj1 a_addressable)) as (_ & _ & _ & _ & D & _).
  exists (match DeleteChannel (after hw) "a" red with Some (w', _) => w' | None => after hw end). split; [vm_compute; reflexivity|]. split; [|split; [reflexivity|]].
  - unfold wserve. rewrite hw_up. cbn [negb rq_method rq_path rq_body]. change "/v1/queues/a/channels" with ("/v1/queues/" ++ "a" ++ "/channels"). rewrite D. vm_compute. reflexivity.
  - split; [vm_compute; eauto|]. vm_compute. eexists. split; [reflexivity|discriminate].
Qed.
