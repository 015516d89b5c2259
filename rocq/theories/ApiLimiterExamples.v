(** A router and a history of calls for PropertiesApi.v. *)
From Coq Require Import String Ascii List Bool NArith ZArith SpecFloat Lia.
Import ListNotations.
From Verif Require Import Datatypes SpecValues Query Assoc SpecAssoc OneToMany SpecOneToMany Limiter SpecLimiter
  Json Models SpecModels ModelsExamples Http ApiLimiter SpecApiLimiter ApiLimiterProofs.
Local Open Scope Z_scope.
Local Open Scope string_scope.

(** ** A router that takes a path apart *)
Fixpoint split (s : string) : list string :=
  match s with
  | EmptyString => [""]
  | String c r => if Ascii.eqb c "/" then "" :: split r else match split r with x :: l => String c x :: l | [] => [String c ""] end
  end.
Fixpoint same_list (a b : list string) : bool :=
  match a, b with [], [] => true | x :: a, y :: b => String.eqb x y && same_list a b | _, _ => false end.
Definition split_router (m : method) (path : string) : option lroute :=
  let l := split path in
  if same_list (firstn 4 l) ["";"v1";"limiter";"rules"] then
    match m, skipn 4 l with
    | POST, [] => Some RtCreateRule
    | GET, [x] => if String.eqb x "query" then Some RtQueryRules else if String.eqb x "match" then Some RtMatchRules else Some (RtGetRule x)
    | PUT, [x] => Some (RtUpdateRule x)
    | DELETE, [x] => Some (RtDeleteRule x)
    | POST, [x; y] => if String.eqb y "overrides" then Some (RtCreateOverride x) else None
    | GET, [x; y; z] =>
        if String.eqb y "overrides" then
          if String.eqb z "query" then Some (RtQueryOverrides x) else if String.eqb z "match" then Some (RtMatchOverrides x) else Some (RtGetOverride x z)
        else None
    | PUT, [x; y; z] => if String.eqb y "overrides" then Some (RtUpdateOverride x z) else None
    | DELETE, [x; y; z] => if String.eqb y "overrides" then Some (RtDeleteOverride x z) else None
    | _, _ => None
    end
  else if same_list (firstn 4 l) ["";"v1";"limiter";"counters"] then
    match m, skipn 4 l with
    | PUT, [] => Some RtUpsertCounters
    | GET, [x] => if String.eqb x "query" then Some RtQueryCounters else None
    | PUT, [x] => if String.eqb x "set" then Some RtSetCounters else None
    | _, _ => None
    end
  else None.
Lemma split_end : forall s, ~ In "/"%char (chars s) -> split s = [s].
Proof.
  induction s as [|c s IH]; intros N; [reflexivity|]. cbn [chars] in N. cbn [split]. destruct (Ascii.eqb_spec c "/") as [->|_]; [exfalso; apply N; left; reflexivity|].
  rewrite IH; [reflexivity|]. intros X. apply N. right. exact X.
Qed.
Lemma split_app : forall s t, ~ In "/"%char (chars s) -> split (s ++ String "/" t) = s :: split t.
Proof.
  induction s as [|c s IH]; intros t N; [reflexivity|]. cbn [chars] in N. cbn [split String.append]. destruct (Ascii.eqb_spec c "/") as [->|_]; [exfalso; apply N; left; reflexivity|].
  rewrite IH; [reflexivity|]. intros X. apply N. right. exact X.
Qed.
Lemma split_rules : forall t, split ("/v1/limiter/rules/" ++ t) = (["";"v1";"limiter";"rules"] ++ split t)%list.
Proof. intros t. reflexivity. Qed.
Lemma split_limiter : limiter_router split_router.
Proof.
  split; [reflexivity|]. split; [reflexivity|]. split; [reflexivity|]. split; [reflexivity|]. split; [reflexivity|]. split; [reflexivity|].
  intros rid (_ & _ & _ & NR). unfold split_router.
  assert (S0 : split ("/v1/limiter/rules/" ++ rid) = ["";"v1";"limiter";"rules"; rid]) by (rewrite split_rules, (split_end rid NR); reflexivity).
  assert (S1 : forall t, split (rid ++ "/overrides" ++ t) = rid :: split ("overrides" ++ t)) by (intros t; apply (split_app rid ("overrides" ++ t) NR)).
  rewrite !S0. split; [intros N1 N2; cbn; apply String.eqb_neq in N1, N2; rewrite N1, N2; reflexivity|].
  split; [reflexivity|]. split; [reflexivity|].
  assert (S3 : split ("/v1/limiter/rules/" ++ rid ++ "/overrides") = ["";"v1";"limiter";"rules"; rid; "overrides"]).
  { rewrite split_rules. change "/overrides" with ("/overrides" ++ "") at 1. rewrite S1. reflexivity. }
  assert (S4 : split ("/v1/limiter/rules/" ++ rid ++ "/overrides/query") = ["";"v1";"limiter";"rules"; rid; "overrides"; "query"]).
  { rewrite split_rules. change "/overrides/query" with ("/overrides" ++ "/query"). rewrite S1. reflexivity. }
  assert (S5 : split ("/v1/limiter/rules/" ++ rid ++ "/overrides/match") = ["";"v1";"limiter";"rules"; rid; "overrides"; "match"]).
  { rewrite split_rules. change "/overrides/match" with ("/overrides" ++ "/match"). rewrite S1. reflexivity. }
  rewrite S3, S4, S5. split; [reflexivity|]. split; [reflexivity|]. split; [reflexivity|].
  intros oid (_ & _ & _ & NO).
  assert (S2 : split ("/v1/limiter/rules/" ++ rid ++ "/overrides/" ++ oid) = ["";"v1";"limiter";"rules"; rid; "overrides"; oid]).
  { rewrite split_rules. change ("/overrides/" ++ oid) with ("/overrides" ++ "/" ++ oid). rewrite S1. change ("overrides" ++ "/" ++ oid) with ("overrides" ++ String "/" oid).
    rewrite split_app by (cbn; intuition discriminate). rewrite (split_end oid NO). reflexivity. }
  rewrite S2. split; [intros N1 N2; cbn; apply String.eqb_neq in N1, N2; rewrite N1, N2; reflexivity|]. split; reflexivity.
Qed.

(** ** A history *)
Definition rule2 : ApiRule := mkApiRule (Some (mkLimitSpec (Some [("color"%string, Str umlaut); ("size"%string, Any)]) (Some (Some 5)))) None.
Definition over2 : ApiOverride := mkApiOverride (Some (mkLimitSpec (Some kv1) (Some (Some 0)))) None.
Definition count2 : ApiCounter := mkApiCounter (Some (mkCounterSpec (Some kv1) (Some (Some 3)))) None.
Definition run (s : limiter) (c : limiter_call) (id : string) (n : network) := limiter_exchange ff0 pf0 split_router s c id true n.
Definition s1 : limiter := fst (run empty_limiter (CallCreateRule rule2) "r1" AnswerLost).
Definition s2 : limiter := fst (run s1 (CallCreateOverride "r1" over2) "o1" Works).
Definition s3 : limiter := fst (run s2 (CallSetCounters count2) "c1" Works).
Lemma kv_arg1 : kv_arg kv1.
Proof. split; [repeat constructor; cbn; intuition congruence|]. intros k v [E|[E|[]]]; inversion E; subst; intros [X|X]; discriminate X. Qed.
Lemma kv_arg2 : kv_arg [("color"%string, Str umlaut); ("size"%string, Any)].
Proof. split; [repeat constructor; cbn; intuition congruence|]. intros k v [E|[E|[]]]; inversion E; subst; intros [X|X]; discriminate X. Qed.
Lemma r1_addressable : addressable "r1".
Proof.
  split; [repeat split; try discriminate; cbn; intuition discriminate|]. cbn. intros c [<-|[<-|[]]]; repeat split; discriminate.
Qed.
Lemma proper_rule : proper_call ff0 pf0 (CallCreateRule rule2).
Proof. split; [|split; [split; [exact I|split; exact I]|exact kv_arg2]]. split; [split; [exact kv2_plain|split; cbn; lia]|exact I]. Qed.
Lemma proper_over : proper_call ff0 pf0 (CallCreateOverride "r1" over2).
Proof. split; [|split; [split; [exact r1_addressable|split; exact I]|exact kv_arg1]]. split; [split; [exact kv1_plain|split; cbn; lia]|exact I]. Qed.
Lemma proper_count : proper_call ff0 pf0 (CallSetCounters count2).
Proof. split; [|split; [split; [exact I|split; exact I]|exact kv_arg1]]. split; [exact kv1_plain|split; cbn; lia]. Qed.
Lemma proper_get : proper_call ff0 pf0 (CallGetRule "r1").
Proof. split; [exact I|split; [split; [exact r1_addressable|split; [exact I|split; discriminate]]|exact I]]. Qed.
Lemma s3_history : client_history ff0 pf0 split_router s3 ["c1"; "o1"; "r1"].
Proof.
  apply (CH_call ff0 pf0 split_router s2 ["o1"; "r1"] (CallSetCounters count2) "c1" true Works); [|exact proper_count|plain_text|discriminate|cbn; intuition discriminate].
  apply (CH_call ff0 pf0 split_router s1 ["r1"] (CallCreateOverride "r1" over2) "o1" true Works); [|exact proper_over|plain_text|discriminate|cbn; intuition discriminate].
  apply (CH_call ff0 pf0 split_router empty_limiter [] (CallCreateRule rule2) "r1" true AnswerLost); [constructor|exact proper_rule|plain_text|discriminate|intros []].
Qed.
(** The rule whose creation was not answered is there, with the override and the counter *)
Lemma s3_get : snd (run s3 (CallGetRule "r1") "x" Works) = Returned (GotRule (rule_model ("r1", [("color"%string, Str umlaut); ("size"%string, Any)], 5))).
Proof. vm_compute. reflexivity. Qed.
Lemma s3_counters : snd (run s3 (CallQueryCounters (Q None None None)) "x" Works) = Returned (counters_of [(kv1, 3)]).
Proof. vm_compute. reflexivity. Qed.
Lemma s3_limited : snd (run s3 (CallUpdateCounter count2) "x" Works) = ServiceError message.
Proof. vm_compute. reflexivity. Qed.
(** The service's message for a rule that is not there does not reach the caller *)
Lemma delete_missing : forall ff pf router, limiter_router router ->
  (exists b, lserve ff pf router empty_limiter (mkReq DELETE "/v1/limiter/rules/r1" None) "x" true = (empty_limiter, Answer 404 (Some b)) /\ receive error_ok dec_error (Some b) = Some message) /\
  limiter_exchange ff pf router empty_limiter (CallDeleteRule "r1") "x" true Works = (empty_limiter, OtherError).
Proof.
  intros ff pf router (_ & _ & _ & _ & _ & _ & H). destruct (H "r1" (proj1 r1_addressable)) as (_ & _ & D & _).
  split.
  - eexists. unfold lserve. cbn [rq_method rq_path]. change ("/v1/limiter/rules/r1") with ("/v1/limiter/rules/" ++ "r1"). rewrite D. split; [reflexivity|vm_compute; reflexivity].
  - unfold limiter_exchange. change (lask ff (CallDeleteRule "r1")) with (Some (mkReq DELETE ("/v1/limiter/rules/" ++ "r1") None)). unfold lserve. cbn [rq_method rq_path]. rewrite D. reflexivity.
Qed.
