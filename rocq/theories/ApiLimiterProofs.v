(** Proofs about the limiter's client and service (ApiLimiter.v). *)
From Coq Require Import String Ascii List Bool NArith ZArith SpecFloat Lia Permutation.
Import ListNotations.
From Verif Require Import Datatypes SpecValues DatatypesProofs PropLemmasValues Query SpecQuery QueryProofs Assoc SpecAssoc AssocMaps AssocProofs AssocQueryProofs AssocOps
  AssocMatchProofs PropLemmasAssoc OneToMany SpecOneToMany OneToManyProofs Limiter SpecLimiter LimiterProofs LimiterCounts LimiterLimits PropLemmasLimiter PropLemmasRules
  Json Models SpecModels ModelsProofs Http ApiLimiter SpecApiLimiter.
Local Open Scope Z_scope.
Local Open Scope string_scope.

(** ** Addresses *)
Definition safe (c : ascii) : Prop := c <> "#"%char /\ c <> "?"%char /\ c <> "%"%char /\ (32 <= N_of_ascii c /\ N_of_ascii c <> 127)%N.
Lemma chars_app : forall a b, chars (a ++ b) = (chars a ++ chars b)%list.
Proof. induction a as [|c a IH]; intros b; [reflexivity|]. cbn. rewrite IH. reflexivity. Qed.
Lemma cut_none : forall c s, ~ In c (chars s) -> cut c s = (s, "").
Proof.
  induction s as [|x s IH]; intros N; [reflexivity|]. cbn in N. cbn [cut]. destruct (Ascii.eqb_spec x c) as [->|NE]; [tauto|].
  rewrite IH by tauto. reflexivity.
Qed.
Lemma unescape_safe : forall s, Forall safe (chars s) -> unescape s = Some s.
Proof.
  induction s as [|c s IH]; intros F; [reflexivity|]. cbn [chars] in F. inversion F as [|x l (_ & _ & P & _) F']; subst.
  cbn [unescape]. destruct (Ascii.eqb_spec c "%") as [->|_]; [congruence|]. rewrite IH by exact F'. reflexivity.
Qed.
Lemma control_safe : forall s, Forall safe (chars s) -> has_control s = false.
Proof.
  induction s as [|c s IH]; intros F; [reflexivity|]. cbn [chars] in F. inversion F as [|x l (_ & _ & _ & P) F']; subst.
  cbn [has_control]. rewrite IH by exact F'. unfold control.
  destruct (N.ltb_spec (N_of_ascii c) 32) as [X|X]; [lia|]. destruct (N.eqb_spec (N_of_ascii c) 127) as [Y|Y]; [lia|]. reflexivity.
Qed.
Lemma url_safe : forall s, Forall safe (chars s) -> url_path s = Some s.
Proof.
  intros s F. unfold url_path. assert (N : forall c, ~ safe c -> ~ In c (chars s)) by (intros c NS HI; rewrite Forall_forall in F; exact (NS (F c HI))).
  rewrite cut_none by (apply N; unfold safe; tauto). rewrite control_safe by exact F. cbn [unescape bind].
  rewrite cut_none by (apply N; unfold safe; tauto). apply unescape_safe, F.
Qed.
Lemma safe_addressable : forall s, addressable s -> Forall safe (chars s).
Proof. intros s [_ H]. apply Forall_forall. exact H. Qed.
Lemma safe_app : forall a b, Forall safe (chars a) -> Forall safe (chars b) -> Forall safe (chars (a ++ b)).
Proof. intros a b A B. rewrite chars_app. apply Forall_app. auto. Qed.
Lemma string_app_assoc : forall a b c : string, ((a ++ b) ++ c) = (a ++ (b ++ c)).
Proof. induction a as [|x a IH]; intros b c; [reflexivity|]. cbn [String.append]. rewrite IH. reflexivity. Qed.
Ltac safe_literal := cbn; repeat constructor; discriminate.
Ltac safe_url := repeat (apply safe_app; [try solve [safe_literal]|]); try solve [safe_literal]; try (apply safe_addressable; assumption).
Lemma ask_safe : forall m u b, Forall safe (chars u) -> ask m u b = Some (mkReq m u b).
Proof. intros m u b F. unfold ask. rewrite url_safe by exact F. reflexivity. Qed.
Lemma tell_safe : forall A valid (enc : A -> json) m u a r, Forall safe (chars u) -> tell valid enc m u a = Some r ->
  exists body, send valid enc a = Some body /\ r = mkReq m u (Some body).
Proof.
  intros A valid enc m u a r F H. unfold tell in H. destruct (send valid enc a) as [body|]; [|discriminate]. cbn [bind] in H.
  rewrite ask_safe in H by exact F. inversion H. eauto.
Qed.

(** ** Answers *)
Section Hear.
  Context {A : Type}.
  Variables (good : Z) (known : list Z) (read : option json -> option A).
  Lemma hear_message : forall st, st <> good -> In st known -> hear good known read (refuse st) = ServiceError message.
  Proof.
    intros st N K. unfold hear, refuse. destruct (Z.eqb_spec st good) as [E|_]; [contradiction|].
    replace (existsb (Z.eqb st) known) with true; [reflexivity|]. symmetry. apply existsb_exists. exists st. split; [exact K|apply Z.eqb_refl].
  Qed.
  Lemma hear_refused : forall st x, st <> good -> hear good known read (refuse st) <> Returned x.
  Proof.
    intros st x N. unfold hear, refuse. destruct (Z.eqb_spec st good) as [E|_]; [contradiction|].
    destruct (existsb _ _); [|discriminate]. destruct (receive _ _ _); discriminate.
  Qed.
  Lemma hear_broken : hear good known read Broken = OtherError.
  Proof. reflexivity. Qed.
  Lemma hear_reply : forall B (plain : B -> Prop) (valid : B -> bool) enc dec (got : B -> A) b,
    arrives plain valid enc valid dec -> plain b -> valid b = true ->
    hear good known (fun j => option_map got (receive valid dec j)) (reply valid enc good b) = Returned (got b).
  Proof.
    intros B plain valid enc dec got b AR P V. unfold reply. pose proof (AR b (on_wire (enc b)) P) as X. unfold send in *. rewrite V in *. specialize (X eq_refl).
    cbn [hear]. rewrite Z.eqb_refl, X. reflexivity.
  Qed.
End Hear.

(** ** What is listed is stored *)
Lemma items_of_in : forall A (t : atree A) ids i, In i (items_of t ids) -> In i (a_items t).
Proof.
  intros A t ids i H. unfold items_of in H. apply in_flat_map in H as (x & _ & H). destruct (find_item (a_items t) x) as [j|] eqn:E; [|contradiction].
  destruct H as [<-|[]]. apply find_item_some in E. apply E.
Qed.
Lemma query_items_in : forall A (t : atree A) q l, query_items t q = Some (Some l) -> incl l (a_items t).
Proof.
  intros A t q l H i HI. unfold query_items in H. destruct (negb _); [discriminate|]. destruct q as [|sel ors ands]; [discriminate|].
  assert (X : l = a_items t \/ exists ids, l = items_of t ids).
  { destruct sel, ors, ands; try (destruct (query t _) as [[ids|]|]; [|discriminate..]; inversion H; eauto). inversion H. auto. }
  destruct X as [->|[ids ->]]; [exact HI|]. eapply items_of_in, HI.
Qed.
Lemma iterate_from : forall A B (f : item A -> B) (l : list (item A)) acc x,
  In x (iterate (fun acc i => ((acc ++ [f i])%list, true)) acc l) -> In x acc \/ exists i, In i l /\ x = f i.
Proof.
  induction l as [|i l IH]; intros acc x H; [left; exact H|]. cbn [iterate] in H. apply IH in H as [H|(j & HJ & ->)].
  - apply in_app_iff in H as [H|[<-|[]]]; [auto|]. right. exists i. split; [left; reflexivity|reflexivity].
  - right. exists j. split; [right; exact HJ|reflexivity].
Qed.
Lemma match_loop_from : forall A B (t : atree A) (f : item A -> B) ids acc x,
  In x (match_loop_items t (fun acc i => ((acc ++ [f i])%list, true)) acc ids) -> In x acc \/ exists i, In i (a_items t) /\ x = f i.
Proof.
  induction ids as [|id ids IH]; intros acc x H; [left; exact H|]. cbn [match_loop_items] in H.
  destruct (find_item (a_items t) id) as [i|] eqn:E; [|auto]. apply find_item_some in E as [HI _].
  apply IH in H as [H|(j & HJ & ->)]; [|eauto]. apply in_app_iff in H as [H|[<-|[]]]; eauto.
Qed.
Lemma query_from : forall A B (t : atree A) (f : item A -> B) q l x, QueryAction t q (fun acc i => ((acc ++ [f i])%list, true)) [] = Some (Some l) -> In x l ->
  exists i, In i (a_items t) /\ x = f i.
Proof.
  intros A B t f q l x H HI. unfold QueryAction in H. destruct (query_items t q) as [[l0|]|] eqn:E; [|discriminate..]. inversion H; subst l.
  apply iterate_from in HI as [[]|(i & Hi & ->)]. exists i. split; [|reflexivity]. eapply query_items_in; eassumption.
Qed.
Lemma match_from : forall A B (t : atree A) (f : item A -> B) m l x, MatchAction t m (fun acc i => ((acc ++ [f i])%list, true)) [] = Some (Some l) -> In x l ->
  exists i, In i (a_items t) /\ x = f i.
Proof.
  intros A B t f m l x H HI. unfold MatchAction in H. destruct (match_ids _ m) as [[ids|]|]; [|discriminate..]. inversion H; subst l.
  apply match_loop_from in HI as [[]|HI]. exact HI.
Qed.
Lemma otm_query_from : forall A B (o : otm A) rid (f : many A -> B) q l x,
  OtmQueryAction o rid q (fun acc i => ((acc ++ [f i])%list, true)) [] = Some (Some l) -> In x l -> exists i, In i (belongings o rid) /\ x = f i.
Proof.
  intros A B o rid f q l x H HI. unfold OtmQueryAction in H. unfold belongings. destruct (negb _); [discriminate|]. destruct (String.eqb _ _); [discriminate|].
  destruct (otm_get o rid) as [t|]; [|inversion H; subst; contradiction].
  destruct (QueryAction t q _ []) as [[r|]|] eqn:E; [|discriminate..]. inversion H; subst r.
  apply (query_from _ _ t (fun i => f (it_val i))) with (x := x) in E as (i & Hi & ->); [|exact HI]. exists (it_val i). split; [apply in_map, Hi|reflexivity].
Qed.
Lemma otm_match_from : forall A B (o : otm A) rid (f : many A -> B) m l x,
  OtmMatchAction o rid m (fun acc i => ((acc ++ [f i])%list, true)) [] = Some (Some l) -> In x l -> exists i, In i (belongings o rid) /\ x = f i.
Proof.
  intros A B o rid f m l x H HI. unfold OtmMatchAction in H. unfold belongings. destruct (String.eqb _ _); [discriminate|]. destruct (negb _); [discriminate|].
  destruct (otm_get o rid) as [t|]; [|inversion H; subst; contradiction].
  destruct (MatchAction t m _ []) as [[r|]|] eqn:E; [|discriminate..]. inversion H; subst r.
  apply (match_from _ _ t (fun i => f (it_val i))) with (x := x) in E as (i & Hi & ->); [|exact HI]. exists (it_val i). split; [apply in_map, Hi|reflexivity].
Qed.

Lemma check_answers : forall counts kv l, check_all counts kv l = LDone \/ check_all counts kv l = LConflict \/ check_all counts kv l = LFailed.
Proof.
  induction l as [|[keys limit] l IH]; [auto|]. cbn [check_all]. destruct (limit =? -1)%Z; [exact IH|]. destruct (checkCounters _ _ _ _) as [[]|]; auto.
Qed.
Lemma decide_answers : forall s kv locked, decide s kv locked = LDone \/ decide s kv locked = LConflict \/ decide s kv locked = LFailed.
Proof.
  intros s kv locked. unfold decide. destruct (FindLimits s kv) as [[|r l]|]; auto. destruct (last_is_zero _); auto. destruct (all_unlimited _); auto.
  destruct locked; auto. apply check_answers.
Qed.
(** ** What is new *)
Lemma create_id : forall A (t t' : atree A) kv id mk i, Create t kv id mk = (t', RId i) -> i = id.
Proof.
  intros A t t' kv id mk i H. unfold Create in H. destruct (negb _); [discriminate|]. destruct (prepare _ _) as [ix ids].
  assert (X : forall ix', store t ix' kv id mk REmpty = (t', RId i) -> i = id).
  { intros ix' E. unfold store in E. destruct mk as [a|]; [|discriminate]. destruct (find_item _ _); inversion E; reflexivity. }
  destruct ids as [[|a [|b l]]|]; [eapply X, H|discriminate|eapply X, H|eapply X, H].
Qed.
Lemma rules_new : forall s used kv id limit j, linv s used -> kv_arg kv -> ~ In id used ->
  In j (a_items (fst (Create (l_rules s) kv id (Some limit)))) -> In j (a_items (l_rules s)) \/ j = mkItem id kv limit.
Proof.
  intros s used kv id limit j L HA NU. destruct (li_rules s used L) as (u & R & I). destruct (areach_inv _ u R) as [AI _].
  destruct (c20_create (l_rules s) u kv id (Some limit) R HA (fun X => NU (I _ X))) as (C1 & C2 & C3 & _).
  destruct (kv_validate kv MinDataType MaxDataType) eqn:V.
  - destruct (validate_rep kv HA V) as [RP NEK]. apply kv_valid_iff in V. destruct (holds_dec _ kv AI RP NEK) as [H | H].
    + destruct (C2 V H) as [_ ->]. tauto.
    + destruct (C3 V H limit eq_refl) as [_ ->]. rewrite in_app_iff. cbn. intuition.
  - apply kv_invalid_iff in V. rewrite (C1 V). cbn. tauto.
Qed.
Lemma overrides_new : forall s used r kv id limit, linv s used -> kv_arg kv -> ~ In id used -> id <> "" -> In r (a_items (l_rules s)) ->
  let x := OtmCreateOrFind (l_over s) (it_id r) kv id (Some limit) in
  (forall i, snd x = RId i -> i = id) /\
  forall o j, In j (belongings (fst x) o) -> In j (belongings (l_over s) o) \/ j = mkMany limit (it_id r) id kv.
Proof.
  intros s used r kv id limit L HA NU NE HR x. subst x. set (rid := it_id r). destruct (li_over s used L) as (w & RW & IW).
  assert (NR : rid <> EmptyString) by (destruct (li_rules s used L) as (u & RU & _); destruct (areach_inv _ u RU) as [_ U]; apply (U r HR)).
  assert (OTH : forall o, o <> rid -> belongings (fst (OtmCreateOrFind (l_over s) rid kv id (Some limit))) o = belongings (l_over s) o).
  { intros o N. apply (c25_isolated (l_over s) w (OCreateOrFind rid kv id (Some limit)) o RW). cbn. congruence. }
  assert (IT : (forall i, snd (OtmCreateOrFind (l_over s) rid kv id (Some limit)) = RId i -> i = id) /\
     forall i, In i (belongings (fst (OtmCreateOrFind (l_over s) rid kv id (Some limit))) rid) -> In i (belongings (l_over s) rid) \/ i = mkMany limit rid id kv).
  { destruct (kv_validate kv MinDataType MaxDataType) eqn:V.
    2: { apply kv_invalid_iff in V. rewrite (proj1 (c25_refused (l_over s) rid kv id (Some limit) (fun _ => true))) by auto. cbn. split; [discriminate|auto]. }
    apply kv_valid_iff in V. destruct (hasReservedKeys kv) eqn:EH.
    { apply reserved_iff in EH. rewrite (proj1 (c25_refused (l_over s) rid kv id (Some limit) (fun _ => true))) by auto. cbn. split; [discriminate|auto]. }
    assert (NRS : ~ reserved kv) by (intros X; apply reserved_iff in X; congruence).
    destruct (c25_create (l_over s) w rid kv id (Some limit) RW HA (fun X => NU (IW _ X)) NR V NRS) as [C1 C2].
    destruct (tree_of_ok (l_over s) w rid RW NR) as [(_ & (u & RU & _) & LB) EB]. destruct (areach_inv _ u RU) as [AI _].
    destruct (validate_rep kv HA (proj1 (kv_valid_iff kv) V)) as [RP NEK].
    destruct (holds_dec (tree_of (l_over s) rid) kv AI RP NEK) as [(it0 & H0 & HS0) | NH].
    - destruct (C1 (it_val it0)) as [(i0 & E0 & _) EQ]; [rewrite EB; apply in_map; exact H0|destruct (LB it0 H0) as (_ & _ & ->); exact HS0|]. rewrite EQ.
      split; [intros i X; congruence|auto].
    - destruct C2 as [EA EQ].
      + intros j Hj HS. rewrite EB in Hj. apply in_map_iff in Hj as (it1 & <- & Hj). apply NH. exists it1. split; [exact Hj|]. destruct (LB it1 Hj) as (_ & _ & <-). exact HS.
      + rewrite EQ. split; [intros i X; congruence|]. intros i Hi. apply in_app_iff in Hi as [Hi | [<- | []]]; auto. }
  split; [apply IT|]. intros o j Hj. destruct (string_dec o rid) as [-> | N]; [apply IT, Hj|]. rewrite OTH in Hj by exact N. auto.
Qed.

(** ** What is stored can be told *)
Section Main.
  Variable fmt_float : bool -> spec_float -> string.
  Variable parse_float : bool -> string -> option spec_float.
  Variable router : method -> string -> option lroute.
  Notation plain_kv := (plain_kv fmt_float parse_float).
  Notation plain_limiter := (plain_limiter fmt_float parse_float).
  Definition good_rule (r : ApiRule) : Prop := rule_ok r = true /\ plain_rule fmt_float parse_float r.
  Definition good_override (r : ApiOverride) : Prop := override_ok r = true /\ plain_override fmt_float parse_float r.
  Definition good_counter (r : ApiCounter) : Prop := counter_ok r = true /\ plain_counter fmt_float parse_float r.
  Lemma rule_model_good : forall id kv n, any_kv kv = true -> -1 <= n < 2 ^ 63 -> text id -> plain_kv kv -> good_rule (rule_model (id, kv, n)).
  Proof.
    intros id kv n V H T P. unfold good_rule, rule_ok, rule_model. cbn. unfold limit_spec_ok. cbn. rewrite V. unfold limit_ok. cbn.
    destruct (Z.ltb_spec n (-1)); [lia|]. split; [reflexivity|]. split; cbn; [|split; [exact T|constructor]].
    split; [exact P|]. cbn. unfold SpecModels.int64. lia.
  Qed.
  Lemma override_model_good : forall id kv n, any_kv kv = true -> -1 <= n < 2 ^ 63 -> text id -> plain_kv kv -> good_override (override_model (id, kv, n)).
  Proof.
    intros id kv n V H T P. unfold good_override, override_ok, override_model. cbn. unfold limit_spec_ok. cbn. rewrite V. unfold limit_ok. cbn.
    destruct (Z.ltb_spec n (-1)); [lia|]. split; [reflexivity|]. split; cbn; [|exact T].
    split; [exact P|]. cbn. unfold SpecModels.int64. lia.
  Qed.
  Lemma counter_model_good : forall kv n, typed_kv kv = true -> SpecLimiter.int64 n -> plain_kv kv -> good_counter (counter_model (kv, n)).
  Proof.
    intros kv n V H P. unfold good_counter, counter_ok, counter_model. cbn. unfold counter_spec_ok. cbn. rewrite V.
    unfold SpecLimiter.int64 in H. split; [reflexivity|]. split; [exact P|]. cbn. unfold SpecModels.int64. lia.
  Qed.
  Lemma stored_rule_good : forall s used i, linv s used -> plain_limiter s -> In i (a_items (l_rules s)) -> good_rule (rule_model (it_id i, it_kv i, it_val i)).
  Proof.
    intros s used i L (P & _) HI. destruct (P i HI). destruct (rule_rep s used i L HI) as (R & N & _). apply rule_model_good; auto.
    - apply rep_validate; assumption.
    - apply (li_limit s used L), HI.
  Qed.
  Lemma stored_override_good : forall s used rid i, linv s used -> plain_limiter s -> In i (belongings (l_over s) rid) -> good_override (override_model (m_id i, m_kv i, m_val i)).
  Proof.
    intros s used rid i L (_ & P & _) HI. destruct (P rid i HI). destruct (many_rep s used rid i L HI) as (R & N). apply override_model_good; auto.
    - apply rep_validate; assumption.
    - apply (li_olimit s used L rid), HI.
  Qed.
  Lemma stored_counter_good : forall s used i, linv s used -> plain_limiter s -> In i (a_items (l_counts s)) -> good_counter (counter_model (it_kv i, it_val i)).
  Proof.
    intros s used i L (_ & _ & P) HI. destruct (li_count s used L i HI) as [C V]. apply counter_model_good; auto.
    apply counter_kv_iff; [apply C|exact C].
  Qed.

  (** ** A call gets to its function *)
  Definition task_of (c : limiter_call) : option ltask :=
    match c with
    | CallCreateRule r => option_map (fun '(kv, l) => TCreateRule kv l) (limit_spec (ar_spec r))
    | CallGetRule rid => Some (TGetRule rid)
    | CallQueryRules q => Some (TQueryRules (told q))
    | CallMatchRules m => Some (TMatchRules m)
    | CallUpdateRule rid l => option_map (TUpdateRule rid) l
    | CallDeleteRule rid => Some (TDeleteRule rid)
    | CallCreateOverride rid o => option_map (fun '(kv, l) => TCreateOverride rid kv l) (limit_spec (ao_spec o))
    | CallQueryOverrides rid q => Some (TQueryOverrides rid (told q))
    | CallMatchOverrides rid m => Some (TMatchOverrides rid m)
    | CallGetOverride rid oid => Some (TGetOverride rid oid)
    | CallUpdateOverride rid oid l => option_map (TUpdateOverride rid oid) l
    | CallDeleteOverride rid oid => Some (TDeleteOverride rid oid)
    | CallUpdateCounter x => option_map (fun '(kv, l) => TUpsertCounters kv l) (counter_spec (an_spec x))
    | CallQueryCounters q => Some (TQueryCounters (told q))
    | CallSetCounters x => option_map (fun '(kv, l) => TSetCounters kv l) (counter_spec (an_spec x))
    end.
  (** A validated model has all that the handlers use *)
  Lemma limit_spec_some : forall o, needed limit_spec_ok o = true -> exists kv l, limit_spec o = Some (kv, l) /\ any_kv kv = true /\ -1 <= l /\
    (when (plain_limit_spec fmt_float parse_float) o -> plain_kv kv /\ SpecModels.int64 l).
  Proof.
    intros [[[kv|] [[l|]|]]|] H; try discriminate; cbn in H; unfold limit_spec_ok in H; cbn in H; try (rewrite andb_false_r in H; discriminate).
    apply andb_true_iff in H as [V H]. exists kv, l. split; [reflexivity|]. split; [exact V|]. split.
    - apply negb_true_iff, Z.ltb_ge in H. exact H.
    - intros [P Q]. auto.
  Qed.
  Lemma counter_spec_some : forall o, needed counter_spec_ok o = true -> exists kv l, counter_spec o = Some (kv, l) /\ typed_kv kv = true /\
    (when (fun s => when plain_kv (cs_db s) /\ when (when SpecModels.int64) (cs_props s)) o -> plain_kv kv /\ SpecModels.int64 l).
  Proof.
    intros [[[kv|] [[l|]|]]|] H; try discriminate; cbn in H; unfold counter_spec_ok in H; cbn in H; try (rewrite andb_false_r in H; discriminate).
    apply andb_true_iff in H as [V H]. exists kv, l. split; [reflexivity|]. split; [exact V|]. intros [P Q]. auto.
  Qed.
  Lemma sent_valid : forall A (valid : A -> bool) enc a body, send valid enc a = Some body -> valid a = true.
  Proof. intros A valid enc a body H. unfold send in H. destruct (valid a); [reflexivity|discriminate]. Qed.
  Lemma limit_some : forall l, limit_ok l = true -> exists z, l = Some z /\ -1 <= z.
  Proof. intros [z|] H; [|discriminate]. cbn in H. apply negb_true_iff, Z.ltb_ge in H. eauto. Qed.

  Hypothesis HR : limiter_router router.
  Lemma segment_of : forall id, addressable id -> segment id.
  Proof. intros id [H _]. exact H. Qed.
  Ltac asked :=
    match goal with
    | H : tell _ _ _ ?u _ = Some _ |- _ =>
        let body := fresh "body" in let S := fresh "S" in
        apply tell_safe in H as (body & S & ->); [|solve [unfold override_url, overrides_url, rule_url, rules_url, counters_url; safe_url]]
    | H : ask _ ?u _ = Some _ |- _ =>
        rewrite ask_safe in H by (unfold override_url, overrides_url, rule_url, rules_url, counters_url; safe_url); inversion H; subst; clear H
    end.
  Lemma dispatched : forall c r, lask fmt_float c = Some r -> plain_limiter_call fmt_float parse_float c -> reachable_ids c ->
    exists rt t, router (rq_method r) (rq_path r) = Some rt /\ task_of c = Some t /\ lhandler parse_float rt (rq_body r) = Run t.
  Proof.
    intros c r H P (RI & OI & Q). destruct HR as (R1 & R2 & R3 & R4 & R5 & R6 & RR).
    destruct (c78_limiter fmt_float parse_float) as (A1 & A2 & A3 & A4 & A5).
    destruct c as [x|rid|q|m|rid l|rid|rid o|rid q|rid m|rid oid|rid oid l|rid oid|x|q|x]; cbn [lask plain_limiter_call rid_of oid_of when task_of] in *;
      asked; cbn [rq_method rq_path rq_body];
      try (destruct (RR rid (segment_of rid RI)) as (G1 & G2 & G3 & G4 & G5 & G6 & G7));
      try (destruct (G7 oid (segment_of oid OI)) as (O1 & O2 & O3)).
    all: unfold override_url, overrides_url, rule_url, rules_url, counters_url; rewrite ?string_app_assoc.
    all: try match goal with S : send q_validate _ _ = _ |- _ => apply (c78_query fmt_float parse_float) in S; [|exact P] end.
    all: try match goal with S : send mq_validate _ _ = _ |- _ => apply A5 in S; [|exact P] end.
    all: try match goal with S : send limit_ok _ ?l = _ |- _ =>
           let V := fresh "V" in pose proof (sent_valid _ _ _ _ _ S) as V; apply A2 in S; [|exact P]; apply limit_some in V as (z & -> & _) end.
    all: try match goal with S : send counter_create_ok _ ?l = _ |- _ =>
           let V := fresh "V" in pose proof (sent_valid _ _ _ _ _ S) as V; apply A4 in S; [|exact P]; apply counter_spec_some in V as (kv & z & E & _ & _) end.
    all: try match goal with S : send rule_ok _ ?l = _ |- _ =>
           let V := fresh "V" in pose proof (sent_valid _ _ _ _ _ S) as V; apply A1 in S; [|exact P]; apply rule_create_valid, limit_spec_some in V as (kv & z & E & _ & _) end.
    all: try match goal with S : send override_create_ok _ ?l = _ |- _ =>
           let V := fresh "V" in pose proof (sent_valid _ _ _ _ _ S) as V; apply A3 in S; [|exact P]; apply limit_spec_some in V as (kv & z & E & _ & _) end.
    all: do 2 eexists; split;
      [first [exact R1 | exact R2 | exact R3 | exact R4 | exact R5 | exact R6 | exact (G1 (proj1 Q) (proj2 Q)) | exact G2 | exact G3 | exact G4 | exact G5 | exact G6
             | exact (O1 (proj1 Q) (proj2 Q)) | exact O2 | exact O3]|].
    all: try (rewrite E; cbn [option_map]); (split; [reflexivity|]); cbn [lhandler]; try reflexivity; unfold reading, deref; rewrite S; try rewrite E; reflexivity.
  Qed.

  (** ** What the answers say *)
  Lemma rule_answer : forall good known a, good_rule a ->
    hear good known (model rule_ok (dec_rule parse_float) GotRule) (reply rule_ok (enc_rule fmt_float) good a) = Returned (GotRule a).
  Proof.
    intros good known a [V P]. destruct (c78_answers fmt_float parse_float) as (_ & _ & _ & _ & A & _). eapply hear_reply; eassumption.
  Qed.
  Lemma override_answer : forall good known a, good_override a ->
    hear good known (model override_ok (dec_override parse_float) GotOverride) (reply override_ok (enc_override fmt_float) good a) = Returned (GotOverride a).
  Proof.
    intros good known a [V P]. destruct (c78_answers fmt_float parse_float) as (_ & _ & _ & _ & _ & _ & A & _). eapply hear_reply; eassumption.
  Qed.
  Lemma all_needed : forall A (v : A -> bool) (P : A -> Prop) (l : list A), Forall (fun a => v a = true /\ P a) l ->
    list_ok v (map Some l) = true /\ Forall (when P) (map Some l).
  Proof.
    intros A v P l F. induction F as [|a l [V Pa] F [IH1 IH2]]; [split; [reflexivity|constructor]|]. unfold list_ok in *. cbn. rewrite V, IH1. split; [reflexivity|constructor; assumption].
  Qed.
  Lemma rules_answer : forall known l, Forall (fun f => good_rule (rule_model f)) l ->
    hear 200 known (model (list_ok rule_ok) (slice (pointee (dec_rule parse_float))) GotRules) (listed rule_ok (enc_rule fmt_float) rule_model (Some (Some l))) = Returned (rules_of l).
  Proof.
    intros known l F. destruct (c78_answers fmt_float parse_float) as (_ & _ & _ & _ & _ & A & _). unfold listed, rules_of, model. change shown_rule with rule_model.
    replace (map (fun b => Some (rule_model b)) l) with (map Some (map rule_model l)) by apply map_map.
    destruct (all_needed _ rule_ok (plain_rule fmt_float parse_float) (map rule_model l)) as [V P]; [apply Forall_map; exact F|]. eapply hear_reply; eassumption.
  Qed.
  Lemma overrides_answer : forall known l, Forall (fun f => good_override (override_model f)) l ->
    hear 200 known (model (list_ok override_ok) (slice (pointee (dec_override parse_float))) GotOverrides) (listed override_ok (enc_override fmt_float) override_model (Some (Some l))) = Returned (overrides_of l).
  Proof.
    intros known l F. destruct (c78_answers fmt_float parse_float) as (_ & _ & _ & _ & _ & _ & _ & A & _). unfold listed, overrides_of, model. change shown_override with override_model.
    replace (map (fun b => Some (override_model b)) l) with (map Some (map override_model l)) by apply map_map.
    destruct (all_needed _ override_ok (plain_override fmt_float parse_float) (map override_model l)) as [V P]; [apply Forall_map; exact F|]. eapply hear_reply; eassumption.
  Qed.
  Lemma counters_answer : forall known l, Forall (fun f => good_counter (counter_model f)) l ->
    hear 200 known (model (list_ok counter_ok) (slice (pointee (dec_counter parse_float))) GotCounters) (listed counter_ok (enc_counter fmt_float) counter_model (Some (Some l))) = Returned (counters_of l).
  Proof.
    intros known l F. destruct (c78_answers fmt_float parse_float) as (_ & _ & _ & _ & _ & _ & _ & _ & A & _). unfold listed, counters_of, model. change shown_counter with counter_model.
    replace (map (fun b => Some (counter_model b)) l) with (map Some (map counter_model l)) by apply map_map.
    destruct (all_needed _ counter_ok (plain_counter fmt_float parse_float) (map counter_model l)) as [V P]; [apply Forall_map; exact F|]. eapply hear_reply; eassumption.
  Qed.

  Definition outcome (s : limiter) (c : limiter_call) (id : string) (locked : bool) (s' : limiter) (r : result limiter_result) : Prop :=
    let '(t, v) := direct s c id locked in s' = t /\ match v with Some x => r = Returned x | None => told_why s c r end.
  Lemma missing_rule : forall s used rid, linv s used -> find_rule s rid = Some None -> rule_missing s rid.
  Proof.
    intros s used rid L H kv n HI. rewrite (find_rule_spec s used rid L) in H. inversion H as [H1]. apply (proj1 (find_item_none _ _) H1).
    apply (in_map it_id) in HI. exact HI.
  Qed.
  Ltac refused := solve [left; apply hear_message; [discriminate|cbn; tauto]].
  Lemma performed : forall s used c t id locked, linv s used -> plain_limiter s -> task_of c = Some t ->
    plain_limiter_call fmt_float parse_float c -> when kv_arg (call_kv c) -> lask fmt_float c <> None -> text id -> id <> "" -> ~ In id used -> 
    outcome s c id locked (fst (lperform fmt_float s t id locked)) (lhear parse_float c (snd (lperform fmt_float s t id locked))).
  Proof.
    intros s used c t id locked L PL T PC CK AC TI NI NU. unfold outcome.
    destruct c as [x|rid|q|m|rid l|rid|rid o|rid q|rid m|rid oid|rid oid l|rid oid|x|q|x]; cbn [task_of direct lhear lask plain_limiter_call call_kv] in *;
      change given_limit with limit_spec in *; change given_count with counter_spec in *; change shown_rule with rule_model in *; change shown_override with override_model in *.
    - (* CreateRule *)
      destruct (limit_spec (ar_spec x)) as [[kv n]|] eqn:E; [|discriminate]. inversion T; subst t. cbn [lperform accepted].
      assert (V : rule_ok x = true) by (unfold tell, send in AC; destruct (rule_ok x); [reflexivity|contradiction AC; reflexivity]).
      destruct (limit_spec_some _ (rule_create_valid _ V)) as (kv' & n' & E' & VK & VN & PK). rewrite E in E'. inversion E'; subst kv' n'. destruct (PK (proj1 PC)) as [PK1 PK2].
      unfold accepted. destruct (CreateRule s kv id n) as [s' a] eqn:EC. cbn [fst snd]. split; [reflexivity|].
      destruct a as [i| | | | | ]; try refused.
      2: { exfalso. unfold CreateRule in EC. destruct (negb _); [discriminate|]. destruct (Create _ _ _ _) as [t []]; discriminate. }
      apply rule_answer. apply rule_model_good; auto; [unfold SpecModels.int64 in PK2; lia|].
      unfold CreateRule in EC. destruct (negb _); [discriminate|]. destruct (Create _ _ _ _) as [t r] eqn:EQ. inversion EC as [[H0 H1]].
      destruct r; try discriminate. inversion H1; subst. apply create_id in EQ. subst. exact TI.
    - (* GetRule *)
      inversion T; subst t. cbn [lperform]. split; [reflexivity|]. cbn [snd]. unfold GetRule. rewrite (find_rule_spec s used rid L).
      destruct (find_item _ rid) as [i|] eqn:EI; [|refused]. apply find_item_some in EI as [HI <-]. apply rule_answer. eapply stored_rule_good; eassumption.
    - (* QueryRules *)
      inversion T; subst t. cbn [lperform]. split; [reflexivity|]. cbn [snd]. destruct (QueryRules s (told q)) as [[l|]|] eqn:EQ; cbn [list_of].
      + apply rules_answer. apply Forall_forall. intros f HF. unfold QueryRules, found_all in EQ.
        destruct (query_from _ _ _ (fun i => (it_id i, it_kv i, it_val i)) _ _ f EQ HF) as (i & Hi & ->). eapply stored_rule_good; eassumption.
      + cbn [listed]. refused.
      + right. split; [reflexivity|]. exact EQ.
    - (* MatchRules *)
      inversion T; subst t. cbn [lperform]. split; [reflexivity|]. cbn [snd]. destruct (MatchRules s m) as [[l|]|] eqn:EQ; cbn [list_of].
      + apply rules_answer. apply Forall_forall. intros f HF. unfold MatchRules, found_all in EQ.
        destruct (match_from _ _ _ (fun i => (it_id i, it_kv i, it_val i)) _ _ f EQ HF) as (i & Hi & ->). eapply stored_rule_good; eassumption.
      + cbn [listed]. refused.
      + right. split; [reflexivity|]. exact EQ.
    - (* UpdateRule *)
      destruct l as [z|]; [|discriminate]. inversion T; subst t. cbn [lperform]. unfold accepted. destruct (UpdateRule s rid z) as [s' a]. cbn [fst snd]. split; [reflexivity|].
      destruct a; cbn [done refusal on_done]; solve [reflexivity | refused].
    - (* DeleteRule *)
      inversion T; subst t. cbn [lperform]. unfold accepted. destruct (DeleteRule s rid) as [s' a] eqn:ED. cbn [fst snd]. split; [reflexivity|].
      destruct a; cbn [done refusal on_done]; try solve [reflexivity | refused].
      + exfalso. unfold DeleteRule in ED. destruct (DestroyByAssociatedID _ _ _) as [t []]; try discriminate. destruct (find_item _ _); discriminate.
      + right. split; [reflexivity|]. unfold DeleteRule in ED. destruct (DestroyByAssociatedID _ _ _) as [t []]; try discriminate.
        destruct (find_item _ _) eqn:EF; [discriminate|]. apply (missing_rule s used rid L). rewrite (find_rule_spec s used rid L), EF. reflexivity.
    - (* CreateOverride *)
      destruct (limit_spec (ao_spec o)) as [[kv n]|] eqn:E; [|discriminate]. inversion T; subst t. cbn [lperform accepted].
      assert (V : override_create_ok o = true) by (unfold tell, send in AC; destruct (override_create_ok o); [reflexivity|contradiction AC; reflexivity]).
      destruct (limit_spec_some _ V) as (kv' & n' & E' & VK & VN & PK). rewrite E in E'. inversion E'; subst kv' n'. destruct (PK (proj1 PC)) as [PK1 PK2].
      unfold accepted. destruct (CreateOverride s rid kv id n) as [s' a] eqn:EC. cbn [fst snd]. split; [reflexivity|].
      destruct a as [i| | | | | ]; try refused.
      apply override_answer. apply override_model_good; auto; [unfold SpecModels.int64 in PK2; lia|].
      unfold CreateOverride in EC. destruct (negb _); [discriminate|]. rewrite (find_rule_spec s used rid L) in EC. destruct (find_item _ rid) as [r|] eqn:EF; [|discriminate].
      apply find_item_some in EF as [HI <-]. destruct (forallb _ _); [|discriminate].
      destruct (overrides_new s used r kv id n L CK NU NI HI) as [ON _]. destruct (OtmCreateOrFind _ _ _ _ _) as [m r0]. cbn [snd] in ON.
      inversion EC as [[H0 H1]]. destruct r0; try discriminate. inversion H1; subst. rewrite (ON _ eq_refl). exact TI.
    - (* QueryOverrides *)
      inversion T; subst t. cbn [lperform]. split; [reflexivity|]. cbn [snd]. destruct (QueryOverrides s rid (told q)) as [a|r] eqn:EQ; unfold QueryOverrides, with_rule in EQ.
      + destruct (find_rule s rid) as [[i|]|] eqn:EF; inversion EQ; subst a; [|refused].
        right. split; [reflexivity|]. left. eapply missing_rule; eassumption.
      + destruct (find_rule s rid) as [[i|]|] eqn:EF; [|discriminate..]. injection EQ as EQ. destruct r as [[l|]|]; cbn [list_of].
        * apply overrides_answer. apply Forall_forall. intros f HF. unfold found_over in EQ.
          destruct (otm_query_from _ _ _ _ (fun i => (m_id i, m_kv i, m_val i)) _ _ f EQ HF) as (j & Hj & ->). eapply stored_override_good; eassumption.
        * cbn [listed]. refused.
        * right. split; [reflexivity|]. right. unfold QueryOverrides, with_rule. rewrite EF, EQ. reflexivity.
    - (* MatchOverrides *)
      inversion T; subst t. cbn [lperform]. split; [reflexivity|]. cbn [snd]. destruct (MatchOverrides s rid m) as [a|r] eqn:EQ; unfold MatchOverrides, with_rule in EQ.
      + destruct (find_rule s rid) as [[i|]|] eqn:EF; inversion EQ; subst a; [|refused].
        right. split; [reflexivity|]. left. eapply missing_rule; eassumption.
      + destruct (find_rule s rid) as [[i|]|] eqn:EF; [|discriminate..]. injection EQ as EQ. destruct r as [[l|]|]; cbn [list_of].
        * apply overrides_answer. apply Forall_forall. intros f HF. unfold found_over in EQ.
          destruct (otm_match_from _ _ _ _ (fun i => (m_id i, m_kv i, m_val i)) _ _ f EQ HF) as (j & Hj & ->). eapply stored_override_good; eassumption.
        * cbn [listed]. refused.
        * right. split; [reflexivity|]. right. unfold MatchOverrides, with_rule. rewrite EF, EQ. reflexivity.
    - (* GetOverride *)
      inversion T; subst t. cbn [lperform]. split; [reflexivity|]. cbn [snd]. unfold GetOverride. rewrite (find_rule_spec s used rid L).
      destruct (find_item _ rid) as [r|] eqn:EI; [|refused]. apply find_item_some in EI as [HI <-]. destruct (rule_rep s used r L HI) as (_ & _ & NR).
      destruct (find_override_spec s used (it_id r) oid L NR) as (j & EJ & HJ). rewrite EJ.
      destruct j as [j|]; [|refused]. destruct HJ as [HJ <-]. apply override_answer. eapply stored_override_good; eassumption.
    - (* UpdateOverride *)
      destruct l as [z|]; [|discriminate]. inversion T; subst t. cbn [lperform]. unfold accepted. destruct (UpdateOverride s rid oid z) as [s' a]. cbn [fst snd]. split; [reflexivity|].
      destruct a; cbn [done refusal on_done]; solve [reflexivity | refused].
    - (* DeleteOverride *)
      inversion T; subst t. cbn [lperform]. unfold accepted. destruct (DeleteOverride s rid oid) as [s' a] eqn:ED. cbn [fst snd]. split; [reflexivity|].
      destruct a; cbn [done refusal on_done]; try solve [reflexivity | refused].
      exfalso. unfold DeleteOverride in ED. destruct (find_rule s rid) as [[i|]|]; try discriminate. destruct (OtmDestroyByID _ _ _ _) as [t []]; discriminate.
    - (* UpdateCounter *)
      destruct (counter_spec (an_spec x)) as [[kv n]|] eqn:E; [|discriminate]. inversion T; subst t. cbn [lperform]. unfold accepted.
      destruct (UpsertCounters s kv n id locked) as [s' a] eqn:EU. cbn [fst snd]. split; [reflexivity|].
      destruct a; cbn [done refusal on_done]; try solve [reflexivity | refused]. exfalso.
      unfold UpsertCounters, IncrementCounters, DecrementCounters in EU. destruct (negb _); [discriminate|].
      destruct (0 <? n)%Z.
      + pose proof (decide_answers s kv locked) as D. destruct (decide s kv locked); try discriminate; [|destruct D as [D|[D|D]]; discriminate].
        unfold add_count in EU. destruct (CreateOrFind _ _ _ _) as [t []]; discriminate.
      + destruct (Delete _ _ _) as [t []]; discriminate.
    - (* QueryCounters *)
      inversion T; subst t. cbn [lperform]. split; [reflexivity|]. cbn [snd]. unfold QueryCounters.
      match goal with |- context[QueryAction ?a ?b ?c ?d] => destruct (QueryAction a b c d) as [[l|]|] eqn:EQ end; cbn [option_map].
      + apply counters_answer. apply Forall_forall. intros f HF.
        destruct (query_from _ _ _ (fun i => (it_kv i, it_val i)) _ _ f EQ HF) as (i & Hi & ->). eapply stored_counter_good; eassumption.
      + refused.
      + right. split; [reflexivity|]. unfold unheard, QueryCounters. rewrite EQ. reflexivity.
    - (* SetCounters *)
      destruct (counter_spec (an_spec x)) as [[kv n]|] eqn:E; [|discriminate]. inversion T; subst t. cbn [lperform]. unfold accepted.
      destruct (SetCounters s kv n id) as [s' a] eqn:EU. cbn [fst snd]. split; [reflexivity|].
      destruct a; cbn [done refusal on_done]; try solve [reflexivity | refused].
      all: exfalso; unfold SetCounters in EU; destruct (negb _); [discriminate|]; destruct (n <=? 0)%Z; [destruct (Delete _ _ _) as [t []]; discriminate|].
      all: destruct (CreateOrFind _ _ _ _) as [t []]; discriminate.
  Qed.

  (** ** Histories *)
  Definition over_plain (m : otm Z) : Prop := forall rid i, In i (belongings m rid) -> text (m_id i) /\ plain_kv (m_kv i).
  Lemma over_update_plain : forall s used rid id f, linv s used -> over_plain (l_over s) -> over_plain (otm_update (l_over s) rid id f).
  Proof.
    intros s used rid id f L P. destruct (li_over s used L) as (w & RW & IW). destruct (c25_update (l_over s) w rid id f RW) as [RW' IT].
    intros o i Hi. destruct (string_dec o rid) as [-> | N].
    - apply IT in Hi as [[Hi _] | (j & Hj & <- & ->)]; [eapply P, Hi|]. cbn [m_id m_kv]. exact (P _ _ Hj).
    - change (otm_update (l_over s) rid id f) with (fst (orun (l_over s) (OUpdate rid id f))) in Hi.
      rewrite (c25_isolated (l_over s) w (OUpdate rid id f) o RW) in Hi by (cbn; congruence). eapply P, Hi.
  Qed.
  Lemma over_destroy_plain : forall s used rid id, linv s used -> rid <> "" -> over_plain (l_over s) -> over_plain (fst (OtmDestroyByID (l_over s) rid id (fun _ => true))).
  Proof.
    intros s used rid id L NR P. destruct (string_dec id EmptyString) as [-> | NE].
    { rewrite (proj1 (proj2 (proj2 (c25_refused (l_over s) rid [] EmptyString None (fun _ => true)))) (or_intror eq_refl)). exact P. }
    destruct (li_over s used L) as (w & RW & IW). destruct (c25_destroy_id (l_over s) w rid id (fun _ => true) RW NR NE) as [_ IT].
    intros o i Hi. destruct (string_dec o rid) as [-> | N]; [apply IT in Hi as [Hi _]; eapply P, Hi|].
    change (OtmDestroyByID (l_over s) rid id (fun _ => true)) with (orun (l_over s) (ODestroyByID rid id (fun _ => true))) in Hi.
    rewrite (c25_isolated (l_over s) w (ODestroyByID rid id (fun _ => true)) o RW) in Hi by (cbn; congruence). eapply P, Hi.
  Qed.
  Lemma over_destroy_one_plain : forall s used rid, linv s used -> rid <> "" -> over_plain (l_over s) -> over_plain (fst (OtmDestroyOne (l_over s) rid (fun _ => true))).
  Proof.
    intros s used rid L NE P. destruct (li_over s used L) as (w & RW & IW). intros o i Hi. destruct (string_dec o rid) as [-> | N].
    - destruct (c25_destroy_one (l_over s) w rid (fun _ => true) RW NE) as (_ & gone & rest & _ & _ & HRR & H). rewrite H in Hi. destruct rest; [|discriminate]. destruct Hi.
    - change (OtmDestroyOne (l_over s) rid (fun _ => true)) with (orun (l_over s) (ODestroyOne rid (fun _ => true))) in Hi.
      rewrite (c25_isolated (l_over s) w (ODestroyOne rid (fun _ => true)) o RW) in Hi by (cbn; congruence). eapply P, Hi.
  Qed.
  Definition counts_plain (t : atree Z) : Prop := forall i, In i (a_items t) -> plain_kv (it_kv i).
  Lemma step_plain : forall t t' kv o new, counter_step t t' kv o new -> counts_plain t -> (forall i, new = Some i -> plain_kv (it_kv i)) -> counts_plain t'.
  Proof. intros t t' kv o new S P N i Hi. apply (step_in _ _ _ _ _ S) in Hi as [[Hi _] | ->]; [apply P, Hi|auto]. Qed.
  Lemma upsert_plain : forall s used kv n id locked, linv s used -> kv_arg kv -> plain_kv kv -> ~ In id used -> id <> "" -> plain_limiter s ->
    plain_limiter (fst (UpsertCounters s kv n id locked)).
  Proof.
    intros s used kv n id locked L HA PK NU NE (P1 & P2 & P3). unfold UpsertCounters.
    destruct (kv_validate kv MinDataType MaxWithoutAnyDataType) eqn:V; cbn [negb]; [|split; [exact P1|split; [exact P2|exact P3]]].
    apply (counter_kv_iff kv HA) in V. destruct (li_counts s used L) as (u & R & I). destruct (held_ex (l_counts s) u kv R V) as (o & H).
    assert (K : forall t', counts_plain t' -> plain_limiter (with_counts s t')) by (intros t' C; split; [exact P1|split; [exact P2|exact C]]).
    destruct (0 <? n)%Z.
    - unfold IncrementCounters. destruct (decide s kv locked); try (split; [exact P1|split; [exact P2|exact P3]]).
      destruct (inc_at (l_counts s) u kv n id R V (fun X => NU (I _ X)) NE o H) as (t' & u' & new & E & R' & I' & S & V1 & V2 & V3). rewrite E. apply K.
      eapply step_plain; [exact S|exact P3|]. intros i [= <-]. rewrite V1. destruct o as [i|]; [exact (P3 _ (proj1 H))|exact PK].
    - destruct (dec_at s u kv n R V o H) as (t' & E & R' & S). rewrite E. apply K. eapply step_plain; [exact S|exact P3|].
      intros i Ei. unfold dec_result in Ei. destruct o as [j|]; [|discriminate]. destruct (_ <=? _)%Z; [discriminate|]. injection Ei as <-. exact (P3 _ (proj1 H)).
  Qed.
  Lemma set_plain : forall s used kv n id, linv s used -> kv_arg kv -> plain_kv kv -> ~ In id used -> id <> "" -> plain_limiter s ->
    plain_limiter (fst (SetCounters s kv n id)).
  Proof.
    intros s used kv n id L HA PK NU NE (P1 & P2 & P3).
    destruct (kv_validate kv MinDataType MaxWithoutAnyDataType) eqn:V.
    2: { unfold SetCounters. rewrite V. split; [exact P1|split; [exact P2|exact P3]]. }
    apply (counter_kv_iff kv HA) in V. destruct (li_counts s used L) as (u & R & I). destruct (held_ex (l_counts s) u kv R V) as (o & H).
    destruct (set_at s u kv n id R V (fun X => NU (I _ X)) NE o H) as (t' & u' & E & R' & I' & S). rewrite E. split; [exact P1|split; [exact P2|]].
    eapply step_plain; [exact S|exact P3|]. intros i Ei. unfold set_result in Ei. destruct (n <=? 0)%Z; [discriminate|]. injection Ei as <-.
    destruct o as [j|]; [exact (P3 _ (proj1 H))|exact PK].
  Qed.
  Lemma delete_rule_plain : forall s used rid, linv s used -> rid <> "" -> plain_limiter s -> plain_limiter (fst (DeleteRule s rid)).
  Proof.
    intros s used rid L NE (P1 & P2 & P3). destruct (li_rules s used L) as (u & R & I). destruct (c21_destroy_id (l_rules s) u rid (fun _ => true) R NE) as [_ IT].
    unfold DeleteRule. destruct (DestroyByAssociatedID (l_rules s) rid (fun _ => true)) as [t r]. cbn [fst] in IT.
    assert (Q1 : forall i, In i (a_items t) -> text (it_id i) /\ plain_kv (it_kv i)) by (intros i Hi; apply IT in Hi as [Hi _]; apply P1, Hi).
    destruct r; try (split; [exact Q1|split; [exact P2|exact P3]]).
    destruct (find_item _ _); [|split; [exact Q1|split; [exact P2|exact P3]]].
    split; [exact Q1|]. split; [|exact P3]. apply (over_destroy_one_plain s used rid L NE). exact P2.
  Qed.
  Lemma create_rule_plain : forall s used kv n id, linv s used -> kv_arg kv -> plain_kv kv -> text id -> ~ In id used -> plain_limiter s ->
    plain_limiter (fst (CreateRule s kv id n)).
  Proof.
    intros s used kv n id L HA PK TI NU (P1 & P2 & P3). unfold CreateRule. destruct (negb _); [split; [exact P1|split; [exact P2|exact P3]]|].
    pose proof (fun j => rules_new s used kv id n j L HA NU) as N. destruct (Create (l_rules s) kv id (Some n)) as [t r]. cbn [fst] in *.
    split; [|split; [exact P2|exact P3]]. intros i Hi. destruct (N i Hi) as [Ho| ->]; [apply P1, Ho|auto].
  Qed.
  Lemma update_rule_plain : forall s rid n, plain_limiter s -> plain_limiter (fst (UpdateRule s rid n)).
  Proof.
    intros s rid n P. unfold UpdateRule. destruct (n <? -1)%Z; [exact P|]. destruct (find_rule s rid) as [[i|]|]; try exact P.
    destruct P as (P1 & P2 & P3). split; [|split; [exact P2|exact P3]]. intros j Hj. cbn [fst with_rules l_rules] in Hj.
    apply in_update_value in Hj as [[Hj _] | (j' & Hj & <- & ->)]; [apply P1, Hj|]. exact (P1 _ Hj).
  Qed.
  Lemma create_override_plain : forall s used rid kv n id, linv s used -> kv_arg kv -> plain_kv kv -> text id -> ~ In id used -> id <> "" -> plain_limiter s ->
    plain_limiter (fst (CreateOverride s rid kv id n)).
  Proof.
    intros s used rid kv n id L HA PK TI NU NE P. unfold CreateOverride. destruct (negb _); [exact P|].
    rewrite (find_rule_spec s used rid L). destruct (find_item _ rid) as [r|] eqn:EF; [|exact P]. destruct (forallb _ _); [|exact P].
    apply find_item_some in EF as [HI <-]. destruct (overrides_new s used r kv id n L HA NU NE HI) as [_ N].
    destruct (OtmCreateOrFind _ _ _ _ _) as [m a]. cbn [fst] in *. destruct P as (P1 & P2 & P3). split; [exact P1|split; [|exact P3]].
    intros o i Hi. destruct (N o i Hi) as [Ho| ->]; [eapply P2, Ho|auto].
  Qed.
  Lemma update_override_plain : forall s used rid oid n, linv s used -> plain_limiter s -> plain_limiter (fst (UpdateOverride s rid oid n)).
  Proof.
    intros s used rid oid n L P. unfold UpdateOverride. destruct (n <? -1)%Z; [exact P|]. destruct (find_rule s rid) as [[r|]|]; try exact P.
    destruct (find_override s rid oid) as [[i|]|]; try exact P. destruct P as (P1 & P2 & P3). split; [exact P1|split; [|exact P3]].
    apply (over_update_plain s used); assumption.
  Qed.
  Lemma delete_override_plain : forall s used rid oid, linv s used -> rid <> "" -> plain_limiter s -> plain_limiter (fst (DeleteOverride s rid oid)).
  Proof.
    intros s used rid oid L NR P. unfold DeleteOverride. destruct (find_rule s rid) as [[r|]|]; try exact P.
    pose proof (over_destroy_plain s used rid oid L NR) as D. destruct (OtmDestroyByID _ _ _ _) as [m a]. destruct P as (P1 & P2 & P3).
    split; [exact P1|split; [|exact P3]]. exact (D P2).
  Qed.

  Definition reached (s : limiter) (used : list string) : Prop := plain_limiter s /\ exists u, lreach s u /\ incl u used.
  Lemma reached_more : forall s used id, reached s used -> reached s (id :: used).
  Proof. intros s used id (P & u & R & I). split; [exact P|]. exists u. split; [exact R|]. intros x Hx. right. auto. Qed.
  Lemma reached_step : forall s used x id, reached s used -> lop_arg x -> (lop_id x = Some id \/ lop_id x = None) -> ~ In id used -> id <> "" ->
    plain_limiter (fst (lrun s x)) -> reached (fst (lrun s x)) (id :: used).
  Proof.
    intros s used x id (P & u & R & I) HA HI NU NE P'. split; [exact P'|].
    exists (match lop_id x with Some id => id :: u | None => u end). split.
    - apply LR_step; [exact R|exact HA|]. intros id' E. destruct HI as [HI|HI]; rewrite HI in E; [|discriminate]. inversion E; subst id'. auto.
    - destruct HI as [-> | ->]; intros y Hy; [destruct Hy as [<-|Hy]; [left; reflexivity|right; auto]|right; auto].
  Qed.
  Lemma int64_same : forall z, SpecModels.int64 z -> SpecLimiter.int64 z.
  Proof. intros z H. unfold SpecModels.int64, SpecLimiter.int64 in *. lia. Qed.
  Lemma non_empty : forall id, addressable id -> id <> "".
  Proof. intros id ((H & _) & _). exact H. Qed.
  Lemma perform_reached : forall s used c t id locked, reached s used -> task_of c = Some t -> proper_call fmt_float parse_float c -> lask fmt_float c <> None ->
    text id -> id <> "" -> ~ In id used -> reached (fst (lperform fmt_float s t id locked)) (id :: used).
  Proof.
    intros s used c t id locked RS T (PC & (RI & OI & _) & CK) AC TI NI NU. pose proof RS as (PL & u & R & I). pose proof (lreach_inv s u R) as L.
    assert (NU' : ~ In id u) by (intros X; apply NU, I, X).
    destruct c as [x|rid|q|m|rid l|rid|rid o|rid q|rid m|rid oid|rid oid l|rid oid|x|q|x];
      cbn [task_of lask plain_limiter_call call_kv rid_of oid_of when] in *;
      change given_limit with limit_spec in *; change given_count with counter_spec in *; change shown_rule with rule_model in *; change shown_override with override_model in *; try (inversion T; subst t; apply reached_more; exact RS).
    - destruct (limit_spec (ar_spec x)) as [[kv n]|] eqn:E; [|discriminate]. inversion T; subst t.
      assert (V : rule_ok x = true) by (unfold tell, send in AC; destruct (rule_ok x); [reflexivity|contradiction AC; reflexivity]).
      destruct (limit_spec_some _ (rule_create_valid _ V)) as (kv' & n' & E' & VK & VN & PK). rewrite E in E'. inversion E'; subst kv' n'. destruct (PK (proj1 PC)) as [PK1 PK2].
      pose proof (reached_step s used (LCreateRule kv id n) id RS (conj CK (int64_same _ PK2)) (or_introl eq_refl) NU NI) as ST. cbn [lrun] in ST.
      pose proof (create_rule_plain s u kv n id L CK PK1 TI NU' PL) as CP. cbn [lperform]. destruct (CreateRule s kv id n) as [s' a]. apply ST, CP.
    - destruct l as [z|]; [|discriminate]. inversion T; subst t.
      pose proof (reached_step s used (LUpdateRule rid z) id RS (int64_same _ PC) (or_intror eq_refl) NU NI) as ST. cbn [lrun] in ST.
      pose proof (update_rule_plain s rid z PL) as CP. cbn [lperform]. destruct (UpdateRule s rid z) as [s' a]. apply ST, CP.
    - inversion T; subst t. pose proof (reached_step s used (LDeleteRule rid) id RS Logic.I (or_intror eq_refl) NU NI) as ST. cbn [lrun] in ST.
      pose proof (delete_rule_plain s u rid L (non_empty _ RI) PL) as CP. cbn [lperform]. destruct (DeleteRule s rid) as [s' a]. apply ST, CP.
    - destruct (limit_spec (ao_spec o)) as [[kv n]|] eqn:E; [|discriminate]. inversion T; subst t.
      assert (V : override_create_ok o = true) by (unfold tell, send in AC; destruct (override_create_ok o); [reflexivity|contradiction AC; reflexivity]).
      destruct (limit_spec_some _ V) as (kv' & n' & E' & VK & VN & PK). rewrite E in E'. inversion E'; subst kv' n'. destruct (PK (proj1 PC)) as [PK1 PK2].
      pose proof (reached_step s used (LCreateOverride rid kv id n) id RS (conj CK (int64_same _ PK2)) (or_introl eq_refl) NU NI) as ST. cbn [lrun] in ST.
      pose proof (create_override_plain s u rid kv n id L CK PK1 TI NU' NI PL) as CP. cbn [lperform]. destruct (CreateOverride s rid kv id n) as [s' a]. apply ST, CP.
    - destruct l as [z|]; [|discriminate]. inversion T; subst t.
      pose proof (reached_step s used (LUpdateOverride rid oid z) id RS (int64_same _ PC) (or_intror eq_refl) NU NI) as ST. cbn [lrun] in ST.
      pose proof (update_override_plain s u rid oid z L PL) as CP. cbn [lperform]. destruct (UpdateOverride s rid oid z) as [s' a]. apply ST, CP.
    - inversion T; subst t. pose proof (reached_step s used (LDeleteOverride rid oid) id RS Logic.I (or_intror eq_refl) NU NI) as ST. cbn [lrun] in ST.
      pose proof (delete_override_plain s u rid oid L (non_empty _ RI) PL) as CP. cbn [lperform]. destruct (DeleteOverride s rid oid) as [s' a]. apply ST, CP.
    - destruct (counter_spec (an_spec x)) as [[kv n]|] eqn:E; [|discriminate]. inversion T; subst t.
      assert (V : counter_create_ok x = true) by (unfold tell, send in AC; destruct (counter_create_ok x); [reflexivity|contradiction AC; reflexivity]).
      destruct (counter_spec_some _ V) as (kv' & n' & E' & VK & PK). rewrite E in E'. inversion E'; subst kv' n'. destruct (PK PC) as [PK1 PK2].
      pose proof (reached_step s used (LUpsert kv n id locked) id RS (conj CK (int64_same _ PK2)) (or_introl eq_refl) NU NI) as ST. cbn [lrun] in ST.
      pose proof (upsert_plain s u kv n id locked L CK PK1 NU' NI PL) as CP. cbn [lperform]. destruct (UpsertCounters s kv n id locked) as [s' a]. apply ST, CP.
    - destruct (counter_spec (an_spec x)) as [[kv n]|] eqn:E; [|discriminate]. inversion T; subst t.
      assert (V : counter_create_ok x = true) by (unfold tell, send in AC; destruct (counter_create_ok x); [reflexivity|contradiction AC; reflexivity]).
      destruct (counter_spec_some _ V) as (kv' & n' & E' & VK & PK). rewrite E in E'. inversion E'; subst kv' n'. destruct (PK PC) as [PK1 PK2].
      pose proof (reached_step s used (LSet kv n id) id RS (conj CK (int64_same _ PK2)) (or_introl eq_refl) NU NI) as ST. cbn [lrun] in ST.
      pose proof (set_plain s u kv n id L CK PK1 NU' NI PL) as CP. cbn [lperform]. destruct (SetCounters s kv n id) as [s' a]. apply ST, CP.
  Qed.
  Lemma served : forall s c r id locked, lask fmt_float c = Some r -> proper_call fmt_float parse_float c ->
    exists t, task_of c = Some t /\ lserve fmt_float parse_float router s r id locked = lperform fmt_float s t id locked.
  Proof.
    intros s c r id locked A (PC & RI & _). destruct (dispatched c r A PC RI) as (rt & t & E1 & E2 & E3). exists t. split; [exact E2|].
    unfold lserve. rewrite E1, E3. reflexivity.
  Qed.
  Lemma history_reached : forall s used, client_history fmt_float parse_float router s used -> reached s used.
  Proof.
    induction 1 as [|s used c id locked n H IH PC TI NI NU].
    - split; [split; [intros i []|split; [intros rid i []|intros i []]]|]. exists []. split; [constructor|apply incl_refl].
    - unfold limiter_exchange. destruct (lask fmt_float c) as [r|] eqn:A; [|apply reached_more, IH].
      destruct (served s c r id locked A PC) as (t & T & E).
      assert (X : reached (fst (lserve fmt_float parse_float router s r id locked)) (id :: used)).
      { rewrite E. apply (perform_reached s used c t); auto. congruence. }
      destruct n; [|apply reached_more, IH|exact X]. destruct (lserve _ _ _ _ _ _ _) as [s' a]. exact X.
  Qed.

  (** ** C79, C81, C82 *)
  Lemma limiter_works : forall s used c id locked, client_history fmt_float parse_float router s used -> proper_call fmt_float parse_float c ->
    lask fmt_float c <> None -> text id -> id <> "" -> ~ In id used ->
    outcome s c id locked (fst (limiter_exchange fmt_float parse_float router s c id locked Works)) (snd (limiter_exchange fmt_float parse_float router s c id locked Works)).
  Proof.
    intros s used c id locked H PC AC TI NI NU. destruct (history_reached s used H) as (PL & u & R & I). pose proof (lreach_inv s u R) as L.
    unfold limiter_exchange. destruct (lask fmt_float c) as [r|] eqn:A; [|contradiction]. destruct (served s c r id locked A PC) as (t & T & E). rewrite E.
    pose proof (performed s u c t id locked L PL T (proj1 PC) (proj2 (proj2 PC))) as O. rewrite A in O. specialize (O ltac:(discriminate) TI NI (fun X => NU (I _ X))).
    destruct (lperform fmt_float s t id locked) as [s' a]. exact O.
  Qed.

  Section Call.
    Variables (s : limiter) (used : list string) (c : limiter_call) (id : string) (locked : bool).
    Hypothesis HH : client_history fmt_float parse_float router s used.
    Hypothesis PC : proper_call fmt_float parse_float c.
    Hypothesis TI : text id.
    Hypothesis NI : id <> "".
    Hypothesis NU : ~ In id used.
    Notation exchange := (limiter_exchange fmt_float parse_float router s c id locked).
    Lemma c79_limiter : lask fmt_float c <> None -> carried_out s c id locked (fst (exchange Works)) (snd (exchange Works)).
    Proof.
      intros A. pose proof (limiter_works s used c id locked HH PC A TI NI NU) as O. unfold outcome, carried_out in *. destruct (direct s c id locked) as [t [v|]]; [exact O|].
      destruct O as [E W]. split; [exact E|]. intros x X. destruct W as [W|[W _]]; rewrite W in X; discriminate.
    Qed.
    Lemma c82_limiter : lask fmt_float c <> None -> snd (direct s c id locked) = None -> told_why s c (snd (exchange Works)).
    Proof.
      intros A N. pose proof (limiter_works s used c id locked HH PC A TI NI NU) as O. unfold outcome in O. destruct (direct s c id locked) as [t [v|]]; [discriminate|]. apply O.
    Qed.
    Lemma c81_returned : forall n x, snd (exchange n) = Returned x -> n = Works /\ direct s c id locked = (fst (exchange n), Some x).
    Proof.
      intros n x H. assert (A : lask fmt_float c <> None) by (intros A; unfold limiter_exchange in H; rewrite A in H; discriminate).
      destruct n; [|unfold limiter_exchange in H; destruct (lask fmt_float c); discriminate..].
      split; [reflexivity|]. pose proof (limiter_works s used c id locked HH PC A TI NI NU) as O. unfold outcome in O. destruct (direct s c id locked) as [t [v|]].
      - destruct O as [-> O]. rewrite H in O. inversion O; reflexivity.
      - destruct O as [_ O]. rewrite H in O. destruct O as [O|[O _]]; discriminate.
    Qed.
    Lemma c81_effect : forall n, (fst (exchange n) = s /\ (n = RequestLost \/ lask fmt_float c = None)) \/ (fst (exchange n) = fst (direct s c id locked) /\ n <> RequestLost).
    Proof.
      intros n. destruct (lask fmt_float c) as [r|] eqn:A.
      2: { left. unfold limiter_exchange. rewrite A. auto. }
      pose proof (limiter_works s used c id locked HH PC ltac:(congruence) TI NI NU) as O. unfold outcome in O.
      assert (X : fst (exchange Works) = fst (direct s c id locked)) by (destruct (direct s c id locked) as [t v]; apply O).
      unfold limiter_exchange in *. rewrite A in *. destruct n.
      - right. split; [exact X|discriminate].
      - left. auto.
      - right. split; [|discriminate]. cbn [fst]. rewrite <- X. destruct (lserve _ _ _ _ _ _ _); reflexivity.
    Qed.
    (** In the words of the service's own properties *)
    Lemma reach : exists u, lreach s u /\ incl u used.
    Proof. destruct (history_reached s used HH) as (_ & H). exact H. Qed.
    Lemma c79_create_rule : forall r x, c = CallCreateRule r -> snd (exchange Works) = Returned x ->
      exists kv l, given_limit (ar_spec r) = Some (kv, l) /\ x = GotRule (shown_rule (id, kv, l)) /\
        forall i k m, has_rule (fst (exchange Works)) i k m <-> has_rule s i k m \/ (i = id /\ k = kv /\ m = l).
    Proof.
      intros r x E H. apply c81_returned in H as [_ H]. destruct reach as (u & R & I). subst c. unfold direct in H.
      destruct (given_limit (ar_spec r)) as [[kv l]|] eqn:EL; [|discriminate]. unfold accepted in H. inversion H as [[H1 H2]]. exists kv, l. split; [reflexivity|].
      destruct PC as (_ & _ & KA). cbn in KA. rewrite EL in KA. cbn in KA.
      destruct (create_rule s u kv id l R KA (fun X => NU (I _ X))) as (_ & _ & C1 & C2 & C3).
      assert (V : kv_valid kv /\ -1 <= l).
      { destruct (definition_ok kv l) eqn:D.
        - apply andb_true_iff in D as [D1 D2]. apply kv_valid_iff in D1. apply Z.leb_le in D2. auto.
        - exfalso. unfold CreateRule in H2. rewrite D in H2. discriminate. }
      destruct (li_rules s u (lreach_inv s u R)) as (w & RW & _). destruct (areach_inv _ w RW) as [AI _].
      destruct (validate_rep kv KA (proj1 (kv_valid_iff kv) (proj1 V))) as [RP NEK].
      destruct (holds_dec _ kv AI RP NEK) as [(i0 & HI & HS) | N].
      - destruct (C2 V) as [C2a _]; [exists (it_id i0), (it_kv i0), (it_val i0); split; [destruct i0; exact HI|exact HS]|]. rewrite C2a in H2. discriminate.
      - destruct (C3 V) as [C3a C3b]; [intros (i' & k' & n' & HI & HS); apply N; exists (mkItem i' k' n'); auto|]. rewrite C3a in H2. inversion H2. split; [reflexivity|exact C3b].
    Qed.
    Lemma c79_get_rule : forall rid x, c = CallGetRule rid -> lask fmt_float c <> None -> (snd (exchange Works) = Returned x <-> exists kv n, has_rule s rid kv n /\ x = GotRule (shown_rule (rid, kv, n))).
    Proof.
      intros rid x E A. destruct reach as (u & R & I). destruct (get_rule s u rid R) as [G1 G2]. pose proof (c79_limiter A) as O. unfold carried_out in O.
      rewrite (f_equal (fun c => direct s c id locked) E) in O. cbn [direct] in O. split.
      - intros H. destruct (GetRule s rid) as [[[kv n]|] a] eqn:EG.
        + destruct O as [_ O]. rewrite H in O. inversion O; subst x. exists kv, n. split; [|reflexivity].
          unfold GetRule in EG. rewrite (find_rule_spec s u rid (lreach_inv s u R)) in EG. destruct (find_item _ rid) as [i|] eqn:EF; [|discriminate].
          apply find_item_some in EF as [HI <-]. inversion EG; subst. unfold has_rule. destruct i; exact HI.
        + destruct O as [_ O]. exfalso. exact (O x H).
      - intros (kv & n & H & ->). rewrite (G1 kv n H) in O. apply O.
    Qed.
    Lemma c79_update_rule : forall rid l x, c = CallUpdateRule rid (Some l) -> snd (exchange Works) = Returned x ->
      exists kv m0, has_rule s rid kv m0 /\ forall i k m, has_rule (fst (exchange Works)) i k m <-> (i <> rid /\ has_rule s i k m) \/ (i = rid /\ k = kv /\ m = l).
    Proof.
      intros rid l x E H. apply c81_returned in H as [_ H]. destruct reach as (u & R & I). rewrite (f_equal (fun c => direct s c id locked) E) in H. cbn [direct] in H. unfold accepted in H. inversion H as [[H1 H2]].
      destruct (update_rule s u rid l R) as (_ & _ & U1 & U2 & U3). destruct (Z_lt_le_dec l (-1)) as [L|L]; [rewrite (proj1 (U1 L)) in H2; discriminate|].
      pose proof (find_rule_spec s u rid (lreach_inv s u R)) as FR. destruct (find_item (a_items (l_rules s)) rid) as [i|] eqn:EF.
      - apply find_item_some in EF as [HI <-]. exists (it_kv i), (it_val i). assert (HRu : has_rule s (it_id i) (it_kv i) (it_val i)) by (unfold has_rule; destruct i; exact HI).
        split; [exact HRu|]. apply (U3 L _ _ HRu).
      - rewrite (proj1 (U2 L (missing_rule s u rid (lreach_inv s u R) FR))) in H2. discriminate.
    Qed.
    Lemma c79_delete_rule : forall rid x, c = CallDeleteRule rid -> snd (exchange Works) = Returned x ->
      (forall i k m, has_rule (fst (exchange Works)) i k m <-> has_rule s i k m /\ i <> rid) /\
      (forall r i k m, has_override (fst (exchange Works)) r i k m <-> has_override s r i k m /\ r <> rid).
    Proof.
      intros rid x E H. apply c81_returned in H as [_ H]. destruct reach as (u & R & I). rewrite (f_equal (fun c => direct s c id locked) E) in H. cbn [direct] in H. unfold accepted in H. inversion H as [[H1 H2]].
      destruct PC as (_ & (RI & _) & _). rewrite E in RI. cbn in RI. destruct (delete_rule s u rid R (non_empty _ RI)) as (_ & D1 & D2 & _). split; assumption.
    Qed.
    Lemma c79_set_counters : forall y x, c = CallSetCounters y -> snd (exchange Works) = Returned x ->
      exists kv n, given_count (an_spec y) = Some (kv, n) /\
        forall kv' m, has_count (fst (exchange Works)) kv' m <-> (~ kv_same kv' kv /\ has_count s kv' m) \/ (kv_same kv' kv /\ 0 < n /\ m = n).
    Proof.
      intros y x E H. assert (A : lask fmt_float c <> None) by (intros A; unfold limiter_exchange in H; rewrite A in H; discriminate).
      apply c81_returned in H as [_ H]. destruct reach as (u & R & I). rewrite (f_equal (fun c => direct s c id locked) E) in H. cbn [direct] in H.
      destruct (given_count (an_spec y)) as [[kv n]|] eqn:EL; [|discriminate]. unfold accepted in H. inversion H as [[H1 H2]]. exists kv, n. split; [reflexivity|].
      destruct PC as (_ & _ & KA). rewrite E in KA. cbn in KA. rewrite EL in KA. cbn in KA.
      assert (C : counter_kv kv).
      { apply (counter_kv_iff kv KA). unfold SetCounters in H2. destruct (kv_validate kv MinDataType MaxWithoutAnyDataType); [reflexivity|discriminate]. }
      apply (c34_set s u kv n id R C (fun X => NU (I _ X)) NI).
    Qed.
  End Call.
End Main.

(** ** C80 *)
Section Handlers.
  Variable parse_float : bool -> string -> option spec_float.
  Lemma received : forall A (valid : A -> bool) dec b a, receive valid dec b = Some a -> valid a = true.
  Proof.
    intros A valid dec b a H. unfold receive in H. destruct b as [j|]; [|discriminate]. cbn [bind] in H. destruct (dec j) as [x|]; [|discriminate]. cbn [bind] in H.
    destruct (valid x) eqn:V; inversion H; subst; exact V.
  Qed.
  Lemma no_any : forall kv, typed_kv kv = true -> kv_valid kv /\ forall k v, In (k, v) kv -> v <> Any.
  Proof.
    intros kv V. unfold typed_kv in V. apply kv_validate_iff in V as [NE V]. split; [split; [exact NE|]; intros k v HI; apply V in HI; apply HI|].
    intros k v HI ->. apply V in HI as (_ & _ & H). cbn in H. unfold MaxWithoutAnyDataType, T_string, T_any in H. lia.
  Qed.
  Lemma handled : forall rt body, (exists t, lhandler parse_float rt body = Run t /\ valid_task t) \/ lhandler parse_float rt body = Refused 400.
  Proof.
    assert (LS : forall o, needed limit_spec_ok o = true -> exists kv l, limit_spec o = Some (kv, l) /\ kv_valid kv /\ -1 <= l).
    { intros o H. destruct (limit_spec_some (fun _ _ => ""%string) (fun _ _ => None) o H) as (kv & l & E & V & L & _). exists kv, l. split; [exact E|]. split; [|exact L].
      apply kv_valid_iff. exact V. }
    assert (CS : forall o, needed counter_spec_ok o = true -> exists kv l, counter_spec o = Some (kv, l) /\ kv_valid kv /\ forall k v, In (k, v) kv -> v <> Any).
    { intros o H. destruct (counter_spec_some (fun _ _ => ""%string) (fun _ _ => None) o H) as (kv & l & E & V & _). exists kv, l. split; [exact E|]. apply no_any, V. }
    intros rt body. destruct rt; cbn [lhandler]; unfold reading, deref;
      try solve [left; eexists; split; [reflexivity|exact Logic.I]];
      match goal with |- context[receive ?v ?d body] => destruct (receive v d body) as [a|] eqn:R end; try (right; reflexivity); apply received in R; left.
    all: try (eexists; split; [reflexivity|exact R]).
    all: try (apply LS in R as (kv & l & -> & R); eexists; split; [reflexivity|exact R]).
    all: try (apply CS in R as (kv & l & -> & R); eexists; split; [reflexivity|exact R]).
    all: apply limit_some in R as (z & -> & R); eexists; split; [reflexivity|exact R].
  Qed.
  Lemma c80_limiter : forall fmt_float router s r id locked,
    (exists t, valid_task t /\ lserve fmt_float parse_float router s r id locked = lperform fmt_float s t id locked) \/
    (fst (lserve fmt_float parse_float router s r id locked) = s /\ exists st b, snd (lserve fmt_float parse_float router s r id locked) = Answer st b /\ (st = 400 \/ st = 404)).
  Proof.
    intros ff router s r id locked. unfold lserve. destruct (router (rq_method r) (rq_path r)) as [rt|]; [|right; split; [reflexivity|]; do 2 eexists; split; [reflexivity|auto]].
    destruct (handled rt (rq_body r)) as [(t & E & V)|E]; rewrite E; [left; eauto|]. right. split; [reflexivity|]. do 2 eexists. split; [reflexivity|auto].
  Qed.
End Handlers.
(** ** C82 *)
Lemma c82_message : forall A good known (read : option json -> option A) st m, text m -> m <> "" -> st <> good -> In st known ->
  hear good known read (Answer st (Some (on_wire (enc_error m)))) = ServiceError m.
Proof.
  intros A good known read st m T NE N K. unfold hear. destruct (Z.eqb_spec st good) as [E|_]; [contradiction|].
  replace (existsb (Z.eqb st) known) with true by (symmetry; apply existsb_exists; exists st; split; [exact K|apply Z.eqb_refl]).
  destruct (c78_answers (fun _ _ => ""%string) (fun _ _ => None)) as (_ & _ & _ & _ & _ & _ & _ & _ & _ & _ & _ & AR).
  rewrite (AR m (on_wire (enc_error m)) T); [reflexivity|]. unfold send, error_ok. apply String.eqb_neq in NE. rewrite NE. reflexivity.
Qed.
