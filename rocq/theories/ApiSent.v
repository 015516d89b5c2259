(** Proofs: calls with arguments in order are sent. *)
From Coq Require Import String List Bool ZArith SpecFloat Lia.
Import ListNotations.
From Verif Require Import Datatypes SpecValues PropLemmasValues DatatypesProofs Query SpecQuery QueryProofs Assoc SpecAssoc PropLemmasAssoc Limiter Channel Willow Json Models SpecModels
  Http ApiLimiter SpecApiLimiter ApiLimiterProofs ApiWillow SpecApiWillow SpecApiSent ModelsExamples ApiLimiterExamples ApiWillowExamples.
Local Open Scope Z_scope.
Local Open Scope string_scope.

Lemma definite_typed : forall kv, definite kv -> typed_kv kv = true.
Proof.
  intros kv [V N]. unfold typed_kv. apply kv_valid_iff in V. apply kv_validate_iff in V as [NE V]. apply kv_validate_iff. split; [exact NE|].
  intros k v HI. destruct (V k v HI) as [W B]. split; [exact W|]. specialize (N k v HI). destruct v as [t d]. cbn [ev_type ev_data] in *.
  unfold MinDataType, MaxDataType, MaxWithoutAnyDataType, T_uint8, T_string, T_any in *.
  pose proof (well_typed_tag _ _ W) as K. unfold known_tag in K. destruct (Z.eq_dec t 1024) as [->|NT].
  - exfalso. apply N. unfold Any. f_equal. inversion W; subst; try reflexivity; try (destruct k0; discriminate); lia.
  - lia.
Qed.
Lemma told_sent : forall A valid (enc : A -> json) m u a, valid a = true -> Forall safe (chars u) -> tell valid enc m u a <> None.
Proof. intros A valid enc m u a V F. unfold tell, send. rewrite V. cbn [bind]. rewrite ask_safe by exact F. discriminate. Qed.
Lemma asked : forall m u b, Forall safe (chars u) -> ask m u b <> None.
Proof. intros m u b F. rewrite ask_safe by exact F. discriminate. Qed.
Lemma sound_limit_ok : forall s, sound_limit s -> needed limit_spec_ok s = true.
Proof.
  intros s (kv & l & -> & V & L). unfold needed, limit_spec_ok, limit_ok, any_kv. cbn [ls_db ls_props needed]. apply kv_valid_iff in V. rewrite V. cbn [andb].
  apply negb_true_iff, Z.ltb_ge. exact L.
Qed.
Lemma sound_counter_ok : forall x, sound_counter x -> counter_create_ok x = true.
Proof.
  intros x (kv & n & E & D). unfold counter_create_ok. rewrite E. unfold needed, counter_spec_ok. cbn [cs_db cs_props needed]. rewrite (definite_typed kv D). reflexivity.
Qed.
Ltac urls := unfold override_url, overrides_url, rule_url, rules_url, counters_url, items_url, channels_url, queue_url, queues_url;
  repeat (apply safe_app; [|try solve [safe_literal]]); try solve [safe_literal]; try (apply safe_addressable; assumption).
Lemma c79_sent : forall fmt_float c, sound_limiter_call c -> when addressable (rid_of c) -> when addressable (oid_of c) -> lask fmt_float c <> None.
Proof.
  intros ff c S R O. destruct c; cbn [sound_limiter_call rid_of oid_of when lask] in *; first [apply told_sent|apply asked]; try solve [urls].
  all: try (apply q_validate_iff; exact S).
  all: try exact S.
  all: try (apply sound_counter_ok; exact S).
  - destruct S as [S E]. unfold rule_ok. rewrite (sound_limit_ok _ S), E. reflexivity.
  - destruct S as (z & -> & L). cbn. apply negb_true_iff, Z.ltb_ge. exact L.
  - apply sound_limit_ok, S.
  - destruct S as (z & -> & L). cbn. apply negb_true_iff, Z.ltb_ge. exact L.
Qed.
Lemma c79_willow_sent : forall fmt_float c, sound_willow_call c -> when addressable (queue_of c) -> wask fmt_float c <> None.
Proof.
  intros ff c S R. destruct c; cbn [sound_willow_call queue_of when wask] in *; first [apply told_sent|apply asked]; try solve [urls].
  all: try (apply q_validate_iff; exact S).
  - destruct S as (name & m & -> & NE). unfold queue_create_ok, queue_spec_ok, queue_db_ok, queue_props_ok, needed, allowed. cbn [aq_spec aq_state qs_db qs_props qp_max].
    apply String.eqb_neq in NE. rewrite NE. reflexivity.
  - destruct S as (m & ->). reflexivity.
  - destruct S as (kv & d & u & r & p & t & -> & D & ND & P). unfold item_create_ok, item_spec_ok, item_props_ok, needed. cbn [ai_spec ai_state is_db is_props ip_data ip_updateable ip_retries ip_position ip_timeout].
    rewrite (definite_typed kv D). apply String.eqb_neq in ND. rewrite ND. destruct P as [-> | ->]; reflexivity.
  - apply definite_typed, S.
  - destruct S as [NE D]. unfold ack_ok. cbn [ak_item ak_kv]. rewrite (definite_typed kv D). apply String.eqb_neq in NE. rewrite NE. reflexivity.
Qed.
Lemma sent_examples : sound_willow_call (CallEnqueue "a" item1) /\ sound_limiter_call (CallSetCounters count2) /\ sound_willow_call (CallCreateQueue queue3).
Proof.
  assert (D : definite kv1).
  { split; [apply kv_valid_iff; reflexivity|]. intros k v [E|[E|[]]]; inversion E; subst; discriminate. }
  split; [|split].
  - exists kv1, umlaut, true, 2, "front", 5000000000. split; [reflexivity|]. split; [exact D|]. split; [discriminate|auto].
  - exists kv1, 3. split; [reflexivity|exact D].
  - exists "c", 7. split; [reflexivity|discriminate].
Qed.
