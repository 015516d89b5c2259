(** C79: calls of the clients whose arguments are in order (SpecApiSent.v) are sent, so that C79-C82 (PropertiesApi.v,
    PropertiesApiWillow.v) speak about them. *)
From Coq Require Import String List ZArith.
Import ListNotations.
From Verif Require Import Datatypes SpecValues Query SpecQuery SpecAssoc Json Models SpecModels ModelsExamples
  Http ApiLimiter SpecApiLimiter ApiLimiterExamples ApiWillow SpecApiWillow ApiWillowExamples SpecApiSent ApiSent.
Local Open Scope Z_scope.
Local Open Scope string_scope.

Theorem C79_sent : forall fmt_float c, sound_limiter_call c -> when addressable (rid_of c) -> when addressable (oid_of c) -> lask fmt_float c <> None.
Proof. exact c79_sent. Qed.
Print Assumptions C79_sent.
Theorem C79_willow_sent : forall fmt_float c, sound_willow_call c -> when addressable (queue_of c) -> wask fmt_float c <> None.
Proof. exact c79_willow_sent. Qed.
Print Assumptions C79_willow_sent.
Example C79_sent_nonvacuous : sound_willow_call (CallEnqueue "a" item1) /\ sound_limiter_call (CallSetCounters count2) /\ sound_willow_call (CallCreateQueue queue3).
Proof. exact sent_examples. Qed.
