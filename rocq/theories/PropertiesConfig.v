(** C84, C85: configuration.  Model: Config.v; what the usage texts say: SpecConfig.v. *)
From Coq Require Import String List ZArith.
Import ListNotations.
From Verif Require Import Config SpecConfig ConfigProofs.
Local Open Scope Z_scope.
Local Open Scope string_scope.

(** ** C84: environment variables that are set replace the flags *)
Theorem C84_willow_partial : forall flags env c flag var, Willow flags env = Some c -> In (flag, var) willow_documented -> flag <> "insecure-http" -> flag <> "limiter-client-ca" ->
  replaces (willow_value flags flag) (env var) (willow_value c flag).
Proof. exact c84_willow. Qed.
Print Assumptions C84_willow_partial.
Theorem C84_limiter_partial : forall flags env c flag var, Limiter flags env = Some c -> In (flag, var) limiter_documented ->
  flag <> "insecure-http" -> flag <> "log-level" -> flag <> "server-ca" -> flag <> "locker-client-ca" ->
  replaces (limiter_value flags flag) (env var) (limiter_value c flag).
Proof. exact c84_limiter. Qed.
Print Assumptions C84_limiter_partial.
(** The flags excluded above are replaced by variables of other names *)
Theorem C84_other_partial : forall env flag var,
  (forall flags c, Willow flags env = Some c -> In (flag, var) willow_undocumented -> replaces (willow_value flags flag) (env var) (willow_value c flag)) /\
  (forall flags c, Limiter flags env = Some c -> In (flag, var) limiter_undocumented -> replaces (limiter_value flags flag) (env var) (limiter_value c flag)).
Proof. exact c84_other. Qed.
Print Assumptions C84_other_partial.
(** The default timeout of locks included *)
Theorem C84_locker_partial : forall parse_duration flags env c, Locker parse_duration flags env = Some c ->
  (forall flag var, In (flag, var) locker_documented -> flag <> "insecure-http" -> replaces (locker_value flags flag) (env var) (locker_value c flag)) /\
  Some (kc_timeout c) = if String.eqb (env "LOCKER_LOCK_DEFAULT_TIMEOUT") "" then Some (kc_timeout flags) else parse_duration (env "LOCKER_LOCK_DEFAULT_TIMEOUT").
Proof. exact c84_locker. Qed.
Print Assumptions C84_locker_partial.
(** C84: http instead of https is used exactly if the flag or the variable says so *)
Theorem C84_insecure_partial : forall parse_duration wf mf kf env,
  (forall c, Willow wf env = Some c -> wc_insecure c = (wc_insecure wf || String.eqb (env "WILLOW_INSECURE_HTTP") "true")%bool) /\
  (forall c, Limiter mf env = Some c -> mc_insecure c = (mc_insecure mf || String.eqb (lower (env "LIMITER_INSECURE_HTTP")) "true")%bool) /\
  (forall c, Locker parse_duration kf env = Some c -> kc_insecure c = (kc_insecure kf || String.eqb (env "LOCKER_INSECURE_HTTP") "true")%bool).
Proof. exact c84_insecure. Qed.
Print Assumptions C84_insecure_partial.
(** C84: the excluded variables, as the usage texts name them, are not looked at, and "false" does not switch http off *)
Theorem C84_refuted : forall parse_duration,
  (exists c, Willow willow0 (one "WILLOW_LIMITER_CLIENT_CA" "other") = Some c /\ wc_lim_ca c = "ca") /\
  (exists c, Limiter limiter0 (one "LIMITER_LOG_LEVEL" "debug") = Some c /\ mc_log c = "info") /\
  (exists c, Limiter limiter0 (one "LIMITER_CA" "other") = Some c /\ mc_ca c = "") /\
  (exists c, Limiter limiter0 (one "LIMITER_LOCKER_CLIENT_CA" "other") = Some c /\ mc_loc_ca c = "ca") /\
  (exists c, Locker parse_duration locker0 (one "LOCKER_INSECURE_HTTP" "false") = Some c /\ kc_insecure c = true).
Proof. exact ignored. Qed.
Print Assumptions C84_refuted.
Example C84_nonvacuous : exists c, Willow willow0 (one "WILLOW_PORT" "1") = Some c /\ willow_value c "port" = "1" /\ In ("port", "WILLOW_PORT") willow_documented.
Proof. eexists. split; [reflexivity|]. split; [reflexivity|cbn; auto]. Qed.

(** ** C85: a service starts only with a configuration it can serve *)
(** C85: exactly which configurations are accepted *)
Theorem C85_willow_partial : forall flags env c, Willow flags env = Some c <->
  c = willow_env env flags /\ good_level (wc_log c) /\ good_tls (wc_insecure c) (wc_ca c) (wc_key c) (wc_crt c) /\ wc_storage c = "memory".
Proof. exact c85_willow. Qed.
Print Assumptions C85_willow_partial.
Theorem C85_limiter_partial : forall flags env c, Limiter flags env = Some c <->
  c = limiter_env env flags /\ good_level (mc_log c) /\ (exists n, Atoi (mc_port c) = Some n /\ n <= 65535) /\ good_tls (mc_insecure c) (mc_ca c) (mc_key c) (mc_crt c).
Proof. exact c85_limiter. Qed.
Print Assumptions C85_limiter_partial.
Theorem C85_locker_partial : forall parse_duration flags env c, Locker parse_duration flags env = Some c <->
  locker_env parse_duration env flags = Some c /\ good_level (kc_log c) /\ (exists n, Atoi (kc_port c) = Some n /\ n <= 65535) /\ good_tls (kc_insecure c) (kc_ca c) (kc_key c) (kc_crt c) /\ 0 < kc_timeout c.
Proof. exact c85_locker. Qed.
Print Assumptions C85_locker_partial.
(** C85: ports that are none are accepted: any text by willow, negative numbers by the others *)
Theorem C85_port_refuted : forall parse_duration,
  (exists c, Willow (mkWillowConfig "info" true "http" "" "" "" "" "" "" "" "memory") no_env = Some c /\ Atoi (wc_port c) = None) /\
  (exists c, Locker parse_duration (mkLockerConfig "info" "-1" "" "" "" true 1) no_env = Some c /\ Atoi (kc_port c) = Some (-1)).
Proof. exact bad_ports. Qed.
Print Assumptions C85_port_refuted.
(** C85: a client is made only with an address and with a key and a certificate, or neither; with roots it uses all three *)
Theorem C85_client_partial : forall pair_ok roots_ok c t, NewHTTPClient pair_ok roots_ok c = Some t ->
  cc_url c <> "" /\ (cc_key c = "" <-> cc_crt c = "") /\
  (cc_ca c <> "" -> t = CustomTLS (cc_crt c) (cc_key c) (cc_ca c) /\ cc_crt c <> "" /\ pair_ok (cc_crt c) (cc_key c) = true /\ roots_ok (cc_ca c) (cc_crt c) = true) /\
  (cc_ca c = "" -> t = DefaultTransport).
Proof. exact c85_client. Qed.
Print Assumptions C85_client_partial.
(** C85: a key and a certificate without roots are checked and then not used *)
Theorem C85_certificate_refuted : forall roots_ok, NewHTTPClient (fun _ _ => true) roots_ok (mkClientConfig "https://limiter:8082" "" "key" "crt") = Some DefaultTransport.
Proof. exact certificate_unused. Qed.
Print Assumptions C85_certificate_refuted.
(** C85: the limiter and willow start exactly if the service they need answers one of ten health checks, at the first such *)
Theorem C85_start : forall healthy,
  (forall n, await_service healthy = Some n <-> (n <= 10)%nat /\ (0 < n)%nat /\ healthy (pred n) = true /\ forall k, (k < pred n)%nat -> healthy k = false) /\
  (await_service healthy = None <-> forall k, (k < 10)%nat -> healthy k = false).
Proof. exact c85_start. Qed.
Print Assumptions C85_start.
