(** Model of the configuration of the services (internal/config), of their clients (pkg/clients/client_config.go,
    http_client.go) and of how the services wait for each other when they start (cmd).  No proofs in this file.

    The flags are given as parsed by the flag library; the environment is a function, os.Getenv, which gives "" for a variable
    that is not set.  Messages of errors are left out: [None] = an error is returned.  *)
From Coq Require Import String Ascii List Bool Arith ZArith.
Import ListNotations.
Local Open Scope Z_scope.
Local Open Scope string_scope.

Definition environment := string -> string.
(** if x := os.Getenv(var); x != "" { field = &x } *)
Definition pick (env : environment) (var : string) (flag : string) : string := if String.eqb (env var) "" then flag else env var.
(** strings.ToLower on ASCII; no other character has "t", "r", "u" or "e" as its lower case *)
Definition lower_ascii (c : ascii) : ascii := let n := N_of_ascii c in if (65 <=? n)%N && (n <=? 90)%N then ascii_of_N (n + 32) else c.
Fixpoint lower (s : string) : string := match s with EmptyString => EmptyString | String c s => String (lower_ascii c) (lower s) end.

(** ** strconv.Atoi: an optional sign and decimal digits; an int64 *)
Definition digit (c : ascii) : option Z := let n := (Z.of_N (N_of_ascii c) - 48)%Z in if ((0 <=? n) && (n <=? 9))%Z then Some n else None.
Fixpoint digits (acc : Z) (s : string) : option Z :=
  match s with
  | EmptyString => Some acc
  | String c s => match digit c with Some d => digits (10 * acc + d)%Z s | None => None end
  end.
Definition Atoi (s : string) : option Z :=
  let go neg s := match s with
    | EmptyString => None
    | _ => match digits 0 s with
           | Some n => let n := if (neg : bool) then (- n)%Z else n in if ((- 2 ^ 63 <=? n) && (n <? 2 ^ 63))%Z then Some n else None
           | None => None
           end
    end in
  match s with
  | String "+" s => go false s
  | String "-" s => go true s
  | _ => go false s
  end.
Definition valid_level (l : string) : bool := String.eqb l "debug" || String.eqb l "info".
(** limiter_config.go:142-147, locker_config.go:125-130 *)
Definition valid_port (p : string) : bool := match Atoi p with Some n => negb (65535 <? n)%Z | None => false end.
(** limiter_config.go:149-173, locker_config.go:132-157, willow_config.go:162-184 *)
Definition valid_tls (insecure : bool) (ca key crt : string) : bool :=
  if insecure then String.eqb ca "" && String.eqb crt "" && String.eqb key "" else negb (String.eqb key "") && negb (String.eqb crt "").

(** ** Willow: willow_config.go *)
(** :15-34 *)
Record willow_config := mkWillowConfig {
  wc_log : string; wc_insecure : bool; wc_port : string; wc_ca : string; wc_key : string; wc_crt : string;
  wc_lim_url : string; wc_lim_ca : string; wc_lim_key : string; wc_lim_crt : string; wc_storage : string }.
(** :97-154 parseEnv *)
Definition willow_env (env : environment) (c : willow_config) : willow_config :=
  mkWillowConfig (pick env "LOG_LEVEL" (wc_log c)) (if String.eqb (env "WILLOW_INSECURE_HTTP") "true" then true else wc_insecure c) (pick env "WILLOW_PORT" (wc_port c))
    (pick env "WILLOW_CA" (wc_ca c)) (pick env "WILLOW_SERVER_KEY" (wc_key c)) (pick env "WILLOW_SERVER_CRT" (wc_crt c))
    (pick env "WILLOW_LIMITER_URL" (wc_lim_url c)) (pick env "WILLOW_LIMITER_CA" (wc_lim_ca c)) (pick env "WILLOW_LIMITER_CLIENT_KEY" (wc_lim_key c))
    (pick env "WILLOW_LIMITER_CLIENT_CRT" (wc_lim_crt c)) (pick env "STORAGE_TYPE" (wc_storage c)).
(** :156-195 validate: the port is not looked at *)
Definition willow_validate (c : willow_config) : bool :=
  valid_level (wc_log c) && valid_tls (wc_insecure c) (wc_ca c) (wc_key c) (wc_crt c) && String.eqb (wc_storage c) "memory".
(** :50-91 Willow *)
Definition Willow (flags : willow_config) (env : environment) : option willow_config :=
  let c := willow_env env flags in if willow_validate c then Some c else None.

(** ** Limiter: limiter_config.go *)
(** :11-31 *)
Record limiter_config := mkLimiterConfig {
  mc_log : string; mc_port : string; mc_ca : string; mc_key : string; mc_crt : string;
  mc_loc_url : string; mc_loc_ca : string; mc_loc_key : string; mc_loc_crt : string; mc_insecure : bool }.
(** :73-128 parseEnv *)
Definition limiter_env (env : environment) (c : limiter_config) : limiter_config :=
  mkLimiterConfig (pick env "LOG_LEVEL" (mc_log c)) (pick env "LIMITER_PORT" (mc_port c))
    (pick env "LIMITER_SERVER_CA" (mc_ca c)) (pick env "LIMITER_SERVER_KEY" (mc_key c)) (pick env "LIMITER_SERVER_CRT" (mc_crt c))
    (pick env "LIMITER_LOCKER_URL" (mc_loc_url c)) (pick env "LIMITER_LOCKER_CA" (mc_loc_ca c)) (pick env "LIMITER_LOCKER_CLIENT_KEY" (mc_loc_key c))
    (pick env "LIMITER_LOCKER_CLIENT_CRT" (mc_loc_crt c)) (if String.eqb (lower (env "LIMITER_INSECURE_HTTP")) "true" then true else mc_insecure c).
(** :130-179 validate *)
Definition limiter_validate (c : limiter_config) : bool :=
  valid_level (mc_log c) && valid_port (mc_port c) && valid_tls (mc_insecure c) (mc_ca c) (mc_key c) (mc_crt c).
(** :33-71 Limiter *)
Definition Limiter (flags : limiter_config) (env : environment) : option limiter_config :=
  let c := limiter_env env flags in if limiter_validate c then Some c else None.

(** ** Locker: locker_config.go *)
(** :11-28 *)
Record locker_config := mkLockerConfig {
  kc_log : string; kc_port : string; kc_ca : string; kc_key : string; kc_crt : string; kc_insecure : bool; kc_timeout : Z }.
Section Durations.
  (** time.ParseDuration *)
  Variable parse_duration : string -> option Z.
  (** :65-111 parseEnv *)
  Definition locker_env (env : environment) (c : locker_config) : option locker_config :=
    let with_timeout t := mkLockerConfig (pick env "LOCKER_LOG_LEVEL" (kc_log c)) (pick env "LOCKER_PORT" (kc_port c))
      (pick env "LOCKER_SERVER_CA" (kc_ca c)) (pick env "LOCKER_SERVER_KEY" (kc_key c)) (pick env "LOCKER_SERVER_CRT" (kc_crt c))
      (if String.eqb (env "LOCKER_INSECURE_HTTP") "true" then true else kc_insecure c) t in
    if String.eqb (env "LOCKER_LOCK_DEFAULT_TIMEOUT") "" then Some (with_timeout (kc_timeout c))
    else option_map with_timeout (parse_duration (env "LOCKER_LOCK_DEFAULT_TIMEOUT")).
  (** :113-164 validate *)
  Definition locker_validate (c : locker_config) : bool :=
    valid_level (kc_log c) && valid_port (kc_port c) && valid_tls (kc_insecure c) (kc_ca c) (kc_key c) (kc_crt c) && negb (kc_timeout c <=? 0)%Z.
  (** :30-63 Locker *)
  Definition Locker (flags : locker_config) (env : environment) : option locker_config :=
    match locker_env env flags with Some c => if locker_validate c then Some c else None | None => None end.
End Durations.

(** ** The clients: pkg/clients *)
(** client_config.go:11-30 *)
Record client_config := mkClientConfig { cc_url : string; cc_ca : string; cc_key : string; cc_crt : string }.
Section Files.
  (** tls.LoadX509KeyPair; the certificate of the second file is verified by the roots in the first one (:53-86) *)
  Variable pair_ok : string -> string -> bool.
  Variable roots_ok : string -> string -> bool.
  (** client_config.go:32-92 Validate; [None] = an error, else whether a certificate was loaded *)
  Definition client_validate (c : client_config) : option bool :=
    if String.eqb (cc_url c) "" then None
    else if String.eqb (cc_ca c) "" && String.eqb (cc_crt c) "" && String.eqb (cc_key c) "" then Some false
    else if String.eqb (cc_crt c) "" || String.eqb (cc_key c) "" then None
    else if pair_ok (cc_crt c) (cc_key c) then
      if String.eqb (cc_ca c) "" then Some true
      else if roots_ok (cc_ca c) (cc_crt c) then Some true else None
    else None.
  (** http_client.go:11-28 NewHTTPClient: what the client presents: its certificate and the roots it trusts, or nothing of its own *)
  Inductive transport := DefaultTransport | CustomTLS (crt key ca : string).
  Definition NewHTTPClient (c : client_config) : option transport :=
    match client_validate c with
    | None => None
    | Some _ => Some (if String.eqb (cc_ca c) "" then DefaultTransport else CustomTLS (cc_crt c) (cc_key c) (cc_ca c))
    end.
End Files.

(** ** Starting: cmd/limiter/main.go:53-72, cmd/willow/main.go:56-69 *)
(** [healthy i]: the answer to the [i]-th health check; how many are made, or [None]: the process ends *)
Fixpoint wait_healthy (healthy : nat -> bool) (fuel i : nat) : option nat :=
  match fuel with
  | O => None
  | S fuel => if healthy i then Some (S i) else wait_healthy healthy fuel (S i)
  end.
Definition await_service (healthy : nat -> bool) : option nat := wait_healthy healthy 10 0.
