(** Specification of the configuration: what the usage texts of the services say. *)
From Coq Require Import String Ascii List Bool Arith ZArith.
Import ListNotations.
From Verif Require Import Config.
Local Open Scope Z_scope.
Local Open Scope string_scope.

Definition yes_no (b : bool) : string := if b then "true" else "false".
(** The value of a flag, in text, for the flags whose value is a text or a Boolean *)
Definition willow_value (c : willow_config) (flag : string) : string :=
  match find (fun p => String.eqb (fst p) flag)
    [("log-level", wc_log c); ("port", wc_port c); ("insecure-http", yes_no (wc_insecure c)); ("server-ca", wc_ca c); ("server-key", wc_key c); ("server-crt", wc_crt c);
     ("limiter-url", wc_lim_url c); ("limiter-client-ca", wc_lim_ca c); ("limiter-client-key", wc_lim_key c); ("limiter-client-crt", wc_lim_crt c); ("storage-type", wc_storage c)]
  with Some (_, v) => v | None => "" end.
Definition limiter_value (c : limiter_config) (flag : string) : string :=
  match find (fun p => String.eqb (fst p) flag)
    [("log-level", mc_log c); ("port", mc_port c); ("insecure-http", yes_no (mc_insecure c)); ("server-ca", mc_ca c); ("server-key", mc_key c); ("server-crt", mc_crt c);
     ("locker-url", mc_loc_url c); ("locker-client-ca", mc_loc_ca c); ("locker-client-key", mc_loc_key c); ("locker-client-crt", mc_loc_crt c)]
  with Some (_, v) => v | None => "" end.
Definition locker_value (c : locker_config) (flag : string) : string :=
  match find (fun p => String.eqb (fst p) flag)
    [("log-level", kc_log c); ("port", kc_port c); ("insecure-http", yes_no (kc_insecure c)); ("server-ca", kc_ca c); ("server-key", kc_key c); ("server-crt", kc_crt c)]
  with Some (_, v) => v | None => "" end.
(** The flags and the variables that the usage texts give for them: willow_config.go:58-72, limiter_config.go:42-58,
    locker_config.go:39-47 *)
Definition willow_documented : list (string * string) :=
  [("log-level", "LOG_LEVEL"); ("port", "WILLOW_PORT"); ("insecure-http", "WILLOW_INSECURE_HTTP"); ("server-ca", "WILLOW_CA"); ("server-key", "WILLOW_SERVER_KEY");
   ("server-crt", "WILLOW_SERVER_CRT"); ("limiter-url", "WILLOW_LIMITER_URL"); ("limiter-client-ca", "WILLOW_LIMITER_CLIENT_CA"); ("limiter-client-key", "WILLOW_LIMITER_CLIENT_KEY");
   ("limiter-client-crt", "WILLOW_LIMITER_CLIENT_CRT"); ("storage-type", "STORAGE_TYPE")].
Definition limiter_documented : list (string * string) :=
  [("log-level", "LIMITER_LOG_LEVEL"); ("port", "LIMITER_PORT"); ("insecure-http", "LIMITER_INSECURE_HTTP"); ("server-ca", "LIMITER_CA"); ("server-key", "LIMITER_SERVER_KEY");
   ("server-crt", "LIMITER_SERVER_CRT"); ("locker-url", "LIMITER_LOCKER_URL"); ("locker-client-ca", "LIMITER_LOCKER_CLIENT_CA"); ("locker-client-key", "LIMITER_LOCKER_CLIENT_KEY");
   ("locker-client-crt", "LIMITER_LOCKER_CLIENT_CRT")].
Definition locker_documented : list (string * string) :=
  [("log-level", "LOCKER_LOG_LEVEL"); ("port", "LOCKER_PORT"); ("insecure-http", "LOCKER_INSECURE_HTTP"); ("server-ca", "LOCKER_SERVER_CA"); ("server-key", "LOCKER_SERVER_KEY");
   ("server-crt", "LOCKER_SERVER_CRT")].
(** The variables that are really read, where the usage texts give other names (C84_refuted): willow_config.go:135, limiter_config.go:76, :88 and :108 *)
Definition willow_undocumented : list (string * string) := [("limiter-client-ca", "WILLOW_LIMITER_CA")].
Definition limiter_undocumented : list (string * string) :=
  [("log-level", "LOG_LEVEL"); ("server-ca", "LIMITER_SERVER_CA"); ("locker-client-ca", "LIMITER_LOCKER_CA")].
(** "All flags will use the env vars if they are set instead of command line parameters" *)
Definition replaces (flag_value var_value value : string) : Prop := value = if String.eqb var_value "" then flag_value else var_value.

(** A configuration with which a service can listen *)
Definition port_number (p : string) : Prop := exists n, Atoi p = Some n /\ 0 <= n <= 65535.
Definition good_tls (insecure : bool) (ca key crt : string) : Prop :=
  if insecure then ca = "" /\ key = "" /\ crt = "" else key <> "" /\ crt <> "".
Definition good_level (l : string) : Prop := l = "debug" \/ l = "info".
