(** Proofs about the configuration. *)
From Coq Require Import String Ascii List Bool Arith ZArith Lia.
Import ListNotations.
From Verif Require Import Config SpecConfig.
Local Open Scope Z_scope.
Local Open Scope string_scope.

Lemma pick_replaces : forall env var flag, replaces flag (env var) (pick env var flag).
Proof. intros env var flag. reflexivity. Qed.
Ltac each := repeat match goal with H : _ \/ _ |- _ => destruct H as [H|H]; [inversion H; subst; clear H|] end; try contradiction.
Lemma c84_willow : forall flags env c flag var, Willow flags env = Some c -> In (flag, var) willow_documented -> flag <> "insecure-http" -> flag <> "limiter-client-ca" ->
  replaces (willow_value flags flag) (env var) (willow_value c flag).
Proof.
  intros flags env c flag var H D N1 N2. unfold Willow in H. destruct (willow_validate _); [|discriminate]. inversion H; subst c.
  cbn [willow_documented In] in D. each; try congruence; apply pick_replaces.
Qed.
Lemma c84_limiter : forall flags env c flag var, Limiter flags env = Some c -> In (flag, var) limiter_documented ->
  flag <> "insecure-http" -> flag <> "log-level" -> flag <> "server-ca" -> flag <> "locker-client-ca" ->
  replaces (limiter_value flags flag) (env var) (limiter_value c flag).
Proof.
  intros flags env c flag var H D N1 N2 N3 N4. unfold Limiter in H. destruct (limiter_validate _); [|discriminate]. inversion H; subst c.
  cbn [limiter_documented In] in D. each; try congruence; apply pick_replaces.
Qed.
Lemma c84_other : forall env flag var,
  (forall flags c, Willow flags env = Some c -> In (flag, var) willow_undocumented -> replaces (willow_value flags flag) (env var) (willow_value c flag)) /\
  (forall flags c, Limiter flags env = Some c -> In (flag, var) limiter_undocumented -> replaces (limiter_value flags flag) (env var) (limiter_value c flag)).
Proof.
  intros env flag var. split; intros flags c H D.
  - unfold Willow in H. destruct (willow_validate _); [|discriminate]. inversion H; subst c. cbn [willow_undocumented In] in D. each; try congruence; apply pick_replaces.
  - unfold Limiter in H. destruct (limiter_validate _); [|discriminate]. inversion H; subst c. cbn [limiter_undocumented In] in D. each; try congruence; apply pick_replaces.
Qed.
Lemma c84_locker : forall pd flags env c, Locker pd flags env = Some c ->
  (forall flag var, In (flag, var) locker_documented -> flag <> "insecure-http" -> replaces (locker_value flags flag) (env var) (locker_value c flag)) /\
  Some (kc_timeout c) = if String.eqb (env "LOCKER_LOCK_DEFAULT_TIMEOUT") "" then Some (kc_timeout flags) else pd (env "LOCKER_LOCK_DEFAULT_TIMEOUT").
Proof.
  intros pd flags env c H. unfold Locker, locker_env in H. destruct (String.eqb (env "LOCKER_LOCK_DEFAULT_TIMEOUT") "").
  - destruct (locker_validate _); [|discriminate]. inversion H; subst c. split; [|reflexivity]. intros flag var D N. cbn [locker_documented In] in D. each; try congruence; apply pick_replaces.
  - destruct (pd _) as [t|]; [|discriminate]. cbn [option_map] in H. destruct (locker_validate _); [|discriminate]. inversion H; subst c. split; [|reflexivity].
    intros flag var D N. cbn [locker_documented In] in D. each; try congruence; apply pick_replaces.
Qed.
(** insecure-http: the variable can only switch it on *)
Lemma c84_insecure : forall pd wf mf kf env,
  (forall c, Willow wf env = Some c -> wc_insecure c = wc_insecure wf || String.eqb (env "WILLOW_INSECURE_HTTP") "true") /\
  (forall c, Limiter mf env = Some c -> mc_insecure c = mc_insecure mf || String.eqb (lower (env "LIMITER_INSECURE_HTTP")) "true") /\
  (forall c, Locker pd kf env = Some c -> kc_insecure c = kc_insecure kf || String.eqb (env "LOCKER_INSECURE_HTTP") "true").
Proof.
  intros pd wf mf kf env. split; [|split]; intros c H.
  - unfold Willow in H. destruct (willow_validate _); [|discriminate]. inversion H; subst c. cbn [wc_insecure willow_env]. destruct (String.eqb _ _), (wc_insecure wf); reflexivity.
  - unfold Limiter in H. destruct (limiter_validate _); [|discriminate]. inversion H; subst c. cbn [mc_insecure limiter_env]. destruct (String.eqb _ _), (mc_insecure mf); reflexivity.
  - unfold Locker, locker_env in H. destruct (String.eqb (env "LOCKER_LOCK_DEFAULT_TIMEOUT") "").
    + destruct (locker_validate _); [|discriminate]. inversion H; subst c. cbn [kc_insecure]. destruct (String.eqb _ _), (kc_insecure kf); reflexivity.
    + destruct (pd _) as [t|]; [|discriminate]. cbn [option_map] in H. destruct (locker_validate _); [|discriminate]. inversion H; subst c. cbn [kc_insecure]. destruct (String.eqb _ _), (kc_insecure kf); reflexivity.
Qed.

(** ** C85 *)
Lemma level_iff : forall l, valid_level l = true <-> good_level l.
Proof. intros l. unfold valid_level, good_level. rewrite orb_true_iff, !String.eqb_eq. reflexivity. Qed.
Lemma tls_iff : forall i ca key crt, valid_tls i ca key crt = true <-> good_tls i ca key crt.
Proof.
  intros i ca key crt. unfold valid_tls, good_tls. destruct i.
  - rewrite !andb_true_iff, !String.eqb_eq. tauto.
  - rewrite andb_true_iff, !negb_true_iff, !String.eqb_neq. tauto.
Qed.
Lemma port_iff : forall p, valid_port p = true <-> exists n, Atoi p = Some n /\ n <= 65535.
Proof.
  intros p. unfold valid_port. destruct (Atoi p) as [n|].
  - rewrite negb_true_iff, Z.ltb_ge. split; [eauto|]. intros (m & [= <-] & H). exact H.
  - split; [discriminate|]. intros (m & H & _). discriminate.
Qed.
Lemma c85_willow : forall flags env c, Willow flags env = Some c <->
  c = willow_env env flags /\ good_level (wc_log c) /\ good_tls (wc_insecure c) (wc_ca c) (wc_key c) (wc_crt c) /\ wc_storage c = "memory".
Proof.
  intros flags env c. unfold Willow. assert (X : willow_validate (willow_env env flags) = true <-> good_level (wc_log (willow_env env flags)) /\
    good_tls (wc_insecure (willow_env env flags)) (wc_ca (willow_env env flags)) (wc_key (willow_env env flags)) (wc_crt (willow_env env flags)) /\ wc_storage (willow_env env flags) = "memory").
  { unfold willow_validate. rewrite !andb_true_iff, level_iff, tls_iff, String.eqb_eq. tauto. }
  destruct (willow_validate _).
  - split; [intros [= <-]; split; [reflexivity|apply X; reflexivity]|]. intros (-> & _). reflexivity.
  - split; [discriminate|]. intros (-> & H). apply X in H. discriminate.
Qed.
Lemma c85_limiter : forall flags env c, Limiter flags env = Some c <->
  c = limiter_env env flags /\ good_level (mc_log c) /\ (exists n, Atoi (mc_port c) = Some n /\ n <= 65535) /\ good_tls (mc_insecure c) (mc_ca c) (mc_key c) (mc_crt c).
Proof.
  intros flags env c. unfold Limiter. set (d := limiter_env env flags). assert (X : limiter_validate d = true <-> good_level (mc_log d) /\ (exists n, Atoi (mc_port d) = Some n /\ n <= 65535) /\
    good_tls (mc_insecure d) (mc_ca d) (mc_key d) (mc_crt d)).
  { unfold limiter_validate. rewrite !andb_true_iff, level_iff, tls_iff, port_iff. tauto. }
  destruct (limiter_validate d).
  - split; [intros [= <-]; split; [reflexivity|apply X; reflexivity]|]. intros (-> & _). reflexivity.
  - split; [discriminate|]. intros (-> & H). apply X in H. discriminate.
Qed.
Lemma c85_locker : forall pd flags env c, Locker pd flags env = Some c <->
  locker_env pd env flags = Some c /\ good_level (kc_log c) /\ (exists n, Atoi (kc_port c) = Some n /\ n <= 65535) /\ good_tls (kc_insecure c) (kc_ca c) (kc_key c) (kc_crt c) /\ 0 < kc_timeout c.
Proof.
  intros pd flags env c. unfold Locker. assert (X : forall d, locker_validate d = true <-> good_level (kc_log d) /\ (exists n, Atoi (kc_port d) = Some n /\ n <= 65535) /\
    good_tls (kc_insecure d) (kc_ca d) (kc_key d) (kc_crt d) /\ 0 < kc_timeout d).
  { intros d. unfold locker_validate. rewrite !andb_true_iff, level_iff, tls_iff, port_iff, negb_true_iff, Z.leb_gt. tauto. }
  destruct (locker_env pd env flags) as [d|]; [|split; [discriminate|intros (H & _); discriminate]]. specialize (X d). destruct (locker_validate d).
  - split; [intros [= <-]; split; [reflexivity|apply X; reflexivity]|]. intros ([= <-] & _). reflexivity.
  - split; [discriminate|]. intros ([= <-] & H). apply X in H. discriminate.
Qed.
(** The clients *)
Lemma c85_client : forall pair_ok roots_ok c t, NewHTTPClient pair_ok roots_ok c = Some t ->
  cc_url c <> "" /\ (cc_key c = "" <-> cc_crt c = "") /\ (cc_ca c <> "" -> t = CustomTLS (cc_crt c) (cc_key c) (cc_ca c) /\ cc_crt c <> "" /\ pair_ok (cc_crt c) (cc_key c) = true /\ roots_ok (cc_ca c) (cc_crt c) = true) /\
  (cc_ca c = "" -> t = DefaultTransport).
Proof.
  intros po ro [url ca key crt] t. unfold NewHTTPClient, client_validate. cbn [cc_url cc_ca cc_key cc_crt].
  destruct (String.eqb_spec url ""); [discriminate|]. destruct (String.eqb_spec ca ""), (String.eqb_spec crt ""), (String.eqb_spec key ""); cbn [andb orb]; try discriminate.
  - intros [= <-]. subst. repeat split; congruence.
  - destruct (po crt key); [|discriminate]. intros [= <-]. repeat split; congruence.
  - destruct (po crt key) eqn:P; [|discriminate]. destruct (ro ca crt) eqn:R; [|discriminate]. intros [= <-]. repeat split; congruence.
Qed.
(** ** Starting *)
Lemma wait_spec : forall healthy fuel i n, wait_healthy healthy fuel i = Some n <-> (i < n <= i + fuel)%nat /\ healthy (pred n) = true /\ forall k, (i <= k < pred n)%nat -> healthy k = false.
Proof.
  intros healthy fuel. induction fuel as [|fuel IH]; intros i n; cbn [wait_healthy].
  - split; [discriminate|]. intros (H & _). lia.
  - destruct (healthy i) eqn:E.
    + split.
      * intros [= <-]. cbn [pred]. split; [lia|]. split; [exact E|]. intros k H. lia.
      * intros (H1 & _ & H2). destruct (Nat.eq_dec n (S i)) as [->|N]; [reflexivity|]. rewrite (H2 i) in E; [discriminate|]. destruct n; cbn in *; lia.
    + rewrite IH. split.
      * intros (H1 & H2 & H3). split; [lia|]. split; [exact H2|]. intros k H. destruct (Nat.eq_dec k i) as [->|N]; [exact E|]. apply H3. lia.
      * intros (H1 & H2 & H3). assert (n <> S i) by (intros ->; cbn [pred] in H2; congruence). split; [lia|]. split; [exact H2|]. intros k H0. apply H3. lia.
Qed.
Lemma c85_start : forall healthy,
  (forall n, await_service healthy = Some n <-> (n <= 10)%nat /\ (0 < n)%nat /\ healthy (pred n) = true /\ forall k, (k < pred n)%nat -> healthy k = false) /\
  (await_service healthy = None <-> forall k, (k < 10)%nat -> healthy k = false).
Proof.
  intros healthy. assert (X : forall n, await_service healthy = Some n <-> (n <= 10)%nat /\ (0 < n)%nat /\ healthy (pred n) = true /\ forall k, (k < pred n)%nat -> healthy k = false).
  { intros n. unfold await_service. rewrite wait_spec. split.
    - intros (A & B & C). split; [lia|]. split; [lia|]. split; [exact B|]. intros k H. apply C. lia.
    - intros (A & A' & B & C). split; [lia|]. split; [exact B|]. intros k H. apply C. lia. }
  split; [exact X|]. split.
  - intros E. assert (Y : forall m, (m <= 10)%nat -> forall k, (k < m)%nat -> healthy k = false).
    { induction m as [|m IH]; intros L k H; [lia|]. destruct (Nat.eq_dec k m) as [->|N]; [|apply IH; lia]. destruct (healthy m) eqn:HM; [|reflexivity]. exfalso.
      assert (Z : await_service healthy = Some (S m)) by (apply X; cbn [pred]; split; [lia|]; split; [lia|]; split; [exact HM|]; apply (IH ltac:(lia))). congruence. }
    exact (Y 10%nat (le_n _)).
  - intros H. destruct (await_service healthy) as [n|]; [|reflexivity]. exfalso. destruct (proj1 (X n) eq_refl) as (L & P & HN & _). rewrite H in HN; [discriminate|lia].
Qed.

(** ** Examples *)
Definition no_env : environment := fun _ => "".
Definition one (var value : string) : environment := fun v => if String.eqb v var then value else "".
Definition willow0 : willow_config := mkWillowConfig "info" false "8080" "" "key" "crt" "https://limiter:8082" "ca" "k" "c" "memory".
Definition limiter0 : limiter_config := mkLimiterConfig "info" "8082" "" "key" "crt" "https://locker:8083" "ca" "k" "c" false.
Definition locker0 : locker_config := mkLockerConfig "info" "8083" "" "" "" true 5000000000.
Lemma ignored : forall pd,
  (exists c, Willow willow0 (one "WILLOW_LIMITER_CLIENT_CA" "other") = Some c /\ wc_lim_ca c = "ca") /\
  (exists c, Limiter limiter0 (one "LIMITER_LOG_LEVEL" "debug") = Some c /\ mc_log c = "info") /\
  (exists c, Limiter limiter0 (one "LIMITER_CA" "other") = Some c /\ mc_ca c = "") /\
  (exists c, Limiter limiter0 (one "LIMITER_LOCKER_CLIENT_CA" "other") = Some c /\ mc_loc_ca c = "ca") /\
  (exists c, Locker pd locker0 (one "LOCKER_INSECURE_HTTP" "false") = Some c /\ kc_insecure c = true).
Proof. intros pd. repeat split; eexists; (split; [vm_compute; reflexivity|reflexivity]). Qed.
Lemma bad_ports : forall pd, (exists c, Willow (mkWillowConfig "info" true "http" "" "" "" "" "" "" "" "memory") no_env = Some c /\ Atoi (wc_port c) = None) /\
  (exists c, Locker pd (mkLockerConfig "info" "-1" "" "" "" true 1) no_env = Some c /\ Atoi (kc_port c) = Some (-1)).
Proof. intros pd. split; eexists; (split; [vm_compute; reflexivity|vm_compute; reflexivity]). Qed.
Lemma certificate_unused : forall roots_ok, NewHTTPClient (fun _ _ => true) roots_ok (mkClientConfig "https://limiter:8082" "" "key" "crt") = Some DefaultTransport.
Proof. reflexivity. Qed.
