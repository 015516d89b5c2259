(** Proofs about the locker's client and its list of locks. *)
From Coq Require Import String Ascii List Bool Arith NArith ZArith SpecFloat Lia.
Import ListNotations.
From Verif Require Import Datatypes SpecValues DatatypesProofs PropLemmasValues Query SpecQuery QueryProofs Assoc SpecAssoc AssocProofs PropLemmasAssoc
  DestroySync Locker SpecLocker LockerProofs LockerTrace LockerLive Json Models SpecModels ModelsProofs Http ApiLimiter SpecApiLimiter ApiLimiterProofs SpecApiSent ApiSent ApiLocker SpecApiLocker.
Local Open Scope Z_scope.
Local Open Scope string_scope.

Lemma typed_definite : forall kv, typed_kv kv = true -> definite kv.
Proof. intros kv T. apply (no_any (fun _ _ => None)) in T. exact T. Qed.
Lemma lock_create_some : forall l, lock_create_ok l = true -> exists s kv, al_spec l = Some s /\ lk_db s = Some kv /\ typed_kv kv = true /\
  lk_props s <> Some (Some 0) /\ al_state l = None /\ forall default, lock_spec default (al_spec l) = Some (kv, timeout_given default s).
Proof.
  intros [[[[kv|] p]|] st] V; unfold lock_create_ok, lock_spec_ok in V; cbn [al_spec al_state needed lk_db lk_props] in V; try discriminate.
  apply andb_true_iff in V as [V S]. apply andb_true_iff in V as [V P]. destruct st; [discriminate|]. exists (mkLockSpec (Some kv) p), kv. cbn [al_spec al_state lk_db lk_props].
  split; [reflexivity|]. split; [reflexivity|]. split; [exact V|]. split; [intros ->; cbn in P; discriminate|]. split; [reflexivity|].
  intros default. cbn [lock_spec]. unfold timeout_given. cbn [lk_props]. reflexivity.
Qed.

Section Exchange.
  Variable fmt_float : bool -> spec_float -> string.
  Variable parse_float : bool -> string -> option spec_float.
  Variable default : Z.
  Variable router : method -> string -> option kroute.
  Hypothesis HR : locker_router router.

  Lemma lock_urls : forall lock, addressable lock ->
    Forall safe (chars (locks_url ++ "/" ++ lock ++ "/heartbeat")) /\ Forall safe (chars (locks_url ++ "/" ++ lock)) /\
    locks_url ++ "/" ++ lock ++ "/heartbeat" = "/v1/locks/" ++ lock ++ "/heartbeat" /\ locks_url ++ "/" ++ lock = "/v1/locks/" ++ lock.
  Proof.
    intros lock AD. unfold locks_url. split; [|split; [|split; reflexivity]].
    - apply safe_app; [safe_literal|]. apply safe_app; [safe_literal|]. apply safe_app; [apply safe_addressable, AD|safe_literal].
    - apply safe_app; [safe_literal|]. apply safe_app; [safe_literal|]. apply safe_addressable, AD.
  Qed.
  (** A call that is sent asks the manager for what it was given *)
  Lemma locker_reaches : forall c r, proper_locker_call fmt_float parse_float c -> kask fmt_float c = Sends r ->
    exists rt t, router (rq_method r) (rq_path r) = Some rt /\ khandler parse_float default rt (rq_body r) = Run t /\ asks default c t /\
      match c with CallObtain l => lock_create_ok l = true | _ => True end.
  Proof.
    intros c r (AD & PL) H. destruct HR as (R1 & R2 & R3). destruct (c78_locker fmt_float parse_float) as (A1 & A2).
    destruct c as [l|lock s|lock s]; cbn [lock_of when] in AD; cbn [kask] in H.
    - destruct l as [[[[kv|] p]|] st]; cbn [al_spec] in H; try discriminate. destruct (kv_validate _ _ _); [|discriminate].
      destruct (tell _ _ _ _ _) as [r'|] eqn:E; [|discriminate]. inversion H; subst r'. apply tell_safe in E as (body & S & ->); [|unfold locks_url; safe_literal].
      pose proof (sent_valid _ _ _ _ _ S) as V. destruct (lock_create_some _ V) as (s & kv' & E1 & E2 & _ & _ & _ & E3).
      cbn [rq_method rq_path rq_body]. exists RkObtain, (TObtain kv' (timeout_given default s)). split; [exact R1|]. cbn [khandler]. unfold reading, deref.
      rewrite (A1 _ body PL S), E3. split; [reflexivity|]. split; [|exact V]. exists s, kv'. auto.
    - destruct (lock_urls lock AD) as (S1 & _ & U1 & _). destruct (tell _ _ _ _ _) as [r'|] eqn:E; [|discriminate]. inversion H; subst r'.
      apply tell_safe in E as (body & S & ->); [|exact S1]. cbn [rq_method rq_path rq_body]. rewrite U1. destruct (R3 lock (segment_of lock AD)) as (_ & R4).
      exists (RkHeartbeat lock), (THeartbeat lock s). split; [exact R4|]. cbn [khandler]. unfold reading. rewrite (A2 s body PL S). repeat split.
    - destruct (lock_urls lock AD) as (_ & S1 & _ & U1). destruct (tell _ _ _ _ _) as [r'|] eqn:E; [|discriminate]. inversion H; subst r'.
      apply tell_safe in E as (body & S & ->); [|exact S1]. cbn [rq_method rq_path rq_body]. rewrite U1. destruct (R3 lock (segment_of lock AD)) as (R4 & _).
      exists (RkRelease lock), (TRelease lock s). split; [exact R4|]. cbn [khandler]. unfold reading. rewrite (A2 s body PL S). repeat split.
  Qed.
  Lemma asks_fun : forall c t t', asks default c t -> asks default c t' -> t = t'.
  Proof.
    intros [l|lock s|lock s] t t' H H'; cbn [asks] in *; try congruence. destruct H as (s & kv & E1 & E2 & ->), H' as (s' & kv' & E1' & E2' & ->). congruence.
  Qed.
  (** What becomes of the manager's answer *)
  Lemma granted_good : forall l s kv k, plain_lock fmt_float parse_float l -> lock_create_ok l = true -> al_spec l = Some s -> lk_db s = Some kv ->
    default <> 0 -> SpecModels.int64 default -> answers (TObtain kv (timeout_given default s)) (NGranted k) ->
    lock_model k = mkApiLock (option_map (fun s => mkLockSpec (lk_db s) (Some (Some (timeout_given default s)))) (al_spec l)) (Some (mkLockState (kp_lock k) (kp_session k) (kp_expire k) (kp_clients k))) /\
    plain_lock fmt_float parse_float (lock_model k) /\ lock_ok (lock_model k) = true.
  Proof.
    intros l s kv k (PS & PT) V E1 E2 D0 D1 A. cbn [answers] in A. destruct A as [A|(k' & A & K1 & K2 & K3 & K4 & K5 & K6 & K7 & K8)]; [discriminate|]. inversion A; subst k'.
    destruct (lock_create_some l V) as (s' & kv' & E1' & E2' & T & N0 & _ & _). rewrite E1 in E1'. inversion E1'; subst s'. rewrite E2 in E2'. inversion E2'; subst kv'.
    rewrite E1 in PS. cbn [when] in PS. rewrite E2 in PS. cbn [when] in PS. destruct PS as (P1 & P2).
    assert (TG : timeout_given default s <> 0 /\ SpecModels.int64 (timeout_given default s)).
    { unfold timeout_given. destruct (lk_props s) as [[t|]|]; auto. cbn [when] in P2. split; [congruence|exact P2]. }
    unfold lock_model. rewrite K1, K2, E1. cbn [option_map]. rewrite E2. split; [reflexivity|]. split.
    - unfold plain_lock. cbn [al_spec al_state when lk_db lk_props lt_id lt_session lt_expire lt_clients]. rewrite K3, K4. repeat split; try assumption; try apply P1; try apply TG; lia.
    - unfold lock_ok, lock_spec_ok, lock_state_ok. cbn [al_spec al_state needed allowed lk_db lk_props lt_id lt_session lt_clients]. rewrite T, K4.
      destruct (Z.eqb_spec (timeout_given default s) 0) as [E|_]; [exfalso; exact (proj1 TG E)|].
      apply String.eqb_neq in K6, K8. rewrite K6, K8. reflexivity.
  Qed.
  Lemma obtained : forall l s kv a, plain_lock fmt_float parse_float l -> al_spec l = Some s -> lk_db s = Some kv -> default <> 0 -> SpecModels.int64 default ->
    lock_create_ok l = true -> answers (TObtain kv (timeout_given default s)) a ->
    khear parse_float (CallObtain l) (krespond fmt_float (TObtain kv (timeout_given default s)) a) = ends default (CallObtain l) a.
  Proof.
    intros l s kv a PL E1 E2 D0 D1 V A. pose proof A as A'. cbn [answers] in A. destruct A as [->|(k & -> & _)]; [reflexivity|].
    destruct (granted_good l s kv k PL V E1 E2 D0 D1 A') as (M & P & O).
    destruct (c78_answers fmt_float parse_float) as (_ & _ & _ & _ & _ & _ & _ & _ & _ & AR & _ & _).
    assert (R : exists b, krespond fmt_float (TObtain kv (timeout_given default s)) (NGranted k) = Answer 200 b /\ receive lock_ok (dec_lock parse_float) b = Some (lock_model k)).
    { cbn [krespond]. unfold reply. destruct (send lock_ok (enc_lock fmt_float) (lock_model k)) as [b|] eqn:S; [exists (Some b); split; [reflexivity|exact (AR _ _ P S)]|].
      exfalso. unfold send in S. rewrite O in S. discriminate. }
    destruct R as (b & -> & R). cbn [khear]. change ((200 =? 503)%Z) with false. change ((200 =? 200)%Z) with true. cbv match. rewrite R.
    assert (S : exists s', al_spec (lock_model k) = Some s' /\ exists t, lk_props s' = Some (Some t)) by (eexists; split; [reflexivity|eexists; reflexivity]).
    destruct S as ([db p] & S & t & T). cbn [lk_props] in T. subst p. rewrite S. cbn [ends]. rewrite <- M. reflexivity.
  Qed.
  Lemma heard_other : forall good known (ok : option json -> option locker_result) st, (st =? good)%Z = false -> existsb (Z.eqb st) known = false ->
    hear good known ok (refuse st) = OtherError.
  Proof. intros good known ok st E1 E2. unfold hear, refuse. rewrite E1, E2. reflexivity. Qed.
  Lemma beat : forall lock s a, answers (THeartbeat lock s) a ->
    khear parse_float (CallHeartbeat lock s) (krespond fmt_float (THeartbeat lock s) a) = ends default (CallHeartbeat lock s) a.
  Proof.
    intros lock s a A. cbn [answers] in A. destruct A as [->|[->|[->| ->]]]; cbn [krespond ends]; unfold khear; [reflexivity| | |]; refine (f_equal KEnd _).
    - apply heard_other; reflexivity.
    - apply hear_message; [discriminate|cbn; auto].
    - apply heard_other; reflexivity.
  Qed.
  Lemma let_go : forall lock s a, answers (TRelease lock s) a ->
    khear parse_float (CallRelease lock s) (krespond fmt_float (TRelease lock s) a) = ends default (CallRelease lock s) a.
  Proof. intros lock s a A. cbn [answers] in A. destruct A as [->|[->|[->| ->]]]; reflexivity. Qed.
  Lemma locker_heard : forall c t a, proper_locker_call fmt_float parse_float c -> asks default c t -> default <> 0 -> SpecModels.int64 default ->
    match c with CallObtain l => lock_create_ok l = true | _ => True end -> answers t a ->
    khear parse_float c (krespond fmt_float t a) = ends default c a.
  Proof.
    intros c t a (_ & PL) AS D0 D1 V A. destruct c as [l|lock s|lock s]; cbn [asks] in AS.
    - destruct AS as (s & kv & E1 & E2 & ->). apply obtained; assumption.
    - subst t. apply beat, A.
    - subst t. apply let_go, A.
  Qed.

  (** ** C79 *)
  Lemma c79_locker : forall c manager t r, default <> 0 -> SpecModels.int64 default -> proper_locker_call fmt_float parse_float c ->
    kask fmt_float c = Sends r -> asks default c t -> answers t (manager t) ->
    locker_exchange fmt_float parse_float default router c manager Works = (Some t, ends default c (manager t)).
  Proof.
    intros c manager t r D0 D1 P S AS A. unfold locker_exchange. rewrite S. destruct (locker_reaches c r P S) as (rt & t' & R & H & AS' & V).
    pose proof (asks_fun c t t' AS AS'); subst t'. unfold kserve. rewrite R, H. rewrite (locker_heard c t (manager t) P AS D0 D1 V A). reflexivity.
  Qed.

  (** ** C81 *)
  Lemma c81_locker_effect : forall c manager n t e, proper_locker_call fmt_float parse_float c ->
    locker_exchange fmt_float parse_float default router c manager n = (t, e) ->
    (t = None /\ (n = RequestLost \/ forall r, kask fmt_float c <> Sends r)) \/
    (n <> RequestLost /\ exists t', t = Some t' /\ asks default c t').
  Proof.
    intros c manager n t e P H. unfold locker_exchange in H. destruct (kask fmt_float c) as [r|e'] eqn:S.
    - destruct (locker_reaches c r P S) as (rt & t' & R & HH & AS & _). unfold kserve in H. rewrite R, HH in H. destruct n; cbn [fst] in H; inversion H; subst; eauto 6.
      right. split; [discriminate|]. eauto. right. split; [discriminate|]. eauto.
    - inversion H; subst. left. split; [reflexivity|]. right. discriminate.
  Qed.
  Lemma c81_locker_returned : forall c manager n t x, proper_locker_call fmt_float parse_float c -> default <> 0 -> SpecModels.int64 default ->
    (forall t, answers t (manager t)) ->
    locker_exchange fmt_float parse_float default router c manager n = (t, KEnd (Returned x)) -> x <> KNoLock ->
    n = Works /\ exists t', t = Some t' /\ asks default c t' /\ ends default c (manager t') = KEnd (Returned x).
  Proof.
    intros c manager n t x P D0 D1 A H N. destruct (kask fmt_float c) as [r|e'] eqn:S.
    - destruct n; [|unfold locker_exchange in H; rewrite S in H; discriminate..].
      destruct (locker_reaches c r P S) as (rt & t' & R & HH & AS & _). rewrite (c79_locker c manager t' r D0 D1 P S AS (A t')) in H. inversion H. eauto 6.
    - unfold locker_exchange in H. rewrite S in H. inversion H; subst. destruct c as [l|lock s|lock s]; cbn [kask] in S.
      + destruct l as [[[[kv|] p]|] st]; cbn [al_spec] in S; try discriminate. destruct (kv_validate _ _ _); [destruct (tell _ _ _ _ _); discriminate|]. inversion S; subst. contradiction.
      + destruct (tell _ _ _ _ _); discriminate.
      + destruct (tell _ _ _ _ _); discriminate.
  Qed.
End Exchange.

Lemma definite_valid : forall kv, definite kv -> kv_validate kv MinDataType MaxDataType = true.
Proof. intros kv [V _]. apply kv_valid_iff. exact V. Qed.
Lemma c79_locker_sent : forall fmt_float c, sound_locker_call c -> when addressable (lock_of c) -> exists r, kask fmt_float c = Sends r.
Proof.
  intros ff c S AD. destruct c as [l|lock s|lock s]; cbn [sound_locker_call lock_of when] in *; cbn [kask].
  - destruct S as (kv & p & -> & D & N). cbn [al_spec]. rewrite (definite_valid kv D). destruct (tell _ _ _ _ _) as [r|] eqn:E; [exists r; reflexivity|]. exfalso. revert E. apply told_sent.
    + unfold lock_create_ok, lock_spec_ok. cbn [al_spec al_state needed lk_db lk_props]. rewrite (definite_typed kv D). destruct p as [[t|]|]; try reflexivity. cbn. destruct (Z.eqb_spec t 0) as [->|_]; [contradiction|reflexivity].
    + unfold locks_url. safe_literal.
  - destruct (lock_urls lock AD) as (F & _). destruct (tell _ _ _ _ _) as [r|] eqn:E; [exists r; reflexivity|]. exfalso. revert E. apply told_sent; [|exact F]. unfold claim_ok. apply String.eqb_neq in S. rewrite S. reflexivity.
  - destruct (lock_urls lock AD) as (_ & F & _). destruct (tell _ _ _ _ _) as [r|] eqn:E; [exists r; reflexivity|]. exfalso. revert E. apply told_sent; [|exact F]. unfold claim_ok. apply String.eqb_neq in S. rewrite S. reflexivity.
Qed.

(** ** C80 *)
Lemma c80_locker : forall fmt_float parse_float default router r manager, default <> 0 ->
  (exists t, valid_ktask t /\ kserve fmt_float parse_float default router r manager = (Some t, krespond fmt_float t (manager t))) \/
  (exists st b, kserve fmt_float parse_float default router r manager = (None, Answer st b) /\ (st = 400 \/ st = 404)).
Proof.
  intros ff pf default router r manager D0. unfold kserve. destruct (router (rq_method r) (rq_path r)) as [rt|]; [|right; eauto].
  destruct rt as [|lock|lock|]; cbn [khandler]; unfold reading, deref.
  - destruct (receive lock_create_ok (dec_lock pf) (rq_body r)) as [l|] eqn:R; [|right; unfold refuse; eauto]. apply received in R. destruct (lock_create_some l R) as (s & kv & E1 & E2 & T & N & _ & E).
    rewrite E. left. exists (TObtain kv (timeout_given default s)). split; [|reflexivity]. split; [apply typed_definite, T|]. unfold timeout_given. destruct (lk_props s) as [[t|]|]; congruence.
  - destruct (receive claim_ok dec_claim (rq_body r)) as [s|] eqn:R; [|right; unfold refuse; eauto]. apply received in R. left. eexists. split; [|reflexivity]. intros ->. discriminate.
  - destruct (receive claim_ok dec_claim (rq_body r)) as [s|] eqn:R; [|right; unfold refuse; eauto]. apply received in R. left. eexists. split; [|reflexivity]. intros ->. discriminate.
  - destruct (receive q_validate (dec_query pf) (rq_body r)) as [q|] eqn:R; [|right; unfold refuse; eauto]. apply received in R. left. eexists. split; [|reflexivity]. exact R.
Qed.

Lemma nodup_map : forall A B (f : A -> B) l, (forall a b, In a l -> In b l -> f a = f b -> a = b) -> NoDup l -> NoDup (map f l).
Proof.
  intros A B f l. induction l as [|x l IH]; intros HI N; [constructor|]. inversion N; subst. cbn [map]. constructor.
  - intros H. apply in_map_iff in H as (y & E & HY). apply HI in E; [subst; contradiction|right; exact HY|left; reflexivity].
  - apply IH; [|assumption]. intros a b HA HB. apply HI; right; assumption.
Qed.

(** ** The list of locks *)
Section Locks.
  Variable fmt_float : bool -> spec_float -> string.
  Variable parse_float : bool -> string -> option spec_float.
  Variable default : Z.
  Variable router : method -> string -> option kroute.
  Hypothesis HR : locker_router router.
  Variable key_dec : forall a b : KeyValues, {a = b} + {a <> b}.

  Lemma iterate_app : forall B (f : item nat -> B) l acc, iterate (fun acc i => ((acc ++ [f i])%list, true)) acc l = (acc ++ map f l)%list.
  Proof. intros B f l. induction l as [|i l IH]; intros acc; cbn [iterate map]; [rewrite app_nil_r; reflexivity|]. rewrite IH, <- app_assoc. reflexivity. Qed.
  (** What the service answers: the locks that the tree gives *)
  Lemma locks_asked : forall st tree name since r q, router (rq_method r) (rq_path r) = Some RkLocks -> receive q_validate (dec_query parse_float) (rq_body r) = Some q ->
    forall manager, manager (TLocks q) = LocksQuery st tree name since q ->
    query_no_nan q -> q = Q None None None \/ every_node node_simple q -> lock_tree st tree name ->
    exists l, NoDup l /\ (forall it, In it l <-> In it (a_items tree) /\ query_holds q (it_id it) (it_kv it)) /\
      kserve fmt_float parse_float default router r manager =
        (Some (TLocks q), reply (list_ok lock_ok) (fun l => JArr (map (null_or (enc_lock fmt_float)) l)) 200 (map (fun it => Some (lock_model (kept_of st name since (it_val it)))) l)).
  Proof.
    intros st tree name since r q HO HB manager HM NN SI ((used & AR) & _). destruct (c22_query tree used q AR (received _ _ _ _ _ HB) NN SI) as (l & N & HL & HQ).
    exists l. split; [exact N|]. split; [exact HL|]. unfold kserve. rewrite HO. cbn [khandler]. unfold reading. rewrite HB, HM. unfold LocksQuery. rewrite HQ, iterate_app. cbn [app krespond].
    rewrite map_map. reflexivity.
  Qed.
  (** A lock that is held is described as it should be; one that is not fails to validate *)
  Lemma described : forall k0 tr st name since kv j, lk_exec _ key_dec k0 tr st -> plain_locks fmt_float parse_float key_dec st name since tr -> lm_cur _ st kv = Some j ->
    let m := lock_model (kept_of st name since j) in
    match holder key_dec tr kv with
    | Some _ => tells key_dec tr name kv j m /\ plain_lock fmt_float parse_float m /\ lock_ok m = true
    | None => lock_ok m = false
    end.
  Proof.
    intros k0 tr st name since kv j EX (PK & PS & PG) C. cbv zeta. pose proof (exec_tr key_dec _ _ _ EX) as T. pose proof (exec_inv key_dec _ _ _ EX) as HI.
    destruct (i_cur _ HI _ _ C) as (KE & NJ & _). destruct (PK kv j C) as (DF & PKV & TN & NN & UC). pose proof (c29 key_dec k0 tr st kv EX) as (_ & _ & CQ). unfold locks_query in CQ. rewrite C in CQ.
    destruct CQ as (CN & CP & CS). pose proof (t_holder _ _ _ T kv) as TH. unfold lock_holder in TH. rewrite C in TH.
    pose proof (t_run _ _ _ T j) as TR. unfold keyof, ph in *.
    unfold kept_of, lock_model, timeout_of. cbn [kp_kv kp_timeout kp_lock kp_session kp_expire kp_clients]. rewrite KE.
    assert (HELD : forall s d, session_of (l_ph _ (lm_lock _ st j)) = s -> (exists tg i, In (tg, LGrant _ i kv j s d) tr) -> s <> "" -> holder key_dec tr kv = Some (j, s) ->
      let m := mkApiLock (Some (mkLockSpec (Some kv) (Some (Some (Z.of_nat d))))) (Some (mkLockState (name j) s (if String.eqb s "" then 0 else since j) (Z.of_nat (l_cnt _ (lm_lock _ st j))))) in
      tells key_dec tr name kv j m /\ plain_lock fmt_float parse_float m /\ lock_ok m = true).
    { intros s d SE (tg & i & G) NE HH. cbv zeta. destruct (PG _ _ _ _ _ _ G) as (TS & DD). rewrite <- CN in *. split; [|split].
      - exists s, (Z.of_nat d), (if String.eqb s "" then 0 else since j). split; [exact HH|]. split; [exists tg, i, d; auto|]. reflexivity.
      - unfold plain_lock. cbn [al_spec al_state when lk_db lk_props lt_id lt_session lt_expire lt_clients]. split; [split; [exact PKV|unfold SpecModels.int64; lia]|].
        split; [exact TN|]. split; [exact TS|]. split; [apply String.eqb_neq in NE; rewrite NE; apply PS|exact UC].
      - unfold lock_ok, lock_spec_ok, lock_state_ok. cbn [al_spec al_state needed allowed lk_db lk_props lt_id lt_session lt_clients]. rewrite (definite_typed kv DF).
        destruct (Z.eqb_spec (Z.of_nat d) 0) as [E|_]; [lia|]. apply String.eqb_neq in NE, NN. rewrite NE, NN.
        destruct (Z.eqb_spec (waiting_for key_dec tr kv + holding key_dec tr kv) 0) as [E|_]; [|reflexivity]. lia. }
    assert (NOT : holder key_dec tr kv = None -> session_of (l_ph _ (lm_lock _ st j)) = "").
    { intros E. rewrite E in CS. exact CS. }
    rewrite TH in *. destruct (l_ph _ (lm_lock _ st j)) as [|i d|s d nx tk|s d nx tk|tk b| | |] eqn:PH; cbn [session_of] in *; try (unfold lock_ok, lock_state_ok; cbn [al_state needed lt_session]; rewrite String.eqb_refl, ?andb_false_r; reflexivity).
    - destruct (TR s d nx tk eq_refl) as ((tg & i & G) & _). rewrite KE in G. apply HELD; eauto. eapply (i_sess _ HI j s d nx tk). left. exact PH.
    - destruct (TR s d nx true eq_refl) as ((tg & i & G) & _). rewrite KE in G. apply HELD; eauto. eapply (i_sess _ HI j s d nx tk). right. exact PH.
  Qed.
  Lemma list_ok_forall : forall A (v : A -> bool) (l : list (option A)), list_ok v l = true <-> Forall (fun o => needed v o = true) l.
  Proof. intros A v l. unfold list_ok. rewrite forallb_forall, Forall_forall. reflexivity. Qed.

  Lemma c83_listed : forall k0 tr st tree name since r q, lk_exec _ key_dec k0 tr st -> lock_tree st tree name -> plain_locks fmt_float parse_float key_dec st name since tr ->
    router (rq_method r) (rq_path r) = Some RkLocks -> receive q_validate (dec_query parse_float) (rq_body r) = Some q -> query_no_nan q -> q = Q None None None \/ every_node node_simple q ->
    forall manager, manager (TLocks q) = LocksQuery st tree name since q ->
    (forall kv j, lm_cur _ st kv = Some j -> query_holds q (name j) kv -> holder key_dec tr kv <> None) ->
    exists body l, kserve fmt_float parse_float default router r manager = (Some (TLocks q), Answer 200 (Some body)) /\
      receive (list_ok lock_ok) (slice (pointee (dec_lock parse_float))) (Some body) = Some (map (fun p => Some (snd p)) l) /\
      NoDup (map fst l) /\
      (forall kv, In kv (map fst l) <-> exists j, lm_cur _ st kv = Some j /\ query_holds q (name j) kv) /\
      (forall kv m, In (kv, m) l -> exists j, lm_cur _ st kv = Some j /\ tells key_dec tr name kv j m).
  Proof.
    intros k0 tr st tree name since r q EX LT PL HO HB NN SI manager HM HH.
    destruct (locks_asked st tree name since r q HO HB manager HM NN SI LT) as (l & N & HL & E). destruct LT as (_ & LT).
    assert (GOOD : forall it, In it l -> lm_cur _ st (it_kv it) = Some (it_val it) /\ it_id it = name (it_val it) /\ query_holds q (it_id it) (it_kv it) /\
      let m := lock_model (kept_of st name since (it_val it)) in tells key_dec tr name (it_kv it) (it_val it) m /\ plain_lock fmt_float parse_float m /\ lock_ok m = true).
    { intros it HI. apply HL in HI as (HI & HQ). apply LT in HI as (C & ID). split; [exact C|]. split; [exact ID|]. split; [exact HQ|].
      pose proof (described k0 tr st name since (it_kv it) (it_val it) EX PL C) as D. cbv zeta in *. pose proof (HH _ _ C ltac:(rewrite <- ID; exact HQ)) as NH. destruct (holder key_dec tr (it_kv it)); [exact D|contradiction]. }
    set (ms := map (fun it => lock_model (kept_of st name since (it_val it))) l).
    destruct (all_needed _ lock_ok (plain_lock fmt_float parse_float) ms) as [V P].
    { unfold ms. apply Forall_map, Forall_forall. intros it HI. destruct (GOOD it HI) as (_ & _ & _ & _ & P & O). auto. }
    assert (EM : map (fun it => Some (lock_model (kept_of st name since (it_val it)))) l = map Some ms) by (unfold ms; rewrite map_map; reflexivity).
    rewrite EM in E. unfold reply, send in E. rewrite V in E.
    destruct (c78_answers fmt_float parse_float) as (_ & _ & _ & _ & _ & _ & _ & _ & _ & _ & AR & _).
    eexists. exists (map (fun it => (it_kv it, lock_model (kept_of st name since (it_val it)))) l). split; [exact E|].
    split; [|split; [|split]].
    - erewrite (AR (map Some ms)); [|exact P|unfold send; rewrite V; reflexivity]. rewrite map_map. cbn [snd]. unfold ms. rewrite map_map. reflexivity.
    - rewrite map_map. cbn [fst]. apply nodup_map; [|exact N]. intros a b HA HB' EQ. destruct (GOOD a HA) as (CA & IA & _), (GOOD b HB') as (CB & IB & _).
      destruct a as [ia ka va], b as [ib kb vb]. cbn [it_kv it_val it_id] in *. subst kb. rewrite CA in CB. inversion CB; subst vb. congruence.
    - intros kv. rewrite map_map. cbn [fst]. split.
      + intros HI. apply in_map_iff in HI as (it & <- & HI). destruct (GOOD it HI) as (C & ID & HQ & _). exists (it_val it). rewrite <- ID. auto.
      + intros (j & C & HQ). apply in_map_iff. exists (mkItem (name j) kv j). split; [reflexivity|]. apply HL. cbn [it_id it_kv it_val]. split; [|exact HQ]. apply LT. auto.
    - intros kv m HI. apply in_map_iff in HI as (it & EQ & HI). inversion EQ; subst. destruct (GOOD it HI) as (C & _ & _ & TT & _). eauto.
  Qed.
  Lemma c83_refused : forall k0 tr st tree name since r q, lk_exec _ key_dec k0 tr st -> lock_tree st tree name -> plain_locks fmt_float parse_float key_dec st name since tr ->
    router (rq_method r) (rq_path r) = Some RkLocks -> receive q_validate (dec_query parse_float) (rq_body r) = Some q -> query_no_nan q -> q = Q None None None \/ every_node node_simple q ->
    forall manager, manager (TLocks q) = LocksQuery st tree name since q ->
    forall kv j, lm_cur _ st kv = Some j -> query_holds q (name j) kv -> holder key_dec tr kv = None ->
    kserve fmt_float parse_float default router r manager = (Some (TLocks q), refuse 500).
  Proof.
    intros k0 tr st tree name since r q EX LT PL HO HB NN SI manager HM kv j C HQ NH.
    destruct (locks_asked st tree name since r q HO HB manager HM NN SI LT) as (l & N & HL & E). destruct LT as (_ & LT). rewrite E. f_equal. unfold reply, send.
    destruct (list_ok lock_ok _) eqn:V; [|reflexivity]. exfalso. apply list_ok_forall in V. rewrite Forall_forall in V.
    pose proof (described k0 tr st name since kv j EX PL C) as D. cbv zeta in D. rewrite NH in D.
    specialize (V (Some (lock_model (kept_of st name since j)))). cbn [needed] in V. rewrite D in V. discriminate V. apply in_map_iff. exists (mkItem (name j) kv j). split; [reflexivity|].
    apply HL. cbn [it_id it_kv]. split; [|exact HQ]. apply LT. auto.
  Qed.
End Locks.
