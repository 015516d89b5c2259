(** C79-C82 for the locker's client, and C83.  The exchange is modelled in Http.v and ApiLocker.v, on top of Models.v (bodies),
    Locker.v (the manager) and Assoc.v (its tree); the specification is SpecApiLocker.v.  [manager] is any function from what a
    handler asks of the lock manager to what the manager answers in the end; [default]: the service's timeout. *)
From Coq Require Import String List ZArith SpecFloat.
Import ListNotations.
From Verif Require Import Datatypes SpecValues Query SpecQuery Assoc SpecAssoc Locker SpecLocker Json Models SpecModels ModelsExamples Http ApiLimiter SpecApiLimiter SpecApiSent
  ApiLocker SpecApiLocker ApiLockerProofs LockerTree LockerTreeProofs ApiLockerExamples.
Local Open Scope Z_scope.
Local Open Scope string_scope.

(** ** C79 *)
(** C79: a request of the client that is sent and gets through asks the manager for exactly what the caller asked for, and the
    call ends as the manager's answer says ([ends]): ObtainLock with the key-values and the timeout it was given, or the
    service's timeout, and with the ids of the lock and of the session that the manager granted *)
Theorem C79_locker_partial : forall fmt_float parse_float default router, locker_router router ->
  forall c manager t r, default <> 0 -> SpecModels.int64 default -> proper_locker_call fmt_float parse_float c ->
  kask fmt_float c = Sends r -> asks default c t -> answers t (manager t) ->
  locker_exchange fmt_float parse_float default router c manager Works = (Some t, ends default c (manager t)).
Proof. exact c79_locker. Qed.
Print Assumptions C79_locker_partial.
Example C79_locker_nonvacuous : locker_router split_krouter /\ proper_locker_call ff0 pf0 (CallObtain lock1) /\ (forall t, answers t (manager1 t)) /\
  (exists l, locker_exchange ff0 pf0 5 split_krouter (CallObtain lock1) manager1 Works = (Some (TObtain kv1 3000000000), KEnd (Returned (KLock l))) /\
    al_spec l = al_spec lock1 /\ al_state l = Some (mkLockState "l0" "s" 3000000000 1)) /\
  (exists l, locker_exchange ff0 pf0 5 split_krouter (CallObtain plain1) manager1 Works = (Some (TObtain kv1 5), KEnd (Returned (KLock l))) /\
    al_spec l = Some (mkLockSpec (Some kv1) (Some (Some 5)))).
Proof. exact (conj split_locker (conj proper_lock1 (conj manager1_answers (conj lock1_obtained plain1_obtained)))). Qed.
(** C79: a call with arguments as they should be is sent *)
Theorem C79_locker_sent : forall fmt_float c, sound_locker_call c -> when addressable (lock_of c) -> exists r, kask fmt_float c = Sends r.
Proof. exact c79_locker_sent. Qed.
Print Assumptions C79_locker_sent.
Example C79_locker_sent_nonvacuous : sound_locker_call (CallObtain lock1) /\ addressable "l0".
Proof. exact (conj sound_lock1 l0_addressable). Qed.

(** ** C80 *)
(** C80: whatever is sent to the locker, by whomever, either the handler asks the manager for something valid, or the answer is
    400 or 404 and the manager is asked for nothing *)
Theorem C80_locker : forall fmt_float parse_float default router r manager, default <> 0 ->
  (exists t, valid_ktask t /\ kserve fmt_float parse_float default router r manager = (Some t, krespond fmt_float t (manager t))) \/
  (exists st b, kserve fmt_float parse_float default router r manager = (None, Answer st b) /\ (st = 400 \/ st = 404)).
Proof. exact c80_locker. Qed.
Print Assumptions C80_locker.

(** ** C81 *)
(** C81: a request asks the manager once for what the caller asked for, or for nothing; for nothing only if the request was
    lost or not sent *)
Theorem C81_locker_effect_partial : forall fmt_float parse_float default router, locker_router router ->
  forall c manager n t e, proper_locker_call fmt_float parse_float c ->
  locker_exchange fmt_float parse_float default router c manager n = (t, e) ->
  (t = None /\ (n = RequestLost \/ forall r, kask fmt_float c <> Sends r)) \/
  (n <> RequestLost /\ exists t', t = Some t' /\ asks default c t').
Proof. exact c81_locker_effect. Qed.
Print Assumptions C81_locker_effect_partial.
(** C81: a call that returned an answer was carried out, whatever the network did, and the answer is what the manager said *)
Theorem C81_locker_returned_partial : forall fmt_float parse_float default router, locker_router router ->
  forall c manager n t x, proper_locker_call fmt_float parse_float c -> default <> 0 -> SpecModels.int64 default ->
  (forall t, answers t (manager t)) ->
  locker_exchange fmt_float parse_float default router c manager n = (t, KEnd (Returned x)) -> x <> KNoLock ->
  n = Works /\ exists t', t = Some t' /\ asks default c t' /\ ends default c (manager t') = KEnd (Returned x).
Proof. exact c81_locker_returned. Qed.
Print Assumptions C81_locker_returned_partial.
(** C81: but a Release that returned without an error need not have released anything: neither the handler nor, hence, the
    client is told that the lock does not exist or that another session holds it *)
Theorem C81_release_refuted : forall fmt_float parse_float default router manager lock s, locker_router router ->
  proper_locker_call fmt_float parse_float (CallRelease lock s) -> s <> "" -> default <> 0 -> SpecModels.int64 default ->
  manager (TRelease lock s) = NMissing \/ manager (TRelease lock s) = NConflict ->
  locker_exchange fmt_float parse_float default router (CallRelease lock s) manager Works = (Some (TRelease lock s), KEnd (Returned KNothing)).
Proof. exact released_anyway. Qed.
Print Assumptions C81_release_refuted.
Example C81_release_nonvacuous : proper_locker_call ff0 pf0 (CallRelease "l0" "s") /\ manager1 (TRelease "l0" "s") = NMissing.
Proof. split; [exact proper_release|reflexivity]. Qed.

(** ** C82 *)
(** C82: ObtainLock for key-values that are not valid returns neither a lock nor an error *)
Theorem C82_nothing_refuted : forall fmt_float parse_float default router manager n kv p, kv_validate kv MinDataType MaxDataType = false ->
  locker_exchange fmt_float parse_float default router (CallObtain (mkApiLock (Some (mkLockSpec (Some kv) p)) None)) manager n = (None, KEnd (Returned KNoLock)).
Proof. exact nothing_obtained. Qed.
Print Assumptions C82_nothing_refuted.
Example C82_nothing_nonvacuous : kv_validate [] MinDataType MaxDataType = false.
Proof. reflexivity. Qed.
(** C82: ObtainLock for a lock without a Spec makes the caller panic *)
Theorem C82_panic_refuted : forall fmt_float parse_float default router manager n,
  locker_exchange fmt_float parse_float default router (CallObtain (mkApiLock None None)) manager n = (None, KPanics).
Proof. exact bare_lock_panics. Qed.
Print Assumptions C82_panic_refuted.
(** C82: the service's message is lost if a heartbeat is answered with 404 *)
Theorem C82_heartbeat_refuted : forall fmt_float parse_float default router manager lock s, locker_router router ->
  proper_locker_call fmt_float parse_float (CallHeartbeat lock s) -> s <> "" -> default <> 0 -> SpecModels.int64 default ->
  manager (THeartbeat lock s) = NMissing ->
  krespond fmt_float (THeartbeat lock s) (manager (THeartbeat lock s)) = refuse 404 /\
  locker_exchange fmt_float parse_float default router (CallHeartbeat lock s) manager Works = (Some (THeartbeat lock s), KEnd OtherError).
Proof. exact unheard. Qed.
Print Assumptions C82_heartbeat_refuted.

(** ** C83: the list of locks *)
(** C83: in any state of the locker, after any history, in which every stored lock that the query selects is held, GET
    /v1/locks answers with every such lock once, and for each with its key-values, timeout, id, session and the number of
    clients that hold it or wait for it *)
Theorem C83_listed_partial : forall fmt_float parse_float default router key_dec,
  forall k0 tr st tree name since r q, lk_exec _ key_dec k0 tr st -> lock_tree st tree name -> plain_locks fmt_float parse_float key_dec st name since tr ->
  router (rq_method r) (rq_path r) = Some RkLocks -> receive q_validate (dec_query parse_float) (rq_body r) = Some q -> query_no_nan q -> q = Q None None None \/ every_node node_simple q ->
  forall manager, manager (TLocks q) = LocksQuery st tree name since q ->
  (forall kv j, lm_cur _ st kv = Some j -> query_holds q (name j) kv -> holder key_dec tr kv <> None) ->
  exists body l, kserve fmt_float parse_float default router r manager = (Some (TLocks q), Answer 200 (Some body)) /\
    receive (list_ok lock_ok) (slice (pointee (dec_lock parse_float))) (Some body) = Some (map (fun p => Some (snd p)) l) /\
    NoDup (map fst l) /\
    (forall kv, In kv (map fst l) <-> exists j, lm_cur _ st kv = Some j /\ query_holds q (name j) kv) /\
    (forall kv m, In (kv, m) l -> exists j, lm_cur _ st kv = Some j /\ tells key_dec tr name kv j m).
Proof. exact c83_listed. Qed.
Print Assumptions C83_listed_partial.
Example C83_listed_nonvacuous : locker_router split_krouter /\ receive q_validate (dec_query pf0) (rq_body all_locks) = Some (Q None None None) /\
  exists st, lk_exec _ kv_dec [] ev1 st /\ lock_tree st tree1 name1 /\ plain_locks ff0 pf0 kv_dec st name1 since1 ev1 /\
    (forall kv j, lm_cur _ st kv = Some j -> query_holds (Q None None None) (name1 j) kv -> holder kv_dec ev1 kv <> None) /\ lm_cur _ st kv1 = Some 0%nat.
Proof. exact (conj split_locker (conj all_asked held_listed)). Qed.
(** C83: [lock_tree] holds in every history of the manager with its tree; the ids of the locks are never "" and never drawn
    twice *)
Theorem C83_tree : forall key_dec name k0 tr st tree, (forall i j, name i = name j -> i = j) -> (forall i, name i <> "") ->
  tree_exec key_dec name k0 tr st tree -> lk_exec _ key_dec k0 tr st /\ lock_tree st tree name.
Proof. intros key_dec name k0 tr st tree I N. exact (c83_tree key_dec name I N k0 tr st tree). Qed.
Print Assumptions C83_tree.
(** C83: and the lock that the tree returns to a client is the one that the client waits for *)
Theorem C83_joined : forall key_dec name k0 tr st tree i k st', (forall i j, name i = name j -> i = j) -> (forall i, name i <> "") ->
  tree_exec key_dec name k0 tr st tree -> spelled st (Some (LJoin _ i k)) -> lk_step _ key_dec st (Some (LJoin _ i k)) st' ->
  exists j d, lm_client _ st' i = CWait j d /\ lm_cur _ st' k = Some j /\
    match snd (CreateOrFind tree k (name (lm_next _ st)) (Some (lm_next _ st))) with
    | RFound it => it_val it = j /\ it_id it = name j
    | RId id => j = lm_next _ st /\ id = name j
    | _ => False
    end.
Proof. intros key_dec name k0 tr st tree i k st' I N. exact (c83_joined key_dec name I N k0 tr st tree i k st'). Qed.
Print Assumptions C83_joined.
(** C83: every history of the manager in which equal key-values are spelled alike is one of the manager with its tree *)
Theorem C83_has_tree : forall key_dec name k0 tr st, lk_exec _ key_dec k0 tr st -> (forall k, joined tr k -> kv_arg k /\ kv_valid k) ->
  (forall k k', joined tr k -> joined tr k' -> kv_same k k' -> k = k') -> exists tree, tree_exec key_dec name k0 tr st tree.
Proof. exact c83_has_tree. Qed.
Print Assumptions C83_has_tree.
Example C83_tree_nonvacuous : (forall i j, name2 i = name2 j -> i = j) /\ (forall i, name2 i <> "") /\
  exists st tree, tree_exec kv_dec name2 [] ev1 st tree /\ lm_cur _ st kv1 = Some 0%nat.
Proof. split; [exact name2_inj|]. split; [intros i E; discriminate E|exact held_tree]. Qed.
(** C83: else the answer is 500 and nothing is listed, not even the locks that are held *)
Theorem C83_refused : forall fmt_float parse_float default router key_dec,
  forall k0 tr st tree name since r q, lk_exec _ key_dec k0 tr st -> lock_tree st tree name -> plain_locks fmt_float parse_float key_dec st name since tr ->
  router (rq_method r) (rq_path r) = Some RkLocks -> receive q_validate (dec_query parse_float) (rq_body r) = Some q -> query_no_nan q -> q = Q None None None \/ every_node node_simple q ->
  forall manager, manager (TLocks q) = LocksQuery st tree name since q ->
  forall kv j, lm_cur _ st kv = Some j -> query_holds q (name j) kv -> holder key_dec tr kv = None ->
  kserve fmt_float parse_float default router r manager = (Some (TLocks q), refuse 500).
Proof. exact c83_refused. Qed.
Print Assumptions C83_refused.
(** C83: such a state: one client holds a lock, another one waits for it, and a third one has just asked for another lock,
    which is stored, but not granted yet.  The list of all locks fails *)
Theorem C83_refuted : forall default router since, locker_router router -> (forall j, SpecModels.int64 (since j)) ->
  exists st, lk_exec _ kv_dec [] ev2 st /\ lock_tree st tree2 name1 /\ plain_locks ff0 pf0 kv_dec st name1 since ev2 /\ lm_cur _ st kv1 = Some 0%nat /\ holder kv_dec ev2 kv1 = Some (0%nat, "s") /\
    forall manager, manager (TLocks (Q None None None)) = LocksQuery st tree2 name1 since (Q None None None) ->
    kserve ff0 pf0 default router all_locks manager = (Some (TLocks (Q None None None)), refuse 500).
Proof. exact list_fails. Qed.
Print Assumptions C83_refuted.
