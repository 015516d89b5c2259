(** Model of the locker service as its Go client sees it: pkg/clients/locker_client, internal/locker/api/v1 and, behind the
    handlers, the lock manager of Locker.v.  No proofs in this file.

    The manager answers when it can, and any number of requests are under way, so that a request is described by what is
    asked of the manager ([ktask]) and by what is made of its answer ([kans]).  The router is a function as in ApiLimiter.v.
    How often and when the client sends heartbeats is in LockClient.v. *)
From Coq Require Import String Ascii List Bool Arith NArith ZArith SpecFloat.
Import ListNotations.
From Verif Require Import Datatypes Query Assoc Locker Json Models Http ApiLimiter.
Local Open Scope Z_scope.
Local Open Scope bool_scope.
Local Open Scope string_scope.

(** ** Routes *)
(** url_router.go:36-42, with the named parameter *)
Inductive kroute := RkObtain | RkRelease (lock : string) | RkHeartbeat (lock : string) | RkLocks.

(** ** What the handlers ask of the manager, and its answers *)
Inductive ktask :=
| TObtain (kv : KeyValues) (timeout : Z) | TRelease (lock session : string) | THeartbeat (lock session : string) | TLocks (q : Query).
(** A lock as the manager describes it: exclusive_locker.go:121-129 and :154-169 *)
Record kept := mkKept { kp_kv : KeyValues; kp_timeout : Z; kp_lock : string; kp_session : string; kp_expire : Z; kp_clients : Z }.
(** ObtainLock returns a lock, or nil (exclusive_locker.go:112-133); Heartbeat and Release find nothing, another session, or a
    lock that has ended (exclusive_lock.go:309-321, :332-349); LocksQuery *)
Inductive kans :=
| NGranted (k : kept) | NUnavailable | NDone | NMissing | NConflict | NShutdown | NListed (l : list kept) | NPanic.
Definition lock_model (k : kept) : ApiLock :=
  mkApiLock (Some (mkLockSpec (Some (kp_kv k)) (Some (Some (kp_timeout k)))))
            (Some (mkLockState (kp_lock k) (kp_session k) (kp_expire k) (kp_clients k))).
(** lock.go:24-33 SetDefaultProperties, exclusive_locker.go:69, :95, :119: the key-values and the timeout; [None] = a nil
    pointer is dereferenced *)
Definition lock_spec (default : Z) (s : option LockSpec) : option (KeyValues * Z) :=
  match s with
  | Some (mkLockSpec (Some kv) p) => Some (kv, match p with Some (Some t) => t | _ => default end)
  | _ => None
  end.

(** ** LocksQuery *)
(** The lockTimeout field: exclusive_lock.go:275-278, :189-192, :226-229 *)
Definition timeout_of (p : phase) : Z := match p with LHeld _ d _ _ | LFired _ d _ _ => Z.of_nat d | _ => 0 end.
(** exclusive_locker.go:146-169.  [name]: the id of a lock in the tree; [since]: the time since the last heartbeat *)
Definition kept_of (st : locker KeyValues) (name : nat -> string) (since : nat -> Z) (j : nat) : kept :=
  let l := lm_lock _ st j in
  mkKept (l_key _ l) (timeout_of (l_ph _ l)) (name j) (session_of (l_ph _ l)) (if String.eqb (session_of (l_ph _ l)) "" then 0 else since j) (Z.of_nat (l_cnt _ l)).
(** exclusive_locker.go:137-176; [tree]: the tree of the locks, Assoc.v; an error of QueryAction is not looked at *)
Definition LocksQuery (st : locker KeyValues) (tree : atree nat) (name : nat -> string) (since : nat -> Z) (q : Query) : kans :=
  match QueryAction tree q (fun acc i => ((acc ++ [kept_of st name since (it_val i)])%list, true)) [] with
  | Some (Some l) => NListed l
  | Some None => NListed []
  | None => NPanic
  end.

Section Floats.
  Variable fmt_float : bool -> spec_float -> string.
  Variable parse_float : bool -> string -> option spec_float.
  (** locker_config.go:26: cfg.LockDefaultTimeout *)
  Variable default : Z.

  (** ** Handlers: locker_handler.go *)
  Definition khandler (rt : kroute) (body : option json) : handled ktask :=
    match rt with
    | RkObtain => reading lock_create_ok (dec_lock parse_float) body (fun l => deref (lock_spec default (al_spec l)) (fun '(kv, t) => TObtain kv t))
    | RkRelease lock => reading claim_ok dec_claim body (fun s => Run (TRelease lock s))
    | RkHeartbeat lock => reading claim_ok dec_claim body (fun s => Run (THeartbeat lock s))
    | RkLocks => reading q_validate (dec_query parse_float) body (fun q => Run (TLocks q))
    end.
  (** locker_handler.go:63-76, :96-103, :122-125, :148-151: Release does not look at the manager's answer.  After a grant the
      answer may fail to be sent, then the lock is released (:66-70). *)
  Definition krespond (t : ktask) (a : kans) : response :=
    match t, a with
    | _, NPanic => Broken
    | TObtain _ _, NGranted k => reply lock_ok (enc_lock fmt_float) 200 (lock_model k)
    | TObtain _ _, _ => empty_reply 503
    | TRelease _ _, _ => empty_reply 204
    | THeartbeat _ _, NMissing => refuse 404
    | THeartbeat _ _, NConflict => refuse 409
    | THeartbeat _ _, NShutdown => refuse 503
    | THeartbeat _ _, _ => empty_reply 200
    | TLocks _, NListed l => reply (list_ok lock_ok) (fun l => JArr (map (null_or (enc_lock fmt_float)) l)) 200 (map (fun k => Some (lock_model k)) l)
    | TLocks _, _ => empty_reply 200
    end.
  (** The service: what is asked of the manager, if anything, and the answer, given the manager's *)
  Definition kserve (router : method -> string -> option kroute) (r : request) (manager : ktask -> kans) : option ktask * response :=
    match router (rq_method r) (rq_path r) with
    | None => (None, Answer 404 None)
    | Some rt =>
        match khandler rt (rq_body r) with
        | Refused st => (None, refuse st)
        | Panics => (None, Broken)
        | Run t => (Some t, krespond t (manager t))
        end
    end.

  (** ** The client: pkg/clients/locker_client/locker_client.go, lock.go *)
  (** ObtainLock for key-values whose lock the client does not have yet; one heartbeat; Release of a lock that is not released *)
  Inductive locker_call := CallObtain (l : ApiLock) | CallHeartbeat (lock session : string) | CallRelease (lock session : string).
  (** What is returned: nothing but the absence of an error; a lock; neither a lock nor an error *)
  Inductive locker_result := KNothing | KLock (l : ApiLock) | KNoLock.
  (** How a call ends: it returns; ObtainLock tries again after a second (:200-202); the client's goroutine panics *)
  Inductive kend := KEnd (r : result locker_result) | KAgain | KPanics.
  (** What a call begins with: a request; or it ends at once *)
  Inductive kstart := Sends (r : request) | Ends (e : kend).
  Definition or_error (o : option request) : kstart := match o with Some r => Sends r | None => Ends (KEnd OtherError) end.
  Definition locks_url : string := "/v1/locks".
  (** locker_client.go:217 (CreateOrFind looks at the key-values before it calls onCreate, btree_associated/threadsafe_create.go:206-209,
      and its error is dropped), :131-143; lock.go:101-116, :175-184 *)
  Definition kask (c : locker_call) : kstart :=
    match c with
    | CallObtain l =>
        match al_spec l with
        | Some (mkLockSpec (Some kv) _) =>
            if kv_validate kv MinDataType MaxDataType then or_error (tell lock_create_ok (enc_lock fmt_float) POST locks_url l)
            else Ends (KEnd (Returned KNoLock))
        | _ => Ends KPanics
        end
    | CallHeartbeat lock s => or_error (tell claim_ok enc_claim POST (locks_url ++ "/" ++ lock ++ "/heartbeat") s)
    | CallRelease lock s => or_error (tell claim_ok enc_claim DELETE (locks_url ++ "/" ++ lock) s)
    end.
  (** locker_client.go:160-207; lock.go:127-150; :193-208.  newLock dereferences State and the Timeout of the answer
      (lock.go:77-79), the answer having been validated *)
  Definition khear (c : locker_call) (r : response) : kend :=
    match c with
    | CallObtain _ =>
        match r with
        | Answer st b =>
            if (st =? 503)%Z then KAgain
            else if (st =? 200)%Z then
              match receive lock_ok (dec_lock parse_float) b with
              | Some l => match al_spec l with Some (mkLockSpec _ (Some (Some _))) => KEnd (Returned (KLock l)) | _ => KPanics end
              | None => KEnd OtherError
              end
            else KEnd (hear 200 [400; 500] (fun _ => None) r)
        | Broken => KEnd OtherError
        end
    | CallHeartbeat _ _ => KEnd (hear 200 [409; 400] (fun _ => Some KNothing) r)
    | CallRelease _ _ => KEnd (hear 204 [409; 400] (fun _ => Some KNothing) r)
    end.
  (** One request of a call: what is asked of the manager, and how the call ends *)
  Definition locker_exchange (router : method -> string -> option kroute) (c : locker_call) (manager : ktask -> kans) (n : network) : option ktask * kend :=
    match kask c with
    | Ends e => (None, e)
    | Sends r =>
        match n with
        | RequestLost => (None, KEnd OtherError)
        | AnswerLost => (fst (kserve router r manager), KEnd OtherError)
        | Works => let '(t, a) := kserve router r manager in (t, khear c a)
        end
    end.
End Floats.
