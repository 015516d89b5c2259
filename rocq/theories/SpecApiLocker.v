(** Specification for the locker's client and its list of locks. *)
From Coq Require Import String Ascii List Bool Arith NArith ZArith SpecFloat.
Import ListNotations.
From Verif Require Import Datatypes SpecValues Query SpecQuery Assoc SpecAssoc Locker SpecLocker Json Models SpecModels Http ApiLimiter SpecApiLimiter SpecApiSent ApiLocker.
Local Open Scope Z_scope.
Local Open Scope string_scope.

(** What is asked of the router: the routes of url_router.go:36-42 *)
Definition locker_router (router : method -> string -> option kroute) : Prop :=
  router POST "/v1/locks" = Some RkObtain /\ router GET "/v1/locks" = Some RkLocks /\
  forall lock, segment lock ->
    router DELETE ("/v1/locks/" ++ lock) = Some (RkRelease lock) /\
    router POST ("/v1/locks/" ++ lock ++ "/heartbeat") = Some (RkHeartbeat lock).

(** The lock id that a call addresses *)
Definition lock_of (c : locker_call) : option string := match c with CallObtain _ => None | CallHeartbeat lock _ | CallRelease lock _ => Some lock end.
(** The arguments can be told in JSON, and the lock can be addressed *)
Definition proper_locker_call (fmt_float : bool -> spec_float -> string) (parse_float : bool -> string -> option spec_float) (c : locker_call) : Prop :=
  when addressable (lock_of c) /\
  match c with CallObtain l => plain_lock fmt_float parse_float l | CallHeartbeat _ s | CallRelease _ s => text s end.

(** ** What is asked of the manager: the key-values and the timeout of the lock, or the service's timeout if it has none; the
    lock and the session *)
Definition timeout_given (default : Z) (s : LockSpec) : Z := match lk_props s with Some (Some t) => t | _ => default end.
Definition asks (default : Z) (c : locker_call) (t : ktask) : Prop :=
  match c with
  | CallObtain l => exists s kv, al_spec l = Some s /\ lk_db s = Some kv /\ t = TObtain kv (timeout_given default s)
  | CallHeartbeat lock s => t = THeartbeat lock s
  | CallRelease lock s => t = TRelease lock s
  end.
(** What the manager may answer *)
Definition answers (t : ktask) (a : kans) : Prop :=
  match t with
  | TObtain kv t => a = NUnavailable \/
      exists k, a = NGranted k /\ kp_kv k = kv /\ kp_timeout k = t /\ kp_expire k = t /\ kp_clients k = 1 /\
        text (kp_lock k) /\ kp_lock k <> "" /\ text (kp_session k) /\ kp_session k <> ""
  | TRelease _ _ | THeartbeat _ _ => a = NDone \/ a = NMissing \/ a = NConflict \/ a = NShutdown
  | TLocks _ => True
  end.
(** ** How a call ends that got through *)
Definition ends (default : Z) (c : locker_call) (a : kans) : kend :=
  match c, a with
  | CallObtain l, NGranted k =>
      KEnd (Returned (KLock (mkApiLock (option_map (fun s => mkLockSpec (lk_db s) (Some (Some (timeout_given default s)))) (al_spec l))
                                       (Some (mkLockState (kp_lock k) (kp_session k) (kp_expire k) (kp_clients k))))))
  | CallObtain _, _ => KAgain
  | CallHeartbeat _ _, NDone => KEnd (Returned KNothing)
  | CallHeartbeat _ _, NConflict => KEnd (ServiceError message)
  | CallHeartbeat _ _, _ => KEnd OtherError
  | CallRelease _ _, _ => KEnd (Returned KNothing)
  end.
(** Arguments as they should be: definite key-values and a timeout that is not 0; a session *)
Definition sound_locker_call (c : locker_call) : Prop :=
  match c with
  | CallObtain l => exists kv p, l = mkApiLock (Some (mkLockSpec (Some kv) p)) None /\ definite kv /\ p <> Some (Some 0)
  | CallHeartbeat _ s | CallRelease _ s => s <> ""
  end.
(** What a handler may pass on *)
Definition valid_ktask (t : ktask) : Prop :=
  match t with
  | TObtain kv t => definite kv /\ t <> 0
  | TRelease _ s | THeartbeat _ s => s <> ""
  | TLocks q => q_validate q = true
  end.

(** ** The list of locks *)
Section Locks.
  Variable fmt_float : bool -> spec_float -> string.
  Variable parse_float : bool -> string -> option spec_float.
  Variable key_dec : forall a b : KeyValues, {a = b} + {a <> b}.

  (** [tree] is the tree of the locks of the manager: every stored lock with its key-values and its id *)
  Definition lock_tree (st : locker KeyValues) (tree : atree nat) (name : nat -> string) : Prop :=
    (exists used, areach tree used) /\
    forall it, In it (a_items tree) <-> lm_cur _ st (it_kv it) = Some (it_val it) /\ it_id it = name (it_val it).
  (** What can be told in JSON, and timeouts and counts of clients that a Go program can have *)
  Definition plain_locks (st : locker KeyValues) (name : nat -> string) (since : nat -> Z) (tr : list (nat * lk_event KeyValues)) : Prop :=
    (forall kv j, lm_cur _ st kv = Some j -> definite kv /\ plain_kv fmt_float parse_float kv /\ text (name j) /\ name j <> "" /\ uint64 (waiting_for key_dec tr kv + holding key_dec tr kv)) /\
    (forall j, SpecModels.int64 (since j)) /\
    (forall t i kv j s d, In (t, LGrant _ i kv j s d) tr -> text s /\ 0 < Z.of_nat d <= 9223372036854775807).
  (** What the list has to say of the lock with key-values [kv] and id [name j]: who holds it, and how many clients hold it
      or wait for it *)
  Definition tells (tr : list (nat * lk_event KeyValues)) (name : nat -> string) (kv : KeyValues) (j : nat) (l : ApiLock) : Prop :=
    exists s t e, holder key_dec tr kv = Some (j, s) /\ (exists t' i d, In (t', LGrant _ i kv j s d) tr /\ t = Z.of_nat d) /\
      l = mkApiLock (Some (mkLockSpec (Some kv) (Some (Some t)))) (Some (mkLockState (name j) s e (waiting_for key_dec tr kv + holding key_dec tr kv))).
End Locks.
