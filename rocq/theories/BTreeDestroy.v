(** Model of internal/datastructures/btree/threadsafe_destroy.go and of the destroy checks every operation of
    the tree makes, with any number of concurrent callers.  No proofs in this file.

    Each call is a thread.  Its atomic steps are the ones that touch shared bookkeeping (the wait group, the
    [destroying] flag, the list of keys being destroyed) and one step for its effect on the tree; the hand-over-hand
    node locking that makes that effect atomic is not modelled.  sync.WaitGroup's own misuse panics (Add racing
    with Wait at zero) are not modelled. *)
From Coq Require Import SpecFloat.
From Verif Require Import Datatypes BTree BTreeFind BTreeCreateFind.
Local Open Scope nat_scope.

(** Go's [==] on EncapsulatedValue (a struct of a DataType and an interface). *)
Definition payload_eq (p q : payload) : bool :=
  match p, q with
  | PNil, PNil => true
  | PInt a x, PInt b y => ikind_eqb a b && Z.eqb x y
  | PFloat32 x, PFloat32 y | PFloat64 x, PFloat64 y => SFeqb x y
  | PString x, PString y => String.eqb x y
  | _, _ => false
  end.
Definition ev_eq (a b : EV) : bool := Z.eqb (ev_type a) (ev_type b) && payload_eq (ev_data a) (ev_data b).

Section Destroy.
  Context {V : Type}.

  (** threadsafe_destroy.go:123-138 [iterateDestroy] *)
  Fixpoint iterateDestroy (t : node V) : list EV :=
    match t with Node vs ks => map fst vs ++ flat_map iterateDestroy ks end.

  (** The loop of DestroyAll, threadsafe_destroy.go:106-118.  Result: the root and the entries the callback was
      given, in order; [None] = nil pointer or index panic. *)
  Fixpoint destroy_loop (n : nat) (root : option (node V)) (keys : list EV) (can : EV -> V -> bool)
    : option (option (node V) * list (entry V)) :=
    match keys with
    | [] => Some (root, [])
    | key :: rest =>
        match root with
        | None => None
        | Some t =>
            match remove n t key can with
            | DPanic => None
            | DRes t' under asked =>
                let root' :=
                  if under then match t' with Node [] ks => match ks with [] => None | c :: _ => Some c end | _ => Some t' end
                  else Some t' in
                match asked with
                | Some (k, v) =>
                    if can k v then
                      match destroy_loop n root' rest can with
                      | Some (r, l) => Some (r, (k, v) :: l)
                      | None => None
                      end
                    else Some (root', [(k, v)])
                | None => destroy_loop n root' rest can
                end
            end
        end
    end.
  (** threadsafe_destroy.go:90-120, the body of DestroyAll *)
  Definition DestroyAll (n : nat) (root : option (node V)) (can : EV -> V -> bool)
    : option (option (node V) * list (entry V)) :=
    match root with
    | None => Some (None, [])
    | Some t => destroy_loop n root (iterateDestroy t) can
    end.

  (** ** Concurrent calls *)
  Inductive call :=
  | KCreate (k : EV) (v : V)                       (* threadsafe_create.go:44-64 *)
  | KCreateOrFind (k : EV) (v : V)                 (* :168-213 *)
  | KFind (k : EV)                                 (* threadsafe_find.go:18-85 *)
  | KLookup                                        (* the range lookups *)
  | KDelete (k : EV) (can : EV -> V -> bool)       (* threadsafe_delete.go:58-73 *)
  | KDestroy (k : EV) (can : EV -> V -> bool)      (* threadsafe_destroy.go:17-56 *)
  | KDestroyAll (can : EV -> V -> bool).           (* :75-121 *)

  (** Where a call is: not started; counted in the wait group; past the [destroying] check (for DestroyAll: the
      flag set by it); past the key check (for Destroy: key recorded; for DestroyAll: the wait group seen at
      zero); effect done; (Destroy only) key no longer recorded. *)
  Inductive phase := PNew | PEntered | PFlag | PReady | PApplied | PDone.
  (** [t_reg]: for a Destroy that has recorded its key, the number of calls made before that moment
      (bookkeeping for specifications only). *)
  Record thread := mkT { t_id : nat; t_call : call; t_phase : phase; t_reg : nat }.
  Record dstate := mkD {
    d_root : option (node V); d_flag : bool; d_keys : list EV; d_wg : nat; d_next : nat; d_threads : list thread }.

  Definition in_keys (ks : list EV) (k : EV) : bool := existsb (fun x => ev_eq x k) ks.
  (** threadsafe_destroy.go:43-53: swap with the last and pop, first match only *)
  Fixpoint find_index (ks : list EV) (k : EV) : option nat :=
    match ks with
    | [] => None
    | x :: r => if ev_eq x k then Some 0 else option_map S (find_index r k)
    end.
  Definition unrecord (ks : list EV) (k : EV) : list EV :=
    match find_index ks k with
    | None => ks
    | Some i => removelast (set_nth i (last ks k) ks)
    end.

  Definition check_key (c : call) : option EV :=
    match c with
    | KCreate k _ | KCreateOrFind k _ | KFind k | KDelete k _ | KDestroy k _ => Some k
    | KLookup | KDestroyAll _ => None
    end.
  Definition is_all (c : call) : bool := match c with KDestroyAll _ => true | _ => false end.
  Definition is_destroy (c : call) : bool := match c with KDestroy _ _ => true | _ => false end.

  (** The effect of a call on the tree; [None] = panic *)
  Definition effect (n : nat) (c : call) (r : option (node V)) : option (option (node V)) :=
    match c with
    | KCreate k v => match tree_create n r k (Some v) with TPanic => None | TExists _ r' => Some r' | TOk r' => Some r' end
    | KCreateOrFind k v =>
        match CreateOrFind n r k (Some v) with CofPanic => None | CofFound _ r' => Some r' | CofCreated r' => Some r' end
    | KFind _ | KLookup => Some r
    | KDelete k can | KDestroy k can => match tree_delete n r k can with TDPanic => None | TDOk r' _ => Some r' end
    | KDestroyAll can => match DestroyAll n r can with None => None | Some (r', _) => Some r' end
    end.

  Definition initial : dstate := mkD None false [] 0 0 [].

  (** What a step shows: a call rejected because the tree / the key is being destroyed, a call taking effect, or
      nothing. *)
  Inductive label := LErrTree (id : nat) | LErrKey (id : nat) | LApply (id : nat) | LTau.

  Inductive step (n : nat) : dstate -> label -> dstate -> Prop :=
  | S_call r f ks wg nx ths c :
      step n (mkD r f ks wg nx ths) LTau (mkD r f ks wg (S nx) (ths ++ [mkT nx c PNew 0]))
  (* readWriteWG.Add(1) *)
  | S_enter r f ks wg nx l1 l2 i c g : is_all c = false ->
      step n (mkD r f ks wg nx (l1 ++ mkT i c PNew g :: l2)) LTau
             (mkD r f ks (S wg) nx (l1 ++ mkT i c PEntered g :: l2))
  (* destroying.Load() *)
  | S_flag_err r ks wg nx l1 l2 i c g :
      step n (mkD r true ks (S wg) nx (l1 ++ mkT i c PEntered g :: l2)) (LErrTree i)
             (mkD r true ks wg nx (l1 ++ l2))
  | S_flag_ok r ks wg nx l1 l2 i c g :
      step n (mkD r false ks wg nx (l1 ++ mkT i c PEntered g :: l2)) LTau
             (mkD r false ks wg nx (l1 ++ mkT i c PFlag g :: l2))
  (* the scan of destroyingKeys *)
  | S_key_err r f ks wg nx l1 l2 i c g k : is_all c = false -> check_key c = Some k -> in_keys ks k = true ->
      step n (mkD r f ks (S wg) nx (l1 ++ mkT i c PFlag g :: l2)) (LErrKey i)
             (mkD r f ks wg nx (l1 ++ l2))
  | S_key_ok r f ks wg nx l1 l2 i c g : is_all c = false -> is_destroy c = false ->
      (forall k, check_key c = Some k -> in_keys ks k = false) ->
      step n (mkD r f ks wg nx (l1 ++ mkT i c PFlag g :: l2)) LTau
             (mkD r f ks wg nx (l1 ++ mkT i c PReady g :: l2))
  | S_record r f ks wg nx l1 l2 i k can g : in_keys ks k = false ->
      step n (mkD r f ks wg nx (l1 ++ mkT i (KDestroy k can) PFlag g :: l2)) LTau
             (mkD r f (ks ++ [k]) wg nx (l1 ++ mkT i (KDestroy k can) PReady nx :: l2))
  (* DestroyAll: CompareAndSwap, Wait *)
  | S_cas_err r ks wg nx l1 l2 i can g :
      step n (mkD r true ks wg nx (l1 ++ mkT i (KDestroyAll can) PNew g :: l2)) (LErrTree i)
             (mkD r true ks wg nx (l1 ++ l2))
  | S_cas_ok r ks wg nx l1 l2 i can g :
      step n (mkD r false ks wg nx (l1 ++ mkT i (KDestroyAll can) PNew g :: l2)) LTau
             (mkD r true ks wg nx (l1 ++ mkT i (KDestroyAll can) PFlag g :: l2))
  | S_wait r f ks nx l1 l2 i can g :
      step n (mkD r f ks 0 nx (l1 ++ mkT i (KDestroyAll can) PFlag g :: l2)) LTau
             (mkD r f ks 0 nx (l1 ++ mkT i (KDestroyAll can) PReady g :: l2))
  (* the effect on the tree *)
  | S_apply r r' f ks wg nx l1 l2 i c g : effect n c r = Some r' ->
      step n (mkD r f ks wg nx (l1 ++ mkT i c PReady g :: l2)) (LApply i)
             (mkD r' f ks wg nx (l1 ++ mkT i c PApplied g :: l2))
  (* deferred functions *)
  | S_unrecord r f ks wg nx l1 l2 i k can g :
      step n (mkD r f ks wg nx (l1 ++ mkT i (KDestroy k can) PApplied g :: l2)) LTau
             (mkD r f (unrecord ks k) wg nx (l1 ++ mkT i (KDestroy k can) PDone g :: l2))
  | S_return r f ks wg nx l1 l2 i c g p : is_all c = false ->
      (if is_destroy c then p = PDone else p = PApplied) ->
      step n (mkD r f ks (S wg) nx (l1 ++ mkT i c p g :: l2)) LTau (mkD r f ks wg nx (l1 ++ l2))
  | S_clear r f ks wg nx l1 l2 i can g :
      step n (mkD r f ks wg nx (l1 ++ mkT i (KDestroyAll can) PApplied g :: l2)) LTau
             (mkD r false ks wg nx (l1 ++ l2)).
End Destroy.
Arguments call V : clear implicits.
Arguments thread V : clear implicits.
Arguments dstate V : clear implicits.
