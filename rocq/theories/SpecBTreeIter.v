(** What lookups that run beside other calls of the tree should look like from outside: each one sees the map as
    it was at one moment between its call and its return.  Independent of the tree's algorithms. *)
From Coq Require Import Permutation.
From Verif Require Import Datatypes SpecValues SpecBTree SpecFind BTreeSync SpecBTreeSync BTreeIter.
Local Open Scope nat_scope.

(** The keys a lookup visits: those of the types that it may look at which stand in the relation to its key, and
    [Any] (C10). *)
Definition wanted (l : lookup * EV * TypeRestrictions) (k : EV) : Prop :=
  let '(w, key, tr) := l in
  match w with
  | LkFind => (in_types tr k /\ in_relation LkFind key k) \/ (k = Any /\ tr_max tr = T_any)
  | LkNotEqual => in_types tr k /\ ~ same_value key k
  | LkLess | LkLessEq => ((tr_min tr <= ev_type k)%Z /\ in_relation w key k) \/ (k = Any /\ tr_max tr = T_any)
  | LkGreater | LkGreaterEq => (ev_type k <= tr_max tr)%Z /\ in_relation w key k
  end.

(** [l] is, each entry once and in some order, what a lookup visits in the map [m]; an exact lookup reports its
    own key, which is the same value as the stored one. *)
Definition sees {V} (q : lookup * EV * TypeRestrictions) (m l : list (EV * V)) : Prop :=
  exists l', exactly m (wanted q) l' /\ Forall2 (fun x y => same_value (fst x) (fst y) /\ snd x = snd y) l l'.

(** One entry of a sequential explanation: a call with its answer, a lookup with what it visited *)
Inductive item (V : Type) := OCall (c : nat) (a : ans V) | OLook (j : nat) (l : list (EV * V)).
Arguments OCall {V}. Arguments OLook {V}.

Section Lin.
  Context {V : Type}.
  Variable ops : nat -> cop V.
  Variable lks : nat -> lookup * EV * TypeRestrictions.

  (** Serving the calls and lookups one at a time *)
  Inductive serve : list (EV * V) -> list (item V) -> list (EV * V) -> Prop :=
  | SV_nil m : serve m [] m
  | SV_call m m' m'' c a l : call_step m (ops c) a m' -> serve m' l m'' -> serve m (OCall c a :: l) m''
  | SV_look m m'' j r l : sees (lks j) m r -> serve m l m'' -> serve m (OLook j r :: l) m''.

  (** Who: a call or a lookup *)
  Definition who (i : item V) : nat + nat := match i with OCall c _ => inl c | OLook j _ => inr j end.
  Definition called (e : xevent V) : option (nat + nat) :=
    match e with EB (ECall c) => Some (inl c) | ELCall j => Some (inr j) | _ => None end.
  Definition returned (e : xevent V) : option (item V) :=
    match e with EB (EReturn c a) => Some (OCall c a) | ELRet j l => Some (OLook j l) | _ => None end.

  (** [order] is a sequential explanation of the calls and returns [tr], which leaves the map [final]. *)
  Definition xexplains (tr : list (xevent V)) (order : list (item V)) (final : list (EV * V)) : Prop :=
    NoDup (map who order) /\
    (forall i, In i order -> exists e, In e tr /\ called e = Some (who i)) /\
    (forall e i, In e tr -> returned e = Some i -> In i order) /\
    (forall tr1 tr2 e e' i i', tr = tr1 ++ e' :: tr2 -> In e tr1 -> returned e = Some i -> called e' = Some (who i') ->
       In i' order -> before i i' order) /\
    serve [] order final.

  (** Every call (lookups aside) that was made has returned. *)
  Definition calls_back (tr : list (xevent V)) : Prop :=
    forall c, In (EB (ECall c)) tr -> exists a, In (EB (EReturn c a)) tr.

  (** The lookups have legal arguments. *)
  Definition good_lookups : Prop :=
    forall j, let '(w, key, tr) := lks j in key_allowed w key /\ tr_validate tr = true.
End Lin.

(** ** Progress *)
Section Live.
  Context {V : Type}.
  Variable n : nat.
  Variable ops : nat -> cop V.
  Variable lks : nat -> lookup * EV * TypeRestrictions.

  (** Any step but a new call or a new lookup *)
  Definition xgoes_on (s s' : xstate V) : Prop :=
    exists e, xstep n ops lks s e s' /\ (forall c, e <> Some (EB (ECall c))) /\ (forall j, e <> Some (ELCall j)).
  (** Every call and every lookup that was made has returned. *)
  Definition xall_back (s : xstate V) : Prop :=
    all_back (xs s) /\ forall j, xi s j = INew \/ exists b l, xi s j = IRet b l.
  (** However they are scheduled: somebody can always go on until [Q], and [Q] comes after finitely many steps. *)
  Inductive xinevitably (Q : xstate V -> Prop) : xstate V -> Prop :=
  | xinevitably_now s : Q s -> xinevitably Q s
  | xinevitably_later s : (exists s', xgoes_on s s') -> (forall s', xgoes_on s s' -> xinevitably Q s') -> xinevitably Q s.

  (** Create and Delete *)
  Definition writer (c : nat) : Prop := match ops c with KCreate _ _ | KDelete _ _ => True | _ => False end.

  (** The type restrictions of a lookup leave it something to look at. *)
  Definition has_way (q : lookup * EV * TypeRestrictions) : Prop :=
    let '(w, key, tr) := q in
    match w with
    | LkFind => key = Any \/ in_types tr key \/ tr_max tr = T_any
    | LkNotEqual => True
    | LkLess | LkLessEq => (tr_min tr <= ev_type key)%Z \/ tr_max tr = T_any
    | LkGreater | LkGreaterEq => (ev_type key <= tr_max tr)%Z
    end.

  (** What may follow a state, with the calls and returns in order *)
  Inductive xrun : xstate V -> list (xevent V) -> xstate V -> Prop :=
  | XR_nil s : xrun s [] s
  | XR_step s tr s1 e s2 :
      xrun s tr s1 -> xstep n ops lks s1 e s2 -> xrun s (match e with Some x => tr ++ [x] | None => tr end) s2.
End Live.
