(** Specification vocabulary for lookups. *)
From Verif Require Import Datatypes SpecValues BTree BTreeFind.
Local Open Scope nat_scope.

Section Spec.
  Context {V S : Type}.
  (** Offer the entries one by one to a callback until it declines; the final callback state, and whether it
      never declined. *)
  Fixpoint offer (cb : S -> EV -> V -> S * bool) (s : S) (l : list (EV * V)) : S * bool :=
    match l with
    | [] => (s, true)
    | (k, v) :: r => let '(s', go) := cb s k v in if go then offer cb s' r else (s', false)
    end.

  (** [l] lists, each once, exactly the entries of [c] whose key satisfies [P]. *)
  Definition exactly (c : list (EV * V)) (P : EV -> Prop) (l : list (EV * V)) : Prop :=
    NoDup l /\ forall k v, In (k, v) l <-> In (k, v) c /\ P k.
End Spec.

Definition in_types (tr : TypeRestrictions) (k : EV) : Prop := (tr_min tr <= ev_type k <= tr_max tr)%Z.

(** Replaying a lock trace: the multiset of read locks held; releasing a lock that is not held is fatal. *)
Definition lockid_eq_dec (a b : lockid) : {a = b} + {a <> b}.
Proof. decide equality. apply (list_eq_dec Nat.eq_dec). Defined.
Fixpoint release (l : lockid) (h : list lockid) : option (list lockid) :=
  match h with
  | [] => None
  | x :: r => if lockid_eq_dec l x then Some r
              else match release l r with Some r' => Some (x :: r') | None => None end
  end.
Fixpoint replay (h : list lockid) (ev : list lockop) : option (list lockid) :=
  match ev with
  | [] => Some h
  | RLk l :: r => replay (l :: h) r
  | RUn l :: r => match release l h with Some h' => replay h' r | None => None end
  end.
(** Every lock taken is released, and none is released without being held. *)
Definition lock_clean (ev : list lockop) : Prop := replay [] ev = Some [].

(** The lookups of the tree, and the parameters they accept. *)
Inductive lookup := LkFind | LkNotEqual | LkLess | LkLessEq | LkGreater | LkGreaterEq.
Definition run_lookup {V S} (w : lookup) (cb : S -> EV -> V -> S * bool) : option (node V) -> EV -> TypeRestrictions -> S -> fres :=
  match w with
  | LkFind => Find cb
  | LkNotEqual => FindNotEqual cb
  | LkLess => FindLessThan cb
  | LkLessEq => FindLessThanOrEqual cb
  | LkGreater => FindGreaterThan cb
  | LkGreaterEq => FindGreaterThanOrEqual cb
  end.
Definition key_allowed (w : lookup) (key : EV) : Prop :=
  good key /\ match w with LkFind => True | _ => key <> Any end.
(** A callback that records the entries it is given and decides on the whole record. *)
Definition recorder {V} (go : list (EV * V) -> bool) (seen : list (EV * V)) (k : EV) (v : V) : list (EV * V) * bool :=
  (seen ++ [(k, v)], go (seen ++ [(k, v)])).
(** What each range lookup is meant to visit. *)
Definition in_relation (w : lookup) (key k : EV) : Prop :=
  match w with
  | LkFind => key = Any \/ same_value key k
  | LkNotEqual => ~ same_value key k
  | LkLess => value_lt k key
  | LkLessEq => value_lt k key \/ same_value key k
  | LkGreater => value_lt key k
  | LkGreaterEq => value_lt key k \/ same_value key k
  end.
Definition meant (w : lookup) (key : EV) (tr : TypeRestrictions) (k : EV) : Prop :=
  (in_types tr k /\ in_relation w key k) \/ (k = Any /\ tr_max tr = T_any).
