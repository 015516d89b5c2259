(** Specification vocabulary for the ordered tree, independent of its algorithms. *)
From Coq Require Import Sorted Permutation.
From Verif Require Import Datatypes SpecValues BTree.
Local Open Scope nat_scope.

Section Spec.
  Context {V : Type}.
  (** All leaves at depth [h]; inner nodes have one more child than keys; every non-root node holds between
      n/2 and n keys. *)
  Fixpoint balanced (n h : nat) (t : node V) : Prop :=
    match h with
    | O => kids_of t = []
    | S h' => length (kids_of t) = S (length (vals_of t)) /\
              Forall (fun c => balanced n h' c /\ n / 2 <= length (vals_of c) <= n) (kids_of t)
    end.

  (** Keys strictly increasing in storage order, all of them legal non-NaN values. *)
  Definition ordered (l : list (EV * V)) : Prop :=
    StronglySorted (fun a b => value_lt (fst a) (fst b)) l /\ Forall (fun e => good (fst e)) l.

  (** The shape of a whole tree. *)
  Definition well_shaped (n : nat) (root : option (node V)) : Prop :=
    match root with
    | None => True
    | Some t => exists h, balanced n h t /\ length (vals_of t) <= n /\
                          (0 < h -> 1 <= length (vals_of t)) /\ ordered (flat t)
    end.

  (** [k] is stored with value [v] / not stored.  Keys are identified up to [same_value] (i.e. equal, except
      that 0.0 and -0.0 are one key). *)
  Definition stored (l : list (EV * V)) (k : EV) (v : V) : Prop :=
    exists k', same_value k k' /\ In (k', v) l.
  Definition not_stored (l : list (EV * V)) (k : EV) : Prop :=
    forall k' v, In (k', v) l -> ~ same_value k k'.
End Spec.

(** Histories of creations (with a constructor that yields a value) and deletions, starting from a tree
    without root; [None] = the code panicked. *)
Inductive tree_op (V : Type) :=
| OCreate (k : EV) (v : V)
| ODelete (k : EV) (can : EV -> V -> bool).
Arguments OCreate {V}.
Arguments ODelete {V}.
Definition op_key {V} (o : tree_op V) : EV := match o with OCreate k _ => k | ODelete k _ => k end.

Definition tree_step {V} (n : nat) (root : option (node V)) (o : tree_op V) : option (option (node V)) :=
  match o with
  | OCreate k v => match tree_create n root k (Some v) with TPanic => None | TExists _ r => Some r | TOk r => Some r end
  | ODelete k can => match tree_delete n root k can with TDPanic => None | TDOk r _ => Some r end
  end.
Fixpoint tree_run {V} (n : nat) (root : option (node V)) (ops : list (tree_op V)) : option (option (node V)) :=
  match ops with
  | [] => Some root
  | o :: r => match tree_step n root o with Some root' => tree_run n root' r | None => None end
  end.

(** The abstract map: what a history does to a set of key/value pairs. *)
Inductive map_step {V} : list (EV * V) -> tree_op V -> list (EV * V) -> Prop :=
| MS_exists c k v v0 : stored c k v0 -> map_step c (OCreate k v) c
| MS_create c c' k v : not_stored c k -> Permutation c' ((k, v) :: c) -> map_step c (OCreate k v) c'
| MS_absent c k can : not_stored c k -> map_step c (ODelete k can) c
| MS_veto c k k' v can : same_value k k' -> In (k', v) c -> can k' v = false -> map_step c (ODelete k can) c
| MS_delete c c' k k' v can : same_value k k' -> can k' v = true -> Permutation c ((k', v) :: c') ->
    map_step c (ODelete k can) c'.
Inductive map_run {V} : list (EV * V) -> list (tree_op V) -> list (EV * V) -> Prop :=
| MR_nil c : map_run c [] c
| MR_cons c c' c'' o ops : map_step c o c' -> map_run c' ops c'' -> map_run c (o :: ops) c''.
