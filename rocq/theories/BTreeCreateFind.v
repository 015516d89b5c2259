(** Model of CreateOrFind and Empty (internal/datastructures/btree/threadsafe_create.go:168-213,
    threadsafe_b_tree.go:90-99).  No proofs in this file. *)
From Verif Require Import Datatypes BTree BTreeFind.

Section M.
  Context {V : Type}.
  (** Outcome of CreateOrFind after its parameter and destroy checks: [onFind] was called with a value, or
      not; the tree afterwards. *)
  Inductive cof :=
  | CofPanic
  | CofFound (v : V) (r : option (node V))
  | CofCreated (r : option (node V)).

  (** threadsafe_create.go:168-213.  The read-only lookup comes first (:189-205); its callback records that it
      was called and declines to continue.  Only if it was not called is the writing pass made (:207-213), whose
      result is that of [tree_create] with onFind in place of ErrorKeyAlreadyExists. *)
  Definition CreateOrFind (n : nat) (root : option (node V)) (key : EV) (nv : option V) : cof :=
    let find := Find (fun (_ : option V) (_ : EV) (v : V) => (Some v, false)) root key
                     (mkTR (ev_type key) (ev_type key)) None in
    match find with
    | FPanic => CofPanic
    | FOk (Some v) _ => CofFound v root
    | _ =>
        match tree_create n root key nv with
        | TPanic => CofPanic
        | TExists v r => CofFound v r
        | TOk r => CofCreated r
        end
    end.

  (** threadsafe_b_tree.go:94-99 [Empty] *)
  Definition Empty (root : option (node V)) : bool := match root with None => true | Some _ => false end.
End M.
Arguments cof V : clear implicits.
