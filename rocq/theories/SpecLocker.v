(** What C27-C30 talk about, read off a history (newest event first). *)
From Coq Require Import List Bool Arith String ZArith.
From Verif Require Import Locker.
Import ListNotations.
Local Open Scope list_scope.

Section Spec.
Context {key : Type}.
Variable key_dec : forall a b : key, {a = b} + {a <> b}.
Definition same_key (a b : key) : bool := if key_dec a b then true else false.
Notation history := (list (nat * lk_event key)).

(** who holds key [k], as lock id and session: the last grant, unless it was released or expired since *)
Fixpoint holder (tr : history) (k : key) : option (nat * string) :=
  match tr with
  | [] => None
  | (_, LGrant _ _ k' j s _) :: r => if same_key k' k then Some (j, s) else holder r k
  | (_, LRelease _ k' _ _ true) :: r => if same_key k' k then None else holder r k
  | (_, LExpire _ k' _) :: r => if same_key k' k then None else holder r k
  | _ :: r => holder r k
  end.

(** all sessions granted *)
Fixpoint sessions (tr : history) : list string :=
  match tr with
  | [] => []
  | (_, LGrant _ _ _ _ s _) :: r => s :: sessions r
  | _ :: r => sessions r
  end.

(** the number of clients that asked for [k], were not granted it and did not leave *)
Fixpoint waiting_for (tr : history) (k : key) : Z :=
  match tr with
  | [] => 0
  | (_, LJoin _ _ k') :: r => if same_key k' k then waiting_for r k + 1 else waiting_for r k
  | (_, LGrant _ _ k' _ _ _) :: r => if same_key k' k then waiting_for r k - 1 else waiting_for r k
  | (_, LLost _ _ k') :: r => if same_key k' k then waiting_for r k - 1 else waiting_for r k
  | _ :: r => waiting_for r k
  end%Z.
(** the number of granted claims on [k] that were neither released nor, after a timeout, handed on *)
Fixpoint holding (tr : history) (k : key) : Z :=
  match tr with
  | [] => 0
  | (_, LGrant _ _ k' _ _ _) :: r => if same_key k' k then holding r k + 1 else holding r k
  | (_, LRelease _ k' _ _ true) :: r => if same_key k' k then holding r k - 1 else holding r k
  | (_, LHandOn _ k') :: r => if same_key k' k then holding r k - 1 else holding r k
  | _ :: r => holding r k
  end%Z.

(** an event after which session [s] has its full timeout *)
Definition resets (s : string) (e : nat * lk_event key) : bool :=
  match snd e with LGrant _ _ _ _ s' _ => String.eqb s' s | LBeat _ _ _ s' true => String.eqb s' s | _ => false end.
(** session [s] was silent for [d] after its grant or one of its accepted heartbeats *)
Definition was_silent (s : string) (d : nat) (tr : history) (now : nat) : Prop :=
  exists after e before, tr = after ++ e :: before /\ resets s e = true /\ (fst e + d <= now)%nat /\
    forall e', In e' after -> resets s e' = true -> (fst e + d <= fst e')%nat.
End Spec.
