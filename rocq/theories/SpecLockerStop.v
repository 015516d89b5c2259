(** What C86 talks about, read off a history of a locker that may be told to stop (newest event first). *)
From Coq Require Import List Bool Arith String.
From Verif Require Import Locker SpecLocker LockerStop.
Import ListNotations.
Local Open Scope list_scope.

Section Spec.
Context {key : Type}.
Variable key_dec : forall a b : key, {a = b} + {a <> b}.
Notation history := (list (nat * st_event key)).

(** everything but the stop itself and the 503 answers *)
Fixpoint lock_events (tr : history) : list (nat * lk_event key) :=
  match tr with
  | [] => []
  | (t, SEv _ e) :: r => (t, e) :: lock_events r
  | _ :: r => lock_events r
  end.
Definition event_key (e : lk_event key) : key :=
  match e with
  | LJoin _ _ k | LGrant _ _ k _ _ _ | LBeat _ k _ _ _ | LRelease _ k _ _ _ | LExpire _ k _ | LHandOn _ k | LLost _ _ k => k
  end.
(** the events about key [k] *)
Definition on_key (k : key) (tr : list (nat * lk_event key)) : list (nat * lk_event key) :=
  filter (fun e => same_key key_dec (event_key (snd e)) k) tr.
(** the ObtainLock of client [i] returns: with a lock, or with 503 *)
Definition answered (i : nat) (e : st_event key) : bool :=
  match e with
  | SAway _ i' _ | SEv _ (LGrant _ i' _ _ _ _) => Nat.eqb i' i
  | _ => false
  end.
(** something happens to a lock: it is granted, kept, released, taken away or handed on *)
Definition effect (e : lk_event key) : bool :=
  match e with
  | LGrant _ _ _ _ _ _ | LBeat _ _ _ _ true | LRelease _ _ _ _ true | LExpire _ _ _ | LHandOn _ _ => true
  | _ => false
  end.
(** a heartbeat for lock [j] of key [k], or a release on the key, is answered *)
Definition settled (k : key) (j : nat) (e : st_event key) : Prop :=
  match e with
  | SEv _ (LBeat _ k' j' _ _) => k' = k /\ j' = j
  | SEv _ (LRelease _ k' j' _ _) => k' = k /\ j' = j
  | _ => False
  end.
(** the lock of key [k] has stopped: its Execute has returned while the lock is still in the tree, or it was never to run *)
Definition ended (st : stopping key) (k : key) : Prop :=
  exists j, lm_cur _ (s_lm _ st) k = Some j /\ (l_ph _ (lm_lock _ (s_lm _ st) j) = LDone \/ s_mode _ st j = MRefused).
End Spec.
