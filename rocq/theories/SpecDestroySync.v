(** What C26 talks about, read off a history (newest event first) only. *)
From Coq Require Import List Bool Arith.
From Verif Require Import DestroySync.
Import ListNotations.

(** call [j] was admitted as an ordinary operation and has not cleared *)
Fixpoint running (tr : list sync_event) (j : nat) : bool :=
  match tr with
  | [] => false
  | EvGuard i true :: r => if Nat.eqb i j then true else running r j
  | EvClear i :: r => if Nat.eqb i j then false else running r j
  | _ :: r => running r j
  end.
(** the call whose destroy has been admitted and not cleared *)
Fixpoint destroyer (tr : list sync_event) : option nat :=
  match tr with
  | [] => None
  | EvWait i true :: _ => Some i
  | EvRelease _ :: _ => None
  | _ :: r => destroyer r
  end.
(** call [j] is somewhere between entering WaitDestroy as the winner and the return of its ClearDestroy *)
Fixpoint in_destroy (tr : list sync_event) (j : nat) : bool :=
  match tr with
  | [] => false
  | EvBegin i :: r => if Nat.eqb i j then true else in_destroy r j
  | EvCleared i :: r => if Nat.eqb i j then false else in_destroy r j
  | _ :: r => in_destroy r j
  end.
(** call [j] is the winner inside WaitDestroy *)
Fixpoint waiting (tr : list sync_event) (j : nat) : bool :=
  match tr with
  | [] => false
  | EvBegin i :: r => if Nat.eqb i j then true else waiting r j
  | EvWait i true :: r => if Nat.eqb i j then false else waiting r j
  | _ :: r => waiting r j
  end.
