(** What C31 talks about, read off a history (newest event first). *)
From Coq Require Import List Bool Arith.
From Verif Require Import Heartbeater.
Import ListNotations.

(** the three ways a heartbeater ends *)
Definition is_end (e : nat * hb_event) : bool :=
  match snd e with HStop _ true | HTimeout | HShutdown => true | _ => false end.
Definition ended (tr : list (nat * hb_event)) : bool := existsb is_end tr.
Definition is_started (e : nat * hb_event) : bool := match snd e with HStart _ true => true | _ => false end.
(** an event after which the holder has the full timeout: a start or an accepted heartbeat *)
Definition is_reset (e : nat * hb_event) : bool := match snd e with HStart _ true | HBeat _ true => true | _ => false end.
(** the holder was silent for [d] after its start or one of its accepted heartbeats *)
Definition silent_for (d : nat) (tr : list (nat * hb_event)) (now : nat) : Prop :=
  exists after e before, tr = after ++ e :: before /\ is_reset e = true /\ fst e + d <= now /\
    forall e', In e' after -> is_reset e' = true -> fst e + d <= fst e'.
