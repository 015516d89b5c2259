(** What concurrent calls of an associated tree are to achieve, in terms of the calls, their answers and the items stored. *)
From Coq Require Import List Bool Arith.
Import ListNotations.
From Verif Require Import AssocSync.

(** The item x is stored, with the key-values kv *)
Definition stored (kv : kvs) (x : nat) (s : state) : Prop := w_items (st_world s) x = Some kv.
Definition absent (x : nat) (s : state) : Prop := w_items (st_world s) x = None.
(** Call i is c, with the key-values kv; it is running; it has answered r *)
Definition call_is (i : nat) (c : call) (kv : kvs) (s : state) : Prop := exists p, nth_error (st_threads s) i = Some (mkThread c kv p).
Definition running (i : nat) (s : state) : Prop := exists th, nth_error (st_threads s) i = Some th /\ forall r, th_pc th <> PDone r.
Definition answered (i : nat) (c : call) (kv : kvs) (r : result) (s : state) : Prop := nth_error (st_threads s) i = Some (mkThread c kv (PDone r)).
(** A DestroyByAssociatedID of x is running *)
Definition destroyed_now (x : nat) (s : state) : Prop := exists i kv, call_is i (CDestroy x) kv s /\ running i s.
(** x is marked by its destruction: from now until that has ended, another DestroyByAssociatedID of x answers that it is being destroyed *)
Definition marked_now (x : nat) (s : state) : Prop := w_dying (st_world s) x = true.
(** No item has the key-values kv, but for some being destroyed *)
Definition gone (kv : kvs) (s : state) : Prop := forall x, stored kv x s -> destroyed_now x s.

(** An execution (newest state first) has a moment, while call i runs, when P *)
Definition moment (tr : list state) (i : nat) (P : state -> Prop) : Prop := exists s, In s tr /\ running i s /\ P s.
(** Call i takes a step, from a state s to s' *)
Definition next (tr : list state) (s s' : state) : Prop := exists tr1 tr2, tr = tr1 ++ s' :: s :: tr2.
Definition acts (i : nat) (s s' : state) : Prop :=
  (forall j, j <> i -> nth_error (st_threads s') j = nth_error (st_threads s) j) /\ nth_error (st_threads s') i <> nth_error (st_threads s) i.
Definition change (tr : list state) (i : nat) (P : state -> state -> Prop) : Prop := exists s s', next tr s s' /\ running i s /\ acts i s s' /\ P s s'.

(** Each answer is right at a moment during the call.  [nils]: onCreate may return nil, in some call *)
Definition right (nils : bool) (tr : list state) (i : nat) (c : call) (kv : kvs) (r : result) : Prop :=
  match c, r with
  (* creations: x is new and nothing had the key-values; it is found; something has the key-values; it is being destroyed *)
  | CCreate, RCreated x | CFindCreate, RCreated x => change tr i (fun s s' => gone kv s /\ absent x s /\ stored kv x s')
  | CFindCreate, RFound x => moment tr i (stored kv x)
  | CCreate, RExists => nils = true \/ moment tr i (fun s => exists x, stored kv x s)
  | CFindCreate, RBusy => moment tr i (fun s => exists x, stored kv x s /\ destroyed_now x s)
  | CCreate, RNil | CFindCreate, RNil | CFindCreate, RNeither => nils = true
  (* exact queries *)
  | CFind, RFound x => moment tr i (stored kv x)
  | CFind, RNone => moment tr i (gone kv)
  (* deletions *)
  | CDelete _, RDeleted x | CDeleteId _ _, RDeleted x => change tr i (fun s s' => stored kv x s /\ absent x s')
  | CDelete asks, RRefused x | CDeleteId asks _, RRefused x => asks = true /\ moment tr i (stored kv x)
  | CDelete _, RNone => moment tr i (gone kv)
  | CDeleteId _ y, RNone => moment tr i (fun s => stored kv y s -> destroyed_now y s)
  | CDelete _, RBusy | CDeleteId _ _, RBusy => moment tr i (fun s => exists x, stored kv x s /\ destroyed_now x s)
  (* destructions *)
  | CDestroy y, RDeleted x => x = y /\ change tr i (fun s s' => (exists kv', stored kv' x s) /\ absent x s')
  | CDestroy y, RRefused x => x = y /\ moment tr i (fun s => exists kv', stored kv' x s)
  | CDestroy y, RNone => moment tr i (absent y)
  | CDestroy y, RBusy => moment tr i (fun s => exists j kv', j <> i /\ call_is j (CDestroy y) kv' s /\ running j s)
  | _, _ => False
  end.

(** Call i can take a step *)
Definition moves (nils : bool) (i : nat) (s s' : state) : Prop :=
  exists c kv p w' p', nth_error (st_threads s) i = Some (mkThread c kv p) /\ tstep nils i c kv (st_world s) p w' p' /\
    s' = mkState w' (set_thread (st_threads s) i (mkThread c kv p')).
(** Whichever calls move, in whichever order, and no new ones come: P will hold *)
Inductive inevitably (nils : bool) (P : state -> Prop) : state -> Prop :=
| inevitably_now s : P s -> inevitably nils P s
| inevitably_later s : (exists i s', moves nils i s s') -> (forall i s', moves nils i s s' -> inevitably nils P s') -> inevitably nils P s.
Definition all_answered (s : state) : Prop := forall i, ~ running i s.
(** Call i can never take a step again, whatever happens *)
Definition stuck (nils destroys : bool) (i : nat) (s : state) : Prop :=
  running i s /\ forall tr tr', exec nils destroys (s :: tr) -> exec nils destroys (tr' ++ s :: tr) -> forall s', In s' tr' -> nth_error (st_threads s') i = nth_error (st_threads s) i.
(** From now on nothing is stored or removed, whatever happens *)
Definition frozen (nils destroys : bool) (s : state) : Prop :=
  forall tr tr', exec nils destroys (s :: tr) -> exec nils destroys (tr' ++ s :: tr) -> forall s', In s' tr' -> forall x, w_items (st_world s') x = w_items (st_world s) x.
