(** What concurrent changes of counters are to achieve: as if the calls came one at a time. *)
From Coq Require Import List Bool Arith ZArith.
Import ListNotations.
From Verif Require Import AssocSync SpecAssocSync CounterSync.
Local Open Scope Z_scope.

(** One call at a time: what it does to the counter of its key-values; [None]: there is none *)
Definition effect (o : cop) (n : option Z) : option Z :=
  match o, n with
  | Add d, None => Some d
  | Add d, Some n => Some (plus64 n d)
  | Take d, None => None
  | Take d, Some n => if plus64 n d <=? 0 then None else Some (plus64 n d)
  | SetTo m, _ => if m <=? 0 then None else Some m
  | Read, n => n
  end.
(** Calls in an order: who, what, with which key-values *)
Definition entry := (nat * cop * kvs)%type.
Definition who (e : entry) : nat := fst (fst e).
Definition same_kvs (kv kv' : kvs) : {kv = kv'} + {kv <> kv'} := list_eq_dec (fun p q : pair => ltac:(decide equality; apply Nat.eq_dec)) kv kv'.
Definition total (kv : kvs) (l : list entry) : option Z :=
  fold_left (fun n '(_, o, kv') => if same_kvs kv' kv then effect o n else n) l None.

(** The counter of the key-values kv *)
Definition counter (kv : kvs) (n : option Z) (s : cstate) : Prop :=
  match n with
  | Some z => exists x, stored kv x (c_tree s) /\ c_val s x = z
  | None => forall x, ~ stored kv x (c_tree s)
  end.
(** Call i does o with the key-values kv; it has returned; it has not been made yet; it is a query that has returned v *)
Definition does (i : nat) (o : cop) (kv : kvs) (s : cstate) : Prop :=
  call_is i (call_of o) kv (c_tree s) /\ exists a, nth_error (c_calls s) i = Some (mkCall o a).
Definition ended (i : nat) (s : cstate) : Prop := exists c kv r, answered i c kv r (c_tree s).
Definition unmade (i : nat) (s : cstate) : Prop := nth_error (st_threads (c_tree s)) i = None.
Definition has_read (i : nat) (v : option Z) (s : cstate) : Prop := ended i s /\ nth_error (c_calls s) i = Some (mkCall Read v).
Definition before (i j : nat) (l : list nat) : Prop := exists l1 l2 l3, l = l1 ++ i :: l2 ++ j :: l3.

(** The order l explains the execution: every call that has returned is in it, some that run may be, none twice; a call that
    had returned when another was made comes before it; the counters are those that the calls leave behind one after the
    other, and queries return what the calls before them leave behind *)
Record explains (s : cstate) (tr : list cstate) (l : list entry) : Prop := {
  ex_once : NoDup (map who l);
  ex_calls : forall i o kv, In (i, o, kv) l -> does i o kv s;
  ex_all : forall i, ended i s -> In i (map who l);
  ex_order : forall s1 i j, In s1 (s :: tr) -> ended i s1 -> unmade j s1 -> In j (map who l) -> before i j (map who l);
  ex_counts : forall kv, counter kv (total kv l) s;
  ex_reads : forall l1 i kv l2 v, l = l1 ++ (i, Read, kv) :: l2 -> has_read i v s -> v = total kv l1 }.

(** Call i, what it does, with which key-values *)
Definition entry_of (s : cstate) (i : nat) : list entry :=
  match nth_error (c_calls s) i, nth_error (st_threads (c_tree s)) i with Some cc, Some th => [(i, cc_op cc, th_kv th)] | _, _ => [] end.
(** By how much the calls with the key-values kv increment their counter *)
Definition amounts (kv : kvs) (s : cstate) : list Z :=
  flat_map (fun e => match e with (_, Add d, kv') => if same_kvs kv' kv then [d] else [] | _ => [] end) (flat_map (entry_of s) (seq 0 (length (c_calls s)))).
Definition sum (l : list Z) : Z := fold_right Z.add 0 l.

(** A call takes a step; whichever calls move, in whichever order, and no new ones come: P will hold *)
Definition cmoves (s s' : cstate) : Prop := cstep s s' /\ length (c_calls s') = length (c_calls s).
Inductive cinevitably (P : cstate -> Prop) : cstate -> Prop :=
| cinevitably_now s : P s -> cinevitably P s
| cinevitably_later s : (exists s', cmoves s s') -> (forall s', cmoves s s' -> cinevitably P s') -> cinevitably P s.
Definition all_ended (s : cstate) : Prop := forall i, unmade i s \/ ended i s.
