(** What the theorems of PropertiesChannel.v speak about: the contents of a channel and the events of its history.
    Histories are newest first. *)
From Coq Require Import String List Bool Arith NArith ZArith.
From Verif Require Import Channel.
Import ListNotations.

Definition reach (tr : list (qop * qans)) (c : channel) : Prop := exists e r, qexec (newChannel e r) tr c.
(** The server is up and the channel is not being deleted by DeleteChannel or DeleteQueue *)
Definition serving (c : channel) : Prop := down c = false /\ rem c = RNo.

Definition stored (c : channel) (i : id) : Prop := get i (items c) <> None.
Definition contents (c : channel) (i : id) : option props := option_map it_props (get i (items c)).
Definition waiting (c : channel) (i : id) : Prop := In i (wait c).
(** handed to a client and not settled *)
Definition processing (c : channel) (i : id) : Prop := exists x, get i (items c) = Some x /\ it_hb x <> HbNone.
(** handed to a client, or on the way to one *)
Definition with_client (c : channel) (i : id) : Prop := processing c i \/ fl c = FTaken i.

(** Event e hands item i out / takes it back from the client *)
Definition hands_out (i : id) (e : qop * qans) : bool :=
  match e with (OCreate _, AItem j _) => Nat.eqb i j | _ => false end.
Definition settles (i : id) (e : qop * qans) : bool :=
  match e with
  | (OAck j, AAcked) => Nat.eqb i j
  | (ONack j, AFailed f) | (OTimeout j, AFailed f) => Nat.eqb i j && match f with Untouched => false | _ => true end
  | (OFailBack, ABack j f) => Nat.eqb i j && match f with Untouched => false | _ => true end
  | _ => false
  end.
(** By the history, a client has item i *)
Fixpoint out (i : id) (tr : list (qop * qans)) : bool :=
  match tr with [] => false | e :: t => if hands_out i e then true else if settles i e then false else out i t end.

Definition before (l : list id) (a b : id) : Prop := exists l1 l2 l3, l = l1 ++ a :: l2 ++ b :: l3.
Definition handed (i : id) (tr : list (qop * qans)) : bool := existsb (hands_out i) tr.
(** Event e puts item i in front of the waiting ones *)
Definition puts_front (e : qop * qans) : bool :=
  match e with
  | (ONack _, AFailed Requeued) | (OTimeout _, AFailed Requeued) | (OFailBack, ABack _ Requeued) => true
  | _ => false
  end.

(** Event e gives item i its (new) contents *)
Definition writes (i : id) (e : qop * qans) : bool :=
  match e with (OEnqueue _ _ _, AStored j) | (OEnqueue _ _ _, AUpdated j) => Nat.eqb i j | _ => false end.
(** How often item i was handed out, and how often a delivery of it failed, since it was last written *)
Fixpoint since (i : id) (f : qop * qans -> bool) (tr : list (qop * qans)) : nat :=
  match tr with
  | [] => 0
  | e :: t => if writes i e then 0 else (if f e then 1 else 0) + since i f t
  end.
Definition undelivered (i : id) (e : qop * qans) : bool :=
  match e with (OFailBack, ABack j f) => Nat.eqb i j && match f with Untouched => false | _ => true end | _ => false end.

(** Number of stored items, and of items with a client *)
Definition number_stored (c : channel) : nat := length (items c).
Definition number_processing (c : channel) : nat :=
  length (filter (fun e => match it_hb (snd e) with HbNone => false | _ => true end) (items c)).
(** Event e removes an item without giving its place in the queue back to the limiter *)
Definition leaks (e : qop * qans) : bool :=
  match e with
  | (ONack _, AFailed f) | (OTimeout _, AFailed f) => match f with Superseded | Replaced _ => true | _ => false end
  | _ => false
  end.
Definition count (f : qop * qans -> bool) (tr : list (qop * qans)) : nat := length (filter f tr).
(** Operation o is about to give back the running slot of an item a second time: the delivery of an item fails that was
    settled already, or an item is settled whose delivery has failed *)
Definition gives_back_twice (c : channel) (o : qop) : Prop :=
  match o with
  | OFailRun => exists i, fl c = FSent i /\ ~ processing c i
  | OAck i | ONack i => fl c = FBack i
  | _ => False
  end.
(** Histories without such operations *)
Inductive clean_exec (c0 : channel) : list (qop * qans) -> channel -> Prop :=
| CE_init : clean_exec c0 [] c0
| CE_step tr c o a c' : clean_exec c0 tr c -> ~ gives_back_twice c o -> qstep c o = Some (c', a) ->
    clean_exec c0 ((o, a) :: tr) c'.
(** The running slots in use for an item that is on the way to a client, and given back early for one whose delivery
    has failed *)
Definition fetching (c : channel) : nat := match fl c with FTake | FTaken _ => 1 | _ => 0 end.
Definition returning (c : channel) : nat := match fl c with FBack _ => 1 | _ => 0 end.
(** The client's time with item i has run out, and this is being dealt with *)
Definition timing_out (c : channel) (i : id) : Prop := exists x, get i (items c) = Some x /\ it_hb x = HbFired.
(** All but item i is as before *)
Definition only (i : id) (c c' : channel) : Prop :=
  (forall j, j <> i -> get j (items c') = get j (items c)).
(** The ways in which an item can leave *)
Inductive leaves (c : channel) (i : id) : qop * qans -> Prop :=
| L_ack : processing c i -> leaves c i (OAck i, AAcked)
| L_dropped o : (o = ONack i \/ o = OTimeout i) -> processing c i -> leaves c i (o, AFailed Dropped)
| L_superseded o j : (o = ONack i \/ o = OTimeout i) -> processing c i ->
    (exists p, contents c i = Some p /\ p_upd p = true) -> waiting c j -> leaves c i (o, AFailed Superseded)
| L_undelivered j : processing c i ->
    (exists p, contents c i = Some p /\ p_upd p = true) -> waiting c j -> leaves c i (OFailBack, ABack i Superseded)
| L_replaced o j : (o = ONack j \/ o = OTimeout j) -> waiting c i -> processing c j ->
    (exists p, contents c i = Some p /\ p_upd p = true) -> leaves c i (o, AFailed (Replaced i)).
(** The way in which an item can come *)
Inductive comes (c : channel) (i : id) : qop * qans -> Prop :=
| K_stored p : ~ stored c i -> comes c i (OEnqueue p i true, AStored i).

