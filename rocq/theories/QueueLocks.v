(** Model of the locks that requests take in the B-tree of queues (internal/willow/brokers/queues/queues_client_local.go), with
    any number of concurrent requests.  No proofs in this file.

    A node of the tree is a number, 0 being the lock of the tree itself (threadsafe_b_tree.go:27-32) and 1 the root; [parent]
    gives the node above.  A request goes along a path of locks, from 0 down to the node where its queue is, or should be.
    Simplifications: the shape of the tree does not change (while a request waits for the root, no other one can change it);
    a deletion's locks of neighbouring nodes (threadsafe_delete.go) are not modelled; what a request does at the end of its
    path takes any time and can end at any time, whether it is a step of a channel, a call of the limiter, or a wait for an
    item to become available (queue_channels_client_local.go:228-262). *)
From Coq Require Import List Bool Arith.
Import ListNotations.

(** Requests.  [r_write]: it creates or deletes a queue, the others look one up.  [r_todo]: the locks still to take;
    [r_held]: the locks held, the lowest first; [r_asked]: a writer has announced that it wants the next lock (package sync,
    RWMutex.Lock: from then on new readers wait); [r_done]: it is answered *)
Record req := mkReq { r_write : bool; r_todo : list nat; r_held : list nat; r_asked : bool; r_done : bool }.

(** No other request keeps request [i] from locking [n]: for reading, or from announcing itself as a writer ... *)
Definition no_writer (rs : list req) (i n : nat) : Prop :=
  forall j r, nth_error rs j = Some r -> j <> i -> r_write r = true -> ~ In n (r_held r) /\ ~ (r_asked r = true /\ hd_error (r_todo r) = Some n).
(** ... or for writing *)
Definition nobody (rs : list req) (i n : nat) : Prop := forall j r, nth_error rs j = Some r -> j <> i -> ~ In n (r_held r).

(** The ways down the tree, from node [n] *)
Inductive way (parent : nat -> nat) : nat -> list nat -> Prop :=
| W_here n : way parent n []
| W_down n m p : m <> 0 -> parent m = n -> way parent m p -> way parent n (m :: p).

Inductive rstep : list req -> nat -> req -> req -> Prop :=
(* threadsafe_find.go:39 and :48, :107-109 (findMatchType): the next lock is taken before the previous one is released *)
| R_take rs i n todo held : length held <= 1 -> no_writer rs i n ->
    rstep rs i (mkReq false (n :: todo) held false false) (mkReq false todo (n :: held) false false)
| R_drop rs i n m todo : rstep rs i (mkReq false todo [n; m] false false) (mkReq false todo [n] false false)
(* threadsafe_find.go:95-98: the callback is called with the lock held *)
| R_end rs i n : rstep rs i (mkReq false [] [n] false false) (mkReq false [] [] false true)
(* threadsafe_create.go:41-52 and :124-126, threadsafe_delete.go:84-92: locks for writing; those above may be released once the
   next one is held (threadsafe_create.go:88-96, threadsafe_delete.go:111-123) *)
| W_ask rs i n todo held : no_writer rs i n ->
    rstep rs i (mkReq true (n :: todo) held false false) (mkReq true (n :: todo) held true false)
| W_take rs i n todo held : nobody rs i n ->
    rstep rs i (mkReq true (n :: todo) held true false) (mkReq true todo (n :: held) false false)
| W_drop rs i n m todo held : rstep rs i (mkReq true todo (n :: m :: held) false false) (mkReq true todo [n] false false)
| W_end rs i held : rstep rs i (mkReq true [] held false false) (mkReq true [] [] false true).

Fixpoint set_req (rs : list req) (i : nat) (r : req) : list req :=
  match rs, i with
  | [], _ => []
  | _ :: rs, O => r :: rs
  | x :: rs, S i => x :: set_req rs i r
  end.
(** Requests arrive, and take steps *)
Inductive qlabel := LArrive | LReq (i : nat).
Inductive qlstep (parent : nat -> nat) : list req -> qlabel -> list req -> Prop :=
| QL_arrive rs w p : way parent 0 p -> qlstep parent rs LArrive (rs ++ [mkReq w (0 :: p) [] false false])
| QL_step rs i r r' : nth_error rs i = Some r -> rstep rs i r r' -> qlstep parent rs (LReq i) (set_req rs i r').
Inductive qlreach (parent : nat -> nat) : list req -> Prop :=
| QR_new : qlreach parent []
| QR_step rs l rs' : qlreach parent rs -> qlstep parent rs l rs' -> qlreach parent rs'.
(** What can happen while request [i] makes no step *)
Inductive without (parent : nat -> nat) (i : nat) : list req -> list req -> Prop :=
| WO_none rs : without parent i rs rs
| WO_step rs rs1 l rs2 : without parent i rs rs1 -> l <> LReq i -> qlstep parent rs1 l rs2 -> without parent i rs rs2.
