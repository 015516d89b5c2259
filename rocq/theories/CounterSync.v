(** Model of concurrent changes of the limiter's counters (internal/limiter/counters): increments that no limit governs (and the last
    step of those that one does), decrements, sets and exact queries, any number of goroutines, on one associated tree
    (AssocSync.v).  No proofs in this file.  ([Limiter.v] models the same functions one at a time, with the limits.)

    A counter is the value of an item of the tree; its own lock (memory/counter.go) is held for one line at a time.  The
    callbacks of CreateOrFind and Delete are called while the B-tree associatedIDs has the item locked
    (btree/threadsafe_find.go, btree/threadsafe_delete.go): they are one step with the lookup or the deletion. *)
From Coq Require Import List Bool Arith ZArith.
Import ListNotations.
From Verif Require Import AssocSync.
Local Open Scope Z_scope.

(** int64 addition *)
Definition plus64 (a b : Z) : Z := (a + b + 9223372036854775808) mod 18446744073709551616 - 9223372036854775808.

(** counter_client_local.go: IncrementCounters (step 7, :220-232), DecrementCounters (:283-296), SetCounter (:298-330) and QueryCounters (:45-76) with the exact query *)
Inductive cop := Add (d : Z) | Take (d : Z) | SetTo (n : Z) | Read.
(** counter_client_local.go:229, :290, :301-307, :323, :67 *)
Definition call_of (o : cop) : call :=
  match o with Add _ => CFindCreate | Take _ => CDelete true | SetTo n => if n <=? 0 then CDelete true else CFindCreate | Read => CFind end.
(** :221-223, :315-317 with memory/counter.go:15-23 *)
Definition on_create (o : cop) : Z := match o with Add d => d | SetTo n => n | _ => 0 end.
(** :225-227, :319-321 with memory/counter.go:25-38 *)
Definition on_find (o : cop) (v : Z) : Z := match o with Add d => plus64 v d | SetTo n => n | _ => v end.
(** :286-288, :303-305: the value afterwards, and whether the item is deleted *)
Definition can_delete (o : cop) (v : Z) : Z * bool := match o with Take d => (plus64 v d, plus64 v d <=? 0) | _ => (v, true) end.

(** Which callback a step of the tree calls, and of which item *)
Inductive hit := HFound (x : nat) | HNew (x : nat) | HDelete (x : nat) | HKeep (x : nat).
Definition hits (p p' : pc) : option hit :=
  match p, p' with
  | PLookUp x _, PDone (RFound _) => Some (HFound x)
  | PFound _ x, PUnlock _ (RFound _) => Some (HFound x)
  | PCall _ x, PUnlock _ (RCreated _) => Some (HNew x)
  | DItem _ x, DUnlock _ (RDeleted _) _ => Some (HDelete x)
  | DItem _ x, DUnlock _ (RRefused _) _ => Some (HKeep x)
  | _, _ => None
  end.

(** A call, with what a query has read (:49-65, memory/counter.go:40-45) *)
Record ccall := mkCall { cc_op : cop; cc_read : option Z }.
(** [c_val]: the values of the items *)
Record cstate := mkC { c_tree : state; c_val : nat -> Z; c_calls : list ccall }.
Definition c0 : cstate := mkC (mkState empty_world []) (fun _ => 0) [].

(** What a callback does to the values and to the call *)
Definition called (h : option hit) (cc : ccall) (v : nat -> Z) (v' : nat -> Z) (cc' : ccall) : Prop :=
  match h with
  | None => v' = v /\ cc' = cc
  | Some (HFound x) => v' = set_item v x (on_find (cc_op cc) (v x)) /\ cc' = match cc_op cc with Read => mkCall Read (Some (v x)) | _ => cc end
  | Some (HNew x) => v' = set_item v x (on_create (cc_op cc)) /\ cc' = cc
  | Some (HDelete x) => snd (can_delete (cc_op cc) (v x)) = true /\ v' = set_item v x (fst (can_delete (cc_op cc) (v x))) /\ cc' = cc
  | Some (HKeep x) => snd (can_delete (cc_op cc) (v x)) = false /\ v' = set_item v x (fst (can_delete (cc_op cc) (v x))) /\ cc' = cc
  end.
(** Calls begin and take steps; callbacks of the tree never return nil (memory/constructor.go), nothing is destroyed *)
Inductive cstep : cstate -> cstate -> Prop :=
| CS_call w ts v cs o kv : allowed false w (call_of o) kv ->
    cstep (mkC (mkState w ts) v cs) (mkC (mkState w (ts ++ [mkThread (call_of o) kv (start (call_of o) kv)])) v (cs ++ [mkCall o None]))
| CS_step w ts v cs i c kv p w' p' cc v' cc' : nth_error ts i = Some (mkThread c kv p) -> nth_error cs i = Some cc ->
    tstep false i c kv w p w' p' -> called (hits p p') cc v v' cc' ->
    cstep (mkC (mkState w ts) v cs) (mkC (mkState w' (set_thread ts i (mkThread c kv p'))) v' (set_nth cs i cc')).
(** Executions: the states gone through, newest first *)
Inductive cexec : list cstate -> Prop :=
| CX_new : cexec [c0]
| CX_step s s' tr : cexec (s :: tr) -> cstep s s' -> cexec (s' :: s :: tr).
