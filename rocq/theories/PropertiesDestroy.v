(** Properties C14 and C15. *)
From Coq Require Import Permutation.
From Verif Require Import Datatypes SpecValues BTree SpecBTree BTreeFind BTreeCreateFind PropLemmasTree3 BTreeDestroy SpecDestroy
  BTreeDestroyProofs PropLemmasDestroy.
Local Open Scope nat_scope.

(** C14: a call on a key made while that key is being destroyed never takes effect as long as the destroy lasts.
    [d] is destroying [k] in [s] and still is, after any steps, in [s1]; a call on the same key that takes effect
    then was already made in [s] (call numbers are given in the order calls are made). *)
Theorem C14_blocked : forall V n (s s1 s2 : dstate V) tr d d' k t k',
  2 <= n -> reachable n s -> In d (d_threads s) -> destroying_key d k ->
  steps n s tr s1 -> In d' (d_threads s1) -> t_id d' = t_id d -> destroying_key d' k ->
  step n s1 (LApply (t_id t)) s2 -> In t (d_threads s1) -> check_key (t_call t) = Some k' -> same_value k' k -> t_id t <> t_id d ->
  t_id t < d_next s.
Proof. exact @blocked_trace_lemma. Qed.
Print Assumptions C14_blocked.

(** C14: a call that looks while its key is being destroyed fails with "destroying" and changes nothing. *)
Theorem C14_rejected : forall V n (s : dstate V) l s' t d k k',
  2 <= n -> reachable n s -> step n s l s' ->
  In t (d_threads s) -> t_phase t = PFlag -> check_key (t_call t) = Some k' ->
  In d (d_threads s) -> destroying_key d k -> same_value k' k ->
  (l = LErrKey (t_id t) /\ d_root s' = d_root s) \/ In t (d_threads s').
Proof. exact @blocked_lemma. Qed.
Print Assumptions C14_rejected.

(** C14: only calls on a key another caller is destroying are rejected: other keys are unaffected, and once the
    destroy has ended (with or without success) the key is usable again. *)
Theorem C14_only_that_key : forall V n (s s' : dstate V) i,
  2 <= n -> reachable n s -> step n s (LErrKey i) s' ->
  exists t d k k', In t (d_threads s) /\ t_id t = i /\ check_key (t_call t) = Some k' /\
    In d (d_threads s) /\ d <> t /\ destroying_key d k /\ same_value k' k.
Proof. exact @key_error_lemma. Qed.
Print Assumptions C14_only_that_key.

(** C14/C15: in every interleaving the tree stays well shaped, no call panics, [Empty] is exact, every call has
    its sequential meaning ([call_means]: a successful Destroy removes exactly its key, a vetoed one nothing), and
    rejected calls and bookkeeping change nothing. *)
Theorem C14_effects : forall V n (s : dstate V) l s',
  2 <= n -> reachable n s -> step n s l s' ->
  well_shaped n (d_root s) /\ (Empty (d_root s) = true <-> contents (d_root s) = []) /\
  (forall t, In t (d_threads s) -> exists r, effect n (t_call t) (d_root s) = Some r) /\
  ((exists t, l = LApply (t_id t) /\ In t (d_threads s) /\ call_means (t_call t) (contents (d_root s)) (contents (d_root s'))) \/
   d_root s' = d_root s).
Proof. exact @tree_sound_lemma. Qed.
Print Assumptions C14_effects.

(** a reachable state in which key 1 is stored and being destroyed (call 1) while call 2 wants to find it *)
Definition c14_state : dstate nat :=
  mkD (Some (Node [(Int 1, 7)] [])) false [Int 1] 2 3
    [mkT 1 (KDestroy (Int 1) (fun _ _ => true)) PReady 2; mkT 2 (KFind (Int 1)) PFlag 0].
Example C14_nonvacuous : reachable 2 c14_state /\
  (exists d t s', d_threads c14_state = [d; t] /\ destroying_key d (Int 1) /\ t_phase t = PFlag /\ check_key (t_call t) = Some (Int 1) /\
     step 2 c14_state (LErrKey (t_id t)) s').
Proof.
  assert (G : good (Int 1)) by (split; [constructor; cbn; lia|intros [C|C]; discriminate]).
  split.
  - unfold c14_state.
    Ltac go c := eapply R_step; [|c|cbn [d_threads app]; repeat (apply Forall_cons; [intros k1 E1; cbn in E1; first [discriminate|injection E1 as <-; assumption]|]); try apply Forall_nil].
    go ltac:(apply (S_flag_ok 2 _ [Int 1] 2 3 [mkT 1 (KDestroy (Int 1) (fun _ _ => true)) PReady 2] [] 2)).
    go ltac:(apply (S_enter 2 _ false [Int 1] 1 3 [mkT 1 (KDestroy (Int 1) (fun _ _ => true)) PReady 2] [] 2); reflexivity).
    go ltac:(apply (S_call 2 _ false [Int 1] 1 2 [mkT 1 (KDestroy (Int 1) (fun _ _ => true)) PReady 2] (KFind (Int 1)))).
    go ltac:(apply (S_record 2 _ false [] 1 2 [] [] 1 (Int 1) _ 0); reflexivity).
    go ltac:(apply (S_flag_ok 2 _ [] 1 2 [] [] 1)).
    go ltac:(apply (S_enter 2 _ false [] 0 2 [] [] 1); reflexivity).
    go ltac:(apply (S_call 2 _ false [] 0 1 [] (KDestroy (Int 1) (fun _ _ => true)))).
    go ltac:(apply (S_return 2 _ false [] 0 1 [] [] 0 (KCreate (Int 1) 7) 0 PApplied); reflexivity).
    go ltac:(apply (S_apply 2 None _ false [] 1 1 [] [] 0 (KCreate (Int 1) 7) 0); vm_compute; reflexivity).
    go ltac:(apply (S_key_ok 2 _ false [] 1 1 [] [] 0 (KCreate (Int 1) 7) 0); [reflexivity|reflexivity|reflexivity]).
    go ltac:(apply (S_flag_ok 2 _ [] 1 1 [] [] 0)).
    go ltac:(apply (S_enter 2 _ false [] 0 1 [] [] 0); reflexivity).
    go ltac:(apply (S_call 2 _ false [] 0 0 [] (KCreate (Int 1) 7))).
    apply R_init.
  - eexists _, _, _. split; [reflexivity|]. split; [eexists; split; [reflexivity|left; reflexivity]|]. split; [reflexivity|]. split; [reflexivity|].
    apply (S_key_err 2 _ false [Int 1] 1 3 [mkT 1 (KDestroy (Int 1) (fun _ _ => true)) PReady 2] [] 2 (KFind (Int 1)) 0 (Int 1)); reflexivity.
Qed.

(** C15: without a veto the tree ends up empty and every entry was given to the callback exactly once; with a veto
    the vetoing entry and the entries not yet given to the callback remain. *)
Theorem C15_destroy_all : forall V n (root : option (node V)) can,
  2 <= n -> well_shaped n root ->
  exists r removed,
    (DestroyAll n root can = Some (r, removed) /\ contents r = [] \/
     exists k v, DestroyAll n root can = Some (r, removed ++ [(k, v)]) /\ can k v = false /\ In (k, v) (contents r)) /\
    well_shaped n r /\ Forall (fun e => can (fst e) (snd e) = true) removed /\
    Permutation (contents root) (removed ++ contents r).
Proof. exact @destroy_all_lemma. Qed.
Print Assumptions C15_destroy_all.

(** C15: while a DestroyAll works, nothing else touches the tree. *)
Theorem C15_exclusive : forall V n (s s' : dstate V) d i,
  2 <= n -> reachable n s -> In d (d_threads s) -> destroying_all d -> step n s (LApply i) s' -> i = t_id d.
Proof. exact @all_excl_lemma. Qed.
Print Assumptions C15_exclusive.

(** C15: calls are rejected with "tree destroying" only while some other caller's DestroyAll is running, so the tree is usable
    again after it. *)
Theorem C15_usable_again : forall V n (s s' : dstate V) i,
  2 <= n -> reachable n s -> step n s (LErrTree i) s' ->
  exists d can, In d (d_threads s) /\ t_call d = KDestroyAll can /\ t_phase d <> PNew /\ t_id d <> i.
Proof. exact @tree_error_lemma. Qed.
Print Assumptions C15_usable_again.

Example C15_nonvacuous : well_shaped 2 demo /\
  match DestroyAll 2 demo (fun k _ => negb (ev_eq k (Int 3))) with
  | Some (r, asked) => length (contents demo) = 8 /\ 0 < length asked < 8 /\ 0 < length (contents r)
  | None => False end.
Proof. split; [exact demo_shape|vm_compute]. repeat split; lia. Qed.
