(** A concrete concurrent run of a tree: overlapping creations, a split, a lookup that overtakes a creation,
    a deletion from an inner node. *)
From Coq Require Import Permutation.
From Verif Require Import Datatypes SpecValues BTree SpecBTree BTreeFind BTreeSync SpecBTreeSync PropLemmasTree3.
Local Open Scope nat_scope.

Definition yes (k : EV) (v : nat) : bool := true.
Definition dops (c : nat) : cop nat :=
  match c with
  | 0 => KCreate (Int 2) 20
  | 1 => KCreateOrFind (Int 1) 10
  | 2 => KCreate (Int 3) 30
  | 3 => KCreate (Int 4) 40
  | 4 => KFind (Int 1)
  | 5 => KDelete (Int 2) yes
  | 6 => KDelete (Int 4) yes
  | 7 => KCreate (Int 1) 11
  | _ => KFind (Int 9)
  end.
Lemma dops_good : good_calls dops.
Proof. intros c. do 8 (destruct c as [|c]; [apply good_int|]). apply good_int. Qed.

Ltac norm E :=
  match type of E with exec ?n ?o ?tr (mkState ?t ?r ?x ?p) =>
    let tr' := eval cbn [app] in tr in let t' := eval vm_compute in t in let r' := eval vm_compute in r in let x' := eval vm_compute in x in
    change (exec n o tr' (mkState t' r' x' p)) in E end.
Ltac via E s St :=
  let F := fresh in pose proof (X_step 2 dops _ _ _ _ E St) as F; cbn [top trs root ph] in F; subst s; clear E; rename F into E; norm E;
  match type of E with exec _ _ _ ?x => set (s := x) in E end.
Ltac call E s c := via E s (T_call 2 dops s c eq_refl).
Ltac lock E s c := via E s (T_lock 2 dops s c eq_refl eq_refl eq_refl).
Ltac root_ E s c := via E s (T_root 2 dops s c _ _ eq_refl eq_refl).
Ltac release E s c := via E s (T_release 2 dops s c _ eq_refl eq_refl eq_refl).
Ltac loc E s tac :=
  let x := eval unfold s in (root s) in let y := eval cbn [root] in x in
  match y with Some ?t =>
    let G := fresh in
    eassert (G : lstep 2 dops t _ _) by tac; via E s (T_local 2 dops s _ _ _ eq_refl G); try clear G end.
Ltac back E s c := via E s (T_return 2 dops s c _ eq_refl eq_refl).

(** The calls and returns of the run *)
Definition run : list (event nat) :=
  [ECall 0; ECall 1; EReturn 0 ACreated; ECall 2; EReturn 1 ACreated; EReturn 2 ACreated;
   ECall 3; ECall 4; ECall 5; EReturn 4 (AFound (Some 10)); EReturn 3 ACreated; ECall 6; EReturn 5 (AAsked (Some (Int 2, 20)));
   ECall 7; EReturn 6 (AAsked (Some (Int 4, 40))); EReturn 7 (AExists 10)].

Theorem overlapping : exists s, exec 2 dops run s /\ contents (tree_of s) = [(Int 1, 10); (Int 3, 30)] /\ all_returned run.
Proof.
  pose proof (X_start 2 dops) as E. unfold start in E.
  match type of E with exec _ _ _ ?x => set (s := x) in E end.
  call E s 0. call E s 1.
  via E s (T_rlock 2 dops s 1 eq_refl eq_refl).
  via E s (T_rnothing 2 dops s 1 [] [] eq_refl eq_refl).
  lock E s 0. via E s (T_new 2 dops s 0 _ _ eq_refl eq_refl eq_refl).
  loc E s ltac:(eapply (L_insert 2 dops 0 [] _ _ _); vm_compute; reflexivity).
  release E s 0. back E s 0.
  lock E s 1. root_ E s 1. loc E s ltac:(eapply (L_insert 2 dops 1 _ _ _ _); vm_compute; reflexivity). release E s 1.
  call E s 2. lock E s 2. root_ E s 2. loc E s ltac:(eapply (L_insert 2 dops 2 _ _ _ _); vm_compute; reflexivity).
  back E s 1. via E s (T_grow 2 dops s 2 _ _ _ _ _ eq_refl eq_refl eq_refl). back E s 2.
  (* tree: 2 over 1, 3 *)
  call E s 3. call E s 4. call E s 5.
  lock E s 3. root_ E s 3. release E s 3.
  via E s (T_rlock 2 dops s 4 eq_refl eq_refl).
  loc E s ltac:(eapply (L_down 2 dops 3 _ _ [_] _ _ []); vm_compute; reflexivity).
  loc E s ltac:(eapply (L_release 2 dops 3 _ _ _ _ _); vm_compute; reflexivity).
  via E s (T_rroot 2 dops s 4 [] [] _ _ _ eq_refl eq_refl).
  loc E s ltac:(eapply (L_rdown 2 dops 4 [] [] _ _ [] _ _ _ [_]); vm_compute; reflexivity).
  loc E s ltac:(eapply (L_kid 2 dops _ _ _ [] _ _ [_]); eapply (L_hit 2 dops 4 [] [] _ _ _ _ _); vm_compute; reflexivity).
  back E s 4.
  lock E s 5. root_ E s 5.
  loc E s ltac:(eapply (L_kid 2 dops _ _ _ [_] _ _ []); eapply (L_insert 2 dops 3 _ _ _ _); vm_compute; reflexivity).
  back E s 3.
  loc E s ltac:(eapply (L_swap 2 dops 5 _ _ _ _ _ _ _ _ _ _ _); vm_compute; reflexivity).
  call E s 6.
  loc E s ltac:(eapply (L_release 2 dops 5 _ _ _ _ _); vm_compute; reflexivity).
  release E s 5. back E s 5.
  lock E s 6. root_ E s 6.
  loc E s ltac:(eapply (L_down 2 dops 6 _ _ [_] _ _ []); vm_compute; reflexivity).
  loc E s ltac:(eapply (L_kid 2 dops _ _ _ [_] _ _ []); eapply (L_remove 2 dops 6 _ _ _ _ _); vm_compute; reflexivity).
  call E s 7.
  loc E s ltac:(eapply (L_rebalance 2 dops 6 _ _ _ _ _ _ _ _ _); vm_compute; reflexivity).
  via E s (T_shrink 2 dops s 6 _ _ eq_refl eq_refl).
  back E s 6.
  lock E s 7. root_ E s 7. loc E s ltac:(eapply (L_exists 2 dops 7 _ _ _ _ _ _); vm_compute; reflexivity). release E s 7. back E s 7.
  eexists. split; [exact E|]. split; [reflexivity|].
  intros c H. unfold run in *. repeat (destruct H as [H|H]; [try discriminate H; injection H as <-; eexists; cbn; auto 20|]). destruct H.
Qed.

(** A moment with calls inside: call 0 holds the root, call 1 looked its key up, found nothing and waits, call 2 waits *)
Theorem inside : exists s, exec 2 dops [ECall 0; ECall 1; ECall 2] s /\ ph s 0 = PWriting /\ ph s 1 = PWrite /\ ph s 2 = PWrite /\ holding 0 s = true.
Proof.
  pose proof (X_start 2 dops) as E. unfold start in E.
  match type of E with exec _ _ _ ?x => set (s := x) in E end.
  call E s 0. call E s 1.
  via E s (T_rlock 2 dops s 1 eq_refl eq_refl).
  via E s (T_rnothing 2 dops s 1 [] [] eq_refl eq_refl).
  lock E s 0. via E s (T_new 2 dops s 0 _ _ eq_refl eq_refl eq_refl). call E s 2.
  eexists. split; [exact E|]. repeat split; reflexivity.
Qed.
