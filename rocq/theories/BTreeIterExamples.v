(** A concrete run: a lookup of all keys but one is inside the tree while another call creates a key behind it. *)
From Coq Require Import Permutation.
From Verif Require Import Datatypes SpecValues BTree SpecBTree BTreeFind SpecFind BTreeSync SpecBTreeSync PropLemmasTree3 BTreeIter SpecBTreeIter.
Local Open Scope nat_scope.

(** Calls have even numbers. *)
Definition iops (c : nat) : cop nat :=
  match c with
  | 0 => KCreate (Int 2) 20
  | 2 => KCreate (Int 4) 40
  | 4 => KCreate (Int 6) 60
  | _ => KCreate (Int 1) 10
  end.
(** Lookup 0: all keys but 9; lookup 1: the keys up to 2, and [Any]; the others: the int keys over 5, but of types other than int *)
Definition ilks (j : nat) : lookup * EV * TypeRestrictions :=
  match j with
  | 0 => (LkNotEqual, Int 9, mkTR 1 13)
  | 1 => (LkLessEq, Int 2, mkTR 1 1024)
  | _ => (LkGreater, Int 5, mkTR 1 1)
  end.
Lemma iops_good : good_calls iops.
Proof. intros c. do 5 (destruct c as [|c]; [apply good_int|]). apply good_int. Qed.
Lemma ilks_good : good_lookups ilks.
Proof. intros [|[|j]]; (split; [split; [apply good_int|first [exact Logic.I|discriminate]]|reflexivity]). Qed.

Ltac xnorm E :=
  match type of E with xexec ?n ?o ?l ?tr (mkX (mkState ?t ?r ?x ?p) ?f) =>
    let tr' := eval cbn [app] in tr in let t' := eval vm_compute in t in let r' := eval vm_compute in r in let x' := eval vm_compute in x in
    change (xexec n o l tr' (mkX (mkState t' r' x' p) f)) in E end.
Ltac xvia E s St :=
  let F := fresh in pose proof (XX_step 2 iops ilks _ _ _ _ E St) as F; subst s; try unfold with_root in F; cbn [option_map xs xi top trs root ph with_root] in F; clear E; rename F into E; xnorm E;
  match type of E with xexec _ _ _ _ ?x => set (s := x) in E end.
Ltac nolock := let j := fresh in let c := fresh in let H := fresh in
  intros j c H; first [discriminate | exfalso; match type of H with holds_tree (xi ?s _) = _ => subst s end; cbn [xi] in H; unfold set_xi in H; repeat (destruct (Nat.eqb j _); [discriminate H|]); discriminate H].
Ltac bvia E s e St :=
  let G := fresh in
  assert (G : forall c, e = Some (ECall (V := nat) c) -> Nat.odd c = false) by (intros ? X; first [discriminate X|injection X as <-; reflexivity]);
  let F := fresh in pose proof (X_base 2 iops ilks s e _ St G) as F; specialize (F ltac:(nolock)); xvia E s F; clear G; try clear F.
Ltac bcall E s c := bvia E s (Some (ECall (V := nat) c)) (T_call 2 (bops iops) (xs s) c eq_refl).
Ltac block E s c := bvia E s (@None (event nat)) (T_lock 2 (bops iops) (xs s) c eq_refl eq_refl eq_refl).
Ltac broot E s c := bvia E s (@None (event nat)) (T_root 2 (bops iops) (xs s) c _ _ eq_refl eq_refl).
Ltac brel E s c := bvia E s (@None (event nat)) (T_release 2 (bops iops) (xs s) c _ eq_refl eq_refl eq_refl).
Ltac bback E s c a := bvia E s (Some (EReturn (V := nat) c a)) (T_return 2 (bops iops) (xs s) c a eq_refl eq_refl).
Ltac bloc E s tac :=
  let x := eval unfold s in (root (xs s)) in let y := eval cbn [root xs] in x in
  match y with Some ?t =>
    let G := fresh in
    eassert (G : lstep 2 (bops iops) t _ _) by tac; bvia E s (@None (event nat)) (T_local 2 (bops iops) (xs s) _ _ _ eq_refl G); try clear G end.
Ltac newname := match goal with |- new_name ?s _ => subst s end; split; [reflexivity|split; [intros ? X; injection X as <-; cbn; intuition congruence|
  let j := fresh in intros j; cbn [xi]; unfold set_xi; repeat (destruct (Nat.eqb j _); [cbn; intuition congruence|]); cbn; intuition congruence]].
Ltac lroot E s j x :=
  let G := fresh in assert (G : new_name s x) by newname; xvia E s (X_root 2 iops ilks s j _ _ _ _ _ _ x eq_refl eq_refl G); try clear G.
Ltac lvisit E s j ys tac :=
  let x := eval unfold s in (root (xs s)) in let y := eval cbn [root xs] in x in
  let p := eval lazy beta iota zeta delta [xi set_xi Nat.eqb s ilks descents app] in (xi s j) in
  match y with Some ?t => match p with IDown ?d _ (?x :: _) _ =>
    let G := fresh in let N := fresh in let F := fresh in
    eassert (G : vstep d x ys t _ _) by tac;
    assert (N : NoDup ys) by (repeat constructor; cbn; intuition congruence);
    assert (F : Forall (new_name s) ys) by (repeat (apply Forall_cons; [newname|]); apply Forall_nil);
    xvia E s (X_visit 2 iops ilks s j _ _ _ _ _ _ _ _ ys eq_refl eq_refl G N F); try clear G; try clear N; try clear F end end.

(** The calls and returns of the run: lookup 0 overlaps the creation of 1 and does not see it, lookup 1 begins after
    the creation and sees it. *)
Definition irun : list (xevent nat) :=
  [EB (ECall 0); EB (EReturn 0 ACreated); EB (ECall 2); EB (EReturn 2 ACreated); EB (ECall 4); EB (EReturn 4 ACreated);
   ELCall 0; EB (ECall 6); EB (EReturn 6 ACreated); ELCall 1; ELRet 1 [(Int 1, 10); (Int 2, 20)];
   ELRet 0 [(Int 4, 40); (Int 2, 20); (Int 6, 60)]].

Theorem lookup_overtaken : exists s, xexec 2 iops ilks irun s /\ contents (tree_of (xs s)) = [(Int 1, 10); (Int 2, 20); (Int 4, 40); (Int 6, 60)] /\ calls_back irun.
Proof.
  pose proof (XX_start 2 iops ilks) as E. unfold xstart, start in E.
  match type of E with xexec _ _ _ _ ?x => set (s := x) in E end.
  bcall E s 0. block E s 0. bvia E s (@None (event nat)) (T_new 2 (bops iops) (xs s) 0 _ _ eq_refl eq_refl eq_refl).
  bloc E s ltac:(eapply (L_insert 2 (bops iops) 0 [] _ _ _); vm_compute; reflexivity). brel E s 0. bback E s 0 (@ACreated nat).
  bcall E s 2. block E s 2. broot E s 2. bloc E s ltac:(eapply (L_insert 2 (bops iops) 2 _ _ _ _); vm_compute; reflexivity). brel E s 2. bback E s 2 (@ACreated nat).
  bcall E s 4. block E s 4. broot E s 4. bloc E s ltac:(eapply (L_insert 2 (bops iops) 4 _ _ _ _); vm_compute; reflexivity).
  bvia E s (@None (event nat)) (T_grow 2 (bops iops) (xs s) 4 _ _ _ _ _ eq_refl eq_refl eq_refl). bback E s 4 (@ACreated nat).
  (* tree: 4 over 2, 6 *)
  xvia E s (X_call 2 iops ilks s 0 eq_refl).
  xvia E s (X_rlock 2 iops ilks s 0 eq_refl eq_refl).
  lroot E s 0 1.
  lvisit E s 0 [3; 5] ltac:(eapply (V_here _ 1 [3; 5] [] []); vm_compute; reflexivity).
  lvisit E s 0 (@nil nat) ltac:(eapply (V_kid _ 3 [] _ _ _ []); eapply (V_here _ 3 [] [] []); vm_compute; reflexivity).
  bcall E s 6. block E s 6. broot E s 6.
  bloc E s ltac:(eapply (L_down 2 (bops iops) 6 _ _ [] _ _ [_]); vm_compute; reflexivity).
  bloc E s ltac:(eapply (L_kid 2 (bops iops) _ _ _ [] _ _ [_]); eapply (L_insert 2 (bops iops) 6 _ _ _ _); vm_compute; reflexivity).
  bloc E s ltac:(eapply (L_release 2 (bops iops) 6 _ _ _ _ _); vm_compute; reflexivity). brel E s 6. bback E s 6 (@ACreated nat).
  xvia E s (X_call 2 iops ilks s 1 eq_refl).
  xvia E s (X_rlock 2 iops ilks s 1 eq_refl eq_refl).
  lroot E s 1 1.
  lvisit E s 1 [7] ltac:(eapply (V_here _ 1 [7] [] []); vm_compute; reflexivity).
  lvisit E s 1 (@nil nat) ltac:(eapply (V_kid _ 7 [] _ _ _ []); eapply (V_here _ 7 [] [] []); vm_compute; reflexivity).
  xvia E s (X_next 2 iops ilks s 1 _ _ _ _ eq_refl).
  lroot E s 1 9.
  lvisit E s 1 [11] ltac:(eapply (V_here _ 9 [11] [] []); vm_compute; reflexivity).
  lvisit E s 1 (@nil nat) ltac:(eapply (V_kid _ 11 [] _ _ _ [_]); eapply (V_here _ 11 [] [] [_]); vm_compute; reflexivity).
  xvia E s (X_end 2 iops ilks s 1 _ _ eq_refl).
  xvia E s (X_return 2 iops ilks s 1 _ _ eq_refl).
  lvisit E s 0 (@nil nat) ltac:(eapply (V_kid _ 5 [] _ _ _ [_]); eapply (V_here _ 5 [] [] []); vm_compute; reflexivity).
  xvia E s (X_end 2 iops ilks s 0 _ _ eq_refl).
  xvia E s (X_return 2 iops ilks s 0 _ _ eq_refl).
  eexists. split; [exact E|]. split; [reflexivity|].
  intros c H. unfold irun in *. repeat (destruct H as [H|H]; [try discriminate H; injection H as <-; eexists; cbn; auto 20|]). destruct H.
Qed.

(** Lookup 0 stands inside the tree, call 6 waits for the root, lookup 1 waits for the tree: all come to an end. *)
Definition iwait : list (xevent nat) :=
  [EB (ECall 0); EB (EReturn 0 ACreated); ELCall 0; EB (ECall 6); ELCall 1].
Theorem calls_wait : exists s, xexec 2 iops ilks iwait s /\ ph (xs s) 6 = PWWait /\ xi s 1 = IWant /\ (exists d rest x acc, xi s 0 = IDown d rest [x] acc).
Proof.
  pose proof (XX_start 2 iops ilks) as E. unfold xstart, start in E.
  match type of E with xexec _ _ _ _ ?x => set (s := x) in E end.
  bcall E s 0. block E s 0. bvia E s (@None (event nat)) (T_new 2 (bops iops) (xs s) 0 _ _ eq_refl eq_refl eq_refl).
  bloc E s ltac:(eapply (L_insert 2 (bops iops) 0 [] _ _ _); vm_compute; reflexivity). brel E s 0. bback E s 0 (@ACreated nat).
  xvia E s (X_call 2 iops ilks s 0 eq_refl).
  xvia E s (X_rlock 2 iops ilks s 0 eq_refl eq_refl).
  lroot E s 0 1.
  bcall E s 6. block E s 6.
  xvia E s (X_call 2 iops ilks s 1 eq_refl).
  eexists. split; [exact E|]. split; [reflexivity|]. split; [reflexivity|]. do 4 eexists. reflexivity.
Qed.

(** Lookup 2 finds nothing to look at; it returns, and a later creation waits for ever. *)
Theorem lookup_leaks : exists s s2, xexec 2 iops ilks [EB (ECall 0); EB (EReturn 0 ACreated); ELCall 2] s /\
  xi s 2 = IHold (descents (ilks 2)) [] /\ root (xs s) <> None /\ xrun 2 iops ilks s [ELRet 2 []; EB (ECall 6)] s2.
Proof.
  pose proof (XX_start 2 iops ilks) as E. unfold xstart, start in E.
  match type of E with xexec _ _ _ _ ?x => set (s := x) in E end.
  bcall E s 0. block E s 0. bvia E s (@None (event nat)) (T_new 2 (bops iops) (xs s) 0 _ _ eq_refl eq_refl eq_refl).
  bloc E s ltac:(eapply (L_insert 2 (bops iops) 0 [] _ _ _); vm_compute; reflexivity). brel E s 0. bback E s 0 (@ACreated nat).
  xvia E s (X_call 2 iops ilks s 2 eq_refl).
  xvia E s (X_rlock 2 iops ilks s 2 eq_refl eq_refl).
  exists s. eexists. split; [exact E|]. split; [reflexivity|]. split; [discriminate|].
  pose proof (XR_nil 2 iops ilks s) as R.
  assert (N : root (xs s) <> None) by discriminate.
  pose proof (XR_step 2 iops ilks _ _ _ _ _ R (X_leak 2 iops ilks s 2 [] eq_refl N)) as R1.
  match type of R1 with xrun _ _ _ _ _ ?x => pose proof (XR_step 2 iops ilks _ _ _ _ _ R1 (X_return 2 iops ilks x 2 true [] eq_refl)) as R2 end.
  match type of R2 with xrun _ _ _ _ _ ?x => pose proof (X_base 2 iops ilks x (Some (ECall 6)) _ (T_call 2 (bops iops) (xs x) 6 eq_refl)) as B end.
  specialize (B ltac:(intros ? X; injection X as <-; reflexivity)). specialize (B ltac:(intros; discriminate)).
  exact (XR_step 2 iops ilks _ _ _ _ _ R2 B).
Qed.
