(** Concurrent calls of one tree are explained by a sequential order. *)
From Coq Require Import Sorted Permutation ZifyBool ZifyNat.
From Verif Require Import Datatypes SpecValues DatatypesProofs BTree SpecBTree BTreeProofs PropLemmasTree BTreeFind
  BTreeSync BTreeSyncSeq BTreeSyncSeq2 BTreeSyncInv SpecBTreeSync BTreeSyncStep BTreeSyncStep2 BTreeSyncStep3 BTreeSyncCount BTreeSyncCount2 BTreeSyncSem
  BTreeSyncTop BTreeSyncTop2.
Local Open Scope nat_scope.

(** Nobody is in the subtree *)
Fixpoint quiet {V} (t : atree V) : bool :=
  match t with ANode m rs vs ks => match m, rs with MFree, [] => forallb quiet ks | _, _ => false end end.
Lemma quiet_node {V} m rs vs (ks : list (atree V)) : quiet (ANode m rs vs ks) = true -> m = MFree /\ rs = [] /\ forall t, In t ks -> quiet t = true.
Proof.
  cbn [quiet]. destruct m; try discriminate. destruct rs; [|discriminate]. intros H. split; [reflexivity|]. split; [reflexivity|].
  rewrite forallb_forall in H. exact H.
Qed.
Lemma quiet_afree {V} (t : atree V) : quiet t = true -> afree t = true.
Proof. destruct t as [m rs vs ks]. intros H. apply quiet_node in H as (-> & -> & _). reflexivity. Qed.
Lemma quiet_fl {V} n (ops : nat -> cop V) t : quiet t = true -> fl n ops t = RPlain (erase t).
Proof.
  induction t as [m rs vs ks IH] using atree_all. intros H. apply quiet_node in H as (-> & -> & H). rewrite fl_eq. cbn [flm erase]. rewrite pl_fl.
  f_equal. f_equal. apply map_ext_in. intros t Ht. rewrite Forall_forall in IH. unfold P. rewrite (IH t Ht (H t Ht)). reflexivity.
Qed.
Lemma quiet_intro {V} (t : atree V) : (forall c, marked c t = false) -> (forall c, tsum (fun _ => readers c) 0 t = 0) -> quiet t = true.
Proof.
  induction t as [m rs vs ks IH] using atree_all. intros Hm Hr.
  assert (m = MFree).
  { destruct m as [|c|c i b|c|c]; try reflexivity; exfalso; pose proof (proj2 (Bool.not_true_iff_false _) (Hm c)) as Q; apply Q;
      apply marked_in; left; apply Nat.eqb_refl. }
  subst m. assert (rs = []).
  { destruct rs as [|c rs]; [reflexivity|]. specialize (Hr c). cbn [tsum] in Hr. unfold readers at 1 in Hr. cbn [count_occ] in Hr.
    destruct (Nat.eq_dec c c); [lia|congruence]. }
  subst rs. cbn [quiet]. apply forallb_forall. intros t Ht. rewrite Forall_forall in IH. apply IH; [exact Ht| |].
  - intros c. destruct (marked c t) eqn:E; [|reflexivity]. exfalso. specialize (Hm c). enough (marked c (ANode MFree [] vs ks) = true) by congruence.
    apply marked_in. right. eauto.
  - intros c. specialize (Hr c). cbn [tsum] in Hr. pose proof (lsum_in (tsum (fun _ => readers c) (pred 0)) ks t Ht). cbn [pred] in *. lia.
Qed.

Section Lin.
  Context {V : Type}.
  Variable n : nat.
  Variable ops : nat -> cop V.

  Lemma ginv_explains tr s L M : ginv n ops tr s L M -> explains ops tr (lin ops L) M.
  Proof using.
    intros G. split; [apply G|]. split; [|split; [|split; [apply G|apply G]]].
    - intros c a H. apply (g_call _ _ _ _ _ _ G). intros E. apply in_lin in H as (o & H & _).
      pose proof (g_ph _ _ _ _ _ _ G c) as Q. rewrite E in Q. exact (Q o H).
    - intros c a H. apply (g_ret _ _ _ _ _ _ G) in H. pose proof (g_ph _ _ _ _ _ _ G c) as Q. rewrite H in Q. exact Q.
  Qed.

  Lemma over_phase tr s L M : ginv n ops tr s L M -> all_returned tr -> forall c, ph s c = PNew \/ exists a, ph s c = PRet a.
  Proof using.
    intros G A c. destruct (ph s c) eqn:E; auto; right;
      (assert (H : In (ECall c) tr) by (apply (g_call _ _ _ _ _ _ G); congruence));
      destruct (A c H) as [b Hb]; apply (g_ret _ _ _ _ _ _ G) in Hb; exists b; congruence.
  Qed.

  Lemma ginv_quiet tr s L M : ginv n ops tr s L M -> all_returned tr ->
    top s = TFree /\ trs s = [] /\ forall t, root s = Some t -> quiet t = true.
  Proof using.
    intros G A. pose proof (over_phase _ _ _ _ G A) as F. split; [|split].
    - destruct (top s) as [|c|c] eqn:E; [reflexivity| |]; exfalso; destruct (F c) as [H|[a H]].
      + apply (g_wait _ _ _ _ _ _ G) in E. congruence.
      + apply (g_wait _ _ _ _ _ _ G) in E. congruence.
      + destruct (g_in _ _ _ _ _ _ G c E) as [_ W]. rewrite H in W. exact W.
      + destruct (g_in _ _ _ _ _ _ G c E) as [_ W]. rewrite H in W. exact W.
    - destruct (trs s) as [|c l] eqn:E; [reflexivity|]. exfalso. pose proof (g_trs _ _ _ _ _ _ G c) as Q. rewrite E in Q. cbn [count_occ] in Q.
      destruct (Nat.eq_dec c c); [|congruence]. destruct (F c) as [H|[a H]]; rewrite H in Q; discriminate.
    - intros t R. apply quiet_intro.
      + intros c. destruct (marked c t) eqn:E; [|reflexivity]. exfalso. pose proof (g_mark _ _ _ _ _ _ G t c R E) as W.
        destruct (F c) as [H|[a H]]; rewrite H in W; exact W.
      + intros c. pose proof (g_rc _ _ _ _ _ _ G c) as Q. rewrite R in Q. cbn [rcount] in Q. rewrite Q.
        destruct (F c) as [H|[a H]]; rewrite H; reflexivity.
  Qed.

  Lemma contents_flat (r : option (node V)) : contents r = match r with Some t => flat t | None => [] end.
  Proof using. destruct r; reflexivity. Qed.

  Lemma ginv_done tr s L M : ginv n ops tr s L M -> all_returned tr ->
    well_shaped n (tree_of s) /\ Permutation (contents (tree_of s)) M.
  Proof using.
    intros G A. destruct (ginv_quiet _ _ _ _ G A) as (_ & _ & Q). pose proof (g_tree _ _ _ _ _ _ G) as T. pose proof (g_perm _ _ _ _ _ _ G) as Pm.
    unfold tree_of. rewrite contents_flat. destruct (root s) as [t|]; cbn [option_map]; [|split; [exact Logic.I|symmetry; exact Pm]].
    specialize (Q t eq_refl). rewrite (quiet_fl n ops t Q) in Pm. cbn [pl] in Pm. split; [|symmetry; exact Pm].
    destruct T as [h I]. destruct t as [m rs vs ks]. apply inv_elim in I as (O & _). rewrite <- fl_eq with (rs := rs), (quiet_fl n ops _ Q) in O.
    cbn [okres] in O. destruct O as (B & Ln & Lo & So & Go). exists h. split; [exact B|]. split; [exact Ln|]. split; [exact Lo|].
    apply ordered_iff. auto.
  Qed.
End Lin.

Theorem linearizable {V} n (ops : nat -> cop V) tr s : 2 <= n -> good_calls ops -> exec n ops tr s ->
  exists order final, explains ops tr order final /\
    (all_returned tr -> well_shaped n (tree_of s) /\ Permutation (contents (tree_of s)) final).
Proof.
  intros Hn Hg X. destruct (exec_ginv n ops tr s Hn Hg X) as (L & M & G). exists (lin ops L), M. split.
  - exact (ginv_explains n ops tr s L M G).
  - intros A. exact (ginv_done n ops tr s L M G A).
Qed.
