(** Who is where in the tree: a step moves readers and writers, and takes out the one that reports. *)
From Coq Require Import Sorted Permutation ZifyBool ZifyNat.
From Verif Require Import Datatypes SpecValues DatatypesProofs BTree SpecBTree BTreeProofs BTreeFind
  BTreeSync BTreeSyncSeq BTreeSyncSeq2 BTreeSyncInv SpecBTreeSync BTreeSyncStep BTreeSyncStep2 BTreeSyncStep3 BTreeSyncCount.
Local Open Scope nat_scope.

Lemma no_kids {V} n (ops : nat -> cop V) log h (t : atree V) :
  inv n ops log false h t -> (exists c, t = ANode (MUnder c) [] (avals t) (akids t)) \/ afree t = true ->
  akids t = [] <-> h = 0.
Proof.
  intros I M. destruct t as [m rs vs ks]. cbn [avals akids] in *. apply inv_elim in I as (O & _ & K).
  assert (B : balanced n h (Node vs (map (P n ops) ks))).
  { destruct M as [[c E]|F].
    - injection E as -> ->. cbn [flm okres] in O. rewrite pl_fl in O. apply O.
    - apply afree_inv in F as (a & b & E). injection E as -> -> _ _. cbn [flm okres] in O. rewrite pl_fl in O. apply O. }
  destruct h as [|h]; [tauto|]. split; [|discriminate]. intros ->. apply (proj1 (balanced_S _ _ _ _)) in B as [L _]. discriminate L.
Qed.

Lemma rebalance_kids {V} n (ops : nat -> cop V) log rt h c i b vs ks cv ck :
  inv n ops log rt h (ANode (MIn c i b) [] vs ks) -> nth_error ks i = Some (ANode (MUnder c) [] cv ck) ->
  b = i /\ forall r, nth_error ks (S i) = Some r -> afree r = true -> ck = [] -> akids r = [].
Proof.
  intros I Ei. apply inv_elim in I as (_ & (_ & _ & _ & _ & Un & _) & K). split.
  - eapply Un. rewrite (map_nth_error _ i ks Ei), fl_eq. cbn [flm]. reflexivity.
  - intros r Er Fr E. destruct h as [|h]; [subst ks; destruct i; discriminate|]. rewrite Forall_forall in K.
    pose proof (no_kids n ops log h _ (K _ (nth_error_In _ _ Ei)) (or_introl (ex_intro _ c eq_refl))) as N1.
    pose proof (no_kids n ops log h _ (K _ (nth_error_In _ _ Er)) (or_intror Fr)) as N2. cbn [akids] in N1. tauto.
Qed.

Lemma split_place {V} n (ops : nat -> cop V) log rt h c b vs l1 cv ck l2 p L R :
  inv n ops log rt h (ANode (MIn c (length l1) b) [] vs (l1 ++ ANode (MOver c) [] cv ck :: l2)) ->
  asplit n cv ck = Some (p, L, R) -> insert_index vs (fst p) = length l1.
Proof.
  intros I Sp. apply inv_elim in I as (_ & (_ & _ & _ & Ix & _) & K). destruct h as [|h]; [destruct l1; discriminate|].
  apply forall_mid in K as (_ & Kc & _). apply inv_elim in Kc as (_ & (_ & _ & Lc) & _).
  destruct (Ix c p [] [P n ops L; P n ops R]) as [E _]; [|exact E].
  rewrite map_app. cbn [map]. rewrite nth_error_app_len by apply map_length. rewrite fl_eq. cbn [flm]. rewrite pl_fl. f_equal.
  eapply asplit_over; eauto.
Qed.

Section W.
  Context {V : Type}.
  Variable n : nat.
  Variable ops : nat -> cop V.
  Variable W : mark -> list nat -> nat.
  Variables dr da : nat -> nat.
  Definition ok_weight : Prop :=
    (forall m, (forall c, m <> MAt c) -> W m [] = 0) /\ (forall c, W (MAt c) [] = da c) /\
    (forall c r1 r2, W MFree (r1 ++ c :: r2) = W MFree (r1 ++ r2) + dr c).
  Definition gone (o : option (nat * out V)) : nat :=
    match o with None => 0 | Some (c, ORead _) => dr c | Some (c, _) => da c end.
End W.

Theorem lstep_count {V} n (ops : nat -> cop V) log W dr da t o t' : ok_weight W dr da ->
  lstep n ops t o t' -> forall rt h, inv n ops log rt h t -> forall g,
  tsum (fun _ => W) g t = tsum (fun _ => W) g t' + gone dr da o.
Proof.
  intros (W0 & W1 & W2) St.
  assert (WF : forall h : nat, W MFree [] = 0) by (intros _; apply W0; discriminate).
  assert (WZ : W MFree [] = 0) by (apply W0; discriminate).
  induction St; intros rt h I g; cbn [tsum gone].
  - rewrite W1, WZ. lia.
  - rewrite W1. destruct (Nat.ltb _ _); rewrite W0 by discriminate; cbn [map lsum]; lia.
  - rewrite !lsum_mid. cbn [tsum]. rewrite !W1, WZ, W0 by discriminate. lia.
  - subst i. pose proof (split_place n ops log rt h c b vs l1 cv ck l2 p L R I H0) as Ei. subst index ks. rewrite Ei in *.
    rewrite firstn_app_len, skipn_app_len_S by reflexivity. rewrite W0 by discriminate.
    pose proof (asplit_sum (fun _ => W) WF n (pred g) cv ck p L R H0) as E. rewrite lsum_mid. cbn [tsum]. rewrite W0 by discriminate.
    rewrite map_app, lsum_app. cbn [map lsum]. destruct (Nat.ltb _ _); rewrite W0 by discriminate; lia.
  - rewrite W1, WZ. lia.
  - rewrite W1, WZ. lia.
  - rewrite W1. destruct (Nat.ltb _ _); rewrite W0 by discriminate; cbn [map lsum]; lia.
  - rewrite W1, W0 by discriminate. apply inv_elim in I as (_ & _ & K). destruct h as [|h]; [subst ks; destruct i; discriminate|].
    rewrite Forall_forall in K.
    pose proof (atake_sum (fun _ => W) WF n c k0 ltac:(intros; apply W0; discriminate) ltac:(intros; apply W0; discriminate) h (pred g) child t' e ops log (K _ (nth_error_In _ _ H6)) H7) as E.
    pose proof (lsum_set (tsum (fun _ => W) (pred g)) ch t' child ks H6). lia.
  - destruct (rebalance_kids n ops log rt h c i b vs ks cv ck I H) as [-> Em].
    pose proof (rebalance_sum (fun _ => W) WF (pred g) n vs ks i vs' ks' u _ H Em H0) as E. cbn [nw] in E.
    rewrite !W0 in * by discriminate. destruct u; rewrite W0 by discriminate; lia.
  - rewrite !W0 by discriminate. lia.
  - rewrite W2. lia.
  - rewrite W2. lia.
  - rewrite W2, !lsum_mid. cbn [tsum]. change (c :: rs) with ([] ++ c :: rs). rewrite W2. cbn [app]. lia.
  - rewrite !lsum_mid. apply inv_elim in I as (_ & _ & K). destruct h as [|h]; [destruct l1; discriminate|].
    apply forall_mid in K as (_ & Kc & _). rewrite (IHSt false h Kc (pred g)). lia.
Qed.

(** ** Nobody gets a write lock in a tree he has no write lock in *)
Fixpoint marked {V} (c : nat) (t : atree V) : bool :=
  match t with ANode m _ _ ks => mark_of m c || existsb (marked c) ks end.
Lemma marked_in {V} c m rs vs (ks : list (atree V)) : marked c (ANode m rs vs ks) = true <->
  mark_of m c = true \/ exists t, In t ks /\ marked c t = true.
Proof. cbn [marked]. rewrite Bool.orb_true_iff, existsb_exists. reflexivity.
Qed.
Lemma marked_node {V} c m vs (ks ks' : list (atree V)) vs' m' : 
  (mark_of m' c = true -> mark_of m c = true) -> (forall t, In t ks' -> marked c t = true -> mark_of m c = true \/ exists x, In x ks /\ marked c x = true) ->
  marked c (ANode m' [] vs' ks') = true -> marked c (ANode m [] vs ks) = true.
Proof.
  intros Hm Hk H. apply marked_in in H as [H|(t & Ht & H)]; apply marked_in; [left; auto|].
  destruct (Hk t Ht H) as [E|E]; auto.
Qed.
Lemma from_marked {V} c (ks : list (atree V)) i x : from ks i x -> marked c x = true -> exists y, In y ks /\ marked c y = true.
Proof.
  intros (t & j & Hj & _ & Ix) H. exists t. split; [exact (nth_error_In _ _ Hj)|]. destruct t as [m rs vs tk]. apply marked_in. right. eauto.
Qed.
Lemma atake_marked {V} n d sk : forall h0 (t t' : atree V) e (ops : nat -> cop V) log c, inv n ops log false h0 t -> atake n d sk t = Some (t', e) ->
  marked c t' = true -> d = c \/ marked c t = true.
Proof.
  induction h0 as [|h0 IH]; intros [m rs vs ks] t' e ops log c I T H; cbn [atake] in T; destruct vs as [|e0 vs]; try discriminate;
    unfold guard in T; destruct (afree _) eqn:Fr; try discriminate; apply inv_elim in I as (_ & _ & K).
  - subst ks. destruct (nth_error (e0 :: vs) _); [|discriminate]. injection T as <- <-. apply marked_in in H as [H|(t & [] & _)].
    destruct (Nat.ltb _ _); cbn [mark_of] in H; [left; apply Nat.eqb_eq, H|discriminate].
  - destruct ks as [|k0 ks].
    { destruct (nth_error (e0 :: vs) _); [|discriminate]. injection T as <- <-. apply marked_in in H as [H|(t & [] & _)].
      destruct (Nat.ltb _ _); cbn [mark_of] in H; [left; apply Nat.eqb_eq, H|discriminate]. }
    set (K0 := k0 :: ks) in *. rewrite on_nth_spec in T. set (i := if negb _ then 0 else _) in T.
    destruct (nth_error K0 i) as [ch|] eqn:Ei; [|discriminate]. cbn [option_map] in T.
    destruct (atake n d sk ch) as [[ch' e1]|] eqn:Tc; [|discriminate]. injection T as <- <-. rewrite Forall_forall in K.
    apply marked_in in H as [H|(t & Ht & H)]; [left; apply Nat.eqb_eq, H|].
    apply In_nth_error in Ht as [j Hj]. apply set_nth_cases in Hj as [[-> ->]|[N Hj]].
    + destruct (IH ch ch' e1 ops log c (K _ (nth_error_In _ _ Ei)) Tc H) as [E|E]; [left; exact E|right].
      apply marked_in. right. exists ch. split; [exact (nth_error_In _ _ Ei)|exact E].
    + right. apply marked_in. right. exists t. split; [exact (nth_error_In _ _ Hj)|exact H].
Qed.

Theorem lstep_marked {V} n (ops : nat -> cop V) log t o t' :
  lstep n ops t o t' -> forall rt h, inv n ops log rt h t -> forall c, marked c t' = true -> marked c t = true.
Proof.
  intros St. induction St; intros rt h I d Hd.
  - revert Hd. apply marked_node; [discriminate|eauto].
  - revert Hd. apply marked_node; [|intros ? []]. destruct (Nat.ltb _ _); [auto|discriminate].
  - revert Hd. apply marked_node; [auto|]. intros t Ht H2. apply in_app_iff in Ht as [Ht|[<-|Ht]].
    + right. exists t. split; [apply in_or_app; left; exact Ht|exact H2].
    + apply marked_in in H2 as [H2|H2]; [left; exact H2|]. right. eexists. split; [apply in_elt|]. apply marked_in. right. exact H2.
    + right. exists t. split; [apply in_or_app; right; right; exact Ht|exact H2].
  - revert Hd. apply marked_node; [destruct (Nat.ltb _ _); [auto|discriminate]|]. intros t Ht H2.
    subst i. pose proof (split_place n ops log rt h c b vs l1 cv ck l2 p L R I H0) as Ei. subst index ks. rewrite Ei in *.
    rewrite firstn_app_len, skipn_app_len_S in Ht by reflexivity. right.
    unfold asplit in H0. destruct (nth_error cv _); [|discriminate]. injection H0 as _ <- <-.
    assert (KC : forall x, In x ck -> marked d x = true -> exists x, In x (l1 ++ ANode (MOver c) [] cv ck :: l2) /\ marked d x = true).
    { intros x Hx E. eexists. split; [apply in_elt|]. apply marked_in. right. eauto. }
    apply in_app_iff in Ht as [Ht|[<-|[<-|Ht]]].
    + exists t. split; [apply in_or_app; left; exact Ht|exact H2].
    + apply marked_in in H2 as [H2|(x & Hx & E)]; [discriminate|]. apply (KC x); [|exact E].
      rewrite <- (firstn_skipn (maxValues n / 2 + 1) ck). apply in_or_app. left. exact Hx.
    + apply marked_in in H2 as [H2|(x & Hx & E)]; [discriminate|]. apply (KC x); [|exact E].
      rewrite <- (firstn_skipn (maxValues n / 2 + 1) ck). apply in_or_app. right. exact Hx.
    + exists t. split; [apply in_or_app; right; right; exact Ht|exact H2].
  - revert Hd. apply marked_node; [discriminate|eauto].
  - revert Hd. apply marked_node; [discriminate|eauto].
  - revert Hd. apply marked_node; [|intros ? []]. destruct (Nat.ltb _ _); [auto|discriminate].
  - revert Hd. apply marked_node; [auto|]. intros t Ht Ho. apply inv_elim in I as (_ & _ & K).
    destruct h as [|h]; [subst ks; destruct i; discriminate|]. rewrite Forall_forall in K.
    apply In_nth_error in Ht as [j Hj]. apply set_nth_cases in Hj as [[-> ->]|[N Hj]].
    + destruct (atake_marked n c k0 h child t' e ops log d (K _ (nth_error_In _ _ H6)) H7 Ho) as [<-|E].
      * left. apply Nat.eqb_refl.
      * right. exists child. split; [exact (nth_error_In _ _ H6)|exact E].
    + right. exists t. split; [exact (nth_error_In _ _ Hj)|exact Ho].
  - revert Hd. apply marked_node; [destruct u; [auto|discriminate]|]. intros t Ht Ho. right.
    destruct (rebalance_origin n vs ks b vs' ks' u H0 t Ht) as [(j & _ & Hj)|(nv & nk & -> & Fr)].
    + exists t. split; [exact (nth_error_In _ _ Hj)|exact Ho].
    + apply marked_in in Ho as [Ho|(x & Hx & E)]; [discriminate|]. eapply from_marked; [apply Fr, Hx|exact E].
  - revert Hd. apply marked_node; [discriminate|eauto].
  - apply marked_in in Hd. apply marked_in. exact Hd.
  - apply marked_in in Hd. apply marked_in. exact Hd.
  - apply marked_in in Hd as [Hd|(x & Hx & E)]; apply marked_in; [discriminate|]. right.
    apply in_app_iff in Hx as [Hx|[<-|Hx]].
    + exists x. split; [apply in_or_app; left; exact Hx|exact E].
    + eexists. split; [apply in_elt|]. apply marked_in. apply marked_in in E. exact E.
    + exists x. split; [apply in_or_app; right; right; exact Hx|exact E].
  - apply inv_elim in I as (_ & _ & K). destruct h as [|h]; [destruct l1; discriminate|]. apply forall_mid in K as (_ & Kc & _).
    apply marked_in in Hd as [Hd|(x & Hx & E)]; apply marked_in; [auto|]. right.
    apply in_app_iff in Hx as [Hx|[<-|Hx]].
    + exists x. split; [apply in_or_app; left; exact Hx|exact E].
    + exists t. split; [apply in_elt|]. eapply IHSt; eauto.
    + exists x. split; [apply in_or_app; right; right; exact Hx|exact E].
Qed.

(** The locks of a call in the tree: write locks and a read lock *)
Definition readers (c : nat) (m : mark) (rs : list nat) : nat := count_occ Nat.eq_dec rs c.
Definition writers (c : nat) (m : mark) (rs : list nat) : nat := match m with MAt d => if Nat.eqb d c then 1 else 0 | _ => 0 end.
Definition one (c d : nat) : nat := if Nat.eqb d c then 1 else 0.
Lemma readers_ok c : ok_weight (readers c) (one c) (fun _ => 0).
Proof.
  split; [reflexivity|]. split; [reflexivity|]. intros d r1 r2. unfold readers, one. rewrite !count_occ_app. cbn [count_occ].
  destruct (Nat.eq_dec d c) as [->|N]; [rewrite Nat.eqb_refl; lia|]. apply Nat.eqb_neq in N. rewrite N. lia.
Qed.
Lemma writers_ok c : ok_weight (writers c) (fun _ => 0) (one c).
Proof. split; [intros [] N; try reflexivity; exfalso; eapply N; reflexivity|]. split; [reflexivity|]. intros d r1 r2. reflexivity. Qed.
Definition atree_all {V} (Q : atree V -> Prop) (H : forall m rs vs ks, Forall Q ks -> Q (ANode m rs vs ks)) : forall t, Q t :=
  fix F t := match t with
             | ANode m rs vs ks =>
                 H m rs vs ks ((fix G l := match l return Forall Q l with [] => Forall_nil Q | x :: r => Forall_cons x (F x) (G r) end) ks)
             end.
Lemma tsum_height {V} W h h' (t : atree V) : tsum (fun _ => W) h t = tsum (fun _ => W) h' t.
Proof.
  revert h h'. induction t as [m rs vs ks IH] using atree_all. intros h h'. cbn [tsum]. f_equal. f_equal. apply map_ext_in. intros t Ht. rewrite Forall_forall in IH. apply IH, Ht.
Qed.
Lemma holds_marked {V} c (t : atree V) : holds c t = true -> marked c t = true \/ 0 < tsum (fun _ => readers c) 0 t.
Proof.
  induction t as [m rs vs ks IH] using atree_all. cbn [holds tsum]. intros H. apply Bool.orb_true_iff in H as [H|H]; [apply Bool.orb_true_iff in H as [H|H]|].
  - left. apply marked_in. left. exact H.
  - right. apply existsb_exists in H as (x & Hx & E). apply Nat.eqb_eq in E. subst x. apply (count_occ_In Nat.eq_dec) in Hx. unfold readers at 1. lia.
  - apply existsb_exists in H as (x & Hx & E). rewrite Forall_forall in IH. destruct (IH x Hx E) as [M|M].
    + left. apply marked_in. right. eauto.
    + right. pose proof (lsum_in (tsum (fun _ => readers c) (pred 0)) ks x Hx). cbn [pred] in *. lia.
Qed.
