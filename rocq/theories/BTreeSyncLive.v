(** No deadlock: as long as a call has not returned, somebody can go on. *)
From Coq Require Import Sorted Permutation ZifyBool ZifyNat.
From Verif Require Import Datatypes SpecValues DatatypesProofs BTree SpecBTree BTreeProofs PropLemmasTree BTreeFind
  BTreeSync BTreeSyncSeq BTreeSyncSeq2 BTreeSyncInv SpecBTreeSync BTreeSyncStep BTreeSyncStep2 BTreeSyncStep3 BTreeSyncCount BTreeSyncCount2 BTreeSyncSem
  BTreeSyncTop BTreeSyncTop2 BTreeSyncLin.
Local Open Scope nat_scope.

Lemma nth_error_skipn' {A} k (l : list A) j : nth_error (skipn k l) j = nth_error l (k + j).
Proof. revert l. induction k as [|k IH]; intros l; [reflexivity|]. destruct l; [destruct j; reflexivity|]. cbn. apply IH. Qed.

Section Go.
  Context {V : Type}.
  Variable n : nat.
  Variable ops : nat -> cop V.
  Notation node := (node V).
  Notation entry := (entry V).
  Notation atree := (atree V).
  Notation fl := (fl n ops).
  Notation P := (P n ops).
  Notation shape := (shape n ops).

  Definition still (t : atree) : Prop := forall x, In x (akids t) -> afree x = true.
  Lemma quiet_still t : quiet t = true -> still t.
  Proof using. destruct t as [m rs vs ks]. intros H x Hx. apply quiet_node in H as (_ & _ & H). apply quiet_afree, H, Hx. Qed.
  Lemma quiet_shape t : quiet t = true -> shape t.
  Proof using. destruct t as [m rs vs ks]. intros H. apply quiet_node in H as (-> & -> & _). apply shape_free. Qed.
  Lemma still_all t : still t -> forallb afree (akids t) = true.
  Proof using. intros H. apply forallb_forall. exact H. Qed.

  Lemma rotateLeft_go vs ks i : (forall j t, nth_error ks j = Some t -> shape t /\ still t) ->
    rotateLeft vs (map P ks) i <> None -> arotateLeft vs ks i <> None.
  Proof using.
    intros A. unfold rotateLeft, arotateLeft, guard. rewrite !nth_error_map'.
    destruct (nth_error ks i) as [[m1 r1 cv ck]|] eqn:E1; [|intros X; destruct (X eq_refl)].
    destruct (nth_error ks (S i)) as [[m2 r2 rv rk]|] eqn:E2; cbn [option_map]; [|destruct (P _); auto].
    destruct (A _ _ E1) as [S1 T1]. destruct (A _ _ E2) as [S2 T2]. unfold BTreeSyncInv.shape in S1, S2. cbn [avals akids] in S1, S2.
    rewrite S1, S2. destruct rv as [|r0 rv]; [auto|]. destruct (nth_error vs i); [|auto].
    apply still_all in T2. cbn [akids] in T2. rewrite T2. discriminate.
  Qed.
  Lemma rotateRight_go vs ks i : (forall j t, nth_error ks j = Some t -> shape t /\ still t) ->
    rotateRight vs (map P ks) i <> None -> arotateRight vs ks i <> None.
  Proof using.
    intros A. unfold rotateRight, arotateRight, guard. destruct i as [|j]; [auto|]. rewrite !nth_error_map'.
    destruct (nth_error ks (S j)) as [[m1 r1 cv ck]|] eqn:E1; [|intros X; destruct (X eq_refl)].
    destruct (nth_error ks j) as [[m2 r2 lv lk]|] eqn:E2; cbn [option_map]; [|destruct (P _); auto].
    destruct (A _ _ E1) as [S1 T1]. destruct (A _ _ E2) as [S2 T2]. unfold BTreeSyncInv.shape in S1, S2. cbn [avals akids] in S1, S2.
    rewrite S1, S2. destruct (nth_error vs j); [|auto]. destruct (rev lv) as [|g gs]; [auto|]. intros _.
    destruct (rev lk) as [|gk gks] eqn:R; [discriminate|]. rewrite T2; [discriminate|]. cbn [akids]. apply in_rev. rewrite R. left. reflexivity.
  Qed.
  Lemma mergeDown_go vs ks i : (forall j t, nth_error ks j = Some t -> shape t /\ still t) ->
    forallb afree (skipn (S (S (match i with O => O | S j => j end))) ks) = true ->
    mergeDown vs (map P ks) i <> None -> amergeDown vs ks i <> None.
  Proof using.
    intros A F. unfold mergeDown, amergeDown, guard. set (j := match i with O => O | S j => j end) in *. rewrite !nth_error_map'.
    destruct (nth_error ks j) as [[m1 r1 cv ck]|] eqn:E1; [|intros X; destruct (X eq_refl)].
    destruct (nth_error ks (S j)) as [[m2 r2 rv rk]|] eqn:E2; cbn [option_map]; [|destruct (P _); auto].
    destruct (A _ _ E1) as [S1 T1]. destruct (A _ _ E2) as [S2 T2]. unfold BTreeSyncInv.shape in S1, S2. cbn [avals akids] in S1, S2.
    rewrite S1, S2. destruct (nth_error vs j); [|auto]. intros _. apply still_all in T2. cbn [akids] in T2. rewrite T2, F. discriminate.
  Qed.

  (** A rebalancing call can go on when nobody is in the siblings *)
  Lemma rebalance_go vs ks i cv ck c :
    nth_error ks i = Some (ANode (MUnder c) [] cv ck) -> (forall x, In x ck -> quiet x = true) ->
    (forall j t, nth_error ks j = Some t -> j = i \/ quiet t = true) ->
    rebalance n vs (map P ks) i <> None -> arebalance n vs ks i <> None.
  Proof using.
    intros Ei Q A. 
    assert (B : forall j t, nth_error ks j = Some t -> shape t /\ still t).
    { intros j t Hj. destruct (A j t Hj) as [->|Qt]; [|split; [apply quiet_shape|apply quiet_still]; exact Qt].
      rewrite Ei in Hj. injection Hj as <-. split; [apply shape_under|]. intros x Hx. apply quiet_afree, Q, Hx. }
    assert (F : forallb afree (skipn (S (S (match i with O => O | S j => j end))) ks) = true).
    { apply forallb_forall. intros x Hx. apply In_nth_error in Hx as [j Hj]. rewrite nth_error_skipn' in Hj.
      destruct (A _ _ Hj) as [E|Qt]; [destruct i; lia|]. apply quiet_afree, Qt. }
    pose proof (rotateLeft_go vs ks i B) as RL. pose proof (rotateRight_go vs ks i B) as RR. pose proof (mergeDown_go vs ks i B F) as MD.
    unfold rebalance, arebalance. rewrite !nth_error_map', map_length.
    assert (G : forall j t, j <> i -> nth_error ks j = Some t -> afree t = true /\ nvals (P t) = length (avals t)).
    { intros j t N Hj. destruct (A _ _ Hj) as [E|Qt]; [congruence|]. split; [apply quiet_afree, Qt|]. rewrite (quiet_shape t Qt). reflexivity. }
    assert (M' : match mergeDown vs (map P ks) i with Some (vs', ks') => Some (Node vs' ks', Nat.ltb (length vs') (minValues n)) | None => None end <> None ->
      match amergeDown vs ks i with Some (vs', ks') => Some (vs', ks', Nat.ltb (length vs') (minValues n)) | None => None end <> None).
    { destruct (mergeDown _ _ _) as [[]|]; [|congruence]. destruct (amergeDown _ _ _) as [[]|]; [discriminate|]. intros _. destruct MD; [discriminate|reflexivity]. }
    assert (L' : match rotateLeft vs (map P ks) i with Some (vs', ks') => Some (Node vs' ks', false) | None => None end <> None ->
      match arotateLeft vs ks i with Some (vs', ks') => Some (vs', ks', false) | None => None end <> None).
    { destruct (rotateLeft _ _ _) as [[]|]; [|congruence]. destruct (arotateLeft _ _ _) as [[]|]; [discriminate|]. intros _. destruct RL; [discriminate|reflexivity]. }
    assert (R' : match rotateRight vs (map P ks) i with Some (vs', ks') => Some (Node vs' ks', false) | None => None end <> None ->
      match arotateRight vs ks i with Some (vs', ks') => Some (vs', ks', false) | None => None end <> None).
    { destruct (rotateRight _ _ _) as [[]|]; [|congruence]. destruct (arotateRight _ _ _) as [[]|]; [discriminate|]. intros _. destruct RR; [discriminate|reflexivity]. }
    clear RL RR MD. unfold guard.
    destruct (Nat.eqb_spec i 0) as [->|N0].
    - destruct (nth_error ks 1) as [s|] eqn:E1; [|auto]. cbn [option_map]. destruct (G 1 s) as [-> ->]; [discriminate|exact E1|].
      destruct (Nat.ltb _ _); auto.
    - destruct (Nat.eqb i (length ks - 1)).
      + destruct (nth_error ks (i - 1)) as [s|] eqn:E1; [|auto]. cbn [option_map]. destruct (G (i - 1) s) as [-> ->]; [lia|exact E1|].
        destruct (Nat.ltb _ _); auto.
      + destruct (nth_error ks (i + 1)) as [s|] eqn:E1; [|auto]. cbn [option_map]. destruct (G (i + 1) s) as [-> ->]; [lia|exact E1|].
        destruct (nth_error ks (i - 1)) as [s2|] eqn:E2; [|destruct (Nat.ltb _ _); auto]. cbn [option_map].
        * destruct (G (i - 1) s2) as [-> ->]; [lia|exact E2|]. destruct (Nat.ltb _ _); auto. destruct (Nat.ltb _ _); auto.
        * exfalso. assert (L : i < length ks) by (apply nth_error_Some; congruence). apply nth_error_None in E2. lia.
  Qed.
End Go.

Lemma half1 n : 2 <= n -> 1 <= n / 2.
Proof. intros H. apply Nat.div_le_lower_bound; lia. Qed.

Section Sub.
  Context {V : Type}.
  Variable n : nat.
  Variable ops : nat -> cop V.
  Variable log : nat -> out V -> Prop.
  Hypothesis Hn : 2 <= n.
  Notation node := (node V).
  Notation entry := (entry V).
  Notation atree := (atree V).
  Notation fl := (fl n ops).
  Notation P := (P n ops).
  Notation inv := (inv n ops log).

  Lemma take_go c sk : forall h (t : atree), inv false h t -> quiet t = true -> exists t' e, atake n c sk t = Some (t', e).
  Proof using Hn log ops.
    pose proof (half1 n Hn) as H1. induction h as [|h IH]; intros [m rs vs ks] I Q; pose proof Q as Q0; apply quiet_node in Q as (-> & -> & Q);
      apply inv_elim in I as (O & _ & K); cbn [flm okres] in O; rewrite pl_fl in O; destruct O as (B & Ln & Lo & _); cbn [vals_of] in *;
      cbn [atake]; (destruct vs as [|e0 vs]; [cbn [length] in Lo; lia|]); rewrite (quiet_afree _ Q0); cbn [guard].
    - subst ks. set (i := if negb _ then 0 else _). destruct (nth_error (e0 :: vs) i) as [e|] eqn:E; [eauto|].
      apply nth_error_None in E. unfold i in E. destruct (negb _); cbn [length] in E; lia.
    - apply (proj1 (balanced_S _ _ _ _)) in B as [LK _]. rewrite map_length in LK. destruct ks as [|k0 ks]; [discriminate LK|].
      set (K0 := k0 :: ks) in *. set (i := if negb _ then 0 else _). rewrite on_nth_spec.
      destruct (nth_error K0 i) as [ch|] eqn:E; cbn [option_map].
      + rewrite Forall_forall in K. pose proof (nth_error_In _ _ E) as Hi. destruct (IH ch (K _ Hi) (Q _ Hi)) as (t' & e & T). rewrite T. eauto.
      + apply nth_error_None in E. unfold i in E. destruct (negb _); cbn [length] in *; lia.
  Qed.

  Definition stuck_top (t : atree) : Prop :=
    exists c vs ks, (t = ANode (MOver c) [] vs ks \/ t = ANode (MUnder c) [] vs ks) /\ forall x, In x ks -> quiet x = true.
  Lemma stuck_plain h rt (t : atree) : inv rt h t -> plain (fl t) -> stuck_top t -> False.
  Proof using Hn log ops.
    intros I Pl (c & vs & ks & [->| ->] & _); rewrite fl_eq in Pl; [|exact Pl]. cbn [flm] in Pl.
    apply inv_elim in I as (_ & (_ & _ & L) & _). unfold over in Pl. replace (Nat.ltb (maxValues n) (length vs)) with true in Pl
      by (symmetry; apply Nat.ltb_lt; unfold maxValues; lia).
    destruct (match map pl (map fl ks) with [] => _ | _ => _ end); exact Pl.
  Qed.
  Lemma split_go vs (ks : list atree) : length vs = S n -> exists p L R, asplit n vs ks = Some (p, L, R).
  Proof using Hn log ops.
    intros L. unfold asplit. destruct (nth_error vs (maxValues n / 2)) eqn:E; [eauto|]. apply nth_error_None in E. unfold maxValues in E.
    assert (n / 2 <= n) by (apply Nat.div_le_upper_bound; lia). lia.
  Qed.

  Lemma sub_go : forall h rt (t : atree), inv rt h t -> (exists o t', lstep n ops t o t') \/ quiet t = true \/ stuck_top t.
  Proof using Hn log ops.
    pose proof (half1 n Hn) as H1.
    induction h as [h IH] using lt_wf_ind. intros rt [m rs vs ks] I. pose proof I as I0. apply inv_elim in I as (O & N & K).
    assert (KI : forall t, In t ks -> inv false (pred h) t /\ pred h < h).
    { intros t Ht. destruct h as [|h]; [subst ks; destruct Ht|]. rewrite Forall_forall in K. split; [apply K, Ht|cbn; lia]. }
    assert (D : (exists t o t', In t ks /\ lstep n ops t o t') \/ forall t, In t ks -> quiet t = true \/ stuck_top t).
    { clear - KI IH. induction ks as [|x l IHl]; [right; intros t []|].
      destruct (KI x (or_introl eq_refl)) as [Ix Lx]. destruct (IH _ Lx false x Ix) as [(o & x' & St)|Qx].
      - left. exists x, o, x'. split; [left; reflexivity|exact St].
      - destruct IHl as [(t & o & t' & Ht & St)|A].
        + intros t Ht. apply KI. right. exact Ht.
        + left. exists t, o, t'. split; [right; exact Ht|exact St].
        + right. intros t [<-|Ht]; [exact Qx|apply A, Ht]. }
    destruct D as [(t & o & t' & Ht & St)|D].
    { left. apply in_split in Ht as (l1 & l2 & ->). exists o. eexists. apply L_kid. exact St. }
    assert (DP : Forall plain (map fl ks) -> forall t, In t ks -> quiet t = true).
    { intros Pl t Ht. destruct (D t Ht) as [Q|Q]; [exact Q|]. exfalso. rewrite Forall_forall in Pl.
      eapply stuck_plain; [exact (proj1 (KI t Ht))|apply Pl, in_map, Ht|exact Q]. }
    destruct m as [|c|c i b|c|c]; cbn [nok] in N.
    - (* free *)
      destruct N as (Pl & Rd). destruct rs as [|c rs].
      { right. left. cbn [quiet]. apply forallb_forall. apply DP, Pl. }
      left. destruct (Rd c (or_introl eq_refl)) as (k & Rk & _). cbn [flm okres] in O. rewrite pl_fl in O. destruct O as (B & _).
      change (c :: rs) with ([] ++ c :: rs).
      assert (KF : forall t, In t ks -> exists cv ck, t = ANode MFree [] cv ck).
      { intros t Ht. apply afree_inv, quiet_afree, DP; assumption. }
      destruct ks as [|k0 ks].
      + destruct (leaf_match vs k) as [[k1 v1]|] eqn:E.
        * exists (Some (c, ORead (Some v1))). eexists. eapply L_hit; [exact Rk|exact E].
        * exists (Some (c, ORead None)). eexists. eapply L_miss; [exact Rk|exact E].
      + destruct (found_at vs (search vs k) k) as [[k1 v1]|] eqn:E.
        * exists (Some (c, ORead (Some v1))). eexists. eapply L_hit; [exact Rk|exact E].
        * destruct h as [|h]; [discriminate K|]. apply (proj1 (balanced_S _ _ _ _)) in B as [LK _]. rewrite map_length in LK.
          pose proof (search_le vs k) as Sl. destruct (split_elem (k0 :: ks) (search vs k)) as (l1 & x & l2 & E2 & L1); [lia|].
          rewrite E2 in *. destruct (KF x) as (cv & ck & ->); [apply in_elt|]. exists None. eexists. eapply L_rdown; [exact Rk|exact E|exact L1].
    - (* just locked *)
      destruct N as (-> & Pl & On & Wk & _). left. destruct (wkey ops c) as [k|] eqn:Ek; [|congruence].
      pose proof (DP Pl) as Q. destruct On as (B & _). rewrite pl_fl in B.
      assert (KF : forall t, In t ks -> exists cv ck, t = ANode MFree [] cv ck) by (intros t Ht; apply afree_inv, quiet_afree, Q, Ht).
      assert (LK : ks <> [] -> length ks = S (length vs)).
      { destruct h as [|h]; [congruence|]. apply (proj1 (balanced_S _ _ _ _)) in B as [L _]. rewrite map_length in L. auto. }
      destruct (found_at vs (search vs k) k) as [[k1 v1]|] eqn:E.
      + destruct (wkey_cases ops c k Ek) as [[v St]|(can & Op & _)].
        * exists (Some (c, OExists v1)). eexists. eapply L_exists; eauto.
        * exists (Some (c, OAsked (Some (k1, v1)))). destruct (can k1 v1) eqn:Ec; [|eexists; eapply L_veto; eauto].
          pose proof (search_found vs k _ E) as Sf. destruct ks as [|k0 ks]; [eexists; eapply L_remove; eauto|].
          assert (LK' := LK ltac:(discriminate)). set (K0 := k0 :: ks) in *.
          destruct (nth_error K0 (search vs k)) as [l|] eqn:El; [|apply nth_error_None in El; lia].
          destruct (nth_error K0 (S (search vs k))) as [r|] eqn:Er; [|apply nth_error_None in Er; lia].
          set (ch := if Nat.ltb (length (avals l)) (length (avals r)) then S (search vs k) else search vs k).
          assert (exists child, nth_error K0 ch = Some child) as [child Ech] by (unfold ch; destruct (Nat.ltb _ _); eauto).
          destruct h as [|h]; [discriminate K|]. rewrite Forall_forall in K.
          destruct (take_go c k1 h child) as (t' & e & T); [apply K; eapply nth_error_In; eauto|apply Q; eapply nth_error_In; eauto|].
          eexists. eapply L_swap; eauto using nth_error_In, quiet_afree.
      + destruct ks as [|k0 ks].
        * destruct (wkey_cases ops c k Ek) as [[v St]|(can & Op & _)].
          -- assert (exists vs', createTreeItem vs k (Some v) = inr vs') as [vs' Cr] by (unfold createTreeItem; rewrite E; eauto).
             exists (Some (c, OCreated)). eexists. eapply L_insert; eauto.
          -- exists (Some (c, OAsked None)). eexists. eapply L_absent; eauto.
        * assert (LK' := LK ltac:(discriminate)). pose proof (search_le vs k) as Sl.
          destruct (split_elem (k0 :: ks) (search vs k)) as (l1 & x & l2 & E2 & L1); [lia|].
          rewrite E2 in *. destruct (KF x) as (cv & ck & ->); [apply in_elt|]. exists None. eexists. eapply L_down; [exact Ek|exact E|exact L1].
    - (* below *)
      left. destruct N as (-> & Li & Ot & Sp & Un & _). rewrite map_length in Li.
      assert (Oth : forall j t, nth_error ks j = Some t -> j = i \/ quiet t = true).
      { intros j t Hj. destruct (Nat.eq_dec j i) as [E|Nj]; [left; exact E|right]. destruct (Ot j (fl t)) as [Pt|[E _]]; [apply map_nth_error, Hj| |congruence].
        destruct (D t (nth_error_In _ _ Hj)) as [Q|Q]; [exact Q|]. exfalso. eapply stuck_plain; [exact (proj1 (KI t (nth_error_In _ _ Hj)))|exact Pt|exact Q]. }
      destruct (split_elem ks i Li) as (l1 & x & l2 & E2 & L1). assert (Ei : nth_error ks i = Some x) by (rewrite E2; apply nth_error_app_len, L1).
      destruct (D x (nth_error_In _ _ Ei)) as [Q|(d & cv & ck & Ed & Q)].
      + exists None. eexists. eapply L_release; [exact Ei|]. destruct x as [m0 rs0 cv ck]. apply quiet_node in Q as (-> & _). reflexivity.
      + pose proof (KI x (nth_error_In _ _ Ei)) as [Ix _].
        assert (ED : d = c).
        { destruct (Ot i (fl x)) as [Pt|[_ T]]; [apply map_nth_error, Ei| |].
          - exfalso. eapply stuck_plain; [exact Ix|exact Pt|]. exists d, cv, ck. auto.
          - destruct (fl_tag n ops log _ _ _ c Ix T) as (rs0 & vs0 & ks0 & m0 & E0 & M). destruct Ed as [->| ->]; injection E0 as <- <- <- <-;
              apply Nat.eqb_eq in M; exact M. }
        subst d. destruct Ed as [->| ->].
        * apply inv_elim in Ix as (_ & (_ & _ & Lc) & _). destruct (split_go cv ck Lc) as (p & L & R & Sx).
          subst ks i. pose proof (split_place n ops log rt h c b vs l1 cv ck l2 p L R I0 Sx) as Ep.
          exists None. eexists. eapply L_split; [reflexivity|exact Sx|]. rewrite Ep. apply forallb_forall. intros y Hy.
          apply In_nth_error in Hy as [j Hj]. rewrite nth_error_skipn' in Hj. destruct (Oth _ _ Hj) as [E|Qy]; [lia|apply quiet_afree, Qy].
        * destruct (Un c (P (ANode (MUnder c) [] cv ck))) as [-> _].
          { rewrite (map_nth_error _ i ks Ei). f_equal. }
          assert (Rb : rebalance n vs (map P ks) i <> None).
          { cbn [flm] in O. rewrite (map_nth_error _ i ks Ei), fl_eq in O. cbn [flm] in O. rewrite pl_fl in O. intros X. rewrite X in O. exact O. }
          pose proof (rebalance_go n ops vs ks i cv ck c Ei Q Oth Rb) as G.
          destruct (arebalance n vs ks i) as [[[vs' ks'] u]|] eqn:A; [|congruence].
          exists None. eexists. eapply L_rebalance; [exact Ei|exact A].
    - destruct N as (-> & Pl & _). right. right. exists c, vs, ks. split; [left; reflexivity|apply DP, Pl].
    - destruct N as (-> & Pl). right. right. exists c, vs, ks. split; [right; reflexivity|apply DP, Pl].
  Qed.
End Sub.
