(** Sums over the nodes of a tree (who is where), and which locks a step can add. *)
From Coq Require Import Sorted Permutation ZifyBool ZifyNat.
From Verif Require Import Datatypes SpecValues DatatypesProofs BTree SpecBTree BTreeProofs BTreeFind
  BTreeSync BTreeSyncSeq BTreeSyncSeq2 BTreeSyncInv SpecBTreeSync BTreeSyncStep BTreeSyncStep2 BTreeSyncStep3.
Local Open Scope nat_scope.

Fixpoint lsum (l : list nat) : nat := match l with [] => 0 | x :: r => x + lsum r end.
Lemma lsum_app l1 l2 : lsum (l1 ++ l2) = lsum l1 + lsum l2.
Proof. induction l1; cbn [lsum app]; lia. Qed.
Lemma lsum_mid {A} (f : A -> nat) l1 x l2 : lsum (map f (l1 ++ x :: l2)) = lsum (map f l1) + f x + lsum (map f l2).
Proof. rewrite map_app, lsum_app. cbn [map lsum]. lia. Qed.
Lemma lsum_set {A} (f : A -> nat) i x y l : nth_error l i = Some y -> lsum (map f (set_nth i x l)) + f y = lsum (map f l) + f x.
Proof.
  intros H. assert (L : i < length l) by (apply nth_error_Some; congruence). destruct (split_elem l i L) as (l1 & z & l2 & -> & E).
  rewrite (nth_error_app_len l1) in H by exact E. injection H as ->. rewrite (set_nth_app l1) by exact E. rewrite !lsum_mid. lia.
Qed.
Lemma lsum_del {A} (f : A -> nat) i y l : nth_error l i = Some y -> lsum (map f (del_nth i l)) + f y = lsum (map f l).
Proof.
  intros H. assert (L : i < length l) by (apply nth_error_Some; congruence). destruct (split_elem l i L) as (l1 & z & l2 & -> & E).
  rewrite (nth_error_app_len l1) in H by exact E. injection H as ->. rewrite (del_nth_app l1) by exact E. rewrite lsum_mid, map_app, lsum_app. lia.
Qed.
Lemma lsum_zero {A} (f : A -> nat) l : (forall x, In x l -> f x = 0) -> lsum (map f l) = 0.
Proof. induction l as [|x l IH]; intros H; [reflexivity|]. cbn [map lsum]. rewrite (H x (or_introl eq_refl)), IH; [reflexivity|]. intros y Hy. apply H. right. exact Hy. Qed.
Lemma lsum_in {A} (f : A -> nat) l x : In x l -> f x <= lsum (map f l).
Proof. intros H. apply in_split in H as (l1 & l2 & ->). rewrite lsum_mid. lia. Qed.
Lemma lsum_last {A} (f : A -> nat) l g gs : rev l = g :: gs -> lsum (map f (removelast l)) + f g = lsum (map f l).
Proof.
  intros H. assert (l <> []) by (intros ->; discriminate). destruct (split_last l) as (l1 & x & ->); [assumption|].
  rewrite rev_app_distr in H. cbn in H. injection H as -> _. rewrite removelast_last, lsum_mid. cbn [map lsum]. lia.
Qed.

Section Count.
  Context {V : Type}.
  Notation node := (node V).
  Notation entry := (entry V).
  Notation atree := (atree V).

  Section Sum.
    Variable w : nat -> mark -> list nat -> nat.
    Fixpoint tsum (h : nat) (t : atree) : nat :=
      match t with ANode m rs vs ks => w h m rs + lsum (map (tsum (pred h)) ks) end.
    Hypothesis wf : forall h, w h MFree [] = 0.

    Lemma asplit_sum n h cv ck p L R :
      asplit n cv ck = Some (p, L, R) -> tsum h L + tsum h R = lsum (map (tsum (pred h)) ck).
    Proof using wf.
      unfold asplit. destruct (nth_error cv _); [|discriminate]. intros H. injection H as _ <- <-. cbn [tsum]. rewrite !wf.
      cbn [plus]. rewrite <- lsum_app, <- map_app, firstn_skipn. reflexivity.
    Qed.

    Definition nw (h : nat) (t : atree) : nat := let 'ANode m rs _ _ := t in w h m rs.
    Lemma free_sum h (t : atree) : afree t = true -> tsum h t = lsum (map (tsum (pred h)) (akids t)).
    Proof using wf. intros F. apply afree_inv in F as (vs & ks & ->). cbn [tsum akids]. rewrite wf. reflexivity. Qed.
    Lemma sum_split h (t : atree) : tsum h t = nw h t + lsum (map (tsum (pred h)) (akids t)).
    Proof using. destruct t. reflexivity. Qed.

    Lemma rotateLeft_sum h vs (ks : list atree) i vs' ks' c r :
      nth_error ks i = Some c -> nth_error ks (S i) = Some r -> afree r = true -> (akids c = [] -> akids r = []) ->
      arotateLeft vs ks i = Some (vs', ks') -> lsum (map (tsum h) ks') + nw h c = lsum (map (tsum h) ks).
    Proof using wf.
      unfold arotateLeft, guard. intros Ei Er Fr Em H. rewrite Ei, Er in H.
      pose proof (free_sum h r Fr) as Sr. pose proof (sum_split h c) as Sc. destruct c as [m1 s1 cv ck].
      destruct r as [m2 s2 [|r0 rv] rk]; [discriminate|]. destruct (nth_error vs i); [|discriminate].
      destruct (forallb _ rk); [|discriminate]. injection H as <- <-. cbn [akids nw] in *.
      set (c' := ANode MFree [] _ match rk with [] => ck | _ => _ end). set (r' := ANode MFree [] rv (tl rk)).
      pose proof (lsum_set (tsum h) i c' _ ks Ei) as E1.
      assert (Er' : nth_error (set_nth i c' ks) (S i) = Some (ANode m2 s2 (r0 :: rv) rk)).
      { assert (L : i < length ks) by (apply nth_error_Some; congruence). destruct (split_elem ks i L) as (l1 & z & l2 & -> & E).
        rewrite (set_nth_app l1) by exact E. destruct l2 as [|y l2].
        - apply nth_error_Some in L as _. rewrite nth_error_app2 in Er by lia. replace (S i - length l1) with 1 in Er by lia. discriminate.
        - rewrite (nth_error_app_len_S l1) in * by exact E. exact Er. }
      pose proof (lsum_set (tsum h) (S i) r' _ _ Er') as E2.
      assert (E3 : tsum h c' + tsum h r' = lsum (map (tsum (pred h)) ck) + lsum (map (tsum (pred h)) rk)).
      { unfold c', r'. cbn [tsum]. rewrite !wf. destruct rk as [|rk0 rk]; [cbn [tl map lsum]; lia|].
        destruct ck as [|ck0 ck]; [discriminate (Em eq_refl)|]. cbn [tl]. rewrite map_app, lsum_app. cbn [map lsum]. lia. }
      lia.
    Qed.
    Lemma rotateRight_sum h vs (ks : list atree) i vs' ks' c l :
      nth_error ks i = Some c -> nth_error ks (i - 1) = Some l -> afree l = true ->
      arotateRight vs ks i = Some (vs', ks') -> lsum (map (tsum h) ks') + nw h c = lsum (map (tsum h) ks).
    Proof using wf.
      unfold arotateRight, guard. intros Ei El Fl H. destruct i as [|j]; [discriminate|]. replace (S j - 1) with j in El by lia.
      rewrite Ei, El in H. pose proof (free_sum h l Fl) as Sl. pose proof (sum_split h c) as Sc. destruct c as [m1 s1 cv ck]. destruct l as [m2 s2 lv lk].
      destruct (nth_error vs j) as [v|]; [|discriminate]. destruct (rev lv) as [|g0 gs]; [discriminate|]. cbn [akids nw] in *.
      set (c' := ANode MFree [] (v :: cv) match rev lk with [] => ck | gk :: _ => gk :: ck end).
      set (l' := ANode MFree [] (removelast lv) (removelast lk)).
      assert (E' : ks' = set_nth (S j) c' (set_nth j l' ks)).
      { unfold c', l'. destruct (rev lk) as [|gk gks]; [|destruct (afree gk); [|discriminate]]; injection H as <- <-; reflexivity. }
      subst ks'. pose proof (lsum_set (tsum h) j l' _ ks El) as E1.
      assert (Ei' : nth_error (set_nth j l' ks) (S j) = Some (ANode m1 s1 cv ck)).
      { assert (L : j < length ks) by (apply nth_error_Some; congruence). destruct (split_elem ks j L) as (l1 & z & l2 & -> & E).
        rewrite (set_nth_app l1) by exact E. destruct l2 as [|y l2].
        - rewrite nth_error_app2 in Ei by lia. replace (S j - length l1) with 1 in Ei by lia. discriminate.
        - rewrite (nth_error_app_len_S l1) in * by exact E. exact Ei. }
      pose proof (lsum_set (tsum h) (S j) c' _ _ Ei') as E2.
      assert (E3 : tsum h c' + tsum h l' = lsum (map (tsum (pred h)) ck) + lsum (map (tsum (pred h)) lk)).
      { unfold c', l'. cbn [tsum]. rewrite !wf. destruct (rev lk) as [|gk gks] eqn:R.
        - assert (lk = []) by (rewrite <- (rev_involutive lk), R; reflexivity). subst lk. cbn. lia.
        - pose proof (lsum_last (tsum (pred h)) lk gk gks R). cbn [map lsum]. lia. }
      lia.
    Qed.
    Lemma mergeDown_sum h vs (ks : list atree) i vs' ks' c l :
      nth_error ks i = Some c -> nth_error ks (match i with O => 1 | S j => j end) = Some l -> afree l = true ->
      amergeDown vs ks i = Some (vs', ks') -> lsum (map (tsum h) ks') + nw h c = lsum (map (tsum h) ks).
    Proof using wf.
      unfold amergeDown, guard. intros Ei El Fl H. set (j := match i with O => O | S j => j end) in *.
      destruct (nth_error ks j) as [a|] eqn:Ej; [|discriminate]. destruct (nth_error ks (S j)) as [b|] eqn:Es; [|destruct a; discriminate].
      assert (Sab : tsum h a + tsum h b = nw h c + lsum (map (tsum (pred h)) (akids a)) + lsum (map (tsum (pred h)) (akids b))).
      { assert (a = c /\ b = l \/ a = l /\ b = c) as [[-> ->]|[-> ->]].
        { unfold j in *. destruct i; [left|right]; split; congruence. }
        - rewrite (sum_split h c), (free_sum h l Fl). lia.
        - rewrite (sum_split h c), (free_sum h l Fl). lia. }
      destruct a as [m1 s1 cv ck]. destruct b as [m2 s2 rv rk].
      destruct (nth_error vs j) as [v|]; [|discriminate]. destruct (_ && _); [|discriminate]. injection H as <- <-.
      cbn [akids] in Sab. set (c' := ANode MFree [] _ (ck ++ rk)).
      pose proof (lsum_set (tsum h) j c' _ ks Ej) as E1.
      assert (Es' : nth_error (set_nth j c' ks) (S j) = Some (ANode m2 s2 rv rk)).
      { assert (L : j < length ks) by (apply nth_error_Some; congruence). destruct (split_elem ks j L) as (l1 & z & l2 & -> & E).
        rewrite (set_nth_app l1) by exact E. destruct l2 as [|y l2].
        - rewrite nth_error_app2 in Es by lia. replace (S j - length l1) with 1 in Es by lia. discriminate.
        - rewrite (nth_error_app_len_S l1) in * by exact E. exact Es. }
      pose proof (lsum_del (tsum h) (S j) _ _ Es') as E2.
      assert (E3 : tsum h c' = lsum (map (tsum (pred h)) ck) + lsum (map (tsum (pred h)) rk)).
      { unfold c'. cbn [tsum]. rewrite wf, map_app, lsum_app. reflexivity. }
      lia.
    Qed.
    Lemma rebalance_sum h n vs (ks : list atree) i vs' ks' u c :
      nth_error ks i = Some c -> (forall r, nth_error ks (S i) = Some r -> afree r = true -> akids c = [] -> akids r = []) ->
      arebalance n vs ks i = Some (vs', ks', u) -> lsum (map (tsum h) ks') + nw h c = lsum (map (tsum h) ks).
    Proof using wf.
      unfold arebalance. intros Ei Em H.
      assert (G : forall (t : atree) x, guard (afree t) (Some (Nat.ltb (minValues n) (length (avals t)))) = Some x -> afree t = true).
      { intros t x E. unfold guard in E. destruct (afree t) eqn:F; [reflexivity|discriminate]. }
      assert (ML : forall l, nth_error ks (match i with O => 1 | S j => j end) = Some l -> afree l = true ->
        match amergeDown vs ks i with Some (vs', ks') => Some (vs', ks', Nat.ltb (length vs') (minValues n)) | None => None end = Some (vs', ks', u) ->
        lsum (map (tsum h) ks') + nw h c = lsum (map (tsum h) ks)).
      { intros l E F X. destruct (amergeDown vs ks i) as [[a b]|] eqn:M; [|discriminate]. injection X as <- <- <-. eapply mergeDown_sum; eauto. }
      assert (RL : forall l, nth_error ks (S i) = Some l -> afree l = true ->
        match arotateLeft vs ks i with Some (vs', ks') => Some (vs', ks', false) | None => None end = Some (vs', ks', u) ->
        lsum (map (tsum h) ks') + nw h c = lsum (map (tsum h) ks)).
      { intros l E F X. destruct (arotateLeft vs ks i) as [[a b]|] eqn:M; [|discriminate]. injection X as <- <- <-. eapply rotateLeft_sum; eauto. }
      assert (RR : forall l, nth_error ks (i - 1) = Some l -> afree l = true ->
        match arotateRight vs ks i with Some (vs', ks') => Some (vs', ks', false) | None => None end = Some (vs', ks', u) ->
        lsum (map (tsum h) ks') + nw h c = lsum (map (tsum h) ks)).
      { intros l E F X. destruct (arotateRight vs ks i) as [[a b]|] eqn:M; [|discriminate]. injection X as <- <- <-. eapply rotateRight_sum; eauto. }
      clear Em.
      destruct (Nat.eqb_spec i 0) as [->|N0].
      - destruct (nth_error ks 1) as [s|] eqn:E1; [|discriminate].
        destruct (guard (afree s) _) as [x|] eqn:Gs; [|discriminate]. destruct x; [eapply RL|eapply ML]; eauto.
      - assert (Ej : match i with O => 1 | S j => j end = i - 1) by (destruct i; lia). rewrite Ej in ML.
        destruct (Nat.eqb i (length ks - 1)).
        + destruct (nth_error ks (i - 1)) as [s|] eqn:E1; [|discriminate].
          destruct (guard (afree s) _) as [x|] eqn:Gs; [|discriminate]. destruct x; [eapply RR|eapply ML]; eauto.
        + replace (S i) with (i + 1) in RL by lia.
          destruct (nth_error ks (i + 1)) as [s|] eqn:E1; [|discriminate].
          destruct (guard (afree s) _) as [x|] eqn:Gs; [|discriminate].
          destruct (nth_error ks (i - 1)) as [s2|] eqn:E2; [|destruct x; discriminate].
          destruct (guard (afree s2) _) as [x2|] eqn:Gs2; [|destruct x; discriminate].
          destruct x; [eapply RL; eauto|]. destruct x2; [eapply RR|eapply ML]; eauto.
    Qed.

    Lemma atake_sum n c sk : (forall h i b, w h (MIn c i b) [] = 0) -> (forall h, w h (MUnder c) [] = 0) ->
      forall h0 h t t' e (ops : nat -> cop V) (log : nat -> out V -> Prop), inv n ops log false h0 t -> atake n c sk t = Some (t', e) -> tsum h t' = tsum h t.
    Proof using wf.
      intros W1 W2. induction h0 as [|h0 IH]; intros h [m rs vs ks] t' e ops log I T; cbn [atake] in T; destruct vs as [|e0 vs]; try discriminate;
        unfold guard in T; destruct (afree _) eqn:Fr; try discriminate; rewrite (free_sum h _ Fr); cbn [akids];
        apply inv_elim in I as (_ & _ & K).
      - subst ks. destruct (nth_error (e0 :: vs) _); [|discriminate]. injection T as <- <-. cbn [tsum map lsum].
        destruct (Nat.ltb _ _); rewrite ?W2, ?wf; reflexivity.
      - destruct ks as [|k0 ks].
        { destruct (nth_error (e0 :: vs) _); [|discriminate]. injection T as <- <-. cbn [tsum map lsum].
          destruct (Nat.ltb _ _); rewrite ?W2, ?wf; reflexivity. }
        set (K0 := k0 :: ks) in *. rewrite on_nth_spec in T. set (i := if negb _ then 0 else _) in T.
        destruct (nth_error K0 i) as [ch|] eqn:Ei; [|discriminate]. cbn [option_map] in T.
        destruct (atake n c sk ch) as [[ch' e1]|] eqn:Tc; [|discriminate]. injection T as <- <-.
        cbn [tsum]. rewrite W1. rewrite Forall_forall in K.
        pose proof (IH (pred h) ch ch' e1 ops log (K _ (nth_error_In _ _ Ei)) Tc) as E.
        pose proof (lsum_set (tsum (pred h)) i ch' ch K0 Ei). lia.
    Qed.
  End Sum.
End Count.
