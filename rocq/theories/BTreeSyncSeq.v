(** Facts about the sequential operations of BTree.v that the concurrent proofs use. *)
From Coq Require Import Sorted Permutation ZifyBool ZifyNat.
From Verif Require Import Datatypes SpecValues DatatypesProofs BTree SpecBTree BTreeProofs.
Local Open Scope nat_scope.

Lemma forall_mid {A} (Q : A -> Prop) l1 x l2 : Forall Q (l1 ++ x :: l2) <-> Forall Q l1 /\ Q x /\ Forall Q l2.
Proof. rewrite Forall_app, Forall_cons_iff. tauto. Qed.

Section Seq.
  Context {V : Type}.
  Notation node := (node V).
  Notation entry := (entry V).

  Lemma create_inner n vs (ks : list node) k nv : ks <> [] ->
    create n (Node vs ks) k nv =
      match found_at vs (search vs k) k with
      | Some (_, v) => CExists v
      | None =>
          match nth_error ks (search vs k) with
          | Some c =>
              match create n c k nv with
              | CSame c' => CSame (Node vs (set_nth (search vs k) c' ks))
              | CSplit p =>
                  match insertNode vs ks p with
                  | Some (vs', ks') =>
                      if Nat.ltb (maxValues n) (length vs') then
                        match splitNode n vs' ks' with Some p' => CSplit p' | None => CPanic end
                      else CSame (Node vs' ks')
                  | None => CPanic
                  end
              | r => r
              end
          | None => CPanic
          end
      end.
  Proof.
    intros H. destruct ks as [|c0 ks0]; [congruence|]. cbn [create].
    destruct (found_at vs (search vs k) k) as [[? ?]|]; [reflexivity|].
    rewrite on_nth_spec. destruct (nth_error (c0 :: ks0) (search vs k)) as [c|]; [|reflexivity].
    cbn [option_map]. destruct (create n c k nv); reflexivity.
  Qed.

  Lemma remove_inner n vs (ks : list node) k can : ks <> [] ->
    remove n (Node vs ks) k can =
      match found_at vs (search vs k) k with
      | Some (k', v) =>
          if can k' v then
            match removeNodeItem n vs ks (search vs k) with
            | Some (vs', ks', true) =>
                match rebalance n vs' ks' (search vs k) with
                | Some (t', u) => DRes t' u (Some (k', v))
                | None => DPanic
                end
            | Some (vs', ks', false) => DRes (Node vs' ks') false (Some (k', v))
            | None => DPanic
            end
          else DRes (Node vs ks) false (Some (k', v))
      | None =>
          match nth_error ks (search vs k) with
          | Some c =>
              match remove n c k can with
              | DRes c' true a =>
                  match rebalance n vs (set_nth (search vs k) c' ks) (search vs k) with
                  | Some (t', u) => DRes t' u a
                  | None => DPanic
                  end
              | DRes c' false a => DRes (Node vs (set_nth (search vs k) c' ks)) false a
              | DPanic => DPanic
              end
          | None => DPanic
          end
      end.
  Proof.
    intros H. destruct ks as [|c0 ks0]; [congruence|]. cbn [remove].
    destruct (found_at vs (search vs k) k) as [[? ?]|]; [reflexivity|].
    rewrite on_nth_spec. destruct (nth_error (c0 :: ks0) (search vs k)) as [c|]; [|reflexivity].
    cbn [option_map]. destruct (remove n c k can) as [|? [] ?]; reflexivity.
  Qed.

  Lemma swap_inner n vs e0 (ks : list node) sk : ks <> [] ->
    swap n (Node (e0 :: vs) ks) sk =
      let ci := if negb (less (fst e0) sk) then 0 else length ks - 1 in
      match nth_error ks ci with
      | Some c =>
          match swap n c sk with
          | Some (c', e, true) =>
              match rebalance n (e0 :: vs) (set_nth ci c' ks) ci with
              | Some (t', u) => Some (t', e, u)
              | None => None
              end
          | Some (c', e, false) => Some (Node (e0 :: vs) (set_nth ci c' ks), e, false)
          | None => None
          end
      | None => None
      end.
  Proof.
    intros H. destruct ks as [|c0 ks0]; [congruence|]. cbn [swap].
    rewrite on_nth_spec. cbv zeta. destruct (nth_error (c0 :: ks0) _) as [c|]; [|reflexivity].
    cbn [option_map]. destruct (swap n c sk) as [[[? ?] []]|]; reflexivity.
  Qed.

  (** A split handed up by the child goes in where that child is. *)
  Lemma split_index n h vs (K1 : list node) c K2 k v x xs ks' :
    2 <= n -> balanced n (S h) (Node vs (K1 ++ c :: K2)) ->
    goods (flat (Node vs (K1 ++ c :: K2))) -> good k -> sorted (flat (Node vs (K1 ++ c :: K2))) ->
    found_at vs (search vs k) k = None -> length K1 = search vs k ->
    create n c k (Some v) = CSplit (Node (x :: xs) ks') ->
    insert_index vs (fst x) = search vs k.
  Proof.
    intros Hn [LK FK] G Gk S Fo L1 C. cbn [vals_of kids_of] in LK, FK.
    change (Forall (okc n h) (K1 ++ c :: K2)) in FK.
    destruct (search_spec vs k) as (vs1 & vs2 & E & L & B & N). rewrite <- L in *. subst vs.
    rewrite found_at_app in Fo. rewrite !app_length in LK. cbn [length] in LK.
    assert (L2 : length vs2 = length K2) by lia. symmetry in L1.
    rewrite flat_split in G, S by exact L1.
    pose proof G as G0. pose proof S as S0.
    apply goods_app in G as [Gp G]. apply goods_app in G as [Gc Gq].
    apply sorted_app in S as (Sp & S & Spq). apply sorted_app in S as (Sc & Sq & Scq).
    assert (Bp : below (pre vs1 (map flat K1)) k).
    { apply pre_below; auto. rewrite map_length. exact L1. }
    apply Forall_app in FK as [FK1 FK]. apply Forall_cons_iff in FK as [[Bc Oc] FK2].
    assert (Aq : above (post vs2 (map flat K2)) k).
    { apply post_above; auto. intros w vs' Ew. subst vs2. destruct w as [k2 v2].
      destruct (lmt k k2) eqn:E2; [exact E2|discriminate]. }
    pose proof (create_spec n h c k (Some v) Hn Bc ltac:(lia) Gc Gk Sc) as IH. rewrite C in IH.
    cbn [create_post] in IH. destruct IH as (A & (x0 & l & r & E0 & Ol & Or) & v0 & Ev & F).
    injection Ev as <-. injection E0 as -> -> ->.
    assert (Ab : absent k (pre vs1 (map flat K1) ++ flat c ++ post vs2 (map flat K2))).
    { apply absent_app; split; [apply below_absent, Bp|apply absent_app; split; [exact A|apply above_absent, Aq]]. }
    assert (FI : ins (k, v) (pre vs1 (map flat K1) ++ flat c ++ post vs2 (map flat K2)) =
                 pre vs1 (map flat K1) ++ flat l ++ x0 :: flat r ++ post vs2 (map flat K2)).
    { rewrite ins_below by exact Bp. f_equal. rewrite ins_above by auto.
      rewrite <- F. cbn. rewrite app_nil_r. rewrite <- app_assoc. reflexivity. }
    assert (GI : goods (pre vs1 (map flat K1) ++ flat l ++ x0 :: flat r ++ post vs2 (map flat K2))).
    { rewrite <- FI. apply ins_goods; auto. }
    assert (SI : sorted (pre vs1 (map flat K1) ++ flat l ++ x0 :: flat r ++ post vs2 (map flat K2))).
    { rewrite <- FI. apply ins_sorted; auto. }
    assert (Gx : good (fst x0)).
    { eapply goods_in; [exact GI|]. apply in_or_app; right. apply in_or_app; right. left; reflexivity. }
    assert (VI : forall w, In w vs1 -> In w (pre vs1 (map flat K1))).
    { intros w. clear - L1. revert K1 L1. induction vs1 as [|u vs1 IHv]; intros [|q K1] L1 Hw; simpl in *; try tauto; try discriminate.
      apply in_or_app. right. destruct Hw as [->|Hw]; [left; reflexivity|right; apply IHv; auto]. }
    assert (Bx : below vs1 (fst x0)).
    { apply Forall_forall. intros w Hw. apply sorted_app in SI as (_ & _ & SI).
      apply (SI w x0 (VI w Hw)). apply in_or_app; right; left; reflexivity. }
    assert (Gvs : goods (vs1 ++ vs2)).
    { apply goods_app. split.
      - apply Forall_forall. intros w Hw. exact (goods_in _ _ Gp (VI w Hw)).
      - apply Forall_forall. intros w Hw.
        assert (HI : In w (post vs2 (map flat K2))); [|exact (goods_in _ _ Gq HI)].
        clear - Hw L2. revert K2 L2. induction vs2 as [|u vs2 IHv]; intros K2 L2; [destruct Hw|].
        destruct Hw as [->|Hw]; [left; reflexivity|]. right.
        destruct K2 as [|q K2]; [discriminate|]. simpl. apply in_or_app. right.
        apply (IHv Hw K2). simpl in L2. lia. }
    apply insert_index_spec; auto.
    intros w vs' ->.
    assert (Hw : lmt (fst x0) (fst w) = true).
    { apply sorted_app in SI as (_ & SI & _). apply sorted_app in SI as (_ & SI & _).
      apply sorted_cons in SI as [_ SI]. apply (SI w). apply in_or_app. right. left. reflexivity. }
    assert (Gw : good (fst w)) by (apply goods_app in Gvs as [_ Gvs]; inversion Gvs; auto).
    rewrite less_eq_lmt; [exact Hw| |].
    - eapply not_any_of_lt; [exact Gw|exact Hw|exact Gx].
    - destruct K2 as [|q K2]; [discriminate|]. inversion FK2 as [|? ? Oq FK2']; subst.
      destruct (flat q) as [|y ys] eqn:Eq; [exfalso; eapply okc_nonempty; eauto|].
      cbn in Sq, Gq. rewrite Eq in Sq, Gq.
      apply sorted_cons in Sq as [_ Sq]. apply goods_cons in Gq as [_ Gq]. cbn in Gq.
      inversion Gq; subst.
      eapply (not_any_of_lt _ (fst y)); auto. apply (Sq y). left. reflexivity.
  Qed.

  (** Sizes *)
  Lemma createTreeItem_length vs k (v : V) vs' : createTreeItem vs k (Some v) = inr vs' -> length vs' = S (length vs).
  Proof.
    unfold createTreeItem. destruct (found_at vs (search vs k) k) as [[? ?]|]; intros H; [discriminate|]. injection H as <-.
    rewrite app_length. cbn [length]. pose proof (f_equal (@length _) (firstn_skipn (search vs k) vs)) as E.
    rewrite app_length in E. lia.
  Qed.
  Lemma ins_nth_length {A} i (x : A) l : length (ins_nth i x l) = S (length l).
  Proof. unfold ins_nth. rewrite app_length. cbn [length]. pose proof (f_equal (@length _) (firstn_skipn i l)) as E. rewrite app_length in E. lia. Qed.
  Lemma insertNode_length vs (ks : list node) p vs' ks' : insertNode vs ks p = Some (vs', ks') -> length vs' = S (length vs).
  Proof.
    unfold insertNode. destruct p as [[|kv ?] [|? [|? ?]]]; intros H; try discriminate. injection H as <- <-. apply ins_nth_length.
  Qed.
  Lemma create_room n vs (ks : list node) k v p : length vs + 1 <= n -> create n (Node vs ks) k (Some v) <> CSplit p.
  Proof.
    intros L H. destruct ks as [|c0 ks0].
    - cbn [create] in H. destruct (createTreeItem vs k (Some v)) as [|vs'] eqn:E; [discriminate|].
      apply createTreeItem_length in E. destruct (Nat.ltb_spec (maxValues n) (length vs')); [unfold maxValues in *; lia|discriminate].
    - rewrite create_inner in H by discriminate. destruct (found_at vs (search vs k) k) as [[? ?]|]; [discriminate|].
      destruct (nth_error (c0 :: ks0) (search vs k)) as [c|]; [|discriminate].
      destruct (create n c k (Some v)); try discriminate.
      destruct (insertNode vs (c0 :: ks0) p0) as [[vs' ks']|] eqn:E; [|discriminate]. apply insertNode_length in E.
      destruct (Nat.ltb_spec (maxValues n) (length vs')); [unfold maxValues in *; lia|discriminate].
  Qed.

  Lemma del_nth_length {A} i (l : list A) : i < length l -> S (length (del_nth i l)) = length l.
  Proof.
    intros H. destruct (split_elem l i H) as (l1 & x & l2 & -> & L). rewrite del_nth_app by exact L. rewrite !app_length. cbn. lia.
  Qed.
  Lemma set_nth_length {A} i (x : A) l : length (set_nth i x l) = length l.
  Proof.
    unfold set_nth. pose proof (f_equal (@length _) (firstn_skipn i l)) as E. rewrite app_length in E. rewrite app_length.
    destruct (skipn i l); cbn [length] in *; lia.
  Qed.
  Lemma mergeDown_length vs (ks : list node) i vs' ks' : mergeDown vs ks i = Some (vs', ks') -> S (length vs') = length vs.
  Proof.
    unfold mergeDown. set (j := match i with O => O | S j => j end).
    destruct (nth_error ks j) as [[? ?]|]; [|discriminate]. destruct (nth_error ks (S j)) as [[? ?]|]; [|discriminate].
    destruct (nth_error vs j) eqn:E; [|discriminate]. intros H. injection H as <- <-. apply del_nth_length.
    apply nth_error_Some. congruence.
  Qed.
  Lemma rebalance_room n vs (ks : list node) i t u : minValues n + 1 <= length vs -> rebalance n vs ks i = Some (t, u) -> u = false.
  Proof.
    intros L H. unfold rebalance in H.
    assert (M : match mergeDown vs ks i with
                | Some (vs', ks') => Some (Node vs' ks', Nat.ltb (length vs') (minValues n)) | None => None end = Some (t, u) -> u = false).
    { destruct (mergeDown vs ks i) as [[vs' ks']|] eqn:E; [|discriminate]. intros H'. injection H' as <- <-.
      apply mergeDown_length in E. apply Nat.ltb_ge. lia. }
    assert (RL : match rotateLeft vs ks i with Some (vs', ks') => Some (Node vs' ks', false) | None => None end = Some (t, u) -> u = false).
    { destruct (rotateLeft vs ks i) as [[? ?]|]; intros H'; [injection H' as <- <-; reflexivity|discriminate]. }
    assert (RR : match rotateRight vs ks i with Some (vs', ks') => Some (Node vs' ks', false) | None => None end = Some (t, u) -> u = false).
    { destruct (rotateRight vs ks i) as [[? ?]|]; intros H'; [injection H' as <- <-; reflexivity|discriminate]. }
    destruct (Nat.eqb i 0); [|destruct (Nat.eqb i (length ks - 1))].
    - destruct (nth_error ks 1); [|discriminate]. destruct (Nat.ltb (minValues n) (nvals n0)); auto.
    - destruct (nth_error ks (i - 1)); [|discriminate]. destruct (Nat.ltb (minValues n) (nvals n0)); auto.
    - destruct (nth_error ks (i + 1)); [|discriminate]. destruct (Nat.ltb (minValues n) (nvals n0)); auto.
      destruct (nth_error ks (i - 1)); [|discriminate]. destruct (Nat.ltb (minValues n) (nvals n1)); auto.
  Qed.
  Lemma removeNodeItem_length n vs (ks : list node) i vs' ks' u : removeNodeItem n vs ks i = Some (vs', ks', u) -> length vs' = length vs.
  Proof.
    unfold removeNodeItem. destruct (nth_error ks i); [|discriminate]. destruct (nth_error ks (S i)); [|discriminate].
    destruct (nth_error vs i) as [[? ?]|]; [|discriminate]. destruct (nth_error ks _); [|discriminate].
    destruct (swap n n2 e) as [[[? ?] ?]|]; [|discriminate]. intros H. injection H as <- <- <-. apply set_nth_length.
  Qed.
  Lemma search_found vs k (e : entry) : found_at vs (search vs k) k = Some e -> search vs k < length vs.
  Proof. unfold found_at. destruct (nth_error vs (search vs k)) eqn:E; [intros _; apply nth_error_Some; congruence|discriminate]. Qed.
  Lemma search_le (vs : list entry) k : search vs k <= length vs.
  Proof. destruct (search_spec vs k) as (v1 & v2 & E & L & _). rewrite <- L, E, app_length. lia. Qed.

  Lemma remove_room n vs (ks : list node) k can t u a :
    minValues n + 1 <= length vs -> remove n (Node vs ks) k can = DRes t u a -> u = false.
  Proof.
    intros L H. destruct ks as [|c0 ks0].
    - cbn [remove] in H. destruct (found_at vs (search vs k) k) as [[k0 v0]|] eqn:Fo.
      + apply search_found in Fo. destruct (can k0 v0).
        * unfold removeLeafItem in H. injection H as <- <- <-. pose proof (del_nth_length (search vs k) vs Fo). apply Nat.ltb_ge. lia.
        * injection H as <- <- <-. reflexivity.
      + injection H as <- <- <-. reflexivity.
    - rewrite remove_inner in H by discriminate. destruct (found_at vs (search vs k) k) as [[k0 v0]|] eqn:Fo.
      + destruct (can k0 v0); [|injection H as <- <- <-; reflexivity].
        destruct (removeNodeItem n vs (c0 :: ks0) (search vs k)) as [[[vs' ks'] u']|] eqn:E; [|discriminate].
        apply removeNodeItem_length in E. destruct u'; [|injection H as <- <- <-; reflexivity].
        destruct (rebalance n vs' ks' (search vs k)) as [[t' u']|] eqn:R; [|discriminate]. injection H as <- <- <-.
        eapply rebalance_room; [|exact R]. lia.
      + destruct (nth_error (c0 :: ks0) (search vs k)) as [c|]; [|discriminate].
        destruct (remove n c k can) as [|c' u' a']; [discriminate|]. destruct u'; [|injection H as <- <- <-; reflexivity].
        destruct (rebalance n vs _ (search vs k)) as [[t' u']|] eqn:R; [|discriminate]. injection H as <- <- <-.
        eapply rebalance_room; [|exact R]. lia.
  Qed.

  (** Children *)
  Lemma kid_sorted n h vs (K1 : list node) c K2 :
    balanced n (S h) (Node vs (K1 ++ c :: K2)) -> sorted (flat (Node vs (K1 ++ c :: K2))) -> goods (flat (Node vs (K1 ++ c :: K2))) ->
    okc n h c /\ sorted (flat c) /\ goods (flat c).
  Proof.
    intros [LK FK] S G. cbn [vals_of kids_of] in LK, FK.
    change (Forall (okc n h) (K1 ++ c :: K2)) in FK.
    apply Forall_app in FK as [_ FK]. apply Forall_cons_iff in FK as [Oc _]. split; [exact Oc|].
    destruct (split_at vs (length K1)) as (vs1 & vs2 & -> & L).
    { rewrite app_length in LK. cbn [length] in LK. lia. }
    rewrite flat_split in S, G by exact L.
    apply sorted_app in S as (_ & S & _). apply sorted_app in S as (S & _ & _).
    apply goods_app in G as [_ G]. apply goods_app in G as [G _]. auto.
  Qed.
End Seq.
