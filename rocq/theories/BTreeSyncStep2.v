(** Splits, rebalancing, swaps and lookups keep what the tree stands for and the invariant of its nodes. *)
From Coq Require Import Sorted Permutation ZifyBool ZifyNat.
From Verif Require Import Datatypes SpecValues DatatypesProofs BTree SpecBTree BTreeProofs BTreeFind BTreeSync BTreeSyncSeq
  BTreeSyncInv SpecBTreeSync BTreeSyncStep.
Local Open Scope nat_scope.

Section Step.
  Context {V : Type}.
  Variable n : nat.
  Variable ops : nat -> cop V.
  Variable log : nat -> out V -> Prop.
  Hypothesis Hn : 2 <= n.
  Hypothesis Hg : good_calls ops.
  Notation node := (node V).
  Notation entry := (entry V).
  Notation atree := (atree V).
  Notation res := (res V).
  Notation fl := (fl n ops).
  Notation flm := (flm n ops).
  Notation flop := (flop n ops).
  Notation P := (P n ops).
  Notation inv := (inv n ops log).
  Notation nok := (nok n ops log).
  Notation okn := (okn n).
  Notation okres := (okres n).
  Notation over := (over n).
  Notation kept := (kept n ops log).
  Notation kidsok := (kidsok n ops log).

  Lemma asplit_over' c cv ck p L R :
    length cv = S n -> asplit n cv ck = Some (p, L, R) -> over c cv (map P ck) = RSplit c (Node [p] [P L; P R]).
  Proof. intros H1 H2. eapply asplit_over; eauto. Qed.
  Lemma rebalance_P' vs ks i vs' ks' u :
    (forall t, nth_error ks i = Some t -> shape n ops t) ->
    arebalance n vs ks i = Some (vs', ks', u) -> rebalance n vs (map P ks) i = Some (Node vs' (map P ks'), u).
  Proof. intros H1 H2. eapply rebalance_P; eauto. Qed.
  Lemma mid_cases' (f : atree -> res) (l1 : list atree) t l2 j r :
    nth_error (map f (l1 ++ t :: l2)) j = Some r -> (j = length l1 /\ r = f t) \/ (j <> length l1 /\ exists x, (In x l1 \/ In x l2) /\ r = f x).
  Proof. intros H. eapply mid_cases; eauto. Qed.

  (** ** A split from a child *)
  Lemma kept_split c i b vs l1 cv ck l2 p L R :
    length l1 = i -> asplit n cv ck = Some (p, L, R) ->
    kept (ANode (MIn c i b) [] vs (l1 ++ ANode (MOver c) [] cv ck :: l2)) None
         (ANode (if Nat.ltb (maxValues n) (length (ins_nth (insert_index vs (fst p)) p vs)) then MOver c else MFree) []
                (ins_nth (insert_index vs (fst p)) p vs)
                (firstn (insert_index vs (fst p)) (l1 ++ ANode (MOver c) [] cv ck :: l2) ++ L :: R ::
                 skipn (S (insert_index vs (fst p))) (l1 ++ ANode (MOver c) [] cv ck :: l2))).
  Proof.
    intros Li Sp. apply kept_intro. intros rt h I. apply inv_elim in I as (O & (_ & _ & Oth & Ix & _ & _ & Lv) & K).
    destruct h as [|h]; [destruct l1; discriminate|].
    apply forall_mid in K as (K1 & Kc & K2). apply inv_elim in Kc as (Oc & (_ & Plc & Lc) & Kc).
    pose proof (asplit_over' c cv ck p L R Lc Sp) as Ov.
    assert (Fc : fl (ANode (MOver c) [] cv ck) = RSplit c (Node [p] [P L; P R]))
      by (rewrite fl_eq; cbn [BTreeSyncInv.flm]; rewrite pl_fl; exact Ov).
    assert (Ei : insert_index vs (fst p) = length l1).
    { destruct (Ix c p [] [P L; P R]) as [E _]; [|lia]. rewrite <- Li, map_mid, Fc. reflexivity. }
    rewrite Ei. rewrite firstn_app_len, skipn_app_len_S by reflexivity.
    assert (Pl : Forall plain (map fl l1) /\ Forall plain (map fl l2)).
    { split; apply Forall_forall; intros r Hr; apply in_map_iff in Hr as (t & <- & Ht); apply In_nth_error in Ht as [j Hj].
      - destruct (Oth j (fl t)) as [H|[H _]]; [|exact H|].
        + apply map_nth_error. rewrite nth_error_app1; [exact Hj|]. apply nth_error_Some. congruence.
        + assert (j < length l1) by (apply nth_error_Some; congruence). lia.
      - destruct (Oth (length l1 + S j) (fl t)) as [H|[H _]]; [|exact H|lia].
        apply map_nth_error. rewrite nth_error_app2 by lia. replace (length l1 + S j - length l1) with (S j) by lia. exact Hj. }
    destruct Pl as [Pl1 Pl2].
    (* the two new nodes *)
    unfold asplit in Sp. remember (maxValues n / 2) as pv eqn:Epv in *. destruct (nth_error cv (pv)) as [q|] eqn:Eq; [|discriminate].
    injection Sp as -> <- <-.
    assert (KO : kidsok h ck) by (split; [exact Kc|exact Plc]).
    assert (Ock : okn false h (Node (firstn (pv) cv) (map P (firstn (pv + 1) ck))) /\
                  okn false h (Node (skipn (pv + 1) cv) (map P (skipn (pv + 1) ck)))).
    { change (flm (MOver c) cv (map fl ck)) with (fl (ANode (MOver c) [] cv ck)) in Oc. rewrite Fc in Oc.
      cbn [BTreeSyncInv.okres] in Oc. destruct Oc as ((x & l & r & E & [Bl Ll] & [Br Lr]) & So & Go). injection E as <- <- <-.
      rewrite !P_free in *. unfold flat in So, Go; fold (@flat V) in So, Go. cbn [map weave] in So, Go. rewrite app_nil_r in So, Go.
      apply sorted_app in So as (So1 & So2 & _). apply sorted_cons in So2 as [So2 _].
      apply goods_app in Go as (Go1 & Go2). apply goods_cons in Go2 as [_ Go2].
      split; (split; [assumption|]; split; [apply Ll || apply Lr|]; split; [apply Ll || apply Lr|]; split; assumption). }
    destruct Ock as [OL OR].
    assert (IL : inv false h (ANode MFree [] (firstn (pv) cv) (firstn (pv + 1) ck))).
    { apply new_node; [|exact OL]. eapply kidsok_incl; [exact KO|]. intros x Hx. rewrite <- (firstn_skipn (pv + 1) ck). apply in_or_app. left. exact Hx. }
    assert (IR : inv false h (ANode MFree [] (skipn (pv + 1) cv) (skipn (pv + 1) ck))).
    { apply new_node; [|exact OR]. eapply kidsok_incl; [exact KO|]. intros x Hx. rewrite <- (firstn_skipn (pv + 1) ck). apply in_or_app. right. exact Hx. }
    set (L := ANode MFree [] (firstn (pv) cv) _) in *. set (R := ANode MFree [] (skipn (pv + 1) cv) _) in *.
    split; [|split; [|split; [|exact Logic.I]]].
    - cbn [BTreeSyncInv.flm]. rewrite <- Li, map_mid, Fc, !pl_fl.
      cbn [insertNode]. rewrite Ei. rewrite (map_app P l1 (_ :: l2)). rewrite map_cons. rewrite firstn_app_len, skipn_app_len_S by apply map_length.
      unfold BTreeSyncInv.over. destruct (Nat.ltb (maxValues n) (length (ins_nth (length l1) p vs))) eqn:Lt; cbn [BTreeSyncInv.flm].
      + unfold BTreeSyncInv.over. rewrite Lt. rewrite pl_fl, map_app. reflexivity.
      + rewrite pl_fl, map_app. reflexivity.
    - assert (PlA : Forall plain (map fl (l1 ++ L :: R :: l2))).
      { rewrite map_app. apply Forall_app. split; [exact Pl1|]. constructor; [exact Logic.I|]. constructor; [exact Logic.I|]. exact Pl2. }
      destruct (Nat.ltb_spec (maxValues n) (length (ins_nth (length l1) p vs))) as [Lt|Ge]; cbn [BTreeSyncInv.nok].
      + split; [reflexivity|]. split; [exact PlA|].
        rewrite ins_nth_length in *. unfold maxValues in Lt. lia.
      + split; [exact PlA|intros d []].
    - apply Forall_app. split; [exact K1|]. constructor; [exact IL|]. constructor; [exact IR|exact K2].
  Qed.
End Step.
