(** Proofs about BTree.v: create and delete refine sorted-list insertion and deletion and preserve the
    B-tree shape. *)
From Coq Require Import Sorted Permutation ZifyBool ZifyNat.
From Verif Require Import Datatypes SpecValues DatatypesProofs BTree SpecBTree.
Local Open Scope nat_scope.
Ltac Zify.zify_post_hook ::= Z.div_mod_to_equations.

(** ** List helpers *)
Section Lists.
  Context {A B : Type}.
  Implicit Types (l : list A).
  Lemma firstn_app_len l1 l2 i : length l1 = i -> firstn i (l1 ++ l2) = l1.
  Proof. intros <-. rewrite firstn_app, Nat.sub_diag, firstn_all. simpl. apply app_nil_r. Qed.
  Lemma skipn_app_len l1 l2 i : length l1 = i -> skipn i (l1 ++ l2) = l2.
  Proof. intros <-. rewrite skipn_app, Nat.sub_diag, skipn_all. reflexivity. Qed.
  Lemma nth_error_app_len l1 x l2 i : length l1 = i -> nth_error (l1 ++ x :: l2) i = Some x.
  Proof. intros <-. rewrite nth_error_app2, Nat.sub_diag by lia. reflexivity. Qed.
  Lemma nth_error_app_len_S l1 x y l2 i : length l1 = i -> nth_error (l1 ++ x :: y :: l2) (S i) = Some y.
  Proof. intros <-. rewrite nth_error_app2 by lia. replace (S (length l1) - length l1) with 1 by lia. reflexivity. Qed.
  Lemma set_nth_app l1 x y l2 i : length l1 = i -> set_nth i x (l1 ++ y :: l2) = l1 ++ x :: l2.
  Proof. intros H. unfold set_nth. rewrite firstn_app_len, skipn_app_len by exact H. reflexivity. Qed.
  Lemma set_nth_app_S l1 x y z l2 i : length l1 = i -> set_nth (S i) x (l1 ++ z :: y :: l2) = l1 ++ z :: x :: l2.
  Proof.
    intros H. replace (l1 ++ z :: y :: l2) with ((l1 ++ [z]) ++ y :: l2) by (rewrite <- app_assoc; reflexivity).
    rewrite set_nth_app by (rewrite app_length; simpl; lia). rewrite <- app_assoc. reflexivity.
  Qed.
  Lemma ins_nth_app l1 x l2 i : length l1 = i -> ins_nth i x (l1 ++ l2) = l1 ++ x :: l2.
  Proof. intros H. unfold ins_nth. rewrite firstn_app_len, skipn_app_len by exact H. reflexivity. Qed.
  Lemma skipn_app_len_S l1 x l2 i : length l1 = i -> skipn (S i) (l1 ++ x :: l2) = l2.
  Proof.
    intros H. replace (l1 ++ x :: l2) with ((l1 ++ [x]) ++ l2) by (rewrite <- app_assoc; reflexivity).
    apply skipn_app_len. rewrite app_length; simpl; lia.
  Qed.
  Lemma del_nth_app l1 x l2 i : length l1 = i -> del_nth i (l1 ++ x :: l2) = l1 ++ l2.
  Proof. intros H. unfold del_nth. rewrite firstn_app_len, skipn_app_len_S by exact H. reflexivity. Qed.
  Lemma del_nth_app_S l1 z x l2 i : length l1 = i -> del_nth (S i) (l1 ++ z :: x :: l2) = l1 ++ z :: l2.
  Proof.
    intros H. replace (l1 ++ z :: x :: l2) with ((l1 ++ [z]) ++ x :: l2) by (rewrite <- app_assoc; reflexivity).
    rewrite del_nth_app by (rewrite app_length; simpl; lia). rewrite <- app_assoc. reflexivity.
  Qed.
  Lemma on_nth_spec (f : A -> B) l i : on_nth f l i = option_map f (nth_error l i).
  Proof. revert i; induction l as [|x l IH]; intros [|i]; simpl; auto. Qed.
  Lemma split_at l i : i <= length l -> exists l1 l2, l = l1 ++ l2 /\ length l1 = i.
  Proof.
    intros H. exists (firstn i l), (skipn i l). split; [symmetry; apply firstn_skipn|].
    rewrite firstn_length. lia.
  Qed.
  Lemma split_elem l i : i < length l -> exists l1 x l2, l = l1 ++ x :: l2 /\ length l1 = i.
  Proof.
    intros H. destruct (nth_error l i) as [x|] eqn:E.
    - apply nth_error_split in E as (l1 & l2 & E1 & E2). eauto 6.
    - apply nth_error_None in E. lia.
  Qed.
  Lemma split_last l : l <> [] -> exists l1 x, l = l1 ++ [x].
  Proof. intros H. destruct (exists_last H) as (l1 & x & E). eauto. Qed.
End Lists.

(** ** Sorted entry lists *)
Section Sorted.
  Context {V : Type}.
  Notation entry := (entry V).
  Implicit Types (l : list entry) (e : entry).

  Definition klt e e' : Prop := lmt (fst e) (fst e') = true.
  Definition sorted l : Prop := StronglySorted klt l.
  Definition goods l : Prop := Forall (fun e => good (fst e)) l.
  Definition below l (k : EV) : Prop := Forall (fun e => lmt (fst e) k = true) l.
  Definition above l (k : EV) : Prop := Forall (fun e => lmt k (fst e) = true) l.

  Lemma sorted_app l1 l2 :
    sorted (l1 ++ l2) <-> sorted l1 /\ sorted l2 /\ (forall a b, In a l1 -> In b l2 -> klt a b).
  Proof.
    unfold sorted. induction l1 as [|x l1 IH]; simpl.
    - split; [intros H; split; [constructor|split; [exact H|tauto]] | tauto].
    - split.
      + intros H. inversion H; subst. apply IH in H2 as (S1 & S2 & S3).
        rewrite Forall_app in H3. destruct H3 as [F1 F2]. rewrite Forall_forall in F2.
        split; [constructor; assumption|split; [assumption|]]. intros a b [->|Ha] Hb; auto.
      + intros (H1 & H2 & H3). inversion H1; subst. constructor.
        * apply IH. auto 6.
        * apply Forall_app. split; [assumption|]. apply Forall_forall. auto.
  Qed.
  Lemma sorted_cons e l : sorted (e :: l) <-> sorted l /\ (forall b, In b l -> klt e b).
  Proof.
    unfold sorted. split.
    - intros H; inversion H; subst. rewrite Forall_forall in H3. auto.
    - intros [H1 H2]. constructor; [assumption|]. apply Forall_forall. assumption.
  Qed.
  Lemma goods_app l1 l2 : goods (l1 ++ l2) <-> goods l1 /\ goods l2.
  Proof. apply Forall_app. Qed.
  Lemma goods_cons e l : goods (e :: l) <-> good (fst e) /\ goods l.
  Proof. apply Forall_cons_iff. Qed.
  Lemma goods_in l e : goods l -> In e l -> good (fst e).
  Proof. unfold goods. rewrite Forall_forall. auto. Qed.
  Lemma below_app l1 l2 k : below (l1 ++ l2) k <-> below l1 k /\ below l2 k.
  Proof. apply Forall_app. Qed.
  Lemma above_app l1 l2 k : above (l1 ++ l2) k <-> above l1 k /\ above l2 k.
  Proof. apply Forall_app. Qed.
  Lemma below_in l k e : below l k -> In e l -> lmt (fst e) k = true.
  Proof. unfold below. rewrite Forall_forall. auto. Qed.
  Lemma above_in l k e : above l k -> In e l -> lmt k (fst e) = true.
  Proof. unfold above. rewrite Forall_forall. auto. Qed.

  (** insertion into a sorted list *)
  Fixpoint ins e l : list entry :=
    match l with
    | [] => [e]
    | x :: r => if lmt (fst x) (fst e) then x :: ins e r else e :: l
    end.
  Lemma ins_below l1 l2 e : below l1 (fst e) -> ins e (l1 ++ l2) = l1 ++ ins e l2.
  Proof.
    induction l1 as [|x l1 IH]; simpl; intros H; [reflexivity|]. inversion H; subst.
    rewrite H2. f_equal. auto.
  Qed.
  Lemma ins_above l1 l2 e : goods l2 -> good (fst e) -> above l2 (fst e) -> ins e (l1 ++ l2) = ins e l1 ++ l2.
  Proof.
    intros G Ge H. induction l1 as [|x l1 IH]; simpl.
    - destruct l2 as [|y l2]; [reflexivity|]. simpl.
      inversion H; subst. inversion G; subst. rewrite (lmt_asym (fst e) (fst y)); auto.
    - destruct (lmt (fst x) (fst e)); [rewrite IH|]; reflexivity.
  Qed.
  Lemma ins_perm e l : Permutation (ins e l) (e :: l).
  Proof.
    induction l as [|x l IH]; simpl; [reflexivity|]. destruct (lmt (fst x) (fst e)); [|reflexivity].
    rewrite IH. apply perm_swap.
  Qed.
  Lemma ins_length e l : length (ins e l) = S (length l).
  Proof. rewrite (Permutation_length (ins_perm e l)). reflexivity. Qed.

  (** a key is absent: every entry is strictly on one side *)
  Definition absent (k : EV) l : Prop :=
    Forall (fun e => lmt (fst e) k = true \/ lmt k (fst e) = true) l.
  Lemma absent_app k l1 l2 : absent k (l1 ++ l2) <-> absent k l1 /\ absent k l2.
  Proof. apply Forall_app. Qed.
  Lemma absent_cons k e l : absent k (e :: l) <-> (lmt (fst e) k = true \/ lmt k (fst e) = true) /\ absent k l.
  Proof. apply Forall_cons_iff. Qed.
  Lemma below_absent k l : below l k -> absent k l.
  Proof. apply Forall_impl. auto. Qed.
  Lemma above_absent k l : above l k -> absent k l.
  Proof. apply Forall_impl. auto. Qed.

  Lemma ins_sorted e l : goods l -> good (fst e) -> sorted l -> absent (fst e) l -> sorted (ins e l).
  Proof.
    intros G Ge S N. induction l as [|x l IH]; simpl.
    - constructor; constructor.
    - apply goods_cons in G as [Gx G]. apply absent_cons in N as [Nx N].
      apply sorted_cons in S as [S Sx]. destruct (lmt (fst x) (fst e)) eqn:E.
      + apply sorted_cons. split; [auto|]. intros b Hb.
        apply (Permutation_in _ (ins_perm e l)) in Hb as [<-|Hb]; [exact E|auto].
      + destruct Nx as [Nx|Nx]; [congruence|]. apply sorted_cons. split.
        * apply sorted_cons. auto.
        * intros b [<-|Hb]; [exact Nx|]. specialize (Sx b Hb). unfold klt in *.
          eapply (lmt_trans (fst e) (fst x) (fst b)); auto. eapply goods_in; eauto.
  Qed.
  Lemma ins_goods e l : goods l -> good (fst e) -> goods (ins e l).
  Proof.
    intros G Ge. unfold goods. apply Forall_forall. intros x Hx.
    apply (Permutation_in _ (ins_perm e l)) in Hx as [<-|Hx]; [exact Ge|]. eapply goods_in; eauto.
  Qed.

  (** deletion *)
  Definition del (k : EV) l : list entry := filter (fun e => lmt (fst e) k || lmt k (fst e)) l.
  Lemma del_app k l1 l2 : del k (l1 ++ l2) = del k l1 ++ del k l2.
  Proof. unfold del. apply filter_app. Qed.
  Lemma del_absent k l : absent k l -> del k l = l.
  Proof.
    induction l as [|x l IH]; simpl; [reflexivity|]. intros H. apply absent_cons in H as [Hx H].
    rewrite IH by exact H. destruct Hx as [-> | ->]; rewrite ?orb_true_r; reflexivity.
  Qed.
  Lemma del_sorted k l : sorted l -> sorted (del k l).
  Proof.
    unfold sorted, del. induction 1 as [|x l H IH F]; simpl; [constructor|].
    destruct (lmt (fst x) k || lmt k (fst x)); [|exact IH]. constructor; [exact IH|].
    apply Forall_forall. intros y Hy. apply filter_In in Hy as [Hy _]. rewrite Forall_forall in F. auto.
  Qed.
  Lemma del_goods k l : goods l -> goods (del k l).
  Proof.
    intros G. apply Forall_forall. intros y Hy. apply filter_In in Hy as [Hy _]. eapply goods_in; eauto.
  Qed.

  (** in a sorted list with an entry equivalent to k, everything else is strictly on one side *)
  Lemma sorted_equiv_sides l1 e l2 k :
    goods (l1 ++ e :: l2) -> good k -> sorted (l1 ++ e :: l2) ->
    lmt (fst e) k = false -> lmt k (fst e) = false -> below l1 k /\ above l2 k.
  Proof.
    intros G Gk S E1 E2. apply goods_app in G as [G1 G2]. apply goods_cons in G2 as [Ge G2].
    apply sorted_app in S as (S1 & S2 & S3). apply sorted_cons in S2 as [S2 S4]. split.
    - apply Forall_forall. intros x Hx. pose proof (S3 x e Hx (or_introl eq_refl)) as L. unfold klt in L.
      destruct (lmt_cotrans (fst x) k (fst e)) as [C|C]; auto; [exact (goods_in _ _ G1 Hx)|congruence].
    - apply Forall_forall. intros x Hx. pose proof (S4 x Hx) as L. unfold klt in L.
      destruct (lmt_cotrans (fst e) k (fst x)) as [C|C]; auto; [exact (goods_in _ _ G2 Hx)|congruence].
  Qed.
End Sorted.

Section Proofs.
  Context {V : Type}.
  Notation node := (node V).
  Notation entry := (entry V).
  Implicit Types (vs l : list entry) (kss K : list (list entry))
    (ks : list node) (a b c t : node) (v : entry) (k : EV).

  Lemma minValues_half n : minValues n = n / 2.
  Proof. unfold minValues. replace (n + 2) with (n + 1 * 2) by lia. rewrite Nat.div_add by lia. lia. Qed.

  (** ** weave/flat *)
  Fixpoint pre (vs : list entry) (kss : list (list entry)) : list entry :=
    match vs, kss with
    | v :: vs', l :: kss' => l ++ v :: pre vs' kss'
    | _, _ => []
    end.
  Definition post (vs : list entry) (kss : list (list entry)) : list entry :=
    match vs with [] => [] | v :: vs' => v :: weave vs' kss end.

  Lemma weave_app vs1 vs2 kss1 kss2 :
    length vs1 = length kss1 ->
    weave (vs1 ++ vs2) (kss1 ++ kss2) = pre vs1 kss1 ++ weave vs2 kss2.
  Proof.
    revert kss1; induction vs1 as [|v vs1 IH]; intros [|l kss1] H; simpl in *; try discriminate; [reflexivity|].
    rewrite IH by lia. rewrite <- app_assoc. reflexivity.
  Qed.
  Lemma weave_join l1 v l2 K1 K2 :
    length K1 = S (length l1) ->
    weave (l1 ++ v :: l2) (K1 ++ K2) = weave l1 K1 ++ v :: weave l2 K2.
  Proof.
    revert K1; induction l1 as [|x l1 IH]; intros [|k K1] H; simpl in *; try discriminate.
    - destruct K1; [|discriminate]. simpl. rewrite app_nil_r. reflexivity.
    - rewrite IH by lia. rewrite <- app_assoc. reflexivity.
  Qed.

  Lemma flat_split vs1 vs2 ks1 c ks2 :
    length vs1 = length ks1 ->
    flat (Node (vs1 ++ vs2) (ks1 ++ c :: ks2))
    = pre vs1 (map flat ks1) ++ flat c ++ post vs2 (map flat ks2).
  Proof.
    intros H. cbn [flat]. rewrite map_app. cbn [map].
    rewrite weave_app by (rewrite map_length; exact H). reflexivity.
  Qed.
  Lemma flat_split2 vs1 v vs2 ks1 a b ks2 :
    length vs1 = length ks1 ->
    flat (Node (vs1 ++ v :: vs2) (ks1 ++ a :: b :: ks2))
    = pre vs1 (map flat ks1) ++ flat a ++ v :: flat b ++ post vs2 (map flat ks2).
  Proof. intros H. rewrite flat_split by exact H. reflexivity. Qed.

  Lemma pre_below vs kss k :
    goods (pre vs kss) -> good k -> sorted (pre vs kss) -> length vs = length kss -> below vs k -> below (pre vs kss) k.
  Proof.
    revert kss; induction vs as [|v vs IH]; intros [|l kss] G Gk S L B; simpl in *; try discriminate; [constructor|].
    apply goods_app in G as [G1 G2]. apply goods_cons in G2 as [Gv G2].
    apply sorted_app in S as (S1 & S2 & S3). apply sorted_cons in S2 as [S2 S4].
    inversion B as [|? ? Bv Bvs]; subst.
    apply below_app. split.
    - apply Forall_forall. intros x Hx. eapply (lmt_trans (fst x) (fst v) k); auto; [exact (goods_in _ _ G1 Hx)|].
      apply (S3 x v Hx). left; reflexivity.
    - constructor; [exact Bv|]. apply IH; auto.
  Qed.
  Lemma post_above vs kss k :
    goods (post vs kss) -> good k -> sorted (post vs kss) ->
    (forall v vs', vs = v :: vs' -> lmt k (fst v) = true) -> above (post vs kss) k.
  Proof.
    destruct vs as [|v vs]; simpl; intros G Gk S B; [constructor|].
    specialize (B v vs eq_refl). apply goods_cons in G as [Gv G]. apply sorted_cons in S as [S Sv].
    constructor; [exact B|]. apply Forall_forall. intros x Hx.
    eapply (lmt_trans k (fst v) (fst x)); auto; [exact (goods_in _ _ G Hx)|]. apply Sv, Hx.
  Qed.

  (** ** search *)
  Lemma search_spec (vs : list entry) k :
    exists vs1 vs2, vs = vs1 ++ vs2 /\ length vs1 = search vs k /\ below vs1 k /\
      (forall v vs', vs2 = v :: vs' -> lmt (fst v) k = false).
  Proof.
    induction vs as [|[kv v] vs IH].
    - exists [], []. repeat split; [constructor|]. intros; discriminate.
    - simpl. destruct (lmt kv k) eqn:E; simpl.
      + destruct IH as (vs1 & vs2 & E1 & E2 & E3 & E4). exists ((kv, v) :: vs1), vs2. subst vs. simpl.
        repeat split; auto. constructor; auto.
      + exists [], ((kv, v) :: vs). repeat split; [constructor|]. intros w vs' H. inversion H; subst. exact E.
  Qed.

  Lemma found_at_app (vs1 vs2 : list entry) k :
    found_at (vs1 ++ vs2) (length vs1) k =
    match vs2 with [] => None | (k', v) :: _ => if negb (lmt k k') then Some (k', v) else None end.
  Proof.
    unfold found_at. destruct vs2 as [|[k' v] vs2].
    - rewrite app_nil_r. replace (nth_error vs1 (length vs1)) with (@None entry); [reflexivity|].
      symmetry. apply nth_error_None. lia.
    - rewrite nth_error_app_len by reflexivity. reflexivity.
  Qed.

  (** ** Leaf insertion *)
  Lemma ins_head (e : entry) l :
    good (fst e) -> goods l -> (forall v vs', l = v :: vs' -> lmt (fst e) (fst v) = true) -> ins e l = e :: l.
  Proof.
    destruct l as [|x l]; intros Ge G H; [reflexivity|]. simpl.
    apply goods_cons in G as [Gx G].
    rewrite (lmt_asym (fst e) (fst x)); auto. eapply H; reflexivity.
  Qed.

  Lemma createTreeItem_spec vs k (nv : option V) :
    goods vs -> good k -> sorted vs ->
    match createTreeItem vs k nv with
    | inl v => exists k', In (k', v) vs /\ lmt k' k = false /\ lmt k k' = false
    | inr vs' => absent k vs /\
        match nv with
        | Some v => vs' = ins (k, v) vs
        | None => length vs' = length vs /\ (below vs k -> vs' = vs)
        end
    end.
  Proof.
    intros G Gk S. unfold createTreeItem.
    destruct (search_spec vs k) as (vs1 & vs2 & E & L & B & N). rewrite <- L. subst vs.
    rewrite found_at_app.
    apply goods_app in G as [G1 G2]. pose proof S as S'. apply sorted_app in S as (S1 & S2 & S3).
    destruct vs2 as [|[k' v'] vs2].
    - assert (A : absent k (vs1 ++ [])) by (apply absent_app; split; [apply below_absent; exact B | constructor]).
      destruct nv as [v|].
      + split; [exact A|]. rewrite (firstn_app_len vs1 [] _ eq_refl), (skipn_app_len vs1 [] _ eq_refl).
        rewrite ins_below by exact B. reflexivity.
      + split; [exact A|]. rewrite app_nil_r. replace (nth_error vs1 (length vs1)) with (@None entry)
          by (symmetry; apply nth_error_None; lia). rewrite firstn_all. auto.
    - specialize (N _ _ eq_refl). simpl in N. destruct (lmt k k') eqn:E; cbn [negb].
      + assert (A : above ((k', v') :: vs2) k).
        { apply goods_cons in G2 as [Gv G2]. apply sorted_cons in S2 as [S2 S4]. constructor; [exact E|].
          apply Forall_forall. intros x Hx. eapply (lmt_trans k k' (fst x)); auto; [exact (goods_in _ _ G2 Hx)|].
          apply (S4 x Hx). }
        assert (Ab : absent k (vs1 ++ (k', v') :: vs2))
          by (apply absent_app; split; [apply below_absent; exact B | apply above_absent; exact A]).
        destruct nv as [v|]; (split; [exact Ab|]).
        * rewrite firstn_app_len, skipn_app_len by reflexivity.
          rewrite ins_below by exact B. f_equal. symmetry. apply ins_head; auto.
          intros w vs' Hw. inversion Hw; subst. exact E.
        * rewrite firstn_length. split.
          -- rewrite nth_error_app_len by reflexivity.
             rewrite firstn_app_len, skipn_app_len by reflexivity. rewrite !app_length. simpl. lia.
          -- intros BB. apply below_app in BB as [_ BB]. inversion BB; subst. simpl in *. congruence.
      + exists k'. split; [apply in_or_app; right; left; reflexivity|]. auto.
  Qed.

  (** ** Occupied children *)
  Definition okc (n h : nat) (c : node) : Prop := balanced n h c /\ n / 2 <= length (vals_of c) <= n.

  Lemma balanced_S n h vs ks :
    balanced n (S h) (Node vs ks) <-> length ks = S (length vs) /\ Forall (okc n h) ks.
  Proof. reflexivity. Qed.

  Lemma flat_nonempty n h t : 2 <= n -> balanced n h t -> 1 <= length (vals_of t) -> flat t <> [].
  Proof.
    destruct t as [vs ks]. simpl. intros Hn Hb Hl. destruct vs as [|v vs]; [simpl in Hl; lia|].
    destruct h as [|h].
    - simpl in Hb. subst ks. discriminate.
    - destruct ks as [|c ks]; [discriminate|]. simpl. destruct (flat c); discriminate.
  Qed.
  Lemma okc_nonempty n h c : 2 <= n -> okc n h c -> flat c <> [].
  Proof. intros Hn [H1 H2]. eapply flat_nonempty; eauto. assert (1 <= n / 2) by lia. lia. Qed.

  (** a key with a strictly greater successor is not Any *)
  Lemma not_any_of_lt x y : good y -> lmt x y = true -> good x -> ev_type x <> T_any.
  Proof.
    intros Gy L Gx E. rewrite (wt_any_nil x) in L; [|apply Gx|exact E].
    rewrite lmt_any_greatest in L by exact Gy. discriminate.
  Qed.

  Lemma less_eq_lmt x y : ev_type x <> T_any -> ev_type y <> T_any -> less x y = lmt x y.
  Proof. intros Hx Hy. unfold less, lmt. rewrite less_lmt_concrete by assumption. reflexivity. Qed.

  Lemma insert_index_spec vs1 vs2 (x : entry) :
    good (fst x) -> goods (vs1 ++ vs2) ->
    below vs1 (fst x) -> (forall v vs', vs2 = v :: vs' -> less (fst x) (fst v) = true) ->
    insert_index (vs1 ++ vs2) (fst x) = length vs1.
  Proof.
    intros Gx G B N. induction vs1 as [|[kv v] vs1 IH]; simpl.
    - destruct vs2 as [|[k2 v2] vs2]; [reflexivity|]. simpl.
      specialize (N _ _ eq_refl). simpl in N. rewrite N. reflexivity.
    - inversion B as [|? ? B1 B2]; subst. simpl in *. apply goods_cons in G as [Gv G].
      assert (L : less (fst x) kv = false).
      { destruct (Z.eq_dec (ev_type (fst x)) T_any) as [E|E].
        - unfold less. rewrite less_any_l by exact E. reflexivity.
        - rewrite less_eq_lmt; [apply lmt_asym; auto|exact E|].
          eapply not_any_of_lt; [|exact B1|]; auto. }
      rewrite L. f_equal. apply IH; auto.
  Qed.

  Definition split_ok (n h : nat) (p : node) : Prop :=
    exists (x : entry) (l r : node), p = Node [x] [l; r] /\ okc n h l /\ okc n h r.

  Lemma firstn_skipn_pivot {A} (l : list A) i x :
    nth_error l i = Some x -> l = firstn i l ++ x :: skipn (i + 1) l.
  Proof.
    intros H. apply nth_error_split in H as (l1 & l2 & -> & L).
    rewrite firstn_app_len by exact L. replace (i + 1) with (S i) by lia.
    rewrite skipn_app_len_S by exact L. reflexivity.
  Qed.

  Lemma splitLeaf_spec n vs :
    2 <= n -> length vs = S n ->
    exists p, splitLeaf n vs = Some p /\ split_ok n 0 p /\ flat p = vs.
  Proof.
    intros Hn L. unfold splitLeaf, maxValues.
    destruct (nth_error vs (n / 2)) as [x|] eqn:E.
    - exists (Node [x] [Node (firstn (n / 2) vs) []; Node (skipn (n / 2 + 1) vs) []]).
      split; [reflexivity|]. split.
      + eexists _, _, _. split; [reflexivity|].
        assert (n / 2 <= n) by lia. assert (n / 2 + n / 2 <= n) by lia.
        split; (split; [reflexivity|]); cbn [vals_of]; rewrite ?firstn_length, ?skipn_length, L; lia.
      + cbn. rewrite app_nil_r. symmetry. apply firstn_skipn_pivot. exact E.
    - apply nth_error_None in E. assert (n / 2 <= n) by lia. lia.
  Qed.

  Lemma splitNode_spec n h vs ks :
    2 <= n -> length vs = S n -> length ks = S (length vs) -> Forall (okc n h) ks ->
    exists p, splitNode n vs ks = Some p /\ split_ok n (S h) p /\ flat p = flat (Node vs ks).
  Proof.
    intros Hn L LK FK. unfold splitNode, maxValues.
    assert (H1 : n / 2 + n / 2 <= n) by lia.
    destruct (nth_error vs (n / 2)) as [x|] eqn:E.
    - eexists. split; [reflexivity|]. split.
      + eexists _, _, _. split; [reflexivity|].
        split; (split; [apply balanced_S|cbn [vals_of]; rewrite ?firstn_length, ?skipn_length; lia]).
        * split; [rewrite !firstn_length; lia|]. rewrite <- (firstn_skipn (n / 2 + 1) ks) in FK.
          apply Forall_app in FK. apply FK.
        * split; [rewrite !skipn_length; lia|]. rewrite <- (firstn_skipn (n / 2 + 1) ks) in FK.
          apply Forall_app in FK. apply FK.
      + apply firstn_skipn_pivot in E. rewrite E at 3.
        rewrite <- (firstn_skipn (n / 2 + 1) ks) at 3.
        cbn [flat]. rewrite map_app, weave_join.
        * cbn [map flat]. cbn. rewrite app_nil_r. reflexivity.
        * rewrite map_length, !firstn_length. lia.
    - apply nth_error_None in E. lia.
  Qed.

  (** ** create *)
  Definition create_post (n h : nat) (t : node) (k : EV) (nv : option V) (r : cres V) : Prop :=
    match r with
    | CPanic => False
    | CExists v => exists k', In (k', v) (flat t) /\ lmt k' k = false /\ lmt k k' = false
    | CSame t' =>
        absent k (flat t) /\ balanced n h t' /\
        length (vals_of t) <= length (vals_of t') <= n /\
        match nv with
        | Some v => flat t' = ins (k, v) (flat t)
        | None => length (flat t') = length (flat t) /\ (below (flat t) k -> flat t' = flat t)
        end
    | CSplit p =>
        absent k (flat t) /\ split_ok n h p /\
        exists v : V, nv = Some v /\ flat p = ins (k, v) (flat t)
    end.

  Lemma create_spec n h : forall t k nv,
    2 <= n -> balanced n h t -> length (vals_of t) <= n ->
    goods (flat t) -> good k -> sorted (flat t) ->
    create_post n h t k nv (create n t k nv).
  Proof.
    induction h as [|h IH]; intros t k nv Hn Hb Hl G Gk S; destruct t as [vs ks].
    - simpl in Hb. subst ks. cbn [flat] in G, S. cbn in G, S, Hl. cbn [create].
      pose proof (createTreeItem_spec vs k nv G Gk S) as C.
      destruct (createTreeItem vs k nv) as [v|vs'].
      + exact C.
      + destruct C as [A C]. destruct (Nat.ltb_spec (maxValues n) (length vs')) as [Lt|Ge].
        * unfold maxValues in Lt. destruct nv as [v|].
          -- subst vs'. rewrite ins_length in Lt.
             destruct (splitLeaf_spec n (ins (k, v) vs) Hn) as (p & -> & P1 & P2); [rewrite ins_length; lia|].
             cbn. split; [exact A|]. split; [exact P1|]. exists v. split; [reflexivity|]. exact P2.
          -- destruct C as [C _]. lia.
        * unfold maxValues in Ge. cbn. split; [exact A|]. split; [reflexivity|].
          destruct nv as [v|].
          -- subst vs'. rewrite ins_length in *. split; [lia|reflexivity].
          -- split; [lia|]. exact C.
    - destruct Hb as [LK FK]. cbn [kids_of vals_of] in LK, FK, Hl. change (Forall (okc n h) ks) in FK.
      destruct ks as [|c0 ks0]; [discriminate|]. remember (c0 :: ks0) as ks eqn:EK.
      assert (CE : create n (Node vs ks) k nv =
        match found_at vs (search vs k) k with
        | Some (_, v) => CExists v
        | None =>
            match on_nth (fun c => create n c k nv) ks (search vs k) with
            | Some (CSame c') => CSame (Node vs (set_nth (search vs k) c' ks))
            | Some (CSplit p) =>
                match insertNode vs ks p with
                | Some (vs', ks') =>
                    if Nat.ltb (maxValues n) (length vs') then
                      match splitNode n vs' ks' with Some p' => CSplit p' | None => CPanic end
                    else CSame (Node vs' ks')
                | None => CPanic
                end
            | Some r => r
            | None => CPanic
            end
        end) by (subst ks; reflexivity).
      rewrite CE. clear CE EK c0 ks0.
      destruct (search_spec vs k) as (vs1 & vs2 & E & L & B & N). rewrite <- L. subst vs.
      pose proof (found_at_app vs1 vs2 k) as EF. symmetry in EF.
      remember (found_at (vs1 ++ vs2) (length vs1) k) as fo eqn:Efo. clear Efo.
      destruct (split_elem ks (length vs1)) as (ks1 & c & ks2 & EKS & L1).
      { rewrite LK, app_length. lia. }
      subst ks. rewrite app_length in LK, Hl. rewrite app_length in LK. cbn [length] in LK.
      assert (L2 : length vs2 = length ks2) by lia. symmetry in L1.
      rewrite flat_split in G, S by exact L1.
      pose proof G as G0. pose proof S as S0.
      apply goods_app in G as [Gp G]. apply goods_app in G as [Gc Gq].
      apply sorted_app in S as (Sp & S & Spq). apply sorted_app in S as (Sc & Sq & Scq).
      assert (Bp : below (pre vs1 (map flat ks1)) k).
      { apply pre_below; auto. rewrite map_length. exact L1. }
      apply Forall_app in FK as [FK1 FK]. apply Forall_cons_iff in FK as [[Bc Oc] FK2].
      destruct fo as [[kf vf]|].
      + destruct vs2 as [|[k2 v2] vs2]; [discriminate|]. destruct (lmt k k2) eqn:E2; [discriminate|].
        inversion EF; subst. cbn [create_post]. exists kf. split.
        * rewrite flat_split by exact L1. apply in_or_app; right. apply in_or_app; right. left. reflexivity.
        * split; [exact (N _ _ eq_refl)|exact E2].
      + assert (Aq : above (post vs2 (map flat ks2)) k).
        { apply post_above; auto. intros w vs' Ew. subst vs2. destruct w as [k2 v2].
          destruct (lmt k k2) eqn:E2; [exact E2|discriminate]. }
        rewrite on_nth_spec, nth_error_app_len by (symmetry; exact L1). cbn [option_map].
        specialize (IH c k nv Hn Bc ltac:(lia) Gc Gk Sc).
        destruct (create n c k nv) as [v| |c'|p]; cbn [create_post] in IH |- *.
        * destruct IH as (k' & I1 & I2). exists k'. split; [|exact I2].
          rewrite flat_split by exact L1. apply in_or_app; right. apply in_or_app; left. exact I1.
        * exact IH.
        * destruct IH as (A & Bc' & Lc' & F).
          rewrite set_nth_app by (symmetry; exact L1). rewrite !flat_split by exact L1.
          split; [apply absent_app; split; [apply below_absent, Bp|apply absent_app; split; [exact A|apply above_absent, Aq]]|].
          split.
          { apply balanced_S. rewrite !app_length. cbn [length]. split; [lia|].
            apply Forall_app. split; [exact FK1|]. constructor; [split; [exact Bc'|lia]|exact FK2]. }
          split; [cbn [vals_of]; rewrite app_length; lia|].
          destruct nv as [v|].
          -- rewrite F. rewrite ins_below by exact Bp. f_equal. symmetry. apply ins_above; auto.
          -- destruct F as [F1 F2]. split.
             ++ rewrite !app_length. rewrite F1. reflexivity.
             ++ intros BB. apply below_app in BB as [_ BB]. apply below_app in BB as [BB _].
                rewrite (F2 BB). reflexivity.
        * destruct IH as (A & (x & l & r & -> & Ol & Or) & v & -> & F).
          assert (Ab : absent k (pre vs1 (map flat ks1) ++ flat c ++ post vs2 (map flat ks2))).
          { apply absent_app; split; [apply below_absent, Bp|apply absent_app; split; [exact A|apply above_absent, Aq]]. }
          assert (FI : ins (k, v) (pre vs1 (map flat ks1) ++ flat c ++ post vs2 (map flat ks2)) =
                       pre vs1 (map flat ks1) ++ flat l ++ x :: flat r ++ post vs2 (map flat ks2)).
          { rewrite ins_below by exact Bp. f_equal. rewrite ins_above by auto.
            rewrite <- F. cbn. rewrite app_nil_r. rewrite <- app_assoc. reflexivity. }
          assert (GI : goods (pre vs1 (map flat ks1) ++ flat l ++ x :: flat r ++ post vs2 (map flat ks2))).
          { rewrite <- FI. apply ins_goods; auto. }
          assert (SI : sorted (pre vs1 (map flat ks1) ++ flat l ++ x :: flat r ++ post vs2 (map flat ks2))).
          { rewrite <- FI. apply ins_sorted; auto. }
          assert (Gx : good (fst x)).
          { eapply goods_in; [exact GI|]. apply in_or_app; right. apply in_or_app; right. left; reflexivity. }
          assert (VI : forall w, In w vs1 -> In w (pre vs1 (map flat ks1))).
          { intros w. clear - L1. revert ks1 L1. induction vs1 as [|u vs1 IHv]; intros [|q ks1] L1 Hw; simpl in *; try tauto; try discriminate.
            apply in_or_app. right. destruct Hw as [->|Hw]; [left; reflexivity|right; apply IHv; auto]. }
          assert (Bx : below vs1 (fst x)).
          { apply Forall_forall. intros w Hw. apply sorted_app in SI as (_ & _ & SI).
            apply (SI w x (VI w Hw)). apply in_or_app; right; left; reflexivity. }
          assert (Gvs : goods (vs1 ++ vs2)).
          { apply goods_app. split.
            - apply Forall_forall. intros w Hw. exact (goods_in _ _ Gp (VI w Hw)).
            - apply Forall_forall. intros w Hw.
              assert (HI : In w (post vs2 (map flat ks2))); [|exact (goods_in _ _ Gq HI)].
              clear - Hw L2. revert ks2 L2. induction vs2 as [|u vs2 IHv]; intros ks2 L2; [destruct Hw|].
              destruct Hw as [->|Hw]; [left; reflexivity|]. right.
              destruct ks2 as [|q ks2]; [discriminate|]. simpl. apply in_or_app. right.
              apply (IHv Hw ks2). simpl in L2. lia. }
          assert (Nx : forall w vs', vs2 = w :: vs' -> less (fst x) (fst w) = true).
          { intros w vs' ->.
            assert (Hw : lmt (fst x) (fst w) = true).
            { apply sorted_app in SI as (_ & SI & _). apply sorted_app in SI as (_ & SI & _).
              apply sorted_cons in SI as [_ SI]. apply (SI w). apply in_or_app. right. left. reflexivity. }
            assert (Gw : good (fst w)) by (apply goods_app in Gvs as [_ Gvs]; inversion Gvs; auto).
            rewrite less_eq_lmt; [exact Hw| |].
            - eapply not_any_of_lt; [exact Gw|exact Hw|exact Gx].
            - (* w has the non-empty child ks2[0] to its right *)
              destruct ks2 as [|q ks2]; [discriminate|]. inversion FK2 as [|? ? Oq FK2']; subst.
              destruct (flat q) as [|y ys] eqn:Eq; [exfalso; eapply okc_nonempty; eauto|].
              cbn in Sq, Gq. rewrite Eq in Sq, Gq.
              apply sorted_cons in Sq as [_ Sq]. apply goods_cons in Gq as [_ Gq]. cbn in Gq.
              inversion Gq; subst.
              eapply (not_any_of_lt _ (fst y)); auto. apply (Sq y). left. reflexivity. }
          cbn [insertNode]. rewrite (insert_index_spec vs1 vs2 x) by auto.
          rewrite ins_nth_app by reflexivity.
          rewrite firstn_app_len by (symmetry; exact L1). rewrite skipn_app_len_S by (symmetry; exact L1).
          assert (FK' : Forall (okc n h) (ks1 ++ l :: r :: ks2)).
          { apply Forall_app. split; [exact FK1|]. constructor; [exact Ol|]. constructor; [exact Or|exact FK2]. }
          assert (FF : flat (Node (vs1 ++ x :: vs2) (ks1 ++ l :: r :: ks2)) =
                       ins (k, v) (flat (Node (vs1 ++ vs2) (ks1 ++ c :: ks2)))).
          { rewrite flat_split2, flat_split by exact L1. symmetry. exact FI. }
          destruct (Nat.ltb_spec (maxValues n) (length (vs1 ++ x :: vs2))) as [Lt|Ge]; unfold maxValues in *;
            rewrite app_length in *; cbn [length] in *.
          -- destruct (splitNode_spec n h (vs1 ++ x :: vs2) (ks1 ++ l :: r :: ks2) Hn) as (p & -> & P1 & P2);
               [rewrite app_length; simpl; lia|rewrite !app_length; simpl; lia|exact FK'|].
             cbn [create_post]. rewrite (flat_split vs1 vs2) by exact L1. split; [exact Ab|]. split; [exact P1|]. exists v. split; [reflexivity|].
             rewrite P2, FF, flat_split by exact L1. reflexivity.
          -- cbn [create_post]. rewrite (flat_split vs1 vs2) by exact L1. split; [exact Ab|]. split.
             { apply balanced_S. split; [rewrite !app_length; simpl; lia|exact FK']. }
             split; [cbn [vals_of]; rewrite !app_length; cbn [length]; lia|]. rewrite FF, flat_split by exact L1. reflexivity.
  Qed.

  (** ** delete: rotations, merges, rebalance *)
  Lemma balanced_0 n vs ks : balanced n 0 (Node vs ks) <-> ks = [].
  Proof. reflexivity. Qed.

  Lemma weave_cons v vs l kss : weave (v :: vs) (l :: kss) = l ++ v :: weave vs kss.
  Proof. reflexivity. Qed.
  Lemma weave_nil_r vs : weave vs [] = vs.
  Proof. destruct vs; reflexivity. Qed.

  Lemma rotateLeft_spec n h vs1 v vs2 ks1 c r ks2 :
    length vs1 = length ks1 -> balanced n h c -> balanced n h r -> 1 <= length (vals_of r) ->
    exists c' r' x,
      rotateLeft (vs1 ++ v :: vs2) (ks1 ++ c :: r :: ks2) (length ks1)
        = Some (vs1 ++ x :: vs2, ks1 ++ c' :: r' :: ks2) /\
      flat c' ++ x :: flat r' = flat c ++ v :: flat r /\
      balanced n h c' /\ balanced n h r' /\
      length (vals_of c') = S (length (vals_of c)) /\ S (length (vals_of r')) = length (vals_of r).
  Proof.
    intros L Bc Br Lr. destruct c as [cv ck], r as [rv rk]. destruct rv as [|r0 rv]; [simpl in Lr; lia|].
    unfold rotateLeft. rewrite (nth_error_app_len_S ks1), (nth_error_app_len ks1) by reflexivity.
    rewrite nth_error_app_len by exact L.
    rewrite (set_nth_app vs1) by exact L. rewrite (set_nth_app ks1) by reflexivity.
    rewrite (set_nth_app_S ks1) by reflexivity.
    eexists _, _, _. split; [reflexivity|].
    destruct h as [|h].
    - apply balanced_0 in Bc. apply balanced_0 in Br. subst ck rk. cbn.
      rewrite app_length. cbn. rewrite ?weave_nil_r, <- app_assoc. repeat split; try reflexivity; lia.
    - apply (proj1 (balanced_S _ _ _ _)) in Bc; cbn [vals_of kids_of] in Bc; destruct Bc as [LC FC]. apply (proj1 (balanced_S _ _ _ _)) in Br; cbn [vals_of kids_of] in Br; destruct Br as [LR FR].
      destruct rk as [|rk0 rk]; [discriminate|]. destruct ck as [|ck0 ck]; [discriminate|].
      apply Forall_cons_iff in FR as [FR0 FR]. cbn [tl length] in *. cbv iota beta. split; [|split; [|split; [|split]]].
      + cbn [flat]. rewrite map_app. rewrite weave_join by (rewrite map_length; exact LC).
        cbn [map]. rewrite weave_cons. cbn. rewrite app_nil_r, <- app_assoc. reflexivity.
      + apply balanced_S. split; [rewrite !app_length; cbn [length]; lia|].
        apply Forall_app. split; [exact FC|]. constructor; [exact FR0|constructor].
      + apply balanced_S. split; [lia|exact FR].
      + cbn [vals_of]. rewrite app_length. cbn. lia.
      + reflexivity.
  Qed.

  Lemma rotateRight_spec n h vs1 v vs2 ks1 (l : node) c ks2 :
    length vs1 = length ks1 -> balanced n h c -> balanced n h l -> 1 <= length (vals_of l) ->
    exists (l' c' : node) (x : entry),
      rotateRight (vs1 ++ v :: vs2) (ks1 ++ l :: c :: ks2) (S (length ks1))
        = Some (vs1 ++ x :: vs2, ks1 ++ l' :: c' :: ks2) /\
      flat l' ++ x :: flat c' = flat l ++ v :: flat c /\
      balanced n h l' /\ balanced n h c' /\
      length (vals_of c') = S (length (vals_of c)) /\ S (length (vals_of l')) = length (vals_of l).
  Proof.
    intros L Bc Bl Ll. destruct c as [cv ck], l as [lv lk]. cbn [vals_of] in Ll.
    destruct (split_last lv) as (lv' & g & ->); [intros ->; simpl in Ll; lia|].
    unfold rotateRight. rewrite (nth_error_app_len_S ks1), (nth_error_app_len ks1) by reflexivity.
    rewrite (nth_error_app_len vs1) by exact L. rewrite rev_unit, removelast_last.
    rewrite (set_nth_app vs1) by exact L. rewrite (set_nth_app ks1) by reflexivity.
    rewrite (set_nth_app_S ks1) by reflexivity.
    eexists _, _, _. split; [reflexivity|].
    destruct h as [|h].
    - apply balanced_0 in Bc. apply balanced_0 in Bl. subst ck lk. cbn.
      rewrite app_length. cbn. rewrite ?weave_nil_r, <- app_assoc. repeat split; try reflexivity; lia.
    - apply (proj1 (balanced_S _ _ _ _)) in Bc; cbn [vals_of kids_of] in Bc; destruct Bc as [LC FC]. apply (proj1 (balanced_S _ _ _ _)) in Bl; cbn [vals_of kids_of] in Bl; destruct Bl as [LL FL].
      destruct (split_last lk) as (lk' & gk & ->); [intros ->; discriminate|].
      rewrite rev_unit, removelast_last. rewrite !app_length in *. cbn [length] in *.
      apply Forall_app in FL as [FL1 FL2]. apply Forall_cons_iff in FL2 as [FL2 _].
      split; [|split; [|split; [|split]]].
      + cbn [flat map]. rewrite weave_cons.
        rewrite map_app. cbn [map].
        change (lv' ++ [g]) with (lv' ++ g :: []).
        rewrite weave_join by (rewrite map_length; lia). cbn. rewrite app_nil_r, <- app_assoc. reflexivity.
      + apply balanced_S. split; [lia|exact FL1].
      + apply balanced_S. split; [cbn [length]; lia|]. constructor; assumption.
      + cbn [vals_of length]. reflexivity.
      + cbn [vals_of]. rewrite app_length. cbn [length]. lia.
  Qed.

  Lemma mergeDown_spec n h vs1 v vs2 ks1 (l r : node) ks2 i :
    length vs1 = length ks1 -> i = length ks1 \/ i = S (length ks1) -> (i = length ks1 -> i = 0) ->
    balanced n h l -> balanced n h r ->
    exists m,
      mergeDown (vs1 ++ v :: vs2) (ks1 ++ l :: r :: ks2) i = Some (vs1 ++ vs2, ks1 ++ m :: ks2) /\
      flat m = flat l ++ v :: flat r /\ balanced n h m /\
      length (vals_of m) = S (length (vals_of l) + length (vals_of r)).
  Proof.
    intros L Hi H0 Bl Br. unfold mergeDown.
    replace (match i with O => O | S j => j end) with (length ks1) by (destruct i; lia).
    destruct l as [lv lk], r as [rv rk].
    rewrite (nth_error_app_len_S ks1), (nth_error_app_len ks1) by reflexivity. rewrite nth_error_app_len by exact L.
    rewrite (set_nth_app ks1) by reflexivity. rewrite (del_nth_app_S ks1) by reflexivity.
    rewrite (del_nth_app vs1) by exact L. eexists. split; [reflexivity|].
    destruct h as [|h].
    - apply balanced_0 in Bl. apply balanced_0 in Br. subst lk rk. cbn. rewrite app_length. cbn.
      repeat split; try reflexivity; lia.
    - apply (proj1 (balanced_S _ _ _ _)) in Bl; cbn [vals_of kids_of] in Bl; destruct Bl as [LL FL]. apply (proj1 (balanced_S _ _ _ _)) in Br; cbn [vals_of kids_of] in Br; destruct Br as [LR FR]. split; [|split].
      + cbn [flat]. rewrite map_app, weave_join by (rewrite map_length; exact LL). reflexivity.
      + apply balanced_S. split; [rewrite !app_length; cbn [length]; lia|]. apply Forall_app. auto.
      + cbn [vals_of]. rewrite app_length. cbn. lia.
  Qed.

  Definition rebalanced (n h : nat) (t0 : node) (t' : node) (u : bool) : Prop :=
    flat t' = flat t0 /\ balanced n (S h) t' /\
    (length (vals_of t') = length (vals_of t0) /\ u = false \/
     S (length (vals_of t')) = length (vals_of t0) /\ u = Nat.ltb (length (vals_of t')) (n / 2)).

  Lemma rebalance_rotL n h vs1 v vs2 ks1 c r ks2 :
    length vs1 = length ks1 -> length vs2 = length ks2 ->
    Forall (okc n h) ks1 -> Forall (okc n h) ks2 ->
    balanced n h c -> S (length (vals_of c)) = n / 2 -> okc n h r -> n / 2 < length (vals_of r) ->
    exists t', match rotateLeft (vs1 ++ v :: vs2) (ks1 ++ c :: r :: ks2) (length ks1) with
      Some (vs', ks') => Some (Node vs' ks', false) | None => None end = Some (t', false) /\
      rebalanced n h (Node (vs1 ++ v :: vs2) (ks1 ++ c :: r :: ks2)) t' false.
  Proof.
    intros L L2 F1 F2 Bc Lc [Br Or] Lr.
    destruct (rotateLeft_spec n h vs1 v vs2 ks1 c r ks2 L Bc Br ltac:(lia)) as (c' & r' & x & -> & F & B1 & B2 & L3 & L4).
    eexists. split; [reflexivity|]. split; [|split].
    - rewrite !flat_split2 by exact L. f_equal.
      change (x :: flat r' ++ post vs2 (map flat ks2)) with ((x :: flat r') ++ post vs2 (map flat ks2)).
      change (v :: flat r ++ post vs2 (map flat ks2)) with ((v :: flat r) ++ post vs2 (map flat ks2)).
      rewrite !app_assoc. f_equal. exact F.
    - apply balanced_S. split; [rewrite !app_length; cbn [length]; lia|].
      apply Forall_app. split; [exact F1|]. constructor; [split; [exact B1|lia]|].
      constructor; [split; [exact B2|lia]|exact F2].
    - left. cbn [vals_of]. rewrite !app_length. cbn [length]. auto.
  Qed.

  Lemma rebalance_rotR n h vs1 v vs2 ks1 (l : node) c ks2 :
    length vs1 = length ks1 -> length vs2 = length ks2 ->
    Forall (okc n h) ks1 -> Forall (okc n h) ks2 ->
    balanced n h c -> S (length (vals_of c)) = n / 2 -> okc n h l -> n / 2 < length (vals_of l) ->
    exists t', match rotateRight (vs1 ++ v :: vs2) (ks1 ++ l :: c :: ks2) (S (length ks1)) with
      Some (vs', ks') => Some (Node vs' ks', false) | None => None end = Some (t', false) /\
      rebalanced n h (Node (vs1 ++ v :: vs2) (ks1 ++ l :: c :: ks2)) t' false.
  Proof.
    intros L L2 F1 F2 Bc Lc [Bl Ol] Ll.
    destruct (rotateRight_spec n h vs1 v vs2 ks1 l c ks2 L Bc Bl ltac:(lia)) as (l' & c' & x & -> & F & B1 & B2 & L3 & L4).
    eexists. split; [reflexivity|]. split; [|split].
    - rewrite !flat_split2 by exact L. f_equal.
      change (x :: flat c' ++ post vs2 (map flat ks2)) with ((x :: flat c') ++ post vs2 (map flat ks2)).
      change (v :: flat c ++ post vs2 (map flat ks2)) with ((v :: flat c) ++ post vs2 (map flat ks2)).
      rewrite !app_assoc. f_equal. exact F.
    - apply balanced_S. split; [rewrite !app_length; cbn [length]; lia|].
      apply Forall_app. split; [exact F1|]. constructor; [split; [exact B1|lia]|].
      constructor; [split; [exact B2|lia]|exact F2].
    - left. cbn [vals_of]. rewrite !app_length. cbn [length]. auto.
  Qed.

  Lemma rebalance_merge n h vs1 v vs2 ks1 (l r : node) ks2 i :
    length vs1 = length ks1 -> length vs2 = length ks2 ->
    i = length ks1 \/ i = S (length ks1) -> (i = length ks1 -> i = 0) ->
    Forall (okc n h) ks1 -> Forall (okc n h) ks2 ->
    balanced n h l -> balanced n h r -> S (length (vals_of l) + length (vals_of r)) = n / 2 + n / 2 ->
    exists t' u, match mergeDown (vs1 ++ v :: vs2) (ks1 ++ l :: r :: ks2) i with
      | Some (vs', ks') => Some (Node vs' ks', Nat.ltb (length vs') (minValues n)) | None => None end = Some (t', u) /\
      rebalanced n h (Node (vs1 ++ v :: vs2) (ks1 ++ l :: r :: ks2)) t' u.
  Proof.
    intros L L2 Hi Hi0 F1 F2 Bl Br LL.
    destruct (mergeDown_spec n h vs1 v vs2 ks1 l r ks2 i L Hi Hi0 Bl Br) as (m & -> & F & Bm & Lm).
    eexists _, _. split; [reflexivity|]. split; [|split].
    - rewrite flat_split2, flat_split, F by exact L. rewrite <- app_assoc. reflexivity.
    - apply balanced_S. split; [rewrite !app_length; cbn [length]; lia|].
      apply Forall_app. split; [exact F1|]. constructor; [split; [exact Bm|lia]|exact F2].
    - right. cbn [vals_of]. rewrite !app_length. cbn [length]. rewrite minValues_half. split; [lia|reflexivity].
  Qed.

  Lemma rebalance_spec n h vs ks1 c ks2 :
    2 <= n -> length ks1 + length ks2 = length vs -> 1 <= length vs ->
    Forall (okc n h) ks1 -> Forall (okc n h) ks2 ->
    balanced n h c -> S (length (vals_of c)) = n / 2 ->
    exists t' u, rebalance n vs (ks1 ++ c :: ks2) (length ks1) = Some (t', u) /\
                 rebalanced n h (Node vs (ks1 ++ c :: ks2)) t' u.
  Proof.
    intros Hn LK L1 F1 F2 Bc Lc. unfold rebalance. rewrite minValues_half.
    (* the two shapes: a right neighbour exists / a left neighbour exists *)
    assert (R : forall r ks2', ks2 = r :: ks2' -> exists vs1 v vs2, vs = vs1 ++ v :: vs2 /\
              length vs1 = length ks1 /\ length vs2 = length ks2').
    { intros r ks2' ->. cbn [length] in LK. destruct (split_elem vs (length ks1) ltac:(lia)) as (vs1 & v & vs2 & -> & E).
      rewrite app_length in LK. cbn [length] in LK. exists vs1, v, vs2. repeat split; [exact E|lia]. }
    assert (LF : forall ks1' (l : node), ks1 = ks1' ++ [l] -> exists vs1 v vs2, vs = vs1 ++ v :: vs2 /\
              length vs1 = length ks1' /\ length vs2 = length ks2).
    { intros ks1' l ->. rewrite app_length in LK. cbn [length] in LK.
      destruct (split_elem vs (length ks1') ltac:(lia)) as (vs1 & v & vs2 & -> & E).
      rewrite app_length in LK. cbn [length] in LK. exists vs1, v, vs2. repeat split; [exact E|lia]. }
    assert (minv : minValues n = n / 2) by apply minValues_half.
    destruct (Nat.eqb_spec (length ks1) 0) as [E0|E0].
    - destruct ks1; [|discriminate]. cbn [length app] in *.
      destruct ks2 as [|r ks2]; [simpl in LK; lia|]. apply Forall_cons_iff in F2 as [Or F2].
      destruct (R r ks2 eq_refl) as (vs1 & v & vs2 & -> & E1 & E2). destruct vs1; [|discriminate]. cbn [app] in *.
      cbn [nth_error]. unfold nvals. destruct (Nat.ltb_spec (n / 2) (length (vals_of r))) as [Lr|Lr].
      + destruct (rebalance_rotL n h [] v vs2 [] c r ks2) as (t' & EM & RB); auto. exists t', false. split; [exact EM|exact RB].
      + destruct Or as [Br Or].
        destruct (rebalance_merge n h [] v vs2 [] c r ks2 0) as (t' & u & EM & RB); auto; [lia|].
        rewrite minv in EM. exists t', u. split; [exact EM|exact RB].
    - destruct (split_last ks1) as (ks1' & l & ->); [intros ->; simpl in E0; lia|].
      apply Forall_app in F1 as [F1 Fl]. apply Forall_cons_iff in Fl as [Ol _].
      rewrite !app_length in *. cbn [length] in *. rewrite <- app_assoc. cbn [app].
      replace (length ks1' + 1) with (S (length ks1')) in * by lia.
      replace (S (length ks1') - 1) with (length ks1') by lia.
      rewrite !nth_error_app_len by reflexivity. unfold nvals.
      destruct (LF ks1' l eq_refl) as (vs1 & v & vs2 & EV & E1 & E2).
      assert (RR : n / 2 < length (vals_of l) -> exists t' u,
        match rotateRight vs (ks1' ++ l :: c :: ks2) (S (length ks1')) with
        | Some (vs', ks') => Some (Node vs' ks', false) | None => None end = Some (t', u) /\
        rebalanced n h (Node vs (ks1' ++ l :: c :: ks2)) t' u).
      { intros HL. subst vs. destruct (rebalance_rotR n h vs1 v vs2 ks1' l c ks2) as (t' & -> & RB); auto. eauto. }
      assert (MM : length (vals_of l) <= n / 2 -> exists t' u,
        match mergeDown vs (ks1' ++ l :: c :: ks2) (S (length ks1')) with
        | Some (vs', ks') => Some (Node vs' ks', Nat.ltb (length vs') (n / 2)) | None => None end = Some (t', u) /\
        rebalanced n h (Node vs (ks1' ++ l :: c :: ks2)) t' u).
      { intros HL. subst vs. destruct Ol as [Bl Ol].
        destruct (rebalance_merge n h vs1 v vs2 ks1' l c ks2 (S (length ks1'))) as (t' & u & EM & RB); auto; [lia|lia|].
        rewrite minv in EM. eauto. }
      destruct (Nat.eqb_spec (S (length ks1')) (S (length ks1') + S (length ks2) - 1)) as [EL|EL].
      + destruct (Nat.ltb_spec (n / 2) (length (vals_of l))) as [Hl|Hl]; [exact (RR Hl)|exact (MM Hl)].
      + destruct ks2 as [|r ks2]; [cbn [length] in EL; lia|]. apply Forall_cons_iff in F2 as [Or F2].
        replace (S (length ks1') + 1) with (S (S (length ks1'))) by lia.
        replace (nth_error (ks1' ++ l :: c :: r :: ks2) (S (S (length ks1')))) with (Some r).
        2: { rewrite nth_error_app2 by lia. replace (S (S (length ks1')) - length ks1') with 2 by lia. reflexivity. }
        destruct (Nat.ltb_spec (n / 2) (length (vals_of r))) as [Lr|Lr].
        * destruct (R r ks2 eq_refl) as (ws1 & w & ws2 & EW & E3 & E4).
          destruct (rebalance_rotL n h ws1 w ws2 (ks1' ++ [l]) c r ks2) as (t' & EM & RB); auto.
          { rewrite app_length. cbn [length]. lia. }
          { apply Forall_app. split; [exact F1|]. constructor; [exact Ol|constructor]. }
          rewrite app_length in EM. cbn [length] in EM. replace (length ks1' + 1) with (S (length ks1')) in EM by lia.
          rewrite <- app_assoc in EM, RB. cbn [app] in EM, RB. rewrite <- EW in EM, RB. eauto.
        * destruct (Nat.ltb_spec (n / 2) (length (vals_of l))) as [Hl|Hl]; [exact (RR Hl)|exact (MM Hl)].
  Qed.

  (** ** swap *)
  Definition shrunk (n : nat) (t t' : node) (u : bool) : Prop :=
    length (vals_of t') <= length (vals_of t) <= S (length (vals_of t')) /\
    (length (vals_of t') = length (vals_of t) -> u = false) /\
    (length (vals_of t') < length (vals_of t) -> u = Nat.ltb (length (vals_of t')) (n / 2)).

  Lemma rebalanced_shrunk n h t0 t' u : rebalanced n h t0 t' u -> shrunk n t0 t' u.
  Proof.
    intros (_ & _ & [[E ->]|[E ->]]); unfold shrunk; (split; [lia|split]); intros H; try reflexivity; lia.
  Qed.

  Lemma swap_last_spec n sk h : 2 <= n -> forall t,
    balanced n h t -> 1 <= length (vals_of t) -> Forall (fun e => less (fst e) sk = true) (flat t) ->
    exists t' e u, swap n t sk = Some (t', e, u) /\ flat t = flat t' ++ [e] /\ balanced n h t' /\ shrunk n t t' u.
  Proof.
    intros Hn. induction h as [|h IH]; intros t Hb Hl HF; destruct t as [vs ks].
    - apply (proj1 (balanced_0 _ _ _)) in Hb. subst ks. cbn [flat map] in HF. cbn in HF. cbn [vals_of] in Hl.
      destruct (split_last vs) as (vs' & e & ->); [intros ->; simpl in Hl; lia|].
      assert (S : swap n (Node (vs' ++ [e]) []) sk =
        match nth_error (vs' ++ [e]) (length (vs' ++ [e]) - 1) with
        | Some e' => let '(t', u) := removeLeafItem n (vs' ++ [e]) (length (vs' ++ [e]) - 1) in Some (t', e', u)
        | None => None end).
      { destruct (vs' ++ [e]) as [|e0 w] eqn:Ew; [destruct vs'; discriminate|].
        cbn [swap]. apply Forall_cons_iff in HF as [HF _]. rewrite HF. reflexivity. }
      rewrite S. clear S. rewrite app_length. cbn [length]. replace (length vs' + 1 - 1) with (length vs') by lia.
      rewrite nth_error_app_len by reflexivity. unfold removeLeafItem. rewrite del_nth_app by reflexivity.
      eexists _, _, _. split; [reflexivity|]. rewrite app_nil_r, minValues_half. split; [reflexivity|].
      split; [reflexivity|]. unfold shrunk. cbn [vals_of]. rewrite app_length. cbn [length].
      split; [lia|]. split; intros; [lia|reflexivity].
    - apply (proj1 (balanced_S _ _ _ _)) in Hb; cbn [vals_of kids_of] in Hb, Hl; destruct Hb as [LK FK].
      destruct (split_last ks) as (ks1 & c & ->); [intros ->; discriminate|].
      rewrite app_length in LK. cbn [length] in LK. assert (L1 : length vs = length ks1) by lia.
      apply Forall_app in FK as [FK1 FK]. apply Forall_cons_iff in FK as [[Bc Oc] _].
      assert (FL : forall q, flat (Node vs (ks1 ++ [q])) = pre vs (map flat ks1) ++ flat q).
      { intros q. rewrite <- (app_nil_r vs) at 1. rewrite flat_split by exact L1. cbn. rewrite app_nil_r. reflexivity. }
      rewrite FL in HF. apply Forall_app in HF as [HFp HFc].
      destruct (IH c Bc ltac:(lia) HFc) as (c' & e & u & SC & F & Bc' & SH).
      assert (S : swap n (Node vs (ks1 ++ [c])) sk =
        match on_nth (fun c => swap n c sk) (ks1 ++ [c]) (length (ks1 ++ [c]) - 1) with
        | Some (Some (c', e, true)) =>
            match rebalance n vs (set_nth (length (ks1 ++ [c]) - 1) c' (ks1 ++ [c])) (length (ks1 ++ [c]) - 1) with
            | Some (t', u) => Some (t', e, u) | None => None end
        | Some (Some (c', e, false)) => Some (Node vs (set_nth (length (ks1 ++ [c]) - 1) c' (ks1 ++ [c])), e, false)
        | _ => None end).
      { destruct vs as [|v0 vs]; [simpl in Hl; lia|]. destruct ks1 as [|k0 ks1]; [discriminate|].
        cbn [swap app]. cbn [map pre] in HFp. apply Forall_app in HFp as [_ HFp].
        apply Forall_cons_iff in HFp as [HFp _]. rewrite HFp. reflexivity. }
      rewrite S. clear S. rewrite app_length. cbn [length]. replace (length ks1 + 1 - 1) with (length ks1) by lia.
      rewrite on_nth_spec, nth_error_app_len by reflexivity. cbn [option_map]. rewrite SC.
      rewrite set_nth_app by reflexivity. destruct SH as (SH1 & SH2 & SH3). destruct u.
      + assert (length (vals_of c') < length (vals_of c)) as Hlt
          by (destruct (Nat.eq_dec (length (vals_of c')) (length (vals_of c))) as [E|E]; [specialize (SH2 E); discriminate|lia]).
        specialize (SH3 Hlt). symmetry in SH3. apply Nat.ltb_lt in SH3.
        destruct (rebalance_spec n h vs ks1 c' []) as (t' & u & -> & RB); auto; [cbn [length]; lia|lia|].
        exists t', e, u. split; [reflexivity|]. pose proof (rebalanced_shrunk _ _ _ _ _ RB) as RS.
        destruct RB as (RF & RB & _).
        split; [rewrite RF, !FL, F, <- app_assoc; reflexivity|]. split; [exact RB|]. exact RS.
      + exists (Node vs (ks1 ++ [c'])), e, false. split; [reflexivity|].
        split; [rewrite !FL, F, <- app_assoc; reflexivity|]. split.
        * apply balanced_S. split; [rewrite app_length; cbn [length]; lia|]. apply Forall_app. split; [exact FK1|].
          constructor; [|constructor]. split; [exact Bc'|].
          destruct (Nat.eq_dec (length (vals_of c')) (length (vals_of c))) as [E|E]; [lia|].
          assert (Hlt : length (vals_of c') < length (vals_of c)) by lia. specialize (SH3 Hlt). symmetry in SH3.
          apply Nat.ltb_ge in SH3. lia.
        * unfold shrunk. cbn [vals_of]. split; [lia|]. split; intros; [reflexivity|lia].
  Qed.

  Lemma swap_first_spec n sk h : 2 <= n -> forall t,
    balanced n h t -> 1 <= length (vals_of t) -> Forall (fun e => less (fst e) sk = false) (flat t) ->
    exists t' e u, swap n t sk = Some (t', e, u) /\ flat t = e :: flat t' /\ balanced n h t' /\ shrunk n t t' u.
  Proof.
    intros Hn. induction h as [|h IH]; intros t Hb Hl HF; destruct t as [vs ks].
    - apply (proj1 (balanced_0 _ _ _)) in Hb. subst ks. cbn [flat map] in HF. cbn in HF. cbn [vals_of] in Hl.
      destruct vs as [|e vs]; [simpl in Hl; lia|]. cbn [swap]. apply Forall_cons_iff in HF as [HF _]. rewrite HF.
      cbn [negb nth_error]. unfold removeLeafItem. cbn [del_nth firstn skipn app].
      eexists _, _, _. split; [reflexivity|]. split; [reflexivity|].
      split; [reflexivity|]. rewrite minValues_half. unfold shrunk. cbn.
      split; [lia|]. split; intros; [lia|reflexivity].
    - apply (proj1 (balanced_S _ _ _ _)) in Hb; cbn [vals_of kids_of] in Hb, Hl; destruct Hb as [LK FK].
      destruct ks as [|c ks]; [discriminate|]. cbn [length] in LK. assert (L1 : length vs = length ks) by lia.
      apply Forall_cons_iff in FK as [[Bc Oc] FK1].
      assert (FL : forall q, flat (Node vs (q :: ks)) = flat q ++ post vs (map flat ks)) by reflexivity.
      rewrite FL in HF. apply Forall_app in HF as [HFc HFp].
      destruct (IH c Bc ltac:(lia) HFc) as (c' & e & u & SC & F & Bc' & SH).
      assert (S : swap n (Node vs (c :: ks)) sk =
        match swap n c sk with
        | Some (c', e, true) =>
            match rebalance n vs (c' :: ks) 0 with Some (t', u) => Some (t', e, u) | None => None end
        | Some (c', e, false) => Some (Node vs (c' :: ks), e, false)
        | _ => None end).
      { destruct vs as [|v0 vs]; [simpl in Hl; lia|].
        cbn [swap]. cbn [post] in HFp. apply Forall_cons_iff in HFp as [HFp _]. rewrite HFp. reflexivity. }
      rewrite S, SC. clear S. destruct SH as (SH1 & SH2 & SH3). destruct u.
      + assert (length (vals_of c') < length (vals_of c)) as Hlt
          by (destruct (Nat.eq_dec (length (vals_of c')) (length (vals_of c))) as [E|E]; [specialize (SH2 E); discriminate|lia]).
        specialize (SH3 Hlt). symmetry in SH3. apply Nat.ltb_lt in SH3.
        destruct (rebalance_spec n h vs [] c' ks) as (t' & u & RE & RB); auto; [lia|].
        cbn [app length] in RE. rewrite RE. cbn [app] in RB.
        exists t', e, u. split; [reflexivity|]. pose proof (rebalanced_shrunk _ _ _ _ _ RB) as RS.
        destruct RB as (RF & RB & _).
        split; [rewrite RF, !FL, F; reflexivity|]. split; [exact RB|]. exact RS.
      + exists (Node vs (c' :: ks)), e, false. split; [reflexivity|].
        split; [rewrite !FL, F; reflexivity|]. split.
        * apply balanced_S. split; [cbn [length]; lia|].
          constructor; [|exact FK1]. split; [exact Bc'|].
          destruct (Nat.eq_dec (length (vals_of c')) (length (vals_of c))) as [E|E]; [lia|].
          assert (Hlt : length (vals_of c') < length (vals_of c)) by lia. specialize (SH3 Hlt). symmetry in SH3.
          apply Nat.ltb_ge in SH3. lia.
        * unfold shrunk. cbn [vals_of]. split; [lia|]. split; intros; [reflexivity|lia].
  Qed.

  (** ** remove *)
  Definition remove_post (n h : nat) (t : node) (k : EV) (can : EV -> V -> bool) (r : dres V) : Prop :=
    match r with
    | DPanic => False
    | DRes t' u asked =>
        balanced n h t' /\ shrunk n t t' u /\
        match asked with
        | None => absent k (flat t) /\ t' = t
        | Some (k', v) => In (k', v) (flat t) /\ lmt k' k = false /\ lmt k k' = false /\
                     if can k' v then flat t' = del k (flat t) else t' = t
        end
    end.

  Lemma shrunk_same n vs ks ks' : shrunk n (Node vs ks) (Node vs ks') false.
  Proof. unfold shrunk. cbn [vals_of]. split; [lia|]. split; intros; [reflexivity|lia]. Qed.

  Lemma del_equiv l1 (e : entry) l2 k :
    goods (l1 ++ e :: l2) -> good k -> sorted (l1 ++ e :: l2) ->
    lmt (fst e) k = false -> lmt k (fst e) = false -> del k (l1 ++ e :: l2) = l1 ++ l2.
  Proof.
    intros G Gk S E1 E2. destruct (sorted_equiv_sides l1 e l2 k G Gk S E1 E2) as [B A].
    rewrite del_app. rewrite (del_absent k l1) by (apply below_absent, B). f_equal.
    unfold del. cbn [filter]. rewrite E1, E2. cbn. fold (del k l2). apply del_absent, above_absent, A.
  Qed.

  Lemma remove_spec n h : 2 <= n -> forall t k can,
    balanced n h t -> (0 < h -> 1 <= length (vals_of t)) -> length (vals_of t) <= n ->
    goods (flat t) -> good k -> sorted (flat t) ->
    remove_post n h t k can (remove n t k can).
  Proof.
    intros Hn. induction h as [|h IH]; intros t k can Hb Hl Hln G Gk S; destruct t as [vs ks].
    - apply (proj1 (balanced_0 _ _ _)) in Hb. subst ks. cbn [remove].
      assert (EFl : flat (Node vs []) = vs) by (cbn; reflexivity). rewrite EFl in G, S.
      destruct (search_spec vs k) as (vs1 & vs2 & E & L & B & N). rewrite <- L. subst vs.
      rewrite found_at_app. destruct vs2 as [|[k2 v2] vs2].
      + rewrite app_nil_r. cbn. split; [reflexivity|]. split; [apply shrunk_same|]. split; [|reflexivity].
        apply below_absent, B.
      + specialize (N _ _ eq_refl). cbn [fst] in N. destruct (lmt k k2) eqn:E2; cbn [negb].
        * cbn. split; [reflexivity|]. split; [apply shrunk_same|]. split; [|reflexivity].
          apply absent_app. split; [apply below_absent, B|]. constructor; [right; exact E2|].
          apply above_absent. apply sorted_app in S as (_ & S & _). apply sorted_cons in S as [S S2].
          apply goods_app in G as [_ G]. apply goods_cons in G as [G2 G].
          apply Forall_forall. intros x Hx. apply (lmt_trans k k2 (fst x)); auto; [exact (goods_in _ _ G Hx)|apply (S2 x Hx)].
        * destruct (can k2 v2) eqn:Ec.
          -- unfold removeLeafItem. rewrite del_nth_app by reflexivity. cbn [remove_post]. rewrite Ec.
             split; [reflexivity|]. split.
             { unfold shrunk. cbn [vals_of]. rewrite !app_length, minValues_half. cbn [length].
               split; [lia|]. split; intros; [lia|reflexivity]. }
             rewrite EFl. split; [apply in_or_app; right; left; reflexivity|]. split; [exact N|]. split; [exact E2|].
             rewrite del_equiv; auto.
          -- cbn [remove_post]. rewrite Ec. split; [reflexivity|]. split; [apply shrunk_same|].
             rewrite EFl. split; [apply in_or_app; right; left; reflexivity|]. auto.
    - apply (proj1 (balanced_S _ _ _ _)) in Hb; cbn [vals_of kids_of] in Hb, Hl, Hln; destruct Hb as [LK FK].
      specialize (Hl ltac:(lia)).
      assert (RE : remove n (Node vs ks) k can =
        match found_at vs (search vs k) k with
        | Some (k', v) =>
            if can k' v then
              match removeNodeItem n vs ks (search vs k) with
              | Some (vs', ks', true) =>
                  match rebalance n vs' ks' (search vs k) with
                  | Some (t', u) => DRes t' u (Some (k', v))
                  | None => DPanic
                  end
              | Some (vs', ks', false) => DRes (Node vs' ks') false (Some (k', v))
              | None => DPanic
              end
            else DRes (Node vs ks) false (Some (k', v))
        | None =>
            match on_nth (fun c => remove n c k can) ks (search vs k) with
            | Some (DRes c' true a) =>
                match rebalance n vs (set_nth (search vs k) c' ks) (search vs k) with
                | Some (t', u) => DRes t' u a
                | None => DPanic
                end
            | Some (DRes c' false a) => DRes (Node vs (set_nth (search vs k) c' ks)) false a
            | _ => DPanic
            end
        end) by (destruct ks; [discriminate|reflexivity]).
      rewrite RE. clear RE.
      destruct (search_spec vs k) as (vs1 & vs2 & E & L & B & N). rewrite <- L. subst vs.
      pose proof (found_at_app vs1 vs2 k) as EF. symmetry in EF.
      destruct (found_at (vs1 ++ vs2) (length vs1) k) as [[kf vf]|].
      + (* the key is in this inner node *)
        destruct vs2 as [|[k2 v2] vs2]; [discriminate|]. specialize (N _ _ eq_refl). cbn [fst] in N.
        destruct (lmt k k2) eqn:E2; [discriminate|]. injection EF as <- <-.
        rewrite app_length in LK, Hl, Hln. cbn [length] in LK, Hl, Hln.
        destruct (split_elem ks (length vs1) ltac:(lia)) as (ks1 & l & ks2' & -> & L1).
        rewrite app_length in LK. cbn [length] in LK.
        destruct ks2' as [|r ks2]; [cbn [length] in LK; lia|]. cbn [length] in LK. symmetry in L1.
        rewrite flat_split2 in G, S by exact L1.
        assert (IN : In (k2, v2) (flat (Node (vs1 ++ (k2, v2) :: vs2) (ks1 ++ l :: r :: ks2)))).
        { rewrite flat_split2 by exact L1. apply in_or_app; right. apply in_or_app; right. left. reflexivity. }
        assert (FK' := FK). apply Forall_app in FK as [FK1 FK]. apply Forall_cons_iff in FK as [Ol FK].
        apply Forall_cons_iff in FK as [Or FK2].
        destruct (can k2 v2) eqn:Ec.
        2: { cbn [remove_post]. rewrite Ec. split; [apply balanced_S; split; [rewrite !app_length; cbn [length]; lia|exact FK']|].
             split; [apply shrunk_same|]. auto. }
        assert (DE : del k (flat (Node (vs1 ++ (k2, v2) :: vs2) (ks1 ++ l :: r :: ks2))) =
                     pre vs1 (map flat ks1) ++ flat l ++ flat r ++ post vs2 (map flat ks2)).
        { rewrite flat_split2 by exact L1. rewrite app_assoc. rewrite del_equiv; auto.
          - rewrite <- app_assoc. reflexivity.
          - rewrite <- app_assoc. exact G.
          - rewrite <- app_assoc. exact S. }
        assert (GS := G). apply goods_app in GS as [_ GS]. apply goods_app in GS as [Gl GS].
        apply goods_cons in GS as [Gk2 GS]. apply goods_app in GS as [Gr _]. cbn [fst] in Gk2.
        assert (SS := S). apply sorted_app in SS as (_ & SS & _). apply sorted_app in SS as (_ & SS & Slt).
        apply sorted_cons in SS as [_ Sgt].
        assert (NA : ev_type k2 <> T_any).
        { destruct (flat r) as [|y ys] eqn:Er; [exfalso; eapply okc_nonempty; eauto|].
          apply goods_cons in Gr as [Gy _]. eapply (not_any_of_lt k2 (fst y)); auto.
          apply (Sgt y). left. reflexivity. }
        assert (PL : Forall (fun e => less (fst e) k2 = true) (flat l)).
        { apply Forall_forall. intros e He. assert (LL : lmt (fst e) k2 = true) by (apply (Slt e (k2, v2) He); left; reflexivity).
          rewrite less_eq_lmt; [exact LL| |exact NA]. eapply not_any_of_lt; [exact Gk2|exact LL|exact (goods_in _ _ Gl He)]. }
        assert (PR : Forall (fun e => less (fst e) k2 = false) (flat r)).
        { apply Forall_forall. intros e He.
          assert (LL : lmt k2 (fst e) = true) by (apply (Sgt e); apply in_or_app; left; exact He).
          destruct (Z.eq_dec (ev_type (fst e)) T_any) as [EA|EA].
          - unfold less. rewrite less_any_l by exact EA. reflexivity.
          - rewrite less_eq_lmt by assumption. apply lmt_asym; auto. exact (goods_in _ _ Gr He). }
        unfold removeNodeItem. rewrite (nth_error_app_len ks1), (nth_error_app_len_S ks1) by (symmetry; exact L1).
        rewrite (nth_error_app_len vs1) by reflexivity. unfold nvals.
        destruct Ol as [Bl Ol]. destruct Or as [Br Or].
        destruct (Nat.ltb_spec (length (vals_of l)) (length (vals_of r))) as [Lt|Ge].
        * rewrite (nth_error_app_len_S ks1) by (symmetry; exact L1).
          destruct (swap_first_spec n k2 h Hn r Br ltac:(lia) PR) as (r' & e & u & -> & Fr & Br' & SH1 & SH2 & SH3).
          assert (u = false).
          { destruct (Nat.eq_dec (length (vals_of r')) (length (vals_of r))) as [Eq|Eq]; [auto|].
            rewrite SH3 by lia. apply Nat.ltb_ge. lia. }
          subst u. rewrite (set_nth_app vs1) by reflexivity. rewrite (set_nth_app_S ks1) by (symmetry; exact L1).
          cbn [remove_post]. rewrite Ec. split.
          { apply balanced_S. split; [rewrite !app_length; cbn [length]; lia|]. apply Forall_app. split; [exact FK1|].
            constructor; [split; assumption|]. constructor; [split; [exact Br'|lia]|exact FK2]. }
          split. { unfold shrunk. cbn [vals_of]. rewrite !app_length. cbn [length]. split; [lia|]. split; intros; [reflexivity|lia]. }
          split; [exact IN|]. split; [exact N|]. split; [exact E2|]. etransitivity; [|symmetry; exact DE]. rewrite flat_split2, Fr by exact L1. reflexivity.
        * rewrite (nth_error_app_len ks1) by (symmetry; exact L1).
          destruct (swap_last_spec n k2 h Hn l Bl ltac:(lia) PL) as (l' & e & u & -> & Fl & Bl' & SH1 & SH2 & SH3).
          rewrite (set_nth_app vs1) by reflexivity. rewrite (set_nth_app ks1) by (symmetry; exact L1).
          assert (FE : flat (Node (vs1 ++ e :: vs2) (ks1 ++ l' :: r :: ks2)) =
                       del k (flat (Node (vs1 ++ (k2, v2) :: vs2) (ks1 ++ l :: r :: ks2)))).
          { etransitivity; [|symmetry; exact DE]. rewrite flat_split2, Fl by exact L1. rewrite <- app_assoc. reflexivity. }
          destruct u.
          -- assert (length (vals_of l') < length (vals_of l)) as Hlt
               by (destruct (Nat.eq_dec (length (vals_of l')) (length (vals_of l))) as [Eq|Eq]; [specialize (SH2 Eq); discriminate|lia]).
             specialize (SH3 Hlt). symmetry in SH3. apply Nat.ltb_lt in SH3. rewrite L1.
             destruct (rebalance_spec n h (vs1 ++ e :: vs2) ks1 l' (r :: ks2)) as (t' & u & -> & RB); auto.
             { rewrite app_length. cbn [length]. lia. }
             { rewrite app_length. cbn [length]. lia. }
             { constructor; [split; assumption|exact FK2]. }
             { lia. }
             pose proof (rebalanced_shrunk _ _ _ _ _ RB) as RS. destruct RB as (RF & RB & _).
             cbn [remove_post]. rewrite Ec. split; [exact RB|]. split.
             { unfold shrunk in *. cbn [vals_of] in *. rewrite !app_length in *. cbn [length] in *. exact RS. }
             split; [exact IN|]. split; [exact N|]. split; [exact E2|]. rewrite RF. exact FE.
          -- cbn [remove_post]. rewrite Ec. split.
             { apply balanced_S. split; [rewrite !app_length; cbn [length]; lia|]. apply Forall_app. split; [exact FK1|].
               constructor; [split; [exact Bl'|]|constructor; [split; assumption|exact FK2]].
               destruct (Nat.eq_dec (length (vals_of l')) (length (vals_of l))) as [Eq|Eq]; [lia|].
               assert (Hlt : length (vals_of l') < length (vals_of l)) by lia. specialize (SH3 Hlt). symmetry in SH3.
               apply Nat.ltb_ge in SH3. lia. }
             split. { unfold shrunk. cbn [vals_of]. rewrite !app_length. cbn [length]. split; [lia|]. split; intros; [reflexivity|lia]. }
             split; [exact IN|]. split; [exact N|]. split; [exact E2|]. exact FE.
      + (* recurse *)
        rewrite app_length in LK, Hl, Hln.
        destruct (split_elem ks (length vs1) ltac:(lia)) as (ks1 & c & ks2 & -> & L1).
        rewrite app_length in LK. cbn [length] in LK. symmetry in L1. assert (L2 : length vs2 = length ks2) by lia.
        rewrite flat_split in G, S by exact L1.
        pose proof G as G0. pose proof S as S0.
        apply goods_app in G as [Gp G]. apply goods_app in G as [Gc Gq].
        apply sorted_app in S as (Sp & S & Spq). apply sorted_app in S as (Sc & Sq & Scq).
        assert (Bp : below (pre vs1 (map flat ks1)) k).
        { apply pre_below; auto. rewrite map_length. exact L1. }
        assert (Aq : above (post vs2 (map flat ks2)) k).
        { apply post_above; auto. intros w vs' Ew. subst vs2. destruct w as [k2 v2].
          destruct (lmt k k2) eqn:E2; [exact E2|discriminate]. }
        assert (FK' := FK). apply Forall_app in FK as [FK1 FK]. apply Forall_cons_iff in FK as [[Bc Oc] FK2].
        rewrite on_nth_spec, nth_error_app_len by (symmetry; exact L1). cbn [option_map].
        specialize (IH c k can Bc ltac:(intros; lia) ltac:(lia) Gc Gk Sc).
        destruct (remove n c k can) as [|c' u a]; cbn [remove_post] in IH |- *; [exact IH|].
        destruct IH as (Bc' & (SH1 & SH2 & SH3) & P). rewrite set_nth_app by (symmetry; exact L1).
        assert (FE : match a with
          | None => absent k (flat (Node (vs1 ++ vs2) (ks1 ++ c :: ks2))) /\ c' = c
          | Some (k', v) => In (k', v) (flat (Node (vs1 ++ vs2) (ks1 ++ c :: ks2))) /\ lmt k' k = false /\ lmt k k' = false /\
              if can k' v then flat (Node (vs1 ++ vs2) (ks1 ++ c' :: ks2)) = del k (flat (Node (vs1 ++ vs2) (ks1 ++ c :: ks2)))
              else c' = c end).
        { destruct a as [[k' v]|].
          - destruct P as (P1 & P2 & P3 & P4). rewrite !flat_split by exact L1.
            split; [apply in_or_app; right; apply in_or_app; left; exact P1|]. split; [exact P2|]. split; [exact P3|].
            destruct (can k' v); [|exact P4]. rewrite !del_app.
            rewrite (del_absent k (pre _ _)) by (apply below_absent, Bp).
            rewrite (del_absent k (post _ _)) by (apply above_absent, Aq). rewrite P4. reflexivity.
          - destruct P as [P1 P2]. split; [|exact P2]. rewrite flat_split by exact L1.
            apply absent_app; split; [apply below_absent, Bp|apply absent_app; split; [exact P1|apply above_absent, Aq]]. }
        destruct u.
        * assert (length (vals_of c') < length (vals_of c)) as Hlt
            by (destruct (Nat.eq_dec (length (vals_of c')) (length (vals_of c))) as [Eq|Eq]; [specialize (SH2 Eq); discriminate|lia]).
          specialize (SH3 Hlt). symmetry in SH3. apply Nat.ltb_lt in SH3. rewrite L1.
          destruct (rebalance_spec n h (vs1 ++ vs2) ks1 c' ks2) as (t' & u & -> & RB); auto.
          { rewrite app_length. lia. }
          { rewrite app_length. lia. }
          { lia. }
          pose proof (rebalanced_shrunk _ _ _ _ _ RB) as RS. destruct RB as (RF & RB & _).
          cbn [remove_post]. split; [exact RB|]. split; [exact RS|].
          destruct a as [[k' v]|].
          -- destruct FE as (P1 & P2 & P3 & P4). split; [exact P1|]. split; [exact P2|]. split; [exact P3|].
             destruct (can k' v); [rewrite RF; exact P4|]. subst c'. lia.
          -- destruct FE as [_ ->]. lia.
        * cbn [remove_post]. split.
          { apply balanced_S. split; [rewrite !app_length; cbn [length]; lia|]. apply Forall_app. split; [exact FK1|].
            constructor; [split; [exact Bc'|]|exact FK2].
            destruct (Nat.eq_dec (length (vals_of c')) (length (vals_of c))) as [Eq|Eq]; [lia|].
            assert (Hlt : length (vals_of c') < length (vals_of c)) by lia. specialize (SH3 Hlt). symmetry in SH3.
            apply Nat.ltb_ge in SH3. lia. }
          split; [apply shrunk_same|].
          destruct a as [[k' v]|].
          -- destruct FE as (P1 & P2 & P3 & P4). split; [exact P1|]. split; [exact P2|]. split; [exact P3|].
             destruct (can k' v); [exact P4|]. subst c'. reflexivity.
          -- destruct FE as [P1 ->]. auto.
  Qed.
End Proofs.
