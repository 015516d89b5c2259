From Coq Require Import Sorted Permutation ZifyBool ZifyNat SpecFloat.
From Verif Require Import Datatypes SpecValues DatatypesProofs BTree SpecBTree BTreeProofs BTreeFind SpecFind
  PropLemmasValues BTreeFindProofs BTreeLockProofs PropLemmasTree PropLemmasFind BTreeCreateFind PropLemmasTree2
  BTreeDestroy SpecDestroy.
Local Open Scope nat_scope.

(** ** Equality *)
Lemma sfeqb_same x y : x <> S754_nan -> y <> S754_nan ->
  SFeqb x y = true <-> (x = y \/ exists s s', x = S754_zero s /\ y = S754_zero s').
Proof.
  intros Nx Ny. unfold SFeqb. split.
  - intros H. destruct x as [s|s| |s m e], y as [s'|s'| |s' m' e']; try contradiction; cbn in H;
      try (destruct s; discriminate); try (destruct s'; discriminate).
    + right. eauto.
    + destruct s, s'; cbn in H; try discriminate; auto.
    + left. destruct s, s'; cbn in H; try discriminate;
        destruct (Z.compare_spec e e') as [E|E|E]; try discriminate; subst;
        destruct (Pos.compare_cont Eq m m') eqn:C; cbn in H; try discriminate;
        apply (Pos.compare_eq m m') in C; subst; reflexivity.
  - intros [->|(s & s' & -> & ->)]; [|reflexivity].
    destruct y as [s|s| |s m e]; cbn; try reflexivity; try contradiction; [destruct s; reflexivity|].
    destruct s; rewrite Z.compare_refl; change (Pos.compare_cont Eq m m) with (Pos.compare m m); rewrite Pos.compare_refl; reflexivity.
Qed.

Lemma ikind_eqb_eq a b : ikind_eqb a b = true <-> a = b.
Proof. destruct a, b; cbn; split; intros; try discriminate; reflexivity. Qed.

Lemma same_payload_eq p q : same_payload p q -> ~ is_nan p -> p <> POther -> payload_eq p q = true.
Proof.
  intros [r| |] N O; try reflexivity.
  destruct r as [|k z|f|f|s|]; cbn; try reflexivity.
  - rewrite Z.eqb_refl, andb_true_r. apply ikind_eqb_eq. reflexivity.
  - apply sfeqb_same; auto; intros ->; apply N; left; reflexivity.
  - apply sfeqb_same; auto; intros ->; apply N; right; reflexivity.
  - apply String.eqb_refl.
  - contradiction.
Qed.
Lemma ev_eq_same a b : good a -> good b -> ev_eq a b = true <-> same_value a b.
Proof.
  intros [Wa Na] [Wb Nb]. unfold ev_eq, same_value. rewrite andb_true_iff, Z.eqb_eq.
  split; intros [H1 H2]; (split; [exact H1|]).
  - destruct (ev_data a), (ev_data b); cbn in H2; try discriminate; try constructor.
    + apply andb_prop in H2 as [H2 H3]. apply ikind_eqb_eq in H2. apply Z.eqb_eq in H3. subst. constructor.
    + apply sfeqb_same in H2; [|intros ->; apply Na; left; reflexivity|intros ->; apply Nb; left; reflexivity].
      destruct H2 as [->|(s & s' & -> & ->)]; constructor.
    + apply sfeqb_same in H2; [|intros ->; apply Na; right; reflexivity|intros ->; apply Nb; right; reflexivity].
      destruct H2 as [->|(s & s' & -> & ->)]; constructor.
    + apply String.eqb_eq in H2. subst. constructor.
  - apply same_payload_eq; auto. intros E. rewrite E in Wa. inversion Wa.
Qed.

(** ** DestroyAll, alone *)
Section All.
  Context {V : Type}.
  Notation node := (node V).
  Notation entry := (entry V).

  (** a root without entries is the only way to be empty and not nil *)
  Definition live (root : option node) : Prop := match root with Some t => flat t <> [] | None => True end.

  Lemma half_pos n : 2 <= n -> 1 <= n / 2.
  Proof. intros H. apply Nat.div_le_lower_bound; lia. Qed.

  Lemma tree_delete_live n (root : option node) k can r a :
    2 <= n -> well_shaped n root -> good k -> live root -> tree_delete n root k can = TDOk r a -> live r.
  Proof.
    intros Hn W Gk L E. destruct root as [t|]; [|cbn in E; injection E as <- _; exact I].
    destruct W as (h & B & L1 & L2 & O). apply ordered_iff in O as [S G]. cbn [tree_delete] in E.
    pose proof (remove_spec n h Hn t k can B L2 L1 G Gk S) as R. pose proof (half_pos n Hn) as HP.
    destruct (remove n t k can) as [|t' u a']; cbn [remove_post] in R; [destruct R|].
    destruct R as (B' & (S1 & S2 & S3) & P).
    assert (NE : 1 <= length (vals_of t') -> flat t' <> []) by (intros H; apply (flat_nonempty n h); auto).
    destruct u.
    - destruct t' as [[|v0 vs] ks]; [|injection E as <- _; apply NE; cbn; lia].
      destruct ks as [|c ks]; injection E as <- _; [exact I|]. cbn [live].
      destruct h as [|h]; [discriminate (B' : _ = _)|].
      apply (proj1 (balanced_S _ _ _ _)) in B'; cbn [vals_of kids_of] in B'; destruct B' as [LK FK].
      apply Forall_cons_iff in FK as [[Bc Oc] _]. apply (flat_nonempty n h); auto. lia.
    - injection E as <- _. cbn [live]. apply NE.
      destruct (Nat.eq_dec (length (vals_of t')) 0) as [E0|E0]; [exfalso|lia].
      destruct (Nat.eq_dec (length (vals_of t')) (length (vals_of t))) as [E1|E1].
      + destruct h as [|h]; [|specialize (L2 ltac:(lia)); lia]. cbn [live] in L. apply L.
        destruct t as [vs ks]. apply (proj1 (balanced_0 _ _ _)) in B. subst ks. cbn [vals_of] in *.
        destruct vs; [reflexivity|cbn in E1; lia].
      + specialize (S3 ltac:(lia)). symmetry in S3. apply Nat.ltb_ge in S3. lia.
  Qed.
  Lemma tree_create_live n (root : option node) k v r :
    2 <= n -> well_shaped n root -> good k -> live root ->
    (tree_create n root k (Some v) = TOk r \/ exists v0, tree_create n root k (Some v) = TExists v0 r) -> live r.
  Proof.
    intros Hn W Gk L H.
    assert (Z : forall r, contents r <> [] -> live r) by (intros [t|]; [auto|intros _; exact I]).
    destruct (tree_create_lemma n root k v Hn W Gk) as [(v0 & r' & (k' & _ & Hin) & E & _ & C)|(_ & r' & E & _ & P)].
    - destruct H as [H|(v1 & H)]; rewrite E in H; [discriminate|]. injection H as _ <-. apply Z. rewrite C. intros E0. rewrite E0 in Hin. destruct Hin.
    - destruct H as [H|(v1 & H)]; rewrite E in H; [|discriminate]. injection H as <-. apply Z. intros E0. rewrite E0 in P.
      apply Permutation_nil in P. discriminate.
  Qed.

  (** keys listed by iterateDestroy *)
  Lemma preorder_perm n h : forall t : node, balanced n h t -> Permutation (iterateDestroy t) (map fst (flat t)).
  Proof.
    induction h as [|h IH]; intros [vs ks] B.
    - apply (proj1 (balanced_0 _ _ _)) in B. subst ks. cbn. rewrite app_nil_r. reflexivity.
    - apply (proj1 (balanced_S _ _ _ _)) in B; cbn [vals_of kids_of] in B; destruct B as [LK FK]. cbn [iterateDestroy flat].
      assert (F2 : Forall (fun c => Permutation (iterateDestroy c) (map fst (flat c))) ks).
      { eapply Forall_impl; [|exact FK]. intros c [Bc _]. apply IH, Bc. }
      clear - LK F2. revert vs LK. induction F2 as [|c ks H F IHk]; intros vs LK; [destruct vs; discriminate|].
      destruct vs as [|v vs].
      + destruct ks; [|discriminate]. cbn. rewrite !app_nil_r. exact H.
      + cbn [map flat_map]. rewrite weave_cons, map_app. cbn [map].
        specialize (IHk vs ltac:(cbn [length] in LK; lia)). rewrite H.
        rewrite app_assoc, (Permutation_app_comm (fst v :: map fst vs)), <- app_assoc. apply Permutation_app_head.
        cbn. apply perm_skip. exact IHk.
  Qed.

  Lemma step_is_delete n (t : node) key can :
    match remove n t key can with
    | DPanic => TDPanic
    | DRes t' under asked =>
        TDOk (if under then match t' with Node [] ks => match ks with [] => None | c :: _ => Some c end | _ => Some t' end
              else Some t') asked
    end = tree_delete n (Some t) key can.
  Proof. cbn. destruct (remove n t key can) as [|t' [|] a]; try reflexivity. destruct t' as [[|v vs] ks]; reflexivity. Qed.

  Lemma sorted_same_entry (l : list entry) e1 e2 : sorted l -> goods l -> In e1 l -> In e2 l -> same_value (fst e1) (fst e2) -> e1 = e2.
  Proof.
    intros S G H1 H2 Hs. destruct (same_value_incomparable _ _ (goods_in _ _ G H1) (goods_in _ _ G H2) Hs) as [N1 N2].
    induction S as [|x l S IH F]; [destruct H1|]. rewrite Forall_forall in F. apply goods_cons in G as [Gx G].
    destruct H1 as [<-|H1], H2 as [<-|H2]; auto.
    - specialize (F _ H2). unfold klt in F. congruence.
    - specialize (F _ H1). unfold klt in F. congruence.
  Qed.

  Lemma ordered_contents n (root : option node) : 2 <= n -> well_shaped n root -> sorted (contents root) /\ goods (contents root).
  Proof. intros Hn W. destruct (well_shaped_split n root Hn W) as (h & _ & _ & _ & S & G & E). rewrite E in *. auto. Qed.

  Lemma destroy_loop_spec n can : 2 <= n -> forall keys (root : option node),
    well_shaped n root -> live root -> Permutation keys (map fst (contents root)) ->
    exists r removed,
      (destroy_loop n root keys can = Some (r, removed) /\ r = None \/
       exists k v, destroy_loop n root keys can = Some (r, removed ++ [(k, v)]) /\ can k v = false /\ In (k, v) (contents r)) /\
      well_shaped n r /\ live r /\ Forall (fun e => can (fst e) (snd e) = true) removed /\
      Permutation (contents root) (removed ++ contents r).
  Proof.
    intros Hn. induction keys as [|key keys IH]; intros root W L P.
    - exists root, []. split; [left; split; [reflexivity|]|auto].
      apply Permutation_nil, map_eq_nil in P. destruct root as [t|]; [contradiction|reflexivity].
    - destruct root as [t|]; [|apply Permutation_sym, Permutation_nil in P; discriminate].
      cbn [destroy_loop]. pose proof (step_is_delete n t key can) as E.
      destruct (ordered_contents n (Some t) Hn W) as [S G].
      assert (Hin : exists v, In (key, v) (contents (Some t))).
      { assert (I : In key (map fst (contents (Some t)))) by (apply (Permutation_in _ P); left; reflexivity).
        apply in_map_iff in I as ([k' v'] & <- & I). eauto. }
      destruct Hin as (v & Hin). pose proof (goods_in _ _ G Hin) as Gk. cbn [fst] in Gk.
      destruct (tree_delete_lemma n (Some t) key can Hn W Gk) as (r & asked & ED & Wr & H).
      pose proof (tree_delete_live n _ _ _ _ _ Hn W Gk L ED) as Lr. rewrite ED in E.
      destruct (remove n t key can) as [|t' under asked']; [discriminate|]. injection E as Er Ea. cbv zeta. rewrite Er, Ea. clear Er Ea.
      destruct asked as [[k' v']|].
      + destruct H as (Hs & Hin' & H).
        assert (EQ : (key, v) = (k', v')) by (apply (sorted_same_entry (contents (Some t))); auto). injection EQ as <- <-.
        destruct (can key v) eqn:Ec.
        * assert (P' : Permutation keys (map fst (contents r))).
          { apply (Permutation_map fst) in H. rewrite H in P. cbn in P. exact (Permutation_cons_inv P). }
          destruct (IH r Wr Lr P') as (r2 & removed & H1 & W2 & L2 & F & P2).
          exists r2, ((key, v) :: removed). split.
          -- destruct H1 as [[-> ->]|(k2 & v2 & -> & H1)]; [left; auto|]. right. exists k2, v2. split; [reflexivity|exact H1].
          -- split; [exact W2|]. split; [exact L2|]. split; [constructor; auto|]. rewrite H. cbn. apply perm_skip. exact P2.
        * subst r. exists (Some t), []. split; [|auto]. right. exists key, v. split; [reflexivity|]. auto.
      + destruct H as [H _]. exfalso. apply (H key v Hin). split; [reflexivity|constructor].
  Qed.

  Lemma destroy_all_lemma n (root : option node) can :
    2 <= n -> well_shaped n root ->
    exists r removed,
      (DestroyAll n root can = Some (r, removed) /\ contents r = [] \/
       exists k v, DestroyAll n root can = Some (r, removed ++ [(k, v)]) /\ can k v = false /\ In (k, v) (contents r)) /\
      well_shaped n r /\ Forall (fun e => can (fst e) (snd e) = true) removed /\
      Permutation (contents root) (removed ++ contents r).
  Proof.
    intros Hn W. destruct root as [t|].
    2: { exists None, []. cbn. split; [left; auto|auto]. }
    cbn [DestroyAll]. pose proof W as (h & B & _). pose proof (preorder_perm n h t B) as P.
    destruct (flat t) as [|e l] eqn:EF.
    - cbn in P. apply Permutation_sym, Permutation_nil in P. rewrite P. cbn. exists (Some t), []. cbn [contents]. rewrite EF. auto.
    - destruct (destroy_loop_spec n can Hn (iterateDestroy t) (Some t) W) as (r & removed & H & Wr & _ & F & P2).
      + cbn. rewrite EF. discriminate.
      + cbn [contents]. rewrite EF. exact P.
      + exists r, removed. split; [|auto]. destruct H as [[-> ->]|H]; [left; auto|right; exact H].
  Qed.
  Lemma destroy_all_live n (root : option node) can r a :
    2 <= n -> well_shaped n root -> live root -> DestroyAll n root can = Some (r, a) -> live r.
  Proof.
    intros Hn W L E. destruct root as [t|]; [|cbn in E; injection E as <- _; exact I]. cbn [DestroyAll] in E.
    pose proof W as (h & B & _). pose proof (preorder_perm n h t B) as P.
    destruct (destroy_loop_spec n can Hn (iterateDestroy t) (Some t) W L P) as (r' & removed & H & Wr & Lr & _).
    destruct H as [[H _]|(k & v & H & _)]; rewrite H in E; injection E as <- _; exact Lr.
  Qed.
End All.

(** ** Concurrent calls *)
Section Conc.
  Context {V : Type}.
  Notation thread := (thread V).
  Notation node := (node V).

  Definition counted (t : thread) : bool :=
    negb (is_all (t_call t)) && match t_phase t with PNew => false | _ => true end.
  Definition recorded (t : thread) : bool :=
    is_destroy (t_call t) && match t_phase t with PReady | PApplied => true | _ => false end.
  Definition active_all (t : thread) : bool :=
    is_all (t_call t) && match t_phase t with PNew => false | _ => true end.
  Definition tkey (t : thread) : EV := match check_key (t_call t) with Some k => k | None => Any end.
  Definition rkeys (l : list thread) : list EV := map tkey (filter recorded l).
  Definition passed (t : thread) : bool := match t_phase t with PReady | PApplied => true | _ => false end.
  Definition early (t : thread) : bool := match t_phase t with PNew | PEntered => true | _ => false end.
  Definition phase_ok (t : thread) : Prop :=
    match t_phase t with
    | PEntered => is_all (t_call t) = false
    | PDone => is_destroy (t_call t) = true
    | _ => True end.

  Definition cgood (c : call V) : Prop := forall k, check_key c = Some k -> good k.

  Record dinv (n : nat) (r : option node) (f : bool) (ks : list EV) (wg nx : nat) (l : list thread) : Prop := {
    i_shape : well_shaped n r;
    i_live : live r;
    i_good : Forall (fun t => cgood (t_call t)) l;
    i_phase : Forall phase_ok l;
    i_ids : NoDup (map t_id l);
    i_next : Forall (fun t => t_id t < nx /\ t_reg t <= nx) l;
    i_wg : wg = length (filter counted l);
    i_keys : Permutation ks (rkeys l);
    i_uniq : ForallOrdPairs (fun a b => ~ same_value a b) ks;
    i_reg : forall d t, In d l -> In t l -> recorded d = true -> t_id t <> t_id d -> passed t = true ->
              check_key (t_call t) <> None -> same_value (tkey t) (tkey d) -> t_id t < t_reg d;
    i_flag : length (filter active_all l) = if f then 1 else 0;
    i_excl : forall d, In d l -> is_all (t_call d) = true -> passed d = true ->
              Forall (fun t => is_all (t_call t) = false -> early t = true) l }.

  Lemma filter_perm {A} (f : A -> bool) l l' : Permutation l l' -> Permutation (filter f l) (filter f l').
  Proof.
    induction 1 as [|x l l' P IH|x y l|l1 l2 l3 P1 IH1 P2 IH2]; cbn; auto.
    - destruct (f x); auto.
    - destruct (f x), (f y); auto. apply perm_swap.
    - etransitivity; eauto.
  Qed.

  Lemma dinv_perm n r f ks wg nx l l' : Permutation l l' -> dinv n r f ks wg nx l -> dinv n r f ks wg nx l'.
  Proof.
    intros P [H1 H1' H2 H3 H4 H5 H6 H7 H8 H9 H10 H11]. split; auto.
    - eapply Permutation_Forall; eauto.
    - eapply Permutation_Forall; eauto.
    - eapply Permutation_NoDup; [|exact H4]. apply Permutation_map, P.
    - eapply Permutation_Forall; eauto.
    - rewrite H6. apply Permutation_length, filter_perm, P.
    - rewrite H7. apply Permutation_map, filter_perm, P.
    - intros d t Hd Ht. apply H9; [apply (Permutation_in _ (Permutation_sym P)), Hd|apply (Permutation_in _ (Permutation_sym P)), Ht].
    - rewrite <- H10. apply Permutation_length, filter_perm, Permutation_sym, P.
    - intros d Hd A B. eapply Permutation_Forall; [exact P|]. apply (H11 d); auto. apply (Permutation_in _ (Permutation_sym P)), Hd.
  Qed.
  Lemma mid_perm {A} (l1 l2 : list A) x : Permutation (l1 ++ x :: l2) (x :: l1 ++ l2).
  Proof. symmetry. apply Permutation_middle. Qed.

  Definition Inv n (s : dstate V) : Prop := dinv n (d_root s) (d_flag s) (d_keys s) (d_wg s) (d_next s) (d_threads s).

  Lemma in_keys_iff ks k : Forall good ks -> good k -> in_keys ks k = true <-> exists x, In x ks /\ same_value x k.
  Proof.
    intros G Gk. unfold in_keys. rewrite existsb_exists. rewrite Forall_forall in G.
    split; intros (x & H1 & H2); exists x; (split; [exact H1|]); apply (ev_eq_same x k); auto.
  Qed.
  Lemma same_value_sym a b : same_value a b -> same_value b a.
  Proof. intros [H1 H2]. split; [auto|apply same_payload_sym, H2]. Qed.

  (** unrecording the key *)
  Lemma find_index_spec ks k : match find_index ks k with
    | Some i => exists l1 x l2, ks = l1 ++ x :: l2 /\ length l1 = i /\ ev_eq x k = true
    | None => forall x, In x ks -> ev_eq x k = false end.
  Proof.
    induction ks as [|x ks IH]; cbn; [intros x []|]. destruct (ev_eq x k) eqn:E.
    - exists [], x, ks. auto.
    - destruct (find_index ks k) as [i|]; cbn.
      + destruct IH as (l1 & y & l2 & -> & <- & H). exists (x :: l1), y, l2. auto.
      + intros y [<-|Hy]; auto.
  Qed.
  Lemma unrecord_perm ks k : Forall good ks -> good k -> In k ks -> ForallOrdPairs (fun a b => ~ same_value a b) ks ->
    Permutation ks (k :: unrecord ks k).
  Proof.
    intros G Gk Hin U. unfold unrecord. pose proof (find_index_spec ks k) as H. destruct (find_index ks k) as [i|].
    - destruct H as (l1 & x & l2 & -> & L & E).
      assert (x = k).
      { apply Forall_app in G as [G1 G2]. apply Forall_cons_iff in G2 as [Gx G2]. apply (ev_eq_same x k Gx Gk) in E.
        assert (U2 : ForallOrdPairs (fun a b => ~ same_value a b) (x :: l2) /\ forall a, In a l1 -> ~ same_value a x).
        { clear - U. induction l1 as [|y l1 IH]; cbn in *; [split; [exact U|intros a []]|].
          inversion U; subst. destruct (IH H2) as [I1 I2]. split; [exact I1|]. intros a [<-|Ha]; [|auto].
          rewrite Forall_forall in H1. apply H1, in_or_app. right. left. reflexivity. }
        destruct U2 as [U2 U1]. apply in_app_or in Hin as [Hin|[Hin|Hin]]; [|exact Hin|].
        - exfalso. apply (U1 k Hin). apply same_value_sym, E.
        - exfalso. inversion U2; subst. rewrite Forall_forall in H1. apply (H1 k Hin E). }
      subst x. rewrite set_nth_app by exact L. destruct l2 as [|y l2] using rev_ind.
      + rewrite last_last, removelast_last. rewrite <- Permutation_middle, app_nil_r. reflexivity.
      + clear IHl2. replace (l1 ++ k :: l2 ++ [y]) with ((l1 ++ k :: l2) ++ [y]) by (rewrite <- app_assoc; reflexivity).
        rewrite last_last. replace (l1 ++ y :: l2 ++ [y]) with ((l1 ++ y :: l2) ++ [y]) by (rewrite <- app_assoc; reflexivity).
        rewrite removelast_last. transitivity (y :: (l1 ++ k :: l2)); [symmetry; apply Permutation_cons_append|].
        transitivity (y :: k :: (l1 ++ l2)); [apply perm_skip; symmetry; apply Permutation_middle|].
        transitivity (k :: y :: (l1 ++ l2)); [apply perm_swap|]. apply perm_skip, Permutation_middle.
    - exfalso. specialize (H k Hin). rewrite (proj2 (ev_eq_same k k Gk Gk)) in H; [discriminate|]. split; [reflexivity|constructor].
  Qed.
  Lemma fop_perm {A} (R : A -> A -> Prop) l l' : (forall a b, R a b -> R b a) -> Permutation l l' ->
    ForallOrdPairs R l -> ForallOrdPairs R l'.
  Proof.
    intros Sy. induction 1 as [|x l l' P IH|x y l|l1 l2 l3 P1 IH1 P2 IH2]; intros H; auto.
    - inversion H; subst. constructor; [|auto]. eapply Permutation_Forall; eauto.
    - inversion H as [|? ? F1 F2]; subst. inversion F2; subst. apply Forall_cons_iff in F1 as [F0 F1].
      constructor; [constructor; auto|constructor; auto].
  Qed.

  Lemma effect_lemma n (c : call V) (r : option node) :
    2 <= n -> well_shaped n r -> live r -> cgood c -> exists r', effect n c r = Some r' /\ well_shaped n r' /\ live r'.
  Proof.
    intros Hn W L G. destruct c as [k v|k v|k| |k can|k can|can]; cbn [effect].
    - specialize (G k eq_refl).
      destruct (tree_create_lemma n r k v Hn W G) as [(v0 & r' & _ & E & Wr & _)|(_ & r' & E & Wr & _)]; rewrite E; exists r';
        (split; [reflexivity|]; split; [exact Wr|]); apply (tree_create_live n r k v r'); eauto.
    - specialize (G k eq_refl).
      destruct (create_or_find_lemma n r k v Hn W G) as [(v0 & r' & (k' & _ & Hin) & E & Wr & C)|(_ & r' & E & Wr & P)]; rewrite E; exists r';
        (split; [reflexivity|]; split; [exact Wr|]).
      + destruct r'; [|exact I]. cbn. cbn in C. rewrite C. intros E0. rewrite E0 in Hin. destruct Hin.
      + destruct r'; [|exact I]. cbn. cbn in P. intros E0. rewrite E0 in P. apply Permutation_nil in P. discriminate.
    - eauto.
    - eauto.
    - specialize (G k eq_refl). destruct (tree_delete_lemma n r k can Hn W G) as (r' & a & E & Wr & _). rewrite E. exists r'.
      split; [reflexivity|]. split; [exact Wr|]. apply (tree_delete_live n r k can r' a); auto.
    - specialize (G k eq_refl). destruct (tree_delete_lemma n r k can Hn W G) as (r' & a & E & Wr & _). rewrite E. exists r'.
      split; [reflexivity|]. split; [exact Wr|]. apply (tree_delete_live n r k can r' a); auto.
    - destruct (destroy_all_lemma n r can Hn W) as (r' & rem & H & Wr & _).
      destruct H as [[E _]|(k & v & E & _)]; rewrite E; exists r'; (split; [reflexivity|]; split; [exact Wr|]);
        apply (destroy_all_live n r can r' _ Hn W L E).
  Qed.

  Lemma keys_good ks l : Permutation ks (rkeys l) -> Forall (fun t => cgood (t_call t)) l -> Forall good ks.
  Proof.
    intros P F. eapply Permutation_Forall; [symmetry; exact P|]. unfold rkeys. apply Forall_map, Forall_forall. intros t Ht.
    apply filter_In in Ht as [Ht R]. rewrite Forall_forall in F. specialize (F t Ht). unfold recorded, tkey, cgood in *.
    destruct (t_call t); cbn in *; try discriminate. apply F. reflexivity.
  Qed.

  (** changing one thread *)
  Lemma dinv_change n r f ks wg nx x x' l :
    dinv n r f ks wg nx (x :: l) ->
    t_id x' = t_id x -> t_call x' = t_call x -> t_reg x' <= nx ->
    phase_ok x' ->
    forall (f' : bool) ks' (wg' : nat) r',
      well_shaped n r' -> live r' ->
      wg' + (if counted x then 1 else 0) = wg + (if counted x' then 1 else 0) ->
      Permutation ks' (rkeys (x' :: l)) -> ForallOrdPairs (fun a b => ~ same_value a b) ks' ->
      ((if active_all x' then 1 else 0) + length (filter active_all l) = if f' then 1 else 0) ->
      (recorded x' = true -> (recorded x = true /\ t_reg x' = t_reg x) \/ t_reg x' = nx) ->
      (passed x' = true -> passed x = false -> forall k, check_key (t_call x) = Some k -> forall d, In d l -> recorded d = true -> ~ same_value k (tkey d)) ->
      ((is_all (t_call x') = true /\ passed x' = true /\ passed x = false) -> Forall (fun t => is_all (t_call t) = false -> early t = true) l) ->
      (is_all (t_call x') = false -> early x' = false -> (early x = false) \/ forall d, In d l -> is_all (t_call d) = true -> passed d = false) ->
      dinv n r' f' ks' wg' nx (x' :: l).
  Proof.
    intros [H1 H1' H2 H3 H4 H5 H6 H7 H8 H9 H10 H11] E1 E2 E3 PO f' ks' wg' r' W' L' HW HK HU HF HR HPs HX HE.
    apply Forall_cons_iff in H2 as [H2 H2l]. apply Forall_cons_iff in H3 as [H3 H3l]. apply Forall_cons_iff in H5 as [H5 H5l].
    split; auto.
    - constructor; [rewrite E2; exact H2|exact H2l].
    - cbn [map]. rewrite E1. exact H4.
    - constructor; [rewrite E1; split; [apply H5|exact E3]|exact H5l].
    - cbn [filter] in *. destruct (counted x), (counted x'); cbn [length] in *; lia.
    - (* registration *)
      cbn [map] in H4. apply NoDup_cons_iff in H4 as [H4 H4'].
      intros d t Hd Ht Rd Ni Pt Ck Sv. cbn [In] in Hd, Ht. destruct Hd as [<-|Hd], Ht as [<-|Ht]; [contradiction| | |].
      + destruct (HR Rd) as [[Rx ER]|ER].
        * rewrite ER. apply (H9 x t); cbn; auto; [congruence|]. unfold tkey in *. rewrite E2 in Sv. exact Sv.
        * rewrite ER. rewrite Forall_forall in H5l. apply H5l, Ht.
      + rewrite E1. destruct (passed x) eqn:Px.
        * apply (H9 d x); cbn; auto; [congruence|rewrite <- E2; exact Ck|unfold tkey in *; rewrite <- E2; exact Sv].
        * exfalso. unfold tkey in Sv at 1. rewrite E2 in Sv, Ck. destruct (check_key (t_call x)) as [k|] eqn:EK; [|contradiction].
          exact (HPs Pt eq_refl k eq_refl d Hd Rd Sv).
      + apply (H9 d t); cbn; auto.
    - cbn [filter]. destruct (active_all x'); cbn [length] in *; lia.
    - intros d Hd Ad Pd. cbn [In] in Hd. destruct Hd as [<-|Hd].
      + constructor; [intros C; congruence|]. destruct (passed x) eqn:Px.
        * specialize (H11 x (or_introl eq_refl)). rewrite E2 in Ad. specialize (H11 Ad Px). apply Forall_cons_iff in H11 as [_ H11]. exact H11.
        * apply HX. auto.
      + specialize (H11 d (or_intror Hd) Ad Pd). apply Forall_cons_iff in H11 as [H11 H11l]. constructor; [|exact H11l].
        intros NA. destruct (early x') eqn:Ex; [reflexivity|]. destruct (HE NA eq_refl) as [HE'|HE'].
        * rewrite E2 in NA. specialize (H11 NA). congruence.
        * specialize (HE' d Hd Ad). congruence.
  Qed.

  (** dropping one thread *)
  Lemma dinv_drop n r f ks wg nx x l :
    dinv n r f ks wg nx (x :: l) -> recorded x = false ->
    forall (f' : bool) (wg' : nat), wg = wg' + (if counted x then 1 else 0) ->
      length (filter active_all l) = (if f' then 1 else 0) ->
      dinv n r f' ks wg' nx l.
  Proof.
    intros [H1 H1' H2 H3 H4 H5 H6 H7 H8 H9 H10 H11] Rx f' wg' HW HF.
    apply Forall_cons_iff in H2 as [H2 H2l]. apply Forall_cons_iff in H3 as [H3 H3l]. apply Forall_cons_iff in H5 as [H5 H5l]. cbn [map] in H4. apply NoDup_cons_iff in H4 as [H4 H4'].
    split; auto.
    - cbn [filter] in H6. destruct (counted x); cbn [length] in *; lia.
    - unfold rkeys in *. cbn [filter] in H7. rewrite Rx in H7. exact H7.
    - intros d t Hd Ht. apply H9; cbn; auto.
    - intros d Hd A B. specialize (H11 d (or_intror Hd) A B). apply Forall_cons_iff in H11 as [_ H11]. exact H11.
  Qed.

  Lemma rkeys_cons x l : rkeys (x :: l) = if recorded x then tkey x :: rkeys l else rkeys l.
  Proof. unfold rkeys. cbn [filter]. destruct (recorded x); reflexivity. Qed.
  Lemma recorded_early i (c : call V) p g : p <> PReady -> p <> PApplied -> recorded (mkT i c p g) = false.
  Proof. intros. unfold recorded. cbn. destruct p; try contradiction; apply andb_false_r. Qed.
  Lemma recorded_other i (c : call V) p g : is_destroy c = false -> recorded (mkT i c p g) = false.
  Proof. intros H. unfold recorded. cbn. rewrite H. reflexivity. Qed.
  Ltac recd := rewrite !rkeys_cons in *; rewrite ?recorded_early in * by discriminate.

  Ltac easy1 H7 H10 :=
    solve [ assumption | reflexivity | lia | discriminate | exact Logic.I
      | intros (_ & C & _); discriminate | intros (C & _); first [discriminate|congruence] | intros (_ & _ & C); discriminate
      | intros _ C; discriminate
      | unfold counted; cbn [t_call t_phase]; lia
      | unfold counted; cbn [t_call t_phase];
        match goal with [H : is_all _ = false |- _] => rewrite H end; cbn; lia
      | recd; first [exact H7 | rewrite recorded_other by assumption; exact H7]
      | rewrite recorded_early by discriminate; discriminate
      | rewrite recorded_other by assumption; discriminate
      | cbn [filter] in H10; unfold active_all at 1 in H10; unfold active_all at 1; cbn [t_call t_phase] in *;
        match goal with [H : is_all _ = false |- _] => rewrite H in * end; exact H10
      | cbn in H10 |- *; lia
      | intros; auto ].

  Lemma step_inv n s lb s' : 2 <= n -> Inv n s -> step n s lb s' -> Forall (fun t => cgood (t_call t)) (d_threads s') -> Inv n s'.
  Proof.
    intros Hn I St FG. destruct St; unfold Inv in *; cbn [d_root d_flag d_keys d_wg d_next d_threads] in *;
      try (apply (dinv_perm _ _ _ _ _ _ _ _ (mid_perm l1 l2 _)) in I);
      try (apply (dinv_perm _ _ _ _ _ _ _ _ (Permutation_sym (mid_perm l1 l2 _)))).
    - (* call *)
      apply (dinv_perm _ _ _ _ _ _ _ _ (Permutation_cons_append ths _)).
      apply (Permutation_Forall (Permutation_sym (Permutation_cons_append ths _))) in FG. apply Forall_cons_iff in FG as [FG _].
      destruct I as [H1 H1' H2 H3 H4 H5 H6 H7 H8 H9 H10 H11]. rewrite Forall_forall in H5. split; auto.
      + constructor; [exact Logic.I|exact H3].
      + cbn [map t_id]. constructor; [|exact H4]. intros Hin. apply in_map_iff in Hin as (t & E & Ht). specialize (H5 t Ht). lia.
      + constructor; [cbn; lia|]. apply Forall_forall. intros t Ht. specialize (H5 t Ht). lia.
      + cbn [filter]. unfold counted at 1. cbn [t_phase]. rewrite andb_false_r. exact H6.
      + recd. exact H7.
      + intros d t Hd Ht Rd Ni Pt. cbn [In] in Hd, Ht. destruct Hd as [<-|Hd]; [rewrite recorded_early in Rd by discriminate; discriminate|].
        destruct Ht as [<-|Ht]; [discriminate|]. apply H9; auto.
      + cbn [filter]. unfold active_all at 1. cbn [t_phase]. rewrite andb_false_r. exact H10.
      + intros d Hd A B. cbn [In] in Hd. destruct Hd as [<-|Hd]; [discriminate|]. constructor; [reflexivity|]. apply (H11 d); auto.
    - (* enter *)
      pose proof I as [H1 H1' _ _ _ H5 _ H7 H8 _ H10 _]. apply Forall_cons_iff in H5 as [H5 _]. cbn [t_reg] in H5.
      apply (dinv_change _ _ _ _ _ _ _ _ _ I); cbn [t_id t_call t_reg t_phase]; try easy1 H7 H10.
    - (* flag error *)
      pose proof I as [_ _ _ H3 _ _ _ _ _ _ H10 _]. apply Forall_cons_iff in H3 as [H3 _]. unfold phase_ok in H3. cbn [t_phase t_call] in H3.
      apply (dinv_drop _ _ _ _ _ _ _ _ I); [apply recorded_early; discriminate| |];
        [unfold counted; cbn [t_call t_phase]; rewrite H3; cbn; lia|].
      cbn [filter] in H10. unfold active_all at 1 in H10. cbn [t_call t_phase] in H10. rewrite H3 in H10. exact H10.
    - (* flag ok *)
      pose proof I as [H1 H1' _ H3 _ H5 _ H7 H8 _ H10 H11]. apply Forall_cons_iff in H5 as [H5 _]. cbn [t_reg] in H5.
      apply Forall_cons_iff in H3 as [H3 _]. unfold phase_ok in H3. cbn [t_phase t_call] in H3.
      apply (dinv_change _ _ _ _ _ _ _ _ _ I); cbn [t_id t_call t_reg t_phase]; try easy1 H7 H10.
      intros _ _. right. intros d Hd Ad. destruct (passed d) eqn:Pd; [exfalso|reflexivity].
      assert (Hf : In d (filter active_all (mkT i c PEntered g :: l1 ++ l2))).
      { apply filter_In. split; [right; exact Hd|]. unfold active_all. rewrite Ad. unfold passed in Pd. destruct (t_phase d); try discriminate; reflexivity. }
      destruct (filter active_all _); [destruct Hf|cbn in H10; lia].
    - (* key error *)
      pose proof I as [_ _ _ _ _ _ _ _ _ _ H10 _].
      apply (dinv_drop _ _ _ _ _ _ _ _ I); [apply recorded_early; discriminate| |];
        [unfold counted; cbn [t_call t_phase]; rewrite H; cbn; lia|].
      cbn [filter] in H10. unfold active_all at 1 in H10. cbn [t_call t_phase] in H10. rewrite H in H10. exact H10.
    - (* key ok *)
      pose proof I as [H1' H1'' H2 _ _ H5 _ H7 H8 _ H10 _]. apply Forall_cons_iff in H5 as [H5 _]. cbn [t_reg] in H5.
      pose proof (keys_good _ _ H7 H2) as GK.
      apply (dinv_change _ _ _ _ _ _ _ _ _ I); cbn [t_id t_call t_reg t_phase]; try easy1 H7 H10.
      intros _ _ k Ek d Hd Rd Sv. specialize (H1 k Ek).
      assert (Gk : good k). { apply Forall_cons_iff in H2 as [H2 _]. apply H2. exact Ek. }
      assert (C : in_keys ks k = true); [|congruence]. apply in_keys_iff; auto. exists (tkey d). split; [|apply same_value_sym, Sv].
      apply (Permutation_in _ (Permutation_sym H7)). unfold rkeys. apply in_map, filter_In. split; [right; exact Hd|exact Rd].
    - (* record *)
      pose proof I as [H1 H1' H2 _ _ H5 _ H7 H8 _ H10 _]. apply Forall_cons_iff in H5 as [H5 _]. cbn [t_reg t_id] in H5.
      pose proof (keys_good _ _ H7 H2) as GK.
      assert (Gk : good k). { apply Forall_cons_iff in H2 as [H2 _]. apply H2. reflexivity. }
      assert (NK : forall x, In x ks -> ~ same_value x k).
      { intros x Hx Sv. assert (C : in_keys ks k = true); [|congruence]. apply in_keys_iff; eauto. }
      apply (dinv_change _ _ _ _ _ _ _ _ _ I); cbn [t_id t_call t_reg t_phase]; try easy1 H7 H10.
      + rewrite <- Permutation_cons_append. recd. apply perm_skip. exact H7.
      + apply (fop_perm _ (k :: ks)); [intros a b Hab C; apply Hab, same_value_sym, C|apply Permutation_cons_append|].
        constructor; [|exact H8]. apply Forall_forall. intros x Hx C. apply (NK x Hx), same_value_sym, C.
      + intros _ _ k' Ek d Hd Rd Sv. cbn in Ek. injection Ek as <-. apply (NK (tkey d)); [|apply same_value_sym, Sv].
        apply (Permutation_in _ (Permutation_sym H7)). unfold rkeys. apply in_map, filter_In. split; [right; exact Hd|exact Rd].
    - (* cas error *)
      pose proof I as [_ _ _ _ _ _ _ _ _ _ H10 _].
      apply (dinv_drop _ _ _ _ _ _ _ _ I); [reflexivity|cbn; lia|]. cbn in H10. exact H10.
    - (* cas ok *)
      pose proof I as [H1 H1' _ _ _ H5 _ H7 H8 _ H10 _]. apply Forall_cons_iff in H5 as [H5 _]. cbn [t_reg] in H5.
      apply (dinv_change _ _ _ _ _ _ _ _ _ I); cbn [t_id t_call t_reg t_phase]; try easy1 H7 H10.
    - (* wait *)
      pose proof I as [H1 H1' _ _ _ H5 H6 H7 H8 _ H10 _]. apply Forall_cons_iff in H5 as [H5 _]. cbn [t_reg] in H5.
      apply (dinv_change _ _ _ _ _ _ _ _ _ I); cbn [t_id t_call t_reg t_phase]; try easy1 H7 H10.
      intros _. apply Forall_forall. intros t Ht NA. cbn in H6. destruct (early t) eqn:Et; [reflexivity|exfalso].
      assert (Hf : In t (filter counted (l1 ++ l2))).
      { apply filter_In. split; [exact Ht|]. unfold counted. rewrite NA. unfold early in Et. destruct (t_phase t); try discriminate; reflexivity. }
      destruct (filter counted (l1 ++ l2)); [destruct Hf|discriminate].
    - (* apply *)
      pose proof I as [H1 H1' H2 _ _ H5 _ H7 H8 _ H10 _]. apply Forall_cons_iff in H5 as [H5 _]. cbn [t_reg] in H5.
      destruct (effect_lemma n c r Hn H1 H1') as (r2 & E2 & W2 & L2); [apply Forall_cons_iff in H2 as [H2 _]; exact H2|].
      rewrite E2 in H. injection H as ->.
      apply (dinv_change _ _ _ _ _ _ _ _ _ I); cbn [t_id t_call t_reg t_phase]; try easy1 H7 H10.
      cbn [filter] in H10. unfold active_all at 1 in H10. unfold active_all at 1. cbn [t_call t_phase] in *.
      destruct (is_all c); cbn [andb length] in *; lia.
    - (* unrecord *)
      pose proof I as [H1 H1' H2 _ _ H5 _ H7 H8 _ H10 _]. apply Forall_cons_iff in H5 as [H5 _]. cbn [t_reg] in H5.
      pose proof (keys_good _ _ H7 H2) as GK.
      assert (Gk : good k). { apply Forall_cons_iff in H2 as [H2 _]. apply H2. reflexivity. }
      assert (Hk : In k ks). { apply (Permutation_in _ (Permutation_sym H7)). left. reflexivity. }
      pose proof (unrecord_perm ks k GK Gk Hk H8) as UP.
      apply (dinv_change _ _ _ _ _ _ _ _ _ I); cbn [t_id t_call t_reg t_phase]; try easy1 H7 H10.
      + recd. cbn in H7. rewrite UP in H7. exact (Permutation_cons_inv H7).
      + apply (fop_perm _ _ _ (fun a b Hab C => Hab (same_value_sym _ _ C)) UP) in H8. inversion H8; subst. assumption.
    - (* return *)
      pose proof I as [_ _ _ _ _ _ _ _ _ _ H10 _].
      apply (dinv_drop _ _ _ _ _ _ _ _ I).
      + unfold recorded. cbn [t_call t_phase]. destruct (is_destroy c); subst p; reflexivity.
      + unfold counted. cbn [t_call t_phase]. rewrite H. destruct (is_destroy c); subst p; cbn; lia.
      + cbn [filter] in H10. unfold active_all at 1 in H10. cbn [t_call t_phase] in H10. rewrite H in H10. exact H10.
    - (* clear *)
      pose proof I as [_ _ _ _ _ _ _ _ _ _ H10 _].
      apply (dinv_drop _ _ _ _ _ _ _ _ I); [reflexivity|cbn; lia|]. cbn in H10. destruct f; lia.
  Qed.

  Lemma reachable_inv n s : 2 <= n -> reachable n s -> Inv n s.
  Proof.
    intros Hn R. induction R as [|s l s' R IH St F]; [|eapply step_inv; eauto].
    unfold Inv. cbn. split; cbn; auto; try constructor. intros d t [].
  Qed.
End Conc.
