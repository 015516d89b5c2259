From Coq Require Import Sorted Permutation ZifyBool ZifyNat.
From Verif Require Import Datatypes SpecValues DatatypesProofs BTree SpecBTree BTreeProofs BTreeFind SpecFind
  BTreeFindProofs BTreeLockProofs.
Local Open Scope nat_scope.

Section Tree.
  Context {V : Type}.
  Notation node := (node V).
  Notation entry := (entry V).

  Lemma ordered_iff (l : list entry) : ordered l <-> sorted l /\ goods l.
  Proof.
    unfold ordered, sorted, goods. split; intros [H1 H2]; (split; [|exact H2]).
    - induction H1 as [|x l H IH F]; [constructor|]. apply Forall_cons_iff in H2 as [Gx G2]. constructor; [auto|].
      rewrite Forall_forall in *. intros y Hy. unfold klt. apply lmt_spec; [apply Gx|apply G2, Hy|]. apply F, Hy.
    - induction H1 as [|x l H IH F]; [constructor|]. apply Forall_cons_iff in H2 as [Gx G2]. constructor; [auto|].
      rewrite Forall_forall in *. intros y Hy. apply lmt_spec; [apply Gx|apply G2, Hy|]. apply F, Hy.
  Qed.

  Lemma absent_not_stored k (l : list entry) : good k -> goods l -> absent k l -> not_stored l k.
  Proof.
    intros Gk G A k' v Hin Hs. unfold absent in A. rewrite Forall_forall in A. specialize (A _ Hin). cbn in A.
    destruct (same_value_incomparable k k' Gk (goods_in _ _ G Hin) Hs). destruct A; congruence.
  Qed.
  Lemma equiv_same (l : list entry) k k' v : good k -> goods l -> In (k', v) l -> lmt k' k = false -> lmt k k' = false -> same_value k k'.
  Proof. intros Gk G Hin H1 H2. apply lmt_total; auto. exact (goods_in _ _ G Hin). Qed.

  Lemma well_shaped_split n (root : option node) : 2 <= n -> well_shaped n root ->
    let t := match root with Some t => t | None => Node [] [] end in
    exists h, balanced n h t /\ length (vals_of t) <= n /\ (0 < h -> 1 <= length (vals_of t)) /\
              sorted (flat t) /\ goods (flat t) /\ flat t = contents root.
  Proof.
    intros Hn W. destruct root as [t|]; cbn.
    - destruct W as (h & B & L1 & L2 & O). apply ordered_iff in O as [O1 O2]. exists h. auto 8.
    - exists 0. repeat split; cbn; try lia; constructor.
  Qed.

  Lemma contents_goods n (root : option node) : 2 <= n -> well_shaped n root -> goods (contents root).
  Proof. intros Hn W. destruct (well_shaped_split n root Hn W) as (h & _ & _ & _ & _ & G & E). rewrite E in G. exact G. Qed.

  Lemma tree_create_lemma n (root : option node) k v :
    2 <= n -> well_shaped n root -> good k ->
    (exists v0 r, stored (contents root) k v0 /\ tree_create n root k (Some v) = TExists v0 r /\ well_shaped n r /\
                  contents r = contents root) \/
    (not_stored (contents root) k /\ exists r, tree_create n root k (Some v) = TOk r /\ well_shaped n r /\
       Permutation (contents r) ((k, v) :: contents root)).
  Proof.
    intros Hn W Gk. destruct (well_shaped_split n root Hn W) as (h & B & L1 & L2 & S & G & E).
    unfold tree_create. cbv zeta in *. set (t := match root with Some t => t | None => Node [] [] end) in *.
    pose proof (create_spec n h t k (Some v) Hn B L1 G Gk S) as C.
    destruct (create n t k (Some v)) as [v0| |t'|p]; cbn [create_post] in C.
    - left. destruct C as (k' & I & E1 & E2). exists v0, (Some t). split.
      + exists k'. split; [apply (equiv_same (flat t) k k' v0); auto|rewrite <- E; exact I].
      + split; [reflexivity|]. split; [|exact E]. exists h. repeat split; auto. apply ordered_iff. auto.
    - destruct C.
    - right. destruct C as (A & B' & L' & F). split; [rewrite <- E; apply absent_not_stored; auto|].
      exists (Some t'). split; [reflexivity|]. split.
      + exists h. split; [exact B'|]. split; [lia|]. split; [intros; specialize (L2 H); lia|]. rewrite F. apply ordered_iff.
        split; [apply ins_sorted; auto|apply ins_goods; auto].
      + cbn [contents]. rewrite F, <- E. apply ins_perm.
    - right. destruct C as (A & (x & l & r & -> & Ol & Or) & v1 & Ev & F). injection Ev as <-.
      split; [rewrite <- E; apply absent_not_stored; auto|].
      exists (Some (Node [x] [l; r])). split; [reflexivity|]. split.
      + exists (Datatypes.S h). split; [apply balanced_S; split; [reflexivity|constructor; [exact Ol|constructor; [exact Or|constructor]]]|].
        cbn [vals_of length]. split; [lia|]. split; [lia|]. rewrite F. apply ordered_iff.
        split; [apply ins_sorted; auto|apply ins_goods; auto].
      + cbn [contents]. rewrite F, <- E. apply ins_perm.
  Qed.

  Lemma del_equiv_perm k (l : list entry) k' v : goods l -> good k -> sorted l ->
    In (k', v) l -> lmt k' k = false -> lmt k k' = false -> Permutation l ((k', v) :: del k l).
  Proof.
    intros G Gk S I E1 E2. apply in_split in I as (l1 & l2 & ->).
    rewrite del_equiv by assumption. symmetry. apply Permutation_middle.
  Qed.

  Lemma tree_delete_lemma n (root : option node) k can :
    2 <= n -> well_shaped n root -> good k ->
    exists r asked, tree_delete n root k can = TDOk r asked /\ well_shaped n r /\
      match asked with
      | None => not_stored (contents root) k /\ r = root
      | Some (k', v) => same_value k k' /\ In (k', v) (contents root) /\
          if can k' v then Permutation (contents root) ((k', v) :: contents r) else r = root
      end.
  Proof.
    intros Hn W Gk. destruct root as [t|].
    2: { exists None, None. cbn. repeat split; auto. intros k' v []. }
    destruct W as (h & B & L1 & L2 & O). pose proof O as O'. apply ordered_iff in O as [S G]. cbn [tree_delete contents].
    pose proof (remove_spec n h Hn t k can B L2 L1 G Gk S) as R.
    destruct (remove n t k can) as [|t' u a]; cbn [remove_post] in R; [destruct R|].
    destruct R as (B' & (S1 & S2 & S3) & P).
    assert (O2 : ordered (flat t')).
    { destruct a as [[k' v]|].
      - destruct P as (_ & _ & _ & P). destruct (can k' v); [|subst; exact O']. rewrite P. apply ordered_iff.
        split; [apply del_sorted, S|apply del_goods, G].
      - destruct P as [_ ->]. exact O'. }
    destruct u.
    - assert (Hlt : length (vals_of t') < length (vals_of t)).
      { destruct (Nat.eq_dec (length (vals_of t')) (length (vals_of t))) as [E|E]; [specialize (S2 E); discriminate|lia]. }
      assert (PD : exists k' v, a = Some (k', v) /\ can k' v = true /\ same_value k k' /\ In (k', v) (flat t) /\
                   Permutation (flat t) ((k', v) :: flat t')).
      { destruct a as [[k' v]|].
        - destruct P as (P1 & P2 & P3 & P). exists k', v. split; [reflexivity|].
          destruct (can k' v); [|subst; lia]. split; [reflexivity|].
          split; [apply (equiv_same (flat t) k k' v); auto|]. split; [exact P1|]. rewrite P. apply del_equiv_perm; auto.
        - destruct P as [_ ->]. lia. }
      destruct PD as (k' & v & -> & Ec & P1 & P2 & P3).
      destruct t' as [[|v0 vs] ks].
      + (* the root lost its last value *)
        destruct ks as [|c ks].
        * exists None, (Some (k', v)). split; [reflexivity|]. split; [exact I|]. rewrite Ec. auto.
        * destruct h as [|h]; [discriminate (B' : _ = _)|].
          apply (proj1 (balanced_S _ _ _ _)) in B'; cbn [vals_of kids_of] in B'; destruct B' as [LK FK].
          destruct ks; [|discriminate]. apply Forall_cons_iff in FK as [[Bc Oc] _].
          exists (Some c), (Some (k', v)). split; [reflexivity|].
          assert (FE : flat (Node [] [c]) = flat c) by (cbn; rewrite app_nil_r; reflexivity).
          rewrite FE in O2, P3. split; [exists h; split; [exact Bc|]; split; [lia|]; split; [lia|exact O2]|].
          rewrite Ec. auto.
      + exists (Some (Node (v0 :: vs) ks)), (Some (k', v)). split; [reflexivity|]. split.
        * exists h. split; [exact B'|]. split; [lia|]. split; [cbn; lia|exact O2].
        * rewrite Ec. auto.
    - exists (Some t'), a. split; [reflexivity|]. split.
      + exists h. split; [exact B'|]. split; [lia|]. split; [|exact O2]. intros Hh. specialize (L2 Hh).
        destruct (Nat.eq_dec (length (vals_of t')) (length (vals_of t))) as [E|E]; [lia|].
        specialize (S3 ltac:(lia)). symmetry in S3. apply Nat.ltb_ge in S3. assert (1 <= n / 2) by (apply Nat.div_le_lower_bound; lia). lia.
      + destruct a as [[k' v]|].
        * destruct P as (P1 & P2 & P3 & P). split; [apply (equiv_same (flat t) k k' v); auto|]. split; [exact P1|].
          cbn [contents]. destruct (can k' v); [rewrite P; apply del_equiv_perm; auto|subst; reflexivity].
        * destruct P as [A ->]. split; [apply absent_not_stored; auto|reflexivity].
  Qed.

  Lemma tree_step_lemma n (root : option node) o : 2 <= n -> well_shaped n root -> good (op_key o) ->
    exists r, tree_step n root o = Some r /\ well_shaped n r /\ map_step (contents root) o (contents r).
  Proof.
    intros Hn W G. destruct o as [k v|k can]; cbn [op_key tree_step] in *.
    - destruct (tree_create_lemma n root k v Hn W G) as [(v0 & r & St & -> & Wr & E)|(NS & r & -> & Wr & P)].
      + exists r. rewrite E. split; [reflexivity|]. split; [exact Wr|]. econstructor; eauto.
      + exists r. split; [reflexivity|]. split; [exact Wr|]. apply MS_create; auto.
    - destruct (tree_delete_lemma n root k can Hn W G) as (r & a & -> & Wr & P). exists r. split; [reflexivity|].
      split; [exact Wr|]. destruct a as [[k' v]|].
      + destruct P as (P1 & P2 & P3). destruct (can k' v) eqn:E; [eapply MS_delete; eauto|subst; eapply MS_veto; eauto].
      + destruct P as [P ->]. apply MS_absent. exact P.
  Qed.

  Lemma tree_run_lemma n ops : 2 <= n -> Forall (fun o => good (op_key o)) ops -> forall (root : option node),
    well_shaped n root ->
    exists r, tree_run n root ops = Some r /\ well_shaped n r /\ map_run (contents root) ops (contents r).
  Proof.
    intros Hn F. induction F as [|o ops G F IH]; intros root W.
    - exists root. cbn. repeat split; auto. constructor.
    - destruct (tree_step_lemma n root o Hn W G) as (r1 & E1 & W1 & M1). cbn [tree_run]. rewrite E1.
      destruct (IH r1 W1) as (r & E & Wr & M). exists r. split; [exact E|]. split; [exact Wr|]. econstructor; eauto.
  Qed.

  (** depth *)
  Lemma balanced_size n h : forall t : node, balanced n h t ->
    length (vals_of t) <= length (flat t) /\
    length (flat t) >= length (vals_of t) + (match h with O => 0 | Datatypes.S h' => Datatypes.S (length (vals_of t)) * ((n / 2 + 1) ^ (Datatypes.S h') - 1) end).
  Proof.
    induction h as [|h IH]; intros [vs ks] B.
    - apply (proj1 (balanced_0 _ _ _)) in B. subst ks. cbn. lia.
    - apply (proj1 (balanced_S _ _ _ _)) in B; cbn [vals_of kids_of] in *; destruct B as [LK FK]. cbn [flat].
      assert (C : Forall (fun l : list entry => (n / 2 + 1) ^ (Datatypes.S h) - 1 <= length l) (map flat ks)).
      { apply Forall_map. eapply Forall_impl; [|exact FK]. intros c [Bc Oc]. specialize (IH c Bc) as [I1 I2].
        destruct h as [|h]; [rewrite Nat.pow_1_r; lia|].
        set (m := n / 2) in *. set (q := (m + 1) ^ (Datatypes.S h)) in *.
        replace ((m + 1) ^ Datatypes.S (Datatypes.S h)) with ((m + 1) * q) by (unfold q; cbn; reflexivity).
        assert (1 <= q) by (unfold q; apply Nat.neq_0_lt_0, Nat.pow_nonzero; lia).
        assert ((m + 1) * (q - 1) <= Datatypes.S (length (vals_of c)) * (q - 1)) by (apply Nat.mul_le_mono_r; lia).
        nia. }
      assert (LK' : length (map (@flat V) ks) = Datatypes.S (length vs)) by (rewrite map_length; exact LK).
      set (M := (n / 2 + 1) ^ (Datatypes.S h) - 1) in *.
      clearbody M. generalize dependent (map (@flat V) ks). clear. induction vs as [|v vs IHv]; intros [|l kss] C LK'; try discriminate.
      + destruct kss; [|discriminate]. cbn [weave length Nat.mul Nat.add]. rewrite app_nil_r. apply Forall_cons_iff in C as [C _]. lia.
      + apply Forall_cons_iff in C as [C1 C2]. rewrite weave_cons. specialize (IHv kss C2 ltac:(cbn [length] in LK'; lia)).
        rewrite app_length. cbn [length]. cbn [Nat.mul] in *. lia.
  Qed.

  Lemma depth_lemma n h (t : node) : 2 <= n -> balanced n h t -> (0 < h -> 1 <= length (vals_of t)) -> 0 < h ->
    2 * (n / 2 + 1) ^ h - 1 <= length (flat t).
  Proof.
    intros Hn B L Hh. specialize (L Hh). destruct (balanced_size n h t B) as [_ H]. destruct h as [|h]; [lia|].
    set (q := (n / 2 + 1) ^ Datatypes.S h) in *. assert (1 <= q) by (unfold q; apply Nat.neq_0_lt_0, Nat.pow_nonzero; lia).
    nia.
  Qed.
End Tree.
