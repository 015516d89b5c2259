From Coq Require Import Sorted Permutation SpecFloat.
From Verif Require Import Datatypes SpecValues DatatypesProofs BTree SpecBTree BTreeProofs BTreeFind SpecFind
  PropLemmasValues BTreeFindProofs PropLemmasTree BTreeCreateFind PropLemmasTree2
  BTreeDestroy SpecDestroy BTreeDestroyProofs.
Local Open Scope nat_scope.

Section L.
  Context {V : Type}.
  Notation thread := (thread V).

  Lemma destroying_recorded (d : thread) k : destroying_key d k -> recorded d = true /\ tkey d = k /\ passed d = true.
  Proof. intros (can & E & P). unfold recorded, tkey, passed. rewrite E. cbn. destruct P as [-> | ->]; auto. Qed.
  Lemma recorded_destroying (d : thread) : recorded d = true -> destroying_key d (tkey d).
  Proof.
    unfold recorded, tkey, destroying_key. destruct (t_call d); cbn; try discriminate. intros H. exists can. split; [reflexivity|].
    destruct (t_phase d); try discriminate; auto.
  Qed.
  Lemma id_unique (l : list thread) a b : NoDup (map t_id l) -> In a l -> In b l -> t_id a = t_id b -> a = b.
  Proof.
    induction l as [|x l IH]; [intros _ []|]. cbn. intros N. apply NoDup_cons_iff in N as [N1 N2].
    intros [<-|Ha] [<-|Hb] E; auto.
    - exfalso. apply N1. rewrite E. apply in_map, Hb.
    - exfalso. apply N1. rewrite <- E. apply in_map, Ha.
  Qed.

  (** what an applying step is *)
  Lemma apply_inv n (s s' : dstate V) i : step n s (LApply i) s' ->
    exists t, In t (d_threads s) /\ t_id t = i /\ t_phase t = PReady /\ effect n (t_call t) (d_root s) = Some (d_root s').
  Proof. intros St. inversion St; subst. exists (mkT i c PReady g). cbn. split; [apply in_elt|auto]. Qed.
  Lemma other_inv n (s : dstate V) l s' : step n s l s' -> (forall i, l <> LApply i) -> d_root s' = d_root s.
  Proof. intros St H. destruct St; cbn; auto. exfalso. eapply H. reflexivity. Qed.

  Lemma effect_means n (c : call V) r r' : 2 <= n -> well_shaped n r -> call_good c -> effect n c r = Some r' ->
    call_means c (contents r) (contents r').
  Proof.
    intros Hn W G E. destruct c as [k v|k v|k| |k can|k can|can]; cbn [effect call_means] in *.
    - specialize (G k eq_refl).
      destruct (tree_create_lemma n r k v Hn W G) as [(v0 & r2 & S & E2 & _ & C)|(N & r2 & E2 & _ & P)]; rewrite E2 in E; injection E as <-.
      + rewrite C. econstructor. exact S.
      + apply MS_create; auto.
    - specialize (G k eq_refl).
      destruct (create_or_find_lemma n r k v Hn W G) as [(v0 & r2 & S & E2 & _ & C)|(N & r2 & E2 & _ & P)]; rewrite E2 in E; injection E as <-.
      + rewrite C. econstructor. exact S.
      + apply MS_create; auto.
    - injection E as <-. reflexivity.
    - injection E as <-. reflexivity.
    - specialize (G k eq_refl). destruct (tree_delete_lemma n r k can Hn W G) as (r2 & a & E2 & _ & H). rewrite E2 in E. injection E as <-.
      destruct a as [[k' v]|].
      + destruct H as (H1 & H2 & H). destruct (can k' v) eqn:Ec; [eapply MS_delete; eauto|subst; eapply MS_veto; eauto].
      + destruct H as [H ->]. apply MS_absent, H.
    - specialize (G k eq_refl). destruct (tree_delete_lemma n r k can Hn W G) as (r2 & a & E2 & _ & H). rewrite E2 in E. injection E as <-.
      destruct a as [[k' v]|].
      + destruct H as (H1 & H2 & H). destruct (can k' v) eqn:Ec; [eapply MS_delete; eauto|subst; eapply MS_veto; eauto].
      + destruct H as [H ->]. apply MS_absent, H.
    - destruct (destroy_all_lemma n r can Hn W) as (r2 & rem & H & _ & F & P).
      destruct H as [[E2 C]|(k & v & E2 & C & Hin)]; rewrite E2 in E; injection E as <-; exists rem; eauto 8.
  Qed.

  Lemma tree_sound_lemma n (s : dstate V) l s' : 2 <= n -> reachable n s -> step n s l s' ->
    well_shaped n (d_root s) /\ (Empty (d_root s) = true <-> contents (d_root s) = []) /\
    (forall t, In t (d_threads s) -> exists r, effect n (t_call t) (d_root s) = Some r) /\
    ((exists t, l = LApply (t_id t) /\ In t (d_threads s) /\ call_means (t_call t) (contents (d_root s)) (contents (d_root s'))) \/
     d_root s' = d_root s).
  Proof.
    intros Hn R St. pose proof (reachable_inv n s Hn R) as I. destruct I as [W L G _ _ _ _ _ _ _ _ _]. rewrite Forall_forall in G.
    split; [exact W|]. split.
    { destruct (d_root s) as [t|]; cbn in *; split; intros; try discriminate; auto; contradiction. }
    split.
    { intros t Ht. destruct (effect_lemma n (t_call t) _ Hn W L (G t Ht)) as (r & E & _). eauto. }
    destruct l as [i|i|i|]; try (right; apply (other_inv n s _ s' St); intros; discriminate).
    left. destruct (apply_inv n s s' i St) as (t & Ht & <- & _ & E). exists t. split; [reflexivity|]. split; [exact Ht|].
    apply (effect_means n); auto. apply G, Ht.
  Qed.

  Lemma key_error_lemma n (s s' : dstate V) i : 2 <= n -> reachable n s -> step n s (LErrKey i) s' ->
    exists t d k k', In t (d_threads s) /\ t_id t = i /\ check_key (t_call t) = Some k' /\
      In d (d_threads s) /\ d <> t /\ destroying_key d k /\ same_value k' k.
  Proof.
    intros Hn R St. pose proof (reachable_inv n s Hn R) as I. destruct I as [_ _ G _ ND _ _ P _ _ _ _]. inversion St; subst. cbn [d_threads d_keys] in *.
    match goal with [H : in_keys _ _ = true |- _] => rename H into IK end.
    match goal with [H : check_key _ = Some _ |- _] => rename H into CK end.
    pose proof (keys_good _ _ P G) as GK. set (t := mkT i c PFlag g) in *.
    assert (Ht : In t (l1 ++ t :: l2)) by apply in_elt.
    assert (Gk : good k). { rewrite Forall_forall in G. apply (G t Ht). exact CK. }
    apply (in_keys_iff ks k GK Gk) in IK as (x & Hx & Sv). apply (Permutation_in _ P) in Hx. unfold rkeys in Hx.
    apply in_map_iff in Hx as (d & <- & Hd). apply filter_In in Hd as [Hd Rd]. exists t, d, (tkey d), k.
    split; [exact Ht|]. split; [reflexivity|]. split; [exact CK|]. split; [exact Hd|]. split.
    - intros ->. unfold t in Rd. rewrite recorded_early in Rd by discriminate. discriminate.
    - split; [apply recorded_destroying, Rd|apply same_value_sym, Sv].
  Qed.

  Lemma tree_error_lemma n (s s' : dstate V) i : 2 <= n -> reachable n s -> step n s (LErrTree i) s' ->
    exists d can, In d (d_threads s) /\ t_call d = KDestroyAll can /\ t_phase d <> PNew /\ t_id d <> i.
  Proof.
    intros Hn R St. pose proof (reachable_inv n s Hn R) as I. destruct I as [_ _ _ PO ND _ _ _ _ _ F _].
    assert (X : d_flag s = true -> exists d can, In d (d_threads s) /\ t_call d = KDestroyAll can /\ t_phase d <> PNew /\ t_phase d <> PEntered).
    { intros E. rewrite E in F. destruct (filter active_all (d_threads s)) as [|d q] eqn:EF; [discriminate|].
      assert (Hd : In d (filter active_all (d_threads s))) by (rewrite EF; left; reflexivity).
      apply filter_In in Hd as [Hd A]. unfold active_all in A. apply andb_prop in A as [A1 A2].
      rewrite Forall_forall in PO. specialize (PO d Hd). unfold phase_ok in PO.
      destruct (t_call d) as [| | | | | |can] eqn:EC; try discriminate. exists d, can. split; [exact Hd|]. split; [exact EC|].
      split; intros C; rewrite C in *; discriminate. }
    inversion St; subst; cbn [d_threads d_flag] in *; destruct (X eq_refl) as (d & can' & Hd & E1 & E2 & E3); exists d, can';
      (split; [exact Hd|]; split; [exact E1|]; split; [exact E2|]); intros C.
    - assert (d = mkT i c PEntered g) by (apply (id_unique _ _ _ ND); auto; apply in_elt). subst d. apply E3; reflexivity.
    - assert (d = mkT i (KDestroyAll can) PNew g) by (apply (id_unique _ _ _ ND); auto; apply in_elt). subst d. apply E2; reflexivity.
  Qed.

  (** a call whose key is being destroyed when it looks is rejected *)
  Lemma blocked_lemma n (s : dstate V) l s' t d k k' : 2 <= n -> reachable n s -> step n s l s' ->
    In t (d_threads s) -> t_phase t = PFlag -> check_key (t_call t) = Some k' ->
    In d (d_threads s) -> destroying_key d k -> same_value k' k ->
    (l = LErrKey (t_id t) /\ d_root s' = d_root s) \/ In t (d_threads s').
  Proof.
    intros Hn R St Ht Pt CK Hd Dk Sv. pose proof (reachable_inv n s Hn R) as I. destruct I as [_ _ G _ ND _ _ P _ _ _ _].
    pose proof (keys_good _ _ P G) as GK.
    assert (Gk : good k'). { rewrite Forall_forall in G. apply (G t Ht). exact CK. }
    destruct (destroying_recorded d k Dk) as (Rd & Tk & _).
    assert (IK : in_keys (d_keys s) k' = true).
    { apply in_keys_iff; auto. exists k. split; [|apply same_value_sym, Sv]. apply (Permutation_in _ (Permutation_sym P)).
      unfold rkeys. rewrite <- Tk. apply in_map, filter_In. auto. }
    assert (X : forall (l1 l2 : list thread) x, In t (l1 ++ x :: l2) -> t = x \/ (forall y, In t (l1 ++ y :: l2)) /\ In t (l1 ++ l2)).
    { intros l1 l2 x H. apply in_app_or in H as [H|[H|H]]; auto; right; split; intros; apply in_or_app; cbn; auto. }
    clear Hd Dk Rd Tk P GK ND R.
    destruct St; cbn [d_threads d_keys d_root] in *;
      try (destruct (X l1 l2 _ Ht) as [E|[E1 E2]]; [subst t; cbn [t_phase t_call t_id] in *; try discriminate|auto]);
      try (left; split; reflexivity).
    - right. apply in_or_app. auto.
    - exfalso. specialize (H1 k' CK). congruence.
    - exfalso. cbn in CK. injection CK as <-. congruence.
    - subst p. destruct (is_destroy c); discriminate.
  Qed.

  (** registration numbers do not change while a key is being destroyed *)
  Lemma reg_step n (s : dstate V) l s' d d' : 2 <= n -> reachable n s -> step n s l s' -> In d (d_threads s) -> In d' (d_threads s') ->
    t_id d = t_id d' -> recorded d = true -> t_reg d' = t_reg d.
  Proof.
    intros Hn R St Hd Hd' E Rd. pose proof (reachable_inv n s Hn R) as I. destruct I as [_ _ _ _ ND NX _ _ _ _ _ _].
    assert (X : forall (l1 l2 : list thread) x y, d_threads s = l1 ++ x :: l2 -> t_id y = t_id x -> (recorded x = true -> t_reg y = t_reg x) ->
              In d' (l1 ++ y :: l2) -> t_reg d' = t_reg d).
    { intros l1 l2 x y Es Ei Er H. rewrite Es in *.
      assert (H' : d' = y \/ In d' (l1 ++ x :: l2)).
      { apply in_app_or in H as [H|[H|H]]; auto; right; apply in_or_app; cbn; auto. }
      destruct H' as [->|H'].
      - assert (d = x). { apply (id_unique _ _ _ ND); auto; [apply in_elt|congruence]. } subst. auto.
      - f_equal. symmetry. apply (id_unique _ _ _ ND); auto. }
    assert (Y : forall (l1 l2 : list thread) x, d_threads s = l1 ++ x :: l2 -> In d' (l1 ++ l2) -> t_reg d' = t_reg d).
    { intros l1 l2 x Es H. rewrite Es in *. f_equal. symmetry. apply (id_unique _ _ _ ND); auto.
      apply in_app_or in H as [H|H]; apply in_or_app; cbn; auto. }
    destruct St; cbn [d_threads d_next] in *;
      try (eapply Y; [reflexivity|exact Hd']);
      try (eapply X; [reflexivity| | |exact Hd']; [reflexivity|reflexivity]).
    - apply in_app_or in Hd' as [Hd'|[<-|[]]].
      + f_equal. symmetry. apply (id_unique _ _ _ ND); auto.
      + rewrite Forall_forall in NX. specialize (NX d Hd). cbn in E. lia.
    - eapply X; [reflexivity| | |exact Hd']; [reflexivity|]. rewrite recorded_early by discriminate. discriminate.
  Qed.
  Lemma steps_reachable n (s : dstate V) tr s' : reachable n s -> steps n s tr s' -> reachable n s'.
  Proof. intros R S. induction S as [|s l s1 tr s2 St F S IH]; [exact R|]. apply IH. eapply R_step; eauto. Qed.

  Lemma next_mono n (s : dstate V) l s' : step n s l s' -> d_next s <= d_next s'.
  Proof. intros St. destruct St; cbn; lia. Qed.
  (** a thread of a later state with an old id was there before *)
  Lemma id_back n (s : dstate V) l s' d' : step n s l s' -> In d' (d_threads s') -> t_id d' < d_next s ->
    exists d, In d (d_threads s) /\ t_id d = t_id d'.
  Proof.
    intros St Hd' Lt.
    assert (X : forall (l1 l2 : list thread) x y, t_id y = t_id x -> In d' (l1 ++ y :: l2) -> exists d, In d (l1 ++ x :: l2) /\ t_id d = t_id d').
    { intros l1 l2 x y E H. apply in_app_or in H as [H|[<-|H]].
      - exists d'. split; [apply in_or_app; auto|reflexivity].
      - exists x. split; [apply in_elt|auto].
      - exists d'. split; [apply in_or_app; cbn; auto|reflexivity]. }
    assert (Y : forall (l1 l2 : list thread) (x : thread), In d' (l1 ++ l2) -> exists d, In d (l1 ++ x :: l2) /\ t_id d = t_id d').
    { intros l1 l2 x H. exists d'. split; [|reflexivity]. apply in_app_or in H as [H|H]; apply in_or_app; cbn; auto. }
    destruct St; cbn [d_threads d_next] in *; try (eapply Y; exact Hd'); try (eapply X; [|exact Hd']; reflexivity).
    apply in_app_or in Hd' as [Hd'|[<-|[]]]; [exists d'; auto|cbn in Lt; lia].
  Qed.

  Lemma reg_steps n (s : dstate V) tr s' d d' : 2 <= n -> reachable n s -> steps n s tr s' -> In d (d_threads s) -> In d' (d_threads s') ->
    t_id d = t_id d' -> recorded d = true -> recorded d' = true -> t_reg d' = t_reg d.
  Proof.
    intros Hn R S. revert d. induction S as [s|s l s1 tr s2 St F S IH]; intros d Hd Hd' E Rd Rd'.
    - f_equal. symmetry. apply (id_unique (d_threads s)); auto. apply (reachable_inv n s Hn R).
    - pose proof (R_step n s l s1 R St F) as R1.
      pose proof (reachable_inv n s Hn R) as [_ _ _ _ _ NX _ _ _ _ _ _]. rewrite Forall_forall in NX. pose proof (NX d Hd) as [Hid _].
      assert (M : exists d1, In d1 (d_threads s1) /\ t_id d1 = t_id d').
      { clear - S Hd' E Hid St. assert (Lt : t_id d' < d_next s1) by (apply next_mono in St; lia). clear - S Hd' Lt.
        revert Lt. induction S as [s|s l s1 tr s2 St F S IH]; intros; [eauto|].
        destruct IH as (d1 & H1 & H2); [exact Hd'|pose proof (next_mono _ _ _ _ St); lia|].
        destruct (id_back n s l s1 d1 St H1) as (d0 & H3 & H4); [lia|]. exists d0. split; congruence. }
      destruct M as (d1 & H1 & H2).
      assert (Er : t_reg d1 = t_reg d) by (apply (reg_step n s l s1 d d1); auto; congruence).
      destruct (recorded d1) eqn:R1d.
      + rewrite <- Er. apply IH; auto.
      + (* d1 no longer recorded: it is done, so it can never be recorded again *)
        exfalso.
        assert (Z : forall s tr s2, reachable n s -> steps n s tr s2 -> In d' (d_threads s2) ->
                 forall d1, In d1 (d_threads s) -> t_id d1 = t_id d' -> t_phase d1 = PDone -> recorded d' = true -> False).
        { clear - Hn. intros s tr s2 R S. induction S as [s|s l s1 tr s2 St F S IH]; intros Hd' d1 H1 H2 P1 Rd'.
          - assert (d1 = d') by (apply (id_unique (d_threads s)); auto; apply (reachable_inv n s Hn R)). subst.
            unfold recorded in Rd'. rewrite P1, andb_false_r in Rd'. discriminate.
          - pose proof (R_step n s l s1 R St F) as R1.
            pose proof (reachable_inv n s Hn R) as [_ _ _ _ ND NX _ _ _ _ _ _]. rewrite Forall_forall in NX. pose proof (NX d1 H1) as [Hid _].
            assert (M : exists d2, In d2 (d_threads s1) /\ t_id d2 = t_id d').
            { clear - S Hd' H2 Hid St. assert (Lt : t_id d' < d_next s1) by (apply next_mono in St; lia). clear - S Hd' Lt.
              revert Lt. induction S as [s|s l s1 tr s2 St F S IH]; intros; [eauto|].
              destruct IH as (d2 & H1 & H2); [exact Hd'|pose proof (next_mono _ _ _ _ St); lia|].
              destruct (id_back n s l s1 d2 St H1) as (d0 & H3 & H4); [lia|]. exists d0. split; congruence. }
            destruct M as (d2 & H3 & H4). apply (IH R1 Hd' d2 H3 H4); [|exact Rd'].
            assert (X : forall (l1 l2 : list thread) x y, NoDup (map t_id (l1 ++ x :: l2)) -> In d1 (l1 ++ x :: l2) -> t_id y = t_id x -> t_phase x <> PDone ->
                      In d2 (l1 ++ y :: l2) -> t_phase d2 = PDone).
            { clear - H2 H4 P1. intros l1 l2 x y ND H1 Ei Er H.
              assert (H' : d2 = y \/ In d2 (l1 ++ x :: l2)).
              { apply in_app_or in H as [H|[H|H]]; auto; right; apply in_or_app; cbn; auto. }
              destruct H' as [->|H'].
              - assert (d1 = x). { apply (id_unique _ _ _ ND); auto; [apply in_elt|congruence]. } subst. contradiction.
              - assert (d1 = d2) by (apply (id_unique _ _ _ ND); auto; congruence). subst. exact P1. }
            assert (Y : forall (l1 l2 : list thread) x, NoDup (map t_id (l1 ++ x :: l2)) -> In d1 (l1 ++ x :: l2) ->
                      In d2 (l1 ++ l2) -> t_phase d2 = PDone).
            { clear - H2 H4 P1. intros l1 l2 x ND H1 H. assert (d1 = d2); [|subst; exact P1]. apply (id_unique _ _ _ ND); auto; [|congruence].
              apply in_app_or in H as [H|H]; apply in_or_app; cbn; auto. }
            clear NX. destruct St; cbn [d_threads d_next] in *; try (eapply Y; eassumption);
              try (eapply X; [exact ND|exact H1| | |exact H3]; [reflexivity|discriminate]).
            apply in_app_or in H3 as [H3|[<-|[]]].
            + assert (d1 = d2) by (apply (id_unique _ _ _ ND); auto; congruence). subst. exact P1.
            + cbn [t_id] in H4. pose proof (reachable_inv n _ Hn R) as [_ _ _ _ _ NX _ _ _ _ _ _]. cbn [d_threads d_next] in NX.
              rewrite Forall_forall in NX. specialize (NX d1 H1). lia. }
        apply (Z s1 tr s2 R1 S Hd' d1 H1 H2); [|exact Rd'].
        (* d recorded, d1 not: d1 is done *)
        clear - St Hd H1 H2 E Rd R1d R Hn. pose proof (reachable_inv n s Hn R) as [_ _ _ _ ND _ _ _ _ _ _ _].
        assert (X : forall (l1 l2 : list thread) x y, NoDup (map t_id (l1 ++ x :: l2)) -> In d (l1 ++ x :: l2) -> t_id y = t_id x ->
                  (recorded x = true -> recorded y = true \/ t_phase y = PDone) ->
                  In d1 (l1 ++ y :: l2) -> t_phase d1 = PDone).
        { clear - H2 Rd R1d E. intros l1 l2 x y ND Hd Ei Er H.
          assert (H' : d1 = y \/ In d1 (l1 ++ x :: l2)).
          { apply in_app_or in H as [H|[H|H]]; auto; right; apply in_or_app; cbn; auto. }
          destruct H' as [->|H'].
          - assert (d = x). { apply (id_unique _ _ _ ND); auto; [apply in_elt|congruence]. } subst. destruct (Er Rd); congruence.
          - assert (d = d1) by (apply (id_unique _ _ _ ND); auto; congruence). subst. congruence. }
        assert (Y : forall (l1 l2 : list thread) x, NoDup (map t_id (l1 ++ x :: l2)) -> In d (l1 ++ x :: l2) ->
                  In d1 (l1 ++ l2) -> t_phase d1 = PDone).
        { clear - H2 Rd R1d E. intros l1 l2 x ND Hd H. assert (d = d1); [|subst; congruence]. apply (id_unique _ _ _ ND); auto; [|congruence].
          apply in_app_or in H as [H|H]; apply in_or_app; cbn; auto. }
        pose proof (reachable_inv n s Hn R) as [_ _ _ _ _ NX _ _ _ _ _ _]. rewrite Forall_forall in NX. specialize (NX d Hd). clear R Hn.
        destruct St; cbn [d_threads d_next] in *; try (eapply Y; eassumption);
          try (eapply X; [exact ND|exact Hd| | |exact H1]; [reflexivity|]);
          try (rewrite recorded_early by discriminate; discriminate); try (cbn; auto; fail).
        * apply in_app_or in H1 as [H1|[<-|[]]].
          -- assert (d = d1) by (apply (id_unique _ _ _ ND); auto; congruence). subst. congruence.
          -- cbn in H2. lia.
  Qed.

  Lemma blocked_trace_lemma n (s s1 s2 : dstate V) tr d d' k t k' :
    2 <= n -> reachable n s -> In d (d_threads s) -> destroying_key d k ->
    steps n s tr s1 -> In d' (d_threads s1) -> t_id d' = t_id d -> destroying_key d' k ->
    step n s1 (LApply (t_id t)) s2 -> In t (d_threads s1) -> check_key (t_call t) = Some k' -> same_value k' k -> t_id t <> t_id d ->
    t_id t < d_next s.
  Proof.
    intros Hn R Hd Dk S Hd' Ed Dk' St Ht CK Sv Ni. pose proof (steps_reachable n s tr s1 R S) as R1.
    destruct (destroying_recorded d k Dk) as (Rd & Tk & _). destruct (destroying_recorded d' k Dk') as (Rd' & Tk' & _).
    pose proof (reg_steps n s tr s1 d d' Hn R S Hd Hd' ltac:(congruence) Rd Rd') as Er.
    pose proof (reachable_inv n s1 Hn R1) as [_ _ _ _ ND1 _ _ _ _ RG _ _]. pose proof (reachable_inv n s Hn R) as [_ _ _ _ _ NX _ _ _ _ _ _].
    rewrite Forall_forall in NX. specialize (NX d Hd).
    destruct (apply_inv n s1 s2 _ St) as (t0 & Ht0 & E0 & P0 & _).
    assert (t0 = t) by (apply (id_unique _ _ _ ND1); auto). subst t0.
    assert (t_id t < t_reg d'); [|lia]. apply RG; auto; [congruence|unfold passed; rewrite P0; reflexivity|congruence|].
    unfold tkey at 1. rewrite CK, Tk'. exact Sv.
  Qed.

  Lemma all_excl_lemma n (s s' : dstate V) d i : 2 <= n -> reachable n s -> In d (d_threads s) -> destroying_all d ->
    step n s (LApply i) s' -> i = t_id d.
  Proof.
    intros Hn R Hd (can & E & P) St. pose proof (reachable_inv n s Hn R) as [_ _ _ _ ND _ _ _ _ _ F EX].
    assert (Pd : passed d = true) by (unfold passed; destruct P as [-> | ->]; reflexivity).
    assert (Ad : is_all (t_call d) = true) by (rewrite E; reflexivity).
    specialize (EX d Hd Ad Pd). destruct (apply_inv n s s' i St) as (t & Ht & <- & Pt & _). f_equal.
    rewrite Forall_forall in EX. specialize (EX t Ht). destruct (is_all (t_call t)) eqn:At.
    - assert (A1 : active_all t = true) by (unfold active_all; rewrite At, Pt; reflexivity).
      assert (A2 : active_all d = true) by (unfold active_all; rewrite Ad; destruct P as [-> | ->]; reflexivity).
      assert (I1 : In t (filter active_all (d_threads s))) by (apply filter_In; auto).
      assert (I2 : In d (filter active_all (d_threads s))) by (apply filter_In; auto).
      destruct (filter active_all (d_threads s)) as [|a [|b q]]; [destruct I1| |destruct (d_flag s); discriminate].
      destruct I1 as [<-|[]], I2 as [<-|[]]. reflexivity.
    - specialize (EX eq_refl). unfold early in EX. rewrite Pt in EX. discriminate.
  Qed.
End L.
