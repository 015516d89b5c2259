(** A tree with lookups inside, without the lookups: every step of the other calls is a step there too. *)
From Coq Require Import Permutation ZifyBool ZifyNat.
From Verif Require Import Datatypes SpecValues DatatypesProofs BTree SpecBTree BTreeProofs BTreeFind SpecFind
  BTreeSync BTreeSyncSeq BTreeSyncInv BTreeSyncCount2 BTreeIter.
Local Open Scope nat_scope.

Definition even_name (x : nat) : bool := negb (Nat.odd x).

Section Er.
  Context {V : Type}.
  Variable n : nat.
  Variable ops : nat -> cop V.
  Notation atree := (atree V).
  Notation bops := (bops ops).

  Fixpoint er (t : atree) : atree := match t with ANode m rs vs ks => ANode m (filter even_name rs) vs (map er ks) end.

  Lemma er_fl t : fl n bops (er t) = fl n bops t.
  Proof.
    induction t as [m rs vs ks IH] using atree_all. cbn [er]. rewrite !fl_eq. f_equal. rewrite map_map.
    apply map_ext_in. intros x Hx. rewrite Forall_forall in IH. apply IH, Hx.
  Qed.
  Lemma er_P t : P n bops (er t) = P n bops t.
  Proof. unfold P. rewrite er_fl. reflexivity. Qed.
  Lemma er_avals t : avals (er t) = avals t.
  Proof. destruct t; reflexivity. Qed.
  Lemma er_afree t : afree t = true -> afree (er t) = true.
  Proof. intros H. apply afree_inv in H as (vs & ks & ->). reflexivity. Qed.
  Lemma er_afrees l : forallb afree l = true -> forallb afree (map er l) = true.
  Proof.
    intros H. rewrite forallb_forall in *. intros x Hx. apply in_map_iff in Hx as (y & <- & Hy). apply er_afree, H, Hy.
  Qed.
  Lemma er_settled c t : settled n bops c (er t) = settled n bops c t.
  Proof.
    induction t as [m rs vs ks IH] using atree_all. cbn [er settled]. destruct m; try reflexivity.
    f_equal. rewrite !on_nth_spec, nth_error_map'. destruct (nth_error ks i) as [x|] eqn:E; [|reflexivity]. cbn [option_map].
    rewrite Forall_forall in IH. apply IH. eapply nth_error_In; eauto.
  Qed.
  Lemma er_holds c t : Nat.odd c = false -> holds c (er t) = holds c t.
  Proof.
    intros Oc. induction t as [m rs vs ks IH] using atree_all. cbn [er holds]. f_equal; [f_equal|].
    - induction rs as [|x rs IHr]; [reflexivity|]. cbn [filter]. destruct (even_name x) eqn:E; cbn [existsb]; rewrite IHr; [reflexivity|].
      unfold even_name in E. destruct (Nat.eqb_spec c x) as [->|]; [rewrite Oc in E; discriminate|reflexivity].
    - induction ks as [|k ks IHk]; [reflexivity|]. apply Forall_cons_iff in IH as [Hk IH]. cbn [map existsb]. rewrite Hk, (IHk IH). reflexivity.
  Qed.

  Lemma er_split vs ks p L R : asplit n vs ks = Some (p, L, R) -> asplit n vs (map er ks) = Some (p, er L, er R).
  Proof.
    unfold asplit. destruct (nth_error vs _); [|discriminate]. intros H. injection H as <- <- <-. cbn [er filter].
    rewrite firstn_map, skipn_map. reflexivity.
  Qed.
  Lemma er_rotateLeft vs ks i vs' ks' : arotateLeft vs ks i = Some (vs', ks') -> arotateLeft vs (map er ks) i = Some (vs', map er ks').
  Proof.
    unfold arotateLeft, guard. rewrite !nth_error_map'.
    destruct (nth_error ks i) as [[m1 r1 cv ck]|]; [|discriminate].
    destruct (nth_error ks (S i)) as [[m2 r2 [|r0 rv] rk]|]; try discriminate.
    destruct (nth_error vs i) as [v|]; [|discriminate]. cbn [option_map er].
    destruct (forallb _ rk) eqn:F; [|discriminate]. rewrite (er_afrees rk F). intros H. injection H as <- <-.
    rewrite !map_set_nth. cbn [er filter]. f_equal. f_equal. f_equal.
    - destruct rk; reflexivity.
    - f_equal. f_equal. destruct rk as [|rk0 rk]; [reflexivity|]. destruct ck as [|ck0 ck]; [reflexivity|]. rewrite map_app. reflexivity.
  Qed.
  Lemma er_rotateRight vs ks i vs' ks' : arotateRight vs ks i = Some (vs', ks') -> arotateRight vs (map er ks) i = Some (vs', map er ks').
  Proof.
    unfold arotateRight, guard. destruct i as [|j]; [discriminate|]. rewrite !nth_error_map'.
    destruct (nth_error ks (S j)) as [[m1 r1 cv ck]|]; [|discriminate].
    destruct (nth_error ks j) as [[m2 r2 lv lk]|]; try discriminate.
    destruct (nth_error vs j) as [v|]; [|discriminate]. cbn [option_map er].
    destruct (rev lv) as [|g gs]; [discriminate|]. rewrite <- map_rev.
    destruct (rev lk) as [|gk gks]; cbn [map]; [|destruct (afree gk) eqn:F; [|discriminate]; rewrite (er_afree gk F)];
      intros H; injection H as <- <-; rewrite !map_set_nth; cbn [er filter map]; rewrite map_removelast; reflexivity.
  Qed.
  Lemma er_mergeDown vs ks i vs' ks' : amergeDown vs ks i = Some (vs', ks') -> amergeDown vs (map er ks) i = Some (vs', map er ks').
  Proof.
    unfold amergeDown, guard. set (j := match i with O => O | S j => j end). rewrite !nth_error_map'.
    destruct (nth_error ks j) as [[m1 r1 cv ck]|]; [|discriminate].
    destruct (nth_error ks (S j)) as [[m2 r2 rv rk]|]; try discriminate.
    destruct (nth_error vs j) as [v|]; [|discriminate]. cbn [option_map er].
    destruct (forallb _ rk && _) eqn:F; [|discriminate]. apply andb_prop in F as [F1 F2].
    rewrite (er_afrees rk F1), skipn_map, (er_afrees _ F2). cbn [andb]. intros H. injection H as <- <-.
    rewrite map_del_nth, map_set_nth. cbn [er filter]. rewrite map_app. reflexivity.
  Qed.
  Lemma er_rebalance vs ks i vs' ks' u : arebalance n vs ks i = Some (vs', ks', u) -> arebalance n vs (map er ks) i = Some (vs', map er ks', u).
  Proof.
    unfold arebalance. rewrite !nth_error_map', map_length.
    assert (G : forall (t : atree) x, guard (afree t) (Some (Nat.ltb (minValues n) (length (avals t)))) = Some x ->
                  guard (afree (er t)) (Some (Nat.ltb (minValues n) (length (avals (er t))))) = Some x).
    { intros t x E. unfold guard in *. destruct (afree t) eqn:F; [|discriminate]. rewrite (er_afree t F), er_avals. exact E. }
    assert (ML : match amergeDown vs ks i with Some (vs', ks') => Some (vs', ks', Nat.ltb (length vs') (minValues n)) | None => None end = Some (vs', ks', u) ->
      match amergeDown vs (map er ks) i with Some (vs', ks') => Some (vs', ks', Nat.ltb (length vs') (minValues n)) | None => None end = Some (vs', map er ks', u)).
    { intros E. destruct (amergeDown vs ks i) as [[a b]|] eqn:M; [|discriminate]. injection E as <- <- <-. rewrite (er_mergeDown _ _ _ _ _ M). reflexivity. }
    assert (RL : match arotateLeft vs ks i with Some (vs', ks') => Some (vs', ks', false) | None => None end = Some (vs', ks', u) ->
      match arotateLeft vs (map er ks) i with Some (vs', ks') => Some (vs', ks', false) | None => None end = Some (vs', map er ks', u)).
    { intros E. destruct (arotateLeft vs ks i) as [[a b]|] eqn:M; [|discriminate]. injection E as <- <- <-. rewrite (er_rotateLeft _ _ _ _ _ M). reflexivity. }
    assert (RR : match arotateRight vs ks i with Some (vs', ks') => Some (vs', ks', false) | None => None end = Some (vs', ks', u) ->
      match arotateRight vs (map er ks) i with Some (vs', ks') => Some (vs', ks', false) | None => None end = Some (vs', map er ks', u)).
    { intros E. destruct (arotateRight vs ks i) as [[a b]|] eqn:M; [|discriminate]. injection E as <- <- <-. rewrite (er_rotateRight _ _ _ _ _ M). reflexivity. }
    destruct (Nat.eqb i 0).
    - destruct (nth_error ks 1) as [s|]; [|discriminate]. cbn [option_map].
      destruct (guard (afree s) _) as [x|] eqn:Gs; [|discriminate]. rewrite (G _ _ Gs). destruct x; assumption.
    - destruct (Nat.eqb i (length ks - 1)).
      + destruct (nth_error ks (i - 1)) as [s|]; [|discriminate]. cbn [option_map].
        destruct (guard (afree s) _) as [x|] eqn:Gs; [|discriminate]. rewrite (G _ _ Gs). destruct x; assumption.
      + destruct (nth_error ks (i + 1)) as [s|]; [|discriminate]. cbn [option_map].
        destruct (guard (afree s) _) as [x|] eqn:Gs; [|discriminate]. rewrite (G _ _ Gs).
        destruct (nth_error ks (i - 1)) as [s2|]; [|destruct x; discriminate]. cbn [option_map].
        destruct (guard (afree s2) _) as [x2|] eqn:Gs2; [|destruct x; discriminate]. rewrite (G _ _ Gs2).
        destruct x; [exact RL|]. destruct x2; assumption.
  Qed.
  Lemma er_take c sk t : forall t' e, atake n c sk t = Some (t', e) -> atake n c sk (er t) = Some (er t', e).
  Proof.
    induction t as [m rs vs ks IH] using atree_all. intros t' e H. destruct vs as [|e0 vs]; [discriminate|].
    cbn [atake] in H. unfold guard in H at 1. destruct (afree (ANode m rs (e0 :: vs) ks)) eqn:F; [|discriminate].
    pose proof (er_afree _ F) as F'. cbn [er] in F'. cbn [er atake]. unfold guard at 1. rewrite F'. destruct ks as [|k0 ks]; cbn [map].
    - destruct (nth_error _ _) as [x|]; [|discriminate]. injection H as <- <-. cbn [er filter map]. reflexivity.
    - change (er k0 :: map er ks) with (map er (k0 :: ks)). rewrite map_length.
      set (ci := if negb (less (fst e0) sk) then 0 else length (k0 :: ks) - 1) in *.
      rewrite on_nth_spec in *. rewrite nth_error_map'. destruct (nth_error (k0 :: ks) ci) as [k|] eqn:E; [|discriminate]. cbn [option_map] in *.
      destruct (atake n c sk k) as [[t2 e2]|] eqn:T; [|discriminate]. injection H as <- <-.
      rewrite Forall_forall in IH. rewrite (IH k (nth_error_In _ _ E) _ _ T). cbn [er filter]. rewrite map_set_nth. reflexivity.
  Qed.

  Lemma even_filter r1 c r2 : Nat.odd c = false -> filter even_name (r1 ++ c :: r2) = filter even_name r1 ++ c :: filter even_name r2.
  Proof. intros H. rewrite filter_app. cbn [filter]. unfold even_name at 2. rewrite H. reflexivity. Qed.
  Lemma rkey_even c k : rkey bops c = Some k -> Nat.odd c = false.
  Proof. unfold rkey, BTreeIter.bops. destruct (Nat.odd c); [discriminate|reflexivity]. Qed.

  Lemma er_lstep t o t' : lstep n bops t o t' -> lstep n bops (er t) o (er t').
  Proof.
    induction 1; cbn [er filter map] in *; rewrite ?map_app; cbn [map er filter] in *.
    - eapply L_exists; eauto.
    - eapply L_insert; eauto.
    - rewrite <- (map_length er l1). eapply L_down; eauto. rewrite map_length. assumption.
    - subst ks. rewrite <- !skipn_map, <- !firstn_map, map_app. cbn [map er filter].
      eapply L_split; eauto using er_split; [rewrite map_length; assumption|].
      apply er_afrees in H1. rewrite <- skipn_map, map_app in H1. exact H1.
    - eapply L_absent; eauto.
    - eapply L_veto; eauto.
    - eapply L_remove; eauto.
    - subst i ch. rewrite map_set_nth.
      pose proof (L_swap n bops c vs (map er ks) k can k0 v0 (er l) (er r) (er child) (er t') e) as Sw. cbv zeta in Sw. rewrite !er_avals in Sw.
      apply Sw; auto using er_afree, er_take.
      + rewrite nth_error_map', H2. reflexivity.
      + rewrite nth_error_map', H3. reflexivity.
      + rewrite nth_error_map', H6. reflexivity.
    - eapply L_rebalance; eauto using er_rebalance. rewrite nth_error_map', H. reflexivity.
    - eapply (L_release n bops c i b vs _ (er ch)).
      + rewrite nth_error_map', H. reflexivity.
      + rewrite er_settled. assumption.
    - rewrite even_filter by (eapply rkey_even; eauto). rewrite filter_app. eapply L_hit; [eassumption|]. destruct ks; exact H0.
    - rewrite even_filter by (eapply rkey_even; eauto). rewrite filter_app. eapply L_miss; eauto.
    - rewrite even_filter by (eapply rkey_even; eauto). rewrite filter_app. replace (even_name c) with true by (unfold even_name; rewrite (rkey_even _ _ H); reflexivity).
      eapply L_rdown; eauto. rewrite map_length. assumption.
    - apply L_kid. assumption.
  Qed.
End Er.
