(** Every step of a tree with calls and lookups keeps the invariant. *)
From Coq Require Import Sorted Permutation ZifyBool ZifyNat.
From Verif Require Import Datatypes SpecValues DatatypesProofs BTree SpecBTree BTreeProofs BTreeFind SpecFind BTreeFindProofs
  BTreeSync SpecBTreeSync BTreeSyncSeq BTreeSyncInv BTreeSyncStep BTreeSyncStep3 BTreeSyncCount2 BTreeSyncSem BTreeSyncTop BTreeSyncTop2 BTreeSyncLin
  BTreeIter SpecBTreeIter BTreeIterEr BTreeIterTk BTreeIterVisit BTreeIterSees BTreeIterInv.
Local Open Scope nat_scope.

Section Step.
  Context {V : Type}.
  Variable n : nat.
  Variable ops : nat -> cop V.
  Variable lks : nat -> lookup * EV * TypeRestrictions.
  Hypothesis Hn : 2 <= n.
  Hypothesis Hg : good_calls ops.
  Hypothesis Hl : good_lookups lks.
  Notation entry := (entry V).
  Notation bops := (bops ops).
  Notation xinv := (xinv n ops lks).

  Lemma good_bops : good_calls bops.
  Proof using Hg. intros c. unfold BTreeIter.bops. destruct (Nat.odd c); [exact good_any|apply Hg]. Qed.

  Lemma step_top (s : state V) e s' : step n bops s e s' -> top s = TFree -> top s' = TFree \/ exists c, top s' = TWait c.
  Proof using. intros St T. destruct St; cbn [top] in *; try congruence; eauto; left; assumption. Qed.

  Lemma trs_even tr (s : state V) L M : ginv n bops tr (er_state s) L M -> (forall c, Nat.odd c = true -> ph s c = PNew) ->
    forall c, In c (trs s) -> Nat.odd c = false.
  Proof using.
    intros G Od c H. destruct (Nat.odd c) eqn:E; [|reflexivity]. pose proof (g_trs _ _ _ _ _ _ G c) as Q. cbn [er_state trs ph] in Q.
    rewrite (Od c E) in Q. cbn [is_waiting] in Q. apply (count_occ_In Nat.eq_dec) in H. rewrite Q in H. inversion H.
  Qed.

  (** What the events of a step say *)
  Lemma step_event (s : state V) e s' : step n bops s e s' ->
    match e with Some (ECall c) => ph s c = PNew | Some (EReturn c a) => ph s c = PDone a | None => True end.
  Proof using. intros St. destruct St; cbn; auto. Qed.

  Lemma base_step tr s G L M Lx e s' : xinv tr s G L M Lx -> step n bops (xs s) e s' ->
    (forall c, e = Some (ECall c) -> Nat.odd c = false) -> (forall j c, holds_tree (xi s j) = true -> top s' <> TWait c) ->
    exists L' M' Lx', xinv (match option_map EB e with Some x => tr ++ [x] | None => tr end) (mkX s' (xi s)) G L' M' Lx'.
  Proof using Hn Hg.
    intros X St Ev Tw. pose proof (x_g _ _ _ _ _ _ _ _ _ X) as Gi. pose proof (x_odd _ _ _ _ _ _ _ _ _ X) as Od.
    pose proof (trs_even _ _ _ _ Gi Od) as Te. pose proof (er_step n ops _ _ _ St Od Te) as Se.
    destruct (step_ginv n bops _ _ _ Hn good_bops Se _ _ _ Gi) as (L' & M' & G' & Ad).
    set (tr' := match option_map EB e with Some x => tr ++ [x] | None => tr end).
    assert (Eb : btr tr' = match e with Some x => btr tr ++ [x] | None => btr tr end).
    { unfold tr'. destruct e as [x|]; cbn [option_map]; [|reflexivity]. rewrite btr_app. reflexivity. }
    rewrite <- Eb in G'. pose proof (step_event _ _ _ St) as Se'.
    assert (Tk : tks n ops G (root s')).
    { eapply (step_tk n ops G (fun c o => In (c, o) L)); eauto using good_bops; [apply Gi|apply X]. }
    assert (Od' : forall c, Nat.odd c = true -> ph s' c = PNew).
    { intros c Oc. destruct (ph s' c) eqn:Ep; try reflexivity; exfalso;
        (assert (H : In (ECall c) (btr tr')) by (apply (g_call _ _ _ _ _ _ G'); cbn [er_state ph]; congruence));
        rewrite Eb in H; (assert (H' : In (ECall c) (btr tr) \/ e = Some (ECall c)) by
          (destruct e as [x|]; [apply in_app_iff in H as [H|[->|[]]]; auto|auto]));
        (destruct H' as [H'| ->]; [apply (g_call _ _ _ _ _ _ Gi) in H'; cbn [er_state ph] in H'; rewrite (Od c Oc) in H'; congruence|
          rewrite (Ev c eq_refl) in Oc; discriminate]). }
    assert (Tt : forall j, holds_tree (xi s j) = true -> top (xs s) = TFree -> top s' = TFree).
    { intros j Hj T. destruct (step_top _ _ _ St T) as [H|[c H]]; [exact H|]. destruct (Tw j c Hj H). }
    assert (Rt : rtx tr' Lx).
    { unfold tr'. destruct e as [x|]; cbn [option_map]; [|apply X]. apply rtx_event; [apply X|]. intros y C Hy.
      destruct x as [c|c a]; cbn [called] in C; [|discriminate]. destruct y as [d b|j m]; cbn [who] in C; [|discriminate]. injection C as ->.
      apply (call_item _ _ _ _ _ _ _ _ _ _ _ X) in Hy. pose proof (g_ph _ _ _ _ _ _ Gi d) as Q. cbn [er_state ph] in Q. rewrite Se' in Q.
      apply in_lin in Hy as (o & Ho & _). exact (Q o Ho). }
    assert (Bk : forall e1 i, In e1 tr' -> returned e1 = Some i -> exists x, In x Lx /\ who x = who i).
    { intros e1 i H R. assert (H' : In e1 tr \/ option_map EB e = Some e1).
      { unfold tr' in H. destruct e as [x|]; cbn [option_map] in *; [|auto]. apply in_app_iff in H as [H|[->|[]]]; auto. }
      destruct H' as [H'|H']; [exact (back_item _ _ _ _ _ _ _ _ _ _ _ X H' R)|].
      destruct e as [x|]; [|discriminate]. injection H' as <-. destruct x as [c|c a]; cbn [returned] in R; [discriminate|]. injection R as <-.
      exists (OCall c a). split; [|reflexivity]. apply (call_item _ _ _ _ _ _ _ _ _ _ _ X).
      pose proof (g_ph _ _ _ _ _ _ Gi c) as Q. cbn [er_state ph] in Q. rewrite Se' in Q. exact Q. }
    assert (Cl : forall j, In (ELCall j) tr' <-> xi s j <> INew).
    { intros j. rewrite <- (x_call _ _ _ _ _ _ _ _ _ X). unfold tr'. destruct e as [x|]; cbn [option_map]; [|reflexivity]. rewrite in_app_iff.
      split; [|auto]. intros [H|[H|[]]]; [exact H|discriminate]. }
    assert (Rl : forall j l, In (ELRet j l) tr' <-> exists b, xi s j = IRet b l).
    { intros j l. rewrite <- (x_ret _ _ _ _ _ _ _ _ _ X). unfold tr'. destruct e as [x|]; cbn [option_map]; [|reflexivity]. rewrite in_app_iff.
      split; [|auto]. intros [H|[H|[]]]; [exact H|discriminate]. }
    destruct Ad as [[-> ->]|(c & o & -> & Fr & Cs)].
    - exists L, M, Lx. constructor; cbn [xs xi]; auto; try apply X.
      intros j m H. destruct (x_look _ _ _ _ _ _ _ _ _ X j m H) as [Mk Li]. split; [exact Mk|]. eapply look_other; [exact Li| |auto].
      intros Hj T. split; [eapply Tt; eauto|reflexivity].
    - destruct (fin bops c o) as [a|] eqn:Fi.
      + exists (L ++ [(c, o)]), M', (Lx ++ [OCall c a]). constructor; cbn [xs xi]; auto.
        * rewrite lin_app, lin_one, Fi, base_app, (x_lin _ _ _ _ _ _ _ _ _ X). reflexivity.
        * eapply run0_call; [apply X|exact Cs].
        * intros j m H. apply in_app_iff in H as [H|[H|[]]]; [|discriminate]. destruct (x_look _ _ _ _ _ _ _ _ _ X j m H) as [Mk Li]. split; [exact Mk|].
          eapply look_other; [exact Li| |auto]. intros Hj T. split; [eapply Tt; eauto|apply Fr, T].
        * intros j H. destruct (x_in _ _ _ _ _ _ _ _ _ X j H) as [m Hm]. exists m. apply in_or_app. left. exact Hm.
        * intros j m H. apply in_app_iff in H as [H|[H|[]]]; [|discriminate]. apply (x_out _ _ _ _ _ _ _ _ _ X j m H).
        * rewrite map_app. cbn [map who]. apply NoDup_Add with (a := inl c) (l := map who Lx); [rewrite <- (app_nil_r (map who Lx)) at 1; apply Add_app|].
          split; [apply X|]. intros H. apply in_map_iff in H as ([d b|j m] & W & H); cbn [who] in W; [|discriminate]. injection W as ->.
          apply (call_item _ _ _ _ _ _ _ _ _ _ _ X) in H. pose proof (g_nodup _ _ _ _ _ _ G') as ND. rewrite lin_app, lin_one, Fi, map_app in ND.
          cbn [map fst] in ND. apply NoDup_remove_2 in ND. rewrite app_nil_r in ND. apply ND. apply in_map_iff. exists (c, b). auto.
        * apply rtx_item; assumption.
      + subst M'. exists (L ++ [(c, o)]), M, Lx. constructor; cbn [xs xi]; auto; try apply X.
        * rewrite lin_app, lin_one, Fi, app_nil_r. apply X.
        * intros j m H. destruct (x_look _ _ _ _ _ _ _ _ _ X j m H) as [Mk Li]. split; [exact Mk|]. eapply look_other; [exact Li| |auto].
          intros Hj T. split; [eapply Tt; eauto|reflexivity].
  Qed.

  Lemma call_lk tr s G L M Lx j : xinv tr s G L M Lx -> xi s j = INew -> xinv (tr ++ [ELCall j]) (mkX (xs s) (set_xi (xi s) j IWant)) G L M Lx.
  Proof using.
    intros X E. assert (No : forall m, ~ In (OLook j m) Lx).
    { intros m H. pose proof (x_out _ _ _ _ _ _ _ _ _ X j m H) as Q. rewrite E in Q. exact Q. }
    constructor; cbn [xs xi]; try apply X.
    - rewrite btr_app. cbn [btr flat_map app]. rewrite app_nil_r. apply X.
    - intros i m H. destruct (Nat.eq_dec i j) as [->|N]; [destruct (No m H)|]. rewrite set_xi_other by exact N. apply (x_look _ _ _ _ _ _ _ _ _ X i m H).
    - intros i H. apply (x_in _ _ _ _ _ _ _ _ _ X). destruct (Nat.eq_dec i j) as [->|N]; [rewrite set_xi_same in H; destruct H|].
      rewrite set_xi_other in H by exact N. exact H.
    - intros i m H. destruct (Nat.eq_dec i j) as [->|N]; [destruct (No m H)|]. rewrite set_xi_other by exact N. apply (x_out _ _ _ _ _ _ _ _ _ X i m H).
    - intros i. rewrite in_app_iff, (x_call _ _ _ _ _ _ _ _ _ X). destruct (Nat.eq_dec i j) as [->|N].
      + rewrite set_xi_same. split; [intros _; discriminate|]. intros _. right. left. reflexivity.
      + rewrite set_xi_other by exact N. split; [|auto]. intros [H|[H|[]]]; [exact H|congruence].
    - intros i l. rewrite in_app_iff, (x_ret _ _ _ _ _ _ _ _ _ X). destruct (Nat.eq_dec i j) as [->|N].
      + rewrite set_xi_same, E. split; [intros [[b H]|[H|[]]]; discriminate|intros [b H]; discriminate].
      + rewrite set_xi_other by exact N. split; [|auto]. intros [H|[H|[]]]; [exact H|discriminate].
    - apply rtx_event; [apply X|]. intros y C Hy. cbn [called] in C. destruct y as [d b|i m]; cbn [who] in C; [discriminate|]. injection C as <-. exact (No m Hy).
  Qed.

  Lemma return_lk tr s G L M Lx j b acc : xinv tr s G L M Lx -> xi s j = IDone b acc ->
    xinv (tr ++ [ELRet j acc]) (mkX (xs s) (set_xi (xi s) j (IRet b acc))) G L M Lx.
  Proof using.
    intros X E. constructor; cbn [xs xi]; try apply X.
    - rewrite btr_app. cbn [btr flat_map app]. rewrite app_nil_r. apply X.
    - intros i m H. destruct (x_look _ _ _ _ _ _ _ _ _ X i m H) as [Mk Q]. split; [exact Mk|].
      destruct (Nat.eq_dec i j) as [->|N]; [|rewrite set_xi_other by exact N; exact Q]. rewrite set_xi_same, E in *. exact Q.
    - intros i H. apply (x_in _ _ _ _ _ _ _ _ _ X). destruct (Nat.eq_dec i j) as [->|N]; [rewrite E; exact Logic.I|].
      rewrite set_xi_other in H by exact N. exact H.
    - intros i m H. pose proof (x_out _ _ _ _ _ _ _ _ _ X i m H). destruct (Nat.eq_dec i j) as [->|N]; [rewrite set_xi_same; exact Logic.I|].
      rewrite set_xi_other by exact N. assumption.
    - intros i. rewrite in_app_iff, (x_call _ _ _ _ _ _ _ _ _ X). destruct (Nat.eq_dec i j) as [->|N].
      + rewrite set_xi_same, E. split; [intros _; discriminate|]. intros _. left. discriminate.
      + rewrite set_xi_other by exact N. split; [|auto]. intros [H|[H|[]]]; [exact H|discriminate].
    - intros i l. rewrite in_app_iff, (x_ret _ _ _ _ _ _ _ _ _ X). destruct (Nat.eq_dec i j) as [->|N].
      + rewrite set_xi_same, E. split.
        * intros [[b' H]|[H|[]]]; [discriminate|]. injection H as ->. eauto.
        * intros [b' H]. injection H as _ ->. right. left. reflexivity.
      + rewrite set_xi_other by exact N. split; [|auto]. intros [H|[H|[]]]; [exact H|congruence].
    - apply rtx_event; [apply X|]. intros y C. discriminate.
  Qed.

  Lemma rlock_lk tr s G L M Lx j : xinv tr s G L M Lx -> xi s j = IWant -> top (xs s) = TFree ->
    xinv tr (mkX (xs s) (set_xi (xi s) j (IHold (descents (lks j)) []))) G L M (Lx ++ [OLook j M]).
  Proof using Hl.
    intros X E T. assert (No : forall m, ~ In (OLook j m) Lx).
    { intros m H. pose proof (x_out _ _ _ _ _ _ _ _ _ X j m H) as Q. rewrite E in Q. exact Q. }
    constructor; cbn [xs xi]; try apply X.
    - rewrite base_app. cbn [base flat_map]. rewrite app_nil_r. apply X.
    - apply run0_look, X.
    - intros i m H. apply in_app_iff in H as [H|[H|[]]].
      + destruct (Nat.eq_dec i j) as [->|N]; [destruct (No m H)|]. rewrite set_xi_other by exact N. apply (x_look _ _ _ _ _ _ _ _ _ X i m H).
      + injection H as <- <-. rewrite set_xi_same. split; [eapply ginv_map; [apply X|exact T]|]. cbn [look_ok].
        split; [exact T|]. split; [reflexivity|]. split; [|reflexivity]. apply descents_ok. pose proof (Hl j) as Q. destruct (lks j) as [[w key] r]. apply Q.
    - intros i H. destruct (Nat.eq_dec i j) as [->|N]; [exists M; apply in_or_app; right; left; reflexivity|].
      rewrite set_xi_other in H by exact N. destruct (x_in _ _ _ _ _ _ _ _ _ X i H) as [m Hm]. exists m. apply in_or_app. left. exact Hm.
    - intros i m H. destruct (Nat.eq_dec i j) as [->|N]; [rewrite set_xi_same; exact Logic.I|]. rewrite set_xi_other by exact N.
      apply in_app_iff in H as [H|[H|[]]]; [apply (x_out _ _ _ _ _ _ _ _ _ X i m H)|congruence].
    - rewrite map_app. cbn [map who]. apply NoDup_Add with (a := inr j) (l := map who Lx); [rewrite <- (app_nil_r (map who Lx)) at 1; apply Add_app|].
      split; [apply X|]. intros H. apply in_map_iff in H as ([d b|i m] & W & H); cbn [who] in W; [discriminate|]. injection W as ->. exact (No m H).
    - intros i. rewrite (x_call _ _ _ _ _ _ _ _ _ X). destruct (Nat.eq_dec i j) as [->|N]; [|rewrite set_xi_other by exact N; reflexivity].
      rewrite set_xi_same, E. split; discriminate.
    - intros i l. rewrite (x_ret _ _ _ _ _ _ _ _ _ X). destruct (Nat.eq_dec i j) as [->|N]; [|rewrite set_xi_other by exact N; reflexivity].
      rewrite set_xi_same, E. split; intros [b H]; discriminate.
    - apply rtx_item; [apply X|]. intros e i He R. eapply back_item; eauto.
  Qed.

  Lemma nil_lk tr s G L M Lx j rest acc : xinv tr s G L M Lx -> xi s j = IHold rest acc -> root (xs s) = None ->
    xinv tr (mkX (xs s) (set_xi (xi s) j (IDone false acc))) G L M Lx.
  Proof using.
    intros X E R. apply look_step'; auto; try rewrite E; try exact Logic.I; try discriminate.
    intros m _ _ (_ & -> & _ & Pm). cbn [look_ok]. pose proof (g_perm _ _ _ _ _ _ (x_g _ _ _ _ _ _ _ _ _ X)) as Q. cbn [er_state root] in Q. rewrite R in Q.
    cbn [option_map] in Q. apply Permutation_sym, Permutation_nil in Q. subst M. rewrite wants_nil, app_nil_r in Pm. exact Pm.
  Qed.
  Lemma leak_lk tr s G L M Lx j acc : xinv tr s G L M Lx -> xi s j = IHold [] acc ->
    xinv tr (mkX (xs s) (set_xi (xi s) j (IDone true acc))) G L M Lx.
  Proof using.
    intros X E. apply look_step'; auto; try rewrite E; try exact Logic.I; try discriminate.
    intros m _ _ (_ & -> & _ & Pm). cbn [look_ok]. unfold wants at 1 in Pm. cbn [map concat] in Pm. rewrite app_nil_r in Pm. exact Pm.
  Qed.
  Lemma next_lk tr s G L M Lx j d r rest acc : xinv tr s G L M Lx -> xi s j = IDown d (r :: rest) [] acc ->
    xinv tr (mkX (xs s) (set_xi (xi s) j (IHold (r :: rest) acc))) G L M Lx.
  Proof using.
    intros X E. apply look_step'; auto; try rewrite E; try exact Logic.I; try discriminate.
    intros m _ _ (H1 & H2 & H3 & H4 & H5). cbn [look_ok]. destruct H1 as [T ->]; [discriminate|]. cbn [map concat app] in H5. auto.
  Qed.
  Lemma end_lk tr s G L M Lx j d acc : xinv tr s G L M Lx -> xi s j = IDown d [] [] acc ->
    xinv tr (mkX (xs s) (set_xi (xi s) j (IDone false acc))) G L M Lx.
  Proof using.
    intros X E. apply look_step'; auto; try rewrite E; try exact Logic.I; try discriminate.
    intros m _ _ (H1 & H2 & H3 & H4 & H5). cbn [look_ok]. unfold wants at 1 in H5. cbn [map concat app] in H5. rewrite app_nil_r in H5. exact H5.
  Qed.

  Lemma root_lk tr s G L M Lx j d rest acc rs vs ks x : xinv tr s G L M Lx ->
    xi s j = IHold (d :: rest) acc -> root (xs s) = Some (ANode MFree rs vs ks) -> new_name s x ->
    xinv tr (mkX (with_root (xs s) (Some (ANode MFree (x :: rs) vs ks))) (set_xi (xi s) j (IDown d rest [x] acc)))
      (upd G x (P n bops (ANode MFree rs vs ks))) L M Lx.
  Proof using.
    intros X E R (Ox & Nt & Nh). set (t := ANode MFree rs vs ks) in *.
    pose proof (x_tk _ _ _ _ _ _ _ _ _ X) as T. rewrite R in T. cbn [tks] in T. specialize (Nt t R).
    apply look_step with (G := G); auto; try rewrite E; try exact Logic.I; try discriminate.
    - apply (er_same _ t); [exact R|]. cbn [er t filter]. unfold t. cbn [er filter]. unfold even_name at 1. rewrite Ox. reflexivity.
    - cbn [tks]. apply tk_inv in T as (_ & T2 & T3). constructor; [congruence| |].
      + intros y [<-|Hy] Oy; [rewrite upd_same; reflexivity|]. rewrite upd_other; [apply (T2 y Hy Oy)|]. intros ->. apply Nt. cbn [tokens t]. apply in_or_app. left. exact Hy.
      + intros u Hu. apply (tk_frame n ops G); [apply T3, Hu|]. intros y Hy. apply upd_other. intros ->. apply Nt. cbn [tokens t]. apply in_or_app. right.
        apply in_flat_map. eauto.
    - intros i y _ Hy. apply upd_other. intros ->. exact (Nh i Hy).
    - intros m _ _ (H1 & -> & H3 & H4). cbn [look_ok]. apply Forall_cons_iff in H3 as [Hd Hr]. split; [auto|]. split; [exact Hd|]. split; [exact Hr|].
      split; [intros y [<-|[]]; exact Ox|]. cbn [map concat]. rewrite app_nil_r, upd_same. rewrite <- H4. apply Permutation_app_head.
      unfold wants at 2. cbn [map concat]. apply Permutation_app_tail.
      pose proof (x_g _ _ _ _ _ _ _ _ _ X) as Gi. pose proof (g_tree _ _ _ _ _ _ Gi) as I. pose proof (g_perm _ _ _ _ _ _ Gi) as Pm.
      cbn [er_state root] in I, Pm. rewrite R in I, Pm. cbn [option_map] in I, Pm. destruct I as [h I]. fold (P n bops (er t)) in Pm. rewrite er_P in Pm.
      unfold t in I. cbn [er] in I. apply inv_plain in I.
      assert (EP : map (P n bops) (map er ks) = map (P n bops) ks) by (rewrite map_map; apply map_ext; intros; apply er_P). rewrite EP in I.
      assert (Pt : P n bops t = Node vs (map (P n bops) ks)) by (apply P_free). rewrite Pt in *.
      destruct I as (B & _ & _ & S & Go). eapply tgt_map; eauto.
  Qed.

  Lemma visit_lk tr s G L M Lx j d rest x held acc t vis t' ys : xinv tr s G L M Lx ->
    xi s j = IDown d rest (x :: held) acc -> root (xs s) = Some t -> vstep d x ys t vis t' -> NoDup ys -> Forall (new_name s) ys ->
    exists G', (forall z, ~ In z ys -> G' z = G z) /\ (forall y, In y ys -> In (G' y) (kids_of (G x))) /\ er t' = er t /\
      xinv tr (mkX (with_root (xs s) (Some t')) (set_xi (xi s) j (IDown d rest (ys ++ held) (acc ++ vis)))) G' L M Lx.
  Proof using.
    intros X E R Vs ND Nn. rewrite Forall_forall in Nn. pose proof (x_tk _ _ _ _ _ _ _ _ _ X) as T. rewrite R in T. cbn [tks] in T.
    pose proof (x_g _ _ _ _ _ _ _ _ _ X) as Gi. pose proof (g_tree _ _ _ _ _ _ Gi) as I. cbn [er_state root] in I. rewrite R in I. cbn [option_map] in I. destruct I as [h I].
    destruct (x_in _ _ _ _ _ _ _ _ _ X j) as [m0 Hm]; [rewrite E; exact Logic.I|].
    destruct (x_look _ _ _ _ _ _ _ _ _ X j m0 Hm) as [_ Q]. rewrite E in Q. destruct Q as (_ & Ok & _ & Od & _).
    destruct (vstep_ok n ops d x ys G (fun c o => In (c, o) L) t vis t' Vs Ok (Od x (or_introl eq_refl)) ND (fun y Hy => proj1 (Nn y Hy))
      (fun y Hy => proj1 (proj2 (Nn y Hy)) t R) true h I T) as (G' & F1 & F2 & F3 & F4 & F5 & F6).
    exists G'. split; [exact F1|]. split; [exact F6|]. split; [exact F3|]. apply look_step with (G := G); auto; try rewrite E; try exact Logic.I; try discriminate.
    - apply (er_same _ t); assumption.
    - intros i y _ Hy. apply F1. intros Z. exact (proj2 (proj2 (Nn y Z)) i Hy).
    - intros m _ _ (H1 & H2 & H3 & H4 & H5). cbn [look_ok]. split; [exact H1|]. split; [exact H2|]. split; [exact H3|]. split.
      + intros y Hy. apply in_app_iff in Hy as [Hy|Hy]; [apply (proj1 (Nn y Hy))|apply H4; right; exact Hy].
      + rewrite <- H5. cbn [map concat]. rewrite F5, map_app, concat_app.
        replace (map (fun y => tgt d (G' y)) held) with (map (fun y => tgt d (G y)) held).
        2: { apply map_ext_in. intros y Hy. rewrite F1; [reflexivity|]. intros Z. apply (proj2 (proj2 (Nn y Z)) j). rewrite E. right. exact Hy. }
        rewrite <- !app_assoc. reflexivity.
  Qed.

  Lemma xstep_inv tr s G L M Lx e s' : xinv tr s G L M Lx -> xstep n ops lks s e s' ->
    exists G' L' M' Lx', xinv (match e with Some x => tr ++ [x] | None => tr end) s' G' L' M' Lx'.
  Proof using Hn Hg Hl.
    intros X St. destruct St.
    - destruct (base_step _ _ _ _ _ _ _ _ X H H0 H1) as (L' & M' & Lx' & X'). eauto.
    - eauto 6 using call_lk.
    - eauto 6 using rlock_lk.
    - eauto 6 using nil_lk.
    - pose proof (root_lk _ _ _ _ _ _ _ _ _ _ _ _ _ _ X H H0 H1). eauto 6.
    - eauto 6 using leak_lk.
    - destruct (visit_lk _ _ _ _ _ _ _ _ _ _ _ _ _ _ _ _ X H H0 H1 H2 H3) as (G' & _ & _ & _ & X'). eauto 6.
    - eauto 6 using next_lk.
    - eauto 6 using end_lk.
    - eauto 6 using return_lk.
  Qed.

  Lemma xexec_inv tr s : xexec n ops lks tr s -> exists G L M Lx, xinv tr s G L M Lx.
  Proof using Hn Hg Hl.
    induction 1 as [|tr s e s' X (G & L & M & Lx & IH) St].
    - destruct (exec_ginv n bops [] start Hn good_bops (X_start n bops)) as (L & M & Gi).
      assert (L = []).
      { destruct L as [|[c o] L]; [reflexivity|]. pose proof (g_ph _ _ _ _ _ _ Gi c) as Q. cbn in Q. destruct (Q o (or_introl eq_refl)). }
      subst L. assert (M = []) by (pose proof (g_map _ _ _ _ _ _ Gi) as Q; cbn in Q; inversion Q; reflexivity). subst M.
      exists (fun _ => Node [] []), [], [], []. constructor; cbn.
      + exact Gi.
      + exact Logic.I.
      + reflexivity.
      + reflexivity.
      + constructor.
      + intros j m [].
      + intros j [].
      + intros j m [].
      + constructor.
      + intros j. split; [intros []|congruence].
      + intros j l. split; [intros []|intros [b H]; discriminate].
      + intros tr1 tr2 e e' i y E. destruct tr1; discriminate.
    - eapply xstep_inv; eauto.
  Qed.

  (** The order that explains the run: unfinished lookups are left out *)
  Definition shown (s : xstate V) (i : item V) : list (item V) :=
    match i with
    | OCall c a => [OCall c a]
    | OLook j _ => match xi s j with IRet _ l => [OLook j l] | _ => [] end
    end.
  Lemma shown_who s i x : In x (shown s i) -> who x = who i.
  Proof using. destruct i as [c a|j m]; cbn [shown]; [intros [<-|[]]; reflexivity|]. destruct (xi s j); intros H; try (destruct H; fail). destruct H as [<-|[]]. reflexivity. Qed.
  Lemma shown_serve s G M tp l m m' : run0 bops m l m' ->
    (forall c a, In (OCall c a) l -> Nat.odd c = false) ->
    (forall j k, In (OLook j k) l -> mok k /\ look_ok G M tp k (descents (lks j)) (xi s j)) ->
    serve ops lks m (flat_map (shown s) l) m'.
  Proof using Hl.
    induction 1 as [m|m m' m'' c a l St R IH|m m'' j l R IH]; intros Ev Lk; cbn [flat_map shown app].
    - constructor.
    - econstructor.
      + unfold BTreeIter.bops in St. rewrite (Ev c a (or_introl eq_refl)) in St. exact St.
      + apply IH; intros; [eapply Ev|apply Lk]; right; eassumption.
    - assert (IH' : serve ops lks m (flat_map (shown s) l) m'') by (apply IH; intros; [eapply Ev|apply Lk]; right; eassumption).
      destruct (Lk j m (or_introl eq_refl)) as [(c & Gc & Sc & Pm) Q]. destruct (xi s j) as [| |rest acc|d rest held acc|b acc|b acc]; try exact IH'.
      cbn [app]. constructor; [|exact IH']. apply (sees_wants _ m c acc Gc Sc Pm); [|exact Q]. apply Hl.
  Qed.
  Lemma shown_nodup s l : NoDup (map who l) -> NoDup (map who (flat_map (shown s) l)).
  Proof using.
    induction l as [|i l IH]; intros H; [constructor|]. cbn [map] in H. apply NoDup_cons_iff in H as [H1 H2]. cbn [flat_map]. rewrite map_app.
    assert (N : ~ In (who i) (map who (flat_map (shown s) l))).
    { intros Z. apply H1. apply in_map_iff in Z as (x & W & Z). apply in_flat_map in Z as (y & Hy & Z). apply shown_who in Z. apply in_map_iff. exists y. split; [congruence|exact Hy]. }
    specialize (IH H2). destruct i as [c a|j m]; cbn [shown]; [constructor; assumption|]. destruct (xi s j); try exact IH. cbn [map app]. constructor; assumption.
  Qed.
  Lemma before_flat {A B} (f : A -> list B) x y x' y' l : before x y l -> In x' (f x) -> In y' (f y) -> before x' y' (flat_map f l).
  Proof using.
    intros (l1 & l2 & l3 & ->) Hx Hy. apply in_split in Hx as (a1 & a2 & Ex). apply in_split in Hy as (b1 & b2 & Ey).
    exists (flat_map f l1 ++ a1), (a2 ++ flat_map f l2 ++ b1), (b2 ++ flat_map f l3).
    rewrite flat_map_app. cbn [flat_map]. rewrite flat_map_app. cbn [flat_map]. rewrite Ex, Ey.
    repeat (rewrite <- app_assoc || rewrite <- app_comm_cons). reflexivity.
  Qed.

  Theorem lookups_linearizable tr s : xexec n ops lks tr s ->
    exists order final, xexplains ops lks tr order final /\
      (calls_back tr -> well_shaped n (tree_of (xs s)) /\ Permutation (contents (tree_of (xs s))) final).
  Proof using Hn Hg Hl.
    intros X. destruct (xexec_inv _ _ X) as (G & L & M & Lx & Xi). pose proof (x_g _ _ _ _ _ _ _ _ _ Xi) as Gi.
    assert (Sh : forall e i, In e tr -> returned e = Some i -> forall x, In x Lx -> who x = who i -> In i (shown s x)).
    { intros e i H R x Hx W. destruct e as [[c|c a]|j|j l]; try discriminate; cbn [returned] in R; injection R as <-; cbn [who] in W.
      - destruct x as [d b|j m]; cbn [who] in W; [|discriminate]. injection W as ->.
        assert (Ha : In (c, a) (lin bops L)).
        { apply in_btr, (g_ret _ _ _ _ _ _ Gi) in H. pose proof (g_ph _ _ _ _ _ _ Gi c) as Q. cbn [er_state ph] in *. rewrite H in Q. exact Q. }
        apply (call_item _ _ _ _ _ _ _ _ _ _ _ Xi) in Hx. assert (E : (c, b) = (c, a)); [|injection E as ->; left; reflexivity].
        pose proof (g_nodup _ _ _ _ _ _ Gi) as ND. revert ND Hx Ha. generalize (lin bops L) as l. induction l as [|z l IH]; intros ND Hx Ha; [destruct Hx|].
        cbn [map] in ND. apply NoDup_cons_iff in ND as [N ND].
        destruct Hx as [->|Hx], Ha as [Ha|Ha]; auto.
        + exfalso. apply N. apply in_map_iff. exists (c, a). auto.
        + exfalso. apply N. apply in_map_iff. exists (c, b). subst z. auto.
      - destruct x as [d b|i m]; cbn [who] in W; [discriminate|]. injection W as ->. apply (x_ret _ _ _ _ _ _ _ _ _ Xi) in H as [b H]. cbn [shown]. rewrite H. left. reflexivity. }
    exists (flat_map (shown s) Lx), M. split; [split; [|split; [|split; [|split]]]|].
    - apply shown_nodup, Xi.
    - intros i Hi. apply in_flat_map in Hi as (x & Hx & Hi). rewrite (shown_who _ _ _ Hi). clear i Hi. destruct x as [c a|j m]; cbn [who].
      + apply (call_item _ _ _ _ _ _ _ _ _ _ _ Xi) in Hx. exists (EB (ECall c)). split; [|reflexivity]. apply in_btr, (g_call _ _ _ _ _ _ Gi). cbn [er_state ph]. intros E.
        pose proof (g_ph _ _ _ _ _ _ Gi c) as Q. cbn [er_state ph] in Q. rewrite E in Q. apply in_lin in Hx as (o & Ho & _). exact (Q o Ho).
      + exists (ELCall j). split; [|reflexivity]. apply (x_call _ _ _ _ _ _ _ _ _ Xi). intros E. pose proof (x_out _ _ _ _ _ _ _ _ _ Xi j m Hx) as Q. rewrite E in Q. exact Q.
    - intros e i He R. destruct (back_item _ _ _ _ _ _ _ _ _ _ _ Xi He R) as (x & Hx & W). apply in_flat_map. exists x. split; [exact Hx|]. eapply Sh; eauto.
    - intros tr1 tr2 e e' i i' E He R C Hi'. apply in_flat_map in Hi' as (y & Hy & Hi'). pose proof (shown_who _ _ _ Hi') as Wy.
      destruct (x_rt _ _ _ _ _ _ _ _ _ Xi tr1 tr2 e e' i y E He R) as (x & Wx & B); [congruence|exact Hy|].
      assert (Hx : In x Lx) by (destruct B as (a1 & a2 & a3 & ->); apply in_or_app; right; left; reflexivity).
      eapply before_flat; [exact B| |exact Hi']. eapply (Sh e i); eauto. rewrite E. apply in_or_app. left. exact He.
    - eapply shown_serve; [apply Xi| |apply (x_look _ _ _ _ _ _ _ _ _ Xi)]. intros c a H. apply (call_item _ _ _ _ _ _ _ _ _ _ _ Xi) in H.
      destruct (Nat.odd c) eqn:E; [|reflexivity]. exfalso. pose proof (g_ph _ _ _ _ _ _ Gi c) as Q. cbn [er_state ph] in Q. rewrite (x_odd _ _ _ _ _ _ _ _ _ Xi c E) in Q.
      apply in_lin in H as (o & Ho & _). exact (Q o Ho).
    - intros A. assert (A' : all_returned (btr tr)) by (intros c Hc; apply in_btr, A in Hc as [a Ha]; exists a; apply in_btr, Ha).
      destruct (ginv_done n bops _ _ _ _ Gi A') as [W Pm].
      assert (Et : tree_of (er_state (xs s)) = tree_of (xs s)).
      { unfold tree_of. cbn [er_state root]. destruct (root (xs s)) as [t|]; [|reflexivity]. cbn [option_map]. f_equal.
        clear. induction t as [m rs vs ks IH] using atree_all. cbn [er erase]. f_equal. rewrite map_map. apply map_ext_in. intros x Hx. rewrite Forall_forall in IH. apply IH, Hx. }
      rewrite Et in *. auto.
  Qed.
End Step.
