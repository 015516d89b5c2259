From Coq Require Import Sorted Permutation ZifyBool ZifyNat.
From Verif Require Import Datatypes SpecValues DatatypesProofs BTree SpecBTree BTreeProofs BTreeFind SpecFind.
Local Open Scope nat_scope.

Section P.
  Context {V : Type}.
  Notation entry := (entry V).
  Notation node := (node V).
  Variable cls : EV -> verdict.

  Definition vb (e : entry) : bool :=
    match cls (fst e) with Skip | Break => false | _ => true end.

  (** Monotone decisions along increasing keys. *)
  Record mono : Prop := {
    mono_skip : forall a b, good a -> good b -> lmt a b = true -> cls b = Skip -> cls a = Skip;
    mono_only : forall a b, good a -> good b -> lmt a b = true -> cls b = VisitOnly -> cls a = Skip;
    mono_break : forall a b, good a -> good b -> lmt a b = true -> cls a = Break -> cls b = Break;
    mono_vbreak : forall a b, good a -> good b -> lmt a b = true -> cls a = VisitBreak -> cls b = Break }.

  Fixpoint vvals (vs : list entry) : list entry :=
    match vs with
    | [] => []
    | e :: r => match cls (fst e) with
                | Skip => vvals r | Break => []
                | VisitChild | VisitOnly => e :: vvals r
                | VisitBreak => [e] end
    end.
  Fixpoint vend (vs : list entry) : nat :=
    match vs with
    | [] => 0
    | e :: r => match cls (fst e) with Break | VisitBreak => 0 | _ => S (vend r) end
    end.
  Fixpoint vjs (i : nat) (vs : list entry) : list nat :=
    match vs with
    | [] => []
    | e :: r => match cls (fst e) with
                | Skip | VisitOnly => vjs (i + 1) r
                | Break | VisitBreak => []
                | VisitChild => i :: vjs (i + 1) r end
    end.
  Fixpoint sel {A} (vs : list entry) (kss : list A) {struct kss} : list A :=
    match kss with
    | [] => []
    | l :: kss' =>
        match vs with
        | [] => [l]
        | e :: r => match cls (fst e) with
                    | Skip | VisitOnly => sel r kss'
                    | Break | VisitBreak => [l]
                    | VisitChild => l :: sel r kss' end
        end
    end.

  Lemma filter_none (l : list entry) : (forall e, In e l -> vb e = false) -> filter vb l = [].
  Proof.
    induction l as [|x l IH]; intros H; [reflexivity|]. cbn. rewrite (H x) by (left; reflexivity).
    apply IH. intros e He. apply H. right. exact He.
  Qed.

  Lemma vis_perm (M : mono) vs : forall kss,
    length kss = S (length vs) -> goods (weave vs kss) -> sorted (weave vs kss) ->
    Permutation (filter vb (weave vs kss)) (vvals vs ++ concat (map (filter vb) (sel vs kss))).
  Proof.
    induction vs as [|e vs IH]; intros [|l kss] L G S; try discriminate.
    - destruct kss; [|discriminate]. cbn. rewrite !app_nil_r. reflexivity.
    - rewrite weave_cons in *. apply goods_app in G as [Gl G]. apply goods_cons in G as [Ge G].
      apply sorted_app in S as (Sl & S & Slt). apply sorted_cons in S as [S Sgt].
      rewrite filter_app. cbn [filter].
      assert (Hl : forall x, In x l -> lmt (fst x) (fst e) = true) by (intros x Hx; apply (Slt x e Hx); left; reflexivity).
      assert (Gx : forall x, In x l -> good (fst x)) by (intros x Hx; exact (goods_in _ _ Gl Hx)).
      assert (Gy : forall y, In y (weave vs kss) -> good (fst y)) by (intros y Hy; exact (goods_in _ _ G Hy)).
      specialize (IH kss ltac:(cbn [length] in L; lia) G S).
      cbn [vvals sel]. destruct (cls (fst e)) eqn:E.
      + rewrite filter_none. 2: { intros x Hx. unfold vb. rewrite (mono_skip M (fst x) (fst e)); auto. }
        unfold vb at 1. rewrite E. exact IH.
      + unfold vb at 2. rewrite E. rewrite (filter_none (weave vs kss)).
        2: { intros y Hy. unfold vb. rewrite (mono_break M (fst e) (fst y)); auto. apply (Sgt y Hy). }
        cbn. rewrite !app_nil_r. reflexivity.
      + unfold vb at 2. rewrite E. cbn [map concat app]. rewrite IH.
        rewrite <- Permutation_middle. apply perm_skip. apply Permutation_app_swap_app.
      + rewrite filter_none. 2: { intros x Hx. unfold vb. rewrite (mono_only M (fst x) (fst e)); auto. }
        unfold vb at 1. rewrite E. cbn [app]. apply perm_skip. exact IH.
      + unfold vb at 2. rewrite E. rewrite (filter_none (weave vs kss)).
        2: { intros y Hy. unfold vb. rewrite (mono_vbreak M (fst e) (fst y)); auto. apply (Sgt y Hy). }
        cbn [map concat app]. rewrite app_nil_r. rewrite <- Permutation_middle, app_nil_r. reflexivity.
  Qed.

  (** indices selected by the loop pick exactly [sel] *)
  Lemma sel_nth {A} vs : forall (pre kss : list A) i,
    length kss = S (length vs) -> length pre = i ->
    Forall2 (fun j l => nth_error (pre ++ kss) j = Some l) (vjs i vs ++ [i + vend vs]) (sel vs kss).
  Proof.
    induction vs as [|e vs IH]; intros pre [|l kss] i L LP; try discriminate.
    - cbn. constructor; [|constructor]. apply nth_error_app_len. lia.
    - cbn [length] in L. specialize (IH (pre ++ [l]) kss (i + 1) ltac:(lia) ltac:(rewrite app_length; cbn; lia)).
      rewrite <- app_assoc in IH. cbn [app] in IH.
      cbn [vjs vend sel]. destruct (cls (fst e)).
      + replace (i + S (vend vs)) with (i + 1 + vend vs) by lia. exact IH.
      + cbn. constructor; [|constructor]. apply nth_error_app_len. lia.
      + replace (i + S (vend vs)) with (i + 1 + vend vs) by lia. cbn [app]. constructor; [apply nth_error_app_len; exact LP|exact IH].
      + replace (i + S (vend vs)) with (i + 1 + vend vs) by lia. exact IH.
      + cbn. constructor; [|constructor]. apply nth_error_app_len. lia.
  Qed.

  Lemma offer_app {S} (cb : S -> EV -> V -> S * bool) l1 l2 s :
    offer cb s (l1 ++ l2) = let '(s', go) := offer cb s l1 in if go then offer cb s' l2 else (s', false).
  Proof.
    revert s. induction l1 as [|[k v] l1 IH]; intros s; cbn; [destruct (offer cb s l2); reflexivity|].
    destruct (cb s k v) as [s' go]. destruct go; [apply IH|reflexivity].
  Qed.

  Lemma scan_vals_spec {S} (cb : S -> EV -> V -> S * bool) p leaf vs : forall i s js,
    exists ev js2, scan_vals cb cls p leaf vs i s js =
      let '(s', go) := offer cb s (vvals vs) in
      (s', if go then EndedAt (i + vend vs) else Stopped,
       if go then js ++ (if leaf then [] else vjs i vs) else js2, ev).
  Proof.
    induction vs as [|[k v] vs IH]; intros i s js; cbn [scan_vals vvals vend vjs fst].
    - exists [], []. cbn. rewrite Nat.add_0_r. destruct leaf; rewrite app_nil_r; reflexivity.
    - destruct (cls k) eqn:E.
      + destruct (IH (i + 1) s js) as (ev & js2 & ->). exists ev, js2.
        replace (i + Datatypes.S (vend vs)) with (i + 1 + vend vs) by lia. reflexivity.
      + exists [], []. cbn. rewrite Nat.add_0_r. destruct leaf; rewrite app_nil_r; reflexivity.
      + cbn [offer]. destruct (cb s k v) as [s' go]. destruct go.
        * destruct (IH (i + 1) s' (if leaf then js else js ++ [i])) as (ev & js2 & ->).
          destruct (offer cb s' (vvals vs)) as [s2 go2]. destruct go2.
          -- replace (i + Datatypes.S (vend vs)) with (i + 1 + vend vs) by lia.
             destruct leaf; [eexists _, []; reflexivity|]. rewrite <- app_assoc. eexists _, []. reflexivity.
          -- eexists _, _. reflexivity.
        * eexists _, _. reflexivity.
      + cbn [offer]. destruct (cb s k v) as [s' go]. destruct go.
        * destruct (IH (i + 1) s' js) as (ev & js2 & ->). exists ev, js2.
          replace (i + Datatypes.S (vend vs)) with (i + 1 + vend vs) by lia. reflexivity.
        * eexists _, _. reflexivity.
      + cbn [offer]. destruct (cb s k v) as [s' go]. destruct go.
        * exists [], []. rewrite Nat.add_0_r. destruct leaf; rewrite app_nil_r; reflexivity.
        * eexists _, _. reflexivity.
  Qed.

  (** the children loop of [scan] as a function of its own *)
  Section Loop.
    Context {S : Type}.
    Variables (cb : S -> EV -> V -> S * bool) (w : bool) (ks : list node) (p : list nat) (total : nat).
    Fixpoint cloop (rest : list nat) (x : nat) (s : S) {struct rest} : option (S * bool * list lockop) :=
      match rest with
      | [] => Some (s, true, [])
      | j :: rest' =>
          match on_nth (fun c => scan cb w cls c (p ++ [j]) s) ks j with
          | Some (Some (s', true, ev1)) =>
              match cloop rest' (x + 1) s' with
              | Some (s2, go, ev2) => Some (s2, go, ev1 ++ ev2)
              | None => None
              end
          | Some (Some (s', false, ev1)) =>
              let tounlock := if w then seq (x + 1) (total - (x + 1)) else rest' in
              Some (s', false, ev1 ++ unlock_children p tounlock)
          | _ => None
          end
      end.
  End Loop.
  Definition is_leaf (ks : list node) : bool := match ks with [] => true | _ => false end.
  Lemma scan_eq {S} (cb : S -> EV -> V -> S * bool) w vs ks p s :
    scan cb w cls (Node vs ks) p s =
      let leaf := is_leaf ks in
      let '(s1, e, js, ev) := scan_vals cb cls p leaf vs 0 s [] in
      match e with
      | Stopped => Some (s1, false, ev ++ unlock_children p js ++ [RUn (LNode p)])
      | EndedAt i =>
          let js' := if leaf then js else js ++ [i] in
          let ev' := ev ++ (if leaf then [] else [RLk (LNode (p ++ [i]))]) ++ [RUn (LNode p)] in
          match cloop cb w ks p (length js') js' 0 s1 with
          | Some (s2, go, ev2) => Some (s2, go, ev' ++ ev2)
          | None => None
          end
      end.
  Proof. reflexivity. Qed.

  Lemma cloop_spec {S} (cb : S -> EV -> V -> S * bool) w ks p total :
    forall rest x s cs (ls : list (list entry)),
      Forall2 (fun j c => nth_error ks j = Some c) rest cs ->
      Forall2 (fun c l => forall (p : list nat) s, exists ev, scan cb w cls c p s =
                 Some (fst (offer cb s l), snd (offer cb s l), ev)) cs ls ->
      exists ev, cloop cb w ks p total rest x s =
        Some (fst (offer cb s (concat ls)), snd (offer cb s (concat ls)), ev).
  Proof.
    induction rest as [|j rest IH]; intros x s cs ls F1 F2.
    - inversion F1; subst. inversion F2; subst. cbn. eauto.
    - inversion F1 as [|? c ? cs' Hj F1']; subst. inversion F2 as [|? l ? ls' Hc F2']; subst.
      cbn [cloop concat]. rewrite on_nth_spec, Hj. cbn [option_map].
      destruct (Hc (p ++ [j]) s) as (ev & ->). rewrite offer_app.
      destruct (offer cb s l) as [s' go]. cbn [fst snd]. destruct go.
      + destruct (IH (x + 1) s' cs' ls' F1' F2') as (ev2 & ->). eauto.
      + cbn. eauto.
  Qed.

  Lemma scan_spec (M : mono) n h : forall t,
    balanced n h t -> goods (flat t) -> sorted (flat t) ->
    exists l, Permutation l (filter vb (flat t)) /\
      forall S (cb : S -> EV -> V -> S * bool) w p s, exists ev,
        scan cb w cls t p s = Some (fst (offer cb s l), snd (offer cb s l), ev).
  Proof.
    induction h as [|h IH]; intros t Hb G S0; destruct t as [vs ks].
    - apply (proj1 (balanced_0 _ _ _)) in Hb. subst ks. cbn [flat map] in *. rewrite weave_nil_r in *.
      exists (vvals vs). split.
      { clear - M G S0. induction vs as [|e vs IH]; [reflexivity|]. apply goods_cons in G as [Ge G].
        apply sorted_cons in S0 as [S Sgt]. specialize (IH S G).
        assert (Gy : forall y, In y vs -> good (fst y)) by (intros y Hy; exact (goods_in _ _ G Hy)).
        cbn [vvals filter]. unfold vb at 1. destruct (cls (fst e)) eqn:E; auto.
        - rewrite filter_none; [reflexivity|]. intros y Hy. unfold vb. rewrite (mono_break M (fst e) (fst y)); auto. apply (Sgt y Hy).
        - rewrite filter_none; [reflexivity|]. intros y Hy. unfold vb. rewrite (mono_vbreak M (fst e) (fst y)); auto. apply (Sgt y Hy). }
      intros S cb w p s. rewrite scan_eq. cbn [is_leaf].
      destruct (scan_vals_spec cb p true vs 0 s []) as (ev & js2 & ->).
      destruct (offer cb s (vvals vs)) as [s' go]. destruct go; cbn; eauto.
    - apply (proj1 (balanced_S _ _ _ _)) in Hb; cbn [vals_of kids_of] in Hb; destruct Hb as [LK FK].
      assert (FC : Forall (fun c => goods (flat c) /\ sorted (flat c)) ks).
      { cbn [flat] in G, S0. clear - G S0 LK. revert vs LK G S0. induction ks as [|c ks IHk]; intros vs LK G S; [constructor|].
        destruct vs as [|v vs].
        - destruct ks; [|discriminate]. cbn in G, S. rewrite app_nil_r in G, S. auto.
        - cbn [map] in G, S. rewrite weave_cons in G, S. apply goods_app in G as [G1 G2]. apply goods_cons in G2 as [_ G2].
          apply sorted_app in S as (S1 & S2 & _). apply sorted_cons in S2 as [S2 _].
          constructor; [auto|]. apply (IHk vs); auto. }
      assert (EX : exists ls : list (list entry), Forall2 (fun c l => Permutation l (filter vb (flat c)) /\
                 forall S (cb : S -> EV -> V -> S * bool) w p s, exists ev,
                   scan cb w cls c p s = Some (fst (offer cb s l), snd (offer cb s l), ev)) ks ls).
      { clear - IH FK FC. induction ks as [|c ks IHk]; [exists []; constructor|].
        apply Forall_cons_iff in FK as [[Bc _] FK]. apply Forall_cons_iff in FC as [[Gc Sc] FC].
        destruct (IHk FK FC) as (ls & H). destruct (IH c Bc Gc Sc) as (l & H1). exists (l :: ls). constructor; auto. }
      destruct EX as (ls & EX). clear IH FC.
      exists (vvals vs ++ concat (sel vs ls)). split.
      { cbn [flat] in *. symmetry. rewrite (vis_perm M) by (rewrite ?map_length; auto).
        apply Permutation_app_head. clear - EX. revert vs. induction EX as [|c l ks ls [H _] EX IHE]; intros vs; [reflexivity|].
        cbn [sel map concat]. destruct vs as [|e vs].
        - cbn. rewrite !app_nil_r. symmetry. exact H.
        - destruct (cls (fst e)); cbn; rewrite ?app_nil_r; try (symmetry; exact H); try apply IHE.
          apply Permutation_app; [symmetry; exact H|apply IHE]. }
      intros S cb w p s. rewrite scan_eq.
      assert (EL : is_leaf ks = false) by (destruct ks; [discriminate|reflexivity]). rewrite EL. cbv zeta.
      destruct (scan_vals_spec cb p false vs 0 s []) as (ev & js2 & ->). rewrite offer_app.
      destruct (offer cb s (vvals vs)) as [s' go]. destruct go; cbn [fst snd]; [|eauto].
      cbn [app]. rewrite Nat.add_0_l.
      destruct (cloop_spec cb w ks p (length (vjs 0 vs ++ [vend vs])) (vjs 0 vs ++ [vend vs]) 0 s' (sel vs ks) (sel vs ls)) as (ev2 & ->).
      + exact (sel_nth vs [] ks 0 LK eq_refl).
      + clear - EX. revert vs. induction EX as [|c l ks ls [_ H] EX IHE]; intros vs; [constructor|].
        assert (H' : forall p s, exists ev, scan cb w cls c p s = Some (fst (offer cb s l), snd (offer cb s l), ev)) by (intros; apply H).
        cbn [sel]. destruct vs as [|e vs]; [constructor; [exact H'|constructor]|].
        destruct (cls (fst e)); auto.
      + eauto.
  Qed.
End P.
