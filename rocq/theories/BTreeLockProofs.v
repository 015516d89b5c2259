(** Lock traces of lookups. *)
From Coq Require Import Sorted Permutation ZifyBool ZifyNat.
From Verif Require Import Datatypes SpecValues DatatypesProofs BTree SpecBTree BTreeProofs BTreeFind SpecFind BTreeFindProofs.
Local Open Scope nat_scope.

Lemma node_ind2 {V} (P : node V -> Prop) :
  (forall vs ks, Forall P ks -> P (Node vs ks)) -> forall t, P t.
Proof.
  intros H. fix IH 1. intros [vs ks]. apply H. induction ks as [|c ks IHk]; constructor; [apply IH|exact IHk].
Qed.

Lemma release_perm l h h' : release l h = Some h' -> Permutation h (l :: h').
Proof.
  revert h'. induction h as [|x h IH]; intros h' E; [discriminate|]. cbn in E.
  destruct (lockid_eq_dec l x) as [->|N]; [injection E as <-; reflexivity|].
  destruct (release l h) as [r|]; [|discriminate]. injection E as <-. rewrite (IH r eq_refl). apply perm_swap.
Qed.
Lemma release_in l h : In l h -> exists h', release l h = Some h'.
Proof.
  induction h as [|x h IH]; [intros []|]. intros H. cbn. destruct (lockid_eq_dec l x) as [->|N]; [eauto|].
  destruct H as [->|H]; [congruence|]. destruct (IH H) as (h' & ->). eauto.
Qed.
Lemma replay_perm ev : forall h1 h2 r1,
  Permutation h1 h2 -> replay h1 ev = Some r1 -> exists r2, replay h2 ev = Some r2 /\ Permutation r1 r2.
Proof.
  induction ev as [|[l|l] ev IH]; intros h1 h2 r1 P E; cbn in *.
  - injection E as <-. eauto.
  - apply (IH (l :: h1)); auto.
  - destruct (release l h1) as [h1'|] eqn:E1; [|discriminate].
    destruct (release_in l h2) as (h2' & E2).
    { eapply Permutation_in; [exact P|]. eapply Permutation_in; [symmetry; apply (release_perm _ _ _ E1)|left; reflexivity]. }
    rewrite E2. apply (IH h1'); auto. apply release_perm in E1. apply release_perm in E2.
    apply (Permutation_cons_inv (a := l)). rewrite <- E1, <- E2. exact P.
Qed.
Lemma replay_app ev1 ev2 h : replay h (ev1 ++ ev2) = match replay h ev1 with Some h' => replay h' ev2 | None => None end.
Proof.
  revert h. induction ev1 as [|[l|l] ev1 IH]; intros h; cbn; auto. destruct (release l h); auto.
Qed.

(** [ev] turns held locks [A] into [B], whatever else is held *)
Definition turns (ev : list lockop) (A B : list lockid) : Prop :=
  forall H, exists H', replay (A ++ H) ev = Some H' /\ Permutation H' (B ++ H).

Lemma turns_nil A : turns [] A A.
Proof. intros H. eexists. split; [reflexivity|reflexivity]. Qed.
Lemma turns_app ev1 ev2 A B C : turns ev1 A B -> turns ev2 B C -> turns (ev1 ++ ev2) A C.
Proof.
  intros T1 T2 H. destruct (T1 H) as (H1 & E1 & P1). destruct (T2 H) as (H2 & E2 & P2).
  rewrite replay_app, E1. symmetry in P1. destruct (replay_perm ev2 _ _ _ P1 E2) as (H3 & E3 & P3).
  exists H3. split; [exact E3|]. rewrite <- P3. exact P2.
Qed.
Lemma turns_frame ev A B F : turns ev A B -> turns ev (A ++ F) (B ++ F).
Proof. intros T H. destruct (T (F ++ H)) as (H' & E & P). exists H'. rewrite <- !app_assoc. auto. Qed.
Lemma turns_perm ev A A' B B' : Permutation A A' -> Permutation B B' -> turns ev A B -> turns ev A' B'.
Proof.
  intros PA PB T H. destruct (T H) as (H1 & E1 & P1).
  destruct (replay_perm ev (A ++ H) (A' ++ H) H1) as (H2 & E2 & P2); [rewrite PA; reflexivity|exact E1|].
  exists H2. split; [exact E2|]. rewrite <- P2, P1, PB. reflexivity.
Qed.
Lemma turns_lock X : turns (map RLk X) [] X.
Proof.
  intros H. exists (rev X ++ H). split; [|rewrite <- Permutation_rev; reflexivity].
  revert H. induction X as [|x X IH]; intros H; cbn; [reflexivity|]. specialize (IH (x :: H)). cbn [app] in IH.
  rewrite IH, <- app_assoc. reflexivity.
Qed.
Lemma turns_unlock X : turns (map RUn X) X [].
Proof.
  intros H. exists H. split; [|reflexivity]. induction X as [|x X IH]; cbn; [reflexivity|].
  destruct (lockid_eq_dec x x) as [_|N]; [exact IH|congruence].
Qed.
Lemma turns_clean ev : turns ev [] [] -> lock_clean ev.
Proof.
  intros T. destruct (T []) as (H & E & P). cbn in *. symmetry in P. apply Permutation_nil in P. subst H. exact E.
Qed.

Section L.
  Context {V S : Type}.
  Variable cb : S -> EV -> V -> S * bool.
  Variable cls : EV -> verdict.
  Definition locks (p : list nat) (js : list nat) : list lockid := map (fun j => LNode (p ++ [j])) js.

  Lemma unlock_children_map p js : unlock_children p js = map RUn (locks p js).
  Proof. unfold unlock_children, locks. rewrite map_map. reflexivity. Qed.
  Lemma locks_app p a b : locks p (a ++ b) = locks p a ++ locks p b.
  Proof. apply map_app. Qed.

  Lemma scan_vals_locks p leaf (vs : list (entry V)) : forall i s js s' e js' ev,
    scan_vals cb cls p leaf vs i s js = (s', e, js', ev) ->
    exists added, js' = js ++ added /\ ev = map RLk (locks p added) /\ (leaf = true -> added = []).
  Proof.
    induction vs as [|[k v] vs IH]; intros i s js s' e js' ev E; cbn [scan_vals] in E.
    - injection E as <- <- <- <-. exists []. rewrite app_nil_r. auto.
    - destruct (cls k).
      + eapply IH; eauto.
      + injection E as <- <- <- <-. exists []. rewrite app_nil_r. auto.
      + destruct (cb s k v) as [s1 go]. destruct go.
        * destruct (scan_vals cb cls p leaf vs (i + 1) s1 (if leaf then js else js ++ [i])) as [[[s2 e2] js2] ev2] eqn:E2.
          injection E as <- <- <- <-. destruct (IH _ _ _ _ _ _ _ E2) as (ad & -> & -> & HL). destruct leaf.
          -- rewrite (HL eq_refl). exists []. auto.
          -- exists (i :: ad). rewrite <- app_assoc. split; [reflexivity|]. split; [reflexivity|discriminate].
        * injection E as <- <- <- <-. destruct leaf; [exists []; rewrite app_nil_r; auto|].
          exists [i]. split; [reflexivity|]. split; [reflexivity|discriminate].
      + destruct (cb s k v) as [s1 go]. destruct go; [eapply IH; eauto|].
        injection E as <- <- <- <-. exists []. rewrite app_nil_r. auto.
      + destruct (cb s k v) as [s1 go]. destruct go; injection E as <- <- <- <-; exists []; rewrite app_nil_r; auto.
  Qed.

  Lemma cloop_locks ks p total :
    Forall (fun c => forall p s s' go ev, scan cb false cls c p s = Some (s', go, ev) -> turns ev [LNode p] []) ks ->
    forall rest x s s' go ev, cloop cls cb false ks p total rest x s = Some (s', go, ev) -> turns ev (locks p rest) [].
  Proof.
    intros F. induction rest as [|j rest IH]; intros x s s' go ev E; cbn [cloop] in E.
    - injection E as <- <- <-. apply turns_nil.
    - rewrite on_nth_spec in E. destruct (nth_error ks j) as [c|] eqn:Ej; [|discriminate]. cbn [option_map] in E.
      destruct (scan cb false cls c (p ++ [j]) s) as [[[s1 go1] ev1]|] eqn:Es; [|discriminate].
      rewrite Forall_forall in F. apply (F c (nth_error_In _ _ Ej)) in Es.
      assert (T1 : turns ev1 (locks p (j :: rest)) (locks p rest)).
      { apply (turns_frame _ _ _ (locks p rest)) in Es. exact Es. }
      destruct go1.
      + destruct (cloop cls cb false ks p total rest (x + 1) s1) as [[[s2 go2] ev2]|] eqn:Ec; [|discriminate].
        injection E as <- <- <-. eapply turns_app; [exact T1|]. eapply IH; eauto.
      + injection E as <- <- <-. eapply turns_app; [exact T1|]. rewrite unlock_children_map. apply turns_unlock.
  Qed.

  Lemma scan_locks t : forall p s s' go ev,
    scan cb false cls t p s = Some (s', go, ev) -> turns ev [LNode p] [].
  Proof.
    induction t as [vs ks FK] using node_ind2. intros p s s' go ev E. rewrite scan_eq in E. cbv zeta in E.
    destruct (scan_vals cb cls p (is_leaf ks) vs 0 s []) as [[[s1 e] js] ev1] eqn:EV.
    destruct (scan_vals_locks _ _ _ _ _ _ _ _ _ _ EV) as (ad & -> & -> & HL). cbn [app] in E.
    destruct e as [|i].
    - injection E as <- <- <-. rewrite unlock_children_map.
      eapply turns_app; [apply (turns_frame _ [] (locks p ad) [LNode p]); apply turns_lock|].
      eapply turns_app; [apply (turns_frame _ (locks p ad) [] [LNode p]); apply turns_unlock|]. apply (turns_unlock [LNode p]).
    - destruct (cloop _ _ _ _ _ _ _ _ _) as [[[s2 go2] ev2]|] eqn:EC; [|discriminate]. injection E as <- <- <-.
      apply cloop_locks in EC; [|exact FK].
      eapply turns_app; [|exact EC].
      eapply turns_app; [apply (turns_frame _ [] (locks p ad) [LNode p]); apply turns_lock|].
      destruct (is_leaf ks).
      + rewrite (HL eq_refl). apply (turns_unlock [LNode p]).
      + rewrite locks_app. cbn [locks map].
        eapply turns_app; [apply (turns_frame _ [] [LNode (p ++ [i])] (locks p ad ++ [LNode p])); apply (turns_lock [_])|].
        eapply turns_perm; [| |apply (turns_frame _ [LNode p] [] (LNode (p ++ [i]) :: locks p ad)); apply (turns_unlock [LNode p])].
        * cbn [app]. rewrite perm_swap. apply perm_skip. rewrite Permutation_app_comm. reflexivity.
        * cbn [app]. rewrite Permutation_cons_append. reflexivity.
  Qed.

  (** iterate's unlocking agrees with the others when the scan skips nothing *)
  Definition noskip (e : entry V) : Prop := cls (fst e) = Break \/ cls (fst e) = VisitChild \/ cls (fst e) = VisitBreak.
  Inductive all_entries (P : entry V -> Prop) : node V -> Prop :=
  | all_node vs ks : Forall P vs -> Forall (all_entries P) ks -> all_entries P (Node vs ks).

  Lemma scan_vals_seq p (vs : list (entry V)) : Forall noskip vs -> forall i s js s' e js' ev,
    scan_vals cb cls p false vs i s js = (s', e, js', ev) ->
    js = seq 0 i ->
    match e with EndedAt i' => js' = seq 0 i' | Stopped => True end.
  Proof.
    induction 1 as [|[k v] vs Hk F IH]; intros i s js s' e js' ev E HJ; cbn [scan_vals] in E.
    - injection E as <- <- <- <-. exact HJ.
    - destruct Hk as [Hk|[Hk|Hk]]; cbn [fst] in Hk; rewrite Hk in E.
      + injection E as <- <- <- <-. exact HJ.
      + destruct (cb s k v) as [s1 go]. destruct go.
        * destruct (scan_vals cb cls p false vs (i + 1) s1 (js ++ [i])) as [[[s2 e2] js2] ev2] eqn:E2.
          injection E as <- <- <- <-. eapply IH; [exact E2|]. subst js. rewrite seq_app. reflexivity.
        * injection E as <- <- <- <-. exact I.
      + destruct (cb s k v) as [s1 go]. destruct go; injection E as <- <- <- <-; [exact HJ|exact I].
  Qed.

  Lemma scan_vals_leaf_js p (vs : list (entry V)) : forall i s s' e js' ev,
    scan_vals cb cls p true vs i s [] = (s', e, js', ev) -> js' = [].
  Proof.
    intros i s s' e js' ev E. destruct (scan_vals_locks _ _ _ _ _ _ _ _ _ _ E) as (ad & -> & _ & H).
    rewrite H by reflexivity. reflexivity.
  Qed.

  Lemma cloop_true_eq ks p total :
    Forall (fun c => forall p s, scan cb true cls c p s = scan cb false cls c p s) ks ->
    forall m x s, x + m = total ->
      cloop cls cb true ks p total (seq x m) x s = cloop cls cb false ks p total (seq x m) x s.
  Proof.
    intros F. induction m as [|m IH]; intros x s HT; [reflexivity|]. cbn [seq cloop].
    rewrite !on_nth_spec. destruct (nth_error ks x) as [c|] eqn:E; [|reflexivity]. cbn [option_map].
    rewrite Forall_forall in F. rewrite (F c (nth_error_In _ _ E)).
    destruct (scan cb false cls c (p ++ [x]) s) as [[[s1 go1] ev1]|]; [|reflexivity]. destruct go1.
    - replace (Datatypes.S x) with (x + 1) by lia. rewrite IH by lia. reflexivity.
    - replace (total - (x + 1)) with m by lia. replace (x + 1) with (Datatypes.S x) by lia. reflexivity.
  Qed.

  Lemma scan_true_eq t : all_entries noskip t -> forall p s, scan cb true cls t p s = scan cb false cls t p s.
  Proof.
    induction t as [vs ks IH] using node_ind2. intros A p s. inversion A as [? ? Av Ak]; subst.
    rewrite !scan_eq. cbv zeta. destruct (scan_vals cb cls p (is_leaf ks) vs 0 s []) as [[[s1 e] js] ev1] eqn:EV.
    destruct e as [|i]; [reflexivity|]. destruct (is_leaf ks) eqn:EL.
    - apply scan_vals_leaf_js in EV. subst js. reflexivity.
    - pose proof (scan_vals_seq p vs Av 0 s [] _ _ _ _ EV eq_refl) as HJ. cbn in HJ. subst js.
      replace (seq 0 i ++ [i]) with (seq 0 (Datatypes.S i)) by (rewrite seq_S; reflexivity).
      rewrite cloop_true_eq; [reflexivity| |rewrite seq_length; reflexivity].
      rewrite Forall_forall in *. auto.
  Qed.

  (** ... or when the callback never stops *)
  Lemma cloop_true_go ks p total :
    Forall (fun c => forall p s s' ev, scan cb true cls c p s = Some (s', true, ev) -> scan cb false cls c p s = Some (s', true, ev)) ks ->
    forall rest x s s' ev, cloop cls cb true ks p total rest x s = Some (s', true, ev) ->
                           cloop cls cb false ks p total rest x s = Some (s', true, ev).
  Proof.
    intros F. induction rest as [|j rest IH]; intros x s s' ev E; cbn [cloop] in *; [exact E|].
    rewrite on_nth_spec in *. destruct (nth_error ks j) as [c|] eqn:Ej; [|discriminate]. cbn [option_map] in *.
    destruct (scan cb true cls c (p ++ [j]) s) as [[[s1 go1] ev1]|] eqn:Es; [|discriminate]. destruct go1; [|discriminate].
    rewrite Forall_forall in F. rewrite (F c (nth_error_In _ _ Ej) _ _ _ _ Es).
    destruct (cloop cls cb true ks p total rest (x + 1) s1) as [[[s2 go2] ev2]|] eqn:Ec; [|discriminate].
    injection E as <- -> <-. rewrite (IH _ _ _ _ Ec). reflexivity.
  Qed.
  Lemma scan_true_go t : forall p s s' ev,
    scan cb true cls t p s = Some (s', true, ev) -> scan cb false cls t p s = Some (s', true, ev).
  Proof.
    induction t as [vs ks IH] using node_ind2. intros p s s' ev. rewrite !scan_eq. cbv zeta.
    destruct (scan_vals cb cls p (is_leaf ks) vs 0 s []) as [[[s1 e] js] ev1].
    destruct e as [|i]; [discriminate|].
    destruct (cloop cls cb true ks p _ _ _ _) as [[[s2 go2] ev2]|] eqn:EC; [|discriminate].
    intros E. injection E as <- -> <-. rewrite (cloop_true_go ks p _ IH _ _ _ _ _ EC). reflexivity.
  Qed.
End L.


Section FM.
  Context {V : Type}.
  Notation node := (node V).
  Notation entry := (entry V).

  Lemma all_entries_of_flat n h (P : entry -> Prop) : forall t, balanced n h t -> Forall P (flat t) -> all_entries P t.
  Proof.
    induction h as [|h IH]; intros [vs ks] Hb F.
    - apply (proj1 (balanced_0 _ _ _)) in Hb. subst ks. constructor; [|constructor]. exact F.
    - apply (proj1 (balanced_S _ _ _ _)) in Hb; cbn [vals_of kids_of] in Hb; destruct Hb as [LK FK]. cbn [flat] in F.
      assert (W : Forall P vs /\ Forall (fun c => Forall P (flat c)) ks).
      { clear - LK F. revert vs LK F. induction ks as [|c ks IHk]; intros [|v vs] LK F; try discriminate.
        - cbn in F. destruct ks; [|discriminate]. rewrite app_nil_r in F. auto.
        - cbn [map] in F. rewrite weave_cons in F. apply Forall_app in F as [F1 F2]. apply Forall_cons_iff in F2 as [F2 F3].
          destruct (IHk vs ltac:(cbn [length] in LK; lia) F3) as [G1 G2]. auto. }
      destruct W as [W1 W2]. constructor; [exact W1|]. rewrite Forall_forall in *.
      intros c Hc. apply IH; [apply FK, Hc|apply W2, Hc].
  Qed.

  Lemma leaf_match_spec (vs : list entry) key :
    match leaf_match vs key with
    | Some (k, v) => In (k, v) vs /\ lmt k key = false /\ lmt key k = false
    | None => absent key vs
    end.
  Proof.
    induction vs as [|[k v] vs IH]; cbn [leaf_match]; [constructor|].
    destruct (lmt k key) eqn:E1; cbn [negb andb].
    2: destruct (lmt key k) eqn:E2; cbn [negb andb].
    3: { split; [left; reflexivity|auto]. }
    - destruct (leaf_match vs key) as [[k' v']|]; [destruct IH; split; [right; assumption|assumption]|].
      constructor; [left; exact E1|exact IH].
    - destruct (leaf_match vs key) as [[k' v']|]; [destruct IH; split; [right; assumption|assumption]|].
      constructor; [right; exact E2|exact IH].
  Qed.

  Lemma findMatchType_spec n h : forall (t : node) p key,
    balanced n h t -> goods (flat t) -> good key -> sorted (flat t) ->
    exists (r : option entry) ev, findMatchType t p key = Some (r, ev) /\
      match r with
      | Some (k, v) => In (k, v) (flat t) /\ lmt k key = false /\ lmt key k = false
      | None => absent key (flat t)
      end /\ turns ev [LNode p] [].
  Proof.
    induction h as [|h IH]; intros [vs ks] p k Hb G Gk S.
    - apply (proj1 (balanced_0 _ _ _)) in Hb. subst ks. cbn [findMatchType].
      eexists _, _. split; [reflexivity|]. split; [exact (leaf_match_spec vs k)|apply (turns_unlock [LNode p])].
    - apply (proj1 (balanced_S _ _ _ _)) in Hb; cbn [vals_of kids_of] in Hb; destruct Hb as [LK FK].
      assert (FE : findMatchType (Node vs ks) p k =
        match found_at vs (search vs k) k with
        | Some e => Some (Some e, [RUn (LNode p)])
        | None =>
            match on_nth (fun c => findMatchType c (p ++ [search vs k]) k) ks (search vs k) with
            | Some (Some (r, ev)) => Some (r, [RLk (LNode (p ++ [search vs k])); RUn (LNode p)] ++ ev)
            | _ => None
            end
        end) by (destruct ks; [discriminate|reflexivity]).
      rewrite FE. clear FE.
      destruct (search_spec vs k) as (vs1 & vs2 & E & L & B & N). rewrite <- L. subst vs.
      pose proof (found_at_app vs1 vs2 k) as EF. symmetry in EF.
      rewrite app_length in LK.
      destruct (split_elem ks (length vs1) ltac:(lia)) as (ks1 & c & ks2 & -> & L1).
      rewrite app_length in LK. cbn [length] in LK. symmetry in L1. assert (L2 : length vs2 = length ks2) by lia.
      rewrite !flat_split in * by exact L1.
      destruct (found_at (vs1 ++ vs2) (length vs1) k) as [[kf vf]|].
      + destruct vs2 as [|[k2 v2] vs2]; [discriminate|]. specialize (N _ _ eq_refl). cbn [fst] in N.
        destruct (lmt k k2) eqn:E2; [discriminate|]. injection EF as <- <-.
        eexists _, _. split; [reflexivity|]. split; [|apply (turns_unlock [LNode p])].
        split; [|auto]. apply in_or_app; right. apply in_or_app; right. left. reflexivity.
      + pose proof G as G0. pose proof S as S0.
        apply goods_app in G as [Gp G]. apply goods_app in G as [Gc Gq].
        apply sorted_app in S as (Sp & S & Spq). apply sorted_app in S as (Sc & Sq & Scq).
        assert (Bp : below (pre vs1 (map flat ks1)) k).
        { apply pre_below; auto. rewrite map_length. exact L1. }
        assert (Aq : above (post vs2 (map flat ks2)) k).
        { apply post_above; auto. intros w vs' Ew. subst vs2. destruct w as [k2 v2].
          destruct (lmt k k2) eqn:E2; [exact E2|discriminate]. }
        apply Forall_app in FK as [FK1 FK]. apply Forall_cons_iff in FK as [[Bc Oc] FK2].
        rewrite on_nth_spec, nth_error_app_len by (symmetry; exact L1). cbn [option_map].
        destruct (IH c (p ++ [length vs1]) k Bc Gc Gk Sc) as (r & ev & -> & R & T).
        eexists _, _. split; [reflexivity|]. split.
        * destruct r as [[k' v']|].
          -- destruct R as [R1 R2]. split; [|exact R2]. apply in_or_app; right. apply in_or_app; left. exact R1.
          -- apply absent_app; split; [apply below_absent, Bp|apply absent_app; split; [exact R|apply above_absent, Aq]].
        * eapply turns_app; [|exact T]. intros H. cbn [app replay release].
          destruct (lockid_eq_dec (LNode p) (LNode (p ++ [length vs1]))) as [EE|_].
          { exfalso. injection EE as EE. apply (f_equal (@length nat)) in EE. rewrite app_length in EE. cbn in EE. lia. }
          destruct (lockid_eq_dec (LNode p) (LNode p)) as [_|NN]; [|congruence]. eauto.
  Qed.
End FM.
