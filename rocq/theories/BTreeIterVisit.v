(** What a lookup hands to its callback in one node and finds under the children it locks is what it wants under
    that node. *)
From Coq Require Import Permutation ZifyBool ZifyNat.
From Verif Require Import Datatypes SpecValues DatatypesProofs BTree SpecBTree BTreeProofs BTreeFind SpecFind BTreeFindProofs
  BTreeSync SpecBTreeSync BTreeSyncSeq BTreeSyncInv BTreeSyncStep BTreeSyncStep3 BTreeSyncCount2 BTreeIter BTreeIterEr BTreeIterTk.
Local Open Scope nat_scope.

Lemma perm_filter {A} (f : A -> bool) l l' : Permutation l l' -> Permutation (filter f l) (filter f l').
Proof.
  induction 1; cbn [filter].
  - constructor.
  - destruct (f x); [apply perm_skip|]; assumption.
  - destruct (f x), (f y); try apply Permutation_refl; try apply perm_swap.
  - etransitivity; eassumption.
Qed.
Lemma filter_and {A} (f g : A -> bool) l : filter (fun x => f x && g x) l = filter g (filter f l).
Proof. induction l as [|x l IH]; [reflexivity|]. cbn. destruct (f x); cbn; rewrite IH; reflexivity. Qed.
Lemma filter_concat {A} (f : A -> bool) l : filter f (concat l) = concat (map (filter f) l).
Proof. induction l as [|x l IH]; [reflexivity|]. cbn. rewrite filter_app, IH. reflexivity. Qed.

Section Visit.
  Context {V : Type}.
  Variable n : nat.
  Notation node := (node V).
  Notation entry := (entry V).

  (** What a way down wants under a node *)
  Definition tgt (d : descent) (t : node) : list entry :=
    match d with
    | DScan cls keep => filter (fun e => vb cls e && keep (fst e)) (flat t)
    | DMatch key => match get t key with Some v => [(key, v)] | None => [] end
    end.
  Definition descent_ok (d : descent) : Prop := match d with DScan cls _ => mono cls | DMatch key => good key end.

  Lemma offer_all (l : list entry) : forall s, offer record_all s l = (s ++ l, true).
  Proof.
    induction l as [|[k v] l IH]; intros s; cbn [offer]; [rewrite app_nil_r; reflexivity|]. unfold record_all at 1. rewrite IH, <- app_assoc. reflexivity.
  Qed.
  Lemma sel_map {A B} (f : A -> B) cls vs : forall kss, sel (V := V) cls vs (map f kss) = map f (sel cls vs kss).
  Proof.
    induction vs as [|e vs IH]; intros [|l kss]; try reflexivity. cbn [sel map]. destruct (cls (fst e)); try reflexivity; try apply IH.
    cbn [map]. rewrite IH. reflexivity.
  Qed.
  Lemma vvals_leaf cls (M : mono cls) (vs : list entry) : goods vs -> sorted vs -> filter (vb cls) vs = vvals cls vs.
  Proof.
    induction vs as [|e vs IH]; intros G S0; [reflexivity|]. apply goods_cons in G as [Ge G].
    apply sorted_cons in S0 as [S Sgt]. specialize (IH G S).
    assert (Gy : forall y, In y vs -> good (fst y)) by (intros y Hy; exact (goods_in _ _ G Hy)).
    cbn [vvals filter]. unfold vb at 1. destruct (cls (fst e)) eqn:E; auto; try (rewrite IH; reflexivity).
    - rewrite (filter_none cls); [reflexivity|]. intros y Hy. unfold vb. rewrite (mono_break cls M (fst e) (fst y)); auto. apply (Sgt y Hy).
    - rewrite (filter_none cls); [reflexivity|]. intros y Hy. unfold vb. rewrite (mono_vbreak cls M (fst e) (fst y)); auto. apply (Sgt y Hy).
  Qed.

  Lemma plan_ok d h vs (ks : list node) vis js :
    descent_ok d -> balanced n h (Node vs ks) -> sorted (flat (Node vs ks)) -> goods (flat (Node vs ks)) ->
    node_plan d vs (match ks with [] => true | _ => false end) = (vis, js) ->
    forall cs, Forall2 (fun j c => nth_error ks j = Some c) js cs ->
    Permutation (tgt d (Node vs ks)) (vis ++ concat (map (tgt d) cs)).
  Proof.
    intros Ok B S G Pl cs F. destruct d as [cls keep|key]; cbn [node_plan tgt descent_ok] in *.
    - destruct (scan_vals_spec cls (@record_all V) [] (match ks with [] => true | _ => false end) vs 0 [] []) as (ev & js2 & E).
      rewrite E, offer_all in Pl. cbn [app] in Pl. injection Pl as <- <-. rewrite filter_and.
      destruct h as [|h].
      + apply (proj1 (balanced_0 _ _ _)) in B. subst ks. cbn [flat map] in *. rewrite weave_nil_r in *. inversion F; subst. cbn [map concat].
        rewrite app_nil_r, vvals_leaf; auto.
      + apply (proj1 (balanced_S _ _ _ _)) in B; cbn [vals_of kids_of] in B; destruct B as [LK FK].
        destruct ks as [|k0 ks]; [discriminate LK|].
        change (Forall2 (fun j c => nth_error (k0 :: ks) j = Some c) (vjs cls 0 vs ++ [vend cls vs]) cs) in F.
        assert (Ec : cs = sel cls vs (k0 :: ks)).
        { pose proof (sel_nth cls vs [] (k0 :: ks) 0 LK eq_refl) as X. cbn [app] in X. rewrite Nat.add_0_l in X. revert F X. clear.
          generalize (sel cls vs (k0 :: ks)) as cs'. generalize (vjs cls 0 vs ++ [vend cls vs]) as js. intros js cs' F. revert cs'.
          induction F as [|j c js cs E F IH]; intros cs' X; inversion X as [|? c' ? cs2 E' X']; subst; [reflexivity|]. f_equal; [congruence|auto]. }
        subst cs. clear F. unfold flat in S, G |- *; fold (@flat V) in S, G |- *.
        rewrite (perm_filter _ _ _ (vis_perm cls Ok vs (map flat (k0 :: ks)) ltac:(rewrite map_length; exact LK) G S)).
        rewrite filter_app, filter_concat, sel_map, !map_map. apply Permutation_app_head.
        match goal with |- Permutation ?a ?b => replace a with b; [reflexivity|] end. f_equal. apply map_ext. intros x. apply filter_and.
    - destruct ks as [|k0 ks].
      + cbn [get]. destruct (leaf_match vs key) as [[a v]|]; injection Pl as <- <-; inversion F; subst; reflexivity.
      + change (get (Node vs (k0 :: ks)) key) with
          (match found_at vs (search vs key) key with
           | Some (_, v) => Some v
           | None => match on_nth (fun c => get c key) (k0 :: ks) (search vs key) with Some r => r | None => None end
           end).
        destruct (found_at vs (search vs key) key) as [[a v]|]; injection Pl as <- <-.
        * inversion F; subst. reflexivity.
        * inversion F as [|? c ? cs' E F']; subst. inversion F'; subst. rewrite on_nth_spec, E. cbn [option_map map concat app tgt].
          rewrite app_nil_r. reflexivity.
  Qed.
End Visit.

Section VStep.
  Context {V : Type}.
  Variable n : nat.
  Variable ops : nat -> cop V.
  Notation atree := (atree V).
  Notation bops := (bops ops).
  Notation P := (P n bops).
  Notation fl := (fl n bops).
  Notation tk := (tk n ops).

  Definition upd (G : nat -> node V) (y : nat) (t : node V) : nat -> node V := fun z => if Nat.eqb z y then t else G z.
  Lemma upd_same G y t : upd G y t y = t.
  Proof. unfold upd. rewrite Nat.eqb_refl. reflexivity. Qed.
  Lemma upd_other G y t z : z <> y -> upd G y t z = G z.
  Proof. intros H. unfold upd. apply Nat.eqb_neq in H. rewrite H. reflexivity. Qed.

  Lemma set_same_map {A B} (f : A -> B) i x y l : nth_error l i = Some y -> f x = f y -> map f (set_nth i x l) = map f l.
  Proof.
    intros E H. rewrite map_set_nth. unfold set_nth. rewrite H. clear H. revert i E. induction l as [|z l IH]; intros [|i] E; try discriminate.
    - injection E as ->. reflexivity.
    - cbn [map firstn app skipn]. f_equal. apply IH. exact E.
  Qed.

  Lemma lock_kids_ok js : forall ys ks ks' G,
    lock_kids js ys ks = Some ks' -> NoDup ys -> (forall y, In y ys -> Nat.odd y = true) ->
    (forall y t, In y ys -> In t ks -> ~ In y (tokens t)) -> (forall t, In t ks -> tk G t) ->
    exists G', (forall z, ~ In z ys -> G' z = G z) /\ (forall t, In t ks' -> tk G' t) /\
      Forall2 (fun j y => nth_error (map P ks) j = Some (G' y)) js ys /\ map er ks' = map er ks /\ map fl ks' = map fl ks.
  Proof.
    induction js as [|j js IH]; intros [|y ys] ks ks' G H ND Od Fr K; cbn [lock_kids] in H; try discriminate.
    - injection H as <-. exists G. split; [auto|]. split; [auto|]. split; [constructor|auto].
    - destruct (nth_error ks j) as [[m rs cv ck]|] eqn:E; [|discriminate]. destruct m; try discriminate.
      apply NoDup_cons_iff in ND as [Ny ND]. set (k1 := ANode MFree (y :: rs) cv ck) in *.
      assert (In0 : In (ANode MFree rs cv ck) ks) by (eapply nth_error_In; eauto).
      destruct (IH ys _ _ (upd G y (P k1)) H ND) as (G' & F1 & F2 & F3 & F4 & F5).
      + intros z Hz. apply Od. right. exact Hz.
      + intros z t Hz Ht X. apply set_nth_incl in Ht as [->|Ht]; [|apply (Fr z t); [right; exact Hz|exact Ht|exact X]].
        destruct X as [<-|X]; [exact (Ny Hz)|]. apply (Fr z _ (or_intror Hz) In0). exact X.
      + intros t Ht. apply set_nth_incl in Ht as [->|Ht].
        * pose proof (K _ In0) as T. apply tk_inv in T as (_ & T2 & T3). constructor; [congruence| |].
          -- intros x [<-|Hx] Ox; [rewrite upd_same; reflexivity|]. rewrite upd_other; [apply (T2 x Hx Ox)|].
             intros ->. apply (Fr y _ (or_introl eq_refl) In0). cbn [tokens]. apply in_or_app. left. exact Hx.
          -- intros t Ht. apply (tk_frame n ops G); [apply T3, Ht|]. intros x Hx. apply upd_other. intros ->.
             apply (Fr y _ (or_introl eq_refl) In0). cbn [tokens]. apply in_or_app. right. apply in_flat_map. eauto.
        * apply (tk_frame n ops G); [apply K, Ht|]. intros x Hx. apply upd_other. intros ->. apply (Fr y t (or_introl eq_refl) Ht Hx).
      + assert (EP : map P (set_nth j k1 ks) = map P ks) by (eapply set_same_map; eauto).
        exists G'. split; [|split; [exact F2|split; [|split]]].
        * intros z Hz. rewrite F1 by (intros X; apply Hz; right; exact X). apply upd_other. intros ->. apply Hz. left. reflexivity.
        * constructor; [|rewrite EP in F3; exact F3]. rewrite (F1 y Ny), upd_same, nth_error_map', E. reflexivity.
        * rewrite F4. eapply set_same_map; eauto. cbn [er k1]. unfold k1. cbn [er filter]. unfold even_name at 1.
          rewrite (Od y (or_introl eq_refl)). reflexivity.
        * rewrite F5. eapply set_same_map; eauto.
  Qed.

  Lemma inv_plain log rt h rs vs ks : inv n bops log rt h (ANode MFree rs vs ks) -> okn n rt h (Node vs (map P ks)).
  Proof. intros I. apply inv_elim in I as (O & _ & _). cbn [flm okres] in O. rewrite pl_fl in O. exact O. Qed.

  Lemma vstep_ok d x ys G log t vis t' : vstep d x ys t vis t' -> descent_ok d -> Nat.odd x = true ->
    NoDup ys -> (forall y, In y ys -> Nat.odd y = true) -> (forall y, In y ys -> ~ In y (tokens t)) ->
    forall rt h, inv n bops log rt h (er t) -> tk G t ->
    exists G', (forall z, ~ In z ys -> G' z = G z) /\ tk G' t' /\ er t' = er t /\ fl t' = fl t /\
      Permutation (tgt d (G x)) (vis ++ concat (map (fun y => tgt d (G' y)) ys)) /\ (forall y, In y ys -> In (G' y) (kids_of (G x))).
  Proof.
    intros St Ok Ox ND Od. induction St as [r1 r2 vs ks vis js ks' Pl Lk|m rs vs l1 t vis t' l2 St IH]; intros Fr rt h I T.
    - apply tk_inv in T as (_ & T2 & T3).
      destruct (lock_kids_ok js ys ks ks' G Lk ND Od) as (G' & F1 & F2 & F3 & F4 & F5); [|exact T3|].
      { intros y t Hy Ht X. apply (Fr y Hy). cbn [tokens]. apply in_or_app. right. apply in_flat_map. eauto. }
      exists G'. split; [exact F1|]. split; [|split; [|split; [|split]]].
      + constructor; [congruence| |exact F2]. intros z Hz Oz.
        assert (Hz' : In z (r1 ++ x :: r2)) by (apply in_app_iff in Hz as [Hz|Hz]; apply in_or_app; [left|right; right]; exact Hz).
        rewrite F1. 2: { intros X. apply (Fr z X). cbn [tokens]. apply in_or_app. left. exact Hz'. }
        rewrite <- (T2 z Hz' Oz). unfold P. rewrite !fl_eq, F5. reflexivity.
      + cbn [er]. rewrite F4. f_equal. rewrite !filter_app. cbn [filter]. unfold even_name at 4. rewrite Ox. reflexivity.
      + rewrite !fl_eq, F5. reflexivity.
      + assert (Gx : G x = Node vs (map P ks)).
        { rewrite <- (T2 x ltac:(apply in_or_app; right; left; reflexivity) Ox), P_free. reflexivity. }
        rewrite Gx. cbn [er] in I. apply inv_plain in I.
        assert (EP : map P (map er ks) = map P ks) by (rewrite map_map; apply map_ext; intros; apply er_P). rewrite EP in I.
        destruct I as (B & _ & _ & S & Go).
        rewrite <- (map_map G' (tgt d)). eapply (plan_ok n d h vs (map P ks) vis js); eauto.
        * destruct ks; exact Pl.
        * clear - F3. induction F3; constructor; auto.
      + assert (Gx : G x = Node vs (map P ks)).
        { rewrite <- (T2 x ltac:(apply in_or_app; right; left; reflexivity) Ox), P_free. reflexivity. }
        rewrite Gx. cbn [kids_of]. clear - F3. induction F3 as [|j y js ys E F IH]; intros z Hz; [destruct Hz|].
        destruct Hz as [<-|Hz]; [eapply nth_error_In; eauto|apply IH, Hz].
    - cbn [er] in I. rewrite map_app in I. cbn [map] in I. apply inv_elim in I as (_ & _ & K).
      destruct h as [|h]; [destruct (map er l1); discriminate K|]. rewrite Forall_forall in K.
      assert (It : inv n bops log false h (er t)) by (apply K, in_or_app; right; left; reflexivity).
      apply tk_inv in T as (T1 & T2 & T3).
      destruct (IH ltac:(intros y Hy X; apply (Fr y Hy); cbn [tokens]; apply in_or_app; right; apply in_flat_map; exists t; split; [apply in_or_app; right; left; reflexivity|exact X]) false h It
        ltac:(apply T3, in_or_app; right; left; reflexivity)) as (G' & F1 & F2 & F3 & F4 & F5).
      assert (Hs : forall u, In u l1 \/ In u l2 -> tk G' u).
      { intros u Hu. assert (Hu' : In u (l1 ++ t :: l2)) by (apply in_or_app; destruct Hu; [left|right; right]; assumption).
        apply (tk_frame n ops G); [apply T3, Hu'|]. intros z Hz. apply F1. intros X. apply (Fr z X). cbn [tokens]. apply in_or_app. right.
        apply in_flat_map. exists u. split; assumption. }
      assert (EF : map fl (l1 ++ t' :: l2) = map fl (l1 ++ t :: l2)) by (rewrite !map_app; cbn [map]; rewrite F4; reflexivity).
      exists G'. split; [exact F1|]. split; [|split; [|split; [|exact F5]]].
      + constructor; [exact T1| |].
        * intros z Hz Oz. rewrite F1. 2: { intros X. apply (Fr z X). cbn [tokens]. apply in_or_app. left. exact Hz. }
          rewrite <- (T2 z Hz Oz). unfold P. rewrite !fl_eq, EF. reflexivity.
        * intros u Hu. apply in_app_iff in Hu as [Hu|[<-|Hu]]; auto.
      + cbn [er]. rewrite !map_app. cbn [map]. rewrite F3. reflexivity.
      + rewrite !fl_eq, EF. reflexivity.
  Qed.
End VStep.
