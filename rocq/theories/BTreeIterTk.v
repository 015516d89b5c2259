(** Every read lock of a lookup stands on a node that keeps the contents it had when the lock was taken. *)
From Coq Require Import Permutation ZifyBool ZifyNat.
From Verif Require Import Datatypes SpecValues DatatypesProofs BTree SpecBTree BTreeProofs BTreeFind SpecFind
  BTreeSync SpecBTreeSync BTreeSyncSeq BTreeSyncInv BTreeSyncStep BTreeSyncStep3 BTreeSyncCount2 BTreeIter BTreeIterEr.
Local Open Scope nat_scope.

Section InLists.
  Context {A : Type}.
  Lemma firstn_incl (i : nat) (l : list A) x : In x (firstn i l) -> In x l.
  Proof. intros H. rewrite <- (firstn_skipn i l). apply in_or_app. left. exact H. Qed.
  Lemma skipn_incl (i : nat) (l : list A) x : In x (skipn i l) -> In x l.
  Proof. intros H. rewrite <- (firstn_skipn i l). apply in_or_app. right. exact H. Qed.
  Lemma set_nth_incl (i : nat) y (l : list A) x : In x (set_nth i y l) -> x = y \/ In x l.
  Proof.
    unfold set_nth. intros H. apply in_app_iff in H as [H|H]; [right; eapply firstn_incl; eauto|].
    destruct (skipn i l) as [|z r] eqn:E; [destruct H|]. destruct H as [<-|H]; [left; reflexivity|right].
    apply (skipn_incl i). rewrite E. right. exact H.
  Qed.
  Lemma del_nth_incl (i : nat) (l : list A) x : In x (del_nth i l) -> In x l.
  Proof. unfold del_nth. intros H. apply in_app_iff in H as [H|H]; [eapply firstn_incl|eapply skipn_incl]; eauto. Qed.
  Lemma removelast_incl (l : list A) x : In x (removelast l) -> In x l.
  Proof. induction l as [|y [|z l] IH]; cbn [removelast]; [auto|intros []|]. intros [->|H]; [left; reflexivity|right; apply IH, H]. Qed.
  Lemma tl_incl (l : list A) x : In x (tl l) -> In x l.
  Proof. destruct l; [auto|]. intros H. right. exact H. Qed.
End InLists.

Section Tk.
  Context {V : Type}.
  Variable n : nat.
  Variable ops : nat -> cop V.
  Notation atree := (atree V).
  Notation bops := (bops ops).
  Notation P := (P n bops).

  (** The steps of the other calls, seen without the lookups *)
  Definition er_state (s : state V) : state V := mkState (top s) (trs s) (option_map er (root s)) (ph s).

  Lemma er_step s e s' : step n bops s e s' -> (forall c, Nat.odd c = true -> ph s c = PNew) -> (forall c, In c (trs s) -> Nat.odd c = false) ->
    step n bops (er_state s) e (er_state s').
  Proof.
    intros St Ho Ht. destruct St; unfold er_state at 2; cbn [top trs root ph option_map er filter map].
    - eapply (T_call n bops (er_state s)). exact H.
    - eapply (T_lock n bops (er_state s)); eauto.
    - eapply (T_nothing n bops (er_state s)); eauto. unfold er_state. cbn [root]. rewrite H0. reflexivity.
    - eapply (T_new n bops (er_state s)); eauto. unfold er_state. cbn [root]. rewrite H0. reflexivity.
    - eapply (T_root n bops (er_state s)); eauto. unfold er_state. cbn [root]. rewrite H0. reflexivity.
    - eapply (T_release n bops (er_state s)); eauto; [unfold er_state; cbn [root]; rewrite H0; reflexivity|]. rewrite er_settled. exact H1.
    - eapply (T_grow n bops (er_state s)); eauto using er_split. unfold er_state. cbn [root]. rewrite H0. reflexivity.
    - assert (E : option_map er (match vs, ks with [], [] => None | [], t :: _ => Some t | _, _ => Some (ANode MFree [] vs ks) end) =
        match vs, map er ks with [], [] => None | [], t :: _ => Some t | _, _ => Some (ANode MFree [] vs (map er ks)) end).
      { destruct vs; [destruct ks; reflexivity|reflexivity]. }
      rewrite E. eapply (T_shrink n bops (er_state s)); eauto. unfold er_state. cbn [root]. rewrite H0. reflexivity.
    - eapply (T_rlock n bops (er_state s)); eauto.
    - eapply (T_rnothing n bops (er_state s)); eauto. unfold er_state. cbn [root]. rewrite H0. reflexivity.
    - replace (even_name c) with true.
      2: { unfold even_name. rewrite (Ht c); [reflexivity|]. rewrite H. apply in_or_app. right. left. reflexivity. }
      eapply (T_rroot n bops (er_state s)); eauto. unfold er_state. cbn [root]. rewrite H0. reflexivity.
    - eapply (T_local n bops (er_state s)); eauto using er_lstep. unfold er_state. cbn [root]. rewrite H. reflexivity.
    - eapply (T_return n bops (er_state s)); eauto. assert (Oc : Nat.odd c = false).
      { destruct (Nat.odd c) eqn:E; [|reflexivity]. rewrite (Ho c E) in H. discriminate. }
      unfold holding in *. cbn [er_state top trs root]. destruct (root s) as [t|]; cbn [option_map]; [rewrite er_holds by exact Oc|]; exact H0.
  Qed.

  (** [G x]: the contents under the lock [x] *)
  Inductive tk (G : nat -> node V) : atree -> Prop :=
  | tk_node m rs vs ks :
      (m <> MFree -> rs = []) -> (forall x, In x rs -> Nat.odd x = true -> P (ANode m rs vs ks) = G x) ->
      (forall t, In t ks -> tk G t) -> tk G (ANode m rs vs ks).

  Lemma tk_inv G m rs vs ks : tk G (ANode m rs vs ks) ->
    (m <> MFree -> rs = []) /\ (forall x, In x rs -> Nat.odd x = true -> P (ANode m rs vs ks) = G x) /\ (forall t, In t ks -> tk G t).
  Proof. intros H. inversion H; subst. auto. Qed.
  Lemma tk_new G m vs ks : (forall t, In t ks -> tk G t) -> tk G (ANode m [] vs ks).
  Proof. intros H. constructor; auto. intros x []. Qed.
  Lemma tk_frame G G' t : tk G t -> (forall x, In x (tokens t) -> G' x = G x) -> tk G' t.
  Proof.
    intros H. induction H as [m rs vs ks H1 H2 H3 IH]. intros E. constructor; [exact H1| |].
    - intros x Hx Ox. rewrite E; [apply H2; assumption|]. cbn [tokens]. apply in_or_app. left. exact Hx.
    - intros t Ht. apply IH; [exact Ht|]. intros x Hx. apply E. cbn [tokens]. apply in_or_app. right. apply in_flat_map. eauto.
  Qed.
  Lemma P_rs m rs rs' vs ks : P (ANode m rs vs ks) = P (ANode m rs' vs ks).
  Proof. reflexivity. Qed.

  Section G.
    Variable G : nat -> node V.
    Notation good l := (forall t, In t l -> tk G t).
    Lemma tk_split vs ks p L R : asplit n vs ks = Some (p, L, R) -> good ks -> tk G L /\ tk G R.
    Proof.
      unfold asplit. destruct (nth_error vs _); [|discriminate]. intros H K. injection H as <- <- <-.
      split; apply tk_new; intros t Ht; apply K; [eapply firstn_incl|eapply skipn_incl]; eauto.
    Qed.
    Lemma kid_tk ks i m rs cv ck : good ks -> nth_error ks i = Some (ANode m rs cv ck) -> good ck.
    Proof. intros K E. apply nth_error_In in E. apply K, tk_inv in E as (_ & _ & E). exact E. Qed.
    Lemma tk_rotateLeft vs ks i vs' ks' : arotateLeft vs ks i = Some (vs', ks') -> good ks -> good ks'.
    Proof.
      unfold arotateLeft, guard. intros H K.
      destruct (nth_error ks i) as [[m1 r1 cv ck]|] eqn:E1; [|discriminate].
      destruct (nth_error ks (S i)) as [[m2 r2 [|r0 rv] rk]|] eqn:E2; try discriminate.
      destruct (nth_error vs i) as [v|]; [|discriminate]. destruct (forallb _ rk); [|discriminate]. injection H as <- <-.
      pose proof (kid_tk _ _ _ _ _ _ K E1) as K1. pose proof (kid_tk _ _ _ _ _ _ K E2) as K2.
      intros t Ht. apply set_nth_incl in Ht as [->|Ht]; [apply tk_new; intros x Hx; apply K2, tl_incl, Hx|].
      apply set_nth_incl in Ht as [->|Ht]; [|apply K, Ht]. apply tk_new. intros x Hx.
      destruct rk as [|rk0 rk]; [apply K1, Hx|]. destruct ck as [|ck0 ck]; [destruct Hx|].
      apply in_app_iff in Hx as [Hx|[<-|[]]]; [apply K1, Hx|apply K2; left; reflexivity].
    Qed.
    Lemma tk_rotateRight vs ks i vs' ks' : arotateRight vs ks i = Some (vs', ks') -> good ks -> good ks'.
    Proof.
      unfold arotateRight, guard. intros H K. destruct i as [|j]; [discriminate|].
      destruct (nth_error ks (S j)) as [[m1 r1 cv ck]|] eqn:E1; [|discriminate].
      destruct (nth_error ks j) as [[m2 r2 lv lk]|] eqn:E2; try discriminate.
      destruct (nth_error vs j) as [v|]; [|discriminate]. destruct (rev lv) as [|g gs]; [discriminate|].
      pose proof (kid_tk _ _ _ _ _ _ K E1) as K1. pose proof (kid_tk _ _ _ _ _ _ K E2) as K2.
      assert (K3 : forall gk gks, rev lk = gk :: gks -> tk G gk).
      { intros gk gks E. apply K2. apply in_rev. rewrite E. left. reflexivity. }
      destruct (rev lk) as [|gk gks] eqn:El; [|destruct (afree gk); [|discriminate]]; injection H as <- <-; intros t Ht;
        (apply set_nth_incl in Ht as [->|Ht];
          [apply tk_new; intros x Hx|apply set_nth_incl in Ht as [->|Ht]; [apply tk_new; intros x Hx; apply K2, removelast_incl, Hx|apply K, Ht]]).
      - apply K1, Hx.
      - destruct Hx as [<-|Hx]; [eapply K3; eauto|apply K1, Hx].
    Qed.
    Lemma tk_mergeDown vs ks i vs' ks' : amergeDown vs ks i = Some (vs', ks') -> good ks -> good ks'.
    Proof.
      unfold amergeDown, guard. intros H K. set (j := match i with O => O | S j => j end) in *.
      destruct (nth_error ks j) as [[m1 r1 cv ck]|] eqn:E1; [|discriminate].
      destruct (nth_error ks (S j)) as [[m2 r2 rv rk]|] eqn:E2; try discriminate.
      destruct (nth_error vs j) as [v|]; [|discriminate]. destruct (_ && _); [|discriminate]. injection H as <- <-.
      pose proof (kid_tk _ _ _ _ _ _ K E1) as K1. pose proof (kid_tk _ _ _ _ _ _ K E2) as K2.
      intros t Ht. apply del_nth_incl, set_nth_incl in Ht as [->|Ht]; [|apply K, Ht]. apply tk_new. intros x Hx.
      apply in_app_iff in Hx as [Hx|Hx]; [apply K1, Hx|apply K2, Hx].
    Qed.
    Lemma tk_rebalance vs ks i vs' ks' u : arebalance n vs ks i = Some (vs', ks', u) -> good ks -> good ks'.
    Proof.
      unfold arebalance. intros H K.
      assert (ML : match amergeDown vs ks i with Some (vs', ks') => Some (vs', ks', Nat.ltb (length vs') (minValues n)) | None => None end = Some (vs', ks', u) -> good ks').
      { intros E. destruct (amergeDown vs ks i) as [[a b]|] eqn:M; [|discriminate]. injection E as <- <- <-. eapply tk_mergeDown; eauto. }
      assert (RL : match arotateLeft vs ks i with Some (vs', ks') => Some (vs', ks', false) | None => None end = Some (vs', ks', u) -> good ks').
      { intros E. destruct (arotateLeft vs ks i) as [[a b]|] eqn:M; [|discriminate]. injection E as <- <- <-. eapply tk_rotateLeft; eauto. }
      assert (RR : match arotateRight vs ks i with Some (vs', ks') => Some (vs', ks', false) | None => None end = Some (vs', ks', u) -> good ks').
      { intros E. destruct (arotateRight vs ks i) as [[a b]|] eqn:M; [|discriminate]. injection E as <- <- <-. eapply tk_rotateRight; eauto. }
      destruct (Nat.eqb i 0).
      - destruct (match nth_error ks 1 with Some _ => _ | None => _ end) as [[|]|]; try discriminate; auto.
      - destruct (Nat.eqb i (length ks - 1)).
        + destruct (match nth_error ks (i - 1) with Some _ => _ | None => _ end) as [[|]|]; try discriminate; auto.
        + destruct (match nth_error ks (i + 1) with Some _ => _ | None => _ end) as [[|]|]; try discriminate;
            destruct (match nth_error ks (i - 1) with Some _ => _ | None => _ end) as [[|]|]; try discriminate; auto.
    Qed.
    Lemma tk_take c sk t : forall t' e, atake n c sk t = Some (t', e) -> tk G t -> tk G t'.
    Proof.
      induction t as [m rs vs ks IH] using atree_all. intros t' e H K. destruct vs as [|e0 vs]; [discriminate|]. apply tk_inv in K as (_ & _ & K).
      cbn [atake] in H. unfold guard in H at 1. destruct (afree _); [|discriminate]. destruct ks as [|k0 ks].
      - destruct (nth_error _ _) as [x|]; [|discriminate]. injection H as <- <-. apply tk_new. intros t [].
      - rewrite on_nth_spec in H. set (ci := if negb (less (fst e0) sk) then 0 else length (k0 :: ks) - 1) in *.
        destruct (nth_error (k0 :: ks) ci) as [k|] eqn:E; [|discriminate]. cbn [option_map] in *.
        destruct (atake n c sk k) as [[t2 e2]|] eqn:T; [|discriminate]. injection H as <- <-. apply tk_new. intros t Ht.
        apply nth_error_In in E. apply set_nth_incl in Ht as [->|Ht]; [|apply K, Ht]. rewrite Forall_forall in IH. eapply IH; eauto.
    Qed.
  End G.

  Lemma rkey_odd c k x : rkey bops c = Some k -> Nat.odd x = true -> x <> c.
  Proof. intros H E ->. apply rkey_even in H. congruence. Qed.

  Lemma lstep_tk G log t o t' : 2 <= n -> good_calls bops -> lstep n bops t o t' ->
    forall rt h, inv n bops log rt h (er t) -> tk G t -> tk G t'.
  Proof.
    intros Hn Hg St. induction St; intros rt h I T; pose proof T as T0; apply tk_inv in T as (T1 & T2 & T3).
    - apply tk_new, T3.
    - apply tk_new. intros t [].
    - apply tk_new. intros t Ht. apply in_app_iff in Ht as [Ht|[<-|Ht]].
      + apply T3, in_or_app. left. exact Ht.
      + assert (X : tk G (ANode MFree [] cv ck)) by (apply T3, in_or_app; right; left; reflexivity). apply tk_inv in X as (_ & _ & X). apply tk_new, X.
      + apply T3, in_or_app. right. right. exact Ht.
    - apply tk_new. subst ks. assert (X : tk G (ANode (MOver c) [] cv ck)) by (apply T3, in_or_app; right; left; reflexivity).
      apply tk_inv in X as (_ & _ & X). destruct (tk_split G _ _ _ _ _ H0 X) as [XL XR].
      intros t Ht. apply in_app_iff in Ht as [Ht|[<-|[<-|Ht]]]; auto; apply T3; [eapply firstn_incl|eapply skipn_incl]; eauto.
    - apply tk_new, T3.
    - apply tk_new, T3.
    - apply tk_new. intros t [].
    - apply tk_new. intros t Ht. apply set_nth_incl in Ht as [->|Ht]; [|apply T3, Ht]. eapply tk_take; eauto. apply T3. eapply nth_error_In; eauto.
    - apply tk_new. eapply tk_rebalance; eauto.
    - apply tk_new, T3.
    - constructor; [congruence| |exact T3]. intros x Hx Ox. rewrite (P_rs _ _ (r1 ++ c :: r2)). apply T2; [|exact Ox].
      apply in_app_iff in Hx as [Hx|Hx]; apply in_or_app; [left|right; right]; exact Hx.
    - constructor; [congruence| |exact T3]. intros x Hx Ox. rewrite (P_rs _ _ (r1 ++ c :: r2)). apply T2; [|exact Ox].
      apply in_app_iff in Hx as [Hx|Hx]; apply in_or_app; [left|right; right]; exact Hx.
    - assert (X : tk G (ANode MFree rs cv ck)) by (apply T3, in_or_app; right; left; reflexivity). apply tk_inv in X as (_ & X2 & X3).
      constructor; [congruence| |].
      + intros x Hx Ox. transitivity (P (ANode MFree (r1 ++ c :: r2) vs (l1 ++ ANode MFree rs cv ck :: l2))).
        * rewrite !P_free, !map_app. reflexivity.
        * apply T2; [|exact Ox]. apply in_app_iff in Hx as [Hx|Hx]; apply in_or_app; [left|right; right]; exact Hx.
      + intros t Ht. apply in_app_iff in Ht as [Ht|[<-|Ht]].
        * apply T3, in_or_app. left. exact Ht.
        * constructor; [congruence| |exact X3]. intros x [<-|Hx] Ox; [destruct (rkey_odd _ _ _ H Ox eq_refl)|]. apply (X2 x Hx Ox).
        * apply T3, in_or_app. right. right. exact Ht.
    - cbn [er] in I. rewrite map_app in I. cbn [map] in I. apply inv_elim in I as (_ & _ & K).
      destruct h as [|h]; [destruct (map er l1); discriminate K|]. rewrite Forall_forall in K.
      assert (It : inv n bops log false h (er t)) by (apply K, in_or_app; right; left; reflexivity).
      destruct (lstep_kept n bops log (er t) o (er t') Hn Hg (er_lstep n ops _ _ _ St) false h It) as (F & _ & _). rewrite !er_fl in F.
      assert (EP : forall rs', P (ANode m rs' vs (l1 ++ t' :: l2)) = P (ANode m rs' vs (l1 ++ t :: l2))).
      { intros rs'. unfold P. rewrite !fl_eq, !map_app. cbn [map]. rewrite F. reflexivity. }
      constructor; [exact T1| |].
      + intros x Hx Ox. rewrite EP. apply T2; assumption.
      + intros u Hu. apply in_app_iff in Hu as [Hu|[<-|Hu]].
        * apply T3, in_or_app. left. exact Hu.
        * eapply IHSt; [exact It|]. apply T3, in_or_app. right. left. reflexivity.
        * apply T3, in_or_app. right. right. exact Hu.
  Qed.

  (** ... and at the top *)
  Definition tks (G : nat -> node V) (r : option atree) : Prop := match r with Some t => tk G t | None => True end.
  Definition below (r : option atree) : node V := match r with Some t => P t | None => Node [] [] end.

  Lemma step_tk G log s e s' : 2 <= n -> good_calls bops -> step n bops s e s' -> (forall c, In c (trs s) -> Nat.odd c = false) ->
    match root (er_state s) with Some t => exists h, inv n bops log true h t | None => True end ->
    tks G (root s) -> tks G (root s').
  Proof.
    intros Hn Hg St Ht I T. destruct St; cbn [root] in *; auto.
    - exact Logic.I.
    - apply tk_new. intros t [].
    - rewrite H0 in T. apply tk_inv in T as (_ & _ & T). apply tk_new, T.
    - rewrite H0 in T. exact T.
    - rewrite H0 in T. apply tk_inv in T as (_ & _ & T). destruct (tk_split G _ _ _ _ _ H1 T). apply tk_new. intros t [<-|[<-|[]]]; assumption.
    - rewrite H0 in T. apply tk_inv in T as (_ & _ & T). destruct vs as [|v vs]; [destruct ks as [|t ks]; [exact Logic.I|apply T; left; reflexivity]|apply tk_new, T].
    - exact Logic.I.
    - rewrite H0 in T. apply tk_inv in T as (_ & T2 & T). cbn [tks]. constructor; [congruence| |exact T]. intros x [<-|Hx] Ox; [|apply (T2 x Hx Ox)].
      rewrite (Ht c) in Ox; [discriminate|]. rewrite H. apply in_or_app. right. left. reflexivity.
    - rewrite H in T. unfold er_state in I. cbn [root] in I. rewrite H in I. destruct I as [h I]. eapply lstep_tk; eauto.
  Qed.
End Tk.
