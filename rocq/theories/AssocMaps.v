(** Lemmas about the finite maps and index nodes of the associated tree. *)
From Coq Require Import Permutation SpecFloat.
From Verif Require Import Datatypes SpecValues DatatypesProofs Collections SpecCollections CollectionsProofs Query SpecQuery QueryProofs Assoc.
Local Open Scope nat_scope.

(** * Finite maps *)
Section AMap.
  Context {K X : Type} (eqb : K -> K -> bool) (G : K -> Prop).
  Fixpoint awf (m : list (K * X)) : Prop :=
    match m with
    | [] => True
    | (k, x) :: r => G k /\ (forall k' x', In (k', x') r -> eqb k k' = false) /\ awf r
    end.
  Hypothesis Hrefl : forall a, G a -> eqb a a = true.
  Hypothesis Hsym : forall a b, G a -> G b -> eqb a b = eqb b a.
  Hypothesis Htr : forall a b c, G a -> G b -> G c -> eqb a b = true -> eqb a c = eqb b c.

  Lemma awf_G m k x : awf m -> In (k, x) m -> G k.
  Proof. induction m as [|[k0 x0] m IH]; [intros _ []|]. cbn. intros (H1 & H2 & H3) [[= -> ->] | HI]; auto. Qed.
  Lemma aget_congr a b m : G a -> G b -> awf m -> eqb a b = true -> aget eqb a m = aget eqb b m.
  Proof.
    intros Ga Gb W E. induction m as [|[k x] m IH]; [reflexivity|]. destruct W as (Gk & _ & W). cbn.
    rewrite (Htr a b k) by auto. rewrite IH by auto. reflexivity.
  Qed.
  Lemma aget_aset k k' x m : G k -> G k' -> awf m ->
    aget eqb k' (aset eqb k x m) = if eqb k k' then Some x else aget eqb k' m.
  Proof.
    intros Gk Gk' W. induction m as [|[k0 x0] m IH]; cbn.
    - rewrite (Hsym k' k) by auto. reflexivity.
    - destruct W as (G0 & _ & W). destruct (eqb k k0) eqn:E; cbn.
      + rewrite (Htr k k0 k') by auto. rewrite (Hsym k' k0) by auto. destruct (eqb k0 k'); reflexivity.
      + rewrite IH by auto. destruct (eqb k' k0) eqn:E'; [|reflexivity].
        destruct (eqb k k') eqn:E''; [|reflexivity]. rewrite (Htr k k' k0) in E by auto. congruence.
  Qed.
  Lemma aget_none_In k m : awf m -> aget eqb k m = None -> forall k' x, In (k', x) m -> eqb k k' = false.
  Proof.
    induction m as [|[k0 x0] m IH]; [intros _ _ ? ? []|]. intros (G0 & _ & W). cbn. destruct (eqb k k0) eqn:E; [discriminate|].
    intros H k' x [[= -> ->] | HI]; eauto.
  Qed.
  Lemma aget_adel k k' m : G k -> G k' -> awf m ->
    aget eqb k' (adel eqb k m) = if eqb k k' then None else aget eqb k' m.
  Proof.
    intros Gk Gk' W. induction m as [|[k0 x0] m IH]; cbn.
    - destruct (eqb k k'); reflexivity.
    - destruct W as (G0 & D & W). destruct (eqb k k0) eqn:E; cbn.
      + rewrite (Htr k k0 k') by auto. rewrite (Hsym k' k0) by auto. destruct (eqb k0 k') eqn:E'; [|reflexivity].
        clear IH. induction m as [|[k1 x1] m IHm]; [reflexivity|]. destruct W as (G1 & D1 & W1). cbn.
        rewrite <- (Htr k0 k' k1) by auto. rewrite (D k1 x1) by (left; reflexivity). apply IHm; auto.
        intros k2 x2 H2. apply (D k2 x2). right; exact H2.
      + rewrite IH by auto. destruct (eqb k' k0) eqn:E'; [|reflexivity].
        destruct (eqb k k') eqn:E''; [|reflexivity]. rewrite (Htr k k' k0) in E by auto. congruence.
  Qed.
  Lemma In_aset (k : K) (x : X) (m : list (K * X)) (k' : K) (x' : X) : In (k', x') (aset eqb k x m) -> (In (k', x') m /\ True) \/ (x' = x /\ (k' = k \/ exists x0, In (k', x0) m)).
  Proof.
    induction m as [|[k0 x0] m IH]; cbn.
    - intros [[= <- <-] | []]; auto.
    - destruct (eqb k k0).
      + intros [[= <- <-] | H]; [right; split; [reflexivity|right; eauto]|left; auto].
      + intros [[= <- <-] | H]; [left; auto|]. destruct (IH H) as [[? _] | [-> [-> | [x1 H1]]]]; [left; auto|right; auto|right; eauto].
  Qed.
  Lemma aset_wf k x m : G k -> awf m -> awf (aset eqb k x m).
  Proof.
    intros Gk. induction m as [|[k0 x0] m IH]; cbn.
    - intros _. split; [auto|]. split; [intros ? ? []|auto].
    - intros (G0 & D & W). destruct (eqb k k0) eqn:E; cbn.
      + split; [auto|]. split; auto.
      + split; [auto|]. split; [|auto]. intros k' x' HI. apply In_aset in HI as [[HI _] | [-> [-> | [x1 HI]]]]; [eauto|rewrite Hsym by auto; exact E|eauto].
  Qed.
  Lemma In_adel (k : K) (m : list (K * X)) (k' : K) (x' : X) : In (k', x') (adel eqb k m) -> In (k', x') m.
  Proof.
    induction m as [|[k0 x0] m IH]; cbn; [auto|]. destruct (eqb k k0); [auto|]. intros [H | H]; auto.
  Qed.
  Lemma adel_wf k m : awf m -> awf (adel eqb k m).
  Proof.
    induction m as [|[k0 x0] m IH]; cbn; [auto|]. intros (G0 & D & W). destruct (eqb k k0); [auto|]. cbn. split; [auto|].
    split; [|auto]. intros k' x' HI. apply In_adel in HI. eauto.
  Qed.
  Lemma aget_In (k : K) (m : list (K * X)) (x : X) : aget eqb k m = Some x -> exists k0, In (k0, x) m /\ eqb k k0 = true.
  Proof.
    induction m as [|[k0 x0] m IH]; cbn; [discriminate|]. destruct (eqb k k0) eqn:E.
    - intros [= <-]. exists k0. auto.
    - intros H. destruct (IH H) as (k1 & HI & E1). eauto.
  Qed.
  Lemma In_aget (k k0 : K) (m : list (K * X)) (x : X) : G k -> awf m -> In (k0, x) m -> eqb k k0 = true -> aget eqb k m = Some x.
  Proof.
    intros Gk W HI E. induction m as [|[k1 x1] m IH]; [destruct HI|]. destruct W as (G1 & D & W). cbn.
    destruct HI as [[= -> ->] | HI]; [rewrite E; reflexivity|].
    assert (Gk0 : G k0) by (eapply awf_G; eauto).
    destruct (eqb k k1) eqn:E1; [|auto]. rewrite (Htr k k0 k1), (Hsym k0 k1), (D k0 x) in E1; auto. discriminate.
  Qed.
  Lemma In_self (m : list (K * X)) k0 x : awf m -> In (k0, x) m -> aget eqb k0 m = Some x.
  Proof. intros W HI. eapply In_aget; eauto using awf_G. Qed.
End AMap.

(** * The two key equalities *)
Lemma veq_iff a b : good a -> good b -> veq a b = true <-> same_value a b.
Proof. intros. unfold veq. rewrite andb_true_iff, !negb_true_iff. apply incomparable_iff; auto. Qed.
Lemma same_value_refl a : same_value a a.
Proof. split; [reflexivity|constructor]. Qed.
Lemma same_payload_trans a b c : same_payload a b -> same_payload b c -> same_payload a c.
Proof. intros H1 H2. inversion H1; subst; auto; inversion H2; subst; constructor. Qed.
Lemma same_value_trans a b c : same_value a b -> same_value b c -> same_value a c.
Proof. intros [? ?] [? ?]. split; [congruence|]. eapply same_payload_trans; eauto. Qed.
Lemma veq_refl a : good a -> veq a a = true.
Proof. intros. apply veq_iff; auto using same_value_refl. Qed.
Lemma veq_sym a b : good a -> good b -> veq a b = veq b a.
Proof. intros. unfold veq. apply andb_comm. Qed.
Lemma veq_tr a b c : good a -> good b -> good c -> veq a b = true -> veq a c = veq b c.
Proof.
  intros Ga Gb Gc E. apply veq_iff in E; auto. apply eq_true_iff_eq. rewrite !veq_iff by auto.
  split; intros; eapply same_value_trans; eauto using same_value_sym.
Qed.
Definition anything {A} (_ : A) : Prop := True.
Lemma seq_refl (a : string) : anything a -> String.eqb a a = true.
Proof. intros; apply String.eqb_refl. Qed.
Lemma seq_sym (a b : string) : anything a -> anything b -> String.eqb a b = String.eqb b a.
Proof. intros; apply String.eqb_sym. Qed.
Lemma seq_tr (a b c : string) : anything a -> anything b -> anything c -> String.eqb a b = true -> String.eqb a c = String.eqb b c.
Proof. intros _ _ _ H. apply String.eqb_eq in H. subst; reflexivity. Qed.
Lemma anything_I {A} (a : A) : anything a. Proof. exact I. Qed.
#[export] Hint Resolve veq_refl veq_sym veq_tr seq_refl seq_sym seq_tr anything_I : amap.

(** * Well-formed indexes and their nodes *)
Notation vwf := (awf (X := levels) veq good).
Definition iwf (ix : index) : Prop :=
  awf String.eqb anything ix /\ forall k vs, In (k, vs) ix -> vwf vs /\ vs <> [].

Lemma iwf_nil : iwf [].
Proof. split; [exact I|intros ? ? []]. Qed.
Lemma iwf_get ix k vs : iwf ix -> aget String.eqb k ix = Some vs -> vwf vs /\ vs <> [].
Proof. intros [_ H] E. apply aget_In in E as (k0 & HI & _). eauto. Qed.

Lemma node_congr ix k v v' : iwf ix -> good v -> good v' -> veq v v' = true -> node_of ix k v = node_of ix k v'.
Proof.
  intros W Gv Gv' E. unfold node_of. destruct (aget String.eqb k ix) eqn:EK; [|reflexivity].
  apply iwf_get in EK as [VW _]; auto. eapply aget_congr; eauto with amap.
Qed.
Lemma aset_nonnil {K X} (eqb : K -> K -> bool) k (x : X) m : aset eqb k x m <> [].
Proof. destruct m as [|[k0 x0] m]; cbn; [discriminate|]. destruct (eqb k k0); discriminate. Qed.
Lemma set_vals_iwf ix k vs : iwf ix -> vwf vs -> vs <> [] -> iwf (aset String.eqb k vs ix).
Proof.
  intros [W H] VW NE. split.
  - apply aset_wf; auto with amap.
  - intros k' vs' HI. apply In_aset in HI as [[HI _] | [-> _]]; eauto.
Qed.
Lemma del_key_iwf ix k : iwf ix -> iwf (adel String.eqb k ix).
Proof.
  intros [W H]. split; [apply adel_wf; auto|]. intros k' vs HI. apply In_adel in HI. eauto.
Qed.
Lemma set_node_iwf ix k v lv : iwf ix -> good v -> iwf (set_node ix k v lv).
Proof.
  intros W Gv. unfold set_node. apply set_vals_iwf; auto using aset_nonnil.
  destruct (aget String.eqb k ix) eqn:EK.
  - apply iwf_get in EK as [VW _]; auto. apply aset_wf; auto with amap.
  - cbn. split; [auto|]. split; [intros ? ? []|auto].
Qed.
Lemma node_set_vals ix k vs k' v' : iwf ix ->
  node_of (aset String.eqb k vs ix) k' v' = if String.eqb k k' then aget veq v' vs else node_of ix k' v'.
Proof.
  intros [W _]. unfold node_of. rewrite (aget_aset String.eqb anything) by auto with amap. destruct (String.eqb k k'); reflexivity.
Qed.
Lemma node_set ix k v lv k' v' : iwf ix -> good v -> good v' ->
  node_of (set_node ix k v lv) k' v' = if String.eqb k k' && veq v v' then Some lv else node_of ix k' v'.
Proof.
  intros W Gv Gv'. unfold set_node. rewrite node_set_vals by auto.
  destruct (String.eqb_spec k k') as [-> | N]; [|reflexivity]. cbn [andb]. unfold node_of.
  destruct (aget String.eqb k' ix) eqn:EK.
  - apply iwf_get in EK as [VW _]; auto. rewrite (aget_aset veq good) by auto with amap. reflexivity.
  - cbn. rewrite (veq_sym v' v) by auto. reflexivity.
Qed.

(** An operation that acts on the node of one pair and on no other. *)
Definition pointwise (f : index -> string * EV -> index) (g : option levels -> option levels) : Prop :=
  forall ix k v, iwf ix -> good v ->
    iwf (f ix (k, v)) /\
    forall k' v', good v' ->
      node_of (f ix (k, v)) k' v' = if String.eqb k k' && veq v v' then g (node_of ix k' v') else node_of ix k' v'.

Lemma upd_pointwise h : pointwise (upd_node h) (option_map h).
Proof.
  intros ix k v W Gv. unfold upd_node. cbn [fst snd]. destruct (node_of ix k v) eqn:E.
  - split; [apply set_node_iwf; auto|]. intros k' v' Gv'. rewrite node_set by auto.
    destruct (String.eqb_spec k k') as [-> | N]; [|reflexivity]. destruct (veq v v') eqn:EV; [|reflexivity]. cbn.
    rewrite <- (node_congr ix k' v v') by auto. rewrite E. reflexivity.
  - split; [auto|]. intros k' v' Gv'.
    destruct (String.eqb_spec k k') as [-> | N]; [|reflexivity]. destruct (veq v v') eqn:EV; [|reflexivity]. cbn.
    rewrite <- (node_congr ix k' v v') by auto. rewrite E. reflexivity.
Qed.
Definition g_ensure (o : option levels) : option levels := Some (match o with Some l => l | None => [] end).
Lemma ensure_pointwise : pointwise ensure_node g_ensure.
Proof.
  intros ix k v W Gv. unfold ensure_node. cbn [fst snd]. destruct (node_of ix k v) eqn:E.
  - split; [auto|]. intros k' v' Gv'.
    destruct (String.eqb_spec k k') as [-> | N]; [|reflexivity]. destruct (veq v v') eqn:EV; [|reflexivity]. cbn.
    rewrite <- (node_congr ix k' v v') by auto. rewrite E. reflexivity.
  - split; [apply set_node_iwf; auto|]. intros k' v' Gv'. rewrite node_set by auto.
    destruct (String.eqb_spec k k') as [-> | N]; [|reflexivity]. destruct (veq v v') eqn:EV; [|reflexivity]. cbn.
    rewrite <- (node_congr ix k' v v') by auto. rewrite E. reflexivity.
Qed.
Definition g_clean (o : option levels) : option levels := match o with Some [] => None | o => o end.
(** replacing the values of a key by others, deleting the key if none are left *)
Lemma put_vals ix k vs' : iwf ix -> vwf vs' ->
  let ix' := match vs' with [] => adel String.eqb k ix | _ => aset String.eqb k vs' ix end in
  iwf ix' /\ forall k' v', node_of ix' k' v' = if String.eqb k k' then aget veq v' vs' else node_of ix k' v'.
Proof.
  intros W VW. destruct vs' as [|p r]; cbv zeta.
  - split; [apply del_key_iwf; auto|]. intros k' v'. unfold node_of. destruct W as [W _].
    rewrite (aget_adel String.eqb anything) by auto with amap. destruct (String.eqb k k'); reflexivity.
  - split; [apply set_vals_iwf; auto; discriminate|]. intros k' v'. apply node_set_vals; auto.
Qed.
Lemma cleanup_pointwise : pointwise cleanup_node g_clean.
Proof.
  intros ix k v W Gv. unfold cleanup_node. cbn [fst snd]. destruct (aget String.eqb k ix) as [vs|] eqn:EK.
  2:{ split; [auto|]. intros k' v' Gv'. destruct (String.eqb_spec k k') as [-> | N]; [|reflexivity]. cbn. unfold node_of. rewrite EK.
      destruct (veq v v'); reflexivity. }
  destruct (iwf_get ix k vs W EK) as [VW NE].
  set (vs' := match aget veq v vs with Some [] => adel veq v vs | _ => vs end).
  assert (VW' : vwf vs') by (unfold vs'; destruct (aget veq v vs) as [[|? ?]|]; auto; apply adel_wf; auto).
  destruct (put_vals ix k vs' W VW') as [H1 H2]. split; [exact H1|]. intros k' v' Gv'. rewrite H2.
  destruct (String.eqb_spec k k') as [-> | N]; [|reflexivity]. cbn [andb]. unfold node_of. rewrite EK. unfold vs'.
  destruct (veq v v') eqn:EV.
  - rewrite <- (aget_congr veq good veq_tr v v' vs) by auto.
    destruct (aget veq v vs) as [[|? ?]|] eqn:E; cbn [g_clean]; try (rewrite <- (aget_congr veq good veq_tr v v' vs) by auto; exact E).
    rewrite (aget_adel veq good) by auto with amap. rewrite EV. reflexivity.
  - destruct (aget veq v vs) as [[|? ?]|] eqn:E; try reflexivity.
    rewrite (aget_adel veq good) by auto with amap. rewrite EV. reflexivity.
Qed.

(** * Key-values *)
Definition kv_rep (kv : KeyValues) : Prop := NoDup (kv_keys kv) /\ forall k v, In (k, v) kv -> good v.
Lemma kv_get_In kv k v : kv_get kv k = Some v -> In (k, v) kv.
Proof.
  induction kv as [|[k' v'] r IH]; cbn; [discriminate|]. destruct (String.eqb_spec k' k) as [-> | N]; [intros [= <-]; auto|auto].
Qed.
Lemma In_kv_get kv k v : NoDup (kv_keys kv) -> In (k, v) kv -> kv_get kv k = Some v.
Proof.
  induction kv as [|[k' v'] r IH]; cbn; [intros _ []|]. intros ND. apply NoDup_cons_iff in ND as [N ND].
  destruct (String.eqb_spec k' k) as [-> | NE].
  - intros [[= <-] | HI]; [reflexivity|]. exfalso. apply N. apply (in_map fst) in HI. exact HI.
  - intros [[= ? <-] | HI]; [contradiction|auto].
Qed.
Lemma kv_get_iff kv k v : NoDup (kv_keys kv) -> kv_get kv k = Some v <-> In (k, v) kv.
Proof. split; auto using kv_get_In, In_kv_get. Qed.
Lemma kv_get_none kv k : kv_get kv k = None <-> ~ In k (kv_keys kv).
Proof.
  induction kv as [|[k' v'] r IH]; cbn; [tauto|]. destruct (String.eqb_spec k' k) as [-> | N].
  - split; [discriminate|intros H; exfalso; auto].
  - rewrite IH. intuition.
Qed.
Lemma kv_get_good kv k v : kv_rep kv -> kv_get kv k = Some v -> good v.
Proof. intros [_ H] E. apply kv_get_In in E. eauto. Qed.
Lemma kv_insert_perm p l : Permutation (kv_insert p l) (p :: l).
Proof.
  induction l as [|q l IH]; cbn; [reflexivity|]. destruct (str_ltb (fst q) (fst p)); [rewrite IH; apply perm_swap|reflexivity].
Qed.
Lemma sorted_kv_perm kv : Permutation (sorted_kv kv) kv.
Proof. induction kv as [|p l IH]; cbn; [reflexivity|]. rewrite kv_insert_perm. apply perm_skip, IH. Qed.
Lemma sorted_kv_rep kv : kv_rep kv -> kv_rep (sorted_kv kv).
Proof.
  intros [H1 H2]. split.
  - unfold kv_keys. apply (Permutation_NoDup (Permutation_map fst (Permutation_sym (sorted_kv_perm kv)))). exact H1.
  - intros k v HI. apply (Permutation_in _ (sorted_kv_perm kv)) in HI. eauto.
Qed.
Lemma sorted_kv_get kv k : kv_rep kv -> kv_get (sorted_kv kv) k = kv_get kv k.
Proof.
  intros R. pose proof (sorted_kv_rep kv R) as R'.
  assert (H : forall v, kv_get (sorted_kv kv) k = Some v <-> kv_get kv k = Some v).
  { intros v. rewrite !kv_get_iff by (apply R || apply R'). split; apply Permutation_in; [|symmetry]; apply sorted_kv_perm. }
  destruct (kv_get (sorted_kv kv) k) eqn:E1, (kv_get kv k) eqn:E2; try reflexivity.
  - symmetry. apply H. reflexivity.
  - symmetry. apply H. reflexivity.
  - apply H. reflexivity.
Qed.

Lemma fold_pointwise f g : pointwise f g -> forall kv ix, kv_rep kv -> iwf ix ->
  iwf (fold_left f kv ix) /\
  forall k v, good v -> node_of (fold_left f kv ix) k v =
    match kv_get kv k with
    | Some w => if veq w v then g (node_of ix k v) else node_of ix k v
    | None => node_of ix k v
    end.
Proof.
  intros P. induction kv as [|[k0 v0] r IH]; intros ix [ND HG] W; [split; auto|]. cbn [fold_left].
  apply NoDup_cons_iff in ND as [N ND]. assert (G0 : good v0) by (eapply HG; left; reflexivity).
  destruct (P ix k0 v0 W G0) as [W' H']. destruct (IH (f ix (k0, v0))) as [W2 H2]; auto.
  { split; [exact ND|]. intros; eapply HG; right; eauto. }
  split; [exact W2|]. intros k v Gv. rewrite H2 by auto. cbn [kv_get]. rewrite H' by auto.
  destruct (String.eqb_spec k0 k) as [-> | NE].
  - assert (EN : kv_get r k = None) by (apply kv_get_none; exact N). rewrite EN. cbn. destruct (veq v0 v); reflexivity.
  - cbn. reflexivity.
Qed.
Lemma fold_sorted f g kv ix : pointwise f g -> kv_rep kv -> iwf ix ->
  iwf (fold_left f (sorted_kv kv) ix) /\
  forall k v, good v -> node_of (fold_left f (sorted_kv kv) ix) k v =
    match kv_get kv k with
    | Some w => if veq w v then g (node_of ix k v) else node_of ix k v
    | None => node_of ix k v
    end.
Proof.
  intros P R W. destruct (fold_pointwise f g P (sorted_kv kv) ix (sorted_kv_rep kv R) W) as [H1 H2].
  split; [exact H1|]. intros k v Gv. rewrite H2 by auto. rewrite sorted_kv_get by auto. reflexivity.
Qed.

(** * Levels *)
Lemma nth_extend n lv L : nth L (extend n lv) [] = nth L lv [].
Proof.
  unfold extend. destruct (Nat.lt_ge_cases L (length lv)).
  - apply app_nth1; auto.
  - rewrite app_nth2 by auto. rewrite (nth_overflow lv) by auto. apply nth_repeat.
Qed.
Lemma extend_length n lv : length (extend n lv) = max n (length lv).
Proof. unfold extend. rewrite app_length, repeat_length. lia. Qed.
Lemma extend_id n lv : n <= length lv -> extend n lv = lv.
Proof. intros. unfold extend. replace (n - length lv) with 0 by lia. apply app_nil_r. Qed.
Lemma nth_set_level i l lv L : i < length lv -> nth L (set_level i l lv) [] = if Nat.eqb i L then l else nth L lv [].
Proof.
  revert i L. induction lv as [|x lv IH]; intros i L H; [cbn in H; lia|]. destruct i, L; cbn; auto. apply IH. cbn in H; lia.
Qed.
Lemma set_level_length i l lv : length (set_level i l lv) = length lv.
Proof. revert i. induction lv as [|x lv IH]; intros [|i]; cbn; auto. Qed.
Lemma nth_truncate lv L : nth L (truncate lv) [] = nth L lv [].
Proof.
  revert L. induction lv as [|l lv IH]; intros L; [reflexivity|]. cbn [truncate].
  destruct (truncate lv) as [|t r] eqn:E.
  - destruct l; cbn.
    + destruct L; [reflexivity|]. rewrite <- IH. destruct L; reflexivity.
    + destruct L; [reflexivity|]. rewrite <- IH. destruct L; reflexivity.
  - destruct L; [destruct l; reflexivity|]. cbn [nth]. destruct l; cbn [nth]; apply IH.
Qed.
Definition tidy (lv : levels) : Prop := lv <> [] /\ last lv [] <> [].
Lemma truncate_tidy lv : truncate lv = [] \/ tidy (truncate lv).
Proof.
  induction lv as [|l lv IH]; cbn [truncate]; [auto|]. destruct IH as [-> | [N H]].
  - destruct l; [auto|]. right. split; discriminate.
  - right. destruct (truncate lv) as [|t r] eqn:E; [contradiction|]. destruct l; (split; [discriminate|exact H]).
Qed.
Lemma nth_nonempty_truncate lv L : nth L lv [] <> [] -> truncate lv <> [].
Proof. intros H C. rewrite <- nth_truncate, C in H. destruct L; contradiction. Qed.
Lemma last_nth (lv : levels) : last lv [] = nth (length lv - 1) lv [].
Proof.
  induction lv as [|x lv IH]; [reflexivity|]. destruct lv as [|y lv]; [reflexivity|].
  change (last (x :: y :: lv) []) with (last (y :: lv) []). rewrite IH. cbn. rewrite Nat.sub_0_r. reflexivity.
Qed.
(** removing an id *)
Lemma replace_first_perm id z l : NoDup (l ++ [z]) -> In id (l ++ [z]) ->
  Permutation (id :: removelast (replace_first id z (l ++ [z]))) (l ++ [z]).
Proof.
  intros ND HI. destruct (string_dec id z) as [-> | NE].
  - assert (N : ~ In z l).
    { intros C. apply NoDup_remove_2 in ND. rewrite app_nil_r in ND. auto. }
    assert (E : replace_first z z (l ++ [z]) = l ++ [z]).
    { clear -N. induction l as [|x l IH]; cbn.
      - rewrite String.eqb_refl. reflexivity.
      - destruct (String.eqb_spec x z) as [-> | NE]; [exfalso; apply N; left; reflexivity|]. rewrite IH; auto. intros C; apply N; right; auto. }
    rewrite E, removelast_last. apply Permutation_cons_append.
  - apply in_app_or in HI as [HI | [C | []]]; [|congruence].
    apply in_split in HI as (l1 & l2 & ->).
    assert (N : ~ In id l1).
    { rewrite <- app_assoc in ND. cbn in ND. apply NoDup_remove_2 in ND. intros C. apply ND. apply in_or_app. auto. }
    assert (E : forall r, replace_first id z (l1 ++ id :: r) = l1 ++ z :: r).
    { intros r. clear -N. induction l1 as [|x l IH]; cbn.
      - rewrite String.eqb_refl. reflexivity.
      - destruct (String.eqb_spec x id) as [-> | NE]; [exfalso; apply N; left; reflexivity|]. rewrite IH; auto. intros C; apply N; right; auto. }
    rewrite <- app_assoc. cbn [app]. rewrite E.
    replace (l1 ++ z :: l2 ++ [z]) with ((l1 ++ z :: l2) ++ [z]) by (rewrite <- app_assoc; reflexivity). rewrite removelast_last.
    rewrite <- (Permutation_middle l1 (l2 ++ [z]) id). apply perm_skip. apply Permutation_app_head. apply Permutation_cons_append.
Qed.
Lemma swap_pop_spec id l : NoDup l ->
  NoDup (swap_pop id l) /\ forall x, In x (swap_pop id l) <-> In x l /\ x <> id.
Proof.
  intros ND. unfold swap_pop. destruct (mem id l) eqn:E.
  - apply mem_iff in E. destruct (exists_last (l := l)) as (l' & z & ->); [intros C; subst; destruct E|].
    rewrite last_last. pose proof (replace_first_perm id z l' ND E) as P.
    pose proof (Permutation_NoDup (Permutation_sym P) ND) as ND'. apply NoDup_cons_iff in ND' as [N1 N2].
    split; [exact N2|]. intros x. split.
    + intros HI. split; [apply (Permutation_in _ P); right; exact HI|intros ->; contradiction].
    + intros [HI NE]. apply (Permutation_in _ (Permutation_sym P)) in HI as [-> | HI]; [contradiction|exact HI].
  - apply mem_false in E. split; [exact ND|]. intros x. split; [intros HI; split; [exact HI|intros ->; contradiction]|tauto].
Qed.
