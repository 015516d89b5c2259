(** Proofs about the one-to-many tree. *)
From Coq Require Import Permutation SpecFloat.
From Verif Require Import Datatypes SpecValues DatatypesProofs Collections SpecCollections CollectionsProofs Query SpecQuery QueryProofs
  Assoc SpecAssoc AssocMaps AssocProofs AssocQueryProofs AssocOps AssocMatchProofs PropLemmasAssoc OneToMany SpecOneToMany.
Local Open Scope nat_scope.

Section P.
  Context {A : Type}.
  Implicit Type m : otm A.
  Notation W := (awf String.eqb (@anything string)).

  Lemma get_set m o o' t : W m -> otm_get (otm_set m o t) o' = if string_dec o o' then Some t else otm_get m o'.
  Proof.
    intros H. unfold otm_get, otm_set. rewrite (aget_aset String.eqb anything) by auto with amap.
    destruct (string_dec o o') as [-> | N]; [rewrite String.eqb_refl; reflexivity|]. apply String.eqb_neq in N. rewrite N. reflexivity.
  Qed.
  Lemma get_del m o o' : W m -> otm_get (otm_del m o) o' = if string_dec o o' then None else otm_get m o'.
  Proof.
    intros H. unfold otm_get, otm_del. rewrite (aget_adel String.eqb anything) by auto with amap.
    destruct (string_dec o o') as [-> | N]; [rewrite String.eqb_refl; reflexivity|]. apply String.eqb_neq in N. rewrite N. reflexivity.
  Qed.
  Lemma set_W m o t : W m -> W (otm_set m o t).
  Proof. intros. apply (aset_wf String.eqb anything); auto with amap. Qed.
  Lemma del_W m o : W m -> W (otm_del m o).
  Proof. intros. apply (adel_wf String.eqb anything); auto with amap. Qed.
  Lemma step_W m x : W m -> W (fst (orun m x)).
  Proof.
    intros H. destruct x; cbn [orun]; unfold OtmCreateOrFind, OtmDelete, OtmDestroyByID, OtmDestroyOne, otm_update;
      repeat match goal with
             | |- context[if ?b then _ else _] => destruct b
             | |- context[match otm_get ?a ?b with _ => _ end] => destruct (otm_get a b)
             | |- context[let '(_, _) := ?e in _] => destruct e
             end; cbn [fst]; auto using set_W, del_W.
  Qed.

  (** A call only touches its owner's tree, and depends on nothing else. *)
  Lemma step_frame m x o : W m -> owner x <> o -> otm_get (fst (orun m x)) o = otm_get m o.
  Proof.
    intros H N. destruct x; cbn [orun owner] in *; unfold OtmCreateOrFind, OtmDelete, OtmDestroyByID, OtmDestroyOne, otm_update;
      repeat match goal with
             | |- context[if ?b then _ else _] => lazymatch b with string_dec _ _ => fail | _ => destruct b end
             | |- context[match otm_get ?a ?b with _ => _ end] => destruct (otm_get a b)
             | |- context[let '(_, _) := ?e in _] => destruct e
             end; cbn [fst]; try reflexivity; rewrite ?get_set, ?get_del by exact H;
      match goal with |- context[string_dec ?a ?b] => destruct (string_dec a b); [contradiction|reflexivity] end.
  Qed.
  Lemma step_local m m' x : W m -> W m' -> otm_get m (owner x) = otm_get m' (owner x) ->
    snd (orun m x) = snd (orun m' x) /\ otm_get (fst (orun m x)) (owner x) = otm_get (fst (orun m' x)) (owner x).
  Proof.
    intros H H' E. destruct x; cbn [orun owner] in *; unfold OtmCreateOrFind, OtmDelete, OtmDestroyByID, OtmDestroyOne, otm_update; rewrite <- E;
      repeat match goal with
             | |- context[if ?b then _ else _] => lazymatch b with string_dec _ _ => fail | _ => destruct b end
             | |- context[match otm_get ?a ?b with _ => _ end] => let E := fresh "E0" in destruct (otm_get a b) eqn:E
             | |- context[let '(_, _) := ?e in _] => destruct e
             end; cbn [fst snd]; (split; [reflexivity|]); rewrite ?get_set, ?get_del by assumption; try congruence;
      match goal with |- context[string_dec ?a ?a] => destruct (string_dec a a); [reflexivity|contradiction] end.
  Qed.

  Lemma run_local o xs : forall m m', W m -> W m' -> otm_get m o = otm_get m' o ->
    otm_get (otm_run m xs) o = otm_get (otm_run m' (only_owner o xs)) o /\ answers o m xs = answers o m' (only_owner o xs).
  Proof.
    induction xs as [|x xs IH]; intros m m' H H' E; [auto|].
    cbn [otm_run answers only_owner filter]. destruct (string_dec (owner x) o) as [<- | N]; cbn [otm_run answers].
    - destruct (step_local m m' x H H' E) as [E1 E2]. destruct (string_dec (owner x) (owner x)) as [_|]; [|contradiction].
      rewrite E1. fold (only_owner (owner x) xs). destruct (IH (fst (orun m x)) (fst (orun m' x))) as [I1 I2]; auto using step_W. rewrite I1, I2. auto.
    - fold (only_owner o xs). destruct (IH (fst (orun m x)) m') as [I1 I2]; auto using step_W. rewrite step_frame by auto. exact E.
  Qed.
  Lemma query_local m m' o q : otm_get m o = otm_get m' o -> forall S (cb : S -> many A -> S * bool) s, OtmQueryAction m o q cb s = OtmQueryAction m' o q cb s.
  Proof. intros E S cb s. unfold OtmQueryAction. rewrite E. reflexivity. Qed.
  Lemma match_local m m' o q : otm_get m o = otm_get m' o -> forall S (cb : S -> many A -> S * bool) s, OtmMatchAction m o q cb s = OtmMatchAction m' o q cb s.
  Proof. intros E S cb s. unfold OtmMatchAction. rewrite E. reflexivity. Qed.

  (** ** The invariant *)
  Definition labelled (o : string) (i : item (many A)) : Prop := m_one (it_val i) = o /\ m_id (it_val i) = it_id i /\ m_kv (it_val i) = it_kv i.
  Definition tree_ok (used : list string) (o : string) (t : atree (many A)) : Prop :=
    o <> EmptyString /\ (exists u, areach t u /\ incl u used) /\ forall i, In i (a_items t) -> labelled o i.
  Definition oinv m (used : list string) : Prop := W m /\ forall o t, otm_get m o = Some t -> tree_ok used o t.

  Lemma tree_ok_incl u u' o t : incl u u' -> tree_ok u o t -> tree_ok u' o t.
  Proof. intros HI (N & (v & R & I1) & L). split; [exact N|]. split; [exists v; split; [exact R|]; intros x Hx; auto|exact L]. Qed.

  Lemma create_items (t : atree (many A)) u kv id mk : areach t u -> kv_arg kv -> ~ In id u ->
    forall i, In i (a_items (fst (CreateOrFind t kv id mk))) -> In i (a_items t) \/ exists a, mk = Some a /\ i = mkItem id kv a.
  Proof.
    intros R HA N i. destruct (c20_create_or_find t u kv id mk R HA N) as (C1 & C2 & C3 & C4).
    destruct (kv_validate kv MinDataType MaxDataType) eqn:V.
    - apply kv_valid_iff in V. destruct (areach_inv t u R) as [AI _]. destruct (validate_rep kv HA (proj1 (kv_valid_iff kv) V)) as [RP NE].
      destruct (holds_dec t kv AI RP NE) as [(it & HI & HS) | NH].
      + rewrite (C2 V it HI HS). auto.
      + destruct mk as [a|].
        * destruct (C3 V NH a eq_refl) as [_ ->]. rewrite in_app_iff. intros [H | [<- | []]]; [auto|]. right. exists a. auto.
        * rewrite (C4 V NH eq_refl). auto.
    - apply kv_invalid_iff in V. rewrite (C1 V). auto.
  Qed.
  Lemma delete_items (t : atree (many A)) u kv can : areach t u -> kv_arg kv ->
    forall i, In i (a_items (fst (Delete t kv can))) -> In i (a_items t).
  Proof.
    intros R HA i. destruct (kv_validate kv MinDataType MaxDataType) eqn:V.
    - apply kv_valid_iff in V. destruct (c21_delete t u kv can R HA V) as [_ H]. intros HI. apply H in HI. apply HI.
    - unfold Delete. rewrite V. auto.
  Qed.

  Lemma oreach_inv m used : oreach m used -> oinv m used.
  Proof.
    induction 1 as [|m used x R [Wm IH] HA HF]; [split; [exact I|intros o t; discriminate]|].
    set (used' := match oop_id x with Some id => id :: used | None => used end).
    assert (IN : incl used used') by (unfold used'; destruct (oop_id x); [apply incl_tl|]; apply incl_refl).
    split; [apply step_W; exact Wm|]. intros o t E.
    destruct (string_dec (owner x) o) as [EO | N].
    2: { rewrite step_frame in E by auto. eapply tree_ok_incl; eauto. }
    destruct x as [o' kv id mk | o' kv can | o' id can | o' can | o' id f]; cbn [owner orun oop_arg oop_id] in *; subst o'.
    - destruct (HF id eq_refl) as [F1 F2]. unfold OtmCreateOrFind in E.
      destruct (String.eqb o EmptyString) eqn:EE; [eapply tree_ok_incl; eauto|]. apply String.eqb_neq in EE.
      destruct (negb (kv_validate kv MinDataType MaxDataType)); [eapply tree_ok_incl; eauto|].
      destruct (hasReservedKeys kv); [eapply tree_ok_incl; eauto|].
      set (t0 := match otm_get m o with Some t => t | None => mkTree [] [] end) in *.
      assert (T0 : tree_ok used o t0).
      { unfold t0. destruct (otm_get m o) eqn:EG; [auto|]. split; [exact EE|]. split; [exists []; split; [constructor|intros ? []]|intros ? []]. }
      destruct T0 as (_ & (u & RU & IU) & L).
      set (mk' := option_map (fun a => mkMany a o id kv) mk) in *.
      destruct (CreateOrFind t0 kv id mk') as [t' r] eqn:EC. cbn [fst] in E. rewrite get_set in E by exact Wm.
      destruct (string_dec o o); [|contradiction]. injection E as <-.
      assert (NU : ~ In id u) by auto.
      split; [exact EE|]. split.
      + exists (id :: u). split.
        * replace t' with (fst (arun t0 (ACreateOrFind kv id mk'))) by (cbn [arun]; rewrite EC; reflexivity).
          apply (AR_step t0 u (ACreateOrFind kv id mk')); [exact RU|exact HA|]. intros id0 [= <-]. auto.
        * intros z [<- | Hz]; [left; reflexivity|right; auto].
      + intros i Hi. pose proof (create_items t0 u kv id mk' RU HA NU i) as CI. rewrite EC in CI. destruct (CI Hi) as [H | (a & Ea & ->)]; [auto|].
        unfold mk' in Ea. destruct mk as [a0|]; [|discriminate]. injection Ea as <-. unfold labelled. cbn. auto.
    - unfold OtmDelete in E.
      destruct (String.eqb o EmptyString); [eapply tree_ok_incl; eauto|].
      destruct (negb (kv_validate kv MinDataType MaxDataType)); [eapply tree_ok_incl; eauto|].
      destruct (otm_get m o) as [t0|] eqn:EG; [|cbn [fst] in E; congruence].
      destruct (IH o t0 EG) as (NE & (u & RU & IU) & L).
      destruct (Delete t0 kv (fun i => can (it_val i))) as [t' r] eqn:EC. cbn [fst] in E. rewrite get_set in E by exact Wm.
      destruct (string_dec o o); [|contradiction]. injection E as <-.
      split; [exact NE|]. split.
      + exists u. split; [|exact IU]. replace t' with (fst (arun t0 (ADelete kv (fun i => can (it_val i))))) by (cbn [arun]; rewrite EC; reflexivity).
        apply (AR_step t0 u (ADelete kv (fun i => can (it_val i)))); [exact RU|exact HA|]. intros id0; discriminate.
      + intros i Hi. apply L. apply (delete_items t0 u kv (fun i => can (it_val i)) RU HA). rewrite EC. exact Hi.
    - unfold OtmDestroyByID in E.
      destruct (String.eqb o EmptyString); [eapply tree_ok_incl; eauto|].
      destruct (String.eqb id EmptyString) eqn:EI; [eapply tree_ok_incl; eauto|]. apply String.eqb_neq in EI.
      destruct (otm_get m o) as [t0|] eqn:EG; [|cbn [fst] in E; congruence].
      destruct (IH o t0 EG) as (NE & (u & RU & IU) & L).
      destruct (DestroyByAssociatedID t0 id (fun i => can (it_val i))) as [t' r] eqn:EC. cbn [fst] in E. rewrite get_set in E by exact Wm.
      destruct (string_dec o o); [|contradiction]. injection E as <-.
      split; [exact NE|]. split.
      + exists u. split; [|exact IU]. replace t' with (fst (arun t0 (ADestroyByID id (fun i => can (it_val i))))) by (cbn [arun]; rewrite EC; reflexivity).
        apply (AR_step t0 u (ADestroyByID id (fun i => can (it_val i)))); [exact RU|exact I|]. intros id0; discriminate.
      + intros i Hi. apply L. pose proof (c21_destroy_id t0 u id (fun i => can (it_val i)) RU EI) as [_ H]. rewrite EC in H. apply H in Hi. apply Hi.
    - unfold OtmDestroyOne in E.
      destruct (String.eqb o EmptyString); [eapply tree_ok_incl; eauto|].
      destruct (otm_get m o) as [t0|] eqn:EG; [|cbn [fst] in E; congruence].
      destruct (IH o t0 EG) as (NE & (u & RU & IU) & L).
      destruct (DestroyTree t0 (fun i => can (it_val i))) as [t' r] eqn:EC. cbn [fst] in E.
      destruct (forallb _ _); [rewrite get_del in E by exact Wm; destruct (string_dec o o); [discriminate|contradiction]|].
      rewrite get_set in E by exact Wm.
      destruct (string_dec o o); [|contradiction]. injection E as <-.
      split; [exact NE|]. split.
      + exists u. split; [|exact IU]. replace t' with (fst (arun t0 (ADestroyTree (fun i => can (it_val i))))) by (cbn [arun]; rewrite EC; reflexivity).
        apply (AR_step t0 u (ADestroyTree (fun i => can (it_val i)))); [exact RU|exact I|]. intros id0; discriminate.
      + intros i Hi. apply L. destruct (c21_destroy_tree t0 u (fun i => can (it_val i)) RU) as (_ & gone & rest & E1 & _ & _ & H). rewrite EC in H.
        apply H in Hi. rewrite E1. apply in_app_iff. auto.
    - unfold otm_update in E. destruct (otm_get m o) as [t0|] eqn:EG; [|cbn [fst] in E; congruence].
      destruct (IH o t0 EG) as (NE & (u & RU & IU) & L). cbn [fst] in E. rewrite get_set in E by exact Wm.
      destruct (string_dec o o); [|contradiction]. injection E as <-.
      destruct (c21_update t0 u id (fun x => mkMany (f (m_val x)) (m_one x) (m_id x) (m_kv x)) RU) as [RU' H].
      split; [exact NE|]. split; [exists u; auto|]. intros i Hi. apply H in Hi as [[Hi _] | (j & Hj & <- & ->)]; [auto|].
      destruct (L j Hj) as (L1 & L2 & L3). unfold labelled. cbn. auto.
  Qed.

  (** ** What the calls do to the owner's items *)
  Lemma belongings_in m used o i : oreach m used -> In i (belongings m o) ->
    exists t u it, otm_get m o = Some t /\ areach t u /\ In it (a_items t) /\ it_val it = i /\ labelled o it.
  Proof.
    intros R HI. unfold belongings in HI. destruct (otm_get m o) as [t|] eqn:E; [|destruct HI]. apply in_map_iff in HI as (it & <- & HI).
    destruct (oreach_inv m used R) as [_ H]. destruct (H o t E) as (_ & (u & RU & _) & L). exists t, u, it. split; [reflexivity|]. split; [exact RU|]. split; [exact HI|]. split; [reflexivity|apply L; exact HI].
  Qed.
  Lemma belongings_owner m used o i : oreach m used -> In i (belongings m o) -> m_one i = o.
  Proof. intros R HI. destruct (belongings_in m used o i R HI) as (t & u & it & _ & _ & _ & <- & H & _). exact H. Qed.
  Lemma belongings_unique m used o i j : oreach m used -> In i (belongings m o) -> In j (belongings m o) ->
    m_id i = m_id j \/ kv_same (m_kv i) (m_kv j) -> i = j.
  Proof.
    intros R H1 H2 HE. destruct (belongings_in m used o i R H1) as (t & u & it & E & RU & I1 & <- & L1).
    destruct (belongings_in m used o j R H2) as (t' & u' & it' & E' & _ & I2 & <- & L2). rewrite E in E'. injection E' as <-.
    destruct L1 as (_ & A1 & B1), L2 as (_ & A2 & B2). f_equal. destruct (areach_inv t u RU) as [AI _].
    destruct HE as [HE | HE]; [apply (item_eq t); auto; congruence|]. rewrite B1, B2 in HE. eapply c20_unique; eauto.
  Qed.
  Lemma belongings_empty_owner m used : oreach m used -> belongings m EmptyString = [].
  Proof.
    intros R. unfold belongings. destruct (otm_get m EmptyString) as [t|] eqn:E; [|reflexivity].
    destruct (oreach_inv m used R) as [_ H]. destruct (H _ t E) as (N & _). contradiction.
  Qed.

  Lemma reserved_iff kv : reserved kv <-> hasReservedKeys kv = true.
  Proof.
    unfold reserved, hasReservedKeys. rewrite existsb_exists. split.
    - intros (v & HI). exists (ReservedID, v). split; [exact HI|]. apply String.eqb_refl.
    - intros ((k, v) & HI & E). apply String.eqb_eq in E. cbn in E. subst k. exists v. exact HI.
  Qed.

  Lemma c25_refused m o kv id mk can :
    (o = EmptyString \/ ~ kv_valid kv \/ reserved kv -> OtmCreateOrFind m o kv id mk = (m, RInvalid)) /\
    (o = EmptyString \/ ~ kv_valid kv -> OtmDelete m o kv can = (m, RInvalid)) /\
    (o = EmptyString \/ id = EmptyString -> OtmDestroyByID m o id can = (m, RInvalid)) /\
    (o = EmptyString -> OtmDestroyOne m o can = (m, RInvalid)).
  Proof.
    unfold OtmCreateOrFind, OtmDelete, OtmDestroyByID, OtmDestroyOne.
    repeat split.
    - intros [-> | [H | H]]; [reflexivity| |].
      + apply kv_invalid_iff in H. rewrite H. destruct (String.eqb o EmptyString); reflexivity.
      + apply reserved_iff in H. rewrite H. destruct (String.eqb o EmptyString), (negb (kv_validate kv MinDataType MaxDataType)); reflexivity.
    - intros [-> | H]; [reflexivity|]. apply kv_invalid_iff in H. rewrite H. destruct (String.eqb o EmptyString); reflexivity.
    - intros [-> | ->]; [reflexivity|]. destruct (String.eqb o EmptyString); reflexivity.
    - intros ->. reflexivity.
  Qed.

  Definition tree_of m o : atree (many A) := match otm_get m o with Some t => t | None => mkTree [] [] end.
  Lemma tree_of_ok m used o : oreach m used -> o <> EmptyString -> tree_ok used o (tree_of m o) /\ belongings m o = map it_val (a_items (tree_of m o)).
  Proof.
    intros R NE. destruct (oreach_inv m used R) as [_ H]. unfold tree_of, belongings. destruct (otm_get m o) as [t|] eqn:E; [auto|].
    split; [|reflexivity]. split; [exact NE|]. split; [exists []; split; [constructor|intros ? []]|intros ? []].
  Qed.
  Lemma belongings_set m o t : W m -> belongings (otm_set m o t) o = map it_val (a_items t).
  Proof. intros H. unfold belongings. rewrite get_set by exact H. destruct (string_dec o o); [reflexivity|contradiction]. Qed.
  Lemma belongings_del m o : W m -> belongings (otm_del m o) o = [].
  Proof. intros H. unfold belongings. rewrite get_del by exact H. destruct (string_dec o o); [reflexivity|contradiction]. Qed.

  Lemma c25_create m used o kv id mk : oreach m used -> kv_arg kv -> ~ In id used -> o <> EmptyString -> kv_valid kv -> ~ reserved kv ->
    let m' := fst (OtmCreateOrFind m o kv id mk) in let r := snd (OtmCreateOrFind m o kv id mk) in
    (forall i, In i (belongings m o) -> kv_same (m_kv i) kv -> (exists it, r = RFound it /\ it_val it = i) /\ belongings m' o = belongings m o) /\
    ((forall i, In i (belongings m o) -> ~ kv_same (m_kv i) kv) ->
       match mk with
       | Some a => r = RId id /\ belongings m' o = belongings m o ++ [mkMany a o id kv]
       | None => belongings m' o = belongings m o
       end).
  Proof.
    intros R HA NU NE V NR. destruct (tree_of_ok m used o R NE) as [(_ & (u & RU & IU) & L) EB]. destruct (oreach_inv m used R) as [Wm _].
    unfold OtmCreateOrFind. apply String.eqb_neq in NE. rewrite NE. pose proof (proj1 (kv_valid_iff kv) V) as V'. rewrite V'. cbn [negb].
    destruct (hasReservedKeys kv) eqn:EH; [exfalso; apply NR; apply reserved_iff; exact EH|].
    fold (tree_of m o). set (t := tree_of m o) in *. set (mk' := option_map (fun a => mkMany a o id kv) mk).
    destruct (c20_create_or_find t u kv id mk' RU HA (fun C => NU (IU _ C))) as (_ & C2 & C3 & C4).
    destruct (CreateOrFind t kv id mk') as [t' r] eqn:EC. cbn [fst snd] in *. rewrite belongings_set by exact Wm. rewrite EB. split.
    - intros i HI HS. apply in_map_iff in HI as (it & <- & HI). destruct (L it HI) as (_ & _ & LK). rewrite LK in HS.
      pose proof (C2 V it HI HS) as E. injection E as -> ->. split; [exists it; auto|reflexivity].
    - intros NH. assert (NH' : ~ holds_kv t kv).
      { intros (it & HI & HS). apply (NH (it_val it)); [apply in_map; exact HI|]. destruct (L it HI) as (_ & _ & ->). exact HS. }
      destruct mk as [a|].
      + destruct (C3 V NH' _ eq_refl) as [-> ->]. rewrite map_app. auto.
      + rewrite (C4 V NH' eq_refl). reflexivity.
  Qed.

  Lemma c25_delete m used o kv can : oreach m used -> kv_arg kv -> o <> EmptyString -> kv_valid kv ->
    snd (OtmDelete m o kv can) = ROk /\
    forall i, In i (belongings (fst (OtmDelete m o kv can)) o) <-> In i (belongings m o) /\ ~ (kv_same (m_kv i) kv /\ can i = true).
  Proof.
    intros R HA NE V. destruct (oreach_inv m used R) as [Wm INV]. unfold OtmDelete. apply String.eqb_neq in NE. rewrite NE.
    pose proof (proj1 (kv_valid_iff kv) V) as V'. rewrite V'. cbn [negb]. unfold belongings at 2.
    destruct (otm_get m o) as [t|] eqn:E.
    - destruct (INV o t E) as (_ & (u & RU & IU) & L). destruct (c21_delete t u kv (fun i => can (it_val i)) RU HA V) as [D1 D2].
      destruct (Delete t kv (fun i => can (it_val i))) as [t' r]. cbn [fst snd] in *. split; [exact D1|].
      intros i. rewrite belongings_set by exact Wm. rewrite !in_map_iff. split.
      + intros (it & <- & HI). apply D2 in HI as [HI N]. split; [exists it; auto|]. destruct (L it HI) as (_ & _ & ->). exact N.
      + intros [(it & <- & HI) N]. exists it. split; [reflexivity|]. apply D2. split; [exact HI|]. destruct (L it HI) as (_ & _ & <-). exact N.
    - cbn [fst snd]. split; [reflexivity|]. intros i. unfold belongings. rewrite E. cbn. tauto.
  Qed.
  Lemma c25_destroy_id m used o id can : oreach m used -> o <> EmptyString -> id <> EmptyString ->
    snd (OtmDestroyByID m o id can) = ROk /\
    forall i, In i (belongings (fst (OtmDestroyByID m o id can)) o) <-> In i (belongings m o) /\ ~ (m_id i = id /\ can i = true).
  Proof.
    intros R NE NI. destruct (oreach_inv m used R) as [Wm INV]. unfold OtmDestroyByID. apply String.eqb_neq in NE. rewrite NE.
    pose proof NI as NI'. apply String.eqb_neq in NI'. rewrite NI'. unfold belongings at 2.
    destruct (otm_get m o) as [t|] eqn:E.
    - destruct (INV o t E) as (_ & (u & RU & IU) & L). destruct (c21_destroy_id t u id (fun i => can (it_val i)) RU NI) as [D1 D2].
      destruct (DestroyByAssociatedID t id (fun i => can (it_val i))) as [t' r]. cbn [fst snd] in *. split; [exact D1|].
      intros i. rewrite belongings_set by exact Wm. rewrite !in_map_iff. split.
      + intros (it & <- & HI). apply D2 in HI as [HI N]. split; [exists it; auto|]. destruct (L it HI) as (_ & -> & _). exact N.
      + intros [(it & <- & HI) N]. exists it. split; [reflexivity|]. apply D2. split; [exact HI|]. destruct (L it HI) as (_ & <- & _). exact N.
    - cbn [fst snd]. split; [reflexivity|]. intros i. unfold belongings. rewrite E. cbn. tauto.
  Qed.
  Lemma c25_destroy_one m used o can : oreach m used -> o <> EmptyString ->
    snd (OtmDestroyOne m o can) = ROk /\
    exists gone rest, belongings m o = gone ++ rest /\ (forall i, In i gone -> can i = true) /\
      match rest with [] => True | i :: _ => can i = false end /\
      forall i, In i (belongings (fst (OtmDestroyOne m o can)) o) <-> In i rest.
  Proof.
    intros R NE. destruct (oreach_inv m used R) as [Wm INV]. unfold OtmDestroyOne. apply String.eqb_neq in NE. rewrite NE. unfold belongings at 1.
    destruct (otm_get m o) as [t|] eqn:E.
    - destruct (INV o t E) as (_ & (u & RU & IU) & L). destruct (c21_destroy_tree t u (fun i => can (it_val i)) RU) as (D1 & gone & rest & EI & D2 & D3 & D4).
      destruct (DestroyTree t (fun i => can (it_val i))) as [t' r]. cbn [fst snd] in *. split; [exact D1|].
      exists (map it_val gone), (map it_val rest). split; [rewrite EI; apply map_app|]. split; [intros i Hi; apply in_map_iff in Hi as (it & <- & Hi); apply (D2 it Hi)|].
      split; [destruct rest; exact D3|]. intros i. destruct (forallb _ _) eqn:EF.
      + rewrite belongings_del by exact Wm. destruct rest as [|it rest]; [reflexivity|].
        rewrite forallb_forall in EF. rewrite (EF it) in D3 by (rewrite EI; apply in_app_iff; right; left; reflexivity). discriminate.
      + rewrite belongings_set by exact Wm. rewrite !in_map_iff. split; intros (it & <- & HI); exists it; (split; [reflexivity|]); apply D4; exact HI.
    - cbn [fst snd]. split; [reflexivity|]. exists [], []. split; [reflexivity|]. split; [intros ? []|]. split; [exact I|]. intros i. unfold belongings. rewrite E. reflexivity.
  Qed.

  Lemma c25_update m used o id f : oreach m used -> oreach (otm_update m o id f) used /\
    forall i, In i (belongings (otm_update m o id f) o) <->
      (In i (belongings m o) /\ m_id i <> id) \/ exists j, In j (belongings m o) /\ m_id j = id /\ i = mkMany (f (m_val j)) o id (m_kv j).
  Proof.
    intros R. split; [apply (OR_step m used (OUpdate o id f)); [exact R|exact I|discriminate]|].
    destruct (oreach_inv m used R) as [Wm INV]. unfold otm_update. unfold belongings at 2 3. destruct (otm_get m o) as [t|] eqn:E.
    - rewrite belongings_set by exact Wm. destruct (INV o t E) as (_ & (u & RU & IU) & L). intros i. rewrite in_map_iff. split.
      + intros (it & <- & HI). apply in_update_value in HI as [[HI N] | (j & Hj & <- & ->)].
        * left. split; [apply in_map; exact HI|]. destruct (L it HI) as (_ & -> & _). exact N.
        * right. exists (it_val j). destruct (L j Hj) as (L1 & L2 & L3). split; [apply in_map; exact Hj|]. cbn. rewrite L1, L2. auto.
      + intros [[HI N] | (j & Hj & EI & ->)].
        * apply in_map_iff in HI as (it & <- & HI). exists it. split; [reflexivity|]. apply in_update_value. left. split; [exact HI|].
          destruct (L it HI) as (_ & <- & _). exact N.
        * apply in_map_iff in Hj as (it & <- & HI). destruct (L it HI) as (L1 & L2 & L3). rewrite L2 in EI.
          eexists. split; [|apply in_update_value; right; exists it; split; [exact HI|]; split; [exact EI|reflexivity]]. cbn. rewrite L1, L2, EI. reflexivity.
    - intros i. unfold belongings. rewrite E. cbn. split; [intros []|]. intros [[[] _] | (j & [] & _)].
  Qed.

  (** ** Queries *)
  Lemma iterate_offer {S} (cb : S -> many A -> S * bool) l : forall s, iterate (fun s i => cb s (it_val i)) s l = offer cb s (map it_val l).
  Proof. induction l as [|i l IH]; intros s; [reflexivity|]. cbn. destruct (cb s (it_val i)) as [s' []]; auto. Qed.
  Lemma items_of_incl (t : atree (many A)) ids it : In it (items_of t ids) -> In it (a_items t).
  Proof.
    unfold items_of. rewrite in_flat_map. intros (id & _ & H). destruct (find_item (a_items t) id) as [i|] eqn:E; [|destruct H].
    destruct H as [<- | []]. apply find_item_some in E. apply E.
  Qed.
  Lemma query_items_incl (t : atree (many A)) q l : query_items t q = Some (Some l) -> incl l (a_items t).
  Proof.
    unfold query_items. destruct (negb (q_validate q)); [discriminate|]. destruct q as [|sel ors ands]; [discriminate|].
    assert (H : match query t (Q sel ors ands) with Some (Some ids) => Some (Some (items_of t (set_values ids))) | _ => None end = Some (Some l) -> incl l (a_items t)).
    { destruct (query t (Q sel ors ands)) as [[ids|]|]; try discriminate. intros [= <-] it. apply items_of_incl. }
    destruct sel, ors, ands; try exact H. intros [= <-]. apply incl_refl.
  Qed.
  (** whatever the query, what is offered belongs to the owner *)
  Lemma c25_query_reveals m used o q : oreach m used ->
    exists l, (forall i, In i l -> In i (belongings m o) /\ m_one i = o) /\
      forall S (cb : S -> many A -> S * bool) s, OtmQueryAction m o q cb s = None \/ OtmQueryAction m o q cb s = Some None \/
        OtmQueryAction m o q cb s = Some (Some (offer cb s l)).
  Proof.
    intros R. unfold OtmQueryAction. destruct (otm_get m o) as [t|] eqn:E.
    - destruct (query_items t q) as [[l|]|] eqn:EQ.
      + exists (map it_val l). split.
        * intros i HI. assert (H : In i (belongings m o)).
          { unfold belongings. rewrite E. apply in_map_iff in HI as (it & <- & HI). apply in_map. eapply query_items_incl; eauto. }
          split; [exact H|]. eapply belongings_owner; eauto.
        * intros S cb s. destruct (negb (q_validate q)); [auto|]. destruct (String.eqb o EmptyString); [auto|]. unfold QueryAction. rewrite EQ.
          rewrite iterate_offer. auto.
      + exists []. split; [intros ? []|]. intros S cb s. destruct (negb (q_validate q)); [auto|]. destruct (String.eqb o EmptyString); [auto|]. unfold QueryAction. rewrite EQ. auto.
      + exists []. split; [intros ? []|]. intros S cb s. destruct (negb (q_validate q)); [auto|]. destruct (String.eqb o EmptyString); [auto|]. unfold QueryAction. rewrite EQ. auto.
    - exists []. split; [intros ? []|]. intros S cb s. destruct (negb (q_validate q)); [auto|]. destruct (String.eqb o EmptyString); auto.
  Qed.
  Fixpoint found_prefix (t : atree (many A)) (ids : list string) : list (item (many A)) :=
    match ids with [] => [] | id :: r => match find_item (a_items t) id with None => [] | Some i => i :: found_prefix t r end end.
  Lemma match_loop_prefix {S} (t : atree (many A)) (cb : S -> item (many A) -> S * bool) ids : forall s, match_loop_items t cb s ids = iterate cb s (found_prefix t ids).
  Proof.
    induction ids as [|id ids IH]; intros s; [reflexivity|]. cbn. destruct (find_item (a_items t) id) as [i|]; [|reflexivity].
    cbn. destruct (cb s i) as [s' []]; auto.
  Qed.
  Lemma found_prefix_incl t ids : incl (found_prefix t ids) (a_items t).
  Proof.
    induction ids as [|id ids IH]; [intros ? []|]. cbn. destruct (find_item (a_items t) id) as [i|] eqn:E; [|intros ? []].
    apply find_item_some in E. intros x [<- | H]; [apply E|auto].
  Qed.
  Lemma c25_match_reveals m used o q : oreach m used ->
    exists l, (forall i, In i l -> In i (belongings m o) /\ m_one i = o) /\
      forall S (cb : S -> many A -> S * bool) s, OtmMatchAction m o q cb s = None \/ OtmMatchAction m o q cb s = Some None \/
        OtmMatchAction m o q cb s = Some (Some (offer cb s l)).
  Proof.
    intros R. unfold OtmMatchAction. destruct (otm_get m o) as [t|] eqn:E.
    - destruct (match_ids (a_index t) q) as [[l|]|] eqn:EQ.
      + exists (map it_val (found_prefix t l)). split.
        * intros i HI. assert (H : In i (belongings m o)).
          { unfold belongings. rewrite E. apply in_map_iff in HI as (it & <- & HI). apply in_map. eapply found_prefix_incl; eauto. }
          split; [exact H|]. eapply belongings_owner; eauto.
        * intros S cb s. destruct (String.eqb o EmptyString); [auto|]. destruct (negb (mq_validate q)); [auto|]. unfold MatchAction. rewrite EQ.
          rewrite match_loop_prefix, iterate_offer. auto.
      + exists []. split; [intros ? []|]. intros S cb s. destruct (String.eqb o EmptyString); [auto|]. destruct (negb (mq_validate q)); [auto|]. unfold MatchAction. rewrite EQ. auto.
      + exists []. split; [intros ? []|]. intros S cb s. destruct (String.eqb o EmptyString); [auto|]. destruct (negb (mq_validate q)); [auto|]. unfold MatchAction. rewrite EQ. auto.
    - exists []. split; [intros ? []|]. intros S cb s. destruct (String.eqb o EmptyString); [auto|]. destruct (negb (mq_validate q)); auto.
  Qed.
  Lemma nodup_map_inj {X Y} (f : X -> Y) l : (forall a b, In a l -> In b l -> f a = f b -> a = b) -> NoDup l -> NoDup (map f l).
  Proof.
    induction l as [|x l IH]; intros HI N; [constructor|]. apply NoDup_cons_iff in N as [N1 N2]. cbn. constructor.
    - rewrite in_map_iff. intros (y & E & HY). apply N1. rewrite (HI x y); auto; [left; reflexivity|right; exact HY].
    - apply IH; [|exact N2]. intros a b Ha Hb. apply HI; right; assumption.
  Qed.
  Lemma lift_list m used o t u (P : string -> KeyValues -> Prop) l :
    oreach m used -> otm_get m o = Some t -> areach t u -> (forall i, In i (a_items t) -> labelled o i) ->
    NoDup l -> (forall it, In it l <-> In it (a_items t) /\ P (it_id it) (it_kv it)) ->
    NoDup (map it_val l) /\ forall i, In i (map it_val l) <-> In i (belongings m o) /\ P (m_id i) (m_kv i).
  Proof.
    intros R E RU L N H. destruct (areach_inv t u RU) as [AI _]. split.
    - apply nodup_map_inj; [|exact N]. intros a b Ha Hb EV. apply H in Ha as [Ha _], Hb as [Hb _]. apply (item_eq t a b AI Ha Hb).
      destruct (L a Ha) as (_ & A1 & _), (L b Hb) as (_ & B1 & _). congruence.
    - intros i. unfold belongings. rewrite E, !in_map_iff. split.
      + intros (it & <- & HI). apply H in HI as [HI HP]. destruct (L it HI) as (_ & A1 & A2). rewrite A1, A2. split; [exists it; auto|exact HP].
      + intros [(it & <- & HI) HP]. destruct (L it HI) as (_ & A1 & A2). rewrite A1, A2 in HP. exists it. split; [reflexivity|]. apply H. auto.
  Qed.
  Lemma c25_query m used o q : oreach m used -> o <> EmptyString -> q_validate q = true -> query_no_nan q -> q = Q None None None \/ every_node node_simple q ->
    exists l, NoDup l /\ (forall i, In i l <-> In i (belongings m o) /\ query_holds q (m_id i) (m_kv i)) /\
      forall S (cb : S -> many A -> S * bool) s, OtmQueryAction m o q cb s = Some (Some (offer cb s l)).
  Proof.
    intros R NE V NN SI. unfold OtmQueryAction. rewrite V. apply String.eqb_neq in NE. rewrite NE. cbn [negb]. destruct (otm_get m o) as [t|] eqn:E.
    - destruct (oreach_inv m used R) as [Wm INV]. destruct (INV o t E) as (_ & (u & RU & IU) & L).
      destruct (c22_query t u q RU V NN SI) as (l & N & H & HC). exists (map it_val l).
      destruct (lift_list m used o t u (query_holds q) l R E RU L N H) as [L1 L2]. split; [exact L1|]. split; [exact L2|].
      intros S cb s. rewrite HC, iterate_offer. reflexivity.
    - exists []. split; [constructor|]. split; [|reflexivity]. intros i. unfold belongings. rewrite E. cbn. tauto.
  Qed.
  Lemma c25_match m used o mq : oreach m used -> o <> EmptyString -> mq_validate mq = true -> match_arg mq ->
    ~ (exists b, mq_max mq = Some b /\ b <> -1 /\ b < match mq_min mq with Some a => a | None => 0 end)%Z ->
    exists l, NoDup l /\ (forall i, In i l <-> In i (belongings m o) /\ match_holds mq (m_kv i)) /\
      forall S (cb : S -> many A -> S * bool) s, OtmMatchAction m o mq cb s = Some (Some (offer cb s l)).
  Proof.
    intros R NE V AR NC. unfold OtmMatchAction. rewrite V. apply String.eqb_neq in NE. rewrite NE. cbn [negb]. destruct (otm_get m o) as [t|] eqn:E.
    - destruct (oreach_inv m used R) as [Wm INV]. destruct (INV o t E) as (_ & (u & RU & IU) & L).
      destruct (c24_match t u mq RU V AR NC) as (l & N & H & HC). exists (map it_val l).
      destruct (lift_list m used o t u (fun _ kv => match_holds mq kv) l R E RU L N H) as [L1 L2]. split; [exact L1|]. split; [exact L2|].
      intros S cb s. rewrite HC, iterate_offer. reflexivity.
    - exists []. split; [constructor|]. split; [|reflexivity]. intros i. unfold belongings. rewrite E. cbn. tauto.
  Qed.

  Lemma c25_isolated m used x o : oreach m used -> owner x <> o -> belongings (fst (orun m x)) o = belongings m o.
  Proof. intros R N. destruct (oreach_inv m used R) as [Wm _]. unfold belongings. rewrite step_frame by auto. reflexivity. Qed.
  Lemma c25_noninterference (xs : list (oop A)) o :
    let m := otm_run [] xs in let m' := otm_run [] (only_owner o xs) in
    belongings m o = belongings m' o /\ answers o [] xs = answers o [] (only_owner o xs) /\
    (forall q S (cb : S -> many A -> S * bool) s, OtmQueryAction m o q cb s = OtmQueryAction m' o q cb s) /\
    (forall q S (cb : S -> many A -> S * bool) s, OtmMatchAction m o q cb s = OtmMatchAction m' o q cb s).
  Proof.
    cbv zeta. destruct (run_local o xs [] [] I I eq_refl) as [E1 E2]. split; [unfold belongings; rewrite E1; reflexivity|]. split; [exact E2|].
    split; intros; [apply query_local|apply match_local]; exact E1.
  Qed.
  Lemma c25_found m used o kv id mk it : oreach m used -> kv_arg kv -> ~ In id used ->
    snd (OtmCreateOrFind m o kv id mk) = RFound it -> m_one (it_val it) = o /\ In (it_val it) (belongings m o) /\ kv_same (m_kv (it_val it)) kv.
  Proof.
    intros R HA NU E. destruct (string_dec o EmptyString) as [-> | NE]; [cbn in E; discriminate|].
    destruct (kv_validate kv MinDataType MaxDataType) eqn:V.
    2: { apply kv_invalid_iff in V. rewrite (proj1 (c25_refused m o kv id mk (fun _ => true))) in E by auto. discriminate. }
    apply kv_valid_iff in V. destruct (hasReservedKeys kv) eqn:EH.
    { apply reserved_iff in EH. rewrite (proj1 (c25_refused m o kv id mk (fun _ => true))) in E by auto. discriminate. }
    assert (NR : ~ reserved kv) by (intros C; apply reserved_iff in C; congruence).
    destruct (c25_create m used o kv id mk R HA NU NE V NR) as [C1 C2].
    destruct (tree_of_ok m used o R NE) as [(_ & (u & RU & IU) & L) EB]. destruct (areach_inv _ u RU) as [AI _].
    destruct (validate_rep kv HA (proj1 (kv_valid_iff kv) V)) as [RP NEK].
    destruct (holds_dec (tree_of m o) kv AI RP NEK) as [(it0 & H0 & HS0) | NH].
    - assert (HB : In (it_val it0) (belongings m o)) by (rewrite EB; apply in_map; exact H0). assert (HK : kv_same (m_kv (it_val it0)) kv) by (destruct (L it0 H0) as (_ & _ & ->); exact HS0).
      destruct (C1 (it_val it0) HB HK) as [(it1 & E1 & E2) _]. rewrite E1 in E. injection E as ->. rewrite E2. split; [eapply belongings_owner; eauto|auto].
    - assert (NB : forall i, In i (belongings m o) -> ~ kv_same (m_kv i) kv).
      { intros i HI HS. rewrite EB in HI. apply in_map_iff in HI as (it1 & <- & HI). apply NH. exists it1. split; [exact HI|]. destruct (L it1 HI) as (_ & _ & <-). exact HS. }
      unfold OtmCreateOrFind in E. destruct mk as [a|]; [destruct (C2 NB) as [C3 _]; unfold OtmCreateOrFind in C3; rewrite C3 in E; discriminate|].
      apply String.eqb_neq in NE. rewrite NE, (proj1 (kv_valid_iff kv) V), EH in E. cbn [negb] in E. fold (tree_of m o) in E.
      destruct (CreateOrFind_spec (tree_of m o) kv id None AI HA (fresh_id _ u id RU (fun C => NU (IU _ C)))) as (_ & _ & _ & S4).
      destruct (S4 (proj1 (kv_valid_iff kv) V) NH) as [S5 _]. cbn [option_map] in E.
      destruct (CreateOrFind (tree_of m o) kv id None) as [t' r]. cbn [snd] in *. congruence.
  Qed.
End P.
