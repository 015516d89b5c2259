(** The directory of queues and the index of channels. *)
From Coq Require Import String List Bool Arith NArith ZArith Lia Permutation Sorted.
Import ListNotations.
From Verif Require Import Datatypes SpecValues DatatypesProofs PropLemmasValues Collections Query SpecQuery Assoc SpecAssoc AssocMaps AssocProofs AssocOps PropLemmasAssoc OneToMany SpecOneToMany OneToManyProofs.
From Verif Require Import BTree SpecBTree BTreeProofs PropLemmasTree BTreeFind SpecFind PropLemmasFind.
From Verif Require Import Willow.
Local Open Scope Z_scope.

(** ** Directory *)
Definition strings (c : list (EV * nat)) : Prop := forall k p, In (k, p) c -> exists s, k = Str s.
Lemma good_str s : good (Str s).
Proof. split; [constructor|intros [C | C]; discriminate]. Qed.
Lemma same_str s k : same_value (Str s) k -> k = Str s.
Proof. intros [T P]. destruct k as [t p]. cbn in *. subst t. inversion P. reflexivity. Qed.
Lemma find_queue_spec t name : well_shaped order t ->
  match find_queue t name with
  | Some p => In (Str name, p) (contents t)
  | None => forall p, ~ In (Str name, p) (contents t)
  end.
Proof.
  intros W. unfold find_queue. destruct (find_key_lemma order t (Str name) (mkTR T_string T_string) W (good_str name) ltac:(discriminate) eq_refl) as (l1 & l2 & H & [_ E2] & HF).
  assert (l2 = []). { destruct l2 as [|[k v] l2]; [reflexivity|]. exfalso. destruct (proj1 (E2 k v) (or_introl eq_refl)) as [_ [_ C]]. discriminate. }
  subst l2. rewrite app_nil_r in HF. destruct (HF (option nat) (fun _ _ p => (Some p, false)) None) as (ev & E). rewrite E. clear HF E.
  assert (IT : in_types (mkTR T_string T_string) (Str name)) by (unfold in_types; cbn; lia).
  destruct H as [[_ (v & (k' & S & HI) & ->)] | [-> H]]; cbn.
  - apply same_str in S. subst k'. exact HI.
  - intros p HI. apply (H IT (Str name) p HI). split; [reflexivity|constructor].
Qed.
Lemma contents_nodup (t : option (node nat)) : well_shaped order t -> NoDup (map fst (contents t)).
Proof.
  destruct t as [t|]; [|intros _; constructor]. intros (h & _ & _ & _ & O). apply ordered_iff in O as [S _]. cbn [contents].
  induction S as [|x l S IH F]; cbn; constructor; [|exact IH]. intros C. apply in_map_iff in C as (y & E & Hy). rewrite Forall_forall in F.
  specialize (F y Hy). unfold klt in F. rewrite E, lmt_irrefl in F. discriminate.
Qed.
Lemma contents_unique (t : option (node nat)) k p p' : well_shaped order t -> In (k, p) (contents t) -> In (k, p') (contents t) -> p = p'.
Proof.
  intros W H H'. pose proof (contents_nodup t W) as ND. induction (contents t) as [|[k0 p0] l IH]; [destruct H|]. cbn in ND. apply NoDup_cons_iff in ND as [NI ND].
  destruct H as [H | H], H' as [H' | H']; auto.
  - congruence.
  - injection H as -> ->. exfalso. apply NI. apply (in_map fst) in H'. exact H'.
  - injection H' as -> ->. exfalso. apply NI. apply (in_map fst) in H. exact H.
Qed.
Lemma find_queue_in t name p : well_shaped order t -> find_queue t name = Some p <-> In (Str name, p) (contents t).
Proof.
  intros W. pose proof (find_queue_spec t name W) as H. destruct (find_queue t name) as [p'|].
  - split; [intros [= <-]; exact H|]. intros H'. f_equal. eapply contents_unique; eauto.
  - split; [discriminate|]. intros H'. exfalso. eapply H; eauto.
Qed.
Lemma create_queue_spec (t : option (node nat)) name v : well_shaped order t ->
  match find_queue t name with
  | Some p => exists r, tree_create order t (Str name) (Some v) = TExists p r
  | None => exists r, tree_create order t (Str name) (Some v) = TOk r /\ well_shaped order r /\ Permutation (contents r) ((Str name, v) :: contents t)
  end.
Proof.
  intros W. pose proof (find_queue_spec t name W) as F. destruct (tree_create_lemma order t (Str name) v ltac:(unfold order; lia) W (good_str name)) as [(v0 & r & (k' & S & HI) & E & _ & _) | (NS & r & E & W' & P)].
  - apply same_str in S. subst k'. destruct (find_queue t name) as [p|]; [|exfalso; eapply F; eauto]. assert (p = v0) by (eapply contents_unique; eauto). subst p. eauto.
  - destruct (find_queue t name) as [p|]; [exfalso; apply (NS _ _ F); split; [reflexivity|constructor]|]. eauto.
Qed.
Lemma delete_queue_spec (t : option (node nat)) name p : well_shaped order t -> find_queue t name = Some p ->
  exists r x, tree_delete order t (Str name) (fun _ _ => true) = TDOk r x /\ well_shaped order r /\ Permutation (contents t) ((Str name, p) :: contents r).
Proof.
  intros W F. apply find_queue_in in F; [|exact W]. destruct (tree_delete_lemma order t (Str name) (fun _ _ => true) ltac:(unfold order; lia) W (good_str name)) as (r & asked & E & W' & H).
  destruct asked as [[k' v]|].
  - destruct H as (S & HI & P). apply same_str in S. subst k'. assert (v = p) by (exact (contents_unique t (Str name) v p W HI F)). subst v. eauto 6.
  - destruct H as [NS _]. exfalso. apply (NS _ _ F). split; [reflexivity|constructor].
Qed.
Lemma list_all (t : option (node nat)) : well_shaped order t -> strings (contents t) ->
  exists l ev, Find (fun acc k p => (acc ++ [(k, p)], true)) t Any (mkTR MinDataType MaxDataType) [] = FOk l ev /\ NoDup l /\ forall k p, In (k, p) l <-> In (k, p) (contents t).
Proof.
  intros W ST. destruct (find_any_lemma order t (mkTR MinDataType MaxDataType) W eq_refl) as (l & [ND E] & HF).
  destruct (HF (list (EV * nat)) (fun acc k p => (acc ++ [(k, p)], true)) []) as (ev & EF). exists l, ev.
  assert (OFF : forall l acc, fst (offer (fun (acc : list (EV * nat)) k p => (acc ++ [(k, p)], true)) acc l) = acc ++ l).
  { clear. induction l as [|[k p] l IH]; intros acc; cbn; [rewrite app_nil_r; reflexivity|]. rewrite IH, <- app_assoc. reflexivity. }
  rewrite OFF in EF. split; [exact EF|]. split; [exact ND|]. intros k p. rewrite E. split; [tauto|]. intros H. split; [exact H|]. destruct (ST k p H) as (s & ->). split; vm_compute; discriminate.
Qed.

(** ** Index of channels *)
Section Index.
  Context {A : Type}.
  Lemma index_nodup (m : otm A) u o : oreach m u -> NoDup (map m_id (belongings m o)).
  Proof.
    intros R. unfold belongings. destruct (otm_get m o) as [t|] eqn:E; [|constructor]. destruct (oreach_inv m u R) as [_ H]. destruct (H o t E) as (_ & (u' & RU & _) & L).
    destruct (areach_inv t u' RU) as [AI _]. rewrite map_map. erewrite map_ext_in; [apply (ainv_nodup t AI)|]. intros i Hi. apply (L i Hi).
  Qed.
  Lemma index_nodup' (m : otm A) u o : oreach m u -> NoDup (belongings m o).
  Proof. intros R. eapply NoDup_map_inv. eapply index_nodup; eauto. Qed.
  Lemma index_update (m : otm A) u o id f o' : oreach m u ->
    belongings (otm_update m o id f) o' = if String.eqb o o' then map (fun i => if String.eqb (m_id i) id then mkMany (f (m_val i)) (m_one i) (m_id i) (m_kv i) else i) (belongings m o) else belongings m o'.
  Proof.
    intros R. destruct (oreach_inv m u R) as [Wm INV]. destruct (String.eqb_spec o o') as [<- | N].
    - unfold otm_update. unfold belongings at 2. destruct (otm_get m o) as [t|] eqn:E.
      + rewrite belongings_set by exact Wm. destruct (INV o t E) as (_ & _ & L). unfold update_value. cbn [a_items]. rewrite !map_map. apply map_ext_in. intros i Hi.
        destruct (L i Hi) as (_ & -> & _). destruct (String.eqb (it_id i) id); reflexivity.
      + unfold belongings. rewrite E. reflexivity.
    - apply (c25_isolated m u (OUpdate o id f) o' R N).
  Qed.
  Lemma index_update_reach (m : otm A) u o id f : oreach m u -> oreach (otm_update m o id f) u.
  Proof. intros R. apply (OR_step m u (OUpdate o id f)); [exact R|exact I|discriminate]. Qed.
  Lemma index_by_id (m : otm A) u o id : oreach m u ->
    match match otm_get m o with Some t => option_map it_val (find_item (a_items t) id) | None => None end with
    | Some i => In i (belongings m o) /\ m_id i = id
    | None => forall i, In i (belongings m o) -> m_id i <> id
    end.
  Proof.
    intros R. unfold belongings. destruct (otm_get m o) as [t|] eqn:E; [|intros i []]. destruct (oreach_inv m u R) as [_ H]. destruct (H o t E) as (_ & (u' & RU & _) & L).
    destruct (find_item (a_items t) id) as [it|] eqn:F; cbn.
    - apply find_item_some in F as [F1 F2]. split; [apply in_map; exact F1|]. destruct (L it F1) as (_ & -> & _). exact F2.
    - intros i Hi. apply in_map_iff in Hi as (it & <- & Hi). destruct (L it Hi) as (_ & -> & _). intros C. apply (proj1 (find_item_none (a_items t) id) F). rewrite <- C. apply in_map. exact Hi.
  Qed.
  Lemma index_by_kv (m : otm A) u o kv : oreach m u -> kv_arg kv ->
    match match otm_get m o with Some t => option_map it_val (delete_target t kv) | None => None end with
    | Some i => In i (belongings m o) /\ kv_same (m_kv i) kv
    | None => kv_valid kv -> forall i, In i (belongings m o) -> ~ kv_same (m_kv i) kv
    end.
  Proof.
    intros R HA. unfold belongings. destruct (otm_get m o) as [t|] eqn:E; [|intros _ i []]. destruct (oreach_inv m u R) as [_ H]. destruct (H o t E) as (_ & (u' & RU & _) & L).
    destruct (kv_validate kv MinDataType MaxDataType) eqn:V.
    - apply kv_valid_iff in V. destruct (c21_offered t u' kv RU HA V) as [O1 O2]. destruct (areach_inv t u' RU) as [AI _].
      pose proof (proj1 (kv_valid_iff kv) V) as V'. destruct (validate_rep kv HA V') as [RK NE].
      destruct (holds_dec t kv AI RK NE) as [(it & Hi & S) | N].
      + rewrite (O1 it Hi S). cbn. split; [apply in_map; exact Hi|]. destruct (L it Hi) as (_ & _ & ->). exact S.
      + rewrite (O2 N). cbn. intros _ i Hi S. apply in_map_iff in Hi as (it & <- & Hi). destruct (L it Hi) as (_ & _ & EK). rewrite EK in S. apply N. exists it. auto.
    - unfold delete_target. rewrite V. cbn. intros C. apply kv_valid_iff in C. congruence.
  Qed.
  Lemma index_delete (m : otm A) u o ch : oreach m u -> In ch (belongings m o) -> o <> EmptyString -> kv_arg (m_kv ch) -> kv_valid (m_kv ch) ->
    let m' := fst (OtmDelete m o (m_kv ch) (fun x => String.eqb (m_id x) (m_id ch))) in
    oreach m' u /\ (forall i, In i (belongings m' o) <-> In i (belongings m o) /\ i <> ch) /\ forall o', o' <> o -> belongings m' o' = belongings m o'.
  Proof.
    intros R HC NE HA V. cbv zeta. set (can := fun x => String.eqb (m_id x) (m_id ch)).
    split; [apply (OR_step m u (SpecOneToMany.ODelete o (m_kv ch) can)); [exact R|exact HA|discriminate]|].
    split; [|intros o' N; apply (c25_isolated m u (SpecOneToMany.ODelete o (m_kv ch) can) o' R); cbn; congruence].
    intros i. destruct (c25_delete m u o (m_kv ch) can R HA NE V) as [_ D]. rewrite D. split; intros [H1 H2]; (split; [exact H1|]).
    - intros ->. apply H2. split; [apply kv_same_refl|apply String.eqb_refl].
    - intros [_ E]. apply H2. apply String.eqb_eq in E. eapply belongings_unique; eauto.
  Qed.
End Index.
