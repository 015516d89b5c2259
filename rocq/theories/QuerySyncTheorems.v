(** Queries that overlap other calls: whole queries and the items they visit. *)
From Verif Require Import Datatypes SpecValues DatatypesProofs Collections SpecCollections CollectionsProofs Query SpecQuery QueryProofs
  Assoc SpecAssoc AssocMaps AssocProofs AssocQueryProofs AssocOps QuerySync SpecQuerySync QuerySyncProofs.
Local Open Scope nat_scope.

Section NoDups.
  Context {A : Type} (h : nat -> atree A) (readable : nat -> string -> EV -> Prop).
  Lemma combine_nodup added acc ids : NoDup acc -> NoDup (combine_ids added acc ids).
  Proof.
    intros N. destruct added.
    - apply (combine_ids_spec true acc ids N). discriminate.
    - unfold combine_ids. apply set_add_bulk_spec. exact N.
  Qed.
  Lemma sel_nodup s n keys va ia valid invalid m res : sel_run h readable s n keys va ia valid invalid m res -> NoDup valid ->
    match res with SDone _ v _ => NoDup v | SEarly v => NoDup v | SPanic => False end.
  Proof. induction 1; intros N; try exact N; try (apply combine_nodup; exact N); try (apply IHsel_run; auto using combine_nodup). Qed.
  Lemma by_ids_nodup mo s ids : forall acc r, NoDup acc -> by_ids_at h mo s ids acc = Some r -> NoDup r.
  Proof.
    induction ids as [|id ids IH]; intros acc r N; cbn [by_ids_at]; [intros [= <-]; exact N|].
    destruct (find_item _ id) as [it|]; [|apply IH; exact N]. destruct (MatchKeyValues s (it_kv it)) as [c|]; [|discriminate].
    apply IH. destruct c; [apply set_add_spec|]; exact N.
  Qed.
  Lemma find_nodup s n m r : find_run h readable s n m r -> NoDup r.
  Proof.
    destruct 1 as [n m mo r EI L HM HR|n m r EI R|n m valid invalid EI R|n m m' valid invalid ids EI R L AR].
    - eapply by_ids_nodup; [|exact HR]. constructor.
    - apply sel_nodup in R; [exact R|constructor].
    - apply sel_nodup in R; [|constructor]. apply remove_all_spec; exact R.
    - apply sel_nodup in R; [|constructor]. apply remove_all_spec. apply set_add_bulk_spec; exact R.
  Qed.
  Definition okay (c : option (option sset)) : Prop := match c with Some (Some s) => NoDup s | _ => True end.
  Lemma query_nodup q : forall n m r, query_run h readable n q m r -> match r with Some s => NoDup s | None => True end.
  Proof.
    induction q as [|sel ors ands IO IA] using query_ind'; intros n m r H; inversion H as [? ? ? ? n1 n2 ? cur0 cur1 cur2 HS HA HO]; subst; clear H.
    assert (K0 : okay cur0) by (destruct HS as [|? ? ? ? F]; cbn; [constructor|eapply find_nodup; eauto]). clear HS.
    assert (K1 : okay cur1).
    { clear HO. revert n1 cur0 n2 cur1 HA K0. induction IA as [|c l Hc F IH]; intros n1 cur0 n2 cur1 HA K0; inversion HA; subst; auto.
      - eapply IH; eauto. match goal with HQ : query_run _ _ _ _ _ _ |- _ => apply Hc in HQ; exact HQ end.
      - eapply IH; eauto. apply set_intersection_spec. }
    clear HA K0. assert (K2 : okay cur2).
    { revert n2 cur1 m cur2 HO K1. induction IO as [|c l Hc F IH]; intros n2 cur1 m cur2 HO K1; inversion HO; subst; auto.
      - eapply IH; eauto. match goal with HQ : query_run _ _ _ _ _ _ |- _ => apply Hc in HQ; exact HQ end.
      - eapply IH; eauto. apply set_add_bulk_spec. exact K1. }
    destruct cur2 as [[s|]|]; auto.
  Qed.
End NoDups.

(** ** Whatever is in the set was seen stored during the query *)
Section Seen.
  Context {A : Type} (h : nat -> atree A) (readable : nat -> string -> EV -> Prop).
  Hypothesis INV : forall n, ainv (h n).
  Definition seen (lo hi : nat) (x : string) : Prop := exists i kv, lo <= i /\ i <= hi /\ stored_at h i x kv.
  Lemma seen_wider lo hi lo' hi' x : lo' <= lo -> hi <= hi' -> seen lo hi x -> seen lo' hi' x.
  Proof. intros L1 L2 (i & kv & H1 & H2 & H3). exists i, kv. split; [lia|]. split; [lia|exact H3]. Qed.
  Lemma node_seen lo hi n s k v x : lo <= n -> n <= hi -> good v -> In x (node_ids (h n) s k v) -> seen lo hi x.
  Proof. intros L1 L2 Gv H. apply node_ids_spec in H as (kv & m & HI & _); auto. exists n, kv. split; [exact L1|]. split; [exact L2|]. apply in_ents_of in HI. exact HI. Qed.
  Lemma combine_in added acc ids x : In x (combine_ids added acc ids) -> In x acc \/ In x ids.
  Proof.
    destruct added; unfold combine_ids.
    - intros H. apply set_intersection_spec in H. tauto.
    - assert (G : forall ids acc, In x (set_add_bulk acc ids) -> In x acc \/ In x ids); [|apply G].
      clear. induction ids as [|y ids IH]; intros acc; cbn; [auto|]. intros H. apply IH in H as [H | H]; [|auto]. unfold set_add in H.
      destruct (mem _ acc); [auto|]. apply in_app_iff in H as [H | [<- | []]]; auto.
  Qed.
  Lemma sel_seen s n keys va ia valid invalid m res x : sel_run h readable s n keys va ia valid invalid m res ->
    match res with SDone _ v _ => In x v -> In x valid \/ seen n m x | SEarly v => In x v -> In x valid \/ seen n m x | SPanic => False end.
  Proof.
    induction 1 as [n va ia valid invalid
      |n m k q r va ia valid invalid ids NE NU KR L E0
      |n m k q r va ia valid invalid ids to res NE NU KR L E0 R IH
      |n m k q r va ia valid invalid ids to res EQ KR L E0 R IH
      |n m k q r va ia valid invalid ids EQ KR L E0]; auto.
    - unfold set_size in E0. destruct (combine_ids va valid ids); [intros []|discriminate].
    - pose proof (sel_mono _ _ _ _ _ _ _ _ _ _ _ R) as M.
      assert (G : In x (combine_ids va valid ids) \/ seen m to x -> In x valid \/ seen n to x).
      { intros [H | H]; [|right; eapply seen_wider; [| |exact H]; lia]. apply combine_in in H as [H | H]; [auto|]. right. destruct KR as (mo & HM & HI).
        apply HI in H as (v & Gv & HV & H). destruct (HM v Gv HV) as [HW _]. eapply node_seen; [| |exact Gv|exact H]; lia. }
      destruct res; auto.
    - pose proof (sel_mono _ _ _ _ _ _ _ _ _ _ _ R) as M.
      assert (G : In x valid \/ seen m to x -> In x valid \/ seen n to x) by (intros [H | H]; [auto|right; eapply seen_wider; [| |exact H]; lia]).
      destruct res; auto.
  Qed.
  Lemma by_ids_seen mo s ids x lo hi : (forall y, lo <= mo y /\ mo y <= hi) -> forall acc r, by_ids_at h mo s ids acc = Some r -> In x r -> In x acc \/ seen lo hi x.
  Proof.
    intros HM. induction ids as [|id ids IH]; intros acc r; cbn [by_ids_at]; [intros [= <-]; auto|].
    destruct (find_item _ id) as [it|] eqn:EF; [|apply IH]. destruct (MatchKeyValues s (it_kv it)) as [c|]; [|discriminate]. intros HR HI.
    apply (IH _ _ HR) in HI as [HI | HI]; [|auto]. destruct c; [|auto]. unfold set_add in HI. destruct (mem _ acc); [auto|].
    apply in_app_iff in HI as [HI | [<- | []]]; [auto|]. right. apply find_item_some in EF as [H1 H2]. exists (mo id), (it_kv it). destruct (HM id). split; [auto|]. split; [auto|]. exists it; auto.
  Qed.
  Lemma find_seen s n m r x : find_run h readable s n m r -> In x r -> seen n m x.
  Proof.
    assert (RM : forall inv s0, In x (fold_left set_remove inv s0) -> In x s0).
    { intros inv. induction inv as [|y inv IH]; intros s0; cbn; [auto|]. intros H. apply IH in H. unfold set_remove in H. apply filter_In in H. apply H. }
    destruct 1 as [n m mo r EI L HM HR|n m r EI R|n m valid invalid EI R|n m m' valid invalid ids EI R L AR]; intros HI.
    - destruct (by_ids_seen mo s (s_ids s) x n m HM [] r HR HI) as [[] | H]. exact H.
    - apply sel_seen with (x := x) in R. cbn beta iota in R. destruct (R HI) as [[] | H]. exact H.
    - apply sel_seen with (x := x) in R. cbn beta iota in R. apply RM in HI. destruct (R HI) as [[] | H]. exact H.
    - pose proof (sel_mono _ _ _ _ _ _ _ _ _ _ _ R) as M. apply sel_seen with (x := x) in R. cbn beta iota in R. apply RM in HI.
      assert (G : In x valid \/ In x ids) by (apply (combine_in false); exact HI). destruct G as [G | G].
      + destruct (R G) as [[] | H]. eapply seen_wider; [| |exact H]; lia.
      + destruct AR as (mo & HM & HA). apply HA in G as (k & v & Gv & G). destruct (HM k v Gv) as [HW _]. eapply node_seen; [| |exact Gv|exact G]; lia.
  Qed.
  Definition only_seen (lo hi : nat) (c : option (option sset)) : Prop := match c with Some (Some s) => forall x, In x s -> seen lo hi x | _ => True end.
  Lemma query_seen q : forall n m r, query_run h readable n q m r -> only_seen n m (Some r).
  Proof.
    assert (MO : forall l, Forall (fun c => forall n m r, query_run h readable n c m r -> n <= m) l).
    { intros l0. apply Forall_forall. intros c _. apply query_mono. }
    assert (WD : forall a b a' b' c, a' <= a -> b <= b' -> only_seen a b c -> only_seen a' b' c).
    { intros a b a' b' [[s|]|] L1 L2; cbn; auto. intros H x HI. eapply seen_wider; eauto. }
    induction q as [|sel ors ands IO IA] using query_ind'; intros n m r H; inversion H as [? ? ? ? n1 n2 ? cur0 cur1 cur2 HS HA HO]; subst; clear H.
    pose proof (start_mono _ _ _ _ _ _ HS) as M1. pose proof (and_mono _ _ _ (MO _) _ _ _ _ HA) as M2. pose proof (or_mono _ _ _ (MO _) _ _ _ _ HO) as M3.
    assert (K0 : only_seen n n1 cur0) by (destruct HS as [|? ? ? ? F]; cbn; [exact I|intros x HI; eapply find_seen; eauto]). clear HS.
    assert (K1 : only_seen n n2 cur1).
    { clear HO M3. revert n1 cur0 n2 cur1 M1 M2 HA K0. induction IA as [|c l Hc F IH]; intros n1 cur0 n2 cur1 M1 M2 HA K0; inversion HA as [|? m1 ? ? ? s ? HQ HN|? ? ? s S0|? m1 ? ? ? s s' ? NS HQ HN]; subst; auto.
      - pose proof (query_mono _ _ _ _ _ _ HQ) as Q1. pose proof (and_mono _ _ _ (MO _) _ _ _ _ HN) as Q2. eapply (IH m1); [lia|lia|exact HN|]. apply Hc in HQ. eapply WD; [| |exact HQ]; lia.
      - pose proof (query_mono _ _ _ _ _ _ HQ) as Q1. pose proof (and_mono _ _ _ (MO _) _ _ _ _ HN) as Q2. eapply (IH m1); [lia|lia|exact HN|].
        intros x HI. apply set_intersection_spec in HI as [HI _]. eapply seen_wider; [| |exact (K0 x HI)]; lia. }
    assert (LN : n <= n2) by lia. clear HA K0 M1 M2 cur0. assert (K2 : only_seen n m cur2).
    { revert n2 cur1 m cur2 LN M3 HO K1. induction IO as [|c l Hc F IH]; intros n2 cur1 m cur2 LN M3 HO K1; inversion HO as [|? m1 ? ? ? s ? HQ HN|? m1 ? ? ? s s' ? HQ HN]; subst; auto.
      - pose proof (query_mono _ _ _ _ _ _ HQ) as Q1. pose proof (or_mono _ _ _ (MO _) _ _ _ _ HN) as Q2. eapply (IH m1); [lia|lia|exact HN|]. apply Hc in HQ. eapply WD; [| |exact HQ]; lia.
      - pose proof (query_mono _ _ _ _ _ _ HQ) as Q1. pose proof (or_mono _ _ _ (MO _) _ _ _ _ HN) as Q2. eapply (IH m1); [lia|lia|exact HN|].
        intros x HI. assert (G : In x s \/ In x s') by (apply (combine_in false); exact HI). destruct G as [G | G].
        + eapply seen_wider; [| |exact (K1 x G)]; lia.
        + apply Hc in HQ. eapply seen_wider; [| |exact (HQ x G)]; lia. }
    destruct cur2 as [[s|]|]; auto.
  Qed.
End Seen.

Section Theorems.
  Context {A : Type} (h : nat -> atree A) (readable : nat -> string -> EV -> Prop).
  Hypothesis HH : history h.

  Lemma stored_good n x kv : stored_at h n x kv -> kvs_good kv /\ kv <> [].
  Proof.
    intros (it & HI & <- & <-). destruct (proj1 (history_ents h HH) n) as [OK _].
    assert (HE : In (it_id it, it_kv it) (ents_of (a_items (h n)))) by (apply in_ents_of; eauto). split.
    - intros k v HG. eapply ents_good; eauto.
    - destruct OK as (_ & O & _). apply (O _ _ HE).
  Qed.
  Lemma nodes_ok q : q_validate q = true -> query_no_nan q -> every_node node_simple q ->
    every_node (fun sel ors ands => (sel <> None \/ ors <> [] \/ ands <> []) /\ forall s, sel = Some s -> selection_ok s /\ sel_no_nan s /\ sel_simple s) q.
  Proof.
    intros V NN SI. assert (NQ : q <> QNil) by (intros ->; exact SI). apply q_validate_nonnil in V; auto.
    eapply every_node_impl; [|exact (every_node_and _ _ _ (every_node_and _ _ _ V NN) SI)].
    intros sel ors ands [[H1 H2] [H3 H4]]. split; [exact H3|]. intros s ->. split; [auto|]. split; [|auto]. intros k v HI. eapply H2; eauto.
  Qed.

  Lemma in_fetched (mo : string -> nat) ids it :
    In it (flat_map (fun x => match find_item (a_items (h (mo x))) x with Some it => [it] | None => [] end) ids) <-> In (it_id it) ids /\ In it (a_items (h (mo (it_id it)))).
  Proof.
    rewrite in_flat_map. split.
    - intros (x & HI & HF). destruct (find_item (a_items (h (mo x))) x) as [i|] eqn:EF; [|destruct HF]. destruct HF as [<- | []].
      apply find_item_some in EF as [H1 <-]. auto.
    - intros [H1 H2]. exists (it_id it). split; [exact H1|]. rewrite (in_find_item _ it); auto.
      + left; reflexivity.
      + apply ainv_nodup. apply (proj1 (history_ents h HH)).
  Qed.
  Lemma fetched_nodup (mo : string -> nat) ids : NoDup ids ->
    NoDup (map it_id (flat_map (fun x => match find_item (a_items (h (mo x))) x with Some it => [it] | None => [] end) ids)).
  Proof.
    induction 1 as [|x l N ND IH]; [constructor|]. cbn [flat_map]. destruct (find_item (a_items (h (mo x))) x) as [i|] eqn:EF; [|exact IH].
    cbn. constructor; [|exact IH]. intros C. apply in_map_iff in C as (it & E & HI). apply in_fetched in HI as [HI _]. apply find_item_some in EF as [_ E']. congruence.
  Qed.

  (** Each id is offered once; everything offered was stored when it was looked up. *)
  Lemma c67_once from q to its : action_run h readable from q to its -> NoDup (map it_id its) /\ forall it, In it its -> exists n, from <= n /\ n <= to /\ In it (a_items (h n)).
  Proof.
    intros R. destruct R as [mo its -> L HM N HI|mid ids mo NQ R L HM].
    - split; [exact N|]. intros it H. exists (mo (it_id it)). specialize (HM (it_id it)). split; [apply HM|]. split; [apply HM|]. apply HI. exact H.
    - pose proof (query_mono _ _ _ _ _ _ R) as M. split; [apply fetched_nodup; exact (query_nodup _ _ _ _ _ _ R)|].
      intros it H. apply in_fetched in H as [_ H]. exists (mo (it_id it)). specialize (HM (it_id it)). split; [lia|]. split; [apply HM|exact H].
  Qed.

  (** General form, for the users of id nodes: [x] is there whenever a node it belongs to is readable. *)
  Lemma c67_steady from q to its x kv : q_validate q = true -> query_no_nan q -> every_node node_simple q ->
    action_run h readable from q to its -> steady h readable from to x kv ->
    (forall n kv', from <= n -> n <= to -> stored_at h n x kv' -> kv' = kv) -> kvs_good kv -> kv <> [] ->
    every_node (fun sel _ _ => forall s, sel = Some s -> s_ids s <> [] -> forall n, from <= n -> n <= to -> stored_at h n x kv) q ->
    exists mid ids mo, from <= mid /\ mid <= to /\ (forall y, mid <= mo y <= to) /\
      its = flat_map (fun x => match find_item (a_items (h (mo x))) x with Some it => [it] | None => [] end) ids /\
      (In x ids <-> query_holds q x kv) /\ forall y, In y ids -> seen h from mid y.
  Proof.
    intros V NN SI R ST UQ KG NE HI. destruct R as [mo its -> L HM N _|mid ids mo NQ R L HM].
    - exfalso. apply every_node_Q in SI as [[[C | [C | C]] _] _]; cbn in C; congruence.
    - exists mid, ids, mo. split; [exact (query_mono _ _ _ _ _ _ R)|]. split; [exact L|]. split; [exact HM|]. split; [reflexivity|].
      split; [|exact (query_seen h readable (proj1 (history_ents h HH)) q from mid (Some ids) R)].
      destruct (query_x h readable true from to x kv (gs h readable from to x kv true)) with (q := q) (n := from) (m := mid) (r := Some ids) as (s & [= <-] & _ & HQ); auto.
      + intros s n m r GS F L1 L2. eapply find_x; eauto. apply (history_ents h HH).
      + eapply every_node_impl; [|exact (every_node_and _ _ _ (nodes_ok q V NN SI) HI)]. intros sel ors ands [[H1 H2] H3]. split; [exact H1|].
        intros s ->. destruct (H2 s eq_refl) as (G1 & G2 & G3). split; [exact G1|]. split; [exact G2|]. split; [exact G3|]. split; [exact ST|]. split; [exact NE|].
        apply (H3 s eq_refl).
  Qed.
  Lemma c67_stored from q to its x kv : q_validate q = true -> query_no_nan q -> q = Q None None None \/ every_node node_simple q ->
    action_run h readable from q to its -> (forall n, from <= n -> n <= to -> stored_at h n x kv) ->
    (exists it, In it its /\ it_id it = x /\ it_kv it = kv) <-> query_holds q x kv.
  Proof.
    intros V NN SI R SA. pose proof (history_ents h HH) as (INV & UQ & _).
    assert (LE : from <= to). { destruct R as [? ? ? ? ? ? ?|? ? ? ? R ? ?]; [assumption|]. apply query_mono in R. lia. }
    pose proof (SA from (le_n _) LE) as S0. destruct (stored_good _ _ _ S0) as [KG NE].
    destruct SI as [-> | SI].
    - split; [intros _; unfold query_holds; rewrite q_holds_Q; left; cbn; split; [auto|]; split; [constructor|auto]|]. intros _.
      inversion R as [mo its0 _ L HM N HI|mid ids mo NQ]; subst; [|congruence].
      destruct (HM x) as [M1 M2]. destruct (SA (mo x) M1 M2) as (it & H1 & H2 & H3). exists it. split; [apply HI; rewrite H2; exact H1|auto].
    - destruct (c67_steady from q to its x kv V NN SI R) as (mid & ids & mo & LM & L & HM & -> & HX & _); auto.
      + intros n k v m L1 L2 _ _ _ _. apply SA; auto.
      + intros n kv' _ _ H. eapply UQ; eauto.
      + eapply every_node_impl; [|exact SI]. intros sel ors ands _ s _ _. exact SA.
      + rewrite <- HX. split.
        * intros (it & HI & <- & _). apply in_fetched in HI. apply HI.
        * intros HI. destruct (HM x) as [M1 M2]. destruct (SA (mo x)) as (it & H1 & H2 & H3); [lia|lia|].
          exists it. split; [apply in_fetched; rewrite H2; auto|auto].
  Qed.
  Lemma c67_found from q to its : q_validate q = true -> query_no_nan q -> q = Q None None None \/ every_node node_simple q -> no_not_equals q ->
    action_run h readable from q to its -> forall it, In it its -> query_holds q (it_id it) (it_kv it).
  Proof.
    intros V NN SI NE R it HI. pose proof (history_ents h HH) as (INV & UQ & _). destruct R as [mo its -> L HM N _|mid ids mo NQ R L HM].
    - unfold query_holds; rewrite q_holds_Q; left; cbn; split; [auto|]; split; [constructor|auto].
    - destruct SI as [-> | SI]; [congruence|]. apply in_fetched in HI as [HI HS].
      assert (SA : stored_at h (mo (it_id it)) (it_id it) (it_kv it)) by (exists it; auto). destruct (stored_good _ _ _ SA) as [KG KN].
      destruct (query_x h readable false from mid (it_id it) (it_kv it) (gs h readable from mid (it_id it) (it_kv it) false)) with (q := q) (n := from) (m := mid) (r := Some ids) as (s & [= <-] & _ & HQ); auto.
      + intros s n m r GS F L1 L2. eapply find_x; eauto.
      + eapply every_node_impl; [|exact (every_node_and _ _ _ (nodes_ok q V NN SI) NE)]. intros sel ors ands [[H1 H2] H3]. split; [exact H1|].
        intros s ->. destruct (H2 s eq_refl) as (G1 & G2 & G3). split; [exact G1|]. split; [exact G2|]. split; [exact G3|]. intros EI k v HK. exact (H3 s k v eq_refl EI HK).
  Qed.

  Lemma c67_old from q to its : q_validate q = true -> query_no_nan q -> q = Q None None None \/ every_node node_simple q ->
    action_run h readable from q to its -> forall it, In it its -> stored_at h from (it_id it) (it_kv it) -> query_holds q (it_id it) (it_kv it).
  Proof.
    intros V NN SI R it HI S0. pose proof (history_ents h HH) as (INV & UQ & BT). destruct R as [mo its -> L HM N _|mid ids mo NQ R L HM].
    - unfold query_holds; rewrite q_holds_Q; left; cbn; split; [auto|]; split; [constructor|auto].
    - destruct SI as [-> | SI]; [congruence|]. apply in_fetched in HI as [HI HS].
      assert (SA : stored_at h (mo (it_id it)) (it_id it) (it_kv it)) by (exists it; auto). destruct (stored_good _ _ _ SA) as [KG KN].
      assert (AL : forall n, from <= n -> n <= mid -> stored_at h n (it_id it) (it_kv it)).
      { intros n L1 L2. eapply BT; [| |exact S0|exact SA]; auto. specialize (HM (it_id it)). lia. }
      destruct (query_x h readable true from mid (it_id it) (it_kv it) (gs h readable from mid (it_id it) (it_kv it) true)) with (q := q) (n := from) (m := mid) (r := Some ids) as (s & [= <-] & _ & HQ); auto.
      + intros s n m r GS F L1 L2. eapply find_x; eauto.
      + eapply every_node_impl; [|exact (nodes_ok q V NN SI)]. intros sel ors ands [H1 H2]. split; [exact H1|].
        intros s ->. destruct (H2 s eq_refl) as (G1 & G2 & G3). split; [exact G1|]. split; [exact G2|]. split; [exact G3|]. split; [|auto].
        intros n k v m L1 L2 _ _ _ _. apply AL; auto.
      + apply HQ. exact HI.
  Qed.
End Theorems.
