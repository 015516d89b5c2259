(** Proofs about the query language. *)
From Coq Require Import SpecFloat.
From Verif Require Import Datatypes SpecValues DatatypesProofs Query SpecQuery.
Local Open Scope nat_scope.

Lemma query_ind' (P : Query -> Prop) :
  P QNil ->
  (forall sel ors ands, Forall P (elems ors) -> Forall P (elems ands) -> P (Q sel ors ands)) ->
  forall q, P q.
Proof.
  intros HN HQ.
  refine (fix F (q : Query) : P q := match q with QNil => HN | Q sel ors ands => HQ sel ors ands _ _ end).
  - destruct ors as [l|]; cbn [elems]; [|constructor].
    refine ((fix G (l : list Query) : Forall P l := match l with [] => Forall_nil _ | c :: r => Forall_cons _ (F c) (G r) end) l).
  - destruct ands as [l|]; cbn [elems]; [|constructor].
    refine ((fix G (l : list Query) : Forall P l := match l with [] => Forall_nil _ | c :: r => Forall_cons _ (F c) (G r) end) l).
Qed.

Lemma every_node_Q P sel ors ands :
  every_node P (Q sel ors ands) <->
  P sel (elems ors) (elems ands) /\ Forall (every_node P) (elems ands) /\ Forall (every_node P) (elems ors).
Proof.
  assert (E : forall l, (fix all (l : list Query) : Prop := match l with [] => True | c :: r => every_node P c /\ all r end) l
                        <-> Forall (every_node P) l).
  { induction l as [|c r IH]; [split; [constructor|auto]|]. rewrite IH. split.
    - intros [? ?]; constructor; auto.
    - intros H; inversion H; auto. }
  cbn [every_node]. destruct ors, ands; cbn [elems]; rewrite ?E; intuition; constructor.
Qed.
Lemma q_holds_Q h sel ors ands :
  q_holds h (Q sel ors ands) <->
  (match sel with Some s => h s | None => True end /\ Forall (q_holds h) (elems ands) /\
   (sel <> None \/ elems ands <> [] \/ elems ors = [])) \/ Exists (q_holds h) (elems ors).
Proof.
  assert (E : forall l, (fix all (l : list Query) : Prop := match l with [] => True | c :: r => q_holds h c /\ all r end) l
                        <-> Forall (q_holds h) l).
  { induction l as [|c r IH]; [split; [constructor|auto]|]. rewrite IH. split.
    - intros [? ?]; constructor; auto.
    - intros H; inversion H; auto. }
  assert (E' : forall l, (fix any (l : list Query) : Prop := match l with [] => False | c :: r => q_holds h c \/ any r end) l
                        <-> Exists (q_holds h) l).
  { induction l as [|c r IH]; [split; [contradiction|intros H; inversion H]|]. rewrite IH. split.
    - intros [? | ?]; [left|right]; auto.
    - intros H; inversion H; auto. }
  cbn [q_holds]. destruct ors, ands; cbn [elems]; rewrite ?E, ?E'; rewrite ?Exists_nil; intuition.
Qed.
Lemma every_node_impl (P P' : option Selection -> list Query -> list Query -> Prop) q : (forall a b c, P a b c -> P' a b c) -> every_node P q -> every_node P' q.
Proof.
  intros HP. induction q as [|sel ors ands IO IA] using query_ind'; auto.
  rewrite !every_node_Q. intros (H & HA & HO). rewrite !Forall_forall in *. split; [auto|]. split; intros x Hx; auto.
Qed.
Lemma every_node_and (P P' : option Selection -> list Query -> list Query -> Prop) q : every_node P q -> every_node P' q -> every_node (fun a b c => P a b c /\ P' a b c) q.
Proof.
  induction q as [|sel ors ands IO IA] using query_ind'; auto.
  rewrite !every_node_Q. intros (H & HA & HO) (H' & HA' & HO'). rewrite !Forall_forall in *.
  split; [auto|]. split; intros x Hx; auto.
Qed.

(** * Validation *)
Lemma vq_validate_iff q : vq_validate q = true <-> value_query_ok q.
Proof.
  unfold value_query_ok, vq_validate.
  assert (HT : forall mn mx, mn = MinDataType -> mx = MaxDataType \/ mx = MaxWithoutAnyDataType ->
     ev_validate (vq_value q) mn mx = true <->
     well_typed (ev_type (vq_value q)) (ev_data (vq_value q)) /\ (mx = MaxWithoutAnyDataType -> ev_type (vq_value q) <> T_any)).
  { intros mn mx -> Hmx. rewrite validate_iff. split.
    - intros [W R]. split; [exact W|]. intros -> E. rewrite E in R. unfold MaxWithoutAnyDataType, T_any, T_string in R. lia.
    - intros [W R]. split; [exact W|]. pose proof (well_typed_tag _ _ W) as K. unfold known_tag in K.
      unfold MinDataType, MaxWithoutAnyDataType, MaxDataType, T_any, T_uint8, T_string in *.
      destruct Hmx as [-> | ->]; [lia|]. destruct K as [K|K]; [lia|]. exfalso. apply R; auto. }
  destruct (vq_cmp q) eqn:E; rewrite ?andb_true_iff, ?HT, ?tr_validate_iff by auto.
  all: try (unfold MaxDataType, MaxWithoutAnyDataType, T_any, T_string in *; split; intros H; intuition (try congruence); fail).
Qed.

Lemma sel_validate_iff s : sel_validate s = true <-> selection_ok s.
Proof.
  assert (K : forallb (fun p => vq_validate (snd p)) (s_kvs s) = true <-> (forall k q, In (k, q) (s_kvs s) -> value_query_ok q)).
  { rewrite forallb_forall. split.
    - intros H k q HI. apply vq_validate_iff. exact (H _ HI).
    - intros H [k q] HI. apply vq_validate_iff. exact (H _ _ HI). }
  assert (M : match s_min s, s_max s with Some a, Some b => negb (Z.ltb b a) | _, _ => true end = true <->
              (forall a b, s_min s = Some a -> s_max s = Some b -> (a <= b)%Z)).
  { destruct (s_min s) as [a|], (s_max s) as [b|]; try (split; [intros; congruence|auto]).
    rewrite negb_true_iff, Z.ltb_ge. split; [intros H x y [= ->] [= ->]; auto|auto]. }
  unfold sel_validate, selection_ok.
  destruct (s_ids s) eqn:E1, (s_kvs s) eqn:E2, (s_min s) eqn:E3, (s_max s) eqn:E4;
    rewrite ?andb_true_iff, ?K, ?M;
    try (split; [intros [? ?]; split; [|split]; auto; intuition congruence | intros (_ & ? & ?); auto]).
  split; [discriminate|]. intros ([H | [H | [H | H]]] & _); contradiction.
Qed.

Lemma q_validate_nonnil q :
  q <> QNil -> q_validate q = true <-> every_node (fun sel _ _ => forall s, sel = Some s -> selection_ok s) q.
Proof.
  induction q as [|sel ors ands IO IA] using query_ind'; [contradiction|]. intros _.
  rewrite every_node_Q. cbn [q_validate].
  assert (C : forall o, Forall (fun q => q <> QNil -> q_validate q = true <-> every_node (fun sel _ _ => forall s, sel = Some s -> selection_ok s) q) (elems o) ->
     match o with Some l => forallb (fun c => match c with QNil => false | _ => q_validate c end) l | None => true end = true <->
     Forall (every_node (fun sel _ _ => forall s, sel = Some s -> selection_ok s)) (elems o)).
  { intros [l|] HF; cbn [elems] in *; [|split; constructor].
    rewrite forallb_forall, Forall_forall in *. split; intros H x Hx.
    - specialize (H x Hx). specialize (HF x Hx). destruct x; [discriminate|]. apply HF; [discriminate|auto].
    - specialize (H x Hx). specialize (HF x Hx). destruct x; [destruct H|]. apply HF; [discriminate|auto]. }
  rewrite !andb_true_iff, (C ors IO), (C ands IA).
  assert (S : match sel with Some s => sel_validate s | None => true end = true <-> (forall s, sel = Some s -> selection_ok s)).
  { destruct sel as [s|].
    - rewrite sel_validate_iff. split; [intros H ? [= <-]; auto|auto].
    - split; [discriminate|auto]. }
  rewrite S. tauto.
Qed.
Lemma q_validate_iff q : q_validate q = true <-> query_ok q.
Proof.
  unfold query_ok. destruct q as [|sel ors ands]; [cbn; tauto|].
  rewrite q_validate_nonnil by discriminate. split; [auto|]. intros [H|H]; [discriminate|auto].
Qed.

(** * One key *)
Lemma any_or_concrete e : good e -> e = Any \/ (ev_type e <> T_any).
Proof.
  intros [W _]. destruct (Z.eq_dec (ev_type e) T_any) as [E|E]; [left|right; auto]. apply wt_any_nil; auto.
Qed.
Lemma lmt_iff a b : good a -> good b -> lmt a b = true <-> value_lt a b.
Proof. intros. rewrite lmt_spec; auto using good_wt; tauto. Qed.
Lemma incomparable_iff a b : good a -> good b -> (lmt a b = false /\ lmt b a = false) <-> same_value a b.
Proof.
  intros Ha Hb. split.
  - intros [? ?]. apply lmt_total; auto.
  - apply same_value_incomparable; auto.
Qed.
Lemma less_lmt a b : ev_type a <> T_any -> ev_type b <> T_any -> less a b = lmt a b.
Proof. intros. unfold less, lmt. rewrite less_lmt_concrete; auto. Qed.
Lemma same_value_sym a b : same_value a b -> same_value b a.
Proof. intros [? ?]. split; auto using same_payload_sym. Qed.
Lemma equal_values_test m v : good m -> good v ->
  (negb (less m v) && negb (less v m) = true) <-> equal_values m v.
Proof.
  intros Hm Hv. unfold equal_values.
  destruct (any_or_concrete m Hm) as [-> | Em].
  { unfold less. rewrite (less_any_l Any), (less_any_r Any) by reflexivity. cbn. split; auto. }
  destruct (any_or_concrete v Hv) as [-> | Ev].
  { unfold less. rewrite (less_any_l Any), (less_any_r Any) by reflexivity. cbn. split; auto. }
  rewrite !less_lmt by auto. rewrite andb_true_iff, !negb_true_iff, incomparable_iff by auto.
  split; [auto|]. intros [-> | [-> | ?]]; auto; exfalso; auto.
Qed.

Lemma key_matches_iff q mv :
  value_query_ok q -> ~ is_nan (ev_data (vq_value q)) -> (forall m, mv = Some m -> good m) ->
  exists b, key_matches q mv = Some b /\ (b = true <-> key_holds q mv).
Proof.
  intros (HC & HW & HA & Hn & Hx & _) HN HG. unfold key_matches, key_holds.
  assert (Gv : good (vq_value q)) by (split; auto).
  set (v := vq_value q) in *.
  assert (KX : GeneralDataTypes (tr_max (vq_tr q)) = true \/
               (GeneralDataTypes (tr_max (vq_tr q)) = false /\ AnyDataType (tr_max (vq_tr q)) = true)).
  { apply known_tag_dec in Hx. destruct (GeneralDataTypes _); auto. rewrite orb_false_r in Hx. auto. }
  assert (B : forall m (test : bool) (P : Prop), good m -> type_permitted (vq_tr q) m ->
     (ev_type m <> T_any -> (test = true <-> P)) -> 
     ((if GeneralDataTypes (tr_max (vq_tr q)) then test
       else if AnyDataType (tr_max (vq_tr q)) then (if Z.eqb (ev_type m) T_any then true else test) else true) = true
      <-> (m = Any \/ P))).
  { intros m test P Gm HP HT. destruct KX as [K | [K K']].
    - rewrite K. assert (ev_type m <> T_any).
      { apply general_range in K. destruct HP. unfold T_any. lia. }
      rewrite HT by auto. split; [auto|]. intros [-> | ?]; auto. exfalso; auto.
    - rewrite K, K'. destruct (Z.eqb_spec (ev_type m) T_any) as [E|E].
      + split; [|auto]. intros _. left. apply wt_any_nil; auto. apply Gm.
      + rewrite HT by auto. split; [auto|]. intros [-> | ?]; auto. exfalso; auto. }
  assert (W : forall m, tr_within (vq_tr q) (ev_type m) = true <-> type_permitted (vq_tr q) m).
  { intros m. apply tr_within_iff. }
  assert (AV : vq_cmp q <> CEquals -> vq_cmp q <> CNotEquals -> ev_type v <> T_any).
  { intros ? ? E. destruct (HA E); auto. }
  destruct mv as [m|].
  2:{ destruct (vq_cmp q); try contradiction; eexists; (split; [reflexivity|]);
      try (split; [discriminate|intros (? & [=] & _)]).
      split; [intros _ ? [=]|auto]. }
  assert (Gm : good m) by auto.
  destruct (vq_cmp q); try contradiction; eexists; (split; [reflexivity|]).
  - rewrite andb_true_iff, W, equal_values_test by auto. cbn [compares].
    split; [intros [? ?]; eauto|intros (? & [= <-] & ? & ?); auto].
  - destruct (tr_within (vq_tr q) (ev_type m)) eqn:E.
    + apply W in E. rewrite negb_true_iff, <- not_true_iff_false, equal_values_test by auto.
      split; [intros H ? [= <-] _; auto|intros H; apply H; auto].
    + split; auto. intros _ ? [= <-] HT. apply W in HT. congruence.
  - rewrite andb_true_iff, W. cbn [compares]. split.
    + intros [H1 H2]. exists m. split; [reflexivity|]. split; [exact H1|].
      apply (B m _ (value_lt m v)) in H2; auto. intros _. apply lmt_iff; auto.
    + intros (? & [= <-] & H1 & H2). split; [exact H1|]. apply (B m _ (value_lt m v)); auto. intros _. apply lmt_iff; auto.
  - assert (T : ev_type m <> T_any -> ((if negb (lmt m v) then negb (less v m) else true) = true <-> (value_lt m v \/ same_value m v))).
    { intros Em. rewrite less_lmt by (auto; apply AV; discriminate). rewrite <- lmt_iff, <- incomparable_iff by auto.
      destruct (lmt m v), (lmt v m); cbn; intuition congruence. }
    rewrite andb_true_iff, W. cbn [compares]. split.
    + intros [H1 H2]. exists m. split; [reflexivity|]. split; [exact H1|]. eapply B in H2; eauto.
    + intros (? & [= <-] & H1 & H2). split; [exact H1|]. eapply B; eauto.
  - rewrite andb_true_iff, W. cbn [compares]. split.
    + intros [H1 H2]. exists m. split; [reflexivity|]. split; [exact H1|].
      apply (B m _ (value_lt v m)) in H2; auto. intros _. apply lmt_iff; auto.
    + intros (? & [= <-] & H1 & H2). split; [exact H1|]. apply (B m _ (value_lt v m)); auto. intros _. apply lmt_iff; auto.
  - assert (T : ev_type m <> T_any -> ((if negb (lmt v m) then negb (less m v) else true) = true <-> (value_lt v m \/ same_value m v))).
    { intros Em. rewrite less_lmt by (auto; apply AV; discriminate). rewrite <- lmt_iff, <- incomparable_iff by auto.
      destruct (lmt m v), (lmt v m); cbn; intuition congruence. }
    rewrite andb_true_iff, W. cbn [compares]. split.
    + intros [H1 H2]. exists m. split; [reflexivity|]. split; [exact H1|]. eapply B in H2; eauto.
    + intros (? & [= <-] & H1 & H2). split; [exact H1|]. eapply B; eauto.
Qed.

(** * Selections and whole queries *)

Lemma match_loop_iff kvs tags :
  (forall k q, In (k, q) kvs -> value_query_ok q) -> (forall k q, In (k, q) kvs -> ~ is_nan (ev_data (vq_value q))) ->
  kvs_good tags ->
  exists b, match_loop kvs tags = Some b /\ (b = true <-> forall k q, In (k, q) kvs -> key_holds q (kv_get tags k)).
Proof.
  intros HV HN HG. induction kvs as [|[k q] r IH].
  - exists true. split; [reflexivity|]. split; [intros _ ? ? []|auto].
  - destruct (key_matches_iff q (kv_get tags k)) as (b & E & Hb).
    { eapply HV; left; reflexivity. } { eapply HN; left; reflexivity. } { intros m Hm. eapply HG; eauto. }
    cbn [match_loop]. rewrite E. destruct b.
    + destruct IH as (b' & E' & Hb').
      { intros; eapply HV; right; eauto. } { intros; eapply HN; right; eauto. }
      exists b'. split; [exact E'|]. rewrite Hb'. split.
      * intros H k' q' [[= <- <-] | HI]; auto. apply Hb; auto.
      * intros H k' q' HI. apply H. right; auto.
    + exists false. split; [reflexivity|]. split; [discriminate|]. intros H.
      assert (key_holds q (kv_get tags k)) by (apply H; left; reflexivity). apply Hb in H0. discriminate.
Qed.

Definition sel_no_nan (s : Selection) : Prop := forall k v, In (k, v) (s_kvs s) -> ~ is_nan (ev_data (vq_value v)).

Lemma under_min_iff n b : under_min n b = false <-> (forall a, b = Some a -> (a <= Z.of_nat n)%Z).
Proof.
  destruct b as [a|]; cbn; [|split; [intros _ ? [=]|auto]]. rewrite Z.ltb_ge. split; [intros ? ? [= <-]; auto|auto].
Qed.
Lemma over_max_iff n b : over_max n b = false <-> (forall a, b = Some a -> (Z.of_nat n <= a)%Z).
Proof.
  destruct b as [a|]; cbn; [|split; [intros _ ? [=]|auto]]. rewrite Z.ltb_ge. split; [intros ? ? [= <-]; auto|auto].
Qed.
Lemma MatchKeyValues_iff s tags :
  selection_ok s -> sel_no_nan s -> kvs_good tags ->
  exists b, MatchKeyValues s tags = Some b /\ (b = true <-> tags_hold s tags).
Proof.
  intros (_ & HV & _) HN HG. unfold MatchKeyValues, tags_hold, size_holds.
  destruct (under_min (length tags) (s_min s)) eqn:E1.
  { exists false. split; [reflexivity|]. split; [discriminate|]. intros [[H _] _]. apply under_min_iff in H. congruence. }
  destruct (over_max (length tags) (s_max s)) eqn:E2.
  { exists false. split; [reflexivity|]. split; [discriminate|]. intros [[_ H] _]. apply over_max_iff in H. congruence. }
  rewrite under_min_iff in E1. rewrite over_max_iff in E2.
  destruct (match_loop_iff (s_kvs s) tags HV HN HG) as (b & E & Hb). exists b. split; [exact E|].
  rewrite Hb. tauto.
Qed.

(** What MatchTags computes on well-formed queries: like the meaning, except that a node without selection and And
    parts matches without looking at its Or part. *)
Fixpoint mt_holds (tags : KeyValues) (q : Query) : Prop :=
  match q with
  | QNil => False
  | Q sel ors ands =>
      (match sel with Some s => tags_hold s tags | None => True end /\
       match ands with
       | Some l => (fix all (l : list Query) : Prop := match l with [] => True | c :: r => mt_holds tags c /\ all r end) l
       | None => True end) \/
      match ors with
      | Some l => (fix any (l : list Query) : Prop := match l with [] => False | c :: r => mt_holds tags c \/ any r end) l
      | None => False end
  end.

Definition mt_all (tags : KeyValues) := fix all (l : list Query) : option bool :=
  match l with [] => Some true | c :: r => match MatchTags c tags with Some true => all r | x => x end end.
Definition mt_any (tags : KeyValues) := fix any (l : list Query) : option bool :=
  match l with [] => Some false | c :: r => match MatchTags c tags with Some false => any r | x => x end end.
Lemma MatchTags_Q sel ors ands tags :
  MatchTags (Q sel ors ands) tags =
  match (match match sel with Some s => MatchKeyValues s tags | None => Some true end with
         | Some true => mt_all tags (elems ands)
         | x => x end) with
  | Some false => mt_any tags (elems ors)
  | x => x
  end.
Proof.
  assert (EA : forall l, (fix all (l : list Query) : option bool :=
     match l with [] => Some true | c :: r => match MatchTags c tags with Some true => all r | x => x end end) l = mt_all tags l).
  { induction l as [|c r IH]; [reflexivity|]. cbn. rewrite IH. reflexivity. }
  cbn [MatchTags]. destruct ors, ands; cbn [elems]; destruct sel as [s|]; try destruct (MatchKeyValues s tags) as [[|]|];
    try reflexivity; try reflexivity;
    rewrite EA; destruct (mt_all tags _) as [[|]|]; reflexivity.
Qed.
Lemma mt_holds_Q sel ors ands tags :
  mt_holds tags (Q sel ors ands) <->
  (match sel with Some s => tags_hold s tags | None => True end /\ Forall (mt_holds tags) (elems ands)) \/
  Exists (mt_holds tags) (elems ors).
Proof.
  assert (E : forall l, (fix all (l : list Query) : Prop := match l with [] => True | c :: r => mt_holds tags c /\ all r end) l
                        <-> Forall (mt_holds tags) l).
  { induction l as [|c r IH]; [split; [constructor|auto]|]. rewrite IH. split.
    - intros [? ?]; constructor; auto.
    - intros H; inversion H; auto. }
  assert (E' : forall l, (fix any (l : list Query) : Prop := match l with [] => False | c :: r => mt_holds tags c \/ any r end) l
                        <-> Exists (mt_holds tags) l).
  { induction l as [|c r IH]; [split; [contradiction|intros H; inversion H]|]. rewrite IH. split.
    - intros [? | ?]; [left|right]; auto.
    - intros H; inversion H; auto. }
  cbn [mt_holds]. destruct ors, ands; cbn [elems]; rewrite ?E, ?E'; rewrite ?Exists_nil; intuition.
Qed.

Definition node_ok (sel : option Selection) (ors ands : list Query) : Prop :=
  forall s, sel = Some s -> selection_ok s /\ sel_no_nan s.

Lemma MatchTags_computes q tags : every_node node_ok q -> kvs_good tags ->
  exists b, MatchTags q tags = Some b /\ (b = true <-> mt_holds tags q).
Proof.
  intros HQ HG. induction q as [|sel ors ands IO IA] using query_ind'; [destruct HQ|].
  apply every_node_Q in HQ as (HS & HA & HO). rewrite MatchTags_Q; setoid_rewrite mt_holds_Q.
  assert (A : exists b, mt_all tags (elems ands) = Some b /\ (b = true <-> Forall (mt_holds tags) (elems ands))).
  { clear -IA HA. induction (elems ands) as [|c r IH].
    - exists true. split; [reflexivity|]. split; [constructor|auto].
    - inversion IA; inversion HA; subst. destruct (H1 H5) as (b & E & Hb). cbn. rewrite E. destruct b.
      + destruct IH as (b' & E' & Hb'); auto. exists b'. split; [exact E'|]. rewrite Hb'. rewrite Forall_cons_iff. intuition.
      + exists false. split; [reflexivity|]. rewrite Forall_cons_iff, <- Hb. intuition discriminate. }
  assert (O : exists b, mt_any tags (elems ors) = Some b /\ (b = true <-> Exists (mt_holds tags) (elems ors))).
  { clear -IO HO. induction (elems ors) as [|c r IH].
    - exists false. split; [reflexivity|]. rewrite Exists_nil. split; [discriminate|contradiction].
    - inversion IO; inversion HO; subst. destruct (H1 H5) as (b & E & Hb). cbn. rewrite E. destruct b.
      + exists true. split; [reflexivity|]. rewrite Exists_cons, <- Hb. intuition.
      + destruct IH as (b' & E' & Hb'); auto. exists b'. split; [exact E'|]. rewrite Hb', Exists_cons, <- Hb. intuition discriminate. }
  assert (SS : exists b, match sel with Some s => MatchKeyValues s tags | None => Some true end = Some b /\
                  (b = true <-> match sel with Some s => tags_hold s tags | None => True end)).
  { destruct sel as [s|].
    - destruct (HS s eq_refl). apply MatchKeyValues_iff; auto.
    - exists true. split; [reflexivity|tauto]. }
  destruct A as (ba & -> & Ha), O as (bo & -> & Ho), SS as (bs & -> & Hs).
  destruct bs, ba, bo; eexists; (split; [reflexivity|]); rewrite <- Ha, <- Ho, <- Hs; intuition congruence.
Qed.

(** No node consists of Or parts only. *)
Definition node_not_or_only (sel : option Selection) (ors ands : list Query) : Prop :=
  sel <> None \/ ands <> [] \/ ors = [].

Lemma mt_holds_meaning q tags : every_node node_not_or_only q -> (mt_holds tags q <-> query_holds_tags q tags).
Proof.
  unfold query_holds_tags. induction q as [|sel ors ands IO IA] using query_ind'; [intros []|].
  intros HQ. apply every_node_Q in HQ as (HS & HA & HO). rewrite mt_holds_Q, q_holds_Q.
  assert (A : Forall (mt_holds tags) (elems ands) <-> Forall (q_holds (fun s => tags_hold s tags)) (elems ands)).
  { rewrite !Forall_forall in *. split; intros H x Hx; apply IA; auto. }
  assert (O : Exists (mt_holds tags) (elems ors) <-> Exists (q_holds (fun s => tags_hold s tags)) (elems ors)).
  { rewrite !Exists_exists, !Forall_forall in *. split; intros (x & Hx & H); exists x; (split; [auto|]); apply IO; auto. }
  rewrite A, O. unfold node_not_or_only in HS. tauto.
Qed.
