(** Queries and matches over an associated tree whose index is right. *)
From Coq Require Import Permutation SpecFloat.
From Verif Require Import Datatypes SpecValues DatatypesProofs Collections SpecCollections CollectionsProofs Query SpecQuery QueryProofs Assoc SpecAssoc AssocMaps AssocProofs.
Local Open Scope nat_scope.

(** ** One values tree *)
Lemma tr_within_iff tr t : tr_within tr t = true <-> (tr_min tr <= t <= tr_max tr)%Z.
Proof.
  unfold tr_within. destruct (Z.ltb_spec t (tr_min tr)); [split; [discriminate|lia]|].
  destruct (Z.ltb_spec (tr_max tr) t); [split; [discriminate|lia]|]. split; [lia|reflexivity].
Qed.
Lemma same_value_lt_l a b c : same_value a b -> value_lt a c -> value_lt b c.
Proof.
  destruct a as [ta da], b as [tb db]. intros [HT HP]. unfold value_lt. cbn in *. subst tb. intros [H | [H1 H2]]; [left; auto|]. right. split; [auto|].
  inversion HP; subst; auto; inversion H2; subst; constructor; unfold sf_lt in *; cbn in *; auto.
Qed.
Lemma same_value_lt_r a b c : same_value a b -> value_lt c a -> value_lt c b.
Proof.
  destruct a as [ta da], b as [tb db]. intros [HT HP]. unfold value_lt. cbn in *. subst tb. intros [H | [H1 H2]]; [left; auto|]. right. split; [auto|].
  inversion HP; subst; auto; inversion H2; subst; constructor; unfold sf_lt in *; destruct x as [| | |]; cbn in *; auto.
Qed.
Lemma lmt_congr a a' b : good a -> good a' -> good b -> veq a a' = true -> lmt a b = lmt a' b /\ lmt b a = lmt b a'.
Proof.
  intros Ga Ga' Gb E. apply veq_iff in E; auto. split; apply eq_true_iff_eq; rewrite !lmt_iff by auto; split; intros H.
  - eapply same_value_lt_l; eauto.
  - eapply same_value_lt_l; eauto using same_value_sym.
  - eapply same_value_lt_r; eauto.
  - eapply same_value_lt_r; eauto using same_value_sym.
Qed.
Lemma visitb_congr w key tr a b : good key -> good a -> good b -> veq a b = true -> visitb w key tr a = visitb w key tr b.
Proof.
  intros Gk Ga Gb E. destruct (lmt_congr a b key) as [L1 L2]; auto. pose proof E as E'. apply veq_iff in E' as [ET _]; auto.
  unfold visitb. rewrite ET. rewrite L1, L2. unfold veq. rewrite L1, L2. reflexivity.
Qed.

(** The lookups used for each comparison, against its meaning *)
Definition lookup_for (c : comparison) : lookup_kind :=
  match c with CLess => LLess | CLessEq => LLessEq | CGreater => LGreater | CGreaterEq => LGreaterEq | _ => LFind end.
Lemma value_lt_types a b : value_lt a b -> (ev_type a <= ev_type b)%Z.
Proof. intros [?|[? _]]; lia. Qed.
Lemma any_type_le e : good e -> (1 <= ev_type e <= 1024)%Z.
Proof. intros [W _]. apply well_typed_tag in W. unfold known_tag in W. lia. Qed.

Lemma find_visits q m : value_query_ok q -> good (vq_value q) -> good m ->
  visitb LFind (vq_value q) (vq_tr q) m = true <-> type_permitted (vq_tr q) m /\ equal_values m (vq_value q).
Proof.
  intros (_ & _ & _ & K1 & K2 & K3) Gv Gm. unfold visitb, type_permitted, equal_values.
  destruct (Z.eqb_spec (ev_type (vq_value q)) T_any) as [E|NE].
  - rewrite tr_within_iff. assert (vq_value q = Any) by (destruct (any_or_concrete _ Gv); congruence). tauto.
  - rewrite orb_true_iff, !andb_true_iff, !Z.eqb_eq, tr_within_iff, veq_iff by auto.
    assert (NA : vq_value q <> Any) by (intros C; rewrite C in NE; apply NE; reflexivity).
    split.
    + intros [[H1 H2] | [H1 H2]].
      * pose proof H2 as [ET _]. rewrite <- ET. split; [auto|]. right; right. apply same_value_sym; auto.
      * assert (m = Any) by (destruct (any_or_concrete _ Gm); congruence). unfold known_tag, T_any in *. split; [lia|auto].
    + intros [H1 [-> | [C | H2]]]; [right|contradiction|left].
      * cbn in *. unfold known_tag, T_any in *. split; [reflexivity|lia].
      * pose proof H2 as [ET _]. rewrite <- ET. split; [auto|apply same_value_sym; auto].
Qed.

Lemma range_visits q m : value_query_ok q -> good (vq_value q) -> good m -> range_covered q ->
  vq_cmp q <> CEquals -> vq_cmp q <> CNotEquals ->
  visitb (lookup_for (vq_cmp q)) (vq_value q) (vq_tr q) m = true <-> type_permitted (vq_tr q) m /\ compares (vq_cmp q) m (vq_value q).
Proof.
  intros (U & _ & NA & K1 & K2 & K3) Gv Gm RC N1 N2. unfold range_covered, type_permitted in *.
  assert (TV : ev_type (vq_value q) <> T_any) by (intros C; destruct (NA C); congruence).
  pose proof (any_type_le _ Gv). pose proof (any_type_le _ Gm).
  assert (MA : ev_type m = T_any -> m = Any) by (destruct (any_or_concrete _ Gm); congruence).
  assert (AT : m = Any -> ev_type m = T_any) by (intros ->; reflexivity).
  assert (LT : forall a b, value_lt a b -> (ev_type a <= ev_type b)%Z) by apply value_lt_types.
  assert (SV : forall a b, same_value a b -> ev_type a = ev_type b) by (intros ? ? [? _]; auto).
  unfold T_any in *.
  destruct (vq_cmp q) eqn:EC; try congruence; cbn [lookup_for visitb compares];
    rewrite ?orb_true_iff, ?andb_true_iff, ?Z.eqb_eq, ?Z.leb_le, ?negb_true_iff; unfold T_any, known_tag in *.
  - rewrite lmt_iff by auto. split.
    + intros [[H1 H2] | [H1 H2]]; [pose proof (LT _ _ H2); split; [lia|auto]|]. split; [unfold known_tag in *; lia|auto].
    + intros [H1 [H2 | H2]]; [right|left]; [specialize (AT H2); unfold T_any in *; lia|split; [lia|auto]].
  - assert (LE : lmt (vq_value q) m = false <-> value_lt m (vq_value q) \/ same_value m (vq_value q)).
    { rewrite <- not_true_iff_false, lmt_iff by auto. split.
      - intros HL. destruct (lmt m (vq_value q)) eqn:E; [left; apply lmt_iff; auto|right]. apply incomparable_iff; auto.
        split; [exact E|]. apply not_true_iff_false. rewrite lmt_iff; auto.
      - intros [HL | HL] C.
        + apply lmt_iff in HL; auto. apply lmt_iff in C; auto. rewrite (lmt_asym m (vq_value q)) in C; auto; discriminate.
        + apply incomparable_iff in HL as [_ HL]; auto. apply lmt_iff in C; auto. congruence. }
    rewrite LE. split.
    + intros [[H1 H2] | [H1 H2]].
      * split; [|auto]. destruct H2 as [H2 | H2]; [pose proof (LT _ _ H2)|pose proof (SV _ _ H2)]; lia.
      * split; [unfold known_tag in *; lia|auto].
    + intros [H1 [H2 | H2]]; [right|left]; [specialize (AT H2); unfold T_any in *; lia|split; [lia|auto]].
  - rewrite lmt_iff by auto. split.
    + intros [H1 H2]. pose proof (LT _ _ H2). split; [lia|auto].
    + intros [H1 [H2 | H2]]; [|split; [lia|auto]]. split; [lia|]. left. specialize (AT H2). lia.
  - assert (LE : lmt m (vq_value q) = false <-> value_lt (vq_value q) m \/ same_value m (vq_value q)).
    { rewrite <- not_true_iff_false, lmt_iff by auto. split.
      - intros HL. destruct (lmt (vq_value q) m) eqn:E; [left; apply lmt_iff; auto|right]. apply incomparable_iff; auto.
        split; [|exact E]. apply not_true_iff_false. rewrite lmt_iff; auto.
      - intros [HL | HL] C.
        + apply lmt_iff in HL; auto. apply lmt_iff in C; auto. rewrite (lmt_asym m (vq_value q)) in HL; auto; discriminate.
        + apply incomparable_iff in HL as [HL _]; auto. apply lmt_iff in C; auto. congruence. }
    rewrite LE. split.
    + intros [H1 H2]. split; [|auto]. destruct H2 as [H2 | H2]; [pose proof (LT _ _ H2)|pose proof (SV _ _ H2)]; lia.
    + intros [H1 [H2 | H2]]; [|split; [lia|auto]]. split; [lia|]. left. left. specialize (AT H2). lia.
Qed.

(** ** The ids of one key *)
Definition size_okb (s : Selection) (n : nat) : bool := negb (under_min n (s_min s)) && negb (over_max n (s_max s)).
Lemma size_okb_iff s n : size_okb s n = true <-> size_holds (s_min s) (s_max s) n.
Proof. unfold size_okb, size_holds. rewrite andb_true_iff, !negb_true_iff, under_min_iff, over_max_iff. tauto. Qed.

Lemma in_level_ids mn mx id lv : forall i,
  In id (level_ids mn mx i lv) <->
  exists L, In id (nth L lv []) /\ under_min (Datatypes.S (i + L)) mn = false /\ over_max (Datatypes.S (i + L)) mx = false.
Proof.
  induction lv as [|l lv IH]; intros i; cbn [level_ids].
  - split; [intros []|]. intros (L & H & _). destruct L; destruct H.
  - destruct (under_min (Datatypes.S i) mn) eqn:EU.
    + rewrite IH. split.
      * intros (L & H1 & H2). exists (Datatypes.S L). cbn [nth]. replace (i + Datatypes.S L) with (Datatypes.S i + L) by lia. auto.
      * intros ([|L] & H1 & H2 & H3); [rewrite Nat.add_0_r in H2; congruence|]. exists L. replace (Datatypes.S i + L) with (i + Datatypes.S L) by lia. auto.
    + destruct (over_max (Datatypes.S i) mx) eqn:EO.
      * split; [intros []|]. intros (L & _ & _ & H). exfalso. destruct mx as [b|]; cbn in EO, H; [|discriminate].
        apply Z.ltb_lt in EO. apply Z.ltb_ge in H. lia.
      * rewrite in_app_iff, IH. split.
        -- intros [H | (L & H1 & H2)]; [exists 0; rewrite Nat.add_0_r; auto|]. exists (Datatypes.S L). cbn [nth]. replace (i + Datatypes.S L) with (Datatypes.S i + L) by lia. auto.
        -- intros ([|L] & H1 & H2); [left; exact H1|right]. exists L. replace (Datatypes.S i + L) with (i + Datatypes.S L) by lia. auto.
Qed.

Lemma node_in ix k vs v lv : iwf ix -> aget String.eqb k ix = Some vs -> In (v, lv) vs -> good v /\ node_of ix k v = Some lv.
Proof.
  intros W EK HI. destruct (iwf_get _ _ _ W EK) as [VW _]. assert (Gv : good v) by (eapply awf_G; eauto).
  split; [exact Gv|]. unfold node_of. rewrite EK. eapply (In_aget veq good); eauto with amap.
Qed.

Lemma in_lookup ix es w key tr k vs mn mx id : idx ix es -> ents_ok es -> good key -> aget String.eqb k ix = Some vs ->
  In id (flat_map (level_ids mn mx 0) (lookup_values w key tr vs)) <->
  exists kv m, In (id, kv) es /\ kv_get kv k = Some m /\ visitb w key tr m = true /\
    under_min (length kv) mn = false /\ over_max (length kv) mx = false.
Proof.
  intros I OK Gk EK. pose proof I as (W & H1 & H2). rewrite in_flat_map. unfold lookup_values. split.
  - intros (lv & HL & HI). apply in_map_iff in HL as ([v lv'] & E & HF). cbn in E. subst lv'. apply filter_In in HF as [HF HV]. cbn in HV.
    destruct (node_in ix k vs v lv W EK HF) as [Gv EN]. destruct (H1 k v lv Gv EN) as [[HR _] _].
    apply in_level_ids in HI as (L & HI & B1 & B2). apply HR in HI as (kv & m & HI & HLen & HG & HE).
    exists kv, m. rewrite HLen. repeat split; auto. rewrite (visitb_congr w key tr m v); auto. eapply ents_good; eauto.
  - intros (kv & m & HI & HG & HV & B1 & B2). pose proof (ents_good es OK _ _ _ _ HI HG) as Gm.
    destruct (node_of ix k m) as [lv|] eqn:EN; [|exfalso; eapply H2; eauto].
    destruct (H1 k m lv Gm EN) as [[HR _] _].
    pose proof EN as EN'. unfold node_of in EN'. rewrite EK in EN'. apply aget_In in EN' as (v & HF & EV).
    destruct (node_in ix k vs v lv W EK HF) as [Gv _].
    exists lv. split.
    + apply in_map_iff. exists (v, lv). split; [reflexivity|]. apply filter_In. split; [exact HF|]. cbn.
      rewrite <- (visitb_congr w key tr m v); auto.
    + apply in_level_ids. destruct OK as (_ & O & _). destruct (O _ _ HI) as [_ NE].
      exists (length kv - 1). assert (EL : Datatypes.S (0 + (length kv - 1)) = length kv) by (destruct kv; [contradiction|cbn; lia]).
      rewrite EL. split; [|auto]. apply HR. exists kv, m. repeat split; auto using veq_refl.
Qed.

Lemma in_key_ids ix es s w k q id : idx ix es -> ents_ok es -> good (vq_value q) ->
  In id (key_ids ix s w k q) <->
  exists kv m, In (id, kv) es /\ kv_get kv k = Some m /\ visitb w (vq_value q) (vq_tr q) m = true /\ size_holds (s_min s) (s_max s) (length kv).
Proof.
  intros I OK Gq. unfold key_ids. destruct (aget String.eqb k ix) as [vs|] eqn:EK.
  - rewrite in_lookup by eauto. setoid_rewrite <- size_okb_iff. unfold size_okb. setoid_rewrite andb_true_iff. setoid_rewrite negb_true_iff. tauto.
  - split; [intros []|]. intros (kv & m & HI & HG & _). destruct I as (_ & _ & H2). specialize (H2 _ _ _ _ HI HG). unfold node_of in H2. rewrite EK in H2. congruence.
Qed.

Lemma good_any : good Any.
Proof. split; [constructor|intros [|]; discriminate]. Qed.
Lemma in_all_ids ix es s id : idx ix es -> ents_ok es ->
  In id (all_ids ix s) <-> exists kv, In (id, kv) es /\ size_holds (s_min s) (s_max s) (length kv).
Proof.
  intros I OK. unfold all_ids. rewrite in_flat_map. split.
  - intros ([k vs] & HI & HF). cbn [snd] in HF. pose proof I as (W & I').
    assert (EK : aget String.eqb k ix = Some vs).
    { eapply (In_aget String.eqb anything); eauto with amap. apply W. }
    apply (in_lookup ix es LFind Any everything k vs (s_min s) (s_max s) id I OK good_any EK) in HF. destruct HF as (kv & m & HI' & _ & _ & B1 & B2).
    exists kv. split; [exact HI'|]. apply size_okb_iff. unfold size_okb. rewrite B1, B2. reflexivity.
  - intros (kv & HI & HS). assert (O := OK). destruct O as (_ & O & _). destruct (O _ _ HI) as [R NE].
    destruct kv as [|[k m] r] eqn:EKV; [contradiction|]. rewrite <- EKV in *.
    assert (HG : kv_get kv k = Some m) by (rewrite EKV; cbn; rewrite String.eqb_refl; reflexivity).
    destruct (aget String.eqb k ix) as [vs|] eqn:EK.
    2:{ destruct I as (_ & _ & H2). specialize (H2 _ _ _ _ HI HG). unfold node_of in H2. rewrite EK in H2. congruence. }
    exists (k, vs). split; [apply aget_In in EK as (k' & H1 & H2); apply String.eqb_eq in H2; subst; exact H1|]. cbn [snd].
    apply (in_lookup ix es LFind Any everything k vs (s_min s) (s_max s) id); auto using good_any. exists kv, m. apply size_okb_iff in HS. unfold size_okb in HS.
    apply andb_true_iff in HS as [HS1 HS2]. apply negb_true_iff in HS1, HS2. repeat split; auto.
    unfold visitb. cbn. apply tr_within_iff. cbn. apply any_type_le. eapply ents_good; eauto.
Qed.

(** ** The loop over the keys of a selection *)
Lemma combine_ids_spec added acc ids : NoDup acc -> (added = false -> acc = []) ->
  NoDup (combine_ids added acc ids) /\ forall x, In x (combine_ids added acc ids) <-> (added = true -> In x acc) /\ In x ids.
Proof.
  intros ND H. unfold combine_ids. destruct added.
  - destruct (set_intersection_spec acc ids) as [N E]. split; [exact N|]. intros x. rewrite E. intuition.
  - destruct (set_add_bulk_spec ids acc ND) as [N E]. split; [exact N|]. intros x. rewrite E, H by reflexivity. cbn. intuition congruence.
Qed.
Definition negative (q : ValueQuery) : bool := match vq_cmp q with CNotEquals => true | _ => false end.
Definition in_key ix s (x : string) (p : string * ValueQuery) : Prop := In x (key_ids ix s (lookup_for (vq_cmp (snd p))) (fst p) (snd p)).

Lemma sel_loop_spec ix s keys : forall va ia valid invalid,
  (forall k q, In (k, q) keys -> vq_cmp q <> CUnknown) -> NoDup valid -> NoDup invalid ->
  (va = false -> valid = []) -> (ia = false -> invalid = []) ->
  let pos x := (va = true -> In x valid) /\ forall p, In p keys -> negative (snd p) = false -> in_key ix s x p in
  let neg x := (ia = true -> In x invalid) /\ forall p, In p keys -> negative (snd p) = true -> in_key ix s x p in
  match sel_loop ix s keys va ia valid invalid with
  | SPanic => False
  | SEarly v => v = [] /\ forall x, (va = true \/ exists p, In p keys /\ negative (snd p) = false) /\ ~ pos x
  | SDone va' valid' invalid' =>
      NoDup valid' /\ NoDup invalid' /\ (va' = false -> valid' = []) /\
      (va' = true <-> va = true \/ exists p, In p keys /\ negative (snd p) = false) /\
      (va' = true -> forall x, In x valid' <-> pos x) /\
      forall x, In x invalid' <-> (ia = true \/ exists p, In p keys /\ negative (snd p) = true) /\ neg x
  end.
Proof.
  induction keys as [|[k q] r IH]; intros va ia valid invalid HU NV NI HV HI; cbv zeta.
  - cbn [sel_loop]. split; [auto|]. split; [auto|]. split; [auto|]. split; [split; [auto|intros [? | (? & [] & _)]; auto]|].
    split.
    + intros E x. split; [intros H; split; [auto|intros ? []]|intros [H _]; auto].
    + intros x. split.
      * intros H. split; [left; destruct ia; auto; rewrite HI in H by reflexivity; destruct H|]. split; [auto|intros ? []].
      * intros [[E | (? & [] & _)] [H _]]; auto.
  - assert (PS : forall valid', (forall x, In x valid' <-> (va = true -> In x valid) /\ in_key ix s x (k, q)) -> NoDup valid' -> negative q = false ->
      match (if Nat.eqb (set_size valid') 0 then SEarly valid' else sel_loop ix s r true ia valid' invalid) with
      | SPanic => False
      | SEarly v => v = [] /\ forall x, (va = true \/ exists p, In p ((k, q) :: r) /\ negative (snd p) = false) /\
          ~ ((va = true -> In x valid) /\ forall p, In p ((k, q) :: r) -> negative (snd p) = false -> in_key ix s x p)
      | SDone va' valid' invalid' =>
          NoDup valid' /\ NoDup invalid' /\ (va' = false -> valid' = []) /\
          (va' = true <-> va = true \/ exists p, In p ((k, q) :: r) /\ negative (snd p) = false) /\
          (va' = true -> forall x, In x valid' <-> (va = true -> In x valid) /\ forall p, In p ((k, q) :: r) -> negative (snd p) = false -> in_key ix s x p) /\
          forall x, In x invalid' <-> (ia = true \/ exists p, In p ((k, q) :: r) /\ negative (snd p) = true) /\
             (ia = true -> In x invalid) /\ forall p, In p ((k, q) :: r) -> negative (snd p) = true -> in_key ix s x p
      end).
    { intros valid' HV' NV' NQ. assert (EP : exists p, In p ((k, q) :: r) /\ negative (snd p) = false) by (exists (k, q); cbn; auto).
      destruct (Nat.eqb_spec (set_size valid') 0) as [E|NE].
      - unfold set_size in E. destruct valid'; [|discriminate]. split; [reflexivity|]. intros x. split; [right; exact EP|].
        intros [H1 H2]. apply (HV' x). split; [exact H1|]. apply H2; cbn; auto.
      - assert (HU' : forall k q, In (k, q) r -> vq_cmp q <> CUnknown) by (intros; eapply HU; right; eauto).
        specialize (IH true ia valid' invalid HU' NV' NI (fun H => ltac:(discriminate)) HI). cbv zeta in IH.
        destruct (sel_loop ix s r true ia valid' invalid) as [va'' valid'' invalid''|v|]; [| |exact IH].
        + destruct IH as (A1 & A2 & A3 & A4 & A5 & A6). split; [exact A1|]. split; [exact A2|]. split; [exact A3|].
          split; [split; [auto|intros _; apply A4; auto]|]. split.
          * intros E x. rewrite (A5 E x). split.
            -- intros [H1 H2]. specialize (H1 eq_refl). apply HV' in H1 as [H1 H3]. split; [exact H1|]. intros p [<- | Hp]; auto.
            -- intros [H1 H2]. split; [|intros p Hp; apply H2; right; exact Hp]. intros _. apply HV'. split; [exact H1|]. apply H2; cbn; auto.
          * intros x. rewrite A6. split.
            -- intros [H1 [H2 H3]]. split; [destruct H1 as [H1 | (p & H1 & H4)]; [auto|right; exists p; cbn; auto]|]. split; [exact H2|].
               intros p [<- | Hp] Np; [cbn in Np; congruence|auto].
            -- intros [H1 [H2 H3]]. split; [|split; [exact H2|intros p Hp; apply H3; right; exact Hp]].
               destruct H1 as [H1 | (p & [<- | H1] & H4)]; [auto|cbn in H4; congruence|right; eauto].
        + destruct IH as [-> A2]. split; [reflexivity|]. intros x. destruct (A2 x) as [_ A3]. split; [right; exact EP|].
          intros [H1 H2]. apply A3. split; [|intros p Hp; apply H2; right; exact Hp]. intros _. apply HV'. split; [exact H1|]. apply H2; cbn; auto. }
    assert (HU' : forall k q, In (k, q) r -> vq_cmp q <> CUnknown) by (intros; eapply HU; right; eauto).
    assert (KN : vq_cmp q <> CUnknown) by (eapply HU; left; reflexivity).
    assert (CP : forall w, lookup_for (vq_cmp q) = w -> negative q = false -> _) by
      (intros w EW NQ; exact (PS (combine_ids va valid (key_ids ix s w k q))
         (fun x => ltac:(unfold in_key; cbn [fst snd]; rewrite EW; apply combine_ids_spec; auto)) (proj1 (combine_ids_spec va valid _ NV HV)) NQ)).
    cbn [sel_loop]. destruct (vq_cmp q) eqn:EC.
    + apply (CP LFind); [reflexivity|unfold negative; rewrite EC; reflexivity].
    + (* NotEquals *)
      assert (NQ : negative q = true) by (unfold negative; rewrite EC; reflexivity).
      destruct (va && Nat.eqb (set_size valid) 0) eqn:EV.
      * apply andb_true_iff in EV as [-> EV]. apply Nat.eqb_eq in EV. unfold set_size in EV. destruct valid; [|discriminate].
        split; [reflexivity|]. intros x. split; [left; reflexivity|]. intros [H _]. destruct (H eq_refl).
      * destruct (combine_ids_spec ia invalid (key_ids ix s LFind k q) NI HI) as [NI' HI'].
        assert (HIK : forall x, In x (combine_ids ia invalid (key_ids ix s LFind k q)) <-> (ia = true -> In x invalid) /\ in_key ix s x (k, q)).
        { intros x. rewrite HI'. unfold in_key. cbn [fst snd]. rewrite EC. reflexivity. }
        specialize (IH va true valid (combine_ids ia invalid (key_ids ix s LFind k q)) HU' NV NI' HV (fun H => ltac:(discriminate))). cbv zeta in IH.
        destruct (sel_loop ix s r va true valid (combine_ids ia invalid (key_ids ix s LFind k q))) as [va'' valid'' invalid''|v|]; [| |exact IH].
        -- destruct IH as (A1 & A2 & A3 & A4 & A5 & A6). split; [exact A1|]. split; [exact A2|]. split; [exact A3|].
           assert (PP : forall p, In p ((k, q) :: r) /\ negative (snd p) = false <-> In p r /\ negative (snd p) = false).
           { intros p. cbn. split; [intros [[<- | H] N]; [cbn in N; congruence|auto]|intros [H N]; auto]. }
           split; [rewrite A4; setoid_rewrite PP; reflexivity|]. split.
           ++ intros E x. rewrite (A5 E x). split; intros [H1 H2]; (split; [exact H1|]); intros p Hp Np; apply H2; auto.
              ** destruct (proj1 (PP p) (conj Hp Np)); auto.
              ** right; exact Hp.
           ++ intros x. rewrite A6. split.
              ** intros [_ [H2 H3]]. specialize (H2 eq_refl). apply HIK in H2 as [H2 H4]. split; [right; exists (k, q); cbn; auto|].
                 split; [exact H2|]. intros p [<- | Hp]; auto.
              ** intros [H1 [H2 H3]]. split; [left; reflexivity|]. split; [|intros p Hp; apply H3; right; exact Hp].
                 intros _. apply HIK. split; [exact H2|]. apply H3; cbn; auto.
        -- destruct IH as [-> A2]. split; [reflexivity|]. intros x. destruct (A2 x) as [A3 A4]. split.
           ++ destruct A3 as [A3 | (p & A3 & A5)]; [auto|]. right. exists p. cbn. auto.
           ++ intros [H1 H2]. apply A4. split; [exact H1|]. intros p Hp. apply H2. right; exact Hp.
    + apply (CP LLess); [reflexivity|unfold negative; rewrite EC; reflexivity].
    + apply (CP LLessEq); [reflexivity|unfold negative; rewrite EC; reflexivity].
    + apply (CP LGreater); [reflexivity|unfold negative; rewrite EC; reflexivity].
    + apply (CP LGreaterEq); [reflexivity|unfold negative; rewrite EC; reflexivity].
    + congruence.
Qed.

Lemma sq_insert_perm p l : Permutation (sq_insert p l) (p :: l).
Proof.
  induction l as [|q l IH]; cbn; [reflexivity|]. destruct (str_ltb (fst q) (fst p)); [rewrite IH; apply perm_swap|reflexivity].
Qed.
Lemma sorted_sel_perm kvs : Permutation (sorted_sel kvs) kvs.
Proof. induction kvs as [|p l IH]; cbn; [reflexivity|]. rewrite sq_insert_perm. apply perm_skip, IH. Qed.
Lemma in_sorted_sel p kvs : In p (sorted_sel kvs) <-> In p kvs.
Proof. split; apply Permutation_in; [|symmetry]; apply sorted_sel_perm. Qed.
Lemma remove_all_spec inv : forall s, NoDup s -> NoDup (fold_left set_remove inv s) /\ forall x, In x (fold_left set_remove inv s) <-> In x s /\ ~ In x inv.
Proof.
  induction inv as [|v inv IH]; intros s N; cbn; [split; [exact N|]; tauto|].
  destruct (set_remove_spec s v N) as [N' E]. destruct (IH _ N') as [N2 E2]. split; [exact N2|]. intros x. rewrite E2, E. intuition congruence.
Qed.

(** ** A selection *)
Section Sel.
  Context {A : Type} (t : atree A).
  Hypothesis INV : ainv t.
  Notation es := (ents_of (a_items t)).

  Lemma by_ids_spec s ids : selection_ok s -> sel_no_nan s -> forall acc, NoDup acc ->
    exists r, by_ids (a_items t) s ids acc = Some r /\ NoDup r /\
      forall x, In x r <-> In x acc \/ (In x ids /\ exists kv, In (x, kv) es /\ tags_hold s kv).
  Proof.
    intros SO SN. destruct INV as [OK I]. induction ids as [|id ids IH]; intros acc N; cbn [by_ids].
    - exists acc. split; [reflexivity|]. split; [exact N|]. cbn; tauto.
    - destruct (find_item (a_items t) id) as [it|] eqn:EF.
      + apply find_item_some in EF as [HI EI]. assert (HE : In (id, it_kv it) es) by (apply in_ents_of; eauto).
        destruct (MatchKeyValues_iff s (it_kv it)) as (b & -> & Hb); auto.
        { intros k v HG. eapply ents_good; eauto. }
        destruct b.
        * destruct (set_add_spec acc id N) as [N' E]. destruct (IH _ N') as (r & -> & N2 & E2). exists r. split; [reflexivity|]. split; [exact N2|].
          intros x. rewrite E2, E. cbn. split.
          -- intros [[H | ->] | [H1 H2]]; auto. right. split; [auto|]. exists (it_kv it). split; [exact HE|]. apply Hb; reflexivity.
          -- intros [H | [[-> | H1] H2]]; auto.
        * destruct (IH _ N) as (r & -> & N2 & E2). exists r. split; [reflexivity|]. split; [exact N2|].
          intros x. rewrite E2. cbn. split; [intros [H | [H1 H2]]; auto|].
          intros [H | [[-> | H1] H2]]; auto. exfalso. destruct H2 as (kv & H3 & H4). rewrite (ents_fun _ _ _ _ OK H3 HE) in H4.
          apply Hb in H4. discriminate.
      + destruct (IH _ N) as (r & -> & N2 & E2). exists r. split; [reflexivity|]. split; [exact N2|].
        intros x. rewrite E2. cbn. split; [intros [H | [H1 H2]]; auto|].
        intros [H | [[-> | H1] H2]]; auto. exfalso. destruct H2 as (kv & H3 & H4). apply find_item_none in EF. apply EF.
        apply in_ents_of in H3 as (it & H5 & <- & _). apply in_map. exact H5.
  Qed.

  Lemma key_ids_holds s k q id kv : selection_ok s -> sel_no_nan s -> In (k, q) (s_kvs s) -> In (id, kv) es -> range_covered q ->
    size_holds (s_min s) (s_max s) (length kv) ->
    (in_key (a_index t) s id (k, q) <-> if negative q then ~ key_holds q (kv_get kv k) else key_holds q (kv_get kv k)).
  Proof.
    intros SO SN HQ HE RC SZ. destruct INV as [OK I]. destruct SO as (_ & SO & _). specialize (SO _ _ HQ). specialize (SN _ _ HQ).
    assert (Gq : good (vq_value q)) by (split; [apply SO|exact SN]).
    unfold in_key. cbn [fst snd]. rewrite (in_key_ids _ es) by auto.
    assert (V : (exists kv0 m, In (id, kv0) es /\ kv_get kv0 k = Some m /\ visitb (lookup_for (vq_cmp q)) (vq_value q) (vq_tr q) m = true /\ size_holds (s_min s) (s_max s) (length kv0))
              <-> exists m, kv_get kv k = Some m /\ visitb (lookup_for (vq_cmp q)) (vq_value q) (vq_tr q) m = true).
    { split.
      - intros (kv0 & m & H1 & H2 & H3 & _). rewrite (ents_fun _ _ _ _ OK H1 HE) in H2. eauto.
      - intros (m & H1 & H2). exists kv, m. auto. }
    rewrite V. clear V. unfold negative, key_holds.
    destruct (kv_get kv k) as [m|] eqn:EG.
    - assert (Gm : good m) by (eapply ents_good; eauto).
      assert (V : (exists m0, Some m = Some m0 /\ visitb (lookup_for (vq_cmp q)) (vq_value q) (vq_tr q) m0 = true) <-> visitb (lookup_for (vq_cmp q)) (vq_value q) (vq_tr q) m = true).
      { split; [intros (m0 & [= <-] & H); exact H|eauto]. }
      rewrite V. clear V. pose proof (range_visits q m SO Gq Gm RC) as RV. pose proof (find_visits q m SO Gq Gm) as FV.
      destruct (vq_cmp q) eqn:EC; cbn [lookup_for] in *.
      + rewrite FV. split; [intros [? ?]; eauto|intros (m0 & [= <-] & ?); auto].
      + rewrite FV. split.
        * intros [H1 H2] C. exact (C m eq_refl H1 H2).
        * intros H. destruct (tr_within (vq_tr q) (ev_type m)) eqn:EW.
          -- apply tr_within_iff in EW. split; [exact EW|]. destruct (visitb LFind (vq_value q) (vq_tr q) m) eqn:EB; [apply FV; reflexivity|].
             exfalso. apply H. intros m0 [= <-] _ C. assert (false = true) by (apply FV; split; auto). discriminate.
          -- exfalso. apply H. intros m0 [= <-] HT. exfalso. apply tr_within_iff in HT. congruence.
      + rewrite RV by discriminate. split; [intros [? ?]; eauto|intros (m0 & [= <-] & ?); auto].
      + rewrite RV by discriminate. split; [intros [? ?]; eauto|intros (m0 & [= <-] & ?); auto].
      + rewrite RV by discriminate. split; [intros [? ?]; eauto|intros (m0 & [= <-] & ?); auto].
      + rewrite RV by discriminate. split; [intros [? ?]; eauto|intros (m0 & [= <-] & ?); auto].
      + destruct SO as [SO _]. congruence.
    - assert (F : ~ exists m, None = Some m /\ visitb (lookup_for (vq_cmp q)) (vq_value q) (vq_tr q) m = true) by (intros (? & ? & _); discriminate).
      destruct (vq_cmp q); (split; [intros H; contradiction|]); try (intros (? & ? & _); discriminate).
      intros H. exfalso. apply H. discriminate.
  Qed.

  Lemma key_holds_dec s k q kv id : selection_ok s -> sel_no_nan s -> In (k, q) (s_kvs s) -> In (id, kv) es ->
    key_holds q (kv_get kv k) \/ ~ key_holds q (kv_get kv k).
  Proof.
    intros SO SN HQ HE. destruct (key_matches_iff q (kv_get kv k)) as (b & _ & Hb).
    - destruct SO as (_ & SO & _). eauto.
    - eauto.
    - intros m EG. destruct INV as [OK _]. eapply ents_good; eauto.
    - destruct b; [left; apply Hb; reflexivity|right; intros C; apply Hb in C; discriminate].
  Qed.

  Lemma findIDs_spec s : selection_ok s -> sel_no_nan s -> sel_simple s ->
    exists r, findIDs t s = Some r /\ NoDup r /\ forall x, In x r <-> exists kv, In (x, kv) es /\ sel_holds s x kv.
  Proof.
    intros SO SN SS. destruct INV as [OK I]. unfold findIDs. destruct (s_ids s) as [|id0 ids0] eqn:EI.
    - destruct SS as [C | [FN RC]]; [congruence|].
      pose proof (sel_loop_spec (a_index t) s (sorted_sel (s_kvs s)) false false [] []) as L.
      specialize (L (fun k q H => proj1 ((proj1 (proj2 SO)) k q (proj1 (in_sorted_sel _ _) H))) (NoDup_nil _) (NoDup_nil _) (fun _ => eq_refl) (fun _ => eq_refl)).
      cbv zeta in L.
      destruct (sel_loop (a_index t) s (sorted_sel (s_kvs s)) false false [] []) as [va valid invalid|v|]; [| |destruct L].
      + destruct L as (N1 & N2 & L0 & L1 & L2 & L3).
        setoid_rewrite in_sorted_sel in L1. setoid_rewrite in_sorted_sel in L2. setoid_rewrite in_sorted_sel in L3.
        set (start := if va then valid else set_add_bulk valid (all_ids (a_index t) s)).
        assert (ST : NoDup start /\ forall x, In x start <-> exists kv, In (x, kv) es /\ size_holds (s_min s) (s_max s) (length kv) /\
                   forall p, In p (s_kvs s) -> negative (snd p) = false -> key_holds (snd p) (kv_get kv (fst p))).
        { unfold start. destruct va.
          - split; [exact N1|]. intros x. rewrite (L2 eq_refl). destruct L1 as [L1 _]. destruct (L1 eq_refl) as [C | (p0 & P1 & P2)]; [discriminate|].
            split.
            + intros [_ H]. pose proof (H p0 P1 P2) as HK. unfold in_key in HK.
              destruct (proj1 (proj2 SO) (fst p0) (snd p0)) as (_ & WT & _); [destruct p0; exact P1|].
              rewrite (in_key_ids _ es) in HK; auto. 2:{ split; [exact WT|]. apply (SN (fst p0)). destruct p0; exact P1. }
              destruct HK as (kv & m & H1 & H2 & H3 & H4). exists kv. split; [exact H1|]. split; [exact H4|].
              intros [k q] HP NP. cbn [fst snd] in *. specialize (H _ HP NP).
              apply (key_ids_holds s k q x kv) in H; auto; [rewrite NP in H; exact H|eauto].
            + intros (kv & H1 & H2 & H3). split; [discriminate|]. intros [k q] HP NP. apply (key_ids_holds s k q x kv); eauto.
              cbn [snd] in NP. rewrite NP. apply (H3 (k, q) HP NP).
          - rewrite (L0 eq_refl). destruct (set_add_bulk_spec (all_ids (a_index t) s) [] (NoDup_nil _)) as [N E]. split; [exact N|].
            intros x. rewrite E. rewrite (in_all_ids _ es) by auto. cbn [In]. split.
            + intros [[] | (kv & H1 & H2)]. exists kv. split; [exact H1|]. split; [exact H2|]. intros p HP NP.
              exfalso. assert (false = true) by (apply L1; right; eauto). discriminate.
            + intros (kv & H1 & H2 & _). eauto. }
        destruct ST as [NS ES]. destruct (remove_all_spec (set_values invalid) start NS) as [NR ER].
        exists (fold_left set_remove (set_values invalid) start). split; [reflexivity|]. split; [exact NR|].
        intros x. rewrite ER, ES. unfold set_values. rewrite L3. unfold sel_holds, tags_hold. rewrite EI. split.
        * intros [(kv & H1 & H2 & H3) H4]. exists kv. split; [exact H1|]. split; [left; reflexivity|]. split; [exact H2|].
          intros k q HP. destruct (negative q) eqn:NP; [|exact (H3 (k, q) HP NP)].
          destruct (key_holds_dec s k q kv x SO SN HP H1) as [H|H]; [exact H|exfalso]. apply H4. split; [right; exists (k, q); auto|].
          split; [discriminate|]. intros [k' q'] HP' NP'. cbn [snd] in NP'.
          assert (E : (k', q') = (k, q)). { apply FN; auto; cbn [snd]; unfold negative in NP, NP'; [destruct (vq_cmp q'); congruence|destruct (vq_cmp q); congruence]. }
          injection E as -> ->. apply (key_ids_holds s k q x kv); eauto. rewrite NP. exact H.
        * intros (kv & H1 & _ & H2 & H3). split; [exists kv; split; [exact H1|]; split; [exact H2|]; intros [k q] HP _; exact (H3 k q HP)|].
          intros [[C | ([k q] & HP & NP)] [_ H4]]; [discriminate|]. cbn [snd] in NP. specialize (H4 (k, q) HP NP).
          apply (key_ids_holds s k q x kv) in H4; eauto. rewrite NP in H4. exact (H4 (H3 k q HP)).
      + destruct L as [-> L]. setoid_rewrite in_sorted_sel in L. exists []. split; [reflexivity|]. split; [constructor|]. intros x. split; [intros []|].
        intros (kv & H1 & [_ [H2 H3]]). destruct (L x) as [_ L1]. apply L1. split; [discriminate|]. intros [k q] HP NP.
        apply (key_ids_holds s k q x kv); eauto. cbn [snd] in NP. rewrite NP. exact (H3 k q HP).
    - destruct (by_ids_spec s (id0 :: ids0) SO SN [] (NoDup_nil _)) as (r & -> & N & E). exists r. split; [reflexivity|]. split; [exact N|].
      intros x. rewrite E. unfold sel_holds. rewrite EI. cbn [In]. split.
      + intros [[] | [H1 (kv & H2 & H3)]]. exists kv. auto.
      + intros (kv & H2 & [[C | H1] H3]); [discriminate|]. right. eauto.
  Qed.
End Sel.

(** ** Whole queries *)
Section Loops.
  Variable f : Query -> option (option sset).
  Fixpoint q_and (l : list Query) (cur : option (option sset)) : option (option (option sset)) :=
    match l with
    | [] => Some cur
    | c :: r =>
        match cur with
        | None => match f c with None => None | Some s => q_and r (Some s) end
        | Some None => None
        | Some (Some s) =>
            if Nat.eqb (set_size s) 0 then Some cur
            else match f c with
                 | Some (Some s') => q_and r (Some (Some (set_intersection s (set_values s'))))
                 | _ => None
                 end
        end
    end.
  Fixpoint q_or (l : list Query) (cur : option (option sset)) : option (option (option sset)) :=
    match l with
    | [] => Some cur
    | c :: r =>
        match f c with
        | None => None
        | Some s' =>
            match cur, s' with
            | None, _ => q_or r (Some s')
            | Some (Some s), Some s' => q_or r (Some (Some (set_add_bulk s (set_values s'))))
            | _, _ => None
            end
        end
    end.
End Loops.
Lemma query_Q {A} (t : atree A) sel ors ands :
  query t (Q sel ors ands) =
  match (match sel with Some s => match findIDs t s with Some v => Some (Some (Some v)) | None => None end | None => Some None end) with
  | None => None
  | Some cur =>
      match q_and (query t) (elems ands) cur with
      | None => None
      | Some cur =>
          match q_or (query t) (elems ors) cur with
          | None => None
          | Some None => Some None
          | Some (Some s) => Some s
          end
      end
  end.
Proof.
  assert (E1 : forall l cur,
    (fix and_loop (l : list Query) (cur : option (option sset)) : option (option (option sset)) :=
        match l with
        | [] => Some cur
        | c :: r =>
            match cur with
            | None => match query t c with None => None | Some s => and_loop r (Some s) end
            | Some None => None
            | Some (Some s) =>
                if Nat.eqb (set_size s) 0 then Some cur
                else match query t c with
                     | Some (Some s') => and_loop r (Some (Some (set_intersection s (set_values s'))))
                     | _ => None
                     end
            end
        end) l cur = q_and (query t) l cur).
  { induction l as [|c r IH]; intros cur; [reflexivity|]. cbn [q_and]. destruct cur as [[s|]|]; [|reflexivity|].
    - destruct (Nat.eqb (set_size s) 0); [reflexivity|]. destruct (query t c) as [[s'|]|]; auto.
    - destruct (query t c) as [s|]; auto. }
  assert (E2 : forall l cur,
    (fix or_loop (l : list Query) (cur : option (option sset)) : option (option (option sset)) :=
        match l with
        | [] => Some cur
        | c :: r =>
            match query t c with
            | None => None
            | Some s' =>
                match cur, s' with
                | None, _ => or_loop r (Some s')
                | Some (Some s), Some s' => or_loop r (Some (Some (set_add_bulk s (set_values s'))))
                | _, _ => None
                end
            end
        end) l cur = q_or (query t) l cur).
  { induction l as [|c r IH]; intros cur; [reflexivity|]. cbn [q_or]. destruct (query t c) as [s'|]; [|reflexivity].
    destruct cur as [[s|]|]; [destruct s'|..]; auto. }
  cbn [query].
  destruct (match sel with Some s => match findIDs t s with Some v => Some (Some (Some v)) | None => None end | None => Some None end) as [cur|]; [|reflexivity].
  assert (EA : match ands with Some l => q_and (query t) l cur | None => Some cur end = q_and (query t) (elems ands) cur) by (destruct ands; reflexivity).
  rewrite <- EA. destruct ands as [la|]; [rewrite E1; destruct (q_and (query t) la cur) as [cur'|]; [|reflexivity]|].
  - destruct ors as [lo|]; [rewrite E2|]; reflexivity.
  - destruct ors as [lo|]; [rewrite E2|]; reflexivity.
Qed.

Section QQ.
  Context {A : Type} (t : atree A).
  Hypothesis INV : ainv t.
  Notation es := (ents_of (a_items t)).
  Definition qset (P : string -> KeyValues -> Prop) (s : sset) : Prop := NoDup s /\ forall x, In x s <-> exists kv, In (x, kv) es /\ P x kv.

  Lemma qset_fun P s x kv : qset P s -> In (x, kv) es -> In x s <-> P x kv.
  Proof.
    intros [_ H] HI. rewrite H. destruct INV as [OK _]. split; [|eauto]. intros (kv' & H1 & H2). rewrite (ents_fun _ _ _ _ OK HI H1). exact H2.
  Qed.
  Lemma qset_mem P s x : qset P s -> In x s -> exists kv, In (x, kv) es.
  Proof. intros [_ H] HI. apply H in HI as (kv & ? & _). eauto. Qed.

  Lemma q_and_spec l : Forall (fun c => exists s, query t c = Some (Some s) /\ qset (fun x kv => query_holds c x kv) s) l ->
    forall cur P, match cur with None => (forall x kv, P x kv) /\ l <> [] | Some None => False | Some (Some s) => qset P s end ->
    exists s, q_and (query t) l cur = Some (Some (Some s)) /\ qset (fun x kv => P x kv /\ Forall (fun c => query_holds c x kv) l) s.
  Proof.
    induction 1 as [|c l (sc & Ec & Hc) F IH]; intros cur P HC; cbn [q_and].
    - destruct cur as [[s|]|]; [|destruct HC|destruct HC as [_ C]; contradiction]. exists s. split; [reflexivity|].
      destruct HC as [N H]. split; [exact N|]. intros x. rewrite H. split; intros (kv & H1 & H2); exists kv; intuition.
    - destruct cur as [[s|]|]; [|destruct HC|].
      + destruct (Nat.eqb_spec (set_size s) 0) as [E0|N0].
        * exists s. split; [reflexivity|]. unfold set_size in E0. destruct s; [|discriminate]. split; [constructor|]. intros x. split; [intros []|].
          intros (kv & H1 & H2 & _). apply (qset_fun P [] x kv HC H1) in H2. exact H2.
        * rewrite Ec. destruct (set_intersection_spec s (set_values sc)) as [N E].
          destruct (IH (Some (Some (set_intersection s (set_values sc)))) (fun x kv => P x kv /\ query_holds c x kv)) as (r & ER & NR & HR).
          { split; [exact N|]. intros x. rewrite E. split.
            - intros [H1 H2]. destruct (qset_mem _ _ _ HC H1) as [kv HI]. exists kv. split; [exact HI|].
              split; [apply (qset_fun _ _ _ _ HC HI); auto|apply (qset_fun _ _ _ _ Hc HI); auto].
            - intros (kv & HI & H1 & H2). split; [apply (qset_fun _ _ _ _ HC HI); auto|apply (qset_fun _ _ _ _ Hc HI); auto]. }
          exists r. split; [exact ER|]. split; [exact NR|]. intros x. rewrite HR.
          split; intros (kv & H1 & H2); exists kv; rewrite Forall_cons_iff in *; tauto.
      + rewrite Ec. destruct HC as [HP _].
        destruct (IH (Some (Some sc)) (fun x kv => query_holds c x kv)) as (r & ER & NR & HR); [exact Hc|].
        exists r. split; [exact ER|]. split; [exact NR|]. intros x. rewrite HR.
        split; intros (kv & H1 & H2); exists kv; rewrite Forall_cons_iff in *; intuition.
  Qed.
  Lemma q_or_spec l : Forall (fun c => exists s, query t c = Some (Some s) /\ qset (fun x kv => query_holds c x kv) s) l ->
    forall cur P, match cur with None => (forall x kv, ~ P x kv) /\ l <> [] | Some None => False | Some (Some s) => qset P s end ->
    exists s, q_or (query t) l cur = Some (Some (Some s)) /\ qset (fun x kv => P x kv \/ Exists (fun c => query_holds c x kv) l) s.
  Proof.
    induction 1 as [|c l (sc & Ec & Hc) F IH]; intros cur P HC; cbn [q_or].
    - destruct cur as [[s|]|]; [|destruct HC|destruct HC as [_ C]; contradiction]. exists s. split; [reflexivity|].
      destruct HC as [N H]. split; [exact N|]. intros x. rewrite H. split; intros (kv & H1 & H2); exists kv; rewrite Exists_nil in *; intuition.
    - rewrite Ec. destruct cur as [[s|]|]; [|destruct HC|].
      + destruct HC as [N0 H0]. destruct (set_add_bulk_spec (set_values sc) s N0) as [N E].
        destruct (IH (Some (Some (set_add_bulk s (set_values sc)))) (fun x kv => P x kv \/ query_holds c x kv)) as (r & ER & NR & HR).
        { split; [exact N|]. intros x. rewrite E. destruct Hc as [_ Hc]. unfold set_values. rewrite H0, Hc. split.
          - intros [(kv & H1 & H2) | (kv & H1 & H2)]; eauto.
          - intros (kv & H1 & [H2 | H2]); eauto. }
        exists r. split; [exact ER|]. split; [exact NR|]. intros x. rewrite HR.
        split; intros (kv & H1 & H2); exists kv; rewrite Exists_cons in *; tauto.
      + destruct HC as [HP _]. destruct (IH (Some (Some sc)) (fun x kv => query_holds c x kv)) as (r & ER & NR & HR); [exact Hc|].
        exists r. split; [exact ER|]. split; [exact NR|]. intros x. rewrite HR.
        split; intros (kv & H1 & H2); exists kv; rewrite Exists_cons in *; specialize (HP x kv); tauto.
  Qed.

  Lemma query_spec q : every_node node_ok q -> every_node node_simple q ->
    exists s, query t q = Some (Some s) /\ qset (fun x kv => query_holds q x kv) s.
  Proof.
    unfold query_holds. induction q as [|sel ors ands IO IA] using query_ind'; [intros []|].
    intros H1 H2. apply every_node_Q in H1 as (HS & HA & HO). apply every_node_Q in H2 as ((HN & HS2) & HA2 & HO2).
    rewrite query_Q.
    assert (FA : Forall (fun c => exists s, query t c = Some (Some s) /\ qset (fun x kv => query_holds c x kv) s) (elems ands)).
    { rewrite Forall_forall in *. intros c Hc. apply IA; auto. }
    assert (FO : Forall (fun c => exists s, query t c = Some (Some s) /\ qset (fun x kv => query_holds c x kv) s) (elems ors)).
    { rewrite Forall_forall in *. intros c Hc. apply IO; auto. }
    set (Psel := fun x kv => match sel with Some s => sel_holds s x kv | None => True end).
    (* after the selection and the Ands *)
    assert (STEP : exists cur cur', (match sel with Some s => match findIDs t s with Some v => Some (Some (Some v)) | None => None end | None => Some None end) = Some cur /\
              q_and (query t) (elems ands) cur = Some cur' /\
              match cur' with
              | None => sel = None /\ elems ands = []
              | Some None => False
              | Some (Some s) => (sel <> None \/ elems ands <> []) /\ qset (fun x kv => Psel x kv /\ Forall (fun c => query_holds c x kv) (elems ands)) s
              end).
    { destruct sel as [s|].
      - destruct (HS s eq_refl) as [SO SN]. destruct (findIDs_spec t INV s SO SN (HS2 s eq_refl)) as (r & -> & HR).
        exists (Some (Some r)). destruct (q_and_spec _ FA (Some (Some r)) Psel) as (r' & -> & HR'); [exact HR|].
        exists (Some (Some r')). split; [reflexivity|]. split; [reflexivity|]. split; [left; discriminate|exact HR'].
      - destruct (elems ands) as [|c l] eqn:EA.
        + exists None, None. split; [reflexivity|]. split; [reflexivity|auto].
        + exists None. destruct (q_and_spec _ FA None (fun _ _ => True)) as (r' & -> & HR'); [split; [auto|discriminate]|].
          exists (Some (Some r')). split; [reflexivity|]. split; [reflexivity|]. split; [right; discriminate|exact HR']. }
    destruct STEP as (cur & cur' & -> & -> & HC).
    destruct cur' as [[s|]|]; [|destruct HC|].
    - destruct HC as [HNE HC]. destruct (q_or_spec _ FO (Some (Some s)) _ HC) as (r & -> & NR & HR). exists r. split; [reflexivity|]. split; [exact NR|].
      intros x. rewrite HR. unfold query_holds in *. setoid_rewrite q_holds_Q. fold (Psel x).
      split; intros (kv & HI & H); exists kv; (split; [exact HI|]).
      + destruct H as [[H1 H2] | H]; [left; split; [exact H1|]; split; [exact H2|]; tauto|right; exact H].
      + destruct H as [(H1 & H2 & _) | H]; [left; split; [exact H1|exact H2]|right; exact H].
    - destruct HC as [-> EA]. assert (NO : elems ors <> []) by (rewrite EA in HN; tauto).
      destruct (q_or_spec _ FO None (fun _ _ => False)) as (r & -> & NR & HR); [auto|]. exists r. split; [reflexivity|]. split; [exact NR|].
      intros x. rewrite HR. setoid_rewrite q_holds_Q. rewrite EA.
      split; intros (kv & HI & H); exists kv; (split; [exact HI|]).
      + destruct H as [[] | H]. right; exact H.
      + destruct H as [(_ & _ & [C | [C | C]]) | H]; try congruence. right; exact H.
  Qed.

  Lemma items_of_spec s : NoDup s -> NoDup (items_of t s) /\ forall it, In it (items_of t s) <-> In it (a_items t) /\ In (it_id it) s.
  Proof.
    pose proof (ainv_nodup t INV) as ND.
    assert (IN : forall s it, In it (items_of t s) <-> In it (a_items t) /\ In (it_id it) s).
    { clear s. intros s it. unfold items_of. rewrite in_flat_map. split.
      - intros (id & HI & HF). destruct (find_item (a_items t) id) as [i|] eqn:EF; [|destruct HF]. destruct HF as [<- | []].
        apply find_item_some in EF as [H1 <-]. auto.
      - intros [H1 H2]. exists (it_id it). split; [exact H2|]. rewrite (in_find_item _ it ND H1). cbn; auto. }
    intros NS. split; [|apply IN]. induction NS as [|id s N NS IH]; [constructor|]. cbn. destruct (find_item (a_items t) id) as [i|] eqn:EF; [|exact IH].
    cbn. constructor; [|exact IH]. intros C. apply IN in C as [_ C]. apply find_item_some in EF as [_ E]. congruence.
  Qed.

  (** ** QueryAction *)
  Lemma query_items_spec q : q_validate q = true -> query_no_nan q -> q = Q None None None \/ every_node node_simple q ->
    exists l, query_items t q = Some (Some l) /\ NoDup l /\ forall it, In it l <-> In it (a_items t) /\ query_holds q (it_id it) (it_kv it).
  Proof.
    intros V NN SI. unfold query_items. rewrite V. cbn [negb].
    assert (NDI : NoDup (a_items t)) by (eapply NoDup_map_inv; apply (ainv_nodup t INV)).
    destruct SI as [-> | SI].
    - exists (a_items t). split; [reflexivity|]. split; [exact NDI|]. intros it. unfold query_holds. rewrite q_holds_Q. cbn. rewrite Exists_nil. intuition.
    - assert (NQ : q <> QNil) by (intros ->; exact SI).
      assert (NOK : every_node node_ok q).
      { apply q_validate_nonnil in V; auto. eapply every_node_impl; [|exact (every_node_and _ _ _ V NN)].
        intros sel ors ands [H1 H2] s Hs. split; [auto|]. intros k v HI. eapply H2; eauto. }
      destruct (query_spec q NOK SI) as (s & EQ & QS). pose proof QS as [NS HS].
      destruct (items_of_spec s NS) as [N1 H1].
      exists (items_of t s). split.
      + destruct q as [|[se|] [ors|] [ands|]]; try (rewrite EQ; reflexivity); [contradiction|].
        exfalso. apply every_node_Q in SI as [[[C | [C | C]] _] _]; cbn in C; congruence.
      + split; [exact N1|]. intros it. rewrite H1. split; intros [HI H]; (split; [exact HI|]); apply (qset_fun _ _ _ (it_kv it) QS); auto; apply in_ents_of; eauto.
  Qed.
End QQ.
