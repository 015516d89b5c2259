(** MatchAction. *)
From Coq Require Import Permutation SpecFloat.
From Verif Require Import Datatypes SpecValues DatatypesProofs Collections SpecCollections CollectionsProofs Query SpecQuery QueryProofs Assoc SpecAssoc AssocMaps AssocProofs AssocQueryProofs AssocOps.
Local Open Scope nat_scope.

Lemma nth_snoc_nil (acc : levels) L : nth L (acc ++ [[]]) [] = nth L acc [].
Proof.
  destruct (Nat.lt_ge_cases L (length acc)).
  - apply app_nth1; auto.
  - rewrite app_nth2 by auto. rewrite (nth_overflow acc) by auto. destruct (L - length acc) as [|[|]]; reflexivity.
Qed.
Definition in_bounds (mn mx : option Z) (n : nat) : Prop := under_min n mn = false /\ over_max n mx = false.
Lemma in_bounds_iff mn mx n : in_bounds mn mx n <-> size_holds mn mx n.
Proof. unfold in_bounds, size_holds. rewrite under_min_iff, over_max_iff. reflexivity. Qed.

Lemma merge_spec mn mx x lv : forall i acc, i <= length acc -> forall L,
  In x (nth L (merge_levels mn mx i acc lv) []) <->
  In x (nth L acc []) \/ (i <= L /\ In x (nth (L - i) lv []) /\ in_bounds mn mx (Datatypes.S L)).
Proof.
  induction lv as [|l lv IH]; intros i acc HL L; cbn [merge_levels].
  - split; [auto|]. intros [H | (_ & H & _)]; [exact H|]. destruct (L - i); destruct H.
  - assert (NTH : forall L, i < L -> nth (L - i) (l :: lv) [] = nth (L - Datatypes.S i) lv []).
    { intros L' H. replace (L' - i) with (Datatypes.S (L' - Datatypes.S i)) by lia. reflexivity. }
    destruct (under_min (Datatypes.S i) mn) eqn:EU.
    + rewrite IH by (rewrite app_length; cbn; lia). rewrite nth_snoc_nil. split; (intros [H | (H1 & H2 & H3)]; [auto|]).
      * right. rewrite NTH by lia. split; [lia|auto].
      * destruct (Nat.eq_dec L i) as [-> | NE]; [destruct H3; congruence|]. right. rewrite NTH in H2 by lia. split; [lia|auto].
    + destruct (over_max (Datatypes.S i) mx) eqn:EO.
      * split; [auto|]. intros [H | (H1 & _ & _ & H)]; [exact H|]. exfalso. destruct mx as [b|]; cbn in EO, H; [|discriminate].
        apply Z.ltb_lt in EO. apply Z.ltb_ge in H. lia.
      * set (acc' := if Nat.leb (Datatypes.S i) (length acc) then _ else _).
        assert (HA : Datatypes.S i <= length acc' /\ forall L, nth L acc' [] = if Nat.eqb i L then nth i acc [] ++ l else nth L acc []).
        { unfold acc'. destruct (Nat.leb_spec (Datatypes.S i) (length acc)).
          - split; [rewrite set_level_length; lia|]. intros L'. rewrite nth_set_level by lia. reflexivity.
          - split; [rewrite set_level_length, app_length; cbn; lia|]. intros L'. rewrite nth_set_level by (rewrite app_length; cbn; lia). rewrite !nth_snoc_nil. reflexivity. }
        destruct HA as [HA1 HA2]. rewrite IH by exact HA1. rewrite HA2. destruct (Nat.eqb_spec i L) as [<- | NE].
        -- rewrite in_app_iff, Nat.sub_diag. cbn [nth]. split.
           ++ intros [[H | H] | (H & _)]; [auto| |lia]. right. split; [lia|]. split; [exact H|]. split; auto.
           ++ intros [H | (_ & H & _)]; auto.
        -- split; (intros [H | (H1 & H2 & H3)]; [auto|]); right.
           ++ rewrite NTH by lia. split; [lia|auto].
           ++ rewrite NTH in H2 by lia. split; [lia|auto].
Qed.
Lemma merge_fold mn mx x lvs : forall acc L,
  In x (nth L (fold_left (merge_levels mn mx 0) lvs acc) []) <->
  In x (nth L acc []) \/ (in_bounds mn mx (Datatypes.S L) /\ exists lv, In lv lvs /\ In x (nth L lv [])).
Proof.
  induction lvs as [|lv lvs IH]; intros acc L; cbn [fold_left].
  - split; [auto|]. intros [H | (_ & ? & [] & _)]; exact H.
  - rewrite IH, merge_spec by lia. rewrite Nat.sub_0_r. split.
    + intros [[H | (_ & H1 & H2)] | (H1 & lv' & H2 & H3)]; [auto|right; split; [exact H2|exists lv; cbn; auto]|right; split; [exact H1|exists lv'; cbn; auto]].
    + intros [H | (H1 & lv' & [<- | H2] & H3)]; [auto|left; right; split; [lia|auto]|right; eauto].
Qed.

Section Match.
  Context {A : Type} (t : atree A).
  Hypothesis INV : ainv t.
  Variable mq : MatchQuery.
  Hypothesis VAL : mq_validate mq = true.
  Hypothesis ARG : match_arg mq.
  Notation es := (ents_of (a_items t)).
  Notation ix := (a_index t).
  Notation kl := (key_levels ix mq).

  Lemma mq_valid : mq_kvs mq <> [] /\ forall k v, In (k, v) (mq_kvs mq) -> value_query_ok (mkVQ (mv_value v) CEquals (mv_tr v)) /\ good (mv_value v).
  Proof.
    unfold mq_validate in VAL. destruct (mq_kvs mq) as [|p0 l0] eqn:EM; [discriminate|]. split; [discriminate|]. rewrite <- EM in *.
    intros k v HI. rewrite forallb_forall in VAL. specialize (VAL _ HI). cbn [snd] in VAL. apply andb_true_iff in VAL as [V1 V2].
    destruct ARG as [_ NN]. specialize (NN k v HI).
    assert (VQ : vq_validate (mkVQ (mv_value v) CEquals (mv_tr v)) = true) by (cbn; rewrite V1, V2; reflexivity).
    apply vq_validate_iff in VQ. split; [exact VQ|]. split; [apply VQ|exact NN].
  Qed.

  (** the ids found for a key at a level *)
  Definition key_has (k : string) (n : nat) (x : string) : Prop :=
    exists kv m v, In (x, kv) es /\ length kv = n /\ kv_get kv k = Some m /\ In (k, v) (mq_kvs mq) /\
      type_permitted (mv_tr v) m /\ equal_values m (mv_value v) /\ size_holds (mq_min mq) (mq_max mq) n.

  Lemma merged_spec k v n x : In (k, v) (mq_kvs mq) -> 1 <= n ->
    (forall vs, aget String.eqb k ix = Some vs ->
      In x (level n (fold_left (merge_levels (mq_min mq) (mq_max mq) 0) (lookup_values LFind (mv_value v) (mv_tr v) vs) [])) <-> key_has k n x) /\
    (aget String.eqb k ix = None -> ~ key_has k n x).
  Proof.
    intros HQ Hn. destruct INV as [OK I]. pose proof I as (W & H1 & H2). destruct (proj2 mq_valid k v HQ) as [VQ Gv].
    assert (UV : forall v', In (k, v') (mq_kvs mq) -> v' = v).
    { intros v' HQ'. destruct ARG as [ND _]. clear -ND HQ HQ'. induction (mq_kvs mq) as [|[k0 v0] l IH]; [destruct HQ|]. cbn in ND. apply NoDup_cons_iff in ND as [N ND].
      destruct HQ as [E | HQ], HQ' as [E' | HQ']; [congruence| | |auto].
      - injection E as -> ->. exfalso. apply N. apply (in_map fst) in HQ'. exact HQ'.
      - injection E' as -> ->. exfalso. apply N. apply (in_map fst) in HQ. exact HQ. }
    split.
    - intros vs EK. unfold level. rewrite merge_fold. replace (Datatypes.S (n - 1)) with n by lia. rewrite in_bounds_iff. split.
      + intros [H | (HB & lv & HL & HI)]; [destruct (n - 1); destruct H|].
        unfold lookup_values in HL. apply in_map_iff in HL as ([w lv'] & E & HF). cbn in E. subst lv'. apply filter_In in HF as [HF HV]. cbn [fst] in HV.
        destruct (node_in ix k vs w lv W EK HF) as [Gw EN]. destruct (H1 k w lv Gw EN) as [[HR _] _].
        apply HR in HI as (kv & m & HI & HLen & HG & HE). assert (Gm : good m) by (eapply ents_good; eauto).
        rewrite <- (visitb_congr LFind (mv_value v) (mv_tr v) m w) in HV by auto.
        apply (find_visits (mkVQ (mv_value v) CEquals (mv_tr v)) m VQ Gv Gm) in HV as [HT HQE].
        exists kv, m, v. repeat split; auto; try apply HT; try apply HB. lia.
      + intros (kv & m & v' & HI & HLen & HG & HQ' & HT & HE & HB). rewrite (UV v' HQ') in *. clear v' HQ'. right. split; [exact HB|].
        assert (Gm : good m) by (eapply ents_good; eauto).
        destruct (node_of ix k m) as [lv|] eqn:EN; [|exfalso; eapply H2; eauto].
        destruct (H1 k m lv Gm EN) as [[HR _] _]. pose proof EN as EN'. unfold node_of in EN'. rewrite EK in EN'. apply aget_In in EN' as (w & HF & EV).
        destruct (node_in ix k vs w lv W EK HF) as [Gw _]. exists lv. split.
        * unfold lookup_values. apply in_map_iff. exists (w, lv). split; [reflexivity|]. apply filter_In. split; [exact HF|]. cbn [fst].
          rewrite <- (visitb_congr LFind (mv_value v) (mv_tr v) m w) by auto.
          apply (find_visits (mkVQ (mv_value v) CEquals (mv_tr v)) m VQ Gv Gm). split; [exact HT|exact HE].
        * apply HR. exists kv, m. repeat split; auto using veq_refl. lia.
    - intros EK (kv & m & v' & HI & _ & HG & _). specialize (H2 _ _ _ _ HI HG). unfold node_of in H2. rewrite EK in H2. congruence.
  Qed.

  Lemma kl_keys_nodup : NoDup (map fst kl).
  Proof.
    destruct ARG as [ND _]. unfold key_levels. induction (mq_kvs mq) as [|[k v] l IH]; [constructor|]. cbn in ND. apply NoDup_cons_iff in ND as [N ND].
    cbn [flat_map fst snd]. destruct (match_key ix mq k v); [|apply IH; exact ND]. cbn. constructor; [|apply IH; exact ND].
    intros C. apply N. apply in_map_iff in C as ([k' lv'] & E & HI). cbn in E. subst k'. apply in_flat_map in HI as ([k2 v2] & HI & HF). cbn [fst snd] in HF.
    destruct (match_key ix mq k2 v2); [|destruct HF]. destruct HF as [[= -> ->] | []]. apply (in_map fst) in HI. exact HI.
  Qed.
  Lemma kl_get k : forall n x, 1 <= n ->
    match aget String.eqb k kl with Some lv => In x (level n lv) <-> key_has k n x | None => ~ key_has k n x end.
  Proof.
    intros n x Hn. destruct (aget String.eqb k kl) as [lv|] eqn:E.
    - apply aget_In in E as (k' & HI & EK). apply String.eqb_eq in EK. subst k'. unfold key_levels in HI. apply in_flat_map in HI as ([k2 v2] & HI & HF). cbn [fst snd] in HF.
      unfold match_key in HF. destruct (aget String.eqb k2 ix) as [vs|] eqn:EK; [|destruct HF].
      destruct (merged_spec k2 v2 n x HI Hn) as [M _]. specialize (M vs EK).
      destruct (fold_left (merge_levels (mq_min mq) (mq_max mq) 0) (lookup_values LFind (mv_value v2) (mv_tr v2) vs) []) as [|l0 r0] eqn:EF; [destruct HF|].
      destruct HF as [[= -> <-] | []]. exact M.
    - intros (kv & m & v & HI & HL & HG & HQ & R).
      assert (KH : key_has k n x) by (exists kv, m, v; tauto).
      destruct (merged_spec k v n x HQ Hn) as [M1 M2]. destruct (aget String.eqb k ix) as [vs|] eqn:EK; [|apply M2; auto].
      specialize (M1 vs eq_refl). apply M1 in KH.
      assert (W : awf String.eqb anything kl).
      { pose proof kl_keys_nodup as ND. clear - ND. unfold key_levels in *. revert ND.
        generalize (flat_map (fun p : string * MatchValue => match match_key ix mq (fst p) (snd p) with Some lv => [(fst p, lv)] | None => [] end) (mq_kvs mq)).
        induction l as [|[k0 l0] l IH]; [constructor|]. cbn. intros ND. apply NoDup_cons_iff in ND as [N ND]. split; [exact Logic.I|]. split; [|auto].
        intros k' x' HI. apply String.eqb_neq. intros <-. apply N. apply (in_map fst) in HI. exact HI. }
      destruct (match_key ix mq k v) as [lv|] eqn:EM.
      + assert (HIN : In (k, lv) kl) by (unfold key_levels; apply in_flat_map; exists (k, v); cbn [fst snd]; rewrite EM; cbn; auto).
        pose proof (aget_none_In String.eqb anything k kl W E k lv HIN) as C. rewrite String.eqb_refl in C. discriminate.
      + unfold match_key in EM. rewrite EK in EM. destruct (fold_left (merge_levels (mq_min mq) (mq_max mq) 0) (lookup_values LFind (mv_value v) (mv_tr v) vs) []); [|discriminate]. unfold level in KH. destruct (n - 1); destruct KH.
  Qed.

  Lemma group_spec n g : 1 <= n -> forall first acc, NoDup acc -> (first = true -> acc = []) ->
    NoDup (group_ids kl n g first acc) /\
    forall x, In x (group_ids kl n g first acc) <-> (first = false -> In x acc) /\ (first = true -> g <> []) /\ Forall (fun k => key_has k n x) g.
  Proof.
    intros Hn. induction g as [|k g IH]; intros first acc N HF; cbn [group_ids].
    - split; [exact N|]. intros x. destruct first; [rewrite HF by reflexivity|]; cbn; intuition.
    - pose proof (fun x => kl_get k n x Hn) as K. destruct (aget String.eqb k kl) as [lv|].
      + destruct (Nat.ltb_spec (length lv) n) as [HL|HL].
        * split; [constructor|]. intros x. split; [intros []|]. intros (_ & _ & H). apply Forall_cons_iff in H as [H _]. apply K in H.
          unfold level in H. rewrite nth_overflow in H by lia. exact H.
        * assert (S1 : NoDup (if first then set_add_bulk acc (level n lv) else set_intersection acc (level n lv)) /\
                    forall x, In x (if first then set_add_bulk acc (level n lv) else set_intersection acc (level n lv)) <-> (first = false -> In x acc) /\ key_has k n x).
          { destruct first.
            - rewrite (HF eq_refl). destruct (set_add_bulk_spec (level n lv) [] (NoDup_nil _)) as [N' E]. split; [exact N'|]. intros x. rewrite E. cbn. rewrite K. intuition discriminate.
            - destruct (set_intersection_spec acc (level n lv)) as [N' E]. split; [exact N'|]. intros x. rewrite E, K. intuition. }
          destruct S1 as [N' E]. destruct (IH false _ N' (fun H => ltac:(discriminate))) as [N2 E2]. split; [exact N2|].
          intros x. rewrite E2, E. rewrite Forall_cons_iff. intuition (try discriminate).
      + split; [constructor|]. intros x. split; [intros []|]. intros (_ & _ & H). apply Forall_cons_iff in H as [H _]. apply (K x). exact H.
  Qed.

  (** a group that records an id is the set of keys of its item *)
  Lemma group_is_keys g x : NoDup g -> g <> [] -> Forall (fun k => key_has k (length g) x) g ->
    exists kv, In (x, kv) es /\ match_holds mq kv /\ Permutation g (kv_keys kv).
  Proof.
    intros ND NE HF. destruct INV as [OK I]. destruct g as [|k0 g0] eqn:EG; [contradiction|]. rewrite <- EG in *.
    assert (H0 : key_has k0 (length g) x) by (rewrite Forall_forall in HF; apply HF; rewrite EG; left; reflexivity).
    destruct H0 as (kv & _ & _ & HI & HL & _ & _ & _ & _ & HB). exists kv. split; [exact HI|].
    assert (ALL : forall k, In k g -> exists m v, kv_get kv k = Some m /\ In (k, v) (mq_kvs mq) /\ type_permitted (mv_tr v) m /\ equal_values m (mv_value v)).
    { intros k Hk. rewrite Forall_forall in HF. destruct (HF k Hk) as (kv' & m & v & HI' & _ & HG & HQ & HT & HE & _).
      rewrite (ents_fun _ _ _ _ OK HI HI') in *. eauto 8. }
    assert (P : Permutation g (kv_keys kv)).
    { apply NoDup_Permutation_bis; auto.
      - unfold kv_keys. rewrite map_length. lia.
      - intros k Hk. destruct (ALL k Hk) as (m & v & HG & _). apply kv_get_In in HG. apply (in_map fst) in HG. exact HG. }
    split; [|exact P]. split; [rewrite HL; exact HB|]. intros k m HG.
    assert (Hk : In k g). { apply (Permutation_in _ (Permutation_sym P)). apply kv_get_In in HG. apply (in_map fst) in HG. exact HG. }
    destruct (ALL k Hk) as (m' & v & HG' & HQ & HT & HE). exists v. assert (m' = m) by congruence. subst m'. auto.
  Qed.

  Lemma filter_subseq {B} (f : B -> bool) l : subseq (filter f l) l.
  Proof. induction l as [|x l IH]; cbn; [constructor|]. destruct (f x); constructor; exact IH. Qed.

  Lemma nodup_flat {B C} (f : B -> list C) l : NoDup l -> (forall b, In b l -> NoDup (f b)) ->
    (forall b b' c, In b l -> In b' l -> In c (f b) -> In c (f b') -> b = b') -> NoDup (flat_map f l).
  Proof.
    induction 1 as [|b l N ND IH]; intros H1 H2; [constructor|]. cbn. apply nodup_app.
    - apply H1; left; reflexivity.
    - apply IH; [intros; apply H1; right; auto|]. intros b1 b2 c Hb1 Hb2. apply H2; right; auto.
    - intros c Hc HC. apply in_flat_map in HC as (b' & Hb' & Hc'). apply N.
      rewrite (H2 b b' c); auto; [left; reflexivity|right; exact Hb'].
  Qed.

  Lemma match_ids_spec : ~ (exists b, mq_max mq = Some b /\ b <> -1 /\ b < match mq_min mq with Some a => a | None => 0 end)%Z ->
    exists ids, match_ids ix mq = Some (Some ids) /\ NoDup ids /\ forall x, In x ids <-> exists kv, In (x, kv) es /\ match_holds mq kv.
  Proof.
    intros NC. pose proof INV as [OK I]. unfold match_ids. rewrite VAL. cbn [negb].
    set (mn := match mq_min mq with Some m => m | None => 0%Z end). set (mx := match mq_max mq with Some m => m | None => (-1)%Z end).
    destruct (permutations_lemma (map fst kl) mn mx) as (P1 & P2 & P3 & _).
    destruct (GenerateStringPermutations (map fst kl) mn mx) as [groups|].
    2:{ exfalso. destruct P1 as [P1 _]. destruct (P1 eq_refl) as [Q1 Q2]. apply NC. unfold mx, mn in *. destruct (mq_max mq) as [b|]; [exists b; auto|congruence]. }
    specialize (P2 _ eq_refl). specialize (P3 _ eq_refl kl_keys_nodup).
    assert (GN : forall g, In g groups -> NoDup g /\ g <> [] /\ subseq g (map fst kl)).
    { intros g Hg. apply P2 in Hg as [Hs [Hne _]]. split; [|auto]. pose proof kl_keys_nodup as ND. clear -Hs Hne ND. revert ND Hs. generalize (map fst kl). intros l ND Hs. clear Hne.
      induction Hs as [l|y c l Hs IH|y c l Hs IH]; [constructor| |].
      - apply NoDup_cons_iff in ND as [N ND]. constructor; [|auto]. intros C. apply N. eapply subseq_incl; eauto.
      - apply NoDup_cons_iff in ND as [N ND]. auto. }
    assert (GI : forall g x, In g groups -> In x (group_ids kl (length g) g true []) <-> Forall (fun k => key_has k (length g) x) g).
    { intros g x Hg. destruct (GN g Hg) as (_ & NE & _). assert (1 <= length g) by (destruct g; [contradiction|cbn; lia]).
      destruct (group_spec (length g) g H true [] (NoDup_nil _) (fun _ => eq_refl)) as [_ E]. rewrite E. intuition discriminate. }
    exists (flat_map (fun g => set_values (group_ids kl (length g) g true [])) groups). split; [reflexivity|]. split.
    - apply nodup_flat; [exact P3| |].
      + intros g Hg. destruct (GN g Hg) as (_ & NE & _). assert (1 <= length g) by (destruct g; [contradiction|cbn; lia]).
        apply (group_spec (length g) g H true [] (NoDup_nil _) (fun _ => eq_refl)).
      + intros g g' x Hg Hg' H1 H2. unfold set_values in *. apply GI in H1, H2; auto.
        destruct (GN g Hg) as (N1 & E1 & S1), (GN g' Hg') as (N2 & E2 & S2).
        destruct (group_is_keys g x N1 E1 H1) as (kv & HI & _ & Q1), (group_is_keys g' x N2 E2 H2) as (kv' & HI' & _ & Q2).
        rewrite (ents_fun _ _ _ _ OK HI HI') in *. apply (subseq_perm_eq (map fst kl) kl_keys_nodup); auto.
        rewrite Q1, Q2. reflexivity.
    - intros x. rewrite in_flat_map. split.
      + intros (g & Hg & HI). apply GI in HI; auto. destruct (GN g Hg) as (N1 & E1 & S1). destruct (group_is_keys g x N1 E1 HI) as (kv & H1 & H2 & _). eauto.
      + intros (kv & HI & HB & HM). assert (O := OK). destruct O as (_ & O & _). destruct (O _ _ HI) as [[ND R] NE].
        assert (Hlen : 1 <= length kv) by (destruct kv; [contradiction|cbn; lia]).
        assert (KH : forall k, In k (kv_keys kv) -> key_has k (length kv) x).
        { intros k Hk. destruct (kv_get kv k) as [m|] eqn:EG; [|apply kv_get_none in EG; contradiction].
          destruct (HM k m EG) as (v & HQ & HT & HE). exists kv, m, v. repeat split; auto; try apply HT; try apply HB. }
        set (g := filter (fun k => existsb (String.eqb k) (kv_keys kv)) (map fst kl)).
        assert (PG : Permutation g (kv_keys kv)).
        { apply NoDup_Permutation; [apply nodup_filter, kl_keys_nodup|exact ND|]. intros k. unfold g. rewrite filter_In, existsb_exists. split.
          - intros [_ (k' & Hk & E)]. apply String.eqb_eq in E. subst; exact Hk.
          - intros Hk. split; [|exists k; split; [exact Hk|apply String.eqb_refl]].
            pose proof (kl_get k (length kv) x Hlen) as K. destruct (aget String.eqb k kl) as [lv|] eqn:EK.
            + apply aget_In in EK as (k' & Hk' & E). apply String.eqb_eq in E. subst k'. apply (in_map fst) in Hk'. exact Hk'.
            + exfalso. apply K. auto. }
        assert (LG : length g = length kv) by (rewrite (Permutation_length PG); unfold kv_keys; apply map_length).
        assert (Hg : In g groups).
        { apply P2. split; [apply filter_subseq|]. split; [|split].
          - intros C. rewrite C in LG. cbn in LG. lia.
          - rewrite LG. unfold mn. destruct HB as [HB _]. destruct (mq_min mq); [apply HB; reflexivity|lia].
          - rewrite LG. unfold mx. destruct HB as [_ HB]. destruct (mq_max mq); [right; apply HB; reflexivity|left; reflexivity]. }
        exists g. split; [exact Hg|]. apply GI; [exact Hg|]. rewrite LG. apply Forall_forall. intros k Hk. apply KH. apply (Permutation_in _ PG). exact Hk.
  Qed.

  Lemma match_loop_iterate {S} (cb : S -> item A -> S * bool) ids : (forall x, In x ids -> exists kv, In (x, kv) es) ->
    forall s, match_loop_items t cb s ids = iterate cb s (items_of t ids).
  Proof.
    induction ids as [|id ids IH]; intros H s; [reflexivity|]. cbn.
    destruct (H id (or_introl eq_refl)) as (kv & HI). apply in_ents_of in HI as (it & HI & <- & _).
    rewrite (in_find_item _ it (ainv_nodup t INV) HI). cbn. destruct (cb s it) as [s' go]. destruct go; [|reflexivity]. apply IH. intros x Hx. apply H. right; exact Hx.
  Qed.

  Lemma match_spec {S} (cb : S -> item A -> S * bool) (s : S) :
    ~ (exists b, mq_max mq = Some b /\ b <> -1 /\ b < match mq_min mq with Some a => a | None => 0 end)%Z ->
    exists l, MatchAction t mq cb s = Some (Some (iterate cb s l)) /\ NoDup l /\
      forall it, In it l <-> In it (a_items t) /\ match_holds mq (it_kv it).
  Proof.
    intros NC. destruct (match_ids_spec NC) as (ids & E & ND & H). unfold MatchAction. rewrite E.
    exists (items_of t ids). split.
    - rewrite match_loop_iterate; [reflexivity|]. intros x Hx. apply H in Hx as (kv & HI & _). eauto.
    - destruct (items_of_spec t INV ids ND) as [N1 H1]. split; [exact N1|]. intros it. rewrite H1, H. split.
      + intros [HI (kv & HE & HM)]. split; [exact HI|]. destruct INV as [OK _].
        rewrite (ents_fun _ _ _ (it_kv it) OK HE) in HM; [exact HM|]. apply in_ents_of; eauto.
      + intros [HI HM]. split; [exact HI|]. exists (it_kv it). split; [apply in_ents_of; eauto|exact HM].
  Qed.
End Match.
