(** Matches that overlap other calls. *)
From Coq Require Import Permutation.
From Verif Require Import Datatypes SpecValues DatatypesProofs Collections SpecCollections CollectionsProofs Query SpecQuery QueryProofs
  Assoc SpecAssoc AssocMaps AssocProofs AssocQueryProofs AssocOps AssocMatchProofs QuerySync SpecQuerySync QuerySyncProofs MatchSync SpecMatchSync.
Local Open Scope nat_scope.

(** The groups, for any lists of ids *)
Definition has_id (kl : list (string * levels)) (n : nat) (x k : string) : Prop := exists lv, aget String.eqb k kl = Some lv /\ In x (level n lv).
Lemma groups_spec kl n g : 1 <= n -> forall first acc, NoDup acc -> (first = true -> acc = []) ->
  NoDup (group_ids kl n g first acc) /\
  forall x, In x (group_ids kl n g first acc) <-> (first = false -> In x acc) /\ (first = true -> g <> []) /\ Forall (has_id kl n x) g.
Proof.
  intros Hn. induction g as [|k g IH]; intros first acc N HF; cbn [group_ids].
  - split; [exact N|]. intros x. destruct first; [rewrite HF by reflexivity|]; cbn; intuition.
  - assert (K : forall x lv, aget String.eqb k kl = Some lv -> (has_id kl n x k <-> In x (level n lv))).
    { intros x lv E. split; [intros (lv' & E' & H); congruence|intros H; exists lv; auto]. }
    destruct (aget String.eqb k kl) as [lv|] eqn:E.
    + specialize (fun x => K x lv eq_refl). destruct (Nat.ltb_spec (length lv) n) as [HL|HL].
      * split; [constructor|]. intros x. split; [intros []|]. intros (_ & _ & H). apply Forall_cons_iff in H as [H _]. apply K in H.
        unfold level in H. rewrite nth_overflow in H by lia. exact H.
      * assert (S1 : NoDup (if first then set_add_bulk acc (level n lv) else set_intersection acc (level n lv)) /\
                  forall x, In x (if first then set_add_bulk acc (level n lv) else set_intersection acc (level n lv)) <-> (first = false -> In x acc) /\ has_id kl n x k).
        { destruct first.
          - rewrite (HF eq_refl). destruct (set_add_bulk_spec (level n lv) [] (NoDup_nil _)) as [N' E']. split; [exact N'|]. intros x. rewrite E'. cbn. rewrite K. intuition discriminate.
          - destruct (set_intersection_spec acc (level n lv)) as [N' E']. split; [exact N'|]. intros x. rewrite E', K. intuition. }
        destruct S1 as [N' E']. destruct (IH false _ N' (fun H => ltac:(discriminate))) as [N2 E2]. split; [exact N2|].
        intros x. rewrite E2, E'. rewrite Forall_cons_iff. intuition (try discriminate).
    + split; [constructor|]. intros x. split; [intros []|]. intros (_ & _ & H). apply Forall_cons_iff in H as [(lv & H & _) _]. congruence.
Qed.

Section Match.
  Context {A : Type} (h : nat -> atree A) (readable : nat -> string -> EV -> Prop) (mq : MatchQuery).
  Hypothesis HIST : history h.
  Hypothesis VAL : mq_validate mq = true.
  Hypothesis ARG : match_arg mq.

  Lemma inv n : ainv (h n).
  Proof. apply (history_ents h HIST). Qed.
  Lemma ents_at n x kv : stored_at h n x kv <-> In (x, kv) (ents_of (a_items (h n))).
  Proof. unfold stored_at. rewrite in_ents_of. reflexivity. Qed.
  Lemma same_kv n m x kv kv' : stored_at h n x kv -> stored_at h m x kv' -> kv = kv'.
  Proof. destruct (history_ents h HIST) as (_ & F & _). apply F. Qed.

  (** What was found of a key at a level was there; what is there all the time is found *)
  Definition found_at (from to : nat) (k : string) (v : MatchValue) (n : nat) (x : string) : Prop :=
    exists j kv m, from <= j <= to /\ stored_at h j x kv /\ length kv = n /\ kv_get kv k = Some m /\ type_permitted (mv_tr v) m /\ equal_values m (mv_value v) /\ size_holds (mq_min mq) (mq_max mq) n.
  Lemma levels_found from to k v reads n x : In (k, v) (mq_kvs mq) -> 1 <= n -> reads_of h readable from to k v reads -> In x (level n (levels_of h mq k reads)) -> found_at from to k v n x.
  Proof.
    intros HQ Hn [R _] HI. destruct (proj2 (mq_valid mq VAL ARG) k v HQ) as [VQ Gv]. unfold level, levels_of in HI. apply merge_fold in HI. replace (Datatypes.S (n - 1)) with n in HI by lia.
    destruct HI as [HI | (HB & lv & HL & HI)]; [destruct (n - 1); destruct HI|]. apply in_flat_map in HL as ([w j] & HR & HL). cbn [fst snd] in HL.
    destruct (node_of (a_index (h j)) k w) as [lv'|] eqn:EN; [|destruct HL]. destruct HL as [-> | []].
    destruct (R w j HR) as (Gw & LW & B & _ & _). destruct (inv j) as [OK (W & H1 & _)]. destruct (H1 k w lv Gw EN) as [[HX _] _].
    apply HX in HI as (kv & m & HI & HLen & HG & HE). assert (Gm : good m) by (eapply ents_good; eauto).
    unfold looks_at in LW. rewrite <- (visitb_congr LFind (mv_value v) (mv_tr v) m w) in LW by auto.
    apply (find_visits (mkVQ (mv_value v) CEquals (mv_tr v)) m VQ Gv Gm) in LW as [HT HQE]. apply in_bounds_iff in HB.
    exists j, kv, m. split; [exact B|]. split; [apply ents_at; exact HI|]. split; [lia|]. auto.
  Qed.
  Lemma levels_stored from to k v reads kv m x : In (k, v) (mq_kvs mq) -> reads_of h readable from to k v reads -> from <= to ->
    (forall j, from <= j <= to -> stored_at h j x kv) -> kv_get kv k = Some m -> type_permitted (mv_tr v) m -> equal_values m (mv_value v) -> size_holds (mq_min mq) (mq_max mq) (length kv) ->
    In x (level (length kv) (levels_of h mq k reads)).
  Proof.
    intros HQ [R C] LE ST HG HT HE HB. destruct (proj2 (mq_valid mq VAL ARG) k v HQ) as [VQ Gv].
    assert (S0 := ST from ltac:(lia)). apply ents_at in S0. destruct (inv from) as [OK0 _]. assert (Gm : good m) by (eapply ents_good; eauto).
    assert (LM : looks_at v m = true) by (apply (find_visits (mkVQ (mv_value v) CEquals (mv_tr v)) m VQ Gv Gm); split; assumption).
    destruct (C m Gm LM) as (w & j & HR & EV). { intros j B. destruct (inv j) as [_ (_ & _ & H2)]. eapply H2; [apply ents_at, ST, B|exact HG]. }
    destruct (R w j HR) as (Gw & LW & B & _ & NN). destruct (inv j) as [OK (W & H1 & H2)]. destruct (node_of (a_index (h j)) k w) as [lv|] eqn:EN; [|congruence].
    destruct (H1 k w lv Gw EN) as [[HX _] _]. unfold level, levels_of. apply merge_fold. right.
    assert (L1 : 1 <= length kv) by (destruct kv; [discriminate HG|cbn; lia]). replace (Datatypes.S (length kv - 1)) with (length kv) by lia.
    split; [apply in_bounds_iff, HB|]. exists lv. split; [apply in_flat_map; exists (w, j); split; [exact HR|cbn [fst snd]; rewrite EN; left; reflexivity]|].
    apply HX. exists kv, m. split; [apply ents_at, ST, B|]. split; [lia|]. auto.
  Qed.

  Lemma keys_mono n keys m kl : keys_run h readable mq n keys m kl -> n <= m.
  Proof. induction 1; lia. Qed.
  Lemma keys_names n keys m kl : keys_run h readable mq n keys m kl -> forall k lv, In (k, lv) kl -> In k (map fst keys).
  Proof.
    induction 1 as [|n m k v r reads to kl L R K IH]; [intros k lv []|]. intros k' lv' HI. cbn [map fst]. destruct (levels_of h mq k reads) as [|l0 lr]; [right; eauto|].
    destruct HI as [[= <- <-] | HI]; [left; reflexivity|right; eauto].
  Qed.
  Lemma keys_nodup n keys m kl : keys_run h readable mq n keys m kl -> NoDup (map fst keys) -> NoDup (map fst kl).
  Proof.
    induction 1 as [|n m k v r reads to kl L R K IH]; [constructor|]. cbn [map fst]. intros ND. apply NoDup_cons_iff in ND as [N ND].
    destruct (levels_of h mq k reads) as [|l0 lr]; [auto|]. cbn [map fst]. constructor; [|auto]. intros C. apply in_map_iff in C as ([k' lv'] & E & HI). cbn in E. subst k'. apply N. eapply keys_names; eauto.
  Qed.
  Lemma keys_found n keys m kl : keys_run h readable mq n keys m kl -> (forall p, In p keys -> In p (mq_kvs mq)) ->
    forall k lv c x, In (k, lv) kl -> 1 <= c -> In x (level c lv) -> exists v, In (k, v) (mq_kvs mq) /\ found_at n m k v c x.
  Proof.
    induction 1 as [|n m k v r reads to kl L R K IH]; intros INC k' lv c x HI Hc HX; [destruct HI|].
    assert (M := keys_mono _ _ _ _ K).
    assert (REST : In (k', lv) kl -> exists v0, In (k', v0) (mq_kvs mq) /\ found_at n to k' v0 c x).
    { intros H. destruct (IH (fun p Hp => INC p (or_intror Hp)) k' lv c x H Hc HX) as (v0 & H1 & j & kv & m0 & B & F). exists v0. split; [exact H1|]. exists j, kv, m0. split; [lia|exact F]. }
    destruct (levels_of h mq k reads) as [|l0 lr] eqn:EL; [auto|]. destruct HI as [[= <- <-] | HI]; [|auto]. rewrite <- EL in HX.
    destruct (levels_found n m k v reads c x (INC _ (or_introl eq_refl)) Hc R HX) as (j & kv & m0 & B & F). exists v. split; [apply INC; left; reflexivity|]. exists j, kv, m0. split; [lia|exact F].
  Qed.
  Lemma keys_stored n keys m kl : keys_run h readable mq n keys m kl -> (forall p, In p keys -> In p (mq_kvs mq)) ->
    forall x kv k v w, (forall j, n <= j <= m -> stored_at h j x kv) -> In (k, v) keys -> kv_get kv k = Some w -> type_permitted (mv_tr v) w -> equal_values w (mv_value v) -> size_holds (mq_min mq) (mq_max mq) (length kv) ->
    exists lv, In (k, lv) kl /\ In x (level (length kv) lv).
  Proof.
    induction 1 as [|n m k v r reads to kl L R K IH]; intros INC x kv k' v' w ST HI HG HT HE HB; [destruct HI|].
    assert (M := keys_mono _ _ _ _ K). destruct HI as [[= -> ->] | HI].
    - assert (X : In x (level (length kv) (levels_of h mq k' reads))) by (apply (levels_stored n m k' v' reads kv w x); auto; [apply INC; left; reflexivity|intros j B; apply ST; lia]).
      destruct (levels_of h mq k' reads) as [|l0 lr]; [unfold level in X; destruct (length kv - 1); destruct X|]. eexists. split; [left; reflexivity|exact X].
    - destruct (IH (fun p Hp => INC p (or_intror Hp)) x kv k' v' w) as (lv & H1 & H2); auto; [intros j B; apply ST; lia|].
      exists lv. split; [|exact H2]. destruct (levels_of h mq k reads); [exact H1|right; exact H1].
  Qed.

  Lemma aget_perm (kl kl' : list (string * levels)) k lv : NoDup (map fst kl) -> Permutation kl kl' -> (aget String.eqb k kl' = Some lv <-> In (k, lv) kl).
  Proof.
    intros ND P. assert (ND' : NoDup (map fst kl')) by (eapply Permutation_NoDup; [apply Permutation_map, P|exact ND]). split.
    - intros E. apply aget_In in E as (k' & HI & EK). apply String.eqb_eq in EK. subst k'. eapply Permutation_in; [apply Permutation_sym, P|exact HI].
    - intros HI. eapply Permutation_in in HI; [|exact P]. clear - ND' HI. induction kl' as [|[k0 l0] r IH]; [destruct HI|]. cbn in ND'. apply NoDup_cons_iff in ND' as [N ND']. cbn [aget].
      destruct HI as [[= -> ->] | HI]; [rewrite String.eqb_refl; reflexivity|]. destruct (String.eqb_spec k k0) as [-> | NE]; [|auto]. exfalso. apply N. apply (in_map fst) in HI. exact HI.
  Qed.

  (** A group that records an id is the set of keys of its item *)
  Lemma group_keys from mid keys kl kl' g x : Permutation (mq_kvs mq) keys -> keys_run h readable mq from keys mid kl -> Permutation kl kl' -> NoDup g -> g <> [] -> Forall (has_id kl' (length g) x) g ->
    exists j kv, from <= j <= mid /\ stored_at h j x kv /\ match_holds mq kv /\ Permutation g (kv_keys kv).
  Proof.
    intros PK KR PL ND NE HF. assert (Hlen : 1 <= length g) by (destruct g; [contradiction|cbn; lia]).
    assert (NK : NoDup (map fst kl)). { apply (keys_nodup _ _ _ _ KR). eapply Permutation_NoDup; [apply Permutation_map, PK|apply ARG]. }
    assert (ALL : forall k, In k g -> exists v, In (k, v) (mq_kvs mq) /\ found_at from mid k v (length g) x).
    { intros k Hk. rewrite Forall_forall in HF. destruct (HF k Hk) as (lv & E & HX). apply (aget_perm kl kl' k lv NK PL) in E.
      eapply (keys_found _ _ _ _ KR); eauto. intros p Hp. eapply Permutation_in; [apply Permutation_sym, PK|exact Hp]. }
    destruct g as [|k0 g0] eqn:EG; [contradiction|]. rewrite <- EG in *. destruct (ALL k0) as (v0 & _ & j & kv & m0 & B & ST & HL & _ & _ & _ & HB); [rewrite EG; left; reflexivity|].
    exists j, kv. split; [exact B|]. split; [exact ST|].
    assert (ALL' : forall k, In k g -> exists m v, kv_get kv k = Some m /\ In (k, v) (mq_kvs mq) /\ type_permitted (mv_tr v) m /\ equal_values m (mv_value v)).
    { intros k Hk. destruct (ALL k Hk) as (v & HQ & j' & kv' & m & _ & ST' & _ & HG & HT & HE & _). rewrite (same_kv _ _ _ _ _ ST ST'). eauto 8. }
    assert (P : Permutation g (kv_keys kv)).
    { apply NoDup_Permutation_bis; auto.
      - unfold kv_keys. rewrite map_length. lia.
      - intros k Hk. destruct (ALL' k Hk) as (m & v & HG & _). apply kv_get_In in HG. apply (in_map fst) in HG. exact HG. }
    split; [|exact P]. split; [rewrite HL; exact HB|]. intros k m HG.
    assert (Hk : In k g). { apply (Permutation_in _ (Permutation_sym P)). apply kv_get_In in HG. apply (in_map fst) in HG. exact HG. }
    destruct (ALL' k Hk) as (m' & v & HG' & HQ & HT & HE). exists v. assert (m' = m) by congruence. subst m'. auto.
  Qed.

  Lemma subseq_nodup {B} (g l : list B) : NoDup l -> subseq g l -> NoDup g.
  Proof.
    intros ND Hs. revert ND. induction Hs as [l|y c l Hs IH|y c l Hs IH]; intros ND; [constructor| |].
    - apply NoDup_cons_iff in ND as [N ND]. constructor; [|auto]. intros C. apply N. eapply subseq_incl; eauto.
    - apply NoDup_cons_iff in ND as [N ND]. auto.
  Qed.

  (** The ids that a match looks up *)
  Lemma ids_spec from mid keys kl kl' groups ids : Permutation (mq_kvs mq) keys -> keys_run h readable mq from keys mid kl -> Permutation kl kl' ->
    GenerateStringPermutations (map fst kl') (match mq_min mq with Some m => m | None => 0%Z end) (match mq_max mq with Some m => m | None => (-1)%Z end) = Some groups ->
    Forall2 (fun g l => Permutation l (set_values (group_ids kl' (length g) g true []))) groups ids ->
    NoDup (concat ids) /\ (forall x, In x (concat ids) -> exists j kv, from <= j <= mid /\ stored_at h j x kv /\ match_holds mq kv) /\
    forall x kv, (forall j, from <= j <= mid -> stored_at h j x kv) -> match_holds mq kv -> In x (concat ids).
  Proof.
    intros PK KR PL EP F2. set (mn := match mq_min mq with Some m => m | None => 0%Z end) in *. set (mx := match mq_max mq with Some m => m | None => (-1)%Z end) in *.
    destruct (permutations_lemma (map fst kl') mn mx) as (_ & P2 & P3 & _). specialize (P2 _ EP). specialize (P3 _ EP).
    assert (LE := keys_mono _ _ _ _ KR).
    assert (NK : NoDup (map fst kl)). { apply (keys_nodup _ _ _ _ KR). eapply Permutation_NoDup; [apply Permutation_map, PK|apply ARG]. }
    assert (NK' : NoDup (map fst kl')) by (eapply Permutation_NoDup; [apply Permutation_map, PL|exact NK]). specialize (P3 NK').
    assert (GN : forall g, In g groups -> NoDup g /\ g <> [] /\ subseq g (map fst kl')).
    { intros g Hg. apply P2 in Hg as [Hs [Hne _]]. split; [eapply subseq_nodup; eauto|auto]. }
    assert (GI : forall g, In g groups -> NoDup (set_values (group_ids kl' (length g) g true [])) /\ forall x, In x (set_values (group_ids kl' (length g) g true [])) <-> Forall (has_id kl' (length g) x) g).
    { intros g Hg. destruct (GN g Hg) as (_ & NE & _). assert (1 <= length g) by (destruct g; [contradiction|cbn; lia]).
      destruct (groups_spec kl' (length g) g H true [] (NoDup_nil _) (fun _ => eq_refl)) as [N E]. split; [exact N|]. intros x. unfold set_values. rewrite E. intuition discriminate. }
    assert (IN : forall x, In x (concat ids) <-> exists g, In g groups /\ Forall (has_id kl' (length g) x) g).
    { intros x. clear - F2 GI. induction F2 as [|g l gs ls P F IH]; cbn [concat]; [split; [intros []|intros (g & [] & _)]|].
      rewrite in_app_iff, IH by (intros g' Hg'; apply GI; right; exact Hg'). destruct (GI g (or_introl eq_refl)) as [_ G].
      assert (L : In x l <-> Forall (has_id kl' (length g) x) g). { rewrite <- G. split; intros Hx; [eapply Permutation_in; eauto|eapply Permutation_in; [apply Permutation_sym; eauto|exact Hx]]. }
      rewrite L. split; [intros [H | (g' & H1 & H2)]; [exists g; cbn; auto|exists g'; cbn; auto]|intros (g' & [<- | H1] & H2); [auto|right; eauto]]. }
    assert (GK : forall g x, In g groups -> Forall (has_id kl' (length g) x) g -> exists j kv, from <= j <= mid /\ stored_at h j x kv /\ match_holds mq kv /\ Permutation g (kv_keys kv)).
    { intros g x Hg HF. destruct (GN g Hg) as (N1 & E1 & _). eapply group_keys; eauto. }
    split; [|split].
    - assert (DJ : forall g g' x, In g groups -> In g' groups -> Forall (has_id kl' (length g) x) g -> Forall (has_id kl' (length g') x) g' -> g = g').
      { intros g g' x Hg Hg' H1 H2. destruct (GK g x Hg H1) as (j & kv & _ & S1 & _ & Q1), (GK g' x Hg' H2) as (j' & kv' & _ & S2 & _ & Q2).
        rewrite (same_kv _ _ _ _ _ S1 S2) in *. destruct (GN g Hg) as (_ & _ & B1), (GN g' Hg') as (_ & _ & B2). apply (subseq_perm_eq (map fst kl') NK'); auto. rewrite Q1, Q2. reflexivity. }
      clear - F2 GI DJ P3. induction F2 as [|g l gs ls P F IH]; cbn [concat]; [constructor|]. apply NoDup_cons_iff in P3 as [N P3]. destruct (GI g (or_introl eq_refl)) as [NG G]. apply nodup_app.
      + eapply Permutation_NoDup; [apply Permutation_sym, P|exact NG].
      + apply IH; [exact P3| |]; intros; [apply GI; right; assumption|eapply DJ; try (right; eassumption); eauto].
      + intros x Hx C. apply (Permutation_in _ P), G in Hx. assert (X : exists g', In g' gs /\ Forall (has_id kl' (length g') x) g').
        { clear - F C GI. assert (GI' : forall g0, In g0 gs -> NoDup (set_values (group_ids kl' (length g0) g0 true [])) /\ forall x, In x (set_values (group_ids kl' (length g0) g0 true [])) <-> Forall (has_id kl' (length g0) x) g0) by (intros; apply GI; right; assumption).
          clear GI. induction F as [|g1 l1 gs ls P1 F IH]; [destruct C|]. cbn in C. apply in_app_iff in C as [C | C].
          - exists g1. split; [left; reflexivity|]. apply (GI' g1 (or_introl eq_refl)). eapply Permutation_in; eauto.
          - destruct (IH C) as (g' & H1 & H2); [intros; apply GI'; right; assumption|]. exists g'. cbn. auto. }
        destruct X as (g' & Hg' & HF'). apply N. rewrite (DJ g g' x); auto; [left; reflexivity|right; exact Hg'].
    - intros x HX. apply IN in HX as (g & Hg & HF). destruct (GK g x Hg HF) as (j & kv & B & S & M & _). eauto.
    - intros x kv ST [HB HM]. apply IN. assert (S0 := ST from ltac:(lia)). apply ents_at in S0. destruct (inv from) as [OK _]. destruct OK as (_ & O & _). destruct (O _ _ S0) as [[ND R] NE].
      assert (KH : forall k, In k (kv_keys kv) -> has_id kl' (length kv) x k).
      { intros k Hk. destruct (kv_get kv k) as [m|] eqn:EG; [|apply kv_get_none in EG; contradiction]. destruct (HM k m EG) as (v & HQ & HT & HE).
        destruct (keys_stored _ _ _ _ KR) with (x := x) (kv := kv) (k := k) (v := v) (w := m) as (lv & H1 & H2); auto.
        - intros p Hp. eapply Permutation_in; [apply Permutation_sym, PK|exact Hp].
        - eapply Permutation_in; [exact PK|exact HQ].
        - exists lv. split; [apply (aget_perm kl kl' k lv NK PL), H1|exact H2]. }
      set (g := filter (fun k => existsb (String.eqb k) (kv_keys kv)) (map fst kl')).
      assert (PG : Permutation g (kv_keys kv)).
      { apply NoDup_Permutation; [apply nodup_filter, NK'|exact ND|]. intros k. unfold g. rewrite filter_In, existsb_exists. split.
        - intros [_ (k' & Hk & E)]. apply String.eqb_eq in E. subst; exact Hk.
        - intros Hk. split; [|exists k; split; [exact Hk|apply String.eqb_refl]]. destruct (KH k Hk) as (lv & E & _).
          apply aget_In in E as (k' & Hk' & E'). apply String.eqb_eq in E'. subst k'. apply (in_map fst) in Hk'. exact Hk'. }
      assert (LG : length g = length kv) by (rewrite (Permutation_length PG); unfold kv_keys; apply map_length).
      exists g. split.
      + apply P2. split; [apply filter_subseq|]. split; [|split].
        * intros C. rewrite C in LG. cbn in LG. destruct kv; [contradiction|discriminate].
        * rewrite LG. unfold mn. destruct HB as [HB1 _]. destruct (mq_min mq); [apply HB1; reflexivity|lia].
        * rewrite LG. unfold mx. destruct HB as [_ HB2]. destruct (mq_max mq); [right; apply HB2; reflexivity|left; reflexivity].
      + rewrite LG. apply Forall_forall. intros k Hk. apply KH. apply (Permutation_in _ PG). exact Hk.
  Qed.

  Lemma NoDup_app_l {B} (a b : list B) : NoDup (a ++ b) -> NoDup a.
  Proof. induction a as [|x a IH]; [constructor|]. cbn. intros H. apply NoDup_cons_iff in H as [N H]. constructor; [intros C; apply N, in_or_app; auto|auto]. Qed.
  (** The visits *)
  Lemma visits_spec n ids to its : visits h n ids to its -> n <= to /\ exists rest, ids = map it_id its ++ rest /\
    (forall it, In it its -> exists j, n <= j <= to /\ In it (a_items (h j))) /\ match rest with [] => True | x :: _ => forall kv, ~ stored_at h to x kv end.
  Proof.
    induction 1 as [n|n m x r it to its L E V (LE & rest & IH1 & IH2 & IH3)|n m x r L E].
    - split; [lia|]. exists []. split; [reflexivity|]. split; [intros it []|exact Logic.I].
    - split; [lia|]. apply find_item_some in E as [HI <-]. exists rest. split; [cbn; f_equal; exact IH1|]. split; [|exact IH3].
      intros it' [<- | H]; [exists m; split; [lia|exact HI]|]. destruct (IH2 it' H) as (j & B & Hj). exists j. split; [lia|exact Hj].
    - split; [exact L|]. exists (x :: r). split; [reflexivity|]. split; [intros it []|]. intros kv (it & HI & EI & _). apply find_item_none in E. apply E. rewrite <- EI. apply in_map, HI.
  Qed.

  (** What is visited was there during the match and matches, and is visited once *)
  Lemma match_found from to its : match_run h readable mq from to its ->
    NoDup (map it_id its) /\ forall it, In it its -> match_holds mq (it_kv it) /\ exists n, from <= n /\ n <= to /\ In it (a_items (h n)).
  Proof.
    intros [keys mid kl kl' groups ids PK KR PL EP F2 V]. assert (LE := keys_mono _ _ _ _ KR). destruct (ids_spec _ _ _ _ _ _ _ PK KR PL EP F2) as (N & FD & _).
    apply visits_spec in V as (LV & rest & EI & HV & _). rewrite EI in N. split; [exact (NoDup_app_l _ _ N)|].
    intros it HI. destruct (HV it HI) as (j & B & Hj). split; [|exists j; split; [lia|split; [lia|exact Hj]]].
    destruct (FD (it_id it)) as (j' & kv & _ & ST & M); [rewrite EI; apply in_or_app; left; apply in_map, HI|].
    rewrite (same_kv j j' (it_id it) (it_kv it) kv); [exact M|exists it; auto|exact ST].
  Qed.
  (** What is there all the time and matches is visited, if nothing that matches goes away meanwhile *)
  Lemma match_stored from to its x kv : match_run h readable mq from to its -> none_leaves h from to mq ->
    (forall n, from <= n -> n <= to -> stored_at h n x kv) -> match_holds mq kv -> exists it, In it its /\ it_id it = x /\ it_kv it = kv.
  Proof.
    intros [keys mid kl kl' groups ids PK KR PL EP F2 V] NL ST M. assert (LE := keys_mono _ _ _ _ KR). destruct (ids_spec _ _ _ _ _ _ _ PK KR PL EP F2) as (N & FD & SF).
    apply visits_spec in V as (LV & rest & EI & HV & HR). assert (HX : In x (concat ids)) by (apply (SF x kv); [intros j B; apply ST; lia|exact M]).
    destruct rest as [|y rest].
    - rewrite EI, app_nil_r in HX. apply in_map_iff in HX as (it & <- & HI). exists it. split; [exact HI|]. split; [reflexivity|]. destruct (HV it HI) as (j & B & Hj).
      apply (same_kv j from (it_id it)); [exists it; auto|apply ST; lia].
    - exfalso. destruct (FD y) as (j & kv' & B & S & M'); [rewrite EI; apply in_or_app; right; left; reflexivity|]. apply (HR kv'). apply (NL j to y kv'); auto; lia.
  Qed.
End Match.
