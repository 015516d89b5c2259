(** Concurrent increments respect the limit while no lock is lost. *)
From Coq Require Import Permutation SpecFloat.
From Verif Require Import Datatypes SpecValues DatatypesProofs PropLemmasValues Collections SpecCollections CollectionsProofs Query SpecQuery QueryProofs
  Assoc SpecAssoc AssocMaps AssocProofs AssocQueryProofs AssocOps AssocMatchProofs PropLemmasAssoc OneToMany SpecOneToMany OneToManyProofs
  Limiter SpecLimiter LimiterProofs LimiterCounts LimiterLimits LimiterSums PropLemmasLimiter LimiterLocks SpecLocks LocksProofs.
Local Open Scope Z_scope.

Definition limits_ok (kv : KeyValues) (limits : list (list string * Z)) : Prop :=
  forall keys l, In (keys, l) limits -> exists g', keys = kv_keys g' /\ kv_rep g' /\ g' <> [] /\ covers g' kv.
Definition guard (g : KeyValues) (limit : Z) (limits : list (list string * Z)) : Prop := In (kv_keys g, limit) limits \/ exists keys, In (keys, 0) limits.
Definition holds_all (th : thread) : Prop := forall k, In k (kv_keys (th_kv th)) -> In k (th_held th).
Definition gat (g : KeyValues) (limit sum : Z) (th : thread) : Prop :=
  match th_at th with
  | PLock limits _ => g <> [] /\ limits_ok (th_kv th) limits /\ guard g limit limits
  | PCheck limits => g <> [] /\ holds_all th /\ limits_ok (th_kv th) limits /\ (guard g limit limits \/ sum < limit)
  | PAdd => g <> [] /\ holds_all th /\ sum < limit
  | _ => True
  end.
Definition critical (th : thread) : Prop := match th_at th with PCheck _ | PAdd => True | _ => False end.
Lemma gat_mono g limit sum sum' th : gat g limit sum th -> sum' <= sum -> gat g limit sum' th.
Proof. unfold gat. destruct (th_at th); auto; intuition lia. Qed.
Lemma gat_quiet g limit sum sum' th : gat g limit sum th -> ~ critical th -> gat g limit sum' th.
Proof. unfold gat, critical. destruct (th_at th); tauto. Qed.
Lemma gat_crit g limit sum th : gat g limit sum th -> critical th -> g <> [] /\ holds_all th.
Proof. unfold gat, critical. destruct (th_at th); tauto. Qed.
Record ginv (g kv : KeyValues) (limit most : Z) (st : cstate) : Prop := {
  gi_c : cinv st;
  gi_ok : group_ok g kv (limit + most - 1) (c_lim st);
  gi_lost : forall i th, nth_error (c_threads st) i = Some th -> th_lost th = false;
  gi_at : forall i th, nth_error (c_threads st) i = Some th -> in_group g kv (th_kv th) ->
            th_n th <= most /\ gat g limit (gsum (l_counts (c_lim st)) g kv) th
}.
Lemma one_critical g kv limit most st i j thi thj : ginv g kv limit most st -> nth_error (c_threads st) i = Some thi -> nth_error (c_threads st) j = Some thj -> i <> j ->
  in_group g kv (th_kv thi) -> in_group g kv (th_kv thj) -> critical thi -> critical thj -> False.
Proof.
  intros G Hi Hj NE Gi Gj Ci Cj. destruct (gat_crit _ _ _ _ (proj2 (gi_at _ _ _ _ _ G i thi Hi Gi)) Ci) as [N Ai]. destruct (gat_crit _ _ _ _ (proj2 (gi_at _ _ _ _ _ G j thj Hj Gj)) Cj) as [_ Aj].
  destruct g as [|[k m] g']; [congruence|]. destruct (Gi k (or_introl eq_refl)) as (v & vi & E & Ei & Si). destruct (Gj k (or_introl eq_refl)) as (w & vj & F & Ej & Sj).
  rewrite E in F. injection F as <-.
  assert (Ki : In k (th_held thi)). { apply Ai. apply in_map_iff. exists (k, vi). split; [reflexivity|]. apply kv_get_In. exact Ei. }
  assert (Kj : In k (th_held thj)). { apply Aj. apply in_map_iff. exists (k, vj). split; [reflexivity|]. apply kv_get_In. exact Ej. }
  apply (ci_excl _ (gi_c _ _ _ _ _ G) i j thi thj k Hi Hj NE Ki). split; [exact Kj|]. rewrite (value_of_get _ _ _ Ei), (value_of_get _ _ _ Ej).
  eapply same_value_trans; [exact Sj|]. apply same_value_sym. exact Si.
Qed.
Lemma begin_gat s used g kv limit th : linv s used -> tinv th -> th_at th = PStart -> in_group g kv (th_kv th) -> 0 <= limit -> governs s (th_kv th) g limit ->
  gat g limit (gsum (l_counts s) g kv) (moved th (begin_at s (th_kv th))).
Proof.
  intros L T HA HG L0 GOV. destruct (governs_rep s used _ _ _ L GOV) as (_ & GN & _).
  destruct (limits_complete s used (th_kv th) L (ti_kv th T)) as (rs & E & A & B). unfold begin_at. rewrite E.
  destruct rs as [|r rs']. { destruct (B eq_refl g limit GOV) as [[] | (k & [])]. }
  remember (r :: rs') as rs eqn:ER. clear ER r rs'.
  destruct (last_is_zero rs) eqn:LZ; [exact I|]. specialize (B eq_refl g limit GOV).
  destruct (all_unlimited rs) eqn:AU.
  { unfold all_unlimited in AU. rewrite forallb_forall in AU. destruct B as [H | (keys & H)]; specialize (AU _ H); apply Z.eqb_eq in AU; cbn in AU; lia. }
  cbn. split; [exact GN|]. split; [|exact B]. intros keys l H. destruct (A keys l H) as (g' & HG' & ->). exists g'. split; [reflexivity|].
  destruct (governs_rep s used _ _ _ L HG') as (? & ? & ? & _). auto.
Qed.
Lemma check_gat s used g kv limit th limits : linv s used -> tinv th -> counts_fit s -> kv_rep kv -> 0 <= limit -> th_at th = PCheck limits -> in_group g kv (th_kv th) ->
  gat g limit (gsum (l_counts s) g kv) th -> gat g limit (gsum (l_counts s) g kv) (moved th (check_one (l_counts s) (th_kv th) limits)).
Proof.
  intros L T CF R L0 HA HG GT. unfold gat in GT. rewrite HA in GT. destruct GT as (N & HH & OK & GD).
  destruct limits as [|[keys l] r].
  - cbn. split; [exact N|]. split; [exact HH|]. destruct GD as [[[] | (k & [])] | H]; exact H.
  - assert (OK' : limits_ok (th_kv th) r) by (intros a b H; apply (OK a b); right; exact H).
    cbn [check_one]. destruct (l =? -1) eqn:EL.
    + apply Z.eqb_eq in EL. cbn. split; [exact N|]. split; [exact HH|]. split; [exact OK'|]. destruct GD as [[[E | H] | (k & [E | H])] | H]; [injection E as _ E; lia|left; left; exact H|injection E as _ E; lia|left; right; eauto|right; exact H].
    + destruct (OK keys l (or_introl eq_refl)) as (g' & -> & G1 & G2 & G3). rewrite (check_spec s used g' (th_kv th) l L CF (ti_kv th T) G1 G2 G3).
      destruct (l <=? gsum (l_counts s) g' (th_kv th)) eqn:ES; cbn [negb]; [exact I|]. apply Z.leb_gt in ES.
      cbn. split; [exact N|]. split; [exact HH|]. split; [exact OK'|].
      destruct GD as [[[E | H] | (k & [E | H])] | H]; [injection E as EK ->|left; left; exact H|injection E as _ ->|left; right; eauto|right; exact H].
      * right. rewrite <- (gsum_same s used g kv (th_kv th) L R (proj1 (counter_rep _ (ti_kv th T))) HG). unfold gsum in *. rewrite <- EK. exact ES.
      * pose proof (gsum_nonneg (l_counts s) g' (th_kv th) (proj1 CF)). lia.
Qed.
Lemma gi_step_same g kv limit most s used ts s' used' i th th' : ginv g kv limit most (mkC s used ts) -> nth_error ts i = Some th -> cinv (mkC s' used' (set_thread ts i th')) ->
  group_ok g kv (limit + most - 1) s' -> gsum (l_counts s') g kv <= gsum (l_counts s) g kv -> th_kv th' = th_kv th -> th_n th' = th_n th -> th_lost th' = th_lost th ->
  (in_group g kv (th_kv th) -> gat g limit (gsum (l_counts s') g kv) th') -> ginv g kv limit most (mkC s' used' (set_thread ts i th')).
Proof.
  intros G HN C OK LE EK EN EL GT. pose proof (nth_some_lt _ _ _ HN) as LT. constructor; cbn [c_lim c_used c_threads]; auto.
  - intros j thj H. rewrite nth_set in H by exact LT. destruct (Nat.eq_dec j i); [|eapply (gi_lost _ _ _ _ _ G); eauto]. injection H as <-. rewrite EL. eapply (gi_lost _ _ _ _ _ G); eauto.
  - intros j thj H HG. rewrite nth_set in H by exact LT. destruct (Nat.eq_dec j i) as [-> | NE].
    + injection H as <-. rewrite EK in HG. destruct (gi_at _ _ _ _ _ G i th HN HG) as [H1 _]. split; [lia|auto].
    + destruct (gi_at _ _ _ _ _ G j thj H HG) as [H1 H2]. split; [exact H1|]. eapply gat_mono; [exact H2|exact LE].
Qed.
Lemma crun_inv g kv limit most st : counter_kv kv -> 0 <= limit -> 0 < most -> limit + most <= 2 ^ 63 -> crun g kv limit most st -> ginv g kv limit most st.
Proof.
  intros CK L0 M LM. destruct (counter_rep kv CK) as [R _]. induction 1 as [s used RS P T|st l st' RUN IH ST HARR HLOSE HGOV HFIT HSET].
  - assert (L : linv s used) by (apply lreach_inv; exact RS). constructor; cbn [c_lim c_used c_threads].
    + constructor; cbn; [exact L|intros [|i] th [=]|intros [|i] j a b k [=]].
    + split; [exact P|]. apply T. apply (group_total_iff s used); auto.
    + intros [|i] th [=].
    + intros [|i] th [=].
  - pose proof (cstep_inv _ _ _ (gi_c _ _ _ _ _ IH) ST) as C'.
    destruct ST as [s used ts kv' n CK' N P|s used ts i id th s' th' HN F TS|s used ts x HA HF HU|s used ts i k th HN HK].
    + constructor; [exact C'|exact (gi_ok _ _ _ _ _ IH)| |]; cbn [c_lim c_used c_threads].
      * intros j thj H. apply nth_snoc in H as [H | (_ & ->)]; [eapply (gi_lost _ _ _ _ _ IH); eauto|reflexivity].
      * intros j thj H HG. apply nth_snoc in H as [H | (_ & ->)]; [apply (gi_at _ _ _ _ _ IH j); auto|]. cbn in *. split; [eauto|exact I].
    + pose proof (gi_c _ _ _ _ _ IH) as C. pose proof (ci_lim _ C) as L. cbn [c_lim c_used] in L. pose proof (ci_threads _ C i th HN) as T. cbn [c_threads c_lim] in *.
      pose proof (gi_lost _ _ _ _ _ IH i th HN) as LO. cbn [c_threads] in LO.
      specialize (HGOV i id th eq_refl HN). pose proof (fun limits => HFIT i id th limits eq_refl HN) as HFIT'. clear HFIT HARR HLOSE HSET.
      destruct (tstep_held _ _ _ _ _ _ _ TS) as (E1 & E2 & E3 & _).
      assert (OK0 := gi_ok _ _ _ _ _ IH). cbn [c_lim] in OK0.
      destruct TS as [HA|limits k todo HA HL HFR|limits HA HL|limits todo HA HL|limits HA|HA|a k r HA HH|a HA HH].
      * eapply gi_step_same; eauto; [lia|]. intros HG. eapply begin_gat; eauto.
      * eapply gi_step_same; eauto; [lia|]. intros HG. destruct (gi_at _ _ _ _ _ IH i th HN HG) as [_ GT]. unfold gat in *. rewrite HA in GT. exact GT.
      * eapply gi_step_same; eauto; [lia|]. intros HG. destruct (gi_at _ _ _ _ _ IH i th HN HG) as [_ GT]. unfold gat in *. rewrite HA in GT. cbn. destruct GT as (G1 & G2 & G3).
        split; [exact G1|]. split; [|split; [exact G2|left; exact G3]]. intros k Hk. pose proof (ti_all th T LO) as A. rewrite HA in A. destruct (A k Hk) as [X | []]; exact X.
      * eapply gi_step_same; eauto; [lia|]. intros HG. exact I.
      * eapply gi_step_same; eauto; [lia|]. intros HG. destruct (gi_at _ _ _ _ _ IH i th HN HG) as [_ GT]. eapply check_gat; eauto.
      * destruct (group_dec g kv (th_kv th) R (proj1 (counter_rep _ (ti_kv th T)))) as [HG | HG].
        { destruct (gi_at _ _ _ _ _ IH i th HN HG) as [NM GT]. unfold gat in GT. rewrite HA in GT. destruct GT as (_ & _ & LTL). cbn [c_lim] in LTL. destruct (ti_n th T) as [NP NI].
          destruct (add_ok g kv limit most s used (th_kv th) (th_n th) id R M LM L OK0 (ti_kv th T) NI (conj NP NM) (proj1 F) (proj2 F) HG LTL) as [_ AO].
          pose proof (nth_some_lt _ _ _ HN) as LT. constructor; cbn [c_lim c_used c_threads]; auto.
          - intros j thj H. rewrite nth_set in H by exact LT. destruct (Nat.eq_dec j i); [injection H as <-; exact LO|eapply (gi_lost _ _ _ _ _ IH); eauto].
          - intros j thj H HGj. rewrite nth_set in H by exact LT. destruct (Nat.eq_dec j i) as [-> | NE].
            + injection H as <-. split; [exact NM|exact I].
            + destruct (gi_at _ _ _ _ _ IH j thj H HGj) as [H1 H2]. split; [exact H1|]. eapply gat_quiet; [exact H2|]. intros CR.
              eapply (one_critical g kv limit most _ i j th thj IH HN H); auto. unfold critical. rewrite HA. exact I. }
        { assert (AO : forall bound, group_ok g kv bound s -> group_ok g kv bound (with_counts s (fst (add_count (l_counts s) (th_kv th) (th_n th) id)))).
          { intros bound OB. apply add_out with (used := used); auto; [apply T|apply F|apply F]. }
          eapply gi_step_same; eauto; [|intros HG'; contradiction].
          apply (proj2 (AO (gsum (l_counts s) g kv) (conj (proj1 OK0) (Z.le_refl _)))). }
      * eapply gi_step_same; eauto; [lia|]. intros HG. exact I.
      * eapply gi_step_same; eauto; [lia|]. intros HG. exact I.
    + pose proof (gi_c _ _ _ _ _ IH) as C. pose proof (ci_lim _ C) as L. cbn [c_lim c_used] in L. assert (OK0 := gi_ok _ _ _ _ _ IH). cbn [c_lim] in OK0.
      assert (Q : forall bound, group_ok g kv bound s -> group_ok g kv bound (fst (lrun s x))).
      { intros bound OB. eapply quiet_step; eauto.
        - intros kv' n id locked E NP. specialize (HU kv' n id locked E). lia.
        - intros kv' n id ->. eauto. }
      constructor; [exact C'|apply Q; exact OK0|exact (gi_lost _ _ _ _ _ IH)|]; cbn [c_lim c_used c_threads].
      intros j thj H HG. destruct (gi_at _ _ _ _ _ IH j thj H HG) as [H1 H2]. split; [exact H1|]. eapply gat_mono; [exact H2|].
      apply (proj2 (Q (gsum (l_counts s) g kv) (conj (proj1 OK0) (Z.le_refl _)))).
    + exfalso. apply (HLOSE i k). reflexivity.
Qed.
Lemma c32_concurrent g kv limit most st : counter_kv kv -> 0 <= limit -> 0 < most -> limit + most <= 2 ^ 63 -> crun g kv limit most st ->
  forall total, group_total (c_lim st) g kv total -> 0 <= total <= limit + most - 1.
Proof.
  intros C L0 M LM RUN total T. destruct (counter_rep kv C) as [R _]. pose proof (crun_inv g kv limit most st C L0 M LM RUN) as G.
  pose proof (ci_lim _ (gi_c _ _ _ _ _ G)) as L. apply (group_total_iff _ _ g kv total L R) in T. subst total. destruct (gi_ok _ _ _ _ _ G) as [P B]. split; [|exact B].
  apply sum_nonneg. intros i Hi. apply filter_In in Hi as [Hi HG]. apply P; [exact Hi|]. apply in_groupb_iff in HG; auto. apply counter_rep. apply (li_count _ _ L i Hi).
Qed.
