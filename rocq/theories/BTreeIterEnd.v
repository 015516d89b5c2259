(** Calls and lookups of one tree all come to an end. *)
From Coq Require Import Sorted Permutation ZifyBool ZifyNat.
From Verif Require Import Datatypes SpecValues DatatypesProofs BTree SpecBTree BTreeProofs BTreeFind SpecFind BTreeFindProofs
  BTreeSync SpecBTreeSync BTreeSyncSeq BTreeSyncInv BTreeSyncStep BTreeSyncStep3 BTreeSyncCount BTreeSyncCount2 BTreeSyncSem BTreeSyncTop BTreeSyncTop2 BTreeSyncLin BTreeSyncLive BTreeSyncEnd
  BTreeIter SpecBTreeIter BTreeIterEr BTreeIterTk BTreeIterVisit BTreeIterSees BTreeIterInv BTreeIterStep BTreeIterLocks.
Local Open Scope nat_scope.

Lemma has_way_descents q : (let '(w, key, tr) := q in key_allowed w key /\ tr_validate tr = true) -> has_way q -> descents q <> [].
Proof.
  destruct q as [[w key] tr]. intros [[Gk Ka] Tv] H. cbn [descents has_way] in *.
  pose proof (well_typed_tag _ _ (proj1 Gk)) as Kt. apply known_tag_dec in Kt.
  destruct w; try discriminate.
  - destruct (GeneralDataTypes (ev_type key)) eqn:E.
    + destruct H as [->|[H|H]].
      * discriminate E.
      * unfold in_types in H. replace (Z.ltb (ev_type key) (tr_min tr)) with false by lia. replace (Z.ltb (tr_max tr) (ev_type key)) with false by lia. discriminate.
      * rewrite H. change (Z.eqb T_any T_any) with true. cbv iota. intros X. apply app_eq_nil in X as [_ X]. discriminate.
    + rewrite Bool.orb_false_r in Kt. rewrite Kt. discriminate.
  - intros X. apply app_eq_nil in X as [X1 X2]. destruct (Z.ltb_spec (ev_type key) (tr_min tr)); [|discriminate]. destruct H as [H|H]; [lia|]. rewrite H in X2. discriminate.
  - intros X. apply app_eq_nil in X as [X1 X2]. destruct (Z.ltb_spec (ev_type key) (tr_min tr)); [|discriminate]. destruct H as [H|H]; [lia|]. rewrite H in X2. discriminate.
  - destruct (Z.ltb_spec (tr_max tr) (ev_type key)); [lia|discriminate].
  - destruct (Z.ltb_spec (tr_max tr) (ev_type key)); [lia|discriminate].
Qed.

Section Y.
  Context {V : Type}.
  Variable n : nat.
  Variable ops : nat -> cop V.
  Variable lks : nat -> lookup * EV * TypeRestrictions.
  Notation bops := (bops ops).
  Notation xinv := (xinv n ops lks).

  Definition lower (G : nat -> node V) (a b : nat) : Prop := hgt (G a) <= hgt (G b).

  (** Every odd name in the tree is a lock that one lookup holds; the locks lowest in the tree come first. *)
  Record yinv (G : nat -> node V) (s : xstate V) : Prop := {
    y_one : forall z, Nat.odd z = true -> tcs z (root (xs s)) <= 1;
    y_has : forall z, Nat.odd z = true -> 0 < tcs z (root (xs s)) <-> exists j, In z (held_of (xi s j));
    y_odd : forall j z, In z (held_of (xi s j)) -> Nat.odd z = true;
    y_nd : forall j, NoDup (held_of (xi s j));
    y_dj : forall i j z, In z (held_of (xi s i)) -> In z (held_of (xi s j)) -> i = j;
    y_srt : forall j, StronglySorted (lower G) (held_of (xi s j));
    y_top : forall j, holds_tree (xi s j) = true -> top (xs s) = TFree
  }.

  Lemma count0 ys z : ~ In z ys -> count_occ Nat.eq_dec ys z = 0.
  Proof. apply count_occ_not_In. Qed.
  Lemma count1 ys z : NoDup ys -> In z ys -> count_occ Nat.eq_dec ys z = 1.
  Proof.
    intros N H. pose proof (proj1 (NoDup_count_occ Nat.eq_dec ys) N z). apply (count_occ_In Nat.eq_dec) in H. lia.
  Qed.
  Lemma nodup_tail {A} (l l' : list A) : NoDup (l ++ l') -> NoDup l'.
  Proof. induction l as [|x l IH]; [auto|]. cbn [app]. intros H. apply NoDup_cons_iff in H as [_ H]. auto. Qed.
  Lemma fresh_tcs (s : xstate V) x : new_name s x -> tcs x (root (xs s)) = 0.
  Proof.
    intros (_ & H & _). destruct (root (xs s)) as [t|] eqn:R; [|reflexivity]. cbn [tcs]. specialize (H t eq_refl). rewrite tc_in in H. lia.
  Qed.
  Lemma sorted_ext G G' l : (forall y, In y l -> G' y = G y) -> StronglySorted (lower G) l -> StronglySorted (lower G') l.
  Proof.
    intros E H. induction H as [|a l S IH F]; [constructor|]. constructor.
    - apply IH. intros y Hy. apply E. right. exact Hy.
    - rewrite Forall_forall in *. intros y Hy. unfold lower. rewrite (E a (or_introl eq_refl)), (E y (or_intror Hy)). apply F, Hy.
  Qed.

  (** A lookup gives back the locks [xs0] and takes the locks [ys] *)
  Lemma y_move G G' s j p root' xs0 ys held : yinv G s ->
    held_of (xi s j) = xs0 ++ held -> held_of p = ys ++ held -> (forall z, Nat.odd z = true -> tcs z root' + count_occ Nat.eq_dec xs0 z = tcs z (root (xs s)) + count_occ Nat.eq_dec ys z) ->
    NoDup ys -> Forall (new_name s) ys -> (forall z, ~ In z ys -> G' z = G z) -> StronglySorted (lower G') (ys ++ held) ->
    (holds_tree p = true -> top (xs s) = TFree) ->
    yinv G' (mkX (with_root (xs s) root') (set_xi (xi s) j p)).
  Proof.
    intros Y Ex Ep Ct Nd Nn Eg Sr Tp. rewrite Forall_forall in Nn.
    assert (Hj : forall i z, In z (held_of (set_xi (xi s) j p i)) <-> (i = j /\ In z (ys ++ held)) \/ (i <> j /\ In z (held_of (xi s i)))).
    { intros i z. destruct (Nat.eq_dec i j) as [->|N]; [rewrite set_xi_same, Ep|rewrite set_xi_other by exact N]; tauto. }
    assert (Nx : forall z, In z held -> ~ In z xs0).
    { pose proof (y_nd _ _ Y j) as N. rewrite Ex in N. intros z H1 H2. apply in_split in H2 as (a & b & ->). rewrite <- app_assoc in N. apply NoDup_remove_2 in N. apply N.
      apply in_or_app. right. apply in_or_app. right. exact H1. }
    assert (Ny : forall i z, In z ys -> ~ In z (held_of (xi s i))) by (intros i z Hz; apply (proj2 (proj2 (Nn z Hz)))).
    constructor; cbn [xs xi with_root root top].
    - intros z Oz. specialize (Ct z Oz). pose proof (y_one _ _ Y z Oz) as O1. destruct (in_dec Nat.eq_dec z ys) as [I|I].
      + rewrite (fresh_tcs s z (Nn z I)), (count1 _ _ Nd I) in Ct. lia.
      + rewrite (count0 _ _ I) in Ct. lia.
    - intros z Oz. specialize (Ct z Oz). pose proof (y_one _ _ Y z Oz) as O1. pose proof (y_has _ _ Y z Oz) as O2. split.
      + intros H. destruct (in_dec Nat.eq_dec z ys) as [I|I].
        * exists j. apply Hj. left. split; [reflexivity|]. apply in_or_app. left. exact I.
        * rewrite (count0 _ _ I) in Ct. destruct (proj1 O2) as [i Hi]; [lia|]. exists i. apply Hj. destruct (Nat.eq_dec i j) as [->|N]; [left|right; auto].
          split; [reflexivity|]. rewrite Ex in Hi. apply in_app_iff in Hi as [Hi|Hi]; [|apply in_or_app; right; exact Hi].
          apply (count_occ_In Nat.eq_dec) in Hi. lia.
      + intros [i Hi]. apply Hj in Hi as [[-> Hi]|[N Hi]].
        * apply in_app_iff in Hi as [Hi|Hi].
          -- rewrite (count1 _ _ Nd Hi) in Ct. rewrite (count0 xs0 z) in Ct; [lia|]. intros Z. apply (Ny j z Hi). rewrite Ex. apply in_or_app. left. exact Z.
          -- rewrite (count0 xs0 z (Nx z Hi)) in Ct. assert (0 < tcs z (root (xs s))); [|lia]. apply O2. exists j. rewrite Ex. apply in_or_app. right. exact Hi.
        * rewrite (count0 xs0 z) in Ct.
          -- assert (0 < tcs z (root (xs s))) by (apply O2; eauto). lia.
          -- intros Z. apply N. apply (y_dj _ _ Y i j z Hi). rewrite Ex. apply in_or_app. left. exact Z.
    - intros i z H. apply Hj in H as [[_ H]|[_ H]]; [|eapply y_odd; eauto]. apply in_app_iff in H as [H|H]; [apply (Nn z H)|].
      apply (y_odd _ _ Y j). rewrite Ex. apply in_or_app. right. exact H.
    - intros i. destruct (Nat.eq_dec i j) as [->|N]; [rewrite set_xi_same, Ep|rewrite set_xi_other by exact N; apply Y].
      pose proof (y_nd _ _ Y j) as N. rewrite Ex in N. apply nodup_tail in N.
      assert (D : forall z, In z ys -> ~ In z held) by (intros z Hz Z; apply (Ny j z Hz); rewrite Ex; apply in_or_app; right; exact Z).
      clear - Nd N D. induction ys as [|y ys IH]; [exact N|]. cbn [app]. apply NoDup_cons_iff in Nd as [N1 N2]. constructor.
      + intros Z. apply in_app_iff in Z as [Z|Z]; [exact (N1 Z)|]. exact (D y (or_introl eq_refl) Z).
      + apply IH; [exact N2|]. intros z Hz. apply D. right. exact Hz.
    - assert (Dj : forall i z, i <> j -> In z (held_of (xi s i)) -> ~ In z (ys ++ held)).
      { intros i z N H Z. apply in_app_iff in Z as [Z|Z]; [exact (Ny i z Z H)|]. apply N, (y_dj _ _ Y i j z H). rewrite Ex. apply in_or_app. right. exact Z. }
      intros i k z H1 H2. apply Hj in H1 as [[-> H1]|[N1 H1]]; apply Hj in H2 as [[-> H2]|[N2 H2]]; auto.
      + destruct (Dj k z N2 H2 H1).
      + destruct (Dj i z N1 H1 H2).
      + eapply y_dj; eauto.
    - intros i. destruct (Nat.eq_dec i j) as [->|N]; [rewrite set_xi_same, Ep; exact Sr|rewrite set_xi_other by exact N].
      apply (sorted_ext G); [|apply Y]. intros y Hy. apply Eg. intros Z. exact (Ny i y Z Hy).
    - intros i. destruct (Nat.eq_dec i j) as [->|N]; [rewrite set_xi_same; exact Tp|rewrite set_xi_other by exact N; apply Y].
  Qed.

  Lemma y_same G s j p : yinv G s -> held_of (xi s j) = [] -> held_of p = [] -> (holds_tree p = true -> top (xs s) = TFree) ->
    yinv G (mkX (xs s) (set_xi (xi s) j p)).
  Proof.
    intros Y E1 E2 T. pose proof (y_move G G s j p (root (xs s)) [] [] [] Y E1 E2) as H. rewrite same_root in H. apply H; auto; constructor.
  Qed.

  Lemma y_base tr s G L M Lx e s' : xinv tr s G L M Lx -> yinv G s -> step n bops (xs s) e s' ->
    (forall j c, holds_tree (xi s j) = true -> top s' <> TWait c) -> yinv G (mkX s' (xi s)).
  Proof.
    intros X Y St Tw. pose proof (x_g _ _ _ _ _ _ _ _ _ X) as Gi. pose proof (x_odd _ _ _ _ _ _ _ _ _ X) as Od.
    pose proof (trs_even n ops _ _ _ _ Gi Od) as Te.
    constructor; cbn [xs xi]; try apply Y.
    - intros z Oz. rewrite (step_tc n ops _ _ _ _ _ _ z Oz St Gi Te). apply Y, Oz.
    - intros z Oz. rewrite (step_tc n ops _ _ _ _ _ _ z Oz St Gi Te). apply Y, Oz.
    - intros j Hj. destruct (step_top n ops _ _ _ St (y_top _ _ Y j Hj)) as [T|[c T]]; [exact T|]. destruct (Tw j c Hj T).
  Qed.

  (** ** The measure of a lookup *)
  Definition big : nat := n + 2.
  Definition tall (s : state V) : nat := match root s with Some t => adepth t | None => 0 end.
  Definition cost (G : nat -> node V) (held : list nat) : nat := lsum (map (fun y => big ^ hgt (G y)) held).
  Definition mu (h : nat) (G : nat -> node V) (j : nat) (p : iphase V) : nat :=
    match p with
    | INew | IRet _ _ => 0
    | IDone _ _ => 1
    | IWant => length (descents (lks j)) * (big ^ h + 3) + 3
    | IHold rest _ => length rest * (big ^ h + 3) + 2
    | IDown _ rest held _ => cost G held + length rest * (big ^ h + 3) + 3
    end.
  Lemma mu_ext h G G' j p : (forall y, In y (held_of p) -> G' y = G y) -> mu h G' j p = mu h G j p.
  Proof.
    intros E. destruct p; cbn [mu held_of] in *; try reflexivity. f_equal. f_equal. unfold cost. f_equal. apply map_ext_in. intros y Hy. rewrite E by exact Hy. reflexivity.
  Qed.

  (** What a step that is no call does to the measures *)
  Definition down (s s' : xstate V) (G G' : nat -> node V) : Prop :=
    (xi s' = xi s /\ G' = G /\
      ((exists c p, ph (xs s') = set_ph (ph (xs s)) c p /\ rank p < rank (ph (xs s) c)) \/
       (ph (xs s') = ph (xs s) /\ weight (er_state (xs s')) < weight (er_state (xs s))))) \/
    (er_state (xs s') = er_state (xs s) /\ exists j p, xi s' = set_xi (xi s) j p /\
      (forall i y, i <> j -> In y (held_of (xi s i)) -> G' y = G y) /\ mu (tall (er_state (xs s))) G' j p < mu (tall (er_state (xs s))) G j (xi s j)).

  Hypothesis Hn : 2 <= n.
  Hypothesis Hg : good_calls ops.
  Hypothesis Hl : good_lookups lks.

  Lemma xy_step tr s G L M Lx e s' : xinv tr s G L M Lx -> yinv G s -> xstep n ops lks s e s' ->
    exists G' L' M' Lx', xinv (match e with Some x => tr ++ [x] | None => tr end) s' G' L' M' Lx' /\ yinv G' s' /\
      ((forall c, e <> Some (EB (ECall c))) -> (forall j, e <> Some (ELCall j)) -> down s s' G G').
  Proof using Hn Hg Hl.
    intros X Y St. pose proof (x_g _ _ _ _ _ _ _ _ _ X) as Gi. destruct St.
    - destruct (base_step n ops lks Hn Hg _ _ _ _ _ _ _ _ X H H0 H1) as (L' & M' & Lx' & X'). exists G, L', M', Lx'. split; [exact X'|]. split; [eapply y_base; eauto|].
      intros N1 _. left. cbn [xi xs]. split; [reflexivity|]. split; [reflexivity|].
      pose proof (x_odd _ _ _ _ _ _ _ _ _ X) as Od. pose proof (trs_even n ops _ _ _ _ Gi Od) as Te.
      pose proof (er_step n ops _ _ _ H Od Te) as Se.
      assert (Ne : forall c, e <> Some (ECall c)) by (intros c ->; exact (N1 c eq_refl)).
      exact (step_down n bops _ _ _ Hn (good_bops ops Hg) Se Ne _ _ _ Gi).
    - exists G, L, M, Lx. split; [eauto using call_lk|]. split; [apply y_same; auto; [rewrite H; reflexivity|discriminate]|].
      intros _ N. destruct (N j eq_refl).
    - pose proof (rlock_lk n ops lks Hl _ _ _ _ _ _ _ X H H0) as X'. exists G, L, M, (Lx ++ [OLook j M]). split; [exact X'|].
      split; [apply y_same; auto; rewrite H; reflexivity|]. intros _ _. right. split; [reflexivity|]. exists j. eexists. split; [reflexivity|]. split; [auto|].
      rewrite H. cbn [mu]. lia.
    - exists G, L, M, Lx. split; [eauto using nil_lk|]. split; [apply y_same; auto; [rewrite H; reflexivity|discriminate]|].
      intros _ _. right. split; [reflexivity|]. exists j. eexists. split; [reflexivity|]. split; [auto|]. rewrite H. cbn [mu]. lia.
    - pose proof (root_lk n ops lks _ _ _ _ _ _ _ _ _ _ _ _ _ _ X H H0 H1) as X'.
      exists (upd G x (P n bops (ANode MFree rs vs ks))), L, M, Lx. split; [exact X'|]. split.
      + apply (y_move G _ s j _ _ [] [x] []); auto.
        * rewrite H. reflexivity.
        * intros z Oz. rewrite H0. cbn [tcs]. rewrite !tc_node. cbn [count_occ]. destruct (Nat.eq_dec x z); lia.
        * repeat constructor. intros [].
        * intros z Hz. apply upd_other. intros ->. apply Hz. left. reflexivity.
        * repeat constructor.
        * intros _. apply (y_top _ _ Y j). rewrite H. reflexivity.
      + intros _ _. right. split; [apply (er_same _ (ANode MFree rs vs ks)); [exact H0|]; cbn [er filter]; unfold even_name at 1; rewrite (proj1 H1); reflexivity|].
        exists j. eexists. split; [reflexivity|]. split; [intros i y _ Hy; apply upd_other; intros ->; exact (proj2 (proj2 H1) i Hy)|].
        rewrite H. cbn [mu length]. unfold cost. cbn [map lsum]. rewrite upd_same.
        pose proof (g_tree _ _ _ _ _ _ Gi) as I. unfold tall. cbn [er_state root] in *. rewrite H0 in *. cbn [option_map] in *. destruct I as [h I].
        rewrite (inv_depth n bops Hn _ _ _ _ I). cbn [er] in I. apply inv_plain in I.
        assert (EP : map (P n bops) (map er ks) = map (P n bops) ks) by (rewrite map_map; apply map_ext; intros; apply er_P). rewrite EP in I.
        rewrite P_free. destruct I as (B & _). rewrite (hgt_balanced n h _ B). lia.
    - exists G, L, M, Lx. split; [eauto using leak_lk|]. split; [apply y_same; auto; [rewrite H; reflexivity|]|].
      { intros _. apply (y_top _ _ Y j). rewrite H. reflexivity. }
      intros _ _. right. split; [reflexivity|]. exists j. eexists. split; [reflexivity|]. split; [auto|]. rewrite H. cbn [mu]. lia.
    - destruct (visit_lk n ops lks _ _ _ _ _ _ _ _ _ _ _ _ _ _ _ _ X H H0 H1 H2 H3) as (G' & E1 & E2 & E3 & X').
      assert (Ox : Nat.odd x = true) by (apply (y_odd _ _ Y j); rewrite H; left; reflexivity).
      pose proof (g_tree _ _ _ _ _ _ Gi) as I. cbn [er_state root] in I. rewrite H0 in I. cbn [option_map] in I. destruct I as [h I].
      pose proof (x_tk _ _ _ _ _ _ _ _ _ X) as T. rewrite H0 in T. cbn [tks] in T.
      destruct (vstep_node n ops G _ _ _ _ _ _ _ H1 Ox _ _ I T) as (Ly & k & B).
      assert (Hx : hgt (G x) = k) by (eapply hgt_balanced; eauto).
      assert (Hy : forall y, In y ys -> exists k', k = S k' /\ hgt (G' y) = k') by (intros y Hy; eapply hgt_kid; eauto).
      assert (Fr : forall y i, In y ys -> ~ In y (held_of (xi s i))) by (intros y i Q; rewrite Forall_forall in H3; apply (proj2 (proj2 (H3 y Q)))).
      assert (Eh : forall y, In y held -> G' y = G y).
      { intros y Q. apply E1. intros Z. apply (Fr y j Z). rewrite H. right. exact Q. }
      exists G', L, M, Lx. split; [exact X'|]. split.
      + apply (y_move G G' s j _ _ [x] ys held); auto.
        * rewrite H. reflexivity.
        * intros z Oz. rewrite H0. cbn [tcs]. pose proof (vstep_tc ops z _ _ _ _ _ _ H1) as C. cbn [count_occ]. unfold one in C.
          destruct (Nat.eq_dec x z) as [->|Nz]; [rewrite Nat.eqb_refl in C; lia|]. apply Nat.eqb_neq in Nz. rewrite Nz in C. lia.
        * pose proof (y_srt _ _ Y j) as S. rewrite H in S. cbn [held_of] in S. apply StronglySorted_inv in S as [S F]. rewrite Forall_forall in F.
          apply (sorted_ext G G') in S; [|exact Eh]. clear - S F Hy Hx Eh. induction ys as [|y ys IH]; [exact S|]. cbn [app].
          destruct (Hy y (or_introl eq_refl)) as (k' & Ek & Hk). constructor.
          -- apply IH. intros z Hz. apply Hy. right. exact Hz.
          -- rewrite Forall_forall. intros z Hz. unfold lower. rewrite Hk. apply in_app_iff in Hz as [Hz|Hz].
             ++ destruct (Hy z (or_intror Hz)) as (k2 & Ek2 & Hk2). lia.
             ++ rewrite (Eh z Hz). specialize (F z Hz). unfold lower in F. lia.
        * intros Ht. apply (y_top _ _ Y j). rewrite H. exact Ht.
      + intros _ _. right. split; [apply (er_same _ t); assumption|]. exists j. eexists. split; [reflexivity|].
        split; [intros i y Ni Q; apply E1; intros Z; exact (Fr y i Z Q)|]. rewrite H. cbn [mu].
        assert (Ch : cost G' held = cost G held) by (unfold cost; f_equal; apply map_ext_in; intros y Q; rewrite (Eh y Q); reflexivity).
        assert (Cy : cost G' (ys ++ held) = cost G' ys + cost G' held) by (unfold cost; rewrite map_app; apply lsum_app).
        assert (Cx : cost G (x :: held) = big ^ k + cost G held) by (unfold cost; cbn [map lsum]; rewrite Hx; reflexivity).
        rewrite Cy, Cx, Ch. assert (Cl : cost G' ys < big ^ k); [|lia].
        destruct ys as [|y0 ys0].
        * cbn. pose proof (Nat.pow_nonzero big k). unfold big in *. lia.
        * destruct (Hy y0 (or_introl eq_refl)) as (k' & -> & _).
          assert (Cb : forall l, (forall y, In y l -> hgt (G' y) = k') -> cost G' l = length l * big ^ k').
          { intros l Q. induction l as [|y l IH]; [reflexivity|]. unfold cost in *. cbn [map lsum length]. rewrite IH, (Q y (or_introl eq_refl)); [lia|]. intros z Hz. apply Q. right. exact Hz. }
          rewrite Cb. 2: { intros y Q. destruct (Hy y Q) as (k2 & Ek & Hk). lia. }
          cbn [Nat.pow]. assert (Pz : big ^ k' <> 0) by (apply Nat.pow_nonzero; unfold big; lia).
          assert (length (y0 :: ys0) < big) by (unfold big; lia). apply Nat.mul_lt_mono_pos_r; lia.
    - exists G, L, M, Lx. split; [eauto using next_lk|]. split; [apply y_same; auto; [rewrite H; reflexivity|]|].
      { intros _. apply (y_top _ _ Y j). rewrite H. reflexivity. }
      intros _ _. right. split; [reflexivity|]. exists j. eexists. split; [reflexivity|]. split; [auto|]. rewrite H. cbn [mu]. unfold cost. cbn [map lsum]. lia.
    - exists G, L, M, Lx. split; [eauto using end_lk|]. split; [apply y_same; auto; [rewrite H; reflexivity|discriminate]|].
      intros _ _. right. split; [reflexivity|]. exists j. eexists. split; [reflexivity|]. split; [auto|]. rewrite H. cbn [mu]. lia.
    - exists G, L, M, Lx. split; [eauto using return_lk|]. split; [apply y_same; auto; [rewrite H; reflexivity|]|].
      { intros Ht. apply (y_top _ _ Y j). rewrite H. exact Ht. }
      intros _ _. right. split; [reflexivity|]. exists j. eexists. split; [reflexivity|]. split; [auto|]. rewrite H. cbn [mu]. lia.
  Qed.
End Y.

(** ** Somebody can go on *)
Lemma er_id {V} (t : atree V) : (forall z, In z (tokens t) -> Nat.odd z = false) -> er t = t.
Proof.
  induction t as [m rs vs ks IH] using atree_all. intros H. cbn [er tokens] in *. rewrite Forall_forall in IH. f_equal.
  - assert (H' : forall z, In z rs -> Nat.odd z = false) by (intros z Hz; apply H, in_or_app; left; exact Hz). clear - H'.
    induction rs as [|x rs IH]; [reflexivity|]. cbn [filter]. unfold even_name at 1. rewrite (H' x (or_introl eq_refl)). cbn [negb]. f_equal. apply IH. intros z Hz. apply H'. right. exact Hz.
  - rewrite <- (map_id ks) at 2. apply map_ext_in. intros u Hu. apply IH; [exact Hu|]. intros z Hz. apply H, in_or_app. right. apply in_flat_map. eauto.
Qed.
Lemma lock_go {V} js : forall ys (ks : list (atree V)), length js = length ys -> (forall j, In j js -> j < length ks) ->
  (forall t, In t ks -> exists rs cv ck, t = ANode MFree rs cv ck) -> exists ks', lock_kids js ys ks = Some ks'.
Proof.
  induction js as [|j js IH]; intros [|y ys] ks L R F; cbn [length] in L; try discriminate; [cbn [lock_kids]; eauto|]. cbn [lock_kids].
  destruct (nth_error ks j) as [u|] eqn:E; [|apply nth_error_None in E; specialize (R j (or_introl eq_refl)); lia].
  destruct (F u (nth_error_In _ _ E)) as (rs & cv & ck & ->). apply IH; [lia| |].
  - intros i Hi. specialize (R i (or_intror Hi)). assert (Lj : j < length ks) by (apply nth_error_Some; congruence).
    destruct (split_elem ks j Lj) as (l1 & w & l2 & -> & E1). rewrite (set_nth_app l1) by exact E1. rewrite app_length in *. cbn [length] in *. lia.
  - intros t Ht. apply set_nth_incl in Ht as [->|Ht]; eauto.
Qed.
(** Odd numbers above [N] *)
Definition names (N k : nat) : list nat := map (fun i => S (2 * (N + i))) (seq 0 k).
Lemma names_spec N k : length (names N k) = k /\ NoDup (names N k) /\ forall y, In y (names N k) -> Nat.odd y = true /\ N < y.
Proof.
  unfold names. split; [rewrite map_length, seq_length; reflexivity|]. split.
  - apply FinFun.Injective_map_NoDup; [intros a b E; lia|apply seq_NoDup].
  - intros y Hy. apply in_map_iff in Hy as (i & <- & _). split; [|lia]. rewrite Nat.odd_succ, Nat.even_mul. reflexivity.
Qed.

Section Go.
  Context {V : Type}.
  Variable n : nat.
  Variable ops : nat -> cop V.
  Hypothesis Hn : 2 <= n.
  Notation bops := (bops ops).
  Notation inv log := (inv n bops log).

  Lemma inv_kids log rt h m rs vs ks : inv log rt h (er (ANode m rs vs ks)) -> forall u, In u ks -> exists h', h = S h' /\ inv log false h' (er u).
  Proof using.
    intros I u Hu. cbn [er] in I. apply inv_elim in I as (_ & _ & K). destruct h as [|h].
    - destruct ks; [destruct Hu|discriminate].
    - exists h. split; [reflexivity|]. rewrite Forall_forall in K. apply K, in_map, Hu.
  Qed.
  Lemma tok_hgt G log z : Nat.odd z = true -> forall t rt h, inv log rt h (er t) -> tk n ops G t -> In z (tokens t) -> hgt (G z) <= h.
  Proof using Hn.
    intros Oz t. induction t as [m rs vs ks IH] using atree_all. intros rt h I T Hz. pose proof (inv_kids _ _ _ _ _ _ _ I) as K.
    apply tk_inv in T as (T1 & T2 & T3). cbn [tokens] in Hz. apply in_app_iff in Hz as [Hz|Hz].
    - assert (m = MFree) by (destruct m; try reflexivity; rewrite T1 in Hz by discriminate; destruct Hz). subst m.
      rewrite <- (T2 z Hz Oz), P_free. cbn [er] in I. apply inv_plain in I. destruct I as (B & _).
      assert (EP : map (P n bops) (map er ks) = map (P n bops) ks) by (rewrite map_map; apply map_ext; intros; apply er_P). rewrite EP in B.
      rewrite (hgt_balanced n h _ B). lia.
    - apply in_flat_map in Hz as (u & Hu & Hz). destruct (K u Hu) as (h' & -> & Iu). rewrite Forall_forall in IH. specialize (IH u Hu false h' Iu (T3 u Hu) Hz). lia.
  Qed.

  Lemma tok_go G log x : Nat.odd x = true -> forall t rt h, inv log rt h (er t) -> tk n ops G t -> In x (tokens t) ->
    (exists o t', lstep n bops t o t') \/ (exists z, Nat.odd z = true /\ In z (tokens t) /\ hgt (G z) < hgt (G x)) \/
    (forall d N, exists ys vis t', vstep d x ys t vis t' /\ NoDup ys /\ forall y, In y ys -> Nat.odd y = true /\ N < y).
  Proof using Hn.
    intros Ox t. induction t as [m rs vs ks IH] using atree_all. intros rt h I T Hx. pose proof (inv_kids _ _ _ _ _ _ _ I) as K.
    pose proof T as T0. apply tk_inv in T as (T1 & T2 & T3). cbn [tokens] in Hx. apply in_app_iff in Hx as [Hx|Hx].
    - assert (m = MFree) by (destruct m; try reflexivity; rewrite T1 in Hx by discriminate; destruct Hx). subst m.
      cbn [er] in I. pose proof (inv_plain n ops _ _ _ _ _ _ I) as Ip. apply inv_elim in I as (_ & (Pl & _) & _).
      assert (EP : map (P n bops) (map er ks) = map (P n bops) ks) by (rewrite map_map; apply map_ext; intros; apply er_P). rewrite EP in Ip.
      destruct Ip as (B & _). assert (Hh : hgt (G x) = h) by (rewrite <- (T2 x Hx Ox), P_free; apply (hgt_balanced n), B).
      assert (D : (exists u o u', In u ks /\ lstep n bops u o u') \/ (exists z u, In u ks /\ Nat.odd z = true /\ In z (tokens u)) \/ (forall u, In u ks -> quiet u = true)).
      { assert (Pl' : forall u, In u ks -> plain (fl n bops u)).
        { intros u Hu. rewrite map_map, Forall_forall in Pl. rewrite <- er_fl. apply Pl. apply in_map_iff. eauto. }
        clear - K Pl' Hn. induction ks as [|u ks IHk]; [right; right; intros u []|].
        destruct (existsb Nat.odd (tokens u)) eqn:E.
        - apply existsb_exists in E as (z & Hz & Oz). right. left. exists z, u. split; [left; reflexivity|auto].
        - assert (Eu : er u = u).
          { apply er_id. intros z Hz. destruct (Nat.odd z) eqn:O; [|reflexivity]. assert (existsb Nat.odd (tokens u) = true) by (apply existsb_exists; eauto). congruence. }
          destruct (K u (or_introl eq_refl)) as (h' & Eh & Iu). rewrite Eu in Iu.
          destruct (sub_go n bops log Hn h' false u Iu) as [(o & u' & St)|[Q|Q]].
          + left. exists u, o, u'. split; [left; reflexivity|exact St].
          + destruct IHk as [(w & o & u' & Hw & St)|[(z & w & Hw & Oz & Hz)|A]].
            * intros w Hw. apply K. right. exact Hw.
            * intros w Hw. apply Pl'. right. exact Hw.
            * left. exists w, o, u'. split; [right; exact Hw|exact St].
            * right. left. exists z, w. split; [right; exact Hw|auto].
            * right. right. intros w [<-|Hw]; [exact Q|apply A, Hw].
          + exfalso. eapply (stuck_plain n bops log Hn h' false u Iu); [apply Pl'; left; reflexivity|exact Q]. }
      destruct D as [(u & o & u' & Hu & St)|[(z & u & Hu & Oz & Hz)|Q]].
      + left. apply in_split in Hu as (l1 & l2 & ->). exists o. eexists. apply L_kid. exact St.
      + right. left. exists z. split; [exact Oz|]. split; [cbn [tokens]; apply in_or_app; right; apply in_flat_map; eauto|].
        destruct (K u Hu) as (h' & Eh & Iu). pose proof (tok_hgt G log z Oz u false h' Iu (T3 u Hu) Hz). lia.
      + right. right. intros d N. destruct (node_plan d vs (match ks with [] => true | _ => false end)) as [vis js] eqn:Pn.
        destruct (plan_len n ops _ _ _ _ _ Pn) as (Lj & Lf & Lr). destruct (names_spec N (length js)) as (L1 & L2 & L3).
        destruct (lock_go js (names N (length js)) ks) as [ks' Lk].
        * symmetry. exact L1.
        * intros j Hj. destruct ks as [|k0 ks]; [rewrite Lf in Hj by reflexivity; destruct Hj|]. destruct h as [|h]; [apply (proj1 (balanced_0 _ _ _)) in B; discriminate B|].
          apply (proj1 (balanced_S _ _ _ _)) in B as [LK _]. rewrite map_length in LK. specialize (Lr j Hj). lia.
        * intros u Hu. apply Q, quiet_afree, afree_inv in Hu as (cv & ck & ->). eauto.
        * apply in_split in Hx as (r1 & r2 & ->). exists (names N (length js)), vis. eexists. split; [eapply V_here; eauto|]. auto.
    - apply in_flat_map in Hx as (u & Hu & Hx). destruct (K u Hu) as (h' & -> & Iu). rewrite Forall_forall in IH.
      pose proof Hu as Hu'. apply in_split in Hu' as (l1 & l2 & ->).
      destruct (IH u Hu false h' Iu (T3 u Hu) Hx) as [(o & u' & St)|[(z & Oz & Hz & Lz)|Vs]].
      + left. exists o. eexists. apply L_kid. exact St.
      + right. left. exists z. split; [exact Oz|]. split; [|exact Lz]. cbn [tokens]. apply in_or_app. right. apply in_flat_map. eauto.
      + right. right. intros d N. destruct (Vs d N) as (ys & vis & t' & St & Q). exists ys, vis. eexists. split; [apply V_kid; exact St|exact Q].
  Qed.
End Go.

Section End2.
  Context {V : Type}.
  Variable n : nat.
  Variable ops : nat -> cop V.
  Variable lks : nat -> lookup * EV * TypeRestrictions.
  Hypothesis Hn : 2 <= n.
  Hypothesis Hg : good_calls ops.
  Hypothesis Hl : good_lookups lks.
  Notation bops := (bops ops).
  Notation xinv := (xinv n ops lks).
  Notation goes := (xgoes_on n ops lks).

  Lemma quiet_goes s s' : xstep n ops lks s None s' -> exists s', goes s s'.
  Proof using. intros St. exists s', None. split; [exact St|]. split; discriminate. Qed.
  Lemma base_goes G s e s' : yinv G s -> step n bops (xs s) e s' -> (forall c, e <> Some (ECall c)) ->
    ((forall j, holds_tree (xi s j) = false) \/ (forall c, top s' = TWait c -> top (xs s) = TWait c)) -> exists s', goes s s'.
  Proof using.
    intros Y St Ne Nh. eexists. exists (option_map EB e). split; [eapply X_base; [exact St| |]|].
    - intros c ->. destruct (Ne c eq_refl).
    - intros j c Hj T. destruct Nh as [Nh|Nh]; [rewrite Nh in Hj; discriminate|]. apply Nh in T. rewrite (y_top _ _ Y j Hj) in T. discriminate.
    - split; intros c E; destruct e as [x|]; cbn in E; try discriminate. injection E as ->. exact (Ne c eq_refl).
  Qed.
  Lemma local_goes G s t o t' : yinv G s -> root (xs s) = Some t -> lstep n bops t o t' -> exists s', goes s s'.
  Proof using.
    intros Y R St. eapply base_goes; [exact Y|eapply T_local; eauto|discriminate|]. right. cbn [top]. auto.
  Qed.

  Lemma above (l : list nat) : exists N, forall x, N < x -> ~ In x l.
  Proof using Hn. exists (list_max l). intros x H Hx. pose proof (proj1 (list_max_le l (list_max l)) (le_n _)) as F. rewrite Forall_forall in F. specialize (F x Hx). lia. Qed.
  Lemma above_new G (s : xstate V) t N y : yinv G s -> root (xs s) = Some t -> (forall x, N < x -> ~ In x (tokens t)) -> Nat.odd y = true -> N < y -> new_name s y.
  Proof using.
    intros Y R A Oy Ly. split; [exact Oy|]. split; [intros t' E; rewrite R in E; injection E as <-; apply A, Ly|].
    intros j Hj. apply (A y Ly). apply tc_in. pose proof (proj2 (y_has _ _ Y y Oy) (ex_intro _ j Hj)) as Q. rewrite R in Q. exact Q.
  Qed.

  (** A lookup that holds a lock *)
  Lemma held_go tr s G L M Lx : xinv tr s G L M Lx -> yinv G s -> forall k j x held, held_of (xi s j) = x :: held -> hgt (G x) = k -> exists s', goes s s'.
  Proof using Hn.
    intros X Y. induction k as [k IH] using lt_wf_ind. intros j x held Ej Ex.
    assert (Ox : Nat.odd x = true) by (apply (y_odd _ _ Y j); rewrite Ej; left; reflexivity).
    assert (Tx : 0 < tcs x (root (xs s))) by (apply (y_has _ _ Y x Ox); exists j; rewrite Ej; left; reflexivity).
    destruct (root (xs s)) as [t|] eqn:R; [|cbn in Tx; lia]. cbn [tcs] in Tx. apply tc_in in Tx.
    pose proof (g_tree _ _ _ _ _ _ (x_g _ _ _ _ _ _ _ _ _ X)) as I. cbn [er_state root] in I. rewrite R in I. cbn [option_map] in I. destruct I as [h I].
    pose proof (x_tk _ _ _ _ _ _ _ _ _ X) as T. rewrite R in T. cbn [tks] in T.
    destruct (tok_go n ops Hn G _ x Ox t true h I T Tx) as [(o & t' & St)|[(z & Oz & Hz & Lz)|Vs]].
    - eapply local_goes; eauto.
    - apply tc_in in Hz. pose proof (proj1 (y_has _ _ Y z Oz)) as Q. rewrite R in Q. destruct (Q Hz) as [i Hi].
      pose proof (y_srt _ _ Y i) as S. destruct (held_of (xi s i)) as [|x' held'] eqn:Ei; [destruct Hi|].
      assert (Lx' : hgt (G x') <= hgt (G z)).
      { destruct Hi as [<-|Hi]; [lia|]. apply StronglySorted_inv in S as [_ F]. rewrite Forall_forall in F. exact (F z Hi). }
      eapply (IH (hgt (G x'))); [lia|exact Ei|reflexivity].
    - destruct (xi s j) as [| |rest acc|d rest held0 acc|b acc|b acc] eqn:E; cbn [held_of] in Ej; try discriminate. subst held0.
      destruct (above (tokens t)) as [N A]. destruct (Vs d N) as (ys & vis & t' & St & Nd & Fr).
      eapply quiet_goes, X_visit; eauto. apply Forall_forall. intros y Hy. destruct (Fr y Hy). eapply above_new; eauto.
  Qed.

  Definition no_leak (p : iphase V) : Prop :=
    match p with IHold rest _ => rest <> [] | IDone b _ | IRet b _ => b = false | _ => True end.
  Definition pending (p : iphase V) : Prop := p <> INew /\ forall b l, p <> IRet b l.

  Lemma x_go tr s G L M Lx : xinv tr s G L M Lx -> yinv G s -> (forall j, no_leak (xi s j)) ->
    (exists j, pending (xi s j)) \/ ((forall j, ~ pending (xi s j)) /\ exists c, ph (xs s) c <> PNew /\ forall a, ph (xs s) c <> PRet a) ->
    exists s', goes s s'.
  Proof using Hn Hg.
    intros X Y Nl Pd. pose proof (x_g _ _ _ _ _ _ _ _ _ X) as Gi.
    assert (D : (exists z t, root (xs s) = Some t /\ Nat.odd z = true /\ In z (tokens t)) \/ er_state (xs s) = xs s).
    { destruct (root (xs s)) as [t|] eqn:R.
      - destruct (existsb Nat.odd (tokens t)) eqn:E.
        + apply existsb_exists in E as (z & Hz & Oz). left. eauto.
        + right. destruct (xs s) as [a b c d]. cbn [root] in R. subst c. unfold er_state. cbn [top trs root ph option_map]. f_equal. f_equal. apply er_id.
          intros z Hz. destruct (Nat.odd z) eqn:O; [|reflexivity]. assert (existsb Nat.odd (tokens t) = true) by (apply existsb_exists; eauto). congruence.
      - right. destruct (xs s) as [a b c d]. cbn [root] in R. subst c. reflexivity. }
    destruct D as [(z & t & R & Oz & Hz)|Es].
    { apply tc_in in Hz. pose proof (proj1 (y_has _ _ Y z Oz)) as Q. rewrite R in Q. destruct (Q Hz) as [i Hi].
      destruct (held_of (xi s i)) as [|x held] eqn:E; [destruct Hi|]. eapply held_go; eauto. }
    rewrite Es in Gi.
    assert (BG : (forall j, holds_tree (xi s j) = false) -> (exists c, ph (xs s) c <> PNew /\ forall a, ph (xs s) c <> PRet a) -> exists s', goes s s').
    { intros Nh (c & C1 & C2). destruct (ginv_go n bops Hn _ _ _ _ Gi) as (s' & e & St & Ne).
      - intros A. destruct (A c) as [E|[a E]]; [congruence|]. exact (C2 a E).
      - eauto.
      - eapply base_goes; eauto. }
    destruct Pd as [[j [P1 P2]]|[Np C]].
    2: { apply BG; [|exact C]. intros j. specialize (Np j). specialize (Nl j). unfold pending in Np. destruct (xi s j) as [| |rest acc|d rest held acc|b acc|b acc]; try reflexivity;
      cbn [no_leak] in Nl; try (subst b; reflexivity); destruct Np; split; discriminate. }
    specialize (Nl j). destruct (xi s j) as [| |rest acc|d rest held acc|b acc|b acc] eqn:E; cbn [no_leak] in Nl.
    - congruence.
    - destruct (top (xs s)) as [|c|c] eqn:T.
      + eapply quiet_goes, X_rlock; eauto.
      + apply BG.
        * intros i. destruct (holds_tree (xi s i)) eqn:Q; [|reflexivity]. rewrite (y_top _ _ Y i Q) in T. discriminate.
        * exists c. apply (g_wait _ _ _ _ _ _ Gi) in T. rewrite T. split; discriminate.
      + apply BG.
        * intros i. destruct (holds_tree (xi s i)) eqn:Q; [|reflexivity]. rewrite (y_top _ _ Y i Q) in T. discriminate.
        * exists c. destruct (g_in _ _ _ _ _ _ Gi c T) as [_ W]. destruct (ph (xs s) c); cbn in W; try contradiction; split; discriminate.
    - destruct rest as [|d rest]; [congruence|]. assert (Tf : top (xs s) = TFree) by (apply (y_top _ _ Y j); rewrite E; reflexivity).
      destruct (root (xs s)) as [[m rs vs ks]|] eqn:R; [|eapply quiet_goes, X_nil; eauto].
      destruct m as [|c|c i b|c|c].
      1: { destruct (above (tokens (ANode MFree rs vs ks))) as [N A]. destruct (names_spec N 1) as (_ & _ & Q). specialize (Q (S (2 * (N + 0))) (or_introl eq_refl)).
           eapply quiet_goes. eapply (X_root n ops lks s j d rest acc rs vs ks (S (2 * (N + 0))) E R). exact (above_new G s _ N _ Y R A (proj1 Q) (proj2 Q)). }
      all: pose proof (g_tree _ _ _ _ _ _ Gi) as I; rewrite R in I; destruct I as [h I];
        destruct (sub_go n bops _ Hn h true _ I) as [(o & t' & St)|[Q|Q]];
          [eapply local_goes; eauto|discriminate Q|exfalso].
      all: eapply (stuck_plain n bops _ Hn h true _ I); [|exact Q]; pose proof (fun d => g_tag _ _ _ _ _ _ Gi _ d R) as Tg;
        destruct (fl n bops _); try exact Logic.I; cbn [tag] in Tg; rewrite (Tg _ eq_refl) in Tf; discriminate Tf.
    - destruct held as [|x held]; [|eapply (held_go _ _ _ _ _ _ X Y _ j x held); [rewrite E; reflexivity|reflexivity]].
      destruct rest as [|r rest]; eapply quiet_goes; [eapply X_end|eapply X_next]; eauto.
    - eexists. exists (Some (ELRet j acc)). split; [eapply X_return; eauto|]. split; discriminate.
    - destruct (P2 b acc eq_refl).
  Qed.
End End2.

Section Final.
  Context {V : Type}.
  Variable n : nat.
  Variable ops : nat -> cop V.
  Variable lks : nat -> lookup * EV * TypeRestrictions.
  Hypothesis Hn : 2 <= n.
  Hypothesis Hg : good_calls ops.
  Hypothesis Hl : good_lookups lks.
  Notation bops := (bops ops).
  Notation xinv := (xinv n ops lks).
  Notation goes := (xgoes_on n ops lks).

  Lemma start_y (G : nat -> node V) : yinv G xstart.
  Proof using.
    constructor; cbn [xstart xs xi held_of holds_tree root start].
    - intros z _. cbn. auto.
    - intros z _. cbn. split; [intros H; inversion H|intros [j []]].
    - intros j z [].
    - intros j. constructor.
    - intros i j z [].
    - intros j. constructor.
    - discriminate.
  Qed.

  Lemma xexec_y tr s : xexec n ops lks tr s -> exists G L M Lx, xinv tr s G L M Lx /\ yinv G s.
  Proof using Hn Hg Hl.
    intros X. induction X as [|tr s e s' X (G & L & M & Lx & Xi & Y) St].
    - destruct (xexec_inv n ops lks Hn Hg Hl [] xstart) as (G & L & M & Lx & Xi); [constructor|]. exists G, L, M, Lx. split; [exact Xi|apply start_y].
    - destruct (xy_step n ops lks Hn Hg Hl _ _ _ _ _ _ _ _ Xi Y St) as (G' & L' & M' & Lx' & X' & Y' & _). eauto 10.
  Qed.

  Lemma step_no_leak s e s' : (forall j, xi s j <> INew -> has_way (lks j)) -> xstep n ops lks s e s' -> (forall j, no_leak (xi s j)) -> forall j, no_leak (xi s' j).
  Proof using Hl.
    intros W St N i. destruct St; cbn [xi]; try apply N;
      (destruct (Nat.eq_dec i j) as [->|Ni]; [rewrite set_xi_same; cbn [no_leak]|rewrite set_xi_other by exact Ni; apply N]).
    - exact Logic.I.
    - apply has_way_descents; [apply Hl|apply W; rewrite H; discriminate].
    - reflexivity.
    - exact Logic.I.
    - specialize (N j). rewrite H in N. destruct (N eq_refl).
    - exact Logic.I.
    - discriminate.
    - reflexivity.
    - specialize (N j). rewrite H in N. exact N.
  Qed.
  Lemma exec_no_leak tr s : (forall j, In (ELCall j) tr -> has_way (lks j)) -> xexec n ops lks tr s -> forall j, no_leak (xi s j).
  Proof using Hn Hg Hl.
    intros W X. induction X as [|tr s e s' X IH St]; [intros j; exact Logic.I|].
    assert (W' : forall j, In (ELCall j) tr -> has_way (lks j)) by (intros j H; apply W; destruct e; [apply in_or_app; left|]; exact H).
    destruct (xexec_inv n ops lks Hn Hg Hl _ _ X) as (G & L & M & Lx & Xi). eapply step_no_leak; eauto.
    intros j H. apply W'. apply (x_call _ _ _ _ _ _ _ _ _ Xi), H.
  Qed.

  Definition mus (l : list nat) (h : nat) (G : nat -> node V) (f : nat -> iphase V) : nat := lsum (map (fun j => mu n lks h G j (f j)) l).
  Lemma mus_set l h G G' f j p : In j l -> (forall i y, i <> j -> In y (held_of (f i)) -> G' y = G y) -> mu n lks h G' j p < mu n lks h G j (f j) ->
    mus l h G' (set_xi f j p) < mus l h G f.
  Proof using ops.
    clear Hn Hg Hl. intros I E H. unfold mus.
    assert (LE : forall i, mu n lks h G' i (set_xi f j p i) <= mu n lks h G i (f i)).
    { intros i. destruct (Nat.eq_dec i j) as [->|N]; [rewrite set_xi_same; lia|]. rewrite set_xi_other by exact N. rewrite (mu_ext n lks h G G'); [lia|]. intros y. apply E, N. }
    apply in_split in I as (l1 & l2 & ->). rewrite !lsum_mid, set_xi_same.
    assert (A : forall l, lsum (map (fun i => mu n lks h G' i (set_xi f j p i)) l) <= lsum (map (fun i => mu n lks h G i (f i)) l)).
    { intros l. induction l as [|x l IH]; cbn [map lsum]; [lia|]. specialize (LE x). lia. }
    pose proof (A l1). pose proof (A l2). lia.
  Qed.

  Lemma pending_dec (l : list nat) (f : nat -> iphase V) : (forall j, f j <> INew -> In j l) -> (exists j, pending (f j)) \/ forall j, ~ pending (f j).
  Proof using.
    clear Hn Hg Hl. intros H. assert (D : forall p : iphase V, pending p \/ ~ pending p).
    { intros p. destruct p; try (left; split; discriminate); right; intros [A B]; [congruence|eapply B; reflexivity]. }
    assert (E : (exists j, pending (f j)) \/ forall j, In j l -> ~ pending (f j)).
    { clear H. induction l as [|x l [IH|IH]]; [right; intros j []|left; exact IH|]. destruct (D (f x)) as [P|P]; [left; eauto|]. right. intros j [<-|Hj]; [exact P|apply IH, Hj]. }
    destruct E as [E|E]; [left; exact E|right]. intros j P. destruct (in_dec Nat.eq_dec j l) as [I|N]; [exact (E j I P)|]. apply N, H, P.
  Qed.
  Lemma not_pending (p : iphase V) : ~ pending p -> p = INew \/ exists b l, p = IRet b l.
  Proof using. clear Hn Hg Hl. intros N. destruct p; try (destruct N; split; discriminate); eauto. Qed.

  Theorem all_end_x tr s : (forall j, In (ELCall j) tr -> has_way (lks j)) -> xexec n ops lks tr s -> xinevitably n ops lks xall_back s.
  Proof using Hn Hg Hl.
    intros W Ex. pose proof (exec_no_leak tr s W Ex) as Nl. destruct (xexec_y tr s Ex) as (G & L & M & Lx & X & Y). clear Ex.
    set (l := flat_map (fun e => match e with EB (ECall c) => [c] | _ => [] end) tr).
    set (lj := flat_map (fun e => match e with ELCall j => [j] | _ => [] end) tr).
    assert (Hc : forall c, ph (xs s) c <> PNew -> In c l).
    { intros c H. apply (g_call _ _ _ _ _ _ (x_g _ _ _ _ _ _ _ _ _ X)) in H. unfold btr in H. apply in_flat_map in H as (e & He & H). apply in_flat_map. exists e. split; [exact He|].
      destruct e as [e| |]; cbn in H |- *; try contradiction. destruct H as [-> |[]]. left. reflexivity. }
    assert (Hj : forall j, xi s j <> INew -> In j lj).
    { intros j H. apply (x_call _ _ _ _ _ _ _ _ _ X) in H. apply in_flat_map. exists (ELCall j). split; [exact H|left; reflexivity]. }
    assert (Wl : forall j, In j lj -> has_way (lks j)).
    { intros j H. apply W. apply in_flat_map in H as (e & He & H). destruct e as [e|j'|j' a]; cbn in H; try contradiction. destruct H as [-> |[]]. exact He. }
    clear W. clearbody l lj. remember (ranks l (ph (xs s))) as r eqn:Er. remember (weight (er_state (xs s))) as w eqn:Ew. remember (mus lj (tall (er_state (xs s))) G (xi s)) as u eqn:Eu.
    revert w u s tr G L M Lx X Y Nl Hc Hj Er Ew Eu. induction r as [r IHr] using lt_wf_ind. induction w as [w IHw] using lt_wf_ind. induction u as [u IHu] using lt_wf_ind.
    intros s tr G L M Lx X Y Nl Hc Hj -> -> ->.
    destruct (pending_dec lj (xi s) Hj) as [Pj|Nj].
    2: destruct (all_back_dec l (xs s) Hc) as [A|A]; [apply xinevitably_now; split; [exact A|intros j; apply not_pending, Nj]|].
    all: apply xinevitably_later; [eapply x_go; eauto|].
    all: intros s' (e & St & Ne & Nf); pose proof (step_no_leak _ _ _ (fun j H => Wl j (Hj j H)) St Nl) as Nl';
      destruct (xy_step n ops lks Hn Hg Hl _ _ _ _ _ _ _ _ X Y St) as (G' & L' & M' & Lx' & X' & Y' & D);
      destruct (D Ne Nf) as [(E1 & -> & [(c & p & E & R)|[E R]])|(E1 & j & p & E & F & R)].
    all: assert (Hj' : forall j, xi s' j <> INew -> In j lj) by
      (first [rewrite E1; exact Hj
             |intros i Hi; destruct (Nat.eq_dec i j) as [->|Ni]; [apply Hj; intros Z; rewrite Z in R; cbn [mu] in R; lia|apply Hj; rewrite E, set_xi_other in Hi by exact Ni; exact Hi]]).
    all: try (assert (Ep : ph (xs s') = ph (xs s)) by (first [exact E|exact (f_equal (@ph V) E1)]);
      assert (Hc' : forall c, ph (xs s') c <> PNew -> In c l) by (rewrite Ep; exact Hc)).
    all: try solve [eapply (IHw (weight (er_state (xs s')))); [exact R|exact X'|exact Y'|exact Nl'|exact Hc'|exact Hj'|rewrite Ep; reflexivity|reflexivity|reflexivity]].
    all: try solve [eapply (IHu (mus lj (tall (er_state (xs s'))) G' (xi s'))); [|exact X'|exact Y'|exact Nl'|exact Hc'|exact Hj'|rewrite Ep; reflexivity|rewrite E1; reflexivity|reflexivity];
      rewrite E1, E; apply mus_set; [apply Hj; intros Z; rewrite Z in R; cbn [mu] in R; lia|exact F|exact R]].
    all: assert (Nc : ph (xs s) c <> PNew) by (intros Z; rewrite Z in R; cbn in R; lia);
      eapply (IHr (ranks l (ph (xs s')))); [rewrite E; apply ranks_set; auto|exact X'|exact Y'|exact Nl'| |exact Hj'|reflexivity|reflexivity|reflexivity];
      intros d Hd; rewrite E in Hd; destruct (Nat.eq_dec d c) as [->|N]; [apply Hc, Nc|rewrite set_other in Hd by exact N; apply Hc, Hd].
  Qed.
End Final.
