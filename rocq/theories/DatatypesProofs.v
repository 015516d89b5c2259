(** Proofs about Datatypes.v *)
From Coq Require Import SpecFloat NArith ZifyBool ZifyN Btauto.
From Verif Require Import Datatypes SpecValues.
Ltac Zify.zify_post_hook ::= Z.div_mod_to_equations.

(** ** Strings *)
Lemma str_ltb_irrefl a : str_ltb a a = false.
Proof. induction a as [|x a IH]; simpl; [reflexivity|]. rewrite N.ltb_irrefl. exact IH. Qed.

Lemma N_of_ascii_inj x y : N_of_ascii x = N_of_ascii y -> x = y.
Proof. intros H. rewrite <- (ascii_N_embedding x), <- (ascii_N_embedding y), H. reflexivity. Qed.

Lemma str_ltb_trans a b c : str_ltb a b = true -> str_ltb b c = true -> str_ltb a c = true.
Proof.
  revert b c; induction a as [|x a IH]; intros [|y b] [|z c]; simpl; try congruence.
  destruct (N.ltb_spec (N_of_ascii x) (N_of_ascii y)), (N.ltb_spec (N_of_ascii y) (N_of_ascii x)),
    (N.ltb_spec (N_of_ascii y) (N_of_ascii z)), (N.ltb_spec (N_of_ascii z) (N_of_ascii y)),
    (N.ltb_spec (N_of_ascii x) (N_of_ascii z)), (N.ltb_spec (N_of_ascii z) (N_of_ascii x));
    try congruence; try lia.
  apply IH.
Qed.

Lemma str_ltb_total a b : str_ltb a b = false -> str_ltb b a = false -> a = b.
Proof.
  revert b; induction a as [|x a IH]; intros [|y b]; simpl; try congruence.
  destruct (N.ltb_spec (N_of_ascii x) (N_of_ascii y)), (N.ltb_spec (N_of_ascii y) (N_of_ascii x));
    try congruence; try lia.
  intros H1 H2. f_equal; [apply N_of_ascii_inj; lia | auto].
Qed.

Lemma str_ltb_asym a b : str_ltb a b = true -> str_ltb b a = false.
Proof.
  intros H. destruct (str_ltb b a) eqn:E; [|reflexivity].
  pose proof (str_ltb_trans _ _ _ H E) as C. rewrite str_ltb_irrefl in C. discriminate.
Qed.

Lemma str_ltb_spec a b : str_ltb a b = true <-> str_lt a b.
Proof.
  split.
  - revert b; induction a as [|x a IH]; intros [|y b]; simpl; try congruence.
    + intros _. left. exists y, b. reflexivity.
    + destruct (N.ltb_spec (N_of_ascii x) (N_of_ascii y)) as [L|L].
      * intros _. right. exists EmptyString, x, y, a, b. auto.
      * destruct (N.ltb_spec (N_of_ascii y) (N_of_ascii x)) as [L'|L']; [congruence|].
        intros H. assert (x = y) as -> by (apply N_of_ascii_inj; lia).
        destruct (IH _ H) as [(z & r & E)|(p & u & v & r & r' & E1 & E2 & E3)].
        -- left. exists z, r. simpl. congruence.
        -- right. exists (String y p), u, v, r, r'. simpl. repeat split; try congruence; assumption.
  - intros [(x & r & E)|(p & x & y & r & r' & E1 & E2 & L)]; subst.
    + induction a as [|z a IH]; simpl; [reflexivity|]. rewrite N.ltb_irrefl. exact IH.
    + induction p as [|z p IH]; simpl.
      * destruct (N.ltb_spec (N_of_ascii x) (N_of_ascii y)); [reflexivity|lia].
      * rewrite N.ltb_irrefl. exact IH.
Qed.

(** ** Floats *)
Lemma sfltb_irrefl f : SFltb f f = false.
Proof.
  unfold SFltb. destruct f as [s|s| |s m e]; simpl; try destruct s; auto;
  rewrite Z.compare_refl, Pos.compare_cont_refl; reflexivity.
Qed.

Ltac fcases :=
  repeat match goal with
  | |- context [Pos.compare_cont Eq ?a ?b] => change (Pos.compare_cont Eq a b) with (Pos.compare a b)
  | |- context [(?a ?= ?b)%Z] => destruct (Z.compare_spec a b)
  | |- context [(?a ?= ?b)%positive] => destruct (Pos.compare_spec a b)
  end.

Lemma sfltb_trans a b c : SFltb a b = true -> SFltb b c = true -> SFltb a c = true.
Proof.
  unfold SFltb, SFcompare.
  destruct a as [s|s| |s m e], b as [s0|s0| |s0 m0 e0], c as [s1|s1| |s1 m1 e1];
    try destruct s; try destruct s0; try destruct s1; try congruence; try reflexivity;
    try (cbv; congruence);
  fcases; intros; simpl in *; subst; try congruence; try lia; auto.
Qed.

Lemma sfltb_total a b :
  a <> S754_nan -> b <> S754_nan -> SFltb a b = false -> SFltb b a = false ->
  a = b \/ exists s s', a = S754_zero s /\ b = S754_zero s'.
Proof.
  unfold SFltb, SFcompare.
  destruct a as [s|s| |s m e], b as [s0|s0| |s0 m0 e0];
    try destruct s; try destruct s0; try congruence; intros Ha Hb; eauto;
    fcases; intros; simpl in *; subst; try congruence; try lia; auto.
Qed.

Lemma sfltb_nan_l f : SFltb S754_nan f = false.
Proof. reflexivity. Qed.
Lemma sfltb_nan_r f : SFltb f S754_nan = false.
Proof. destruct f as [s|s| |s m e]; try destruct s; reflexivity. Qed.

(** co-transitivity: any non-NaN float separates two ordered ones *)
Lemma sfltb_cotrans a b c :
  b <> S754_nan -> SFltb a c = true -> SFltb a b = true \/ SFltb b c = true.
Proof.
  intros Hb H.
  assert (Ha : a <> S754_nan) by (intros ->; rewrite sfltb_nan_l in H; discriminate).
  assert (Hc : c <> S754_nan) by (intros ->; rewrite sfltb_nan_r in H; discriminate).
  destruct (SFltb a b) eqn:E; [auto|]. right.
  destruct (SFltb b a) eqn:E2.
  - eapply sfltb_trans; eauto.
  - destruct (sfltb_total a b Ha Hb E E2) as [->|(s & s' & -> & ->)]; [assumption|].
    revert H. clear. destruct c as [s1|s1| |s1 m e]; cbv; try destruct s1; congruence.
Qed.

(** ** Well-typed values: inversion helper *)
Lemma switch_well_typed t p :
  typeDataSwitch t p = true <-> well_typed t p.
Proof.
  split.
  - unfold typeDataSwitch, AnyDataType, GeneralDataTypes, existsb, T_any, T_uint, T_uint8, T_uint16,
      T_uint32, T_uint64, T_int, T_int8, T_int16, T_int32, T_int64, T_float32, T_float64, T_string.
    destruct (Z.eqb_spec t 1024) as [->|]; [destruct p; simpl; try congruence; constructor|].
    destruct (Z.eqb_spec t 1) as [->|]; [destruct p as [|k z| | | |]; simpl; try congruence; destruct k; simpl; try congruence; constructor|].
    destruct (Z.eqb_spec t 2) as [->|]; [destruct p as [|k z| | | |]; simpl; try congruence; destruct k; simpl; try congruence; constructor|].
    destruct (Z.eqb_spec t 3) as [->|]; [destruct p as [|k z| | | |]; simpl; try congruence; destruct k; simpl; try congruence; constructor|].
    destruct (Z.eqb_spec t 4) as [->|]; [destruct p as [|k z| | | |]; simpl; try congruence; destruct k; simpl; try congruence; constructor|].
    destruct (Z.eqb_spec t 5) as [->|]; [destruct p as [|k z| | | |]; simpl; try congruence; destruct k; simpl; try congruence; constructor|].
    destruct (Z.eqb_spec t 6) as [->|]; [destruct p as [|k z| | | |]; simpl; try congruence; destruct k; simpl; try congruence; constructor|].
    destruct (Z.eqb_spec t 7) as [->|]; [destruct p as [|k z| | | |]; simpl; try congruence; destruct k; simpl; try congruence; constructor|].
    destruct (Z.eqb_spec t 8) as [->|]; [destruct p as [|k z| | | |]; simpl; try congruence; destruct k; simpl; try congruence; constructor|].
    destruct (Z.eqb_spec t 9) as [->|]; [destruct p as [|k z| | | |]; simpl; try congruence; destruct k; simpl; try congruence; constructor|].
    destruct (Z.eqb_spec t 10) as [->|]; [destruct p as [|k z| | | |]; simpl; try congruence; destruct k; simpl; try congruence; constructor|].
    destruct (Z.eqb_spec t 11) as [->|]; [destruct p; simpl; try congruence; constructor|].
    destruct (Z.eqb_spec t 12) as [->|]; [destruct p; simpl; try congruence; constructor|].
    destruct (Z.eqb_spec t 13) as [->|]; [destruct p; simpl; try congruence; constructor|].
    simpl. congruence.
  - intros H; inversion H; reflexivity.
Qed.

Lemma well_typed_tag t p : well_typed t p -> known_tag t.
Proof. intros H; inversion H; unfold known_tag; lia. Qed.

Lemma known_tag_dec t : known_tag t <-> (AnyDataType t || GeneralDataTypes t) = true.
Proof.
  unfold known_tag, AnyDataType, GeneralDataTypes, existsb, T_any, T_uint, T_uint8, T_uint16,
      T_uint32, T_uint64, T_int, T_int8, T_int16, T_int32, T_int64, T_float32, T_float64, T_string.
  split.
  - intros [H| ->]; [|reflexivity].
    assert (t = 1 \/ t = 2 \/ t = 3 \/ t = 4 \/ t = 5 \/ t = 6 \/ t = 7 \/ t = 8 \/ t = 9 \/ t = 10
            \/ t = 11 \/ t = 12 \/ t = 13) as C by lia.
    repeat destruct C as [->|C]; try reflexivity. subst; reflexivity.
  - intros H. rewrite !orb_true_iff, !Z.eqb_eq in H. lia.
Qed.

Lemma general_range t : GeneralDataTypes t = true <-> 1 <= t <= 13.
Proof.
  pose proof (known_tag_dec t) as K. unfold known_tag, AnyDataType, T_any in K.
  destruct (GeneralDataTypes t) eqn:E.
  - split; [intros _|auto]. rewrite orb_true_r in K. destruct K as [_ K].
    destruct (K eq_refl); [assumption|]. subst. discriminate.
  - split; [congruence|]. intros H. destruct K as [K _].
    specialize (K (or_introl H)). rewrite orb_false_r in K. lia.
Qed.

Lemma validate_iff e mn mx :
  ev_validate e mn mx = true <-> well_typed (ev_type e) (ev_data e) /\ mn <= ev_type e <= mx.
Proof.
  unfold ev_validate, validateTypeAndData.
  pose proof (switch_well_typed (ev_type e) (ev_data e)) as S.
  destruct (typeDataSwitch (ev_type e) (ev_data e)); split; intros H.
  - split; [apply S; reflexivity | lia].
  - lia.
  - discriminate.
  - destruct H as [H _]. apply S in H. discriminate.
Qed.

(** ** The order on values *)
Lemma good_wt e : good e -> well_typed (ev_type e) (ev_data e).
Proof. intros [H _]; exact H. Qed.

Lemma lmt_go_total a b :
  well_typed (ev_type a) (ev_data a) -> well_typed (ev_type b) (ev_data b) -> exists r, lmt_go a b = Some r.
Proof.
  unfold lmt_go, dt_lmt. intros Ha Hb.
  destruct (Z.ltb_spec (ev_type a) (ev_type b)); [eauto|].
  destruct (Z.ltb_spec (ev_type b) (ev_type a)); [eauto|].
  assert (E : ev_type b = ev_type a) by lia. unfold lessValueMatchType. rewrite E in Hb.
  destruct a as [t p], b as [t' p']; simpl in *. inversion Ha; subst; inversion Hb; subst; eexists; reflexivity.
Qed.

Lemma less_go_total a b :
  well_typed (ev_type a) (ev_data a) -> well_typed (ev_type b) (ev_data b) -> exists r, less_go a b = Some r.
Proof.
  unfold less_go, dt_less, lessValue. intros Ha Hb.
  destruct (Z.eqb_spec (ev_type a) T_any), (Z.eqb_spec (ev_type b) T_any); simpl; eauto.
  destruct (Z.ltb_spec (ev_type a) (ev_type b)); [eauto|].
  destruct (Z.ltb_spec (ev_type b) (ev_type a)); [eauto|].
  assert (E : ev_type b = ev_type a) by lia. rewrite E in Hb.
  destruct a as [t p], b as [t' p']; simpl in *.
  inversion Ha; subst; inversion Hb; subst; solve [eexists; reflexivity | exfalso; auto].
Qed.

Lemma sfltb_lt x y : SFltb x y = true <-> sf_lt x y.
Proof. unfold SFltb, sf_lt. destruct (SFcompare x y) as [[]|]; split; congruence. Qed.

Lemma payload_lt_iff t p q :
  well_typed t p -> well_typed t q -> t <> T_any ->
  lt_by_tag t p q = Some true <-> payload_lt p q.
Proof.
  intros Hp Hq Ht. inversion Hp; subst; inversion Hq; subst; cbn.
  1-10: split; [intros H; constructor; apply Z.ltb_lt; congruence
               | intros H; inversion H; subst; f_equal; apply Z.ltb_lt; assumption].
  1-2: split; [intros H; constructor; apply sfltb_lt; congruence
              | intros H; inversion H; subst; f_equal; apply sfltb_lt; assumption].
  - split; [intros H; constructor; apply str_ltb_spec; congruence
              | intros H; inversion H; subst; f_equal; apply str_ltb_spec; assumption].
  - exfalso. apply Ht. reflexivity.
Qed.

Lemma wt_any_nil e : well_typed (ev_type e) (ev_data e) -> ev_type e = T_any -> e = Any.
Proof. destruct e as [t p]; simpl. intros H ->. inversion H. reflexivity. Qed.

Lemma lmt_spec a b :
  well_typed (ev_type a) (ev_data a) -> well_typed (ev_type b) (ev_data b) ->
  lmt a b = true <-> value_lt a b.
Proof.
  intros Ha Hb. unfold lmt, lmt_go, dt_lmt, value_lt.
  destruct (Z.ltb_spec (ev_type a) (ev_type b)); simpl; [tauto|].
  destruct (Z.ltb_spec (ev_type b) (ev_type a)); simpl.
  - split; [congruence|]. intros [C|[C _]]; lia.
  - assert (E : ev_type b = ev_type a) by lia. unfold lessValueMatchType.
    destruct (Z.eqb_spec (ev_type a) T_any) as [A|A]; simpl.
    + split; [congruence|]. intros [C|[_ C]]; [lia|].
      rewrite (wt_any_nil _ Ha A) in C. inversion C.
    + rewrite E in Hb. pose proof (payload_lt_iff _ _ _ Ha Hb A) as P.
      destruct (lt_by_tag (ev_type a) (ev_data a) (ev_data b)) as [[]|] eqn:L; simpl.
      * rewrite <- P. intuition lia.
      * rewrite <- P. split; [congruence|]. intros [C|[_ C]]; [lia|congruence].
      * rewrite <- P. split; [congruence|]. intros [C|[_ C]]; [lia|congruence].
Qed.

Lemma lmt_irrefl a : lmt a a = false.
Proof.
  unfold lmt, lmt_go, dt_lmt. rewrite Z.ltb_irrefl. unfold lessValueMatchType.
  destruct (ev_type a =? T_any); [reflexivity|].
  unfold lt_by_tag.
  repeat match goal with |- context [if (?x =? ?y) then _ else _] => destruct (x =? y) end;
    try reflexivity; destruct (ev_data a) as [|k z| | | |]; try reflexivity;
    cbn; rewrite ?sfltb_irrefl, ?str_ltb_irrefl; try reflexivity;
    destruct k; cbn; try reflexivity; apply Z.ltb_irrefl.
Qed.

Lemma payload_lt_trans p q r : payload_lt p q -> payload_lt q r -> payload_lt p r.
Proof.
  intros H1 H2; inversion H1; subst; inversion H2; subst; constructor.
  - lia.
  - apply sfltb_lt. eapply sfltb_trans; apply sfltb_lt; eassumption.
  - apply sfltb_lt. eapply sfltb_trans; apply sfltb_lt; eassumption.
  - apply str_ltb_spec. eapply str_ltb_trans; apply str_ltb_spec; eassumption.
Qed.

Lemma lmt_trans a b c : good a -> good b -> good c -> lmt a b = true -> lmt b c = true -> lmt a c = true.
Proof.
  intros Ga Gb Gc. rewrite !lmt_spec by (apply good_wt; assumption).
  unfold value_lt. intros [H|[H H']] [K|[K K']]; try (left; lia).
  right. split; [lia|]. eapply payload_lt_trans; eassumption.
Qed.

Lemma lmt_asym a b : good a -> good b -> lmt a b = true -> lmt b a = false.
Proof.
  intros Ga Gb H. destruct (lmt b a) eqn:E; [|reflexivity].
  pose proof (lmt_trans _ _ _ Ga Gb Ga H E) as C. rewrite lmt_irrefl in C. discriminate.
Qed.

Lemma payload_total p q t :
  well_typed t p -> well_typed t q -> ~ is_nan p -> ~ is_nan q ->
  ~ payload_lt p q -> ~ payload_lt q p -> same_payload p q.
Proof.
  intros Hp Hq Np Nq L1 L2. inversion Hp; subst; inversion Hq; subst;
    try (assert (z = z0) as -> by
          (destruct (Z.lt_trichotomy z z0) as [C|[C|C]]; [exfalso; apply L1; constructor; exact C | exact C | exfalso; apply L2; constructor; exact C]); constructor).
  1-2: assert (f = f0 \/ exists s s', f = S754_zero s /\ f0 = S754_zero s') as [->|(s & s' & -> & ->)];
    [apply sfltb_total
    | apply sp_eq
    | solve [apply sp_z32 | apply sp_z64]];
    [ intros ->; apply Np; solve [left; reflexivity | right; reflexivity]
    | intros ->; apply Nq; solve [left; reflexivity | right; reflexivity]
    | destruct (SFltb f f0) eqn:E; [exfalso; apply L1; constructor; apply sfltb_lt; exact E|reflexivity]
    | destruct (SFltb f0 f) eqn:E; [exfalso; apply L2; constructor; apply sfltb_lt; exact E|reflexivity] ].
  - assert (s = s0) as ->; [|constructor]. apply str_ltb_total.
    + destruct (str_ltb s s0) eqn:E; [exfalso; apply L1; constructor; apply str_ltb_spec; exact E|reflexivity].
    + destruct (str_ltb s0 s) eqn:E; [exfalso; apply L2; constructor; apply str_ltb_spec; exact E|reflexivity].
  - constructor.
Qed.

Lemma lmt_total a b : good a -> good b -> lmt a b = false -> lmt b a = false -> same_value a b.
Proof.
  intros Ga Gb H1 H2.
  assert (N1 : ~ value_lt a b) by (rewrite <- lmt_spec by (apply good_wt; assumption); congruence).
  assert (N2 : ~ value_lt b a) by (rewrite <- lmt_spec by (apply good_wt; assumption); congruence).
  unfold value_lt in *. assert (E : ev_type a = ev_type b) by lia.
  split; [exact E|]. destruct Ga as [Wa Na], Gb as [Wb Nb]. rewrite E in Wa.
  eapply payload_total; eauto.
Qed.

Lemma same_payload_lt_l p q r : same_payload p q -> payload_lt q r -> payload_lt p r.
Proof.
  intros H L; inversion H; subst; try assumption; inversion L; subst; constructor;
    unfold sf_lt in *; destruct y as [x|x| |x m e]; try destruct x; cbn in *; try congruence.
Qed.
Lemma same_payload_lt_r p q r : same_payload p q -> payload_lt r q -> payload_lt r p.
Proof.
  intros H L; inversion H; subst; try assumption; inversion L; subst; constructor;
    unfold sf_lt in *; destruct x as [x|x| |x m e]; try destruct x; cbn in *; try congruence.
Qed.
Lemma same_payload_sym p q : same_payload p q -> same_payload q p.
Proof. intros H; inversion H; constructor. Qed.
Lemma same_payload_irrel p q : same_payload p q -> ~ payload_lt p q.
Proof.
  intros H L. inversion H; subst; inversion L; subst; try lia;
   try (match goal with E : sf_lt _ _ |- _ => apply sfltb_lt in E; revert E; first [rewrite sfltb_irrefl | cbv]; congruence end).
  match goal with E : str_lt _ _ |- _ => apply str_ltb_spec in E; rewrite str_ltb_irrefl in E; discriminate end.
Qed.

Lemma same_value_incomparable a b : good a -> good b -> same_value a b -> lmt a b = false /\ lmt b a = false.
Proof.
  intros Ga Gb [E S]. split.
  - destruct (lmt a b) eqn:L; [exfalso|reflexivity]. apply lmt_spec in L; try (apply good_wt; assumption).
    destruct L as [L|[_ L]]; [lia|]. eapply same_payload_irrel; eassumption.
  - destruct (lmt b a) eqn:L; [exfalso|reflexivity]. apply lmt_spec in L; try (apply good_wt; assumption).
    destruct L as [L|[_ L]]; [lia|]. eapply same_payload_irrel; [apply same_payload_sym|]; eassumption.
Qed.

Lemma lmt_cotrans a b c : good a -> good b -> good c -> lmt a c = true -> lmt a b = true \/ lmt b c = true.
Proof.
  intros Ga Gb Gc H. destruct (lmt a b) eqn:E; [auto|]. right.
  destruct (lmt b a) eqn:E2; [eapply lmt_trans; [| | |exact E2|exact H]; assumption|].
  destruct (lmt_total a b Ga Gb E E2) as [ET ES].
  apply lmt_spec; try (apply good_wt; assumption).
  apply lmt_spec in H; try (apply good_wt; assumption).
  destruct H as [H|[H1 H2]]; [left; lia|]. right. split; [lia|].
  eapply same_payload_lt_l; [apply same_payload_sym; eassumption|assumption].
Qed.

(** ** Any *)
Lemma good_any : good Any.
Proof. split; [constructor|]. intros [H|H]; discriminate. Qed.

Lemma less_any_l e : ev_type e = T_any -> forall x, less_go e x = Some false.
Proof. intros H x. unfold less_go, dt_less, lessValue. rewrite H, Z.eqb_refl. simpl. rewrite orb_true_r. reflexivity. Qed.
Lemma less_any_r e : ev_type e = T_any -> forall x, less_go x e = Some false.
Proof. intros H x. unfold less_go, dt_less, lessValue. rewrite H, Z.eqb_refl. simpl. rewrite orb_true_r. reflexivity. Qed.

Lemma less_lmt_concrete a b : ev_type a <> T_any -> ev_type b <> T_any -> less_go a b = lmt_go a b.
Proof.
  intros Ha Hb. unfold less_go, lmt_go, dt_less, dt_lmt, lessValue, lessValueMatchType.
  apply Z.eqb_neq in Ha. apply Z.eqb_neq in Hb. rewrite Ha, Hb. reflexivity.
Qed.


Lemma lmt_any_greatest e : good e -> lmt Any e = false.
Proof.
  intros [H _]. unfold lmt, lmt_go, dt_lmt. simpl.
  destruct (Z.ltb_spec T_any (ev_type e)).
  - apply well_typed_tag in H. unfold known_tag, T_any in *. lia.
  - destruct (ev_type e <? T_any); reflexivity.
Qed.
Lemma lmt_below_any e : good e -> ev_type e <> T_any -> lmt e Any = true.
Proof.
  intros [H _] N. unfold lmt, lmt_go, dt_lmt. simpl.
  destruct (Z.ltb_spec (ev_type e) T_any); [reflexivity|].
  apply well_typed_tag in H. unfold known_tag, T_any in *. lia.
Qed.

Lemma lmt_type_le a b : good a -> good b -> lmt a b = true -> ev_type a <= ev_type b.
Proof. intros Ga Gb H. apply lmt_spec in H; try (apply good_wt; assumption). destruct H as [|[]]; lia. Qed.
Lemma type_lt_lmt a b : ev_type a < ev_type b -> lmt a b = true.
Proof. intros H. unfold lmt, lmt_go, dt_lmt. destruct (Z.ltb_spec (ev_type a) (ev_type b)); [reflexivity|lia]. Qed.

(** ** Encoding *)
Lemma digit_val_digit d : (d < 10)%N -> digit_val (digit d) = Some d.
Proof.
  intros H. unfold digit_val, digit. rewrite N_ascii_embedding by lia.
  destruct (N.leb_spec 48 (48 + d)), (N.leb_spec (48 + d) 57); cbn [andb]; try lia. f_equal. lia.
Qed.

Fixpoint pow10 (s : string) : N := match s with EmptyString => 1 | String _ r => 10 * pow10 r end%N.

Lemma parse_digits_acc s : forall acc,
  parse_digits s acc = match parse_digits s 0 with Some n => Some (acc * pow10 s + n)%N | None => None end.
Proof.
  induction s as [|c s IH]; intros acc; cbn [parse_digits pow10].
  - f_equal. lia.
  - destruct (digit_val c) as [d|]; [|reflexivity].
    rewrite IH, (IH (10 * 0 + d)%N). destruct (parse_digits s 0); [f_equal; lia|reflexivity].
Qed.

Lemma size_nat_size x : N.of_nat (N.size_nat x) = N.size x.
Proof.
  destruct x as [|x]; [reflexivity|]. unfold N.size_nat, N.size.
  induction x as [x IH|x IH|]; cbn [Pos.size_nat Pos.size]; rewrite ?Nat2N.inj_succ; lia.
Qed.

Lemma fmt_fuel_parse : forall fuel n acc m,
  (N.size_nat n < fuel)%nat ->
  parse_digits acc 0 = Some m ->
  parse_digits (fmt_uint_fuel fuel n acc) 0 = Some (n * pow10 acc + m)%N
  /\ fmt_uint_fuel fuel n acc <> EmptyString.
Proof.
  induction fuel as [|f IH]; intros n acc m Hf Hm; [lia|].
  cbn [fmt_uint_fuel].
  assert (Hd : digit_val (digit (n mod 10)) = Some (n mod 10)%N) by (apply digit_val_digit; apply N.mod_lt; lia).
  assert (P : parse_digits (String (digit (n mod 10)) acc) 0 = Some (n mod 10 * pow10 acc + m)%N).
  { cbn [parse_digits]. rewrite Hd, parse_digits_acc, Hm. f_equal. }
  destruct (N.eqb_spec (n / 10) 0) as [E|E].
  - split; [|discriminate]. rewrite P. f_equal.
    pose proof (N.div_mod n 10). assert (n mod 10 = n)%N by lia. congruence.
  - destruct (IH (n / 10)%N (String (digit (n mod 10)) acc) (n mod 10 * pow10 acc + m)%N) as [I1 I2]; [|exact P|].
    + assert (0 < n)%N by (destruct n; [cbv in E; congruence|lia]).
      assert ((n / 10 < n)%N) by (apply N.div_lt; lia).
      assert (N.size_nat (n/10) < N.size_nat n)%nat; [|lia].
      pose proof (size_nat_size n). pose proof (size_nat_size (n / 10)%N).
      rewrite (N.size_log2 n) in * by lia. rewrite (N.size_log2 (n/10)) in * by lia.
      assert (N.log2 (n / 10) < N.log2 n)%N; [|lia].
      apply N.log2_lt_pow2; [lia|].
      assert (2 ^ N.succ (N.log2 n) <= 2 * 2 ^ (N.log2 n))%N by (rewrite N.pow_succ_r'; lia).
      pose proof (N.log2_spec n ltac:(lia)) as [L1 L2].
      apply N.div_lt_upper_bound; lia.
    + split; [|exact I2]. rewrite I1. cbn [pow10]. f_equal.
      pose proof (N.div_mod n 10). nia.
Qed.

Lemma fmt_uint_parse n : parse_digits (fmt_uint n) 0 = Some n /\ fmt_uint n <> EmptyString.
Proof.
  unfold fmt_uint. destruct (fmt_fuel_parse (S (N.size_nat n)) n EmptyString 0) as [H1 H2]; [lia|reflexivity|].
  split; [|exact H2]. rewrite H1. cbn [pow10]. f_equal. lia.
Qed.

Lemma parse_fmt_uint n bits : (n < 2 ^ bits)%N -> parse_uint (fmt_uint n) bits = Some n.
Proof.
  intros H. destruct (fmt_uint_parse n) as [P E]. unfold parse_uint.
  destruct (fmt_uint n) as [|c r] eqn:F; [congruence|]. rewrite P.
  destruct (N.ltb_spec n (2 ^ bits)); [reflexivity|lia].
Qed.

Lemma digit_head n c r : fmt_uint n = String c r -> Ascii.eqb c "+" = false /\ Ascii.eqb c "-" = false.
Proof.
  intros F. destruct (fmt_uint_parse n) as [P _]. rewrite F in P. cbn [parse_digits] in P.
  destruct (digit_val c) eqn:D; [|discriminate]. unfold digit_val in D.
  destruct (Ascii.eqb_spec c "+"); [subst; discriminate|].
  destruct (Ascii.eqb_spec c "-"); [subst; discriminate|]. auto.
Qed.

Lemma parse_fmt_int z bits :
  (- 2 ^ (Z.of_N bits - 1) <= z < 2 ^ (Z.of_N bits - 1)) -> (1 <= bits)%N ->
  parse_int (fmt_int z) bits = Some z.
Proof.
  intros H Hb. unfold fmt_int, parse_int.
  assert (C : Z.of_N (2 ^ (bits - 1)) = 2 ^ (Z.of_N bits - 1)).
  { rewrite N2Z.inj_pow. f_equal. rewrite N2Z.inj_sub by lia. reflexivity. }
  destruct (Z.ltb_spec z 0) as [L|L].
  - destruct (Ascii.eqb_spec "-" "+"); [discriminate|]. rewrite Ascii.eqb_refl.
    destruct (fmt_uint_parse (Z.to_N (- z))) as [P E].
    destruct (fmt_uint (Z.to_N (- z))) as [|c r]; [congruence|]. rewrite P.
    destruct (N.ltb_spec (2 ^ (bits - 1)) (Z.to_N (- z))); [lia|]. f_equal. lia.
  - destruct (fmt_uint_parse (Z.to_N z)) as [P E].
    destruct (fmt_uint (Z.to_N z)) as [|c r] eqn:F; [congruence|].
    destruct (digit_head _ _ _ F) as [-> ->]. rewrite P.
    destruct (N.leb_spec (2 ^ (bits - 1)) (Z.to_N z)); [lia|]. f_equal. lia.
Qed.

Definition not_float (p : payload) : Prop :=
  match p with PFloat32 _ | PFloat64 _ => False | _ => True end.

Lemma decode_encode ff pf t p :
  well_typed t p -> go_payload p ->
  (match p with PFloat32 f => pf false (ff false f) = Some f | PFloat64 f => pf true (ff true f) = Some f | _ => True end) ->
  exists w, stringEncoding ff t p = Some w /\ stringDecoding pf t w = Some p.
Proof.
  intros W G F. inversion W; subst; cbn in G, F; cbn -[fmt_uint fmt_int dec_uint dec_int Z.to_N];
    eexists; (split; [reflexivity|]); cbn -[fmt_uint fmt_int dec_uint dec_int Z.to_N].
  1-5: unfold dec_uint; rewrite parse_fmt_uint by lia; rewrite Z2N.id by lia; reflexivity.
  1-5: unfold dec_int; rewrite parse_fmt_int by lia; reflexivity.
  - rewrite F; reflexivity.
  - rewrite F; reflexivity.
  - reflexivity.
  - reflexivity.
Qed.

Lemma encode_inj ff t p q w :
  well_typed t p -> well_typed t q -> go_payload p -> go_payload q -> not_float p -> not_float q ->
  stringEncoding ff t p = Some w -> stringEncoding ff t q = Some w -> p = q.
Proof.
  intros Wp Wq Gp Gq Np Nq Ep Eq.
  destruct (decode_encode ff (fun _ _ => None) t p) as (w1 & A1 & A2); auto. { destruct p; auto; destruct Np. }
  destruct (decode_encode ff (fun _ _ => None) t q) as (w2 & B1 & B2); auto. { destruct q; auto; destruct Nq. }
  congruence.
Qed.

Lemma parse_uint_range s bits n : parse_uint s bits = Some n -> (n < 2 ^ bits)%N.
Proof.
  unfold parse_uint. destruct s; [discriminate|]. destruct (parse_digits _ _); [|discriminate].
  destruct (N.ltb_spec n0 (2 ^ bits)); intros H1; inversion H1; subst; assumption.
Qed.
Lemma parse_int_range s bits z : (1 <= bits)%N -> parse_int s bits = Some z ->
  - 2 ^ (Z.of_N bits - 1) <= z < 2 ^ (Z.of_N bits - 1).
Proof.
  intros Hb.
  assert (C : Z.of_N (2 ^ (bits - 1)) = 2 ^ (Z.of_N bits - 1)).
  { rewrite N2Z.inj_pow. f_equal. rewrite N2Z.inj_sub by lia. reflexivity. }
  assert (P : 0 < 2 ^ (Z.of_N bits - 1)) by (apply Z.pow_pos_nonneg; lia).
  unfold parse_int. cbv zeta beta.
  assert (G : forall (neg : bool) r, match r with
    | EmptyString => None
    | _ => match parse_digits r 0 with
           | Some n => if neg then if (2 ^ (bits - 1) <? n)%N then None else Some (- Z.of_N n)
               else if (2 ^ (bits - 1) <=? n)%N then None else Some (Z.of_N n)
           | None => None end end = Some z -> - 2 ^ (Z.of_N bits - 1) <= z < 2 ^ (Z.of_N bits - 1)).
  { intros neg r. destruct r; [discriminate|]. destruct (parse_digits _ _) as [n|]; [|discriminate].
    destruct neg.
    - destruct (N.ltb_spec (2 ^ (bits - 1)) n); [discriminate|]. intros H1; inversion H1; subst. lia.
    - destruct (N.leb_spec (2 ^ (bits - 1)) n); [discriminate|]. intros H1; inversion H1; subst. lia. }
  destruct s as [|c r]; [discriminate|].
  destruct (Ascii.eqb c "+"); [apply (G false)|].
  destruct (Ascii.eqb c "-"); [apply (G true)|apply (G false (String c r))].
Qed.

(** Whatever decodes is well typed and within the Go range of its kind. *)
Lemma decode_sound pf t w p : stringDecoding pf t w = Some p -> well_typed t p /\ go_payload p.
Proof.
  unfold stringDecoding.
  destruct (AnyDataType t) eqn:A.
  { destruct w; intros H; inversion H; subst. unfold AnyDataType in A. apply Z.eqb_eq in A. subst. split; constructor. }
  destruct (GeneralDataTypes t) eqn:G; [|discriminate].
  destruct w as [|s|]; [discriminate| |discriminate].
  unfold dec_uint, dec_int.
  repeat match goal with
  | |- context [if (t =? ?y) then _ else _] => destruct (Z.eqb_spec t y) as [->|]
  end.
  all: try (destruct (parse_uint s _) as [vv|] eqn:P; [|discriminate]; intros H; inversion H; subst;
            apply parse_uint_range in P; split; [constructor|]; unfold go_payload, kind_min, kind_max; lia).
  all: try (destruct (parse_int s _) as [vv|] eqn:P; [|discriminate]; intros H; inversion H; subst;
            apply parse_int_range in P; [|lia]; split; [constructor|]; unfold go_payload, kind_min, kind_max; lia).
  all: try (destruct (pf _ s); intros H; inversion H; subst; split; constructor).
  intros H; inversion H; subst; split; constructor.
  discriminate.
Qed.

Lemma decode_unknown pf t w : ~ known_tag t -> stringDecoding pf t w = None.
Proof.
  intros H. pose proof (known_tag_dec t) as K. unfold stringDecoding.
  destruct (AnyDataType t); [exfalso; apply H, K; reflexivity|].
  destruct (GeneralDataTypes t); [exfalso; apply H, K; reflexivity|]. reflexivity.
Qed.

(** ** Type restrictions *)
Lemma tr_validate_iff r :
  tr_validate r = true <-> known_tag (tr_min r) /\ known_tag (tr_max r) /\ tr_min r <= tr_max r.
Proof.
  unfold tr_validate. rewrite !known_tag_dec.
  rewrite (orb_comm (AnyDataType (tr_min r))), (orb_comm (AnyDataType (tr_max r))).
  destruct (GeneralDataTypes (tr_min r) || AnyDataType (tr_min r)),
    (GeneralDataTypes (tr_max r) || AnyDataType (tr_max r)); simpl; split; intros; try lia.
Qed.
Lemma tr_within_iff r t : tr_within r t = true <-> tr_min r <= t <= tr_max r.
Proof. unfold tr_within. destruct (Z.ltb_spec t (tr_min r)), (Z.ltb_spec (tr_max r) t); split; intros; try lia; congruence. Qed.
Lemma dt_validate_iff t mn mx : dt_validate t mn mx = true <-> known_tag t /\ mn <= t <= mx.
Proof.
  unfold dt_validate. rewrite known_tag_dec.
  destruct (Z.ltb_spec t mn), (Z.ltb_spec mx t); simpl; split; intros; try lia; try congruence; tauto.
Qed.
