(** Proofs about [QueueLocks.v]. *)
From Coq Require Import List Bool Arith Lia.
Import ListNotations.
From Verif Require Import QueueLocks.

Lemma nth_set rs i r j : i < length rs -> nth_error (set_req rs i r) j = if Nat.eqb j i then Some r else nth_error rs j.
Proof.
  revert i j. induction rs as [|x rs IH]; intros i j L; cbn in L; [lia|]. destruct i as [|i], j as [|j]; cbn; auto. apply IH. lia.
Qed.
Lemma length_set rs i r : length (set_req rs i r) = length rs.
Proof. revert i. induction rs as [|x rs IH]; intros [|i]; cbn; auto. Qed.
Lemma nth_lt {A} (l : list A) i x : nth_error l i = Some x -> i < length l.
Proof. intros H. apply nth_error_Some. congruence. Qed.

Section Tree.
  Variable parent : nat -> nat.
  (** The locks above the next one are held, the nearest first *)
  Record rok (r : req) : Prop := {
    ro_way : r_done r = false -> match r_held r with n :: _ => way parent n (r_todo r) | [] => exists p, r_todo r = 0 :: p /\ way parent 0 p end;
    ro_chain : forall a n m b, r_held r = a ++ n :: m :: b -> n <> 0 /\ parent n = m;
    ro_done : r_done r = true -> r_held r = [] /\ r_asked r = false /\ r_todo r = [];
    ro_read : r_write r = false -> r_asked r = false /\ length (r_held r) <= 2;
    ro_ask : r_asked r = true -> r_todo r <> [] }.
  Lemma push_ok n todo held : match held with m :: _ => way parent m (n :: todo) | [] => exists p, n :: todo = 0 :: p /\ way parent 0 p end ->
    (forall a n m b, held = a ++ n :: m :: b -> n <> 0 /\ parent n = m) ->
    way parent n todo /\ forall a n1 m b, n :: held = a ++ n1 :: m :: b -> n1 <> 0 /\ parent n1 = m.
  Proof.
    intros W C. assert (X : match held with n0 :: _ => n <> 0 /\ parent n = n0 | [] => n = 0 end /\ way parent n todo).
    { destruct held as [|n0 h]; [destruct W as (p & [= -> ->] & W); auto|inversion W; subst; auto]. }
    destruct X as [X X2]. split; [exact X2|]. intros a n1 m1 b E. destruct a as [|a0 a]; cbn in E; [injection E as <- E; subst held; exact X|injection E as <- E; eapply C; eauto].
  Qed.
  Lemma rstep_ok rs i r r' : rstep rs i r r' -> rok r -> rok r'.
  Proof.
    intros S R. destruct R as [W C D RD AK].
    assert (ONE : forall (n : nat) a n1 m b, [n] = a ++ n1 :: m :: b -> n1 <> 0 /\ parent n1 = m) by (intros ? [|? [|]] ? ? ? X; discriminate X).
    assert (NIL : forall a n1 m b, [] = a ++ n1 :: m :: b -> n1 <> 0 /\ parent n1 = m) by (intros [|? [|]] ? ? ? X; discriminate X).
    destruct S; cbn [r_write r_todo r_held r_asked r_done] in *; specialize (W eq_refl).
    - destruct (push_ok n todo held W C) as [P1 P2]. constructor; cbn [r_write r_todo r_held r_asked r_done]; try discriminate; auto. intros _. cbn. split; [reflexivity|lia].
    - constructor; cbn [r_write r_todo r_held r_asked r_done]; try discriminate; eauto; try (intros _; cbn; split; [reflexivity|lia]).
    - constructor; cbn [r_write r_todo r_held r_asked r_done]; try discriminate; eauto; try (intros _; cbn; split; [reflexivity|lia]).
    - constructor; cbn [r_write r_todo r_held r_asked r_done]; try discriminate; auto.
    - destruct (push_ok n todo held W C) as [P1 P2]. constructor; cbn [r_write r_todo r_held r_asked r_done]; try discriminate; auto.
    - constructor; cbn [r_write r_todo r_held r_asked r_done]; try discriminate; eauto.
    - constructor; cbn [r_write r_todo r_held r_asked r_done]; try discriminate; eauto.
  Qed.
  Lemma qlreach_ok rs : qlreach parent rs -> forall i r, nth_error rs i = Some r -> rok r.
  Proof.
    induction 1 as [|rs l rs' H IH S]; intros i r E; [destruct i; discriminate|]. inversion S; subst.
    - destruct (Nat.lt_ge_cases i (length rs)) as [L | L]; [rewrite nth_error_app1 in E by exact L; eauto|]. rewrite nth_error_app2 in E by exact L.
      destruct (i - length rs) as [|[|]]; try discriminate. injection E as <-. constructor; cbn; try discriminate; auto.
      + intros _. eauto.
      + intros [|? []] ? ? ? X; discriminate X.
    - rewrite nth_set in E by (eapply nth_lt; eauto). destruct (Nat.eqb_spec i i0) as [->|]; [injection E as <-; eapply rstep_ok; eauto|eauto].
  Qed.
  (** *** Lookups among themselves *)
  Definition left (r : req) : nat := if r_done r then 0 else 2 * length (r_todo r) + length (r_held r) + 1 + (if r_write r then 3 * length (r_todo r) + (if r_asked r then 0 else 1) else 0).
  Lemma rstep_less rs i r r' : rstep rs i r r' -> left r' < left r.
  Proof. intros S. destruct S; unfold left; cbn [r_write r_todo r_held r_asked r_done length]; lia. Qed.

  Lemma lookup_step rs i r : qlreach parent rs -> nth_error rs i = Some r -> r_write r = false -> r_done r = false ->
    (forall j rj, nth_error rs j = Some rj -> r_write rj = true -> r_held rj = [] /\ r_asked rj = false) -> exists r', rstep rs i r r'.
  Proof.
    intros R E W D H. pose proof (qlreach_ok rs R i r E) as K. destruct K as [RW _ _ RD _]. destruct r as [wr todo held ask dn]. cbn [r_write r_todo r_held r_asked r_done] in *. subst wr dn.
    destruct (RD eq_refl) as [-> L]. destruct held as [|n [|m [|]]]; cbn in L; try lia.
    - destruct (RW eq_refl) as (p & -> & _). eexists. apply R_take; [cbn; lia|]. intros j rj Ej _ Wj. destruct (H j rj Ej Wj) as [-> ->]. split; [intros []|intros [X _]; discriminate].
    - destruct todo as [|n' todo]; [eexists; apply R_end|]. eexists. apply R_take; [cbn; lia|]. intros j rj Ej _ Wj. destruct (H j rj Ej Wj) as [-> ->]. split; [intros []|intros [X _]; discriminate].
    - eexists. apply R_drop.
  Qed.

  (** *** No deadlock *)
  Hypothesis DOWN : forall m, m <> 0 -> parent m < m.
  Lemma held_below r n n' t : rok r -> r_done r = false -> In n (r_held r) -> r_todo r = n' :: t -> n < n'.
  Proof.
    intros [W C _ _ _] D HI HT. specialize (W D). destruct (r_held r) as [|h l] eqn:E; [destruct HI|]. rewrite HT in W. inversion W; subst.
    assert (X : forall l a h, (forall a n m b, h :: l = a ++ n :: m :: b -> n <> 0 /\ parent n = m) -> In a (h :: l) -> a <= h).
    { clear - DOWN. induction l as [|y l IH]; intros a h C [<- | HI]; auto; [destruct HI|]. destruct (C [] h y l eq_refl) as [NZ P]. specialize (DOWN h NZ). rewrite P in DOWN.
      assert (a <= y); [|lia]. apply IH; [|exact HI]. intros a0 n m b X. apply (C (h :: a0) n m b). cbn. rewrite X. reflexivity. }
    specialize (X l n (parent n') C HI). match goal with N : n' <> 0 |- _ => specialize (DOWN n' N) end. lia.
  Qed.
  Lemma held_undone r n : rok r -> In n (r_held r) -> r_done r = false.
  Proof. intros K HI. destruct (r_done r) eqn:D; [|reflexivity]. destruct (ro_done r K D) as [E _]. rewrite E in HI. destruct HI. Qed.
  Definition can_step (rs : list req) : Prop := exists i r r', nth_error rs i = Some r /\ rstep rs i r r'.
  Lemma holder rs n : (forall i r n' t, nth_error rs i = Some r -> r_done r = false -> r_todo r = n' :: t -> n < n' -> can_step rs) ->
    qlreach parent rs -> forall j rj, nth_error rs j = Some rj -> In n (r_held rj) -> can_step rs.
  Proof.
    intros IH R j rj Ej HI. pose proof (qlreach_ok rs R j rj Ej) as K. pose proof (held_undone rj n K HI) as D. destruct (r_todo rj) as [|n' t] eqn:ET.
    - destruct K as [_ _ _ RD AK]. exists j, rj. destruct rj as [wr todo held ask dn]. cbn [r_write r_todo r_held r_asked r_done] in *. subst dn todo. destruct wr.
      + destruct ask; [destruct (AK eq_refl eq_refl)|]. eexists. split; [exact Ej|apply W_end].
      + destruct (RD eq_refl) as [-> L]. destruct held as [|a [|b [|]]]; cbn in L; try lia; [destruct HI|eexists; split; [exact Ej|apply R_end]|eexists; split; [exact Ej|apply R_drop]].
    - apply (IH j rj n' t Ej D ET). eapply held_below; eauto.
  Qed.
  Lemma anybody rs i n : (exists j r, nth_error rs j = Some r /\ j <> i /\ In n (r_held r)) \/ nobody rs i n.
  Proof.
    assert (X : forall l k, (exists j r, nth_error l j = Some r /\ j + k <> i /\ In n (r_held r)) \/ forall j r, nth_error l j = Some r -> j + k <> i -> ~ In n (r_held r)).
    { induction l as [|r l IH]; intros k; [right; intros [|]; discriminate|]. destruct (IH (S k)) as [(j & r' & H1 & H2 & H3) | H].
      - left. exists (S j), r'. cbn. split; [exact H1|]. split; [lia|exact H3].
      - destruct (Nat.eq_dec k i) as [EK | NK].
        + right. intros [|j] r' E NE; [cbn in NE; lia|]. apply (H j r' E). lia.
        + destruct (in_dec Nat.eq_dec n (r_held r)) as [HI | HI]; [left; exists 0, r; cbn; auto|]. right. intros [|j] r' E NE; [cbn in E; injection E as <-; exact HI|]. apply (H j r' E). lia. }
    destruct (X rs 0) as [(j & r & H1 & H2 & H3) | H]; [left; exists j, r; rewrite Nat.add_0_r in H2; auto|right]. intros j r E NE. apply (H j r E). lia.
  Qed.
  Lemma anyone rs i n : (exists j r, nth_error rs j = Some r /\ j <> i /\ r_write r = true /\ (In n (r_held r) \/ r_asked r = true /\ hd_error (r_todo r) = Some n)) \/ no_writer rs i n.
  Proof.
    set (bad := fun r => r_write r = true /\ (In n (r_held r) \/ r_asked r = true /\ hd_error (r_todo r) = Some n)).
    assert (DEC : forall r, bad r \/ ~ bad r).
    { intros r. unfold bad. destruct (r_write r); [|right; intros [X _]; discriminate]. destruct (in_dec Nat.eq_dec n (r_held r)); [left; auto|]. destruct (r_asked r); [|right; intros [_ [|[X _]]]; [auto|discriminate]].
      destruct (r_todo r) as [|m t]; [right; intros [_ [|[_ X]]]; [auto|discriminate]|]. cbn. destruct (Nat.eq_dec m n) as [->|N]; [left; auto|right; intros [_ [|[_ X]]]; [auto|congruence]]. }
    assert (X : forall l k, (exists j r, nth_error l j = Some r /\ j + k <> i /\ bad r) \/ forall j r, nth_error l j = Some r -> j + k <> i -> ~ bad r).
    { induction l as [|r l IH]; intros k; [right; intros [|]; discriminate|]. destruct (IH (S k)) as [(j & r' & H1 & H2 & H3) | H].
      - left. exists (S j), r'. cbn. split; [exact H1|]. split; [lia|exact H3].
      - destruct (Nat.eq_dec k i) as [EK | NK].
        + right. intros [|j] r' E NE; [cbn in NE; lia|]. apply (H j r' E). lia.
        + destruct (DEC r) as [HI | HI]; [left; exists 0, r; cbn; auto|]. right. intros [|j] r' E NE; [cbn in E; injection E as <-; exact HI|]. apply (H j r' E). lia. }
    destruct (X rs 0) as [(j & r & H1 & H2 & H3) | H]; [left; exists j, r; rewrite Nat.add_0_r in H2; unfold bad in H3; tauto|right]. intros j r E NE WR. specialize (H j r E ltac:(lia)). unfold bad in H. tauto.
  Qed.
  Lemma wanted_step rs B : qlreach parent rs -> (forall i r n t, nth_error rs i = Some r -> r_todo r = n :: t -> n <= B) ->
    forall d n, B - n < d -> forall i r t, nth_error rs i = Some r -> r_done r = false -> r_todo r = n :: t -> can_step rs.
  Proof.
    intros R HB. induction d as [|d IH]; intros n LT i r t E D ET; [lia|].
    assert (UP : forall i r n' t, nth_error rs i = Some r -> r_done r = false -> r_todo r = n' :: t -> n < n' -> can_step rs).
    { intros i0 r0 n' t0 E0 D0 ET0 L. apply (IH n' ltac:(pose proof (HB _ _ _ _ E0 ET0); lia) i0 r0 t0 E0 D0 ET0). }
    pose proof (holder rs n UP R) as HOLD.
    assert (ASKED : forall i r t, nth_error rs i = Some r -> r_write r = true -> r_asked r = true -> r_done r = false -> r_todo r = n :: t -> can_step rs).
    { intros i0 r0 t0 E0 W0 A0 D0 ET0. destruct (anybody rs i0 n) as [(j & rj & Ej & _ & HI) | NB]; [eapply HOLD; eauto|].
      destruct r0 as [wr todo held ask dn]. cbn [r_write r_todo r_held r_asked r_done] in *. subst wr todo ask dn. exists i0, (mkReq true (n :: t0) held true false), (mkReq true t0 (n :: held) false false). split; [exact E0|]. apply W_take. exact NB. }
    pose proof (qlreach_ok rs R i r E) as K. destruct (r_asked r) eqn:A.
    { destruct (r_write r) eqn:W; [eapply ASKED; eauto|]. destruct (ro_read r K W) as [X _]. congruence. }
    destruct (anyone rs i n) as [(j & rj & Ej & NE & Wj & [HI | [Aj Hj]]) | NW].
    - eapply HOLD; eauto.
    - destruct (r_todo rj) as [|n0 t0] eqn:ETj; [discriminate|]. cbn in Hj. injection Hj as ->. apply (ASKED j rj t0 Ej Wj Aj); [|exact ETj].
      destruct (r_done rj) eqn:Dj; [|reflexivity]. destruct (ro_done rj (qlreach_ok rs R j rj Ej) Dj) as (_ & X & _). congruence.
    - destruct r as [wr todo held ask dn]. cbn [r_write r_todo r_held r_asked r_done] in *. subst todo ask dn. destruct wr.
      + exists i, (mkReq true (n :: t) held false false), (mkReq true (n :: t) held true false). split; [exact E|]. apply W_ask. exact NW.
      + destruct (ro_read _ K eq_refl) as [_ L]. cbn [r_held] in L. destruct held as [|a [|b [|]]]; cbn in L; try lia.
        * eexists i, _, _. split; [exact E|]. apply R_take; [cbn; lia|exact NW].
        * eexists i, _, _. split; [exact E|]. apply R_take; [cbn; lia|exact NW].
        * eexists i, _, _. split; [exact E|]. apply R_drop.
  Qed.
  Lemma no_deadlock rs i r : qlreach parent rs -> nth_error rs i = Some r -> r_done r = false -> exists j rs', qlstep parent rs (LReq j) rs'.
  Proof.
    intros R E D. assert (CS : can_step rs).
    { pose proof (qlreach_ok rs R i r E) as K. destruct (r_todo r) as [|n t] eqn:ET.
      - pose proof (ro_way r K D) as W. rewrite ET in W. destruct (r_held r) as [|h l] eqn:EH; [destruct W as (p & X & _); discriminate|].
        destruct K as [_ _ _ RD AK]. exists i, r. destruct r as [wr todo held ask dn]. cbn [r_write r_todo r_held r_asked r_done] in *. subst dn todo held. destruct wr.
        + destruct ask; [destruct (AK eq_refl eq_refl)|]. eexists. split; [exact E|apply W_end].
        + destruct (RD eq_refl) as [-> L]. destruct l as [|b [|]]; cbn in L; try lia; [eexists; split; [exact E|apply R_end]|eexists; split; [exact E|apply R_drop]].
      - assert (HB : exists B, forall i r n t, nth_error rs i = Some r -> r_todo r = n :: t -> n <= B).
        { clear. induction rs as [|x rs (B & IH)]; [exists 0; intros [|]; discriminate|]. exists (B + hd 0 (r_todo x)). intros [|i] r n t E ET; cbn in E; [injection E as <-; rewrite ET; cbn; lia|]. specialize (IH i r n t E ET). lia. }
        destruct HB as (B & HB). apply (wanted_step rs B R HB (S (B - n)) n ltac:(lia) i r t E D ET). }
    destruct CS as (j & rj & r' & Ej & S). exists j, (set_req rs j r'). eapply QL_step; eauto.
  Qed.
  Definition total (rs : list req) : nat := list_sum (map left rs).
  Lemma total_less rs j rs' : qlstep parent rs (LReq j) rs' -> total rs' < total rs.
  Proof.
    intros S. inversion S; subst. match goal with H : rstep _ _ _ _ |- _ => apply rstep_less in H; rename H into L end. match goal with H : nth_error _ _ = _ |- _ => rename H into E end.
    clear S. unfold total. revert j E. induction rs as [|x rs IH]; intros [|j] E; try discriminate; cbn [nth_error set_req map list_sum fold_right] in *.
    - injection E as ->. cbn. lia.
    - specialize (IH j E). unfold list_sum in *. lia.
  Qed.
End Tree.

(** *** A waiting request keeps the tree locked *)
Section Wait.
  Variable parent : nat -> nat.
  Variables (i j n : nat).
  Record stuck (rs : list req) : Prop := {
    st_ne : i <> j;
    st_wait : nth_error rs i = Some (mkReq false [] [n] false false);
    st_ask : exists todo held, nth_error rs j = Some (mkReq true (n :: todo) held true false) /\ In (parent n) held }.
  Lemma stuck_step rs l rs' : stuck rs -> l <> LReq i -> qlstep parent rs l rs' -> stuck rs' /\
    forall k r, nth_error rs k = Some r -> In (parent n) (r_todo r) -> exists r', nth_error rs' k = Some r' /\ In (parent n) (r_todo r') /\ r_done r' = r_done r.
  Proof.
    intros [NE SW (todo & held & SA & HP)] NL S. inversion S as [rs0 w p WY | rs0 k0 r0 r' Er S']; subst.
    - assert (KEEP : forall k r, nth_error rs k = Some r -> nth_error (rs ++ [mkReq w (0 :: p) [] false false]) k = Some r) by (intros k r E; rewrite nth_error_app1 by (eapply nth_lt; eauto); exact E).
      split; [constructor; eauto 6|]. intros k r E HI. eauto.
    - assert (NI : k0 <> i) by (intros ->; apply NL; reflexivity). assert (LT : k0 < length rs) by (eapply nth_lt; eauto).
      assert (NJ : k0 <> j).
      { intros ->. rewrite SA in Er. injection Er as <-. inversion S'; subst. match goal with H : nobody _ _ _ |- _ => apply (H i _ SW NE) end. left. reflexivity. }
      split; [constructor; [exact NE|rewrite nth_set by exact LT; destruct (Nat.eqb_spec i k0); [congruence|exact SW]|]|].
      { exists todo, held. split; [|exact HP]. rewrite nth_set by exact LT. destruct (Nat.eqb_spec j k0); [congruence|exact SA]. }
      intros k r E HI. rewrite nth_set by exact LT. destruct (Nat.eqb_spec k k0) as [->|NK]; [|eauto]. rewrite Er in E. injection E as ->. exists r'. split; [reflexivity|].
      assert (NW : ~ no_writer rs k0 (parent n)) by (intros H; destruct (H j _ SA ltac:(congruence) eq_refl) as [X _]; exact (X HP)).
      assert (NB : ~ nobody rs k0 (parent n)) by (intros H; exact (H j _ SA ltac:(congruence) HP)).
      inversion S'; subst; cbn [r_todo r_done] in *; auto; try (destruct HI; fail); (destruct HI as [-> | HI]; [contradiction|auto]).
  Qed.
  Lemma stuck_all rs rs' : without parent i rs rs' -> stuck rs -> stuck rs' /\
    forall k r, nth_error rs k = Some r -> In (parent n) (r_todo r) -> exists r', nth_error rs' k = Some r' /\ In (parent n) (r_todo r') /\ r_done r' = r_done r.
  Proof.
    induction 1 as [rs|rs rs1 l rs2 H IH NL S]; intros ST; [split; [exact ST|eauto]|]. destruct (IH ST) as [ST1 K1]. destruct (stuck_step rs1 l rs2 ST1 NL S) as [ST2 K2]. split; [exact ST2|].
    intros k r E HI. destruct (K1 k r E HI) as (r1 & E1 & HI1 & D1). destruct (K2 k r1 E1 HI1) as (r2 & E2 & HI2 & D2). exists r2. split; [exact E2|]. split; [exact HI2|congruence].
  Qed.
End Wait.
(** A new request cannot even begin when the writer waits for the root *)
Lemma stuck_new parent i j rs rs' : parent 1 = 0 -> without parent i rs rs' -> stuck parent i j 1 rs -> qlreach parent rs -> length rs <= length rs' /\
  forall k r, nth_error rs' k = Some r -> length rs <= k -> In 0 (r_todo r) /\ r_done r = false.
Proof.
  intros P1 W ST R. induction W as [rs|rs rs1 l rs2 H IH NL S].
  - split; [lia|]. intros k r E L. apply nth_lt in E. lia.
  - destruct (IH ST R) as [LE K1]. destruct (stuck_all parent i j 1 rs rs1 H ST) as [ST1 _]. destruct (stuck_step parent i j 1 rs1 l rs2 ST1 NL S) as [_ K2]. rewrite P1 in K2. inversion S as [rs0 w p WY | rs0 k0 r0 r' Er S']; subst.
    + split; [rewrite app_length; cbn; lia|]. intros k r E L. destruct (Nat.lt_ge_cases k (length rs1)) as [LK | LK].
      * rewrite nth_error_app1 in E by exact LK. eauto.
      * rewrite nth_error_app2 in E by exact LK. destruct (k - length rs1) as [|[|]]; try discriminate. injection E as <-. cbn. auto.
    + split; [rewrite length_set; exact LE|]. intros k r E L. assert (LK : k < length rs1) by (apply nth_lt in E; rewrite length_set in E; exact E).
      destruct (nth_error rs1 k) as [rk|] eqn:EK; [|apply nth_error_None in EK; lia]. destruct (K1 k rk EK L) as [HI D]. destruct (K2 k rk EK HI) as (r2 & E2 & HI2 & D2). rewrite E2 in E. injection E as ->. split; [exact HI2|congruence].
Qed.
