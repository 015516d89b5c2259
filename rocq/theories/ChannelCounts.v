(** Numbers: C40 and C42 *)
From Coq Require Import String List Bool Arith NArith ZArith Lia.
From Verif Require Import Channel SpecChannel ChannelProofs ChannelContents ChannelOrder.
Import ListNotations.

(** *** C40 *)
Definition max64 : N := 18446744073709551615.
Lemma incr64_small n : (n < max64)%N -> incr64 n = (n + 1)%N.
Proof. unfold incr64, max64. intros H. apply N.mod_small. change (2 ^ 64)%N with 18446744073709551616%N. lia. Qed.

Definition busy (x : item) : nat := match it_hb x with HbNone => 0 | _ => 1 end.
Lemma attempts_step c o a c' i x x' nh nu : qinv c -> effect c o a c' -> get i (items c) = Some x -> get i (items c') = Some x' ->
  writes i (o, a) = false -> (p_max (it_props x) < max64)%N ->
  N.of_nat nh = (it_count x + N.of_nat (nu + busy x))%N ->
  N.of_nat ((if hands_out i (o, a) then 1 else 0) + nh) =
  (it_count x' + N.of_nat ((if undelivered i (o, a) then 1 else 0) + nu + busy x'))%N.
Proof.
  intros Q H G G' W M I.
  assert (SAME : get i (items c') = get i (items c) -> hands_out i (o, a) = false -> undelivered i (o, a) = false ->
    N.of_nat ((if hands_out i (o, a) then 1 else 0) + nh) =
    (it_count x' + N.of_nat ((if undelivered i (o, a) then 1 else 0) + nu + busy x'))%N).
  { intros E -> ->. rewrite G', G in E. injection E as ->. cbn [plus]. exact I. }
  inversion H; subst.
  - apply SAME; try reflexivity. match goal with E : items c' = _ |- _ => rewrite E, get_put end. cbn [writes] in W. rewrite W. reflexivity.
  - apply SAME; reflexivity.
  - apply SAME; try reflexivity. match goal with E : items c' = _ |- _ => rewrite E, get_put end. cbn [writes] in W. rewrite W. reflexivity.
  - apply SAME; reflexivity.
  - apply SAME; reflexivity.
  - apply SAME; reflexivity.
  - apply SAME; reflexivity.
  - apply SAME; reflexivity.
  - apply SAME; [congruence| |].
    + destruct o; try reflexivity; nope.
    + repeat match goal with O : _ \/ _ |- _ => destruct O as [O|O] | O : exists _, _ |- _ => destruct O as [? O] end; subst;
        cbn [undelivered]; rewrite ?andb_false_r; reflexivity.
  - apply SAME; [congruence|reflexivity..].
  - apply SAME; [congruence|reflexivity..].
  - cbn [hands_out undelivered] in *. match goal with E : items c' = _ |- _ => rewrite E, get_put in G' end.
    destruct (Nat.eqb_spec i i0) as [->|].
    + injection G' as <-. assert (x0 = x) as -> by congruence. unfold busy in *. cbn [set_hb it_hb it_count].
      match goal with E : it_hb x = HbNone |- _ => rewrite E in I end. lia.
    + assert (x' = x) as -> by congruence; cbn [plus]; exact I.
  - cbn [hands_out undelivered] in *. match goal with E : items c' = _ |- _ => rewrite E, get_put in G' end.
    destruct (Nat.eqb_spec i i0) as [->|]; [|assert (x' = x) as -> by congruence; cbn [plus]; exact I].
    injection G' as <-. assert (x0 = x) as -> by congruence. unfold busy in *. cbn [set_hb it_hb it_count].
    match goal with E : it_hb x = _ |- _ => rewrite E in I end. lia.
  - apply SAME; reflexivity.
  - assert (x' = x) as -> by congruence; cbn [plus]; exact I.
  - cbn [hands_out undelivered] in *. match goal with E : items c' = _ |- _ => rewrite E, get_put in G' end.
    destruct (Nat.eqb_spec i i0) as [->|]; cbn [andb] in *; [|assert (x' = x) as -> by congruence; cbn [plus]; exact I].
    injection G' as <-. assert (x0 = x) as -> by congruence. unfold busy in *. cbn [set_hb it_hb it_count].
    match goal with E : it_hb x = _ |- _ => rewrite E in I end. lia.
  - cbn [hands_out undelivered] in *. match goal with E : items c' = _ |- _ => rewrite E, get_del in G' by apply Q end.
    destruct (Nat.eqb_spec i i0) as [->|]; cbn [andb] in *; [discriminate|]. assert (x' = x) as -> by congruence; cbn [plus]; exact I.
  - match goal with E : items c' = _ |- _ => rewrite E, get_del in G' by apply Q end.
    destruct (Nat.eqb_spec i i0) as [->|]; [discriminate|]. assert (x' = x) as -> by congruence; cbn [plus]; exact I.
  - assert (U0 : hands_out i (o, AFailed f) = false) by (destruct o; reflexivity).
    assert (U1 : undelivered i (o, AFailed f) = false) by (destruct o; reflexivity).
    destruct (Nat.eq_dec i i0) as [->|NE].
    + rewrite U0, U1. assert (x0 = x) as -> by congruence.
      assert (B1 : busy x = 1) by (unfold busy; destruct (it_hb x); intuition congruence).
      assert (C1 : incr64 (it_count x) = (it_count x + 1)%N).
      { apply incr64_small. pose proof (q_count c Q i0 x G). lia. }
      match goal with F : failed _ _ _ _ _ |- _ => destruct F as [? E|? ? ? ? E|? ? ? E|? ? ? E|w j y ? ? ? ? ? ? E] end;
        rewrite E in G'; rewrite ?get_del in G' by (try apply keys_put_nodup; apply Q); rewrite ?get_put, ?Nat.eqb_refl in G'; try discriminate.
      * injection G' as <-. unfold busy in *. cbn [it_hb it_count]. lia.
      * injection G' as <-. unfold busy in *. cbn [it_hb it_count]. lia.
      * destruct (Nat.eqb i0 j); [discriminate|]. injection G' as <-. unfold busy in *. cbn [it_hb it_count]. lia.
    + apply SAME; try assumption.
      match goal with F : failed _ _ _ _ _ |- _ => destruct F as [? E|? ? ? ? E|? ? ? E|? ? ? E|w j y ? ? ? ? ? ? E] end;
        rewrite E in *; rewrite ?get_del in * by (try apply keys_put_nodup; apply Q); rewrite ?get_put in *; split_eqb; congruence.
  - cbn [hands_out undelivered] in *. match goal with E : items c' = _ |- _ => rewrite E, get_put in G' end.
    destruct (Nat.eqb_spec i i0) as [->|]; [|assert (x' = x) as -> by congruence; cbn [plus]; exact I].
    injection G' as <-. assert (x0 = x) as -> by congruence. unfold busy in *. cbn [set_hb it_hb it_count].
    match goal with E : it_hb x = _ |- _ => rewrite E in I end. lia.
  - apply SAME; [congruence| |].
    + match goal with O : _ \/ _ |- _ => destruct O as [(-> & _)|[(-> & _)|(-> & _)]] end; reflexivity.
    + match goal with O : _ \/ _ |- _ => destruct O as [(-> & _)|[(-> & _)|(-> & _)]] end; reflexivity.
Qed.
Lemma written_effect c o a c' i x' : qinv c -> effect c o a c' -> writes i (o, a) = true -> get i (items c') = Some x' ->
  it_count x' = 0%N /\ it_hb x' = HbNone.
Proof.
  intros Q H W G. inversion H; subst; cbn [writes] in W; try discriminate W.
  - apply Nat.eqb_eq in W. subst. match goal with E : items c' = _ |- _ => rewrite E, get_put_same in G end. injection G as <-. auto.
  - apply Nat.eqb_eq in W. subst. match goal with E : items c' = _ |- _ => rewrite E, get_put_same in G end. injection G as <-. auto.
  - destruct o; nope.
  - destruct o; nope.
  - destruct o; nope.
Qed.

Lemma attempts tr c i x : reach tr c -> serving c -> get i (items c) = Some x -> (p_max (it_props x) < max64)%N ->
  N.of_nat (since i (hands_out i) tr) = (it_count x + N.of_nat (since i (undelivered i) tr + busy x))%N.
Proof.
  intros (e & r & E). revert i x. induction E as [|tr c o a c' E IH H]; intros i x S G M.
  - discriminate G.
  - assert (Q : qinv c) by (eapply qexec_inv; [apply qinv_new|exact E]).
    pose proof (serving_back _ _ _ _ H Q S) as S0. pose proof (step_effect _ _ _ _ Q S H) as EF.
    cbn [since]. destruct (writes i (o, a)) eqn:W.
    + destruct (written_effect c o a c' i x Q EF W G) as [C B]. rewrite C. unfold busy. rewrite B. reflexivity.
    + destruct (get i (items c)) as [y|] eqn:Gy.
      2:{ exfalso. assert (K : comes c i (o, a)).
          { eapply comes_effect; eauto; unfold stored; congruence. }
          inversion K; subst. cbn [writes] in W. rewrite Nat.eqb_refl in W. discriminate. }
      assert (C : it_props x = it_props y).
      { assert (CE : contents c' i = contents c i) by (eapply contents_effect; eauto; unfold stored; congruence).
        unfold contents in CE. rewrite G, Gy in CE. cbn in CE. congruence. }
      rewrite C in M. eapply attempts_step; eauto.
Qed.

Lemma handed_bound tr c i p : reach tr c -> serving c -> contents c i = Some p -> (p_max p < max64)%N ->
  (N.of_nat (since i (hands_out i) tr) <= p_max p + 1 + N.of_nat (since i (undelivered i) tr))%N.
Proof.
  intros R S C M. unfold contents in C. destruct (get i (items c)) as [x|] eqn:G; [|discriminate]. cbn in C. injection C as <-.
  rewrite (attempts tr c i x R S G M). pose proof (q_count c (reach_inv _ _ R) i x G).
  assert (busy x <= 1) by (unfold busy; destruct (it_hb x); lia). lia.
Qed.
(** dropped exactly when the attempts are used up *)
Lemma drop_step tr c o i p c' f : reach tr c -> serving c' -> (o = ONack i \/ o = OTimeout i) -> f <> Untouched ->
  contents c i = Some p -> (p_max p < max64)%N -> qstep c o = Some (c', AFailed f) ->
  (f = Dropped <-> N.of_nat (since i (hands_out i) tr) = (p_max p + 1 + N.of_nat (since i (undelivered i) tr))%N).
Proof.
  intros R S O NU C M H. pose proof (reach_inv _ _ R) as Q. pose proof (serving_back _ _ _ _ H Q S) as S0.
  pose proof (step_effect _ _ _ _ Q S H) as EF. unfold contents in C.
  destruct (get i (items c)) as [x|] eqn:G; [|discriminate]. cbn in C. injection C as <-.
  rewrite (attempts tr c i x R S0 G M). pose proof (q_count c Q i x G) as QC.
  inversion EF; subst; try nope.
  assert (i0 = i) as -> by (destruct O as [->| ->]; intuition congruence).
  assert (x0 = x) as -> by congruence.
  assert (B1 : busy x = 1) by (unfold busy; destruct (it_hb x); intuition congruence).
  assert (C1 : incr64 (it_count x) = (it_count x + 1)%N) by (apply incr64_small; lia).
  match goal with F : failed _ _ _ _ _ |- _ => destruct F end; split; intros; try discriminate; try reflexivity; lia.
Qed.

(** *** C42 *)
Definition bz (e : id * item) : bool := match it_hb (snd e) with HbNone => false | _ => true end.
Lemma np_put i x y l : get i l = Some x ->
  length (filter bz (put i y l)) + busy x = length (filter bz l) + busy y.
Proof.
  induction l as [|[j z] t IH]; cbn [get put filter]; [discriminate|].
  destruct (Nat.eqb i j) eqn:E.
  - intros [= ->]. cbn [filter]. unfold bz, busy. cbn [snd]. destruct (it_hb x), (it_hb y); cbn [length]; lia.
  - intros G. cbn [filter]. specialize (IH G). destruct (bz (j, z)); cbn [length]; lia.
Qed.
Lemma np_put_new i y l : get i l = None -> length (filter bz (put i y l)) = length (filter bz l) + busy y.
Proof.
  induction l as [|[j z] t IH]; cbn [get put filter].
  - intros _. unfold bz, busy. cbn [snd]. destruct (it_hb y); reflexivity.
  - destruct (Nat.eqb i j) eqn:E; [discriminate|]. intros G. cbn [filter]. specialize (IH G). destruct (bz (j, z)); cbn [length]; lia.
Qed.
Lemma np_del i x l : get i l = Some x -> length (filter bz (del i l)) + busy x = length (filter bz l).
Proof.
  induction l as [|[j z] t IH]; cbn [get del filter]; [discriminate|].
  destruct (Nat.eqb i j) eqn:E.
  - intros [= ->]. unfold bz, busy. cbn [snd]. destruct (it_hb x); cbn [length]; lia.
  - intros G. cbn [filter]. specialize (IH G). destruct (bz (j, z)); cbn [length]; lia.
Qed.
Lemma np_eq c : number_processing c = length (filter bz (items c)).
Proof. reflexivity. Qed.

Lemma enq_step c o a c' e n : qinv c -> effect c o a c' -> enq c = e + number_stored c + n ->
  enq c' = e + number_stored c' + ((if leaks (o, a) then 1 else 0) + n).
Proof.
  intros Q H I. unfold number_stored in *.
  inversion H; subst; cbn [leaks plus];
    repeat match goal with E : items _ = _ |- _ => rewrite E; clear E | E : enq _ = _ |- _ => rewrite E; clear E end; try reflexivity.
  - rewrite length_put_none by assumption. lia.
  - erewrite length_put_some by eassumption. lia.
  - destruct o; cbn [leaks plus]; try reflexivity; nope.
  - erewrite length_put_some by eassumption. lia.
  - erewrite length_put_some by eassumption. lia.
  - exact I.
  - erewrite length_put_some by eassumption. lia.
  - match goal with G : get i (items c) = Some x |- _ => pose proof (length_del i x (items c) G) end. lia.
  - match goal with G : get i (items c) = Some x |- _ => pose proof (length_del i x (items c) G) end. lia.
  - match goal with G : get i (items c) = Some x |- _ => pose proof (length_del i x (items c) G) as LD;
      pose proof (fun y => length_put_some i y x (items c) G) as LP end.
    assert (L : forall f, leaks (o, AFailed f) = match f with Superseded | Replaced _ => true | _ => false end).
    { intros g. match goal with O : _ \/ _ |- _ => destruct O as [[-> _]|[-> _]] end; reflexivity. }
    specialize (L f). cbn [leaks] in L. rewrite L. clear L. match goal with F : failed _ _ _ _ _ |- _ => destruct F as [? E ? ? EE|? ? ? ? E ? ? EE|? ? ? E ? ? EE|? ? ? E ? ? EE|w j y ? ? NE ? Gj ? E ? ? EE] end;
      rewrite E, EE.
    + lia.
    + lia.
    + rewrite LP. lia.
    + rewrite LP. lia.
    + assert (G2 : get j (put i (mkItem (it_props x) (incr64 (it_count x)) HbNone) (items c)) = Some y) by (rewrite get_put_other; assumption).
      pose proof (length_del j y _ G2) as LD2. rewrite LP in LD2. lia.
  - erewrite length_put_some by eassumption. lia.
  - match goal with O : _ \/ _ |- _ => destruct O as [(-> & _)|[(-> & _)|(-> & _)]] end; reflexivity.
Qed.
Lemma enq_count e r tr c : qexec (newChannel e r) tr c -> serving c -> enq c = e + number_stored c + count leaks tr.
Proof.
  intros E. induction E as [|tr c o a c' E IH H]; intros S.
  - cbn. lia.
  - assert (Q : qinv c) by (eapply qexec_inv; [apply qinv_new|exact E]).
    pose proof (serving_back _ _ _ _ H Q S) as S0.
    rewrite (enq_step c o a c' e (count leaks tr) Q (step_effect _ _ _ _ Q S H) (IH S0)).
    unfold count. cbn [filter]. destruct (leaks (o, a)); reflexivity.
Qed.

Lemma clean_qexec c0 tr c : clean_exec c0 tr c -> qexec c0 tr c.
Proof. intros E. induction E; econstructor; eassumption. Qed.
Definition back_ok (c : channel) : Prop := forall i, fl c = FBack i -> processing c i.
Lemma run_step c o a c' r : qinv c -> effect c o a c' -> ~ gives_back_twice c o -> back_ok c ->
  run c + returning c = r + number_processing c + fetching c ->
  run c' + returning c' = r + number_processing c' + fetching c' /\ back_ok c'.
Proof.
  intros Q H NT BK I.
  assert (PE := fun i => processing_effect c o c' a i Q H).
  assert (PROC : forall i x, get i (items c) = Some x -> it_hb x <> HbNone -> 1 <= number_processing c /\ busy x = 1).
  { intros i x G N. pose proof (np_del i x (items c) G) as L. rewrite np_eq.
    assert (busy x = 1) by (unfold busy; destruct (it_hb x); congruence). lia. }
  assert (PROC2 : forall i x j, get i (items c) = Some x -> it_hb x <> HbNone -> fl c = FBack j -> i <> j -> 2 <= number_processing c).
  { intros i x j G N F NE. destruct (BK j F) as (y & Gy & Ny).
    pose proof (np_del i x (items c) G) as L. rewrite np_eq.
    assert (Gy' : get j (del i (items c)) = Some y) by (rewrite get_del_other by congruence; exact Gy).
    pose proof (np_del j y _ Gy') as L2.
    assert (busy x = 1) by (unfold busy; destruct (it_hb x); congruence).
    assert (busy y = 1) by (unfold busy; destruct (it_hb y); congruence). lia. }
  rewrite !np_eq in *.
  inversion H; subst; unfold returning, fetching in *;
    repeat match goal with E : items _ = _ |- _ => rewrite E end;
    repeat match goal with E : run _ = _ |- _ => rewrite E end;
    try (split; [exact I|exact BK]).
  - match goal with E : fl c' = _ |- _ => rewrite E end. rewrite np_put_new by assumption. cbn [newItem busy it_hb]. split; [unfold busy; cbn; lia|].
    intros k F. rewrite PE. cbn. apply BK. congruence.
  - match goal with E : fl c' = _ |- _ => rewrite E end.
    match goal with G : get j (items c) = Some x |- _ => pose proof (np_put j x (overwrite x p) (items c) G) as L end.
    unfold busy in L. cbn [overwrite it_hb] in L. match goal with E : it_hb x = _ |- _ => rewrite E in L end.
    split; [lia|]. intros k F. rewrite PE. cbn. apply BK. congruence.
  - match goal with G : glide _ _ _ |- _ => inversion G as [A B|A B|A B|A B|k NP A B|k NP A B] end; rewrite <- A in *; rewrite <- B in *;
      (split; [try lia|intros z F; rewrite <- B in F; discriminate F]).
    exfalso. apply NP, BK. congruence.
  - match goal with E : fl c = _ |- _ => rewrite E in I end. match goal with E : fl c' = _ |- _ => rewrite E end.
    split; [lia|intros k F; congruence].
  - match goal with E : fl c = _ |- _ => rewrite E in I end. match goal with E : fl c' = _ |- _ => rewrite E end.
    split; [lia|intros k F; congruence].
  - match goal with E : fl c = _ |- _ => rewrite E in I end. match goal with E : fl c' = _ |- _ => rewrite E end.
    match goal with G : get i (items c) = Some x |- _ => pose proof (np_put i x (set_hb x HbCreated) (items c) G) as L end.
    unfold busy in L. cbn [set_hb it_hb] in L. match goal with E : it_hb x = _ |- _ => rewrite E in L end.
    split; [lia|intros k F; congruence].
  - match goal with E : fl c = _ |- _ => rewrite E in I end. match goal with E : fl c' = _ |- _ => rewrite E end.
    match goal with G : get i (items c) = Some x |- _ => pose proof (np_put i x (set_hb x HbRunning) (items c) G) as L end.
    unfold busy in L. cbn [set_hb it_hb] in L. match goal with E : it_hb x = _ |- _ => rewrite E in L end.
    split; [lia|intros k F; congruence].
  - match goal with E : fl c = _ |- _ => rename E into F0; rewrite F0 in I end. match goal with E : fl c' = _ |- _ => rename E into F1; rewrite F1 end.
    assert (PI : processing c i).
    { unfold processing. destruct (get i (items c)) as [x|] eqn:G.
      - exists x. split; [reflexivity|]. intros N. apply NT. cbn. exists i. split; [exact F0|]. eapply not_proc_idle; eassumption.
      - exfalso. apply NT. exists i. split; [exact F0|]. apply not_proc_none, G. }
    destruct PI as (x & G & N). destruct (PROC i x G N) as [L _].
    split; [lia|]. intros k F. assert (k = i) as -> by congruence. rewrite PE. cbn. exists x. auto.
  - match goal with E : fl c = _ |- _ => rewrite E in I end. match goal with E : fl c' = _ |- _ => rewrite E end.
    match goal with G : get i (items c) = Some x |- _ => pose proof (np_put i x (set_hb x HbNone) (items c) G) as L end.
    unfold busy in L. cbn [set_hb it_hb] in L. match goal with E : it_hb x = _ |- _ => rewrite E in L end.
    split; [lia|intros k F; congruence].
  - match goal with E : fl c = _ |- _ => rewrite E in I end. match goal with E : fl c' = _ |- _ => rewrite E end.
    match goal with G : get i (items c) = Some x |- _ => pose proof (np_del i x (items c) G) as L end.
    unfold busy in L. match goal with E : it_hb x = _ |- _ => rewrite E in L end.
    split; [lia|intros k F; congruence].
  - match goal with E : fl c' = _ |- _ => rename E into F1; rewrite F1 end.
    match goal with G : get i (items c) = Some x |- _ => rename G into G0; pose proof (np_del i x (items c) G0) as L end.
    assert (N : it_hb x <> HbNone) by intuition congruence. destruct (PROC i x G0 N) as [L1 B1]. rewrite B1 in L.
    assert (NB : fl c <> FBack i) by (intros F; apply NT; exact F).
    split.
    + destruct (fl c) eqn:F; try lia. assert (L2 := PROC2 i x i0 G0 N eq_refl ltac:(congruence)). lia.
    + intros k F. rewrite PE. cbn. destruct (Nat.eqb_spec k i) as [->|]; [congruence|]. apply BK. congruence.
  - match goal with E : fl c' = _ |- _ => rename E into F1; rewrite F1 end.
    match goal with G : get i (items c) = Some x |- _ => rename G into G0; pose proof (np_del i x (items c) G0) as L;
      pose proof (np_put i x (mkItem (it_props x) (incr64 (it_count x)) HbNone) (items c) G0) as L' end.
    assert (N : it_hb x <> HbNone) by intuition congruence. destruct (PROC i x G0 N) as [L1 B1]. rewrite B1 in L, L'.
    unfold busy in L'. cbn [it_hb] in L'.
    assert (NB : fl c <> FBack i).
    { intros F. match goal with O : _ \/ _ |- _ => destruct O as [[-> _]|[-> HF]] end; [apply NT; exact F|].
      destruct (q_sent c Q i x (or_intror F) G0); congruence. }
    assert (NP' : length (filter bz (items c')) + 1 = length (filter bz (items c))).
    { match goal with F : failed _ _ _ _ _ |- _ => destruct F as [? E|? ? ? ? E|? ? ? E|? ? ? E|w j y ? ? NE W Gj ? E] end; rewrite E; try lia.
      assert (G2 : get j (put i (mkItem (it_props x) (incr64 (it_count x)) HbNone) (items c)) = Some y) by (rewrite get_put_other; assumption).
      pose proof (np_del j y _ G2) as LD2.
      assert (YN : it_hb y = HbNone) by (apply (q_idle c Q j); [rewrite W, in_app_iff; right; left; reflexivity|exact Gj]).
      unfold busy in LD2. rewrite YN in LD2. lia. }
    split.
    + destruct (fl c) eqn:F; try lia. assert (L2 := PROC2 i x i0 G0 N eq_refl ltac:(congruence)). lia.
    + intros k F. rewrite PE.
      assert (SE : settles k (o, AFailed f) = true -> k = i).
      { match goal with O : _ \/ _ |- _ => destruct O as [[-> _]|[-> HF]] end; cbn [settles]; intros SE; apply andb_true_iff in SE; destruct SE as [SE _]; apply Nat.eqb_eq in SE; exact SE. }
      assert (HO : hands_out k (o, AFailed f) = false) by (destruct o; reflexivity). rewrite HO.
      destruct (settles k (o, AFailed f)); [rewrite SE in F by reflexivity; congruence|]. apply BK. congruence.
  - match goal with E : fl c' = _ |- _ => rename E into F1; rewrite F1 end.
    match goal with G : get i (items c) = Some x |- _ => pose proof (np_put i x (set_hb x HbFired) (items c) G) as L end.
    unfold busy in L. cbn [set_hb it_hb] in L. match goal with E : it_hb x = _ |- _ => rewrite E in L end.
    split; [lia|]. intros k F. rewrite PE. cbn. apply BK. congruence.
  - match goal with E : fl c' = _ |- _ => rename E into F1; rewrite F1 end. split; [exact I|].
    intros z F. rewrite PE. match goal with O : _ \/ _ |- _ => destruct O as [(-> & _)|[(-> & _)|(-> & _)]] end; cbn; apply BK; congruence.
Qed.
Lemma run_count e r tr c : clean_exec (newChannel e r) tr c -> serving c ->
  run c + returning c = r + number_processing c + fetching c.
Proof.
  intros E S.
  assert (K : run c + returning c = r + number_processing c + fetching c /\ back_ok c); [|apply K].
  induction E as [|tr c o a c' E IH NT H].
  - cbn. split; [lia|]. intros i F. discriminate F.
  - assert (Q : qinv c) by (eapply qexec_inv; [apply qinv_new|apply clean_qexec; exact E]).
    pose proof (serving_back _ _ _ _ H Q S) as S0. destruct (IH S0) as [I BK].
    eapply run_step; eauto. eapply step_effect; eassumption.
Qed.

(** without the restriction: slots are never lost *)
Definition low (r : nat) (c : channel) : Prop :=
  run c <= r + number_processing c + fetching c /\ (forall i, fl c = FBack i -> processing c i -> run c < r + number_processing c).
Lemma low_step c o a c' r : qinv c -> effect c o a c' -> low r c -> low r c'.
Proof.
  intros Q H [I BK]. unfold low.
  assert (PE := fun i => processing_effect c o c' a i Q H).
  assert (PROC : forall i x, get i (items c) = Some x -> it_hb x <> HbNone -> 1 <= number_processing c /\ busy x = 1).
  { intros i x G N. pose proof (np_del i x (items c) G) as L. rewrite np_eq.
    assert (busy x = 1) by (unfold busy; destruct (it_hb x); congruence). lia. }
  assert (PROC2 : forall i x j, get i (items c) = Some x -> it_hb x <> HbNone -> processing c j -> i <> j -> 2 <= number_processing c).
  { intros i x j G N (y & Gy & Ny) NE.
    pose proof (np_del i x (items c) G) as L. rewrite np_eq.
    assert (Gy' : get j (del i (items c)) = Some y) by (rewrite get_del_other by congruence; exact Gy).
    pose proof (np_del j y _ Gy') as L2.
    assert (busy x = 1) by (unfold busy; destruct (it_hb x); congruence).
    assert (busy y = 1) by (unfold busy; destruct (it_hb y); congruence). lia. }
  rewrite !np_eq in *.
  inversion H; subst; unfold fetching in *;
    repeat match goal with E : items _ = _ |- _ => rewrite E end;
    repeat match goal with E : run _ = _ |- _ => rewrite E end;
    try (split; [exact I|exact BK]).
  - match goal with E : fl c' = _ |- _ => rewrite E end. rewrite np_put_new by assumption. unfold busy; cbn [newItem it_hb]. split; [lia|].
    intros k F P. apply PE in P. cbn in P. specialize (BK k F P). lia.
  - match goal with E : fl c' = _ |- _ => rewrite E end.
    match goal with G : get j (items c) = Some x |- _ => pose proof (np_put j x (overwrite x p) (items c) G) as L end.
    unfold busy in L. cbn [overwrite it_hb] in L. match goal with E : it_hb x = _ |- _ => rewrite E in L end.
    split; [lia|]. intros k F P. apply PE in P. cbn in P. specialize (BK k F P). lia.
  - match goal with G : glide _ _ _ |- _ => inversion G as [A B|A B|A B|A B|k NP A B|k NP A B] end; rewrite <- A in *;
      (split; [try lia|intros z F; discriminate F]).
  - match goal with E : fl c = _ |- _ => rewrite E in I end. match goal with E : fl c' = _ |- _ => rewrite E end.
    split; [lia|intros k F; congruence].
  - match goal with E : fl c = _ |- _ => rewrite E in I end. match goal with E : fl c' = _ |- _ => rewrite E end.
    split; [lia|intros k F; congruence].
  - match goal with E : fl c = _ |- _ => rewrite E in I end. match goal with E : fl c' = _ |- _ => rewrite E end.
    match goal with G : get i (items c) = Some x |- _ => pose proof (np_put i x (set_hb x HbCreated) (items c) G) as L end.
    unfold busy in L. cbn [set_hb it_hb] in L. match goal with E : it_hb x = _ |- _ => rewrite E in L end.
    split; [lia|intros k F; congruence].
  - match goal with E : fl c = _ |- _ => rewrite E in I end. match goal with E : fl c' = _ |- _ => rewrite E end.
    match goal with G : get i (items c) = Some x |- _ => pose proof (np_put i x (set_hb x HbRunning) (items c) G) as L end.
    unfold busy in L. cbn [set_hb it_hb] in L. match goal with E : it_hb x = _ |- _ => rewrite E in L end.
    split; [lia|intros k F; congruence].
  - match goal with E : fl c = _ |- _ => rename E into F0; rewrite F0 in I end. match goal with E : fl c' = _ |- _ => rename E into F1; rewrite F1 end.
    split; [lia|]. intros k F P. assert (k = i) as -> by congruence. apply PE in P. cbn in P. destruct P as (x & G & N).
    destruct (PROC i x G N) as [L _]. lia.
  - match goal with E : fl c = _ |- _ => rename E into F0; rewrite F0 in I end. match goal with E : fl c' = _ |- _ => rewrite E end.
    match goal with G : get i (items c) = Some x |- _ => rename G into G0; pose proof (np_put i x (set_hb x HbNone) (items c) G0) as L end.
    unfold busy in L. cbn [set_hb it_hb] in L. match goal with E : it_hb x = _ |- _ => rename E into HX; rewrite HX in L end.
    assert (P : processing c i) by (exists x; split; [exact G0|congruence]). specialize (BK i F0 P).
    split; [lia|intros k F; congruence].
  - match goal with E : fl c = _ |- _ => rename E into F0; rewrite F0 in I end. match goal with E : fl c' = _ |- _ => rewrite E end.
    match goal with G : get i (items c) = Some x |- _ => rename G into G0; pose proof (np_del i x (items c) G0) as L end.
    unfold busy in L. match goal with E : it_hb x = _ |- _ => rename E into HX; rewrite HX in L end.
    assert (P : processing c i) by (exists x; split; [exact G0|congruence]). specialize (BK i F0 P).
    split; [lia|intros k F; congruence].
  - match goal with E : fl c' = _ |- _ => rename E into F1; rewrite F1 end.
    match goal with G : get i (items c) = Some x |- _ => rename G into G0; pose proof (np_del i x (items c) G0) as L end.
    assert (N : it_hb x <> HbNone) by intuition congruence. destruct (PROC i x G0 N) as [L1 B1]. rewrite B1 in L.
    split; [lia|].
    intros k F P. apply PE in P. cbn in P. destruct (Nat.eqb_spec k i) as [->|NE]; [tauto|]. specialize (BK k F P).
    assert (L2 := PROC2 i x k G0 N P ltac:(congruence)). lia.
  - match goal with E : fl c' = _ |- _ => rename E into F1; rewrite F1 end.
    match goal with G : get i (items c) = Some x |- _ => rename G into G0; pose proof (np_del i x (items c) G0) as L;
      pose proof (np_put i x (mkItem (it_props x) (incr64 (it_count x)) HbNone) (items c) G0) as L' end.
    assert (N : it_hb x <> HbNone) by intuition congruence. destruct (PROC i x G0 N) as [L1 B1]. rewrite B1 in L, L'.
    unfold busy in L'. cbn [it_hb] in L'.
    assert (NP' : length (filter bz (items c')) + 1 = length (filter bz (items c))).
    { match goal with F : failed _ _ _ _ _ |- _ => destruct F as [? E|? ? ? ? E|? ? ? E|? ? ? E|w j y ? ? NE W Gj ? E] end; rewrite E; try lia.
      assert (G2 : get j (put i (mkItem (it_props x) (incr64 (it_count x)) HbNone) (items c)) = Some y) by (rewrite get_put_other; assumption).
      pose proof (np_del j y _ G2) as LD2.
      assert (YN : it_hb y = HbNone) by (apply (q_idle c Q j); [rewrite W, in_app_iff; right; left; reflexivity|exact Gj]).
      unfold busy in LD2. rewrite YN in LD2. lia. }
    split; [lia|].
    intros k F P. match goal with K : failed _ _ _ _ _ |- _ => apply (proc_failed c i x c' f k Q G0 N K) in P end. destruct P as [NE P].
    specialize (BK k F P). assert (L2 := PROC2 i x k G0 N P ltac:(congruence)). lia.
  - match goal with E : fl c' = _ |- _ => rename E into F1; rewrite F1 end.
    match goal with G : get i (items c) = Some x |- _ => pose proof (np_put i x (set_hb x HbFired) (items c) G) as L end.
    unfold busy in L. cbn [set_hb it_hb] in L. match goal with E : it_hb x = _ |- _ => rewrite E in L end.
    split; [lia|]. intros k F P. apply PE in P. cbn in P. specialize (BK k F P). lia.
  - match goal with E : fl c' = _ |- _ => rename E into F1; rewrite F1 end. split; [exact I|].
    intros z F P. apply (processing_ext c' c) in P; [|assumption]. exact (BK z F P).
Qed.
Lemma run_low e r tr c : qexec (newChannel e r) tr c -> serving c -> run c <= r + number_processing c + fetching c.
Proof.
  intros E S. assert (K : low r c); [|apply K]. induction E as [|tr c o a c' E IH H].
  - split; [cbn; lia|]. intros i F. discriminate F.
  - assert (Q : qinv c) by (eapply qexec_inv; [apply qinv_new|exact E]).
    pose proof (serving_back _ _ _ _ H Q S) as S0. eapply low_step; eauto. eapply step_effect; eassumption.
Qed.
