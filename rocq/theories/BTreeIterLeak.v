(** A lookup that leaves the tree locked stops all writers. *)
From Coq Require Import Permutation ZifyBool ZifyNat.
From Verif Require Import Datatypes SpecValues DatatypesProofs BTree SpecBTree BTreeProofs BTreeFind SpecFind BTreeFindProofs
  BTreeSync SpecBTreeSync BTreeSyncSeq BTreeSyncInv BTreeSyncStep BTreeSyncStep3 BTreeSyncCount BTreeSyncCount2 BTreeSyncSem BTreeSyncTop BTreeSyncTop2 BTreeSyncLin BTreeSyncLive BTreeSyncEnd
  BTreeIter SpecBTreeIter BTreeIterEr BTreeIterTk BTreeIterVisit BTreeIterSees BTreeIterInv BTreeIterStep BTreeIterLocks BTreeIterEnd.
Local Open Scope nat_scope.

Lemma no_way_descents q : (let '(w, key, tr) := q in key_allowed w key /\ tr_validate tr = true) -> ~ has_way q -> descents q = [].
Proof.
  destruct q as [[w key] tr]. intros [[Gk Ka] Tv] H. cbn [descents has_way] in *.
  destruct w; try (destruct H; exact Logic.I).
  - destruct (GeneralDataTypes (ev_type key)) eqn:E.
    + unfold in_types in H. destruct (Z.eqb_spec (tr_max tr) T_any); [tauto|]. 
      destruct (Z.ltb_spec (ev_type key) (tr_min tr)); [reflexivity|]. destruct (Z.ltb_spec (tr_max tr) (ev_type key)); [reflexivity|]. cbn. tauto.
    + pose proof (well_typed_tag _ _ (proj1 Gk)) as Kt. apply known_tag_dec in Kt. rewrite E, Bool.orb_false_r in Kt.
      destruct H. left. apply wt_any_nil; [apply Gk|]. unfold AnyDataType in Kt. lia.
  - destruct (Z.eqb_spec (tr_max tr) T_any); [tauto|]. destruct (Z.ltb_spec (ev_type key) (tr_min tr)); [reflexivity|]. destruct H. lia.
  - destruct (Z.eqb_spec (tr_max tr) T_any); [tauto|]. destruct (Z.ltb_spec (ev_type key) (tr_min tr)); [reflexivity|]. destruct H. lia.
  - destruct (Z.ltb_spec (tr_max tr) (ev_type key)); [reflexivity|lia].
  - destruct (Z.ltb_spec (tr_max tr) (ev_type key)); [reflexivity|lia].
Qed.

Section Leak.
  Context {V : Type}.
  Variable n : nat.
  Variable ops : nat -> cop V.
  Variable lks : nat -> lookup * EV * TypeRestrictions.
  Hypothesis Hn : 2 <= n.
  Hypothesis Hg : good_calls ops.
  Hypothesis Hl : good_lookups lks.
  Notation bops := (bops ops).

  Definition fresh_phase (p : phase V) : Prop := p = PNew \/ p = PWrite.
  Notation writer := (writer ops).

  (** A writer that has no lock gets none but by locking the tree *)
  Lemma writer_waits tr (s : state V) L M e s' c : ginv n bops tr s L M -> step n bops s e s' -> Nat.odd c = false -> writer c -> fresh_phase (ph s c) ->
    top s = TFree -> (forall d, top s' <> TWait d) -> fresh_phase (ph s' c) /\ forall a, e <> Some (EReturn c a).
  Proof using Hn Hg.
    intros G St Oc Wc F Tf Tw.
    assert (O : forall d p, ~ fresh_phase (ph s d) -> fresh_phase (set_ph (ph s) d p c)).
    { intros d p Nd. destruct (Nat.eq_dec c d) as [->|N]; [destruct (Nd F)|]. rewrite set_other by exact N. exact F. }
    destruct St; cbn [top ph] in *; try (rewrite Tf in *; discriminate); try (split; [|discriminate]).
    - destruct (Nat.eq_dec c c0) as [->|N]; [|rewrite set_other by exact N; exact F]. rewrite set_same. unfold SpecBTreeIter.writer in Wc. unfold BTreeIter.bops. rewrite Oc.
      destruct (ops c0); try contradiction; right; reflexivity.
    - destruct (Tw c0 eq_refl).
    - apply O. intros [Z|Z]; congruence.
    - apply O. destruct (waiting n bops Hn (good_bops ops Hg) _ _ _ _ _ _ _ G H) as [-> _]. intros [Z|Z]; discriminate.
    - apply O. destruct (waiting n bops Hn (good_bops ops Hg) _ _ _ _ _ _ _ G H) as [-> _]. intros [Z|Z]; discriminate.
    - destruct o as [[d x]|]; cbn [report]; [|exact F]. apply O. intros Fd.
      pose proof (g_tree _ _ _ _ _ _ G) as T. rewrite H in T. destruct T as [h I].
      pose proof (lstep_count n bops _ (readers d) (one d) (fun _ => 0) t _ t' (readers_ok d) H0 true h I 0) as Cr.
      pose proof (lstep_count n bops _ (writers d) (fun _ => 0) (one d) t _ t' (writers_ok d) H0 true h I 0) as Cw.
      pose proof (g_rc _ _ _ _ _ _ G d) as Xr. pose proof (g_wc _ _ _ _ _ _ G d) as Xw. rewrite H in Xr, Xw. cbn [rcount wcount] in *.
      unfold gone, one in *. rewrite Nat.eqb_refl in *.
      destruct Fd as [Fd|Fd]; rewrite Fd in *; cbn [is_reading is_writing] in *; destruct x; lia.
    - split.
      + destruct (Nat.eq_dec c c0) as [->|N]; [|rewrite set_other by exact N; exact F]. rewrite H in F. destruct F; discriminate.
      + intros b E. injection E as -> ->. rewrite H in F. destruct F; discriminate.
  Qed.

  (** A lookup that has no way down *)
  Definition stays (p : iphase V) : Prop := match p with IHold [] _ => True | IDone b _ | IRet b _ => b = true | _ => False end.

  Lemma stays_step tr s G L M Lx e s' j : xinv n ops lks tr s G L M Lx -> yinv G s -> xstep n ops lks s e s' -> stays (xi s j) -> root (xs s) <> None ->
    stays (xi s' j) /\ root (xs s') <> None /\
    forall c, Nat.odd c = false -> writer c -> fresh_phase (ph (xs s) c) -> fresh_phase (ph (xs s') c) /\ forall a, e <> Some (EB (EReturn c a)).
  Proof using Hn Hg.
    intros X Y St Sj R.
    assert (Ht : holds_tree (xi s j) = true) by (destruct (xi s j) as [| |[|] ?|? ? ? ?|? ?|? ?]; cbn in *; congruence || contradiction).
    assert (Tf : top (xs s) = TFree) by (apply (y_top _ _ Y j Ht)).
    destruct St; cbn [xs xi root with_root ph] in *.
    - split; [exact Sj|]. split.
      + destruct H; cbn [root xs] in *; try (rewrite Tf in *; discriminate); try congruence; exact R.
      + intros c Oc Wc F. pose proof (x_g _ _ _ _ _ _ _ _ _ X) as Gi. pose proof (x_odd _ _ _ _ _ _ _ _ _ X) as Od.
        pose proof (er_step n ops _ _ _ H Od (trs_even n ops _ _ _ _ Gi Od)) as Se.
        destruct (writer_waits _ _ _ _ _ _ c Gi Se Oc Wc F Tf) as [F' Ne]; [intros d; apply (H1 j d Ht)|].
        split; [exact F'|]. intros a E. destruct e as [x|]; cbn in E; [|discriminate]. injection E as ->. exact (Ne a eq_refl).
    - split; [|split; [exact R|intros; split; [assumption|discriminate]]]. destruct (Nat.eq_dec j j0) as [->|N]; [rewrite H in Sj; destruct Sj|rewrite set_xi_other by exact N; exact Sj].
    - split; [|split; [exact R|intros; split; [assumption|discriminate]]]. destruct (Nat.eq_dec j j0) as [->|N]; [rewrite H in Sj; destruct Sj|rewrite set_xi_other by exact N; exact Sj].
    - contradiction.
    - split; [|split; [discriminate|intros; split; [assumption|discriminate]]]. destruct (Nat.eq_dec j j0) as [->|N]; [rewrite H in Sj; destruct Sj|rewrite set_xi_other by exact N; exact Sj].
    - split; [|split; [exact R|intros; split; [assumption|discriminate]]]. destruct (Nat.eq_dec j j0) as [->|N]; [rewrite set_xi_same; reflexivity|rewrite set_xi_other by exact N; exact Sj].
    - split; [|split; [discriminate|intros; split; [assumption|discriminate]]]. destruct (Nat.eq_dec j j0) as [->|N]; [rewrite H in Sj; destruct Sj|rewrite set_xi_other by exact N; exact Sj].
    - split; [|split; [exact R|intros; split; [assumption|discriminate]]]. destruct (Nat.eq_dec j j0) as [->|N]; [rewrite H in Sj; destruct Sj|rewrite set_xi_other by exact N; exact Sj].
    - split; [|split; [exact R|intros; split; [assumption|discriminate]]]. destruct (Nat.eq_dec j j0) as [->|N]; [rewrite H in Sj; destruct Sj|rewrite set_xi_other by exact N; exact Sj].
    - split; [|split; [exact R|intros; split; [assumption|discriminate]]]. destruct (Nat.eq_dec j j0) as [->|N]; [rewrite set_xi_same; rewrite H in Sj; exact Sj|rewrite set_xi_other by exact N; exact Sj].
  Qed.

  Lemma stays_run s0 tr s G L M Lx tr2 s2 j : xinv n ops lks tr s G L M Lx -> yinv G s -> s0 = s -> xrun n ops lks s0 tr2 s2 -> stays (xi s j) -> root (xs s) <> None ->
    (exists tr' G' L' M' Lx', xinv n ops lks tr' s2 G' L' M' Lx' /\ yinv G' s2) /\ stays (xi s2 j) /\ root (xs s2) <> None /\
    forall c, Nat.odd c = false -> writer c -> fresh_phase (ph (xs s) c) -> fresh_phase (ph (xs s2) c) /\ forall a, ~ In (EB (EReturn c a)) tr2.
  Proof using Hn Hg Hl.
    intros X Y E0 Rn Sj R. induction Rn as [s1|s1 tr1 s2 e s3 Rn IH St].
    - subst s1. split; [eauto 10|]. split; [exact Sj|]. split; [exact R|]. intros c Oc Wc F. split; [exact F|intros a []].
    - destruct (IH E0) as ((tr' & G' & L' & M' & Lx' & X' & Y') & Sj' & R' & Q). clear IH.
      destruct (xy_step n ops lks Hn Hg Hl _ _ _ _ _ _ _ _ X' Y' St) as (G2 & L2 & M2 & Lx2 & X2 & Y2 & _).
      destruct (stays_step _ _ _ _ _ _ _ _ _ X' Y' St Sj' R') as (S2 & R2 & Q2).
      split; [eauto 10|]. split; [exact S2|]. split; [exact R2|]. intros c Oc Wc F. destruct (Q c Oc Wc F) as [F1 N1]. destruct (Q2 c Oc Wc F1) as [F2 N2].
      split; [exact F2|]. intros a H. destruct e as [e|]; [|exact (N1 a H)]. apply in_app_iff in H as [H|[-> |[]]]; [exact (N1 a H)|exact (N2 a eq_refl)].
  Qed.

  Theorem leak_blocks tr s j acc : ~ has_way (lks j) -> xexec n ops lks tr s -> xi s j = IHold (descents (lks j)) acc -> root (xs s) <> None ->
    forall tr2 s2, xrun n ops lks s tr2 s2 -> forall c, Nat.odd c = false -> writer c -> ~ In (EB (ECall c)) tr -> forall a, ~ In (EB (EReturn c a)) tr2.
  Proof using Hn Hg Hl.
    intros W Ex E R tr2 s2 Rn c Oc Wc Nc. destruct (xexec_y n ops lks Hn Hg Hl tr s Ex) as (G & L & M & Lx & X & Y).
    destruct (stays_run s tr s G L M Lx tr2 s2 j X Y eq_refl Rn) as (_ & _ & _ & Q).
    - rewrite E, no_way_descents; [exact Logic.I|apply Hl|exact W].
    - exact R.
    - apply (Q c Oc Wc). left. destruct (ph (xs s) c) eqn:P; try reflexivity; destruct Nc;
        (assert (Hc : In (ECall c) (btr tr)) by (apply (g_call _ _ _ _ _ _ (x_g _ _ _ _ _ _ _ _ _ X)); cbn [er_state ph]; rewrite P; discriminate);
         unfold btr in Hc; apply in_flat_map in Hc as (e & He & Hc); destruct e as [e| |]; cbn in Hc; try contradiction; destruct Hc as [-> |[]]; exact He).
  Qed.

  Lemma run_exec s tr2 s2 : xrun n ops lks s tr2 s2 -> forall tr, xexec n ops lks tr s -> xexec n ops lks (tr ++ tr2) s2.
  Proof using.
    intros R. induction R as [s1|s1 tr1 s2 e s3 R IH St]; intros tr X; [rewrite app_nil_r; exact X|].
    specialize (IH tr X). pose proof (XX_step n ops lks _ _ _ _ IH St) as Q. destruct e; [rewrite app_assoc|]; exact Q.
  Qed.
  Lemma run_app s tr1 s1 tr2 s2 : xrun n ops lks s tr1 s1 -> xrun n ops lks s1 tr2 s2 -> xrun n ops lks s (tr1 ++ tr2) s2.
  Proof using.
    intros R1 R2. induction R2 as [s2|s2 t2 s3 e s4 R2 IH St]; [rewrite app_nil_r; exact R1|].
    pose proof (XR_step n ops lks _ _ _ _ _ (IH R1) St) as Q. destruct e; [rewrite app_assoc|]; exact Q.
  Qed.
  Lemma inevitably_run Q s : xinevitably n ops lks Q s -> exists tr2 s2, xrun n ops lks s tr2 s2 /\ Q s2.
  Proof using.
    intros I. induction I as [s H|s [s1 (e & St & Ne)] H IH]; [exists [], s; split; [constructor|exact H]|].
    destruct (IH s1) as (tr2 & s2 & R & Qs).
    { exists e. split; [exact St|exact Ne]. }
    exists ((match e with Some x => [] ++ [x] | None => [] end) ++ tr2), s2. split; [|exact Qs]. eapply run_app; [|exact R]. eapply XR_step; [constructor|exact St].
  Qed.

  Theorem leak_no_end tr s j acc tr2 s2 c : ~ has_way (lks j) -> xexec n ops lks tr s -> xi s j = IHold (descents (lks j)) acc -> root (xs s) <> None ->
    xrun n ops lks s tr2 s2 -> Nat.odd c = false -> writer c -> ~ In (EB (ECall c)) tr -> In (EB (ECall c)) tr2 -> ~ xinevitably n ops lks xall_back s2.
  Proof using Hn Hg Hl.
    intros W Ex E R Rn Oc Wc Nc Ic I. destruct (inevitably_run _ _ I) as (tr3 & s3 & R3 & [A _]).
    pose proof (run_app _ _ _ _ _ Rn R3) as R4. pose proof (run_exec _ _ _ R4 _ Ex) as X4.
    destruct (xexec_inv n ops lks Hn Hg Hl _ _ X4) as (G & L & M & Lx & X). pose proof (x_g _ _ _ _ _ _ _ _ _ X) as Gi.
    assert (Hb : forall e, In (EB e) (tr ++ tr2 ++ tr3) <-> In e (btr (tr ++ tr2 ++ tr3))).
    { intros e. unfold btr. rewrite in_flat_map. split; [intros H; exists (EB e); split; [exact H|left; reflexivity]|].
      intros (x & Hx & H). destruct x as [x| |]; cbn in H; try contradiction. destruct H as [-> |[]]. exact Hx. }
    destruct (A c) as [P|[a P]].
    - assert (H : In (ECall c) (btr (tr ++ tr2 ++ tr3))) by (apply Hb; rewrite !in_app_iff; auto).
      apply (g_call _ _ _ _ _ _ Gi) in H. cbn [er_state ph] in H. congruence.
    - assert (H : In (EReturn c a) (btr (tr ++ tr2 ++ tr3))) by (apply (g_ret _ _ _ _ _ _ Gi); exact P).
      apply Hb, in_app_iff in H as [H|H]; [|exact (leak_blocks tr s j acc W Ex E R _ _ R4 c Oc Wc Nc a H)].
      destruct (xexec_inv n ops lks Hn Hg Hl _ _ Ex) as (G0 & L0 & M0 & Lx0 & X0). pose proof (x_g _ _ _ _ _ _ _ _ _ X0) as Gi0.
      assert (H' : In (EReturn c a) (btr tr)) by (unfold btr; apply in_flat_map; exists (EB (EReturn c a)); split; [exact H|left; reflexivity]).
      apply (g_ret _ _ _ _ _ _ Gi0) in H'. assert (Q : In (ECall c) (btr tr)) by (apply (g_call _ _ _ _ _ _ Gi0); congruence).
      unfold btr in Q. apply in_flat_map in Q as (x & Hx & Q). destruct x as [x| |]; cbn in Q; try contradiction. destruct Q as [-> |[]]. exact (Nc Hx).
  Qed.
End Leak.
