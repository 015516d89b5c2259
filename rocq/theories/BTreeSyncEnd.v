(** Every call comes to its end. *)
From Coq Require Import Sorted Permutation ZifyBool ZifyNat.
From Verif Require Import Datatypes SpecValues DatatypesProofs BTree SpecBTree BTreeProofs PropLemmasTree BTreeFind
  BTreeSync BTreeSyncSeq BTreeSyncSeq2 BTreeSyncInv SpecBTreeSync BTreeSyncStep BTreeSyncStep2 BTreeSyncStep3 BTreeSyncCount BTreeSyncCount2 BTreeSyncSem
  BTreeSyncTop BTreeSyncTop2 BTreeSyncLin BTreeSyncLive.
Local Open Scope nat_scope.

Lemma quiet_counts {V} c (t : atree V) : quiet t = true ->
  tsum (fun _ => readers c) 0 t = 0 /\ tsum (fun _ => writers c) 0 t = 0 /\ holds c t = false.
Proof.
  induction t as [m rs vs ks IH] using atree_all. intros Q. apply quiet_node in Q as (-> & -> & Q). rewrite Forall_forall in IH. cbn [tsum holds mark_of existsb orb].
  split; [|split].
  - rewrite lsum_zero; [reflexivity|]. intros t Ht. apply IH; auto.
  - rewrite lsum_zero; [reflexivity|]. intros t Ht. apply IH; auto.
  - destruct (existsb _ ks) eqn:E; [|reflexivity]. apply existsb_exists in E as (t & Ht & E). destruct (IH t Ht (Q t Ht)) as (_ & _ & X). congruence.
Qed.
Lemma quiet_settled {V} n (ops : nat -> cop V) c t : quiet t = true -> settled n ops c t = true.
Proof. destruct t as [m rs vs ks]. intros Q. apply quiet_node in Q as (-> & _). reflexivity. Qed.

Section End_.
  Context {V : Type}.
  Variable n : nat.
  Variable ops : nat -> cop V.
  Hypothesis Hn : 2 <= n.
  Hypothesis Hg : good_calls ops.
  Notation state := (state V).
  Notation atree := (atree V).

  Lemma step_goes s e s' : step n ops s e s' -> (forall c, e <> Some (ECall c)) -> exists s', goes_on n ops s s'.
  Proof using. intros St N. exists s', e. auto. Qed.

  (** Nobody inside and nobody before the root *)
  Lemma calm_go tr s L M c : ginv n ops tr s L M -> (forall t, root s = Some t -> quiet t = true) -> trs s = [] -> top s = TFree ->
    ph s c <> PNew -> (forall a, ph s c <> PRet a) -> exists s', goes_on n ops s s'.
  Proof using.
    intros G Q R T N1 N2. destruct (ph s c) eqn:E; try congruence.
    - eapply step_goes; [eapply T_rlock; eauto|discriminate].
    - pose proof (g_trs _ _ _ _ _ _ G c) as X. rewrite R, E in X. discriminate.
    - pose proof (g_rc _ _ _ _ _ _ G c) as X. rewrite E in X. destruct (root s) as [t|]; [|discriminate]. cbn [rcount is_reading] in X.
      destruct (quiet_counts c t (Q t eq_refl)) as (X1 & _). congruence.
    - eapply step_goes; [eapply T_lock; eauto|discriminate].
    - apply (g_wait _ _ _ _ _ _ G) in E. congruence.
    - pose proof (g_wc _ _ _ _ _ _ G c) as X. rewrite E in X. destruct (root s) as [t|]; [|discriminate]. cbn [wcount is_writing] in X.
      destruct (quiet_counts c t (Q t eq_refl)) as (_ & X1 & _). congruence.
    - eapply step_goes; [eapply T_return; [exact E|]|discriminate]. unfold holding. rewrite T, R. cbn [existsb orb].
      destruct (root s) as [t|]; [|reflexivity]. apply (quiet_counts c t (Q t eq_refl)).
  Qed.

  Lemma ginv_go tr s L M : ginv n ops tr s L M -> ~ all_back s -> (exists c, ph s c <> PNew /\ forall a, ph s c <> PRet a) -> exists s', goes_on n ops s s'.
  Proof using Hn.
    intros G _ (c0 & N1 & N2). destruct (root s) as [t|] eqn:R.
    - pose proof (g_tree _ _ _ _ _ _ G) as T. rewrite R in T. destruct T as [h I].
      destruct (sub_go n ops _ Hn h true t I) as [(o & t' & St)|[Q|(c & vs & ks & Et & Qk)]].
      + eapply step_goes; [eapply T_local; eauto|discriminate].
      + destruct (trs s) as [|c l] eqn:Et.
        * destruct (top s) as [|c|c] eqn:Tp.
          -- eapply calm_go; eauto. intros t' X. rewrite R in X. injection X as <-. exact Q.
          -- destruct t as [m rs vs ks]. apply quiet_node in Q as (-> & -> & _). eapply step_goes; [eapply T_root; eauto|discriminate].
          -- eapply step_goes; [eapply T_release; eauto using quiet_settled|discriminate].
        * destruct t as [m rs vs ks]. apply quiet_node in Q as (-> & -> & _). eapply step_goes; [eapply (T_rroot n ops s c [] l); eauto|discriminate].
      + assert (Tp : top s = TIn c).
        { apply (g_tag _ _ _ _ _ _ G t c R). destruct Et as [->| ->]; [|reflexivity].
          apply inv_elim in I as (O & (_ & _ & Lc) & _). rewrite <- fl_eq with (rs := []) in O. rewrite fl_eq in *. cbn [flm] in *. unfold over in *.
          replace (Nat.ltb (maxValues n) (length vs)) with true in * by (symmetry; apply Nat.ltb_lt; unfold maxValues; lia).
          destruct (match map pl (map (fl n ops) ks) with [] => _ | _ => _ end); [reflexivity|destruct O]. }
        destruct Et as [->| ->].
        * apply inv_elim in I as (_ & (_ & _ & Lc) & _). destruct (split_go n ops (fun _ _ => True) Hn vs ks Lc) as (p & Lt & Rt & Sx).
          eapply step_goes; [eapply T_grow; eauto|discriminate].
        * eapply step_goes; [eapply T_shrink; eauto|discriminate].
    - destruct (trs s) as [|c l] eqn:Et.
      + destruct (top s) as [|c|c] eqn:Tp.
        * eapply calm_go; eauto. intros t X. congruence.
        * apply (g_wait _ _ _ _ _ _ G) in Tp as Pc. pose proof (g_ph _ _ _ _ _ _ G c) as X. rewrite Pc in X. destruct X as [_ Wk].
          destruct (wkey ops c) as [k|] eqn:Ek; [|congruence]. destruct (wkey_cases ops c k Ek) as [[v St]|(can & Op & _)].
          -- eapply step_goes; [eapply T_new; eauto|discriminate].
          -- eapply step_goes; [eapply T_nothing; eauto|discriminate].
        * destruct (g_in _ _ _ _ _ _ G c Tp). congruence.
      + eapply step_goes; [eapply (T_rnothing n ops s c [] l); eauto|discriminate].
  Qed.

  (** ** Measures *)
  Definition mw (h : nat) (m : mark) (rs : list nat) : nat :=
    match m with MFree => 0 | MAt _ => 2 * h + 2 | _ => 1 end + length rs * (h + 1).
  Fixpoint adepth (t : atree) : nat := match t with ANode _ _ _ ks => match ks with [] => 0 | x :: _ => S (adepth x) end end.

  Lemma inv_depth log : forall h rt t, inv n ops log rt h t -> adepth t = h.
  Proof using Hn.
    induction h as [|h IH]; intros rt [m rs vs ks] I; apply inv_elim in I as (O & N & K); [subst ks; reflexivity|].
    destruct ks as [|x ks].
    - exfalso. cbn [map] in *.
      assert (NB : forall vs', ~ balanced n (S h) (Node vs' ([] : list (node V)))) by (intros vs' B; apply (proj1 (balanced_S _ _ _ _)) in B as [X _]; discriminate X).
      destruct m as [|c|c i b|c|c]; cbn [nok flm map okres] in *.
      + destruct O as (B & _). exact (NB _ B).
      + destruct N as (_ & _ & (B & _) & _). exact (NB _ B).
      + destruct N as (_ & Li & _). cbn in Li. lia.
      + destruct N as (_ & _ & Lc). unfold over in O. replace (Nat.ltb (maxValues n) (length vs)) with true in O
          by (symmetry; apply Nat.ltb_lt; unfold maxValues; lia).
        unfold splitLeaf in O. destruct (nth_error vs _); [|exact O]. cbn [okres] in O. destruct O as ((y & l & r & E & [B _] & _) & _).
        injection E as _ <- _. exact (NB _ B).
      + destruct O as (B & _). exact (NB _ B).
    - cbn [adepth]. inversion K; subst. f_equal. eauto.
  Qed.

  Lemma lstep_less log t o t' : lstep n ops t o t' -> o = None -> forall rt h, inv n ops log rt h t -> tsum mw h t' < tsum mw h t.
  Proof using Hn.
    assert (WF : forall h : nat, mw h MFree [] = 0) by reflexivity.
    intros St. induction St; intros E rt g I; try discriminate E; cbn [tsum].
    - destruct g as [|g]; [apply inv_elim in I as (_ & _ & K); destruct l1; discriminate|]. cbn [pred]. rewrite !lsum_mid. cbn [tsum]. unfold mw at 1 3 6 8. cbn [length]. lia.
    - subst i. pose proof (split_place n ops log rt g c b vs l1 cv ck l2 p L R I H0) as Ei. subst index ks. rewrite Ei in *.
      rewrite firstn_app_len, skipn_app_len_S by reflexivity.
      pose proof (asplit_sum mw WF n (pred g) cv ck p L R H0) as X. rewrite !map_app, !lsum_app. cbn [map lsum tsum].
      assert (A1 : mw (pred g) (MOver c) [] = 1) by reflexivity. assert (A2 : mw g (MIn c (length l1) b) [] = 1) by reflexivity.
      destruct (Nat.ltb _ _); [assert (A3 : mw g (MOver c) [] = 1) by reflexivity|assert (A3 := WF g)]; lia.
    - destruct (rebalance_kids n ops log rt g c i b vs ks cv ck I H) as [-> Em].
      pose proof (rebalance_sum mw WF (pred g) n vs ks i vs' ks' u _ H Em H0) as X. cbn [nw] in X.
      assert (A1 : mw (pred g) (MUnder c) [] = 1) by reflexivity. assert (A2 : mw g (MIn c i i) [] = 1) by reflexivity.
      destruct u; [assert (A3 : mw g (MUnder c) [] = 1) by reflexivity|assert (A3 := WF g)]; lia.
    - assert (A2 : mw g (MIn c i b) [] = 1) by reflexivity. rewrite WF. lia.
    - destruct g as [|g]; [apply inv_elim in I as (_ & _ & K); destruct l1; discriminate|]. cbn [pred]. rewrite !lsum_mid. cbn [tsum].
      unfold mw at 1 3 6 8. rewrite !app_length. cbn [length]. lia.
    - rewrite !lsum_mid. apply inv_elim in I as (_ & _ & K). destruct g as [|g]; [destruct l1; discriminate|]. cbn [pred].
      apply forall_mid in K as (_ & Kc & _). pose proof (IHSt E false g Kc). lia.
  Qed.

  Definition rank (p : phase V) : nat :=
    match p with PNew => 0 | PRead => 8 | PRWait => 7 | PReading => 6 | PWrite => 5 | PWWait => 4 | PWriting => 3 | PDone _ => 2 | PRet _ => 0 end.
  Definition ranks (l : list nat) (f : nat -> phase V) : nat := lsum (map (fun c => rank (f c)) l).
  Lemma ranks_set l f c p : In c l -> rank p < rank (f c) -> ranks l (set_ph f c p) < ranks l f.
  Proof using.
    clear n ops Hn Hg. intros I H. unfold ranks.
    assert (LE : forall d, rank (set_ph f c p d) <= rank (f d)).
    { intros d. destruct (Nat.eq_dec d c) as [->|N]; [rewrite set_same; lia|rewrite set_other by exact N; lia]. }
    apply in_split in I as (l1 & l2 & ->). rewrite !lsum_mid, set_same.
    assert (A : forall l, lsum (map (fun d => rank (set_ph f c p d)) l) <= lsum (map (fun d => rank (f d)) l)).
    { intros l. induction l as [|x l IH]; cbn [map lsum]; [lia|]. specialize (LE x). lia. }
    pose proof (A l1). pose proof (A l2). lia.
  Qed.

  Definition weight (s : state) : nat :=
    match top s with TIn _ => 1 | _ => 0 end + match root s with Some t => tsum mw (adepth t) t | None => 0 end.
End End_.

(** A step that is no call goes down *)
Lemma step_down {V} n (ops : nat -> cop V) s e s' : 2 <= n -> good_calls ops -> step n ops s e s' -> (forall c, e <> Some (ECall c)) ->
  forall tr L M, ginv n ops tr s L M ->
  (exists c p, ph s' = set_ph (ph s) c p /\ rank p < rank (ph s c)) \/ (ph s' = ph s /\ weight s' < weight s).
Proof.
  intros Hn Hg St. destruct St; intros Ne tr Lg Mp G; cbn [ph].
  - destruct (Ne c eq_refl).
  - left. exists c, PWWait. split; [reflexivity|]. rewrite H. cbn; lia.
  - left. exists c, (PDone (AAsked None)). split; [reflexivity|]. apply (g_wait _ _ _ _ _ _ G) in H. rewrite H. cbn; lia.
  - left. exists c, PWriting. split; [reflexivity|]. apply (g_wait _ _ _ _ _ _ G) in H. rewrite H. cbn; lia.
  - left. exists c, PWriting. split; [reflexivity|]. apply (g_wait _ _ _ _ _ _ G) in H. rewrite H. cbn; lia.
  - right. split; [reflexivity|]. unfold weight. cbn [top root]. rewrite H, H0. lia.
  - right. split; [reflexivity|]. unfold weight. cbn [top root]. rewrite H, H0.
    pose proof (g_tree _ _ _ _ _ _ G) as T. rewrite H0 in T. destruct T as [h I].
    destruct (asplit_inv n ops Hn Hg _ _ _ _ _ _ _ _ _ I H1) as (_ & IL & IR & _).
    rewrite (inv_depth n ops Hn _ _ _ _ I). cbn [adepth]. rewrite (inv_depth n ops Hn _ _ _ _ IL). cbn [tsum map lsum pred].
    pose proof (asplit_sum mw (fun _ => eq_refl) n h vs ks p L R H1) as X.
    assert (A1 : mw h (MOver c) [] = 1) by reflexivity. assert (A2 : mw (S h) MFree [] = 0) by reflexivity. lia.
  - right. split; [reflexivity|]. unfold weight. cbn [top root]. rewrite H, H0.
    pose proof (g_tree _ _ _ _ _ _ G) as T. rewrite H0 in T. destruct T as [h I]. rewrite (inv_depth n ops Hn _ _ _ _ I).
    assert (A1 : forall g, mw g (MUnder c) [] = 1) by reflexivity. assert (A2 : forall g, mw g MFree [] = 0) by reflexivity.
    apply inv_elim in I as (O & _ & K). cbn [flm okres] in O. rewrite pl_fl in O. destruct O as (B & _).
    destruct vs as [|v vs]; [destruct ks as [|t ks]|].
    + lia.
    + destruct h as [|h]; [discriminate K|]. apply (proj1 (balanced_S _ _ _ _)) in B as [LK _]. rewrite map_length in LK.
      destruct ks as [|t2 ks]; [|discriminate LK]. inversion K as [|? ? It _]; subst. rewrite (inv_depth n ops Hn _ _ _ _ It). cbn [tsum map lsum pred]. lia.
    + assert (D : adepth (ANode MFree [] (v :: vs) ks) = h).
      { destruct h as [|h]; [subst ks; reflexivity|]. destruct ks as [|x ks]; [apply (proj1 (balanced_S _ _ _ _)) in B as [X _]; discriminate X|].
        cbn [adepth]. inversion K as [|? ? It _]; subst. rewrite (inv_depth n ops Hn _ _ _ _ It). reflexivity. }
      rewrite D. cbn [tsum]. rewrite A1, A2. lia.
  - left. exists c, PRWait. split; [reflexivity|]. rewrite H. cbn; lia.
  - left. eexists c, _. split; [reflexivity|]. destruct (waiting n ops Hn Hg _ _ _ _ _ _ _ G H) as [-> _].
    destruct (after_cases n ops Hn Hg c (ORead None)) as [[a ->]| ->]; cbn; lia.
  - left. exists c, PReading. split; [reflexivity|]. destruct (waiting n ops Hn Hg _ _ _ _ _ _ _ G H) as [-> _]. cbn; lia.
  - pose proof (g_tree _ _ _ _ _ _ G) as T. rewrite H in T. destruct T as [h I].
    destruct (lstep_kept n ops _ t o t' Hn Hg H0 true h I) as (_ & I' & _).
    destruct o as [[c x]|]; cbn [report].
    + left. eexists c, _. split; [reflexivity|].
      pose proof (lstep_count n ops _ (readers c) (one c) (fun _ => 0) t _ t' (readers_ok c) H0 true h I 0) as Cr.
      pose proof (lstep_count n ops _ (writers c) (fun _ => 0) (one c) t _ t' (writers_ok c) H0 true h I 0) as Cw.
      pose proof (g_rc _ _ _ _ _ _ G c) as Xr. pose proof (g_wc _ _ _ _ _ _ G c) as Xw. rewrite H in Xr, Xw. cbn [rcount wcount] in *.
      unfold gone, one in *. rewrite Nat.eqb_refl in *. unfold after.
      destruct x as [|v|e|r]; cbn [fin]; try (destruct (ph s c); cbn [is_writing] in Xw; try lia; cbn; lia).
      destruct (ph s c); cbn [is_reading] in Xr; try lia. destruct (ops c); destruct r; cbn; lia.
    + right. split; [reflexivity|]. unfold weight. cbn [top root]. rewrite H.
      rewrite (inv_depth n ops Hn _ _ _ _ I), (inv_depth n ops Hn _ _ _ _ I').
      pose proof (lstep_less n ops Hn _ t None t' H0 eq_refl true h I). lia.
  - left. exists c, (PRet a). split; [reflexivity|]. rewrite H. cbn; lia.
Qed.

Lemma all_back_dec {V} (l : list nat) (s : state V) : (forall c, ph s c <> PNew -> In c l) ->
  all_back s \/ exists c, ph s c <> PNew /\ forall a, ph s c <> PRet a.
Proof.
  intros H. assert (D : (forall c, In c l -> ph s c = PNew \/ exists a, ph s c = PRet a) \/ exists c, ph s c <> PNew /\ forall a, ph s c <> PRet a).
  { clear H. induction l as [|x l [IH|IH]]; [left; intros c []| |right; exact IH].
    destruct (ph s x) eqn:E; try (right; exists x; rewrite E; split; [discriminate|discriminate]).
    - left. intros c [<-|Hc]; [auto|apply IH, Hc].
    - left. intros c [<-|Hc]; [eauto|apply IH, Hc]. }
  destruct D as [D|D]; [left|right; exact D]. intros c. destruct (in_dec Nat.eq_dec c l) as [I|N]; [apply D, I|left].
  destruct (ph s c) eqn:E; try reflexivity; destruct N; apply H; congruence.
Qed.

Theorem all_end {V} n (ops : nat -> cop V) tr s : 2 <= n -> good_calls ops -> exec n ops tr s -> inevitably n ops all_back s.
Proof.
  intros Hn Hg X. destruct (exec_ginv n ops tr s Hn Hg X) as (L & M & G). clear X.
  set (l := flat_map (fun e => match e with ECall c => [c] | EReturn _ _ => [] end) tr).
  assert (Hl : forall c, ph s c <> PNew -> In c l).
  { intros c H. apply (g_call _ _ _ _ _ _ G) in H. apply in_flat_map. exists (ECall c). split; [exact H|left; reflexivity]. }
  clearbody l. remember (ranks l (ph s)) as r eqn:Er. remember (weight s) as w eqn:Ew.
  revert w s tr L M G Hl Er Ew. induction r as [r IHr] using lt_wf_ind. induction w as [w IHw] using lt_wf_ind. intros s tr L M G Hl -> ->.
  destruct (all_back_dec l s Hl) as [A|A]; [apply inevitably_now, A|]. apply inevitably_later.
  - eapply ginv_go; eauto. intros B. destruct A as (c & N1 & N2). destruct (B c) as [E|[a E]]; [congruence|]. exact (N2 a E).
  - intros s' (e & St & Ne). destruct (step_ginv n ops s e s' Hn Hg St tr L M G) as (L' & M' & G' & _).
    destruct (step_down n ops s e s' Hn Hg St Ne tr L M G) as [(c & p & E & R)|[E W]].
    + assert (Nc : ph s c <> PNew) by (intros Y; rewrite Y in R; cbn in R; lia).
      eapply (IHr (ranks l (ph s'))); [rewrite E; apply ranks_set; auto|exact G'| |reflexivity|reflexivity].
      intros d Hd. rewrite E in Hd. destruct (Nat.eq_dec d c) as [->|N]; [apply Hl, Nc|]. rewrite set_other in Hd by exact N. apply Hl, Hd.
    + eapply (IHw (weight s')); [exact W|exact G'| | |reflexivity]; rewrite E; [exact Hl|reflexivity].
Qed.
