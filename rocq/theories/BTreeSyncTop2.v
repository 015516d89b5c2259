(** Every step keeps the invariant of the whole tree. *)
From Coq Require Import Sorted Permutation ZifyBool ZifyNat.
From Verif Require Import Datatypes SpecValues DatatypesProofs BTree SpecBTree BTreeProofs BTreeFind
  BTreeSync BTreeSyncSeq BTreeSyncSeq2 BTreeSyncInv SpecBTreeSync BTreeSyncStep BTreeSyncStep2 BTreeSyncStep3 BTreeSyncCount BTreeSyncCount2 BTreeSyncSem
  BTreeSyncTop.
Local Open Scope nat_scope.

Section Top.
  Context {V : Type}.
  Variable n : nat.
  Variable ops : nat -> cop V.
  Hypothesis Hn : 2 <= n.
  Hypothesis Hg : good_calls ops.
  Notation node := (node V).
  Notation entry := (entry V).
  Notation atree := (atree V).
  Notation state := (state V).
  Notation event := (event V).
  Notation phase := (phase V).
  Notation ginv := (ginv n ops).
  Notation lin := (lin ops).
  Notation inv := (inv n ops).
  Notation fl := (fl n ops).
  Notation P := (P n ops).

  Ltac dc d c := destruct (Nat.eq_dec d c) as [->|?N]; [rewrite ?set_same in *|rewrite ?set_other in * by assumption].

  (** At most one call takes effect; nothing changes while btree.lock is free *)
  Definition adds (s : state) (L : list (nat * out V)) (M : list entry) L' M' : Prop :=
    (L' = L /\ M' = M) \/
    exists c o, L' = L ++ [(c, o)] /\ (top s = TFree -> M' = M) /\
      match fin ops c o with Some a => call_step M (ops c) a M' | None => M' = M end.
  Lemma adds_none s L M : adds s L M L M.
  Proof using. left. auto. Qed.
  Definition kept_top (s : state) (e : option event) (s' : state) : Prop :=
    forall tr L M, ginv tr s L M -> exists L' M', ginv (match e with Some x => tr ++ [x] | None => tr end) s' L' M' /\ adds s L M L' M'.

  (** Steps that only change the phase of one call *)
  Lemma top_call s c : ph s c = PNew ->
    kept_top s (Some (ECall c))
      (mkState (top s) (trs s) (root s) (set_ph (ph s) c (match ops c with KFind _ | KCreateOrFind _ _ => PRead | _ => PWrite end))).
  Proof using Hn Hg.
    intros E tr L M G. exists L, M. split; [|apply adds_none]. destruct G as [G1 G2 G3 G4 G5 G6 G7 G8 G9 G10 G11 G12 G13 G14 G15].
    pose proof (G11 c) as Pc. rewrite E in Pc. cbn [phase_ok] in Pc.
    set (p := match ops c with KFind _ | KCreateOrFind _ _ => PRead | _ => PWrite end).
    assert (Hp : p = PRead \/ p = PWrite) by (unfold p; destruct (ops c); auto).
    constructor; cbn [top trs root ph]; auto.
    - intros d H. destruct (G5 d H) as [R W]. split; [exact R|]. dc d c; [rewrite E in W; destruct W|exact W].
    - intros d. rewrite G6. dc d c; [rewrite E; destruct Hp as [->| ->]; reflexivity|reflexivity].
    - intros d. rewrite G7. dc d c; [rewrite E; destruct Hp as [->| ->]; reflexivity|reflexivity].
    - intros d. rewrite G8. dc d c; [rewrite E; destruct Hp as [->| ->]; reflexivity|reflexivity].
    - intros d. rewrite G9. dc d c; [rewrite E; destruct Hp as [->| ->]; split; discriminate|reflexivity].
    - intros t d R Mk. pose proof (G10 t d R Mk) as W. dc d c; [rewrite E in W; destruct W|exact W].
    - apply phase_set; [exact G11|]. unfold p. pose proof Pc as Pc'. unfold phase_ok, rkey, wkey.
      destruct (ops c) eqn:Eo; (split; [|discriminate]); intros o H; exfalso; eapply Pc'; eauto.
    - intros d. rewrite in_app_iff, G13. dc d c.
      + split; [intros _; destruct Hp as [->| ->]; discriminate|]. intros _. right. left. reflexivity.
      + split; [|auto]. intros [H|[H|[]]]; [exact H|congruence].
    - intros d a. rewrite in_app_iff, G14. dc d c.
      + rewrite E. split; [intros [H|[H|[]]]; discriminate|]. destruct Hp as [->| ->]; discriminate.
      + split; [|auto]. intros [H|[H|[]]]; [exact H|discriminate].
    - apply rt_event; [exact G15|]. intros d b Ed Hd. injection Ed as <-. apply in_lin in Hd as (o & Ho & _). exact (Pc o Ho).
  Qed.

  Lemma top_return s c a : ph s c = PDone a -> holding c s = false ->
    kept_top s (Some (EReturn c a)) (mkState (top s) (trs s) (root s) (set_ph (ph s) c (PRet a))).
  Proof using Hn Hg.
    intros E Ho tr L M G. exists L, M. split; [|apply adds_none]. destruct G as [G1 G2 G3 G4 G5 G6 G7 G8 G9 G10 G11 G12 G13 G14 G15].
    unfold holding in Ho. apply Bool.orb_false_iff in Ho as [Ho Ho3]. apply Bool.orb_false_iff in Ho as [Ho1 Ho2].
    constructor; cbn [top trs root ph]; auto.
    - intros d H. destruct (G5 d H) as [R W]. split; [exact R|]. dc d c; [|exact W]. rewrite H in Ho1. rewrite Nat.eqb_refl in Ho1. discriminate.
    - intros d. rewrite G6. dc d c; [rewrite E; reflexivity|reflexivity].
    - intros d. rewrite G7. dc d c; [rewrite E; reflexivity|reflexivity].
    - intros d. rewrite G8. dc d c; [rewrite E; reflexivity|reflexivity].
    - intros d. rewrite G9. dc d c; [rewrite E; split; discriminate|reflexivity].
    - intros t d R Mk. pose proof (G10 t d R Mk) as W. dc d c; [|exact W]. rewrite R in Ho3. exfalso.
      assert (H : holds c t = true); [|congruence]. clear - Mk. revert Mk. induction t as [m rs vs ks IH] using atree_all. intros Mk.
      apply marked_in in Mk as [Mk|(x & Hx & Mk)]; cbn [holds]; apply Bool.orb_true_iff.
      + left. rewrite Mk. reflexivity.
      + right. apply existsb_exists. exists x. split; [exact Hx|]. rewrite Forall_forall in IH. apply IH; assumption.
    - apply phase_set; [exact G11|]. pose proof (G11 c) as Pc. rewrite E in Pc. exact Pc.
    - intros d. rewrite in_app_iff, G13. dc d c.
      + rewrite E. split; [intros _; discriminate|]. intros _. left. discriminate.
      + split; [|auto]. intros [H|[H|[]]]; [exact H|discriminate].
    - intros d b. rewrite in_app_iff, G14. dc d c.
      + rewrite E. split; [intros [H|[H|[]]]; congruence|]. intros H. right. left. congruence.
      + split; [|auto]. intros [H|[H|[]]]; [exact H|congruence].
    - apply rt_event; [exact G15|]. discriminate.
  Qed.

  Lemma top_lock s c : ph s c = PWrite -> top s = TFree -> trs s = [] ->
    kept_top s None (mkState (TWait c) [] (root s) (set_ph (ph s) c PWWait)).
  Proof using Hn Hg.
    intros E Ht Htr tr L M G. exists L, M. split; [|apply adds_none]. destruct G as [G1 G2 G3 G4 G5 G6 G7 G8 G9 G10 G11 G12 G13 G14 G15].
    constructor; cbn [top trs root ph]; auto.
    - intros t d R T. rewrite (G4 t d R T) in Ht. discriminate.
    - discriminate.
    - intros d. rewrite G6. dc d c; [rewrite E; reflexivity|reflexivity].
    - intros d. rewrite G7. dc d c; [rewrite E; reflexivity|reflexivity].
    - intros d. rewrite <- Htr, G8. dc d c; [rewrite E; reflexivity|reflexivity].
    - intros d. dc d c; [tauto|]. split; [congruence|]. intros H. apply G9 in H. congruence.
    - intros t d R Mk. pose proof (G10 t d R Mk) as W. dc d c; [rewrite E in W; destruct W|exact W].
    - apply phase_set; [exact G11|]. pose proof (G11 c) as Pc. rewrite E in Pc. exact Pc.
    - intros d. rewrite G13. dc d c; [rewrite E; split; discriminate|reflexivity].
    - intros d b. rewrite G14. dc d c; [rewrite E; split; discriminate|reflexivity].
  Qed.

  Lemma top_rlock s c : ph s c = PRead -> top s = TFree ->
    kept_top s None (mkState TFree (c :: trs s) (root s) (set_ph (ph s) c PRWait)).
  Proof using Hn Hg.
    intros E Ht tr L M G. exists L, M. split; [|apply adds_none]. destruct G as [G1 G2 G3 G4 G5 G6 G7 G8 G9 G10 G11 G12 G13 G14 G15].
    constructor; cbn [top trs root ph]; auto.
    - intros t d R T. rewrite <- Ht. eapply G4; eauto.
    - discriminate.
    - intros d. rewrite G6. dc d c; [rewrite E; reflexivity|reflexivity].
    - intros d. rewrite G7. dc d c; [rewrite E; reflexivity|reflexivity].
    - intros d. cbn [count_occ]. rewrite G8. dc d c.
      + rewrite E. destruct (Nat.eq_dec c c); [reflexivity|congruence].
      + destruct (Nat.eq_dec c d); [congruence|reflexivity].
    - intros d. dc d c; [split; discriminate|]. rewrite <- G9, Ht. reflexivity.
    - intros t d R Mk. pose proof (G10 t d R Mk) as W. dc d c; [rewrite E in W; destruct W|exact W].
    - apply phase_set; [exact G11|]. pose proof (G11 c) as Pc. rewrite E in Pc. exact Pc.
    - intros d. rewrite G13. dc d c; [rewrite E; split; discriminate|reflexivity].
    - intros d b. rewrite G14. dc d c; [rewrite E; split; discriminate|reflexivity].
  Qed.

  (** Entering: a reader that waited *)
  Lemma waiting tr s L M c r1 r2 : ginv tr s L M -> trs s = r1 ++ c :: r2 ->
    ph s c = PRWait /\ forall d, count_occ Nat.eq_dec (r1 ++ r2) d = if Nat.eq_dec d c then 0 else is_waiting (ph s d).
  Proof using Hn Hg.
    intros G E. pose proof (g_trs _ _ _ _ _ _ G) as T. rewrite E in T.
    assert (Pc : ph s c = PRWait).
    { specialize (T c). rewrite count_occ_app in T. cbn [count_occ] in T. destruct (Nat.eq_dec c c); [|congruence].
      destruct (ph s c); cbn [is_waiting] in T; try lia. reflexivity. }
    split; [exact Pc|]. intros d. specialize (T d). rewrite count_occ_app in *. cbn [count_occ] in T.
    destruct (Nat.eq_dec c d) as [->|N].
    - rewrite Pc in T. cbn [is_waiting] in T. destruct (Nat.eq_dec d d); [|congruence]. lia.
    - destruct (Nat.eq_dec d c); [congruence|]. exact T.
  Qed.

  Lemma reader_done L c k r M : (forall o, ~ In (c, o) L) -> rkey ops c = Some k ->
    (match r with Some v => stored M k v | None => not_stored M k end) ->
    call_run [] (served ops (lin L)) M ->
    phase_ok ops (L ++ [(c, ORead r)]) (after ops c (ORead r)) c /\ call_run [] (served ops (lin (L ++ [(c, ORead r)]))) M.
  Proof using Hn Hg.
    intros Nc Rk St Run. pose proof (enter_read ops M c k r Rk St) as En. unfold after.
    destruct (fin ops c (ORead r)) as [a|] eqn:F.
    - split; [|eapply served_add; eauto]. cbn [phase_ok]. eapply lin_in; [|exact F]. apply in_or_app. right. left. reflexivity.
    - split.
      + cbn [phase_ok]. split; [|apply En]. intros o Ho. apply in_app_iff in Ho as [Ho|[Ho|[]]]; [destruct (Nc o Ho)|]. injection Ho as <-. exact F.
      + rewrite lin_app, lin_one, F, app_nil_r. exact Run.
  Qed.

  Lemma after_cases c (o : out V) : (exists a, after ops c o = PDone a) \/ after ops c o = PWrite.
  Proof using Hn Hg. unfold after. destruct (fin ops c o); eauto. Qed.

  Lemma top_rnothing s c r1 r2 : trs s = r1 ++ c :: r2 -> root s = None ->
    kept_top s None (mkState (top s) (r1 ++ r2) None (set_ph (ph s) c (after ops c (ORead None)))).
  Proof using Hn Hg.
    intros E R tr L M G. destruct (waiting _ _ _ _ _ _ _ G E) as [Pc Cn].
    pose proof (g_ph _ _ _ _ _ _ G c) as Q. rewrite Pc in Q. destruct Q as [Nc Rk]. destruct (rkey ops c) as [k|] eqn:Ek; [|congruence].
    assert (EM : M = []) by (pose proof (g_perm _ _ _ _ _ _ G) as Pm; rewrite R in Pm; apply Permutation_nil; symmetry; exact Pm).
    destruct (reader_done L c k None M Nc Ek) as [PO Run]; [subst M; intros k' v []|apply G|].
    destruct (add_entry n ops tr s L M c (ORead None) G) as [ND RT]; [intros q Hq; destruct (Nc q Hq)|].
    exists (L ++ [(c, ORead None)]), M. split;
      [|right; exists c, (ORead None); split; [reflexivity|]; split; [reflexivity|];
        assert (St : not_stored M k) by (subst M; intros k' v []); pose proof (enter_read ops M c k None Ek St) as En;
        destruct (fin ops c (ORead None)); [exact En|reflexivity]].
    destruct G as [G1 G2 G3 G4 G5 G6 G7 G8 G9 G10 G11 G12 G13 G14 G15]. rewrite R in *.
    pose proof (after_cases c (ORead None)) as Ac.
    constructor; cbn [top trs root ph]; auto; try discriminate.
    - intros d H. destruct (G5 d H) as [X _]. congruence.
    - intros d. rewrite G6. dc d c; [rewrite Pc; destruct Ac as [[a ->]| ->]; reflexivity|reflexivity].
    - intros d. rewrite G7. dc d c; [rewrite Pc; destruct Ac as [[a ->]| ->]; reflexivity|reflexivity].
    - intros d. rewrite Cn. destruct (Nat.eq_dec d c) as [->|N]; [rewrite set_same|rewrite set_other by exact N; reflexivity].
      destruct Ac as [[a ->]| ->]; reflexivity.
    - intros d. rewrite G9. dc d c; [rewrite Pc; destruct Ac as [[a ->]| ->]; split; discriminate|reflexivity].
    - apply phase_add; assumption.
    - intros d. rewrite G13. dc d c; [rewrite Pc; destruct Ac as [[a ->]| ->]; split; discriminate|reflexivity].
    - intros d b. rewrite G14. dc d c; [rewrite Pc; destruct Ac as [[a ->]| ->]; split; discriminate|reflexivity].
  Qed.

  Lemma top_rroot s c r1 r2 rs vs ks : trs s = r1 ++ c :: r2 -> root s = Some (ANode MFree rs vs ks) ->
    kept_top s None (mkState (top s) (r1 ++ r2) (Some (ANode MFree (c :: rs) vs ks)) (set_ph (ph s) c PReading)).
  Proof using Hn Hg.
    intros E R tr L M G. destruct (waiting _ _ _ _ _ _ _ G E) as [Pc Cn].
    pose proof (g_ph _ _ _ _ _ _ G c) as Q. rewrite Pc in Q. destruct Q as [Nc Rk]. destruct (rkey ops c) as [k|] eqn:Ek; [|congruence].
    pose proof (g_tree _ _ _ _ _ _ G) as T. rewrite R in T. destruct T as [h I].
    pose proof (g_perm _ _ _ _ _ _ G) as Pm. rewrite R in Pm. rewrite fl_eq in Pm. cbn [flm pl] in Pm. rewrite pl_fl in Pm.
    pose proof I as I0. apply inv_elim in I as (O & (Pl & Rd) & K). cbn [flm okres] in O. rewrite pl_fl in *.
    assert (St : match get (Node vs (map P ks)) k with Some v => stored M k v | None => not_stored M k end).
    { pose proof (get_spec n h _ k (proj1 O) (proj2 (proj2 (proj2 (proj2 O)))) (rkey_good ops Hg c k Ek) (proj1 (proj2 (proj2 (proj2 O))))) as H.
      destruct (get _ k); [eapply stored_perm; eauto|eapply not_stored_perm; eauto]. }
    set (r := get (Node vs (map P ks)) k) in *.
    destruct (reader_done L c k r M Nc Ek St) as [_ Run]; [apply G|].
    destruct (add_entry n ops tr s L M c (ORead r) G) as [ND RT]; [intros q Hq; destruct (Nc q Hq)|].
    exists (L ++ [(c, ORead r)]), M. split;
      [|right; exists c, (ORead r); split; [reflexivity|]; split; [reflexivity|]; pose proof (enter_read ops M c k r Ek St) as En;
        destruct (fin ops c (ORead r)); [exact En|reflexivity]].
    destruct G as [G1 G2 G3 G4 G5 G6 G7 G8 G9 G10 G11 G12 G13 G14 G15]. rewrite R in *.
    constructor; cbn [top trs root ph]; auto; try discriminate.
    - exists h. apply inv_intro.
      + cbn [flm okres]. rewrite pl_fl. exact O.
      + split; [exact Pl|]. rewrite pl_fl. intros d [<-|Hd].
        * exists k. split; [exact Ek|]. apply in_or_app. right. left. reflexivity.
        * destruct (Rd d Hd) as (k' & E1 & E2). exists k'. split; [exact E1|]. apply in_or_app. left. exact E2.
      + destruct h as [|h]; [exact K|]. rewrite Forall_forall in *. intros t Ht. eapply inv_mono; [|apply K, Ht].
        intros d o Ho. apply in_or_app. left. exact Ho.
    - intros t d X. injection X as <-. intros Tg. apply (G4 _ d eq_refl). exact Tg.
    - intros d H. destruct (G5 d H) as [X W]. split; [discriminate|]. dc d c; [rewrite Pc in W; destruct W|exact W].
    - intros d. specialize (G6 d). cbn [rcount tsum] in *. unfold readers at 1 in G6. unfold readers at 1. cbn [count_occ].
      dc d c.
      + rewrite Pc in G6. destruct (Nat.eq_dec c c); [|congruence]. cbn [is_reading] in *. lia.
      + destruct (Nat.eq_dec c d); [congruence|]. exact G6.
    - intros d. specialize (G7 d). cbn [wcount tsum] in *. dc d c; [rewrite Pc in G7; exact G7|exact G7].
    - intros d. rewrite Cn. destruct (Nat.eq_dec d c) as [->|N]; [rewrite set_same|rewrite set_other by exact N]; reflexivity.
    - intros d. rewrite G9. dc d c; [rewrite Pc; split; discriminate|reflexivity].
    - intros t d X Mk. injection X as <-. pose proof (G10 _ d eq_refl Mk) as W. dc d c; [rewrite Pc in W; destruct W|exact W].
    - apply phase_add; [assumption|]. exists r. intros o Ho. apply in_app_iff in Ho as [Ho|[Ho|[]]]; [destruct (Nc o Ho)|congruence].
    - intros d. rewrite G13. dc d c; [rewrite Pc; split; discriminate|reflexivity].
    - intros d b. rewrite G14. dc d c; [rewrite Pc; split; discriminate|reflexivity].
  Qed.

  (** A writer that waited *)
  Lemma wwaiting tr s L M c : ginv tr s L M -> top s = TWait c ->
    ph s c = PWWait /\ (forall q, In (c, q) L -> fin ops c q = None) /\ wkey ops c <> None.
  Proof using Hn Hg.
    intros G E. apply (g_wait _ _ _ _ _ _ G) in E. split; [exact E|]. pose proof (g_ph _ _ _ _ _ _ G c) as Q. rewrite E in Q. exact Q.
  Qed.

  Lemma top_nothing s c k can : top s = TWait c -> root s = None -> ops c = KDelete k can ->
    kept_top s None (mkState TFree (trs s) None (set_ph (ph s) c (PDone (AAsked None)))).
  Proof using Hn Hg.
    intros E R Op tr L M G. destruct (wwaiting _ _ _ _ _ G E) as (Pc & Nc & Wk).
    assert (EM : M = []) by (pose proof (g_perm _ _ _ _ _ _ G) as Pm; rewrite R in Pm; apply Permutation_nil; symmetry; exact Pm).
    destruct (add_entry n ops tr s L M c (OAsked None) G Nc) as [ND RT].
    exists (L ++ [(c, OAsked None)]), M. split;
      [|right; exists c, (OAsked None); split; [reflexivity|]; split; [reflexivity|]; cbn [fin]; rewrite Op; apply CS_absent; subst M; intros k' v []].
    destruct G as [G1 G2 G3 G4 G5 G6 G7 G8 G9 G10 G11 G12 G13 G14 G15]. rewrite R in *.
    constructor; cbn [top trs root ph]; auto; try discriminate.
    - eapply served_add; [exact G2|reflexivity|]. rewrite Op. apply CS_absent. subst M. intros k' v [].
    - intros d. rewrite G6. dc d c; [rewrite Pc; reflexivity|reflexivity].
    - intros d. rewrite G7. dc d c; [rewrite Pc; reflexivity|reflexivity].
    - intros d. rewrite G8. dc d c; [rewrite Pc; reflexivity|reflexivity].
    - intros d. dc d c; [split; discriminate|]. rewrite <- G9, E. split; congruence.
    - apply phase_add; [assumption|]. cbn [phase_ok]. eapply lin_in; [apply in_or_app; right; left; reflexivity|reflexivity].
    - intros d. rewrite G13. dc d c; [rewrite Pc; split; discriminate|reflexivity].
    - intros d b. rewrite G14. dc d c; [rewrite Pc; split; discriminate|reflexivity].
  Qed.

  Lemma top_enter s c vs ks h tr L M :
    ginv tr s L M -> top s = TWait c -> okn n true h (Node vs (map P ks)) ->
    Forall plain (map fl ks) -> match h with O => ks = [] | S h' => Forall (inv (fun c o => In (c, o) L) false h') ks end ->
    Permutation M (flat (Node vs (map P ks))) ->
    (forall d, rcount d (Some (ANode (MAt c) [] vs ks)) = rcount d (root s)) ->
    (forall d, wcount d (Some (ANode (MFree) [] vs ks)) = wcount d (root s)) ->
    (forall d, marked d (ANode MFree [] vs ks) = true -> working (ph s d)) ->
    exists L' M', ginv tr (mkState (TIn c) (trs s) (Some (ANode (MAt c) [] vs ks)) (set_ph (ph s) c PWriting)) L' M' /\ adds s L M L' M'.
  Proof using Hn Hg.
    intros G E O Pl K Pm Cr Cw Mk. destruct (wwaiting _ _ _ _ _ G E) as (Pc & Nc & Wk).
    destruct (enter_write n ops Hn Hg true h c _ M O Wk Pm) as (a & M' & Fa & NR & Cs & Pm').
    set (o := answer n ops c (Node vs (map P ks))) in *.
    destruct (add_entry n ops tr s L M c o G Nc) as [ND RT].
    exists (L ++ [(c, o)]), M'. split;
      [|right; exists c, o; split; [reflexivity|]; split; [congruence|]; rewrite Fa; exact Cs].
    destruct G as [G1 G2 G3 G4 G5 G6 G7 G8 G9 G10 G11 G12 G13 G14 G15].
    assert (Fl : fl (ANode (MAt c) [] vs ks) = flop n ops c (Node vs (map P ks))) by (rewrite fl_eq; cbn [flm]; rewrite pl_fl; reflexivity).
    assert (OK : okres n true h (flop n ops c (Node vs (map P ks)))) by (apply (flop_ok n ops Hn (fun _ _ => True) Hg) || apply flop_ok; auto; exact (fun _ _ => True)).
    constructor; cbn [top trs root ph]; auto; try discriminate.
    - exists h. apply inv_intro.
      + rewrite <- fl_eq with (rs := []), Fl. exact OK.
      + cbn [nok]. rewrite pl_fl. split; [reflexivity|]. split; [exact Pl|]. split; [exact O|]. split; [exact Wk|]. apply in_or_app. right. left. reflexivity.
      + destruct h as [|h]; [exact K|]. rewrite Forall_forall in *. intros t Ht. eapply inv_mono; [|apply K, Ht].
        intros d q Hq. apply in_or_app. left. exact Hq.
    - eapply served_add; eauto.
    - rewrite Fl. exact Pm'.
    - intros t d X T. injection X as <-. rewrite Fl in T. f_equal. symmetry. eapply flop_tag; [exact T|].
      intros X. rewrite X in OK. exact OK.
    - intros d X. injection X as <-. split; [discriminate|]. rewrite set_same. exact Logic.I.
    - intros d. rewrite Cr, G6. dc d c; [rewrite Pc; reflexivity|reflexivity].
    - intros d. specialize (Cw d). rewrite G7 in Cw. cbn [wcount tsum writers] in *. dc d c.
      + rewrite Pc in Cw. rewrite Nat.eqb_refl. cbn [is_writing] in *. lia.
      + assert (N' : c <> d) by congruence. apply Nat.eqb_neq in N'. rewrite N'. exact Cw.
    - intros d. rewrite G8. dc d c; [rewrite Pc; reflexivity|reflexivity].
    - intros d. dc d c; [split; discriminate|]. rewrite <- G9, E. split; congruence.
    - intros t d X H. injection X as <-. dc d c; [exact Logic.I|]. apply Mk. apply marked_in in H as [H|H].
      + apply Nat.eqb_eq in H. congruence.
      + apply marked_in. right. exact H.
    - apply phase_add; [assumption|exact Logic.I].
    - intros d. rewrite G13. dc d c; [rewrite Pc; split; discriminate|reflexivity].
    - intros d b. rewrite G14. dc d c; [rewrite Pc; split; discriminate|reflexivity].
  Qed.

  Lemma top_new s c k v : top s = TWait c -> root s = None -> stores ops c = Some (k, v) ->
    kept_top s None (mkState (TIn c) (trs s) (Some (ANode (MAt c) [] [] [])) (set_ph (ph s) c PWriting)).
  Proof using Hn Hg.
    intros E R St tr L M G. eapply top_enter with (h := 0); eauto.
    - split; [reflexivity|]. split; [cbn; lia|]. split; [lia|]. split; constructor.
    - constructor.
    - pose proof (g_perm _ _ _ _ _ _ G) as Pm. rewrite R in Pm. exact Pm.
    - intros d. rewrite R. reflexivity.
    - intros d. rewrite R. reflexivity.
    - discriminate.
  Qed.
  Lemma top_root s c vs ks : top s = TWait c -> root s = Some (ANode MFree [] vs ks) ->
    kept_top s None (mkState (TIn c) (trs s) (Some (ANode (MAt c) [] vs ks)) (set_ph (ph s) c PWriting)).
  Proof using Hn Hg.
    intros E R tr L M G. pose proof (g_tree _ _ _ _ _ _ G) as T. rewrite R in T. destruct T as [h I].
    apply inv_elim in I as (O & (Pl & _) & K). cbn [flm okres] in O. rewrite pl_fl in *.
    eapply top_enter with (h := h); eauto.
    - pose proof (g_perm _ _ _ _ _ _ G) as Pm. rewrite R in Pm. rewrite fl_eq in Pm. cbn [flm pl] in Pm. rewrite pl_fl in Pm. exact Pm.
    - intros d. rewrite R. reflexivity.
    - intros d. rewrite R. reflexivity.
    - intros d H. eapply g_mark; eauto.
  Qed.

  (** Leaving the top *)
  Lemma top_leave s tr L M c t t' h :
    ginv tr s L M -> top s = TIn c -> root s = Some t -> inv (fun c o => In (c, o) L) true h t' ->
    tag (fl t') = None -> Permutation M (flat (pl (fl t'))) ->
    (forall W, W MFree [] = 0 -> (forall d, W (MOver d) [] = 0) -> (forall d, W (MUnder d) [] = 0) -> tsum (fun _ => W) 0 t' = tsum (fun _ => W) 0 t) ->
    (forall d, marked d t' = true -> marked d t = true) ->
    ginv tr (mkState TFree (trs s) (Some t') (ph s)) L M.
  Proof using Hn Hg.
    intros G E R I T Pm Cn Mk. destruct G as [G1 G2 G3 G4 G5 G6 G7 G8 G9 G10 G11 G12 G13 G14 G15].
    constructor; cbn [top trs root ph]; auto; try discriminate.
    - eauto.
    - intros x d X Y. injection X as <-. congruence.
    - intros d. rewrite <- G6, R. cbn [rcount]. apply Cn; reflexivity.
    - intros d. rewrite <- G7, R. cbn [wcount]. apply Cn; reflexivity.
    - intros d. rewrite <- G9, E. split; discriminate.
    - intros x d X H. injection X as <-. eapply G10; [exact R|apply Mk, H].
  Qed.

  Lemma top_release s c t : top s = TIn c -> root s = Some t -> settled n ops c t = true ->
    kept_top s None (mkState TFree (trs s) (Some t) (ph s)).
  Proof using Hn Hg.
    intros E R Se tr L M G. exists L, M. split; [|apply adds_none]. pose proof (g_tree _ _ _ _ _ _ G) as T. rewrite R in T. destruct T as [h I].
    eapply top_leave; eauto.
    - destruct (tag (fl t)) as [d|] eqn:Tg; [|reflexivity]. exfalso. pose proof (g_tag _ _ _ _ _ _ G t d R Tg) as X.
      assert (d = c) by congruence. subst d. eapply settled_tag; eauto.
    - pose proof (g_perm _ _ _ _ _ _ G) as Pm. rewrite R in Pm. exact Pm.
  Qed.

  Lemma asplit_inv log rt h c cv ck p L R :
    inv log rt h (ANode (MOver c) [] cv ck) -> asplit n cv ck = Some (p, L, R) ->
    fl (ANode (MOver c) [] cv ck) = RSplit c (Node [p] [P L; P R]) /\ inv log false h L /\ inv log false h R /\ plain (fl L) /\ plain (fl R).
  Proof using Hn Hg.
    intros I Sp. apply inv_elim in I as (Oc & (_ & Plc & Lc) & Kc).
    assert (Fc : fl (ANode (MOver c) [] cv ck) = RSplit c (Node [p] [P L; P R])).
    { rewrite fl_eq. cbn [flm]. rewrite pl_fl. eapply asplit_over; eauto. }
    split; [exact Fc|]. change (flm n ops (MOver c) cv (map fl ck)) with (fl (ANode (MOver c) [] cv ck)) in Oc. rewrite Fc in Oc.
    assert (KO : kidsok n ops log h ck) by (split; [exact Kc|exact Plc]). clear Fc.
    unfold asplit in Sp. remember (maxValues n / 2) as pv eqn:Epv in *. destruct (nth_error cv pv) as [q|] eqn:Eq; [|discriminate].
    injection Sp as -> <- <-.
    assert (Ock : okn n false h (Node (firstn pv cv) (map P (firstn (pv + 1) ck))) /\
                  okn n false h (Node (skipn (pv + 1) cv) (map P (skipn (pv + 1) ck)))).
    { cbn [okres] in Oc. destruct Oc as ((x & l & r & E & [Bl Ll] & [Br Lr]) & So & Go). injection E as <- <- <-.
      rewrite !P_free in *. unfold flat in So, Go; fold (@flat V) in So, Go. cbn [map weave] in So, Go. rewrite app_nil_r in So, Go.
      apply sorted_app in So as (So1 & So2 & _). apply sorted_cons in So2 as [So2 _].
      apply goods_app in Go as (Go1 & Go2). apply goods_cons in Go2 as [_ Go2].
      split; (split; [assumption|]; split; [apply Ll || apply Lr|]; split; [apply Ll || apply Lr|]; split; assumption). }
    destruct Ock as [OL OR].
    split; [|split; [|split; exact Logic.I]].
    - apply new_node; [|exact OL]. eapply kidsok_incl; [exact KO|]. intros x Hx. rewrite <- (firstn_skipn (pv + 1) ck). apply in_or_app. left. exact Hx.
    - apply new_node; [|exact OR]. eapply kidsok_incl; [exact KO|]. intros x Hx. rewrite <- (firstn_skipn (pv + 1) ck). apply in_or_app. right. exact Hx.
  Qed.

  Lemma asplit_marked cv ck p (L R : atree) : asplit n cv ck = Some (p, L, R) ->
    forall m rs d, marked d L = true \/ marked d R = true -> marked d (ANode m rs cv ck) = true.
  Proof using Hn Hg.
    unfold asplit. destruct (nth_error cv _); [|discriminate]. intros H. injection H as _ <- <-. intros m rs d H. apply marked_in. right.
    destruct H as [H|H]; apply marked_in in H as [H|(x & Hx & H)]; try discriminate; exists x; (split; [|exact H]);
      rewrite <- (firstn_skipn (maxValues n / 2 + 1) ck); apply in_or_app; [left|right]; exact Hx.
  Qed.

  Lemma top_grow s c vs ks p Lt Rt : top s = TIn c -> root s = Some (ANode (MOver c) [] vs ks) -> asplit n vs ks = Some (p, Lt, Rt) ->
    kept_top s None (mkState TFree (trs s) (Some (ANode MFree [] [p] [Lt; Rt])) (ph s)).
  Proof using Hn Hg.
    intros E R Sp tr L M G. exists L, M. split; [|apply adds_none]. pose proof (g_tree _ _ _ _ _ _ G) as T. rewrite R in T. destruct T as [h I].
    destruct (asplit_inv _ _ _ _ _ _ _ _ _ I Sp) as (Fc & IL & IR & PL & PR).
    assert (OK : okres n true h (RSplit c (Node [p] [P Lt; P Rt]))) by (rewrite <- Fc; apply inv_elim in I as (O & _); exact O).
    cbn [okres] in OK. destruct OK as ((x & l & r & E' & Ol & Or) & So & Go). injection E' as <- <- <-.
    assert (EF : fl (ANode MFree [] [p] [Lt; Rt]) = RPlain (Node [p] [P Lt; P Rt])).
    { rewrite fl_eq. cbn [flm map]. reflexivity. }
    eapply top_leave with (h := S h); eauto.
    - apply inv_intro.
      + rewrite <- fl_eq with (rs := []), EF. cbn [okres]. split; [apply balanced_S; split; [reflexivity|constructor; [exact Ol|constructor; [exact Or|constructor]]]|].
        cbn [vals_of length]. split; [lia|]. split; [lia|auto].
      + split; [constructor; [exact PL|constructor; [exact PR|constructor]]|intros d []].
      + constructor; [exact IL|constructor; [exact IR|constructor]].
    - rewrite EF. pose proof (g_perm _ _ _ _ _ _ G) as Pm. rewrite R, Fc in Pm. exact Pm.
    - intros W W1 W2 W3. pose proof (asplit_sum (fun _ => W) (fun _ => W1) n 0 vs ks p Lt Rt Sp) as X.
      cbn [tsum map lsum pred] in *. rewrite W1, W2. lia.
    - intros d H. apply marked_in in H as [H|(x & Hx & H)]; [discriminate|]. eapply asplit_marked; eauto.
      destruct Hx as [<-|[<-|[]]]; auto.
  Qed.

  Lemma top_shrink s c vs ks : top s = TIn c -> root s = Some (ANode (MUnder c) [] vs ks) ->
    kept_top s None (mkState TFree (trs s)
                     (match vs, ks with
                      | [], [] => None
                      | [], t :: _ => Some t
                      | _, _ => Some (ANode MFree [] vs ks)
                      end) (ph s)).
  Proof using Hn Hg.
    intros E R tr L M G. exists L, M. split; [|apply adds_none]. pose proof (g_tree _ _ _ _ _ _ G) as T. rewrite R in T. destruct T as [h I].
    pose proof (g_perm _ _ _ _ _ _ G) as Pm. rewrite R, fl_eq in Pm. cbn [flm pl] in Pm. rewrite pl_fl in Pm.
    apply inv_elim in I as (O & (_ & Pl) & K). cbn [flm okres] in O. rewrite pl_fl in *. destruct O as (B & Ln & _ & So & Go).
    destruct vs as [|v vs]; [destruct ks as [|t ks]|].
    - destruct G as [G1 G2 G3 G4 G5 G6 G7 G8 G9 G10 G11 G12 G13 G14 G15]. constructor; cbn [top trs root ph]; auto; try discriminate.
      + intros d. rewrite <- G6, R. reflexivity.
      + intros d. rewrite <- G7, R. reflexivity.
      + intros d. rewrite <- G9, E. split; discriminate.
    - destruct h as [|h]; [discriminate K|]. apply (proj1 (balanced_S _ _ _ _)) in B as [LK _]. rewrite map_length in LK.
      destruct ks as [|t2 ks]; [|discriminate LK]. inversion K as [|? ? It _]; subst. inversion Pl as [|? ? Pt _]; subst.
      eapply top_leave with (h := h); eauto.
      + apply inv_root; auto.
      + destruct (fl t); cbn in Pt; tauto.
      + cbn [map] in Pm. unfold flat in Pm; fold (@flat V) in Pm. cbn [map weave] in Pm. rewrite ?app_nil_r in Pm. exact Pm.
      + intros W W1 W2 W3. cbn [tsum map lsum pred]. rewrite W3. lia.
      + intros d H. apply marked_in. right. exists t. split; [left; reflexivity|exact H].
    - eapply top_leave with (h := h); eauto.
      + apply inv_intro; [|split; [exact Pl|intros d []]|exact K]. cbn [flm okres]. rewrite pl_fl. split; [exact B|]. split; [exact Ln|].
        split; [cbn; lia|auto].
      + rewrite fl_eq. cbn [flm pl]. rewrite pl_fl. exact Pm.
      + intros W W1 W2 W3. cbn [tsum]. rewrite W1, W3. reflexivity.
      + intros d H. apply marked_in in H as [H|H]; [discriminate|]. apply marked_in. right. exact H.
  Qed.

  Lemma top_local s t o t' : root s = Some t -> lstep n ops t o t' ->
    kept_top s None (mkState (top s) (trs s) (Some t') (report ops (ph s) o)).
  Proof using Hn Hg.
    intros R St tr L M G. exists L, M. split; [|apply adds_none]. pose proof (g_tree _ _ _ _ _ _ G) as T. rewrite R in T. destruct T as [h I].
    destruct (lstep_kept n ops _ t o t' Hn Hg St true h I) as (F & I' & Lg).
    pose proof (lstep_marked n ops _ t o t' St true h I) as Mk.
    assert (Cr : forall d, tsum (fun _ => readers d) 0 t = tsum (fun _ => readers d) 0 t' + gone (one d) (fun _ => 0) o)
      by (intros d; eapply lstep_count; eauto using readers_ok).
    assert (Cw : forall d, tsum (fun _ => writers d) 0 t = tsum (fun _ => writers d) 0 t' + gone (fun _ => 0) (one d) o)
      by (intros d; eapply lstep_count; eauto using writers_ok).
    destruct G as [G1 G2 G3 G4 G5 G6 G7 G8 G9 G10 G11 G12 G13 G14 G15]. rewrite R in *.
    destruct o as [[c x]|].
    - cbn [report]. pose proof (after_cases c x) as Ac.
      assert (HR : (exists r, x = ORead r) \/ (forall r, x <> ORead r)) by (destruct x; eauto; right; discriminate).
      assert (Pc : (exists r, x = ORead r /\ ph s c = PReading) \/ ((forall r, x <> ORead r) /\ ph s c = PWriting)).
      { destruct HR as [[r ->]|NR]; [left; exists r; split; [reflexivity|]|right; split; [exact NR|]].
        - specialize (Cr c). specialize (G6 c). cbn [rcount] in G6. cbn [gone] in Cr. unfold one in Cr. rewrite Nat.eqb_refl in Cr.
          destruct (ph s c); cbn [is_reading] in G6; try lia; reflexivity.
        - specialize (Cw c). specialize (G7 c). cbn [wcount] in G7. assert (X : gone (fun _ => 0) (one c) (Some (c, x)) = 1).
          { unfold gone, one. rewrite Nat.eqb_refl. destruct x; try reflexivity. destruct (NR r eq_refl). }
          rewrite X in Cw. destruct (ph s c); cbn [is_writing] in G7; try lia; reflexivity. }
      assert (Oc : forall d, d <> c -> gone (one d) (fun _ => 0) (Some (c, x)) = 0 /\ gone (fun _ => 0) (one d) (Some (c, x)) = 0).
      { intros d N. assert (N' : c <> d) by congruence. apply Nat.eqb_neq in N'. unfold gone, one. rewrite N'. destruct x; auto. }
      assert (Pw : working (ph s c) -> exists a, after ops c x = PDone a).
      { intros W. destruct Pc as [(r & -> & X)|[NR X]]; [rewrite X in W; destruct W|]. unfold after.
        destruct x; cbn [fin]; eauto. destruct (NR r eq_refl). }
      constructor; cbn [top trs root ph]; auto.
      + eauto.
      + rewrite F. exact G3.
      + intros y d Y. injection Y as <-. rewrite F. apply G4. reflexivity.
      + intros d H. destruct (G5 d H) as [_ W]. split; [discriminate|]. dc d c; [|exact W]. destruct (Pw W) as [a ->]. exact Logic.I.
      + intros d. specialize (G6 d). cbn [rcount] in *. specialize (Cr d). dc d c.
        * assert (Q : is_reading (after ops c x) = 0) by (destruct Ac as [[a ->]| ->]; reflexivity). rewrite Q.
          destruct Pc as [(r & -> & X)|[NR X]]; rewrite X in G6; cbn [is_reading] in G6; [|lia].
          cbn [gone] in Cr. unfold one in Cr. rewrite Nat.eqb_refl in Cr. lia.
        * destruct (Oc d N). lia.
      + intros d. specialize (G7 d). cbn [wcount] in *. specialize (Cw d). dc d c.
        * assert (Q : is_writing (after ops c x) = 0) by (destruct Ac as [[a ->]| ->]; reflexivity). rewrite Q.
          destruct Pc as [(r & -> & X)|[NR X]]; rewrite X in G7; cbn [is_writing] in G7; [lia|].
          assert (Y : gone (fun _ => 0) (one c) (Some (c, x)) = 1).
          { unfold gone, one. rewrite Nat.eqb_refl. destruct x; try reflexivity. destruct (NR r eq_refl). }
          lia.
        * destruct (Oc d N). lia.
      + intros d. rewrite G8. dc d c; [|reflexivity]. destruct Pc as [(r & _ & ->)|[_ ->]]; destruct Ac as [[a ->]| ->]; reflexivity.
      + intros d. rewrite G9. dc d c; [|reflexivity]. destruct Pc as [(r & _ & ->)|[_ ->]]; destruct Ac as [[a ->]| ->]; split; discriminate.
      + intros y d Y H. injection Y as <-. pose proof (G10 t d eq_refl (Mk d H)) as W. dc d c; [|exact W]. destruct (Pw W) as [a ->]. exact Logic.I.
      + apply phase_set; [exact G11|]. unfold after. destruct (fin ops c x) as [a|] eqn:Fx; cbn [phase_ok]; [eapply lin_in; eauto|].
        destruct Pc as [(r & -> & X)|[NR X]].
        * pose proof (G11 c) as Q. rewrite X in Q. destruct Q as [z Q]. split.
          -- intros q Hq. rewrite (Q q Hq), <- (Q _ Lg). exact Fx.
          -- cbn [fin] in Fx. unfold wkey. destruct (ops c); try discriminate.
        * exfalso. destruct x; cbn [fin] in Fx; try discriminate. exact (NR r eq_refl).
      + intros d. rewrite G13. dc d c; [|reflexivity]. destruct Pc as [(r & _ & ->)|[_ ->]]; destruct Ac as [[a ->]| ->]; split; discriminate.
      + intros d b. rewrite G14. dc d c; [|reflexivity]. destruct Pc as [(r & _ & ->)|[_ ->]]; destruct Ac as [[a ->]| ->]; split; discriminate.
    - cbn [report gone] in *. constructor; cbn [top trs root ph]; auto.
      + eauto.
      + rewrite F. exact G3.
      + intros y d Y. injection Y as <-. rewrite F. apply G4. reflexivity.
      + intros d H. destruct (G5 d H) as [_ W]. split; [discriminate|exact W].
      + intros d. rewrite <- G6. cbn [rcount]. rewrite (Cr d). lia.
      + intros d. rewrite <- G7. cbn [wcount]. rewrite (Cw d). lia.
      + intros y d Y H. injection Y as <-. apply (G10 t d eq_refl (Mk d H)).
  Qed.
End Top.

Theorem step_ginv {V} n (ops : nat -> cop V) s e s' : 2 <= n -> good_calls ops -> step n ops s e s' -> kept_top n ops s e s'.
Proof.
  intros Hn Hg St. destruct St.
  - apply top_call; assumption.
  - apply top_lock; assumption.
  - eapply top_nothing; eauto.
  - eapply top_new; eauto.
  - eapply top_root; eauto.
  - eapply top_release; eauto.
  - eapply top_grow; eauto.
  - eapply top_shrink; eauto.
  - apply top_rlock; assumption.
  - apply top_rnothing; assumption.
  - eapply top_rroot; eauto.
  - eapply top_local; eauto.
  - eapply top_return; eauto.
Qed.

Theorem exec_ginv {V} n (ops : nat -> cop V) tr s : 2 <= n -> good_calls ops -> exec n ops tr s -> exists L M, ginv n ops tr s L M.
Proof.
  intros Hn Hg X. induction X as [|tr s e s' X IH St].
  - exists [], []. constructor; cbn; auto; try discriminate; try tauto.
    + constructor.
    + split; discriminate.
    + constructor.
    + intros c. split; [intros []|congruence].
    + intros tr1 tr2 c a d b E. destruct tr1; discriminate.
  - destruct IH as (L & M & G). destruct (step_ginv n ops s e s' Hn Hg St tr L M G) as (L' & M' & G' & _). eauto.
Qed.
