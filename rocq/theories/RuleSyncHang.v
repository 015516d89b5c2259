(** Proofs about [RuleSync.v]: two requests that wait for each other for ever. *)
From Coq Require Import List Bool Arith Lia Permutation.
Import ListNotations.
From Verif Require Import AssocSync SpecAssocSync AssocSyncBase AssocSyncInv AssocSyncGlobal AssocSyncLive AssocSyncExamples RuleSync SpecRuleSync RuleSyncLocks RuleSyncOvers RuleSyncProofs RuleSyncExamples SpecRuleSyncLive.

Definition two : kvs := [(1, 1); (2, 2)].
(** The deletion of an override of rule 0 (request 2), the creation of one (request 3) and the deletion of the rule (request 4) wait *)
Record jam (n m : nat) (s : lim) : Prop := {
  jam_2 : nth_error (l_threads s) 2 = Some (mkR (DropOver 0 0) (LInside n));
  jam_3 : nth_error (l_threads s) 3 = Some (mkR (Override 0 two) (LInside m));
  jam_4 : nth_error (l_threads s) 4 = Some (mkR (DropRule 0) LMarked);
  jam_hung : hung false n m 0 (l_over s 0);
  jam_call : exists kv l x, nth_error (st_threads (l_over s 0)) m = Some (mkThread CFindCreate kv (PCall l x));
  jam_mark : l_dying s 0 = true;
  jam_rest : forall j q p, nth_error (l_threads s) j = Some (mkR q p) -> about q = Some 0 -> j = 2 \/ j = 3 \/ j = 4 \/ p = LCheck \/ p = LEnd Gone \/ p = LEnd Deleting \/ j = 1 /\ exists a, p = LEnd a }.
Lemma jam_next n m s tr s' : lexec (s :: tr) -> jam n m s -> lnext s s' -> jam n m s'.
Proof.
  intros E J ST. pose proof (exec_locks _ _ E) as K. destruct (reader s 2 _ _ 0 (jam_2 _ _ _ J) eq_refl K) as [NH R0].
  assert (RD : locked_by reads (l_threads s) 0) by (exists 2; eexists; split; [apply J|reflexivity]).
  destruct (o_exec s (exec_overs _ _ E) 0) as (t0 & tr0 & E0 & _ & EQ). specialize (EQ NH). subst t0.
  destruct J as [J2 J3 J4 JH (kv3 & l3 & x3 & JC) JM JR]. destruct ST as [s q A | s i q p s' p' N ST].
  - constructor; cbn [with_threads l_threads l_over l_dying]; auto.
    1-3: apply (nth_snoc_old (l_threads s)); assumption.
    1: eauto.
    intros j q0 p NJ AB. apply nth_snoc in NJ. destruct NJ as [NJ | [_ EQ]]; [eapply JR; eauto|]. injection EQ as -> ->. auto.
  - pose proof (lstep_threads _ _ _ _ _ _ ST) as TE.
    assert (I4 : i <> 4). { intros ->. rewrite N in J4. injection J4 as -> ->. inversion ST; subst; contradiction. }
    assert (PI : i = 2 \/ i = 3 -> p' = p).
    { intros [-> | ->]; [rewrite N in J2; injection J2 as -> ->|rewrite N in J3; injection J3 as -> ->]; inversion ST; subst; auto; exfalso; match goal with H : about _ = Some ?r |- _ => injection H as <- end.
      - destruct JH as [_ _ (kv2 & k2 & q & todo & a0 & nd & Ni & _) _]. congruence.
      - congruence. }
    assert (OV : hung false n m 0 (l_over s' 0) /\ exists kv l x, nth_error (st_threads (l_over s' 0)) m = Some (mkThread CFindCreate kv (PCall l x))).
    { destruct (over_steps _ _ _ _ _ _ 0 ST) as [p s' p' EQ NU | s' g A R _ AL _ _ KD EQ | s' k kv' pn w' pn' A NM TS RS EQ | s' y kv' EQQ EI EQ RS | s' EQQ EQ RN]; rewrite ?EQ.
      - eauto 6.
      - exfalso. destruct (JR _ _ _ N A) as [-> | [-> | [-> | [H | [H | [H | (_ & a & H)]]]]]]; congruence.
      - assert (ST1 : step false true (l_over s 0) (mkState w' (set_thread (st_threads (l_over s 0)) k (mkThread (inner q) kv' pn')))) by (destruct (l_over s 0) as [w ts]; eapply ST_step; eauto).
        destruct (hung_step _ _ _ _ _ _ _ _ E0 ST1 JH) as (H1 & _ & _ & H2). split; [exact H1|]. rewrite H2. eauto.
      - exfalso. apply NH. exists i, (mkR q LHold). split; [exact N|]. rewrite EQQ. reflexivity.
      - exfalso. apply NH. exists i, (mkR q LHold). split; [exact N|]. rewrite EQQ. reflexivity. }
    destruct OV as [OV1 OV2].
    assert (KEEP : forall j q0 p0, j = 2 \/ j = 3 \/ j = 4 -> nth_error (l_threads s) j = Some (mkR q0 p0) -> nth_error (l_threads (at_pc s' i q p')) j = Some (mkR q0 p0)).
    { intros j q0 p0 JJ NJ. cbn [at_pc with_threads l_threads]. rewrite TE. destruct (Nat.eq_dec j i) as [->|NE]; [|rewrite nth_set_other by exact NE; exact NJ].
      rewrite N in NJ. injection NJ as <- <-. rewrite (PI ltac:(tauto)). eapply nth_set_same; eauto. }
    constructor; try (apply KEEP; auto; fail); cbn [at_pc with_threads l_over l_dying]; auto.
    + destruct (l_dying s' 0) eqn:D; [reflexivity|]. exfalso. assert (CH : l_dying s' 0 <> l_dying s 0) by congruence. destruct (dying_change _ _ _ _ _ _ 0 ST CH) as [A QQ]. subst q.
      destruct (JR _ _ _ N eq_refl) as [-> | [-> | [-> | [-> | [-> | [-> | (-> & a & ->)]]]]]]; try congruence; inversion ST; subst; try congruence; try discriminate; cbn [with_mark l_dying] in D; rewrite ?set_item_same in D; congruence.
    + intros j q0 p0 NJ AB. cbn [at_pc with_threads l_threads] in NJ. rewrite TE in NJ. destruct (nth_set_cases _ _ _ _ _ _ N NJ) as [[-> EQ] | [_ N']]; [|eapply JR; eauto]. injection EQ as -> ->.
      destruct (JR _ _ _ N AB) as [H | [H | [H | [-> | [-> | [-> | (_ & a & ->)]]]]]]; auto; try (exfalso; eapply ended_stays; eauto; fail).
      inversion ST; subst; try discriminate; auto 8; match goal with H : about _ = Some ?r |- _ => assert (r = 0) as -> by congruence; congruence | |- _ => idtac end.
      * cbn in AB. injection AB as ->. congruence.
Qed.
Lemma jam_run n m s tr tr' : jam n m s -> lexec (tr' ++ s :: tr) -> forall s', In s' tr' -> jam n m s'.
Proof.
  intros J. induction tr' as [|s1 tr' IH]; intros E s' I; [destruct I|]. cbn in E.
  assert (HD : forall s0 t, tr' ++ s :: tr = s0 :: t -> jam n m s0). { intros s0 t EQ. destruct tr' as [|s2 tr']; cbn in EQ; injection EQ as <- _; [exact J|]. apply IH; [|left; reflexivity]. eapply (lexec_back [s1]), E. }
  destruct I as [<- | I]; [|apply IH; [destruct tr' as [|s2 tr']; cbn in E |- *; apply lexec_last in E; apply E|exact I]].
  destruct (tr' ++ s :: tr) as [|s0 t] eqn:EQ; [destruct tr'; discriminate|]. apply lexec_last in E. destruct E as [E ST]. eapply jam_next; eauto.
Qed.

(** A call of the tree of the overrides, from where it is to where it comes; the other calls stay where they are *)
Lemma inside_only i n r q c kv w p w' p' : run n c kv w p w' p' -> forall s tr, lexec (s :: tr) -> nth_error (l_threads s) i = Some (mkR q (LInside n)) -> about q = Some r -> inner q = c ->
  st_world (l_over s r) = w -> nth_error (st_threads (l_over s r)) n = Some (mkThread c kv p) ->
  exists s' tr', lexec (s' :: tr') /\ l_rules s' = l_rules s /\ l_made s' = l_made s /\ l_dying s' = l_dying s /\ l_threads s' = l_threads s /\
    st_world (l_over s' r) = w' /\ nth_error (st_threads (l_over s' r)) n = Some (mkThread c kv p') /\ length (st_threads (l_over s' r)) = length (st_threads (l_over s r)) /\
    forall k, k <> n -> nth_error (st_threads (l_over s' r)) k = nth_error (st_threads (l_over s r)) k.
Proof.
  intros R. induction R as [w p | w p w1 p1 w2 p2 ST R IH]; intros s tr E N A IC EW EP.
  - exists s, tr. repeat (split; [assumption||reflexivity|]). reflexivity.
  - subst c. assert (ST' : lstep s i q (LInside n) (with_over s r (mkState w1 (set_thread (st_threads (l_over s r)) n (mkThread (inner q) kv p1)))) (LInside n)).
    { eapply L_inside; eauto. rewrite EW. exact ST. }
    set (s1 := at_pc (with_over s r (mkState w1 (set_thread (st_threads (l_over s r)) n (mkThread (inner q) kv p1)))) i q (LInside n)).
    assert (E1 : lexec (s1 :: s :: tr)) by (eapply LX_step; [exact E|eapply N_step; eauto]).
    assert (T1 : l_threads s1 = l_threads s) by (apply (set_nth_id (l_threads s)), N).
    assert (O1 : l_over s1 r = mkState w1 (set_thread (st_threads (l_over s r)) n (mkThread (inner q) kv p1))) by (unfold s1; cbn; apply set_item_same).
    destruct (IH s1 (s :: tr) E1) as (s' & tr' & E' & R1 & R2 & R3 & R4 & R5 & R6 & R7 & R8).
    + rewrite T1. exact N.
    + exact A.
    + reflexivity.
    + rewrite O1. reflexivity.
    + rewrite O1. cbn [st_threads]. eapply nth_set_same; eauto.
    + exists s', tr'. split; [exact E'|]. rewrite R1, R2, R3, R4, T1, R7. do 6 (split; [first [reflexivity|assumption]|]). rewrite O1 in *. cbn [st_threads] in *. split; [apply length_set_nth|]. intros k NE. rewrite R8 by exact NE. unfold set_thread. apply nth_set_other. exact NE.
Qed.

Definition w_one : world := mkWorld [mkNode (1, 1) [[0]] 0 None] (set_index (fun _ => None) (1, 1) (Some 0)) (set_item (fun _ => None) 0 (Some [(1, 1)])) (fun _ => false) [[(1, 1)]] [] [0].
Definition w_hold : world := with_held (with_dying w_one 0 true) [0].
Lemma run_one n : run n CFindCreate [(1, 1)] empty_world (start CFindCreate [(1, 1)]) w_one (PDone (RCreated 0)).
Proof. do 8 goes. apply run_end. Qed.
Lemma run_hold n : run n (CDestroy 0) [(0, 0)] w_one YMark w_hold (YDel [(1, 1)] [(1, 1)]).
Proof.
  eapply run_step; [apply (Y_mark _ _ _ _ _ 0); reflexivity|]. eapply run_step; [apply (Y_hold _ _ _ _ _ 0 [(1, 1)]); [reflexivity|split; [intros []|left; reflexivity]|reflexivity]|].
  eapply run_step; [apply Y_agree, Permutation_refl|]. apply run_end.
Qed.
Lemma run_two m : exists w nd l x, run m CFindCreate two w_hold (start CFindCreate two) w (PCall l x) /\ w_held w = [0] /\ w_items w = w_items w_one /\ w_index w (1, 1) = Some 0 /\ nth_error (w_heap w) 0 = Some nd /\ nd_lock nd = Some m.
Proof.
  do 4 eexists. split; [|split; [|split; [|split; [|split]]]].
  - unfold two. eapply run_step; [eapply S_query; [reflexivity|split; reflexivity]|]. eapply run_step; [eapply S_pin; [reflexivity|split; reflexivity]|]. eapply run_step; [apply S_pin_new; reflexivity|]. eapply run_step; [apply S_pin_end|].
    eapply run_step; [eapply S_lock; split; reflexivity|]. eapply run_step; [eapply S_lock; split; reflexivity|]. eapply run_step; [apply S_new; discriminate|]. apply run_end.
  - reflexivity.
  - reflexivity.
  - reflexivity.
  - reflexivity.
  - reflexivity.
Qed.
Lemma jammed : exists s tr n m, lexec (s :: tr) /\ jam n m s /\ length (l_threads s) = 5 /\ got 0 (NewRule [(1, 1)]) (NewIs 0) s /\ got 1 (Override 0 [(1, 1)]) (Told (RCreated 0)) s.
Proof.
  destruct one_rule as (s & tr & E & M & R & D & T & O). destruct (another s tr [(1, 1)] [(1, 1)] w_one 0 E) as (s1 & t1 & E1 & _ & M1 & R1 & D1 & T1 & W1).
  - lia.
  - rewrite R. apply set_item_same.
  - rewrite D. reflexivity.
  - rewrite T. unlocked.
  - intros x I. exact I.
  - split; [discriminate|cbn; split; [intros y []|exact Logic.I]].
  - intros n. rewrite O. apply run_one.
  - rewrite T in T1. cbn [app] in T1. rewrite M in M1. rewrite R in R1. rewrite D in D1. clear E M R D T O s tr.
    (* the deletion of the override *)
    pose proof (is_made _ _ E1 M1 (DropOver 0 0) (or_intror eq_refl)) as E. rewrite T1 in E. cbn [app] in E.
    eapply takes with (i := 2) in E; [|reflexivity|eapply (L_check _ _ _ 0); [reflexivity|discriminate|fld; rewrite D1; reflexivity]]. unfold at_pc in E. fld.
    eapply takes with (i := 2) in E; [|reflexivity|eapply (L_drop_over _ _ 0 0 [(1, 1)]); [fld; rewrite R1; apply set_item_same|unlocked|fld; rewrite W1; left; reflexivity]]. unfold at_pc in E. fld.
    match type of E with lexec (?a :: ?t) => set (s2 := a) in E; set (t2 := t) in E end. set (n := length (st_threads (l_over s1 0))) in *.
    destruct (inside_only 2 n 0 (DropOver 0 0) _ _ _ _ _ _ (run_hold n) s2 t2 E) as (s3 & t3 & E3 & R3 & M3 & D3 & T3 & W3 & N3 & L3 & _); try reflexivity.
    { unfold s2. fld. rewrite set_item_same. exact W1. }
    { unfold s2. fld. rewrite set_item_same. apply nth_last. }
    change (l_rules s2) with (l_rules s1) in R3. change (l_made s2) with (l_made s1) in M3. change (l_dying s2) with (l_dying s1) in D3. unfold s2 in T3. fld. rewrite R1 in R3. rewrite M1 in M3. rewrite D1 in D3. clearbody s2 t2 n. clear E.
    (* the creation of another *)
    pose proof (is_made _ _ E3 M3 (Override 0 two) (or_intror eq_refl)) as E. rewrite T3 in E. cbn [app] in E.
    eapply takes with (i := 3) in E; [|reflexivity|eapply (L_check _ _ _ 0); [reflexivity|discriminate|fld; rewrite D3; reflexivity]]. unfold at_pc in E. fld.
    eapply takes with (i := 3) in E; [|reflexivity|eapply (L_override _ _ 0 _ [(1, 1)]); [fld; rewrite R3; apply set_item_same|unlocked|intros x [<- | []]; left; reflexivity|split; [discriminate|cbn; repeat split; intros y I; cbn in I; intuition lia]]]. unfold at_pc in E. fld.
    match type of E with lexec (?a :: ?t) => set (s4 := a) in E; set (t4 := t) in E end. set (m := length (st_threads (l_over s3 0))) in *.
    destruct (run_two m) as (w & nd & l & x & RN & HE & HI & HX & HN & HL).
    destruct (inside_only 3 m 0 (Override 0 two) _ _ _ _ _ _ RN s4 t4 E) as (s5 & t5 & E5 & R5 & M5 & D5 & T5 & W5 & N5 & _ & K5); try reflexivity.
    { unfold s4. fld. rewrite set_item_same. exact W3. }
    { unfold s4. fld. rewrite set_item_same. apply nth_last. }
    assert (NL : n < m) by (eapply nth_lt; exact N3). change (l_rules s4) with (l_rules s3) in R5. change (l_made s4) with (l_made s3) in M5. change (l_dying s4) with (l_dying s3) in D5.
    assert (NN : nth_error (st_threads (l_over s5 0)) n = Some (mkThread (CDestroy 0) [(0, 0)] (YDel [(1, 1)] [(1, 1)]))). { rewrite K5 by lia. unfold s4. fld. rewrite set_item_same. cbn [st_threads]. rewrite nth_error_app1 by exact NL. exact N3. }
    unfold s4 in T5. fld. rewrite R3 in R5. rewrite M3 in M5. rewrite D3 in D5. clearbody s4 t4. clear E.
    (* the deletion of the rule *)
    pose proof (is_made _ _ E5 M5 (DropRule 0) (or_intror eq_refl)) as E. rewrite T5 in E. cbn [app] in E.
    eapply takes with (i := 4) in E; [|reflexivity|eapply (L_mark _ _ 0); fld; rewrite D5; reflexivity]. unfold at_pc in E. fld.
    eexists _, _, n, m. split; [exact E|]. split; [|split; [reflexivity|split; reflexivity]]. constructor; fld; try reflexivity.
    + constructor.
      * rewrite W5. exact HE.
      * rewrite W5. apply (small_one _ 0). intros y. rewrite HI. cbn [w_one w_items]. unfold set_item. destruct (Nat.eqb_spec y 0); [auto|intros HH; exfalso; apply HH; reflexivity].
      * rewrite W5. exists [(0, 0)], [(1, 1)], (1, 1), [], 0, nd. auto.
      * eexists _, _, _. split; [exact N5|]. right. eauto.
    + eauto.
    + intros j q p N A. do 5 (destruct j as [|j]; [cbn in N; injection N as <- <-; first [solve [auto 10]|discriminate A|right; right; right; right; right; right; split; [reflexivity|eexists; reflexivity]]|]). destruct j; discriminate N.
Qed.

Lemma jam_waits n m s i : jam n m s -> i = 2 \/ i = 3 \/ i = 4 -> waits i s.
Proof. intros [J2 J3 J4 _ _ _ _] C. unfold waits, has_answer, is_req, got. destruct C as [-> | [-> | ->]]; (split; [eauto|]); intros (q & a & H); congruence. Qed.
Theorem jam_never n m s i : jam n m s -> i = 2 \/ i = 3 \/ i = 4 -> never_answered i s.
Proof. intros J C. split; [eapply jam_waits; eauto|]. intros tr tr' _ E s' I. eapply jam_waits; [eapply jam_run; eauto|exact C]. Qed.
Theorem jam_later n m s tr tr' s' : jam n m s -> length (l_threads s) = 5 -> lexec (tr' ++ s :: tr) -> In s' tr' -> forall i q a, unmade i s -> about q = Some 0 -> got i q a s' -> a = Gone \/ a = Deleting.
Proof.
  intros J L E I i q a U A G. pose proof (jam_run _ _ _ _ _ J E _ I) as J'. apply nth_error_None in U. destruct (jam_rest _ _ _ J' _ _ _ G A) as [H | [H | [H | [H | [H | [H | [H _]]]]]]]; try lia; try discriminate; injection H as ->; auto.
Qed.
Theorem hangs : exists s tr, lexec (s :: tr) /\ got 0 (NewRule [(1, 1)]) (NewIs 0) s /\ got 1 (Override 0 [(1, 1)]) (Told (RCreated 0)) s /\
  is_req 2 (DropOver 0 0) s /\ never_answered 2 s /\ is_req 3 (Override 0 two) s /\ never_answered 3 s /\ is_req 4 (DropRule 0) s /\ never_answered 4 s /\
  forall tr' s' i q a, lexec (tr' ++ s :: tr) -> In s' tr' -> unmade i s -> about q = Some 0 -> got i q a s' -> a = Gone \/ a = Deleting.
Proof.
  destruct jammed as (s & tr & n & m & E & J & L & G0 & G1). exists s, tr. split; [exact E|]. split; [exact G0|]. split; [exact G1|].
  split; [eexists; apply J|]. split; [eapply jam_never; eauto|]. split; [eexists; apply J|]. split; [eapply jam_never; eauto|]. split; [eexists; apply J|]. split; [eapply jam_never; eauto|].
  intros tr' s' i q a E' I. eapply jam_later; eauto.
Qed.
