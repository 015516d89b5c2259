(** C89: the overrides of each rule are an associated tree of their own. *)
From Coq Require Import List Bool Arith Lia.
Import ListNotations.
From Verif Require Import AssocSync SpecAssocSync AssocSyncBase AssocSyncGlobal AssocSyncAnswers AssocSyncChanges RuleSync SpecRuleSync RuleSyncLocks.

Lemma asked_step s s' q : lnext s s' -> asked q s -> asked q s'.
Proof.
  intros ST (i & p & N). destruct ST as [s q0 A | s i0 q0 p0 s' p' N0 ST].
  - exists i, p. cbn [with_threads l_threads]. apply nth_snoc_old, N.
  - unfold asked, is_req, at_pc, with_threads. cbn [l_threads]. rewrite (lstep_threads _ _ _ _ _ _ ST). destruct (Nat.eq_dec i i0) as [->|NE].
    + rewrite N in N0. injection N0 as -> ->. exists i0, p'. eapply nth_set_same; eauto.
    + exists i, p. rewrite nth_set_other by exact NE. exact N.
Qed.
(** What a step does to the overrides of a rule *)
Inductive over_step (s : lim) (r : nat) (q : req) : lpc -> lim -> lpc -> Prop :=
| OS_same p s' p' : l_over s' r = l_over s r -> ~ (q = DropRule r /\ p' = LUnmark Dropped) -> over_step s r q p s' p'
| OS_call s' g : about q = Some r -> l_rules s r = Some g -> ~ locked_by holds (l_threads s) r -> allowed true (st_world (l_over s r)) (inner q) (inner_kv q) -> (inner q = CFindCreate -> covers g (inner_kv q)) -> l_rules s' = l_rules s ->
    inner q = CFindCreate \/ (exists x, q = DropOver r x) ->
    l_over s' r = mkState (st_world (l_over s r)) (st_threads (l_over s r) ++ [mkThread (inner q) (inner_kv q) (start (inner q) (inner_kv q))]) ->
    over_step s r q LFind s' (LInside (length (st_threads (l_over s r))))
| OS_inside s' n kv p w' p' : about q = Some r -> nth_error (st_threads (l_over s r)) n = Some (mkThread (inner q) kv p) -> tstep false n (inner q) kv (st_world (l_over s r)) p w' p' -> l_rules s' = l_rules s ->
    l_over s' r = mkState w' (set_thread (st_threads (l_over s r)) n (mkThread (inner q) kv p')) -> over_step s r q (LInside n) s' (LInside n)
| OS_drop s' x kv : q = DropRule r -> w_items (st_world (l_over s r)) x = Some kv -> l_over s' r = mkState (with_item (st_world (l_over s r)) x None) (st_threads (l_over s r)) -> l_rules s' = l_rules s -> over_step s r q LHold s' LHold
| OS_dropped s' : q = DropRule r -> l_over s' r = no_overrides -> l_rules s' r = None -> over_step s r q LHold s' (LUnmark Dropped).
Lemma over_steps s i q p s' p' r : lstep s i q p s' p' -> over_step s r q p s' p'.
Proof.
  intros ST. destruct ST; try (apply OS_same; [reflexivity|intros [_ [=]]]; fail); (destruct (Nat.eq_dec r r0) as [->|NE]; [|apply OS_same; [cbn [with_over with_rule l_over]; apply set_item_other; exact NE|intros [[=] [=]]; congruence]]).
  - eapply OS_call; cbn [inner inner_kv about]; eauto; cbn [with_over l_over]; [split; [assumption|exact Logic.I]|apply set_item_same].
  - eapply OS_call; cbn [inner inner_kv about]; eauto; cbn [with_over l_over]; [split; [split; [discriminate|cbn; split; [intros y []|exact Logic.I]]|auto]|discriminate|apply set_item_same].
  - eapply OS_inside; eauto. cbn [with_over l_over]. apply set_item_same.
  - eapply OS_drop; eauto. cbn [with_over l_over]. apply set_item_same.
  - apply OS_dropped; auto; cbn [with_rule with_over l_over l_rules]; apply set_item_same.
Qed.

Lemma rules_step s i q p s' p' r : lstep s i q p s' p' -> l_rules s' r = l_rules s r \/ l_rules s' r = None /\ q = DropRule r /\ p' = LUnmark Dropped \/ r = l_made s.
Proof.
  intros ST. destruct ST; auto.
  - cbn [l_rules]. destruct (Nat.eq_dec r (l_made s)) as [->|NE]; [auto|rewrite set_item_other by exact NE; auto].
  - cbn [with_rule with_over l_rules]. destruct (Nat.eq_dec r r0) as [->|NE]; [rewrite set_item_same; auto|rewrite set_item_other by exact NE; auto].
Qed.

Definition grows (s1 t : state) : Prop := st_threads t = st_threads s1 /\ forall x kv, w_items (st_world t) x = Some kv -> w_items (st_world s1) x = Some kv.
Record overs (s : lim) : Prop := {
  o_exec : forall r, exists s1 tr, exec false true (s1 :: tr) /\ grows s1 (l_over s r) /\ (~ locked_by holds (l_threads s) r -> s1 = l_over s r);
  o_run : forall r n c kv p, nth_error (st_threads (l_over s r)) n = Some (mkThread c kv p) -> (c = CFindCreate \/ exists x, c = CDestroy x /\ asked (DropOver r x) s) /\
    ((exists a, p = PDone a) \/ exists i q, nth_error (l_threads s) i = Some (mkR q (LInside n)) /\ about q = Some r /\ inner q = c);
  o_in : forall i q n r, nth_error (l_threads s) i = Some (mkR q (LInside n)) -> about q = Some r -> exists p, nth_error (st_threads (l_over s r)) n = Some (mkThread (inner q) (inner_kv q) p);
  o_none : forall r x, l_rules s r = None -> w_items (st_world (l_over s r)) x = None;
  o_cov : forall r g, l_rules s r = Some g -> (forall n kv p, nth_error (st_threads (l_over s r)) n = Some (mkThread CFindCreate kv p) -> covers g kv) /\ (forall x kv, w_items (st_world (l_over s r)) x = Some kv -> covers g kv);
  o_told : forall r n c kv p x, nth_error (st_threads (l_over s r)) n = Some (mkThread c kv p) -> pend p = Some (RCreated x) ->
    locked_by holds (l_threads s) r \/ w_items (st_world (l_over s r)) x = Some kv \/ asked (DropOver r x) s;
  o_known : forall r x, In x (w_known (st_world (l_over s r))) -> locked_by holds (l_threads s) r \/ w_items (st_world (l_over s r)) x <> None \/ asked (DropOver r x) s;
  o_outer : forall i r kv a, nth_error (l_threads s) i = Some (mkR (Override r kv) (LEnd (Told a))) -> l_rules s r = None \/ exists n, nth_error (st_threads (l_over s r)) n = Some (mkThread CFindCreate kv (PDone a)) }.

Lemma overs_new : overs lim0.
Proof.
  split; cbn [lim0 l_over l_threads l_rules no_overrides st_threads st_world empty_world w_items w_known]; intros; try contradiction; try (destruct n; discriminate); try (destruct i; discriminate); try discriminate; auto.
  exists no_overrides, []. split; [apply EX_new|]. split; [split; auto|auto].
Qed.
Lemma overs_call s q : overs s -> locks s -> overs (with_threads s (l_threads s ++ [mkR q LCheck])).
Proof.
  intros O K. assert (AS : forall q', asked q' s -> asked q' (with_threads s (l_threads s ++ [mkR q LCheck]))).
  { intros q' (i & p & N). exists i, p. cbn. apply nth_snoc_old, N. }
  split; cbn [with_threads l_over l_rules l_threads].
  - intros r. destruct (o_exec s O r) as (s1 & tr & E & G & H). exists s1, tr. split; [exact E|]. split; [exact G|]. intros NH. apply H. intros (i & th & N & F). apply NH. exists i, th. split; [apply nth_snoc_old, N|auto].
  - intros r n c kv p N. destruct (o_run s O r n c kv p N) as [C D]. split; [destruct C as [C | (x & C & A)]; eauto|]. destruct D as [D | (i & q' & NI & A)]; [auto|]. right. exists i, q'. split; [apply nth_snoc_old, NI|exact A].
  - intros i q0 n r N A. apply nth_snoc in N. destruct N as [N | [-> E]]; [eapply (o_in s O); eauto|discriminate].
  - apply (o_none s O).
  - apply (o_cov s O).
  - intros r n c kv p x N P. destruct (o_told s O r n c kv p x N P) as [(i & th & NI & H) | [H | H]]; auto. left. exists i, th. split; [apply nth_snoc_old, NI|auto].
  - intros r x I. destruct (o_known s O r x I) as [(i & th & NI & H) | [H | H]]; auto. left. exists i, th. split; [apply nth_snoc_old, NI|auto].
  - intros i r kv a N. apply nth_snoc in N. destruct N as [N | [-> E]]; [eapply (o_outer s O); eauto|discriminate].
Qed.

Lemma told_created i c kv w p w' p' x : tstep false i c kv w p w' p' -> pend p' = Some (RCreated x) -> pend p = Some (RCreated x) \/ exists locked, p = PCall locked x /\ w' = with_known (with_item w x (Some kv)) x.
Proof.
  intros ST E. destruct ST; cbn [pend] in *; try discriminate; auto; try (destruct c; discriminate E).
  - destruct (meet _ _); [destruct c; discriminate|discriminate].
  - injection E as ->. right. eauto.
  - destruct r; auto; discriminate.
  - destruct clean; auto.
Qed.
Lemma step_gained i c kv w p w' p' x kv' : tstep false i c kv w p w' p' -> w_items w' x = Some kv' -> w_items w x = Some kv' \/ kv' = kv /\ exists locked, p = PCall locked x.
Proof.
  intros ST. destruct ST; auto.
  - cbn [with_known with_item w_items]. destruct (Nat.eq_dec x x0) as [->|NE]; [rewrite set_item_same; intros [= <-]; right; eauto|rewrite set_item_other by exact NE; auto].
  - cbn [with_item with_heap w_items]. destruct (Nat.eq_dec x x0) as [->|NE]; [rewrite set_item_same; discriminate|rewrite set_item_other by exact NE; auto].
  - cbv zeta. destruct (truncate _), (nd_creating nd); auto.
  - cbn [release with_held with_item w_items]. destruct (Nat.eq_dec x x0) as [->|NE]; [rewrite set_item_same; discriminate|rewrite set_item_other by exact NE; auto].
Qed.
Lemma step_known i c kv w p w' p' x : tstep false i c kv w p w' p' -> In x (w_known w') -> In x (w_known w) \/ w_items w' x <> None.
Proof.
  intros ST. destruct ST; auto.
  - cbn [with_known w_known]. intros [<- | I]; [|auto]. right. cbn [with_known with_item w_items]. rewrite set_item_same. discriminate.
  - cbv zeta. destruct (truncate _), (nd_creating nd); auto.
Qed.
Lemma done_stays i c kv w a w' p' : ~ tstep false i c kv w (PDone a) w' p'.
Proof. intros ST. inversion ST. Qed.
Lemma creator_kind n kv s1 tr c p x : exec false true (s1 :: tr) -> nth_error (st_threads s1) n = Some (mkThread c kv p) -> (exists locked, p = PCall locked x) -> c = CCreate \/ c = CFindCreate.
Proof. intros E N (l & ->). destruct (exec_told _ _ _ _ E n c kv _ N) as [F _]. destruct c; cbn in F; tauto. Qed.

Lemma overs_step s i q p s' p' : overs s -> locks s -> locks (at_pc s' i q p') -> nth_error (l_threads s) i = Some (mkR q p) -> lstep s i q p s' p' -> overs (at_pc s' i q p').
Proof.
  intros O K K' N ST. pose proof (lstep_threads _ _ _ _ _ _ ST) as TE.
  assert (AS : forall q', asked q' s -> asked q' (at_pc s' i q p')) by (intros q'; apply asked_step; eapply N_step; eauto).
  assert (ME : asked q (at_pc s' i q p')) by (apply AS; exists i, p; exact N).
  assert (OLD : forall j th, nth_error (l_threads s) j = Some th -> j <> i -> nth_error (l_threads (at_pc s' i q p')) j = Some th).
  { intros j th NJ NE. cbn [at_pc with_threads l_threads]. rewrite TE, nth_set_other by exact NE. exact NJ. }
  assert (MINE : nth_error (l_threads (at_pc s' i q p')) i = Some (mkR q p')) by (cbn [at_pc with_threads l_threads]; rewrite TE; eapply nth_set_same; eauto).
  assert (CASES : forall j th, nth_error (l_threads (at_pc s' i q p')) j = Some th -> j = i /\ th = mkR q p' \/ j <> i /\ nth_error (l_threads s) j = Some th).
  { intros j th NJ. cbn [at_pc with_threads l_threads] in NJ. rewrite TE in NJ. eapply nth_set_cases; eauto. }
  assert (HS : forall r, locked_by holds (l_threads s) r -> locked_by holds (l_threads (at_pc s' i q p')) r \/ q = DropRule r /\ p = LHold /\ p' = LUnmark Dropped).
  { intros r (j & th & NJ & F). destruct (Nat.eq_dec j i) as [->|NE]; [|left; exists j, th; auto]. rewrite N in NJ. injection NJ as <-. destruct p; try discriminate F.
    inversion ST; subst; try (left; eexists i, _; split; [exact MINE|exact F]); try (right; cbn in F; injection F as ->; auto). }
  assert (RD : forall r n, about q = Some r -> p = LInside n -> ~ locked_by holds (l_threads s) r).
  { intros r n A -> H. apply (k_apart s K r H). exists i, (mkR q (LInside n)). split; [exact N|exact A]. }
  assert (OV : forall r, over_step s r q p s' p') by (intros r; eapply over_steps; eauto).
  split.
  - (* the executions *)
    intros r. cbn [at_pc with_threads l_over]. destruct (o_exec s O r) as (s1 & tr & E & G & H). destruct (OV r) as [p s' p' EQ NU | s' g A R NH AL _ _ _ EQ | s' n kv pn w' pn' A NN TS _ EQ | s' x kv EQQ EI EQ _ | s' EQQ EQ _].
    + rewrite EQ. exists s1, tr. split; [exact E|]. split; [exact G|]. intros NH. apply H. intros H'. destruct (HS r H') as [HH | (-> & -> & ->)]; [contradiction|]. apply NU. auto.
    + specialize (H NH). subst s1. exists (l_over s' r), (l_over s r :: tr). split; [eapply EX_step; [exact E|]|split; [split; auto|auto]].
      rewrite EQ. destruct (l_over s r) as [w ts]. apply ST_call. exact AL.
    + assert (NH : ~ locked_by holds (l_threads s) r) by (eapply RD; eauto). specialize (H NH). subst s1. exists (l_over s' r), (l_over s r :: tr). split; [eapply EX_step; [exact E|]|split; [split; auto|auto]].
      rewrite EQ. destruct (l_over s r) as [w ts]. eapply ST_step; eauto.
    + exists s1, tr. rewrite EQ. split; [exact E|]. destruct G as [G1 G2]. split; [split; [exact G1|]|].
      * cbn [st_world with_item w_items]. intros y kv' X. destruct (Nat.eq_dec y x) as [->|NE]; [rewrite set_item_same in X; discriminate|]. rewrite set_item_other in X by exact NE. auto.
      * intros NH. exfalso. apply NH. exists i, (mkR q LHold). rewrite EQQ. split; [rewrite <- EQQ; exact MINE|reflexivity].
    + exists no_overrides, []. rewrite EQ. split; [apply EX_new|]. split; [split; auto|auto].
  - (* the calls *)
    intros r n c kv p0 NN. cbn [at_pc with_threads l_over] in NN.
    assert (SAME : forall n p0, nth_error (st_threads (l_over s r)) n = Some (mkThread c kv p0) -> (c = CFindCreate \/ (exists x, c = CDestroy x /\ asked (DropOver r x) (at_pc s' i q p'))) /\
      ((exists a, p0 = PDone a) \/ (exists i0 q0, nth_error (l_threads (at_pc s' i q p')) i0 = Some (mkR q0 (LInside n)) /\ about q0 = Some r /\ inner q0 = c))).
    { clear n p0 NN. intros n p0 NN. destruct (o_run s O r n c kv p0 NN) as [C D]. split; [destruct C as [C | (x & C & A)]; eauto|]. destruct D as [D | (j & q0 & NJ & A & IC)]; [auto|].
      destruct (Nat.eq_dec j i) as [->|NE]; [|right; exists j, q0; auto]. rewrite N in NJ. injection NJ as <- ->.
      assert (X : p' = LInside n \/ exists a, p' = LEnd (Told a) /\ exists kv', nth_error (st_threads (l_over s r)) n = Some (mkThread (inner q) kv' (PDone a))).
      { clear - ST A. inversion ST; subst; auto. right. exists a. split; [reflexivity|]. match goal with H : about q = Some ?r0 |- _ => assert (r0 = r) as -> by congruence end. eauto. }
      destruct X as [-> | (a & -> & kv' & ND)]; [right; exists i, q; auto|]. left. rewrite NN in ND. injection ND as _ _ ->. eauto. }
    destruct (OV r) as [p s' p' EQ NU | s' g A R NH AL _ _ KD EQ | s' m kv' pn w' pn' A NM TS _ EQ | s' x kv' EQQ EI EQ _ | s' EQQ EQ _]; rewrite EQ in NN.
    + apply (SAME n p0 NN).
    + apply nth_snoc in NN. destruct NN as [NN | [-> E]]; [apply (SAME n p0 NN)|]. injection E as -> -> ->. split; [destruct KD as [KD | (x & ->)]; [auto|right; exists x; auto]|].
      right. exists i, q. auto.
    + unfold set_thread in NN. cbn [st_threads] in NN. destruct (nth_set_cases _ _ _ _ _ _ NM NN) as [[-> E] | [NE NN']]; [|apply (SAME n p0 NN')].
      injection E as -> -> ->. destruct (o_run s O r m (inner q) kv' pn NM) as [C _]. split; [destruct C as [C | (x & C & A')]; eauto|]. right. exists i, q. auto.
    + apply (SAME n p0 NN).
    + destruct n; discriminate.
  - (* requests in a call *)
    intros j q0 n r NJ A. cbn [at_pc with_threads l_over].
    assert (OLDC : forall n p0, nth_error (st_threads (l_over s r)) n = Some (mkThread (inner q0) (inner_kv q0) p0) -> ~ (q = DropRule r /\ p' = LUnmark Dropped) -> exists p1, nth_error (st_threads (l_over s' r)) n = Some (mkThread (inner q0) (inner_kv q0) p1)).
    { clear n NJ. intros n p0 NN NU. destruct (OV r) as [p s' p' EQ _ | s' g A' R NH AL _ _ KD EQ | s' m kv' pn w' pn' A' NM TS _ EQ | s' x kv' EQQ EI EQ _ | s' EQQ EQ _]; rewrite EQ; cbn [st_threads]; eauto.
      - exists p0. apply nth_snoc_old, NN.
      - unfold set_thread. destruct (Nat.eq_dec n m) as [->|NE]; [|rewrite nth_set_other by exact NE; eauto]. rewrite NM in NN. injection NN as E1 E2 <-. rewrite <- E1, <- E2. exists pn'. eapply nth_set_same; eauto.
      - exfalso. apply NU. auto. }
    destruct (CASES j _ NJ) as [[-> E] | [NE NJ']].
    + injection E as -> <-. clear OLDC. inversion ST; subst.
      * injection A as <-. cbn [with_over l_over inner inner_kv]. rewrite set_item_same. cbn [st_threads]. rewrite nth_error_app2, Nat.sub_diag by lia. cbn [nth_error]. eexists; reflexivity.
      * injection A as <-. cbn [with_over l_over inner inner_kv]. rewrite set_item_same. cbn [st_threads]. rewrite nth_error_app2, Nat.sub_diag by lia. cbn [nth_error]. eexists; reflexivity.
      * match goal with H : about q = Some ?r0 |- _ => assert (r0 = r) as -> by congruence end. destruct (o_in s O i q n r N A) as (p1 & NN). cbn [with_over l_over]. rewrite set_item_same. cbn [st_threads].
        match goal with H : nth_error (st_threads (l_over s r)) n = Some (mkThread _ ?k _) |- _ => assert (k = inner_kv q) as -> by congruence end. eexists. eapply nth_set_same; eauto.
    + destruct (o_in s O j q0 n r NJ' A) as (p0 & NN). apply (OLDC n p0 NN). intros (-> & ->).
      apply (k_apart s K r); [exists i, (mkR (DropRule r) LHold)|exists j, (mkR q0 (LInside n)); auto]. split; [|reflexivity]. rewrite N. inversion ST; subst; reflexivity.
  - (* no rule *)
    intros r x. cbn [at_pc with_threads l_rules l_over]. intros R.
    assert (D : l_rules s r = None \/ q = DropRule r /\ p' = LUnmark Dropped).
    { destruct (l_rules s r) as [g|] eqn:G; [|auto]. right. destruct (step_rules _ _ _ _ _ _ r ST) as [H | (H1 & _ & H2)]; [congruence|congruence|auto]. }
    destruct (OV r) as [p s' p' EQ NU | s' g A R' NH AL _ _ KD EQ | s' m kv' pn w' pn' A' NM TS RS EQ | s' y kv' EQQ EI EQ RS | s' EQQ EQ _]; rewrite EQ.
    + destruct D as [D | D]; [apply (o_none s O); exact D|contradiction].
    + destruct D as [D | [_ D]]; [congruence|discriminate].
    + exfalso. apply (k_there s K r); [left; exists i, (mkR q (LInside m)); auto|congruence].
    + exfalso. destruct D as [D | [_ D]]; [|discriminate]. apply (k_there s K r); [right; exists i, (mkR q LHold)|exact D]. split; [exact N|]. rewrite EQQ. reflexivity.
    + reflexivity.
  - (* the keys *)
    intros r g. cbn [at_pc with_threads l_rules l_over]. intros R.
    destruct (rules_step _ _ _ _ _ _ r ST) as [X | [(X & _) | ->]]; [|congruence|].
    + rewrite X in R. destruct (o_cov s O r g R) as [C1 C2].
      destruct (OV r) as [p s' p' EQ NU | s' g' A R' NH AL CV _ KD EQ | s' m kv' pn w' pn' A' NM TS RS EQ | s' y kv' EQQ EI EQ RS | s' EQQ EQ RN]; rewrite EQ.
      * auto.
      * cbn [st_threads st_world]. split; [|exact C2]. intros n kv p0 NN. apply nth_snoc in NN. destruct NN as [NN | [_ E]]; [eapply C1; eauto|]. injection E as E1 -> _. assert (g' = g) as -> by congruence. apply CV. congruence.
      * cbn [st_threads st_world]. split.
        -- intros n kv p0 NN. unfold set_thread in NN. destruct (nth_set_cases _ _ _ _ _ _ NM NN) as [[-> E] | [NE NN']]; [|eapply C1; eauto]. injection E as E1 -> _. apply (C1 m kv' pn). rewrite NM. congruence.
        -- intros x kv EI. destruct (step_gained _ _ _ _ _ _ _ _ _ TS EI) as [EI' | [-> (l & ->)]]; [eapply C2; eauto|]. apply (C1 m kv' (PCall l x)).
           destruct (o_run s O r m _ _ _ NM) as [[IC | (y & E & _)] _]; [rewrite <- IC; exact NM|]. exfalso. destruct (o_exec s O r) as (s1 & tr & E1 & [G1 _] & _). rewrite G1 in NM.
           destruct (creator_kind _ _ _ _ _ _ x E1 NM) as [C | C]; [eauto|congruence|congruence].
      * cbn [st_threads st_world with_item w_items]. split; [exact C1|]. intros x kv EI'. destruct (Nat.eq_dec x y) as [->|NE]; [rewrite set_item_same in EI'; discriminate|]. rewrite set_item_other in EI' by exact NE. eapply C2; eauto.
      * split; [intros n kv p0 NN; destruct n; discriminate|intros x kv EI; discriminate].
    + destruct (k_new s K (l_made s) (le_n _)) as (_ & NO & _). assert (EQ : l_over s' (l_made s) = no_overrides).
      { destruct (OV (l_made s)) as [p s' p' EQ NU | s' g' A R' NH AL CV _ KD EQ | s' m kv' pn w' pn' A' NM TS RS EQ | s' y kv' EQQ EI EQ RS | s' EQQ EQ RN]; [congruence| | | |exact EQ]; exfalso.
        - pose proof (k_made s K i q LFind _ N A). lia.
        - pose proof (k_made s K i q (LInside m) _ N A'). lia.
        - subst q. pose proof (k_made s K i (DropRule (l_made s)) LHold _ N eq_refl). lia. }
      rewrite EQ. split; [intros n kv p0 NN; destruct n; discriminate|intros x kv EI; discriminate].
  - (* created *)
    intros r n c kv p0 x NN P. cbn [at_pc with_threads l_over] in NN |- *.
    assert (OLDT : forall p0, nth_error (st_threads (l_over s r)) n = Some (mkThread c kv p0) -> pend p0 = Some (RCreated x) -> l_over s' r = l_over s r -> ~ (q = DropRule r /\ p' = LUnmark Dropped) ->
      locked_by holds (l_threads (at_pc s' i q p')) r \/ w_items (st_world (l_over s' r)) x = Some kv \/ asked (DropOver r x) (at_pc s' i q p')).
    { clear p0 NN P. intros p0 NN P EQ NU. destruct (o_told s O r n c kv p0 x NN P) as [H | [H | H]]; [|right; left; rewrite EQ; exact H|auto]. left. destruct (HS r H) as [H' | (H1 & _ & H2)]; [exact H'|]. exfalso. auto. }
    destruct (OV r) as [p s' p' EQ NU | s' g A R NH AL _ _ KD EQ | s' m kv' pn w' pn' A NM TS RS EQ | s' y kv' EQQ EI EQ RS | s' EQQ EQ RN]; rewrite EQ in NN |- *.
    + rewrite <- EQ. eapply OLDT; eauto.
    + apply nth_snoc in NN. cbn [st_world]. destruct NN as [NN | [_ E]]; [|injection E as -> -> ->; rewrite start_pend in P; discriminate].
      destruct (o_told s O r n c kv p0 x NN P) as [H | [H | H]]; [contradiction|auto|auto].
    + assert (NH : ~ locked_by holds (l_threads s) r) by (eapply RD; eauto). cbn [st_world st_threads] in *. unfold set_thread in NN.
      destruct (o_exec s O r) as (s1 & tr & E1 & _ & H1). specialize (H1 NH). subst s1.
      assert (KEEP : w_items (st_world (l_over s r)) x = Some kv -> w_items w' x = Some kv \/ asked (DropOver r x) (at_pc s' i q (LInside m))).
      { intros EI. destruct (w_items w' x) as [kv1|] eqn:EW.
        - left. destruct (step_gained _ _ _ _ _ _ _ _ _ TS EW) as [EI' | [-> (l & ->)]]; [congruence|]. f_equal.
          assert (E2 : exec false true (l_over s' r :: l_over s r :: tr)). { eapply EX_step; [exact E1|]. rewrite EQ. destruct (l_over s r) as [w ts]. eapply ST_step; eauto. }
          eapply (keeps false true [l_over s' r] (l_over s r) tr (l_over s' r)); [exact E2|left; reflexivity|exact EI|unfold stored; rewrite EQ; exact EW].
        - right. assert (E2 : exec false true ([] ++ l_over s' r :: l_over s r :: tr)). { eapply EX_step; [exact E1|]. rewrite EQ. destruct (l_over s r) as [w ts]. eapply ST_step; eauto. }
          destruct (leaves _ _ _ _ _ x kv E2 EI) as (_ & k & ck & kvk & CK & (pk & NK) & _).
          { unfold stored. rewrite EQ. cbn [st_world]. congruence. }
          destruct (o_run s O r k ck kvk pk NK) as [[-> | (y & -> & AY)] _].
          + destruct CK as [[_ [b [C | (y & C)]]] | C]; discriminate.
          + destruct CK as [[_ [b [C | (z & C)]]] | C]; try discriminate. injection C as ->. apply AS, AY. }
      assert (FIN : locked_by holds (l_threads s) r \/ w_items (st_world (l_over s r)) x = Some kv \/ asked (DropOver r x) s -> locked_by holds (l_threads (at_pc s' i q (LInside m))) r \/ w_items w' x = Some kv \/ asked (DropOver r x) (at_pc s' i q (LInside m))).
      { intros [H | [H | H]]; [contradiction|right; apply KEEP, H|auto]. }
      destruct (nth_set_cases _ _ _ _ _ _ NM NN) as [[-> E] | [NE NN']]; [|apply FIN; eapply (o_told s O); eauto].
      injection E as -> -> ->. destruct (told_created _ _ _ _ _ _ _ _ TS P) as [P' | (l & -> & ->)]; [apply FIN; eapply (o_told s O); eauto|]. right. left. cbn [with_known with_item w_items]. apply set_item_same.
    + left. exists i, (mkR q LHold). rewrite EQQ. split; [rewrite <- EQQ; exact MINE|reflexivity].
    + destruct n; discriminate.
  - (* known *)
    intros r x I. cbn [at_pc with_threads l_over] in I |- *.
    destruct (OV r) as [p s' p' EQ NU | s' g A R NH AL _ _ KD EQ | s' m kv' pn w' pn' A NM TS RS EQ | s' y kv' EQQ EI EQ RS | s' EQQ EQ RN]; rewrite EQ in I |- *.
    + destruct (o_known s O r x I) as [H | [H | H]]; auto. left. destruct (HS r H) as [H' | (H1 & _ & H2)]; [exact H'|]. exfalso. auto.
    + cbn [st_world] in *. destruct (o_known s O r x I) as [H | [H | H]]; auto.
    + cbn [st_world] in *. assert (NH : ~ locked_by holds (l_threads s) r) by (eapply RD; eauto).
      destruct (step_known _ _ _ _ _ _ _ x TS I) as [I' | W]; [|auto]. destruct (o_known s O r x I') as [H | [H | H]]; [contradiction| |auto].
      destruct (w_items (st_world (l_over s r)) x) as [kv0|] eqn:EI; [|congruence]. destruct (w_items w' x) as [kv1|] eqn:EW; [right; left; discriminate|]. right. right.
      destruct (o_exec s O r) as (s1 & tr & E1 & _ & H1). specialize (H1 NH). subst s1.
      assert (E2 : exec false true ([] ++ l_over s' r :: l_over s r :: tr)). { eapply EX_step; [exact E1|]. rewrite EQ. destruct (l_over s r) as [w ts]. eapply ST_step; eauto. }
      destruct (leaves _ _ _ _ _ x kv0 E2 EI) as (_ & k & ck & kvk & CK & (pk & NK) & _).
      { unfold stored. rewrite EQ. cbn [st_world]. congruence. }
      destruct (o_run s O r k ck kvk pk NK) as [[-> | (y & -> & AY)] _].
      * destruct CK as [[_ [b [C | (y & C)]]] | C]; discriminate.
      * destruct CK as [[_ [b [C | (z & C)]]] | C]; try discriminate. injection C as ->. apply AS, AY.
    + left. exists i, (mkR q LHold). rewrite EQQ. split; [rewrite <- EQQ; exact MINE|reflexivity].
    + destruct I.
  - (* answered *)
    intros j r kv a NJ. cbn [at_pc with_threads l_over l_rules].
    assert (OLDC : forall n, nth_error (st_threads (l_over s r)) n = Some (mkThread CFindCreate kv (PDone a)) -> l_rules s' r = None \/ exists n, nth_error (st_threads (l_over s' r)) n = Some (mkThread CFindCreate kv (PDone a))).
    { intros n NN. destruct (OV r) as [p s' p' EQ _ | s' g A' R NH AL _ _ KD EQ | s' m kv' pn w' pn' A' NM TS _ EQ | s' x kv' EQQ EI EQ _ | s' EQQ EQ RN]; [| | | |auto]; right; exists n; rewrite EQ; cbn [st_threads]; auto.
      - apply nth_snoc_old, NN.
      - unfold set_thread. destruct (Nat.eq_dec n m) as [->|NE]; [|rewrite nth_set_other by exact NE; exact NN]. rewrite NM in NN. injection NN as _ _ ->. exfalso. eapply done_stays; eauto. }
    destruct (CASES j _ NJ) as [[-> E] | [NE NJ']].
    + injection E as <- <-. assert (X : exists n kv', p = LInside n /\ l_over s' r = l_over s r /\ nth_error (st_threads (l_over s r)) n = Some (mkThread CFindCreate kv' (PDone a))).
      { clear - ST. inversion ST; subst. match goal with H : about _ = Some ?r0 |- _ => cbn in H; injection H as <- end. eauto 6. }
      destruct X as (n & kv' & -> & EQ & ND). destruct (o_in s O i _ _ r N eq_refl) as (p0 & NN). cbn [inner inner_kv] in *. right. exists n. rewrite EQ. congruence.
    + destruct (o_outer s O j r kv a NJ') as [R | (n & NN)]; [|eapply OLDC; eauto]. destruct (rules_step _ _ _ _ _ _ r ST) as [X | [(X & _) | ->]]; [left; congruence|auto|].
      exfalso. pose proof (k_made s K j _ _ _ NJ' eq_refl). lia.
Qed.
Theorem exec_overs s tr : lexec (s :: tr) -> overs s.
Proof.
  intros E. remember (s :: tr) as l eqn:EL. revert s tr EL. induction E as [|s s' tr E IH ST]; intros s0 tr0 EL; injection EL as <- <-; [apply overs_new|].
  specialize (IH s tr eq_refl). pose proof (exec_locks _ _ E) as K. pose proof (exec_locks _ _ (LX_step _ _ _ E ST)) as K'. destruct ST; [apply overs_call; auto|eapply overs_step; eauto].
Qed.
