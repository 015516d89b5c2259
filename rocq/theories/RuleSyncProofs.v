(** C89: proofs. *)
From Coq Require Import List Bool Arith Lia.
Import ListNotations.
From Verif Require Import AssocSync SpecAssocSync AssocSyncBase AssocSyncGlobal AssocSyncAnswers AssocSyncChanges RuleSync SpecRuleSync RuleSyncLocks RuleSyncOvers.

Lemma lexec_last s s' tr : lexec (s' :: s :: tr) -> lexec (s :: tr) /\ lnext s s'.
Proof. intros E. inversion E; subst. auto. Qed.
Lemma from_then (P : lim -> Prop) s tr1 s0 tr0 : lexec (s :: tr1 ++ s0 :: tr0) -> P s0 -> (forall s s' tr, lexec (s :: tr) -> P s -> lnext s s' -> P s') -> P s.
Proof.
  revert s. induction tr1 as [|s1 tr1 IH]; intros s E P0 ST.
  - cbn in E. apply lexec_last in E. destruct E. eauto.
  - cbn in E. apply lexec_last in E. destruct E as [E N]. eapply ST; [exact E|apply IH; auto|exact N].
Qed.
Lemma lexec_back tr1 s tr : lexec (tr1 ++ s :: tr) -> lexec (s :: tr).
Proof. induction tr1 as [|s1 tr1 IH]; [auto|]. intros E. cbn in E. destruct tr1; cbn in *; apply lexec_last in E; apply IH, E. Qed.

(** Answers stay *)
Lemma ended_stays s i q a s' p' : ~ lstep s i q (LEnd a) s' p'.
Proof. intros ST. inversion ST. Qed.
Lemma thread_next s s' i q p : lnext s s' -> nth_error (l_threads s') i = Some (mkR q p) ->
  nth_error (l_threads s) i = Some (mkR q p) \/ (nth_error (l_threads s) i = None /\ p = LCheck /\ l_rules s' = l_rules s /\ l_over s' = l_over s) \/
  exists p0 s'', nth_error (l_threads s) i = Some (mkR q p0) /\ lstep s i q p0 s'' p /\ s' = at_pc s'' i q p.
Proof.
  intros ST N. destruct ST as [s q0 A | s i0 q0 p0 s' p' N0 ST]; cbn [with_threads l_threads at_pc] in N.
  - destruct (nth_error (l_threads s) i) as [th|] eqn:E; [left; rewrite <- N; symmetry; apply nth_snoc_old, E|]. right. left. apply nth_snoc in N. destruct N as [N | [_ N]]; [congruence|]. injection N as -> ->. auto.
  - rewrite (lstep_threads _ _ _ _ _ _ ST) in N. destruct (nth_set_cases _ _ _ _ _ _ N0 N) as [[-> EQ] | [NE N']]; [|left; exact N']. injection EQ as -> ->. right. right. eauto 6.
Qed.
Lemma got_next s s' i q a : lnext s s' -> got i q a s -> got i q a s'.
Proof.
  unfold got. intros ST G. destruct ST as [s q0 A | s i0 q0 p0 s' p' N0 ST]; cbn [with_threads l_threads at_pc]; [apply nth_snoc_old, G|]. rewrite (lstep_threads _ _ _ _ _ _ ST).
  destruct (Nat.eq_dec i i0) as [->|NE]; [|rewrite nth_set_other by exact NE; exact G]. rewrite G in N0. injection N0 as <- <-. exfalso. eapply ended_stays; eauto.
Qed.

(** Why a rule is away, or marked, and a request told so *)
Record whys (s : lim) : Prop := {
  y_dying : forall r, l_dying s r = true -> asked (DropRule r) s;
  y_none : forall r, l_rules s r = None -> r < l_made s -> asked (DropRule r) s;
  y_gone : forall i q r, nth_error (l_threads s) i = Some (mkR q (LEnd Gone)) -> about q = Some r -> asked (DropRule r) s;
  y_over : forall i r p, nth_error (l_threads s) i = Some (mkR (DropRule r) p) -> p = LUnmark Gone \/ p = LUnmark Dropped \/ p = LEnd Gone \/ p = LEnd Dropped -> l_rules s r = None;
  y_new : forall i g r, nth_error (l_threads s) i = Some (mkR (NewRule g) (LEnd (NewIs r))) -> r < l_made s /\ (l_rules s r = Some g \/ l_rules s r = None) }.
Lemma whys_exec s tr : lexec (s :: tr) -> whys s.
Proof.
  intros E. remember (s :: tr) as l eqn:EL. revert s tr EL. induction E as [|s s' tr E IH ST]; intros s0 tr0 EL; injection EL as <- <-.
  - split; cbn; intros; try (destruct i; discriminate); try discriminate; lia.
  - specialize (IH s tr eq_refl). pose proof (exec_locks _ _ E) as K. assert (AS : forall q, asked q s -> asked q s') by (intros q; apply asked_step, ST).
    assert (MM : l_made s <= l_made s'). { destruct ST as [|s i q p s' p' N ST]; [auto|]. cbn. destruct (made_change _ _ _ _ _ _ ST); lia. }
    split.
    + intros r D. destruct ST as [s q A | s i q p s' p' N ST]; [apply AS, (y_dying s IH), D|]. cbn in D. destruct (bool_dec (l_dying s' r) (l_dying s r)) as [X | X]; [apply AS, (y_dying s IH); congruence|].
      destruct (dying_change _ _ _ _ _ _ _ ST X) as [_ ->]. apply AS. exists i, p. exact N.
    + intros r R L. destruct ST as [s q A | s i q p s' p' N ST]; [apply AS, (y_none s IH); auto|]. cbn in R, L. destruct (rules_step _ _ _ _ _ _ r ST) as [X | [(X & -> & _) | ->]].
      * apply AS. apply (y_none s IH); [congruence|]. destruct (Nat.lt_ge_cases r (l_made s)) as [|G]; [assumption|]. exfalso. inversion ST; subst; cbn in L; try lia. cbn [l_rules] in R. assert (r = l_made s) as -> by lia. rewrite set_item_same in R. discriminate.
      * apply AS. exists i, p. exact N.
      * exfalso. inversion ST; subst; cbn in L; try lia. cbn [l_rules] in R. rewrite set_item_same in R. discriminate.
    + intros i q r N A. destruct (thread_next _ _ _ _ _ ST N) as [N' | [(_ & [=] & _) | (p0 & s2 & N' & ST' & _)]]; [apply AS; eapply (y_gone s IH); eauto|].
      apply AS. inversion ST'; subst; try congruence; try discriminate.
      * match goal with H : about _ = Some ?x |- _ => assert (x = r) as -> by congruence end. apply (y_dying s2 IH). assumption.
      * match goal with H : about _ = Some ?x |- _ => assert (x = r) as -> by congruence end. apply (y_none s2 IH); [assumption|]. eapply (k_made s2 K); eauto.
      * cbn in A. injection A as <-. exists i. eexists. exact N'.
    + intros i r p N C. assert (PERM : l_rules s r = None -> r < l_made s -> l_rules s' r = None).
      { intros R L. destruct ST as [|s i0 q0 p0 s' p' N0 ST]; [exact R|]. cbn. destruct (rules_step _ _ _ _ _ _ r ST) as [X | [(X & _) | ->]]; [congruence|exact X|lia]. }
      destruct (thread_next _ _ _ _ _ ST N) as [N' | [(_ & -> & _) | (p0 & s2 & N' & ST' & ->)]].
      * apply PERM; [eapply (y_over s IH); eauto|eapply (k_made s K); eauto; reflexivity].
      * destruct C as [C | [C | [C | C]]]; discriminate.
      * pose proof (k_made s K _ _ _ _ N' eq_refl) as L. inversion ST'; subst; try (destruct C as [C | [C | [C | C]]]; discriminate).
        -- exfalso. match goal with H : about _ = Some _ |- _ => cbn in H end. congruence.
        -- apply PERM; [|exact L]. match goal with H : about _ = Some _ |- _ => cbn in H; injection H as <- end. assumption.
        -- apply PERM; [|exact L]. assumption.
        -- cbn [at_pc with_threads with_rule with_over l_rules]. apply set_item_same.
        -- apply PERM; [|exact L]. eapply (y_over s IH); [exact N'|]. destruct C as [C | [C | [C | C]]]; try discriminate; injection C as ->; auto.
    + intros i g r N. destruct (thread_next _ _ _ _ _ ST N) as [N' | [(_ & [=] & _) | (p0 & s2 & N' & ST' & ->)]].
      * destruct (y_new s IH i g r N') as [L D]. split; [lia|]. destruct ST as [|s i0 q0 p0 s' p' N0 ST]; [exact D|]. cbn. destruct (rules_step _ _ _ _ _ _ r ST) as [X | [(X & _) | ->]]; [rewrite X; exact D|auto|lia].
      * inversion ST'; subst; try discriminate. cbn. split; [lia|]. rewrite set_item_same. auto.
Qed.

Theorem no_orphans s tr r x kv : lexec (s :: tr) -> over_there r x kv s -> exists g, rule_there r g s /\ covers g kv.
Proof.
  intros E O. pose proof (exec_overs _ _ E) as V. unfold over_there, stored, rule_there in *. destruct (l_rules s r) as [g|] eqn:R; [|rewrite (o_none s V r x R) in O; discriminate].
  exists g. split; [reflexivity|]. eapply (o_cov s V); eauto.
Qed.
Lemma not_destroyed s r x s1 : overs s -> grows s1 (l_over s r) -> ~ asked (DropOver r x) s -> ~ destroyed_now x s1.
Proof. intros V [G _] NA (i & kv & (p & N) & _). rewrite <- G in N. destruct (o_run s V _ _ _ _ _ N) as [[C | (y & C & A)] _]; [discriminate|]. injection C as <-. contradiction. Qed.
Theorem one_override s tr r x y kv : lexec (s :: tr) -> over_there r x kv s -> over_there r y kv s -> ~ asked (DropOver r x) s -> ~ asked (DropOver r y) s -> x = y.
Proof.
  intros E X Y AX AY. pose proof (exec_overs _ _ E) as V. destruct (o_exec s V r) as (s1 & t1 & E1 & G & _). eapply one_item; [exact E1|apply G; exact X|apply G; exact Y| |]; eapply not_destroyed; eauto.
Qed.
(** An override that was accepted is there *)
Lemma accepted s tr i r kv x : lexec (s :: tr) -> got i (Override r kv) (Told (RCreated x)) s -> l_rules s r = None \/ locked_by holds (l_threads s) r \/ over_there r x kv s \/ asked (DropOver r x) s.
Proof.
  intros E G. pose proof (exec_overs _ _ E) as V. destruct (o_outer s V i r kv _ G) as [R | (n & N)]; [auto|]. right. eapply (o_told s V); [exact N|reflexivity].
Qed.
Theorem stays s tr i r kv x : lexec (s :: tr) -> got i (Override r kv) (Told (RCreated x)) s -> ~ asked (DropOver r x) s -> ~ asked (DropRule r) s -> over_there r x kv s.
Proof.
  intros E G NO NR. pose proof (whys_exec _ _ E) as Y. pose proof (exec_locks _ _ E) as K. destruct (accepted _ _ _ _ _ _ E G) as [R | [(j & [q p] & N & A) | [O | O]]]; [| |exact O|contradiction].
  - exfalso. apply NR. eapply (y_none s Y); eauto. eapply (k_made s K); [exact G|reflexivity].
  - exfalso. apply NR. destruct p; try discriminate A. pose proof (k_fits s K _ _ _ N) as F. destruct q; cbn in F; try contradiction. cbn in A. injection A as ->. exists j. eexists. exact N.
Qed.
Lemma asked_dec (P : req -> Prop) s : (forall q, P q \/ ~ P q) -> (exists q, P q /\ asked q s) \/ ~ exists q, P q /\ asked q s.
Proof.
  intros D. unfold asked, is_req. induction (l_threads s) as [|[q p] ts IH]; [right; intros (q & _ & i & p & N); destruct i; discriminate|].
  destruct IH as [(q' & H & i & p' & N) | IH]; [left; exists q'; split; [exact H|]; exists (S i), p'; exact N|].
  destruct (D q) as [H | H]; [left; exists q; split; [exact H|]; exists 0, p; reflexivity|]. right. intros (q' & H' & [|i] & p' & N); [cbn in N; injection N as -> _; contradiction|]. apply IH. exists q'. split; [exact H'|]. exists i, p'. exact N.
Qed.
Lemma over_dropped_dec r s : some_override_dropped r s \/ ~ some_override_dropped r s.
Proof.
  assert (D : forall q, (exists x, q = DropOver r x) \/ ~ exists x, q = DropOver r x).
  { intros [g|r1 kv|r1 x1|w v|r1]; try (right; intros (x & [=]); fail). destruct (Nat.eq_dec r1 r) as [->|NE]; [left; eauto|right; intros (x & [=]); congruence]. }
  destruct (asked_dec _ s D) as [(q & (x & ->) & A) | NA]; [left; exists x; exact A|]. right. intros (x & A). apply NA. exists (DropOver r x). eauto.
Qed.
Lemma rule_dropped_dec s : some_rule_dropped s \/ ~ some_rule_dropped s.
Proof.
  assert (D : forall q, (exists x, q = DropRule x) \/ ~ exists x, q = DropRule x).
  { intros [g|r1 kv|r1 x1|w v|r1]; try (right; intros (x & [=]); fail). left. eauto. }
  destruct (asked_dec _ s D) as [(q & (x & ->) & A) | NA]; [left; exists x; exact A|]. right. intros (x & A). apply NA. exists (DropRule x). eauto.
Qed.
Lemma reader s j q p r : nth_error (l_threads s) j = Some (mkR q p) -> reads (mkR q p) = Some r -> locks s -> ~ locked_by holds (l_threads s) r /\ l_rules s r <> None.
Proof. intros N R K. assert (L : locked_by reads (l_threads s) r) by (exists j, (mkR q p); auto). split; [intros H; apply (k_apart s K r H L)|apply (k_there s K); auto]. Qed.

(** The overrides that a request visits have been stored some time *)
Lemma known_next s tr s' r x : lexec (s :: tr) -> lnext s s' -> In x (w_known (st_world (l_over s r))) -> (exists i q p, nth_error (l_threads s) i = Some (mkR q p) /\ reads (mkR q p) = Some r) -> In x (w_known (st_world (l_over s' r))).
Proof.
  intros E ST I (j & q0 & p0 & NJ & RJ). pose proof (exec_locks _ _ E) as K. destruct (reader _ _ _ _ _ NJ RJ K) as [NH NR]. destruct ST as [s q A | s i q p s' p' N ST]; [exact I|]. cbn [at_pc with_threads l_over].
  destruct (over_steps _ _ _ _ _ _ r ST) as [p s' p' EQ NU | s' g A R _ AL _ _ KD EQ | s' m kv' pn w' pn' A NM TS RS EQ | s' y kv' EQQ EI EQ RS | s' EQQ EQ RN]; rewrite EQ; cbn [st_world]; auto.
  - destruct TS; auto; [right; exact I|]. cbv zeta. destruct (truncate _), (nd_creating nd); exact I.
  - exfalso. apply NH. exists i, (mkR q LHold). split; [exact N|]. rewrite EQQ. reflexivity.
Qed.
Lemma visits_known s tr : lexec (s :: tr) -> forall j q r ids xs todo seen, nth_error (l_threads s) j = Some (mkR q (LSee r ids xs todo seen)) -> forall x, In x ids -> In x (w_known (st_world (l_over s r))).
Proof.
  intros E. remember (s :: tr) as l eqn:EL. revert s tr EL. induction E as [|s s' tr E IH ST]; intros s0 tr0 EL; injection EL as <- <-; intros j q r ids xs todo seen N x I; [destruct j; discriminate|].
  specialize (IH s tr eq_refl). destruct (thread_next _ _ _ _ _ ST N) as [N' | [(_ & [=] & _) | (p0 & s2 & N' & ST' & ->)]].
  - eapply known_next; [exact E|exact ST|eapply IH; eauto|]. exists j, q. eexists. split; [exact N'|reflexivity].
  - inversion ST'; subst.
    + cbn [at_pc with_threads l_over]. match goal with H : forall x, In x ids -> _ |- _ => apply H, I end.
    + cbn [at_pc with_threads l_over]. eapply IH; [exact N'|right; exact I].
Qed.

Definition whole (r x : nat) (p : lpc) : Prop :=
  let ok seen := forall xs, In (r, xs) seen -> In x xs in
  match p with
  | LNext _ seen | LVisit _ _ seen | LEnd (Saw seen) => ok seen
  | LRead r' first _ seen => (r' = r -> In x first) /\ ok seen
  | LSee r' ids xs _ seen => (r' = r -> In x ids \/ In x xs) /\ ok seen
  | _ => True
  end.
Lemma ok_snoc (r x : nat) (seen : list (nat * list nat)) (r' : nat) (xs' : list nat) : (forall xs, In (r, xs) seen -> In x xs) -> (r' = r -> In x xs') -> forall xs, In (r, xs) (seen ++ [(r', xs')]) -> In x xs.
Proof. intros A B xs I. apply in_app_or in I. destruct I as [I | [I | []]]; [auto|]. injection I as -> ->. auto. Qed.
Lemma whole_step s tr i j r kv x wants sees p s' p' : lexec (s :: tr) -> got i (Override r kv) (Told (RCreated x)) s -> sees kv = true -> ~ some_override_dropped r s ->
  nth_error (l_threads s) j = Some (mkR (Limits wants sees) p) -> lstep s j (Limits wants sees) p s' p' -> whole r x p -> whole r x p'.
Proof.
  intros E G S NO N ST W. pose proof (exec_locks _ _ E) as K. pose proof (exec_overs _ _ E) as V. pose proof (accepted _ _ _ _ _ _ E G) as AC.
  assert (ND : forall y, ~ asked (DropOver r y) s) by (intros y A; apply NO; exists y; exact A).
  assert (AT : reads (mkR (Limits wants sees) p) = Some r -> w_items (st_world (l_over s r)) x = Some kv).
  { intros R. destruct (reader _ _ _ _ _ N R K) as [NH NR]. destruct AC as [H | [H | [H | H]]]; [contradiction|contradiction|exact H|destruct (ND _ H)]. }
  assert (UN : reads (mkR (Limits wants sees) p) = Some r -> forall y, w_dying (st_world (l_over s r)) y = false /\ (In y (w_known (st_world (l_over s r))) -> w_items (st_world (l_over s r)) y <> None)).
  { intros R y. destruct (reader _ _ _ _ _ N R K) as [NH NR]. split.
    - destruct (w_dying (st_world (l_over s r)) y) eqn:D; [|reflexivity]. exfalso. destruct (o_exec s V r) as (s1 & t1 & E1 & G1 & H1). specialize (H1 NH). subst s1.
      eapply not_destroyed; [exact V|exact G1|apply (ND y)|]. eapply dying_now; [exact E1|exact D].
    - intros I. destruct (o_known s V r y I) as [H | [H | H]]; [contradiction|exact H|destruct (ND _ H)]. }
  inversion ST; subst; cbn [whole] in *; try (match type of W with _ /\ _ => destruct W as [W1 W] end); try exact Logic.I; auto; try contradiction; try discriminate.
  - split; [|exact W]. intros ->. match goal with H : forall x, In x first <-> _ |- _ => apply H end. exists kv. split; [|exact S]. destruct AC as [H' | [H' | [H' | H']]]; [congruence|contradiction|exact H'|destruct (ND _ H')].
  - split; [|exact W]. intros ->. apply filter_In. split; [auto|]. destruct (Nat.eqb_spec x x0) as [->|NE]; [|reflexivity]. exfalso. destruct (UN eq_refl x0) as [D _]. congruence.
  - split; [|exact W]. intros ->. left. match goal with H : forall x, In x first -> _ |- _ => apply H; [auto|] end. rewrite (AT eq_refl). discriminate.
  - split; [|exact W]. intros ->. destruct (W1 eq_refl) as [[-> | I] | I]; [right; apply in_or_app; right; left; reflexivity|auto|right; apply in_or_app; auto].
  - apply ok_snoc; [exact W|]. intros ->. exfalso. destruct (UN eq_refl x0) as [D H']. match goal with H : w_dying _ _ = true \/ _ |- _ => destruct H as [HD | HD]; [congruence|] end.
    revert HD. apply H'. eapply visits_known; [exact E|exact N|left; reflexivity].
  - apply ok_snoc; [exact W|]. intros ->. destruct (W1 eq_refl) as [[] | I]. exact I.
Qed.
(** A check that has a rule has its overrides *)
Theorem whole_check s tr1 s0 tr0 i j r kv x wants sees l xs : lexec (s :: tr1 ++ s0 :: tr0) -> got i (Override r kv) (Told (RCreated x)) s0 -> unmade j s0 -> sees kv = true ->
  got j (Limits wants sees) (Saw l) s -> In (r, xs) l -> ~ some_override_dropped r s -> In x xs.
Proof.
  intros E G U S GJ IL NA.
  assert (P : got i (Override r kv) (Told (RCreated x)) s /\ (some_override_dropped r s \/ forall p, nth_error (l_threads s) j = Some (mkR (Limits wants sees) p) -> whole r x p)).
  { apply (from_then (fun s => got i (Override r kv) (Told (RCreated x)) s /\ (some_override_dropped r s \/ forall p, nth_error (l_threads s) j = Some (mkR (Limits wants sees) p) -> whole r x p)) s tr1 s0 tr0 E).
    - split; [exact G|]. right. intros p N. unfold unmade in U. congruence.
    - clear - S. intros s s' tr E [G D] ST. split; [eapply got_next; eauto|]. assert (ON : some_override_dropped r s -> some_override_dropped r s') by (intros (y & A); exists y; eapply asked_step; eauto).
      destruct D as [D | D]; [auto|]. destruct (over_dropped_dec r s) as [OD | OD]; [auto|]. right. intros p N.
      destruct (thread_next _ _ _ _ _ ST N) as [N' | [(_ & -> & _) | (p0 & s2 & N' & ST' & ->)]]; [apply D, N'|exact Logic.I|]. eapply whole_step; eauto. }
  destruct P as [_ [P | P]]; [contradiction|]. apply (P _ GJ). exact IL.
Qed.
(** A check has every rule that matches, when none is being deleted *)
Definition counted (r : nat) (made : nat) (p : lpc) : Prop :=
  let has seen := exists xs, In (r, xs) seen in let old todo := forall r', In r' todo -> r' < made in
  match p with
  | LRules first => In r first
  | LNext todo seen => old todo /\ (In r todo \/ has seen)
  | LVisit r' todo seen => r' < made /\ old todo /\ (r' = r \/ In r todo \/ has seen)
  | LRead r' _ todo seen | LSee r' _ _ todo seen => old todo /\ (r' = r \/ In r todo \/ has seen)
  | LEnd (Saw seen) => has seen
  | _ => True
  end.
Lemma has_snoc (r : nat) (seen : list (nat * list nat)) r' (xs' : list nat) todo : (r' = r \/ In r todo \/ exists xs, In (r, xs) seen) -> In r todo \/ exists xs, In (r, xs) (seen ++ [(r', xs')]).
Proof. intros [-> | [H | (xs & H)]]; [right; exists xs'; apply in_or_app; right; left; reflexivity|auto|right; exists xs; apply in_or_app; auto]. Qed.
Lemma counted_step s tr j r g wants sees p s' p' : lexec (s :: tr) -> l_rules s r = Some g -> r < l_made s -> wants g = true -> ~ some_rule_dropped s ->
  nth_error (l_threads s) j = Some (mkR (Limits wants sees) p) -> lstep s j (Limits wants sees) p s' p' -> counted r (l_made s) p -> counted r (l_made s) p'.
Proof.
  intros E R L W NA N ST C. pose proof (whys_exec _ _ E) as Y. assert (ND : forall r', l_dying s r' = false).
  { intros r'. destruct (l_dying s r') eqn:D; [|reflexivity]. exfalso. apply NA. exists r'. apply (y_dying s Y), D. }
  assert (NN : forall r', r' < l_made s -> l_rules s r' <> None) by (intros r' L' R'; apply NA; exists r'; apply (y_none s Y); assumption).
  inversion ST; subst; cbn [counted] in *; auto.
  - match goal with H : forall r, In r first <-> _ |- _ => apply H end. eauto.
  - split; [intros r' I; match goal with H : forall r, In r todo -> _ /\ _ |- _ => apply H, I end|]. left. match goal with H : forall r, In r first -> _ |- _ => apply H end; [exact C|congruence|apply ND].
  - rewrite ND in *. discriminate.
  - destruct C as [O C]. split; [apply O; left; reflexivity|]. split; [intros r' I; apply O; right; exact I|]. destruct C as [[-> | C] | C]; auto.
  - exfalso. destruct C as [O _]. eapply NN; eauto.
  - destruct C as (_ & O & C). auto.
  - destruct C as [O C]. split; [exact O|]. apply has_snoc, C.
  - destruct C as [O C]. split; [exact O|]. apply has_snoc, C.
  - destruct C as [O [[] | C]]. exact C.
Qed.
Lemma counted_more r m m' p : m <= m' -> counted r m p -> counted r m' p.
Proof.
  intros L. assert (X : forall todo : list nat, (forall r', In r' todo -> r' < m) -> forall r', In r' todo -> r' < m') by (intros todo H r' I; specialize (H r' I); lia).
  destruct p; cbn [counted]; auto.
  - intros [A B]. split; [eapply X; exact A|exact B].
  - intros (A & B & C). split; [lia|]. split; [eapply X; exact B|exact C].
  - intros [A B]. split; [eapply X; exact A|exact B].
  - intros [A B]. split; [eapply X; exact A|exact B].
Qed.
Theorem checked s tr1 s0 tr0 i j g r wants sees l : lexec (s :: tr1 ++ s0 :: tr0) -> got i (NewRule g) (NewIs r) s0 -> unmade j s0 -> wants g = true -> got j (Limits wants sees) (Saw l) s -> ~ some_rule_dropped s -> exists xs, In (r, xs) l.
Proof.
  intros E G U W GJ NA.
  assert (P : got i (NewRule g) (NewIs r) s /\ (some_rule_dropped s \/ forall p, nth_error (l_threads s) j = Some (mkR (Limits wants sees) p) -> counted r (l_made s) p)).
  { apply (from_then (fun s => got i (NewRule g) (NewIs r) s /\ (some_rule_dropped s \/ forall p, nth_error (l_threads s) j = Some (mkR (Limits wants sees) p) -> counted r (l_made s) p)) s tr1 s0 tr0 E).
    - split; [exact G|]. right. intros p N. unfold unmade in U. congruence.
    - clear - W. intros s s' tr E [G D] ST. split; [eapply got_next; eauto|]. assert (ON : some_rule_dropped s -> some_rule_dropped s') by (intros (y & A); exists y; eapply asked_step; eauto).
      destruct D as [D | D]; [auto|]. destruct (rule_dropped_dec s) as [OD | OD]; [auto|]. right. intros p N.
      assert (MM : l_made s <= l_made s'). { destruct ST as [|s i0 q p0 s' p' N0 ST]; [auto|]. cbn. destruct (made_change _ _ _ _ _ _ ST); lia. }
      destruct (y_new s (whys_exec _ _ E) i g r G) as [L [R | R]]; [|exfalso; apply OD; exists r; apply (y_none s (whys_exec _ _ E)); assumption].
      apply (counted_more r _ _ _ MM). destruct (thread_next _ _ _ _ _ ST N) as [N' | [(_ & -> & _) | (p0 & s2 & N' & ST' & ->)]]; [apply D, N'|exact Logic.I|]. eapply counted_step; eauto. }
  destruct P as [_ [P | P]]; [contradiction|]. apply (P _ GJ).
Qed.
(** What a check has seen was there *)
Theorem seen_there s tr j wants sees l r xs : lexec (s :: tr) -> got j (Limits wants sees) (Saw l) s -> In (r, xs) l ->
  (exists s' g, In s' tr /\ is_req j (Limits wants sees) s' /\ rule_there r g s' /\ wants g = true) /\
  forall x, In x xs -> exists s' kv, In s' tr /\ is_req j (Limits wants sees) s' /\ over_there r x kv s' /\ sees kv = true.
Proof.
  intros E G I.
  set (R := fun (tr : list lim) (r : nat) => exists s' g, In s' tr /\ is_req j (Limits wants sees) s' /\ rule_there r g s' /\ wants g = true).
  set (O := fun (tr : list lim) (r : nat) (xs : list nat) => forall x, In x xs -> exists s' kv, In s' tr /\ is_req j (Limits wants sees) s' /\ over_there r x kv s' /\ sees kv = true).
  set (ok := fun (tr : list lim) (seen : list (nat * list nat)) => forall r xs, In (r, xs) seen -> R tr r /\ O tr r xs).
  assert (H : forall p, nth_error (l_threads s) j = Some (mkR (Limits wants sees) p) -> match p with LNext _ seen | LVisit _ _ seen | LEnd (Saw seen) => ok tr seen | LRead r _ _ seen => R tr r /\ ok tr seen | LSee r _ xs _ seen => R tr r /\ O tr r xs /\ ok tr seen | _ => True end).
  { clear G I xs r l. remember (s :: tr) as l eqn:EL. revert s tr EL. induction E as [|s s' tr E IH ST]; intros s0 tr0 EL; injection EL as <- <-; intros p N; [destruct j; discriminate|].
    specialize (IH s tr eq_refl).
    assert (OR : forall r, R tr r -> R (s :: tr) r) by (intros r (a & g & H1 & H2); exists a, g; split; [right; exact H1|exact H2]).
    assert (OO : forall r xs, O tr r xs -> O (s :: tr) r xs) by (intros r xs H x I; destruct (H x I) as (a & kv & H1 & H2); exists a, kv; split; [right; exact H1|exact H2]).
    assert (OK : forall seen, ok tr seen -> ok (s :: tr) seen) by (intros seen H r xs I; destruct (H r xs I); auto).
    assert (SN : forall seen r xs, ok (s :: tr) seen -> R (s :: tr) r -> O (s :: tr) r xs -> ok (s :: tr) (seen ++ [(r, xs)])).
    { intros seen r xs H1 H2 H3 r' xs' I. apply in_app_or in I. destruct I as [I | [I | []]]; [apply H1, I|]. injection I as <- <-. auto. }
    destruct (thread_next _ _ _ _ _ ST N) as [N' | [(_ & -> & _) | (p0 & s2 & N' & ST' & ->)]]; [| exact Logic.I |].
    - specialize (IH p N'). destruct p as [| | |first|todo seen|r todo seen|r first todo seen|r ids xs todo seen| | |a|a]; auto; try tauto; [destruct IH; auto|destruct IH as (? & ? & ?); auto|destruct a; auto].
    - specialize (IH p0 N'). inversion ST'; subst; auto; try exact Logic.I.
      + intros r xs [].
      + split; [|auto]. exists s2, g. split; [left; reflexivity|]. split; [eexists; exact N'|auto].
      + destruct IH. auto.
      + destruct IH. split; [auto|]. split; [intros x []|auto].
      + destruct IH as (IA & IB & IC). split; [auto|]. split; [|auto]. intros y I. apply in_app_or in I. destruct I as [I | [<- | []]]; [apply OO in IB; apply IB, I|]. exists s2, kv. split; [left; reflexivity|]. split; [eexists; exact N'|auto].
      + destruct IH as (IA & IB & IC). apply SN; auto.
      + destruct IH as (IA & IB & IC). apply SN; auto. }
  exact (H _ G r xs I).
Qed.
(** After the deletion *)
Theorem gone_for_good s tr1 s0 tr0 i r a j q b : lexec (s :: tr1 ++ s0 :: tr0) -> got i (DropRule r) a s0 -> a = Gone \/ a = Dropped -> unmade j s0 -> about q = Some r -> got j q b s -> b = Gone \/ b = Deleting /\ q = DropRule r.
Proof.
  intros E G AA U A GJ.
  assert (P : (l_rules s r = None /\ r < l_made s) /\ forall p, nth_error (l_threads s) j = Some (mkR q p) -> p = LCheck \/ p = LFind \/ p = LEnd Gone \/ q = DropRule r /\ (p = LEnd Deleting \/ p = LMarked \/ p = LUnmark Gone)).
  { apply (from_then (fun s => (l_rules s r = None /\ r < l_made s) /\ forall p, nth_error (l_threads s) j = Some (mkR q p) -> p = LCheck \/ p = LFind \/ p = LEnd Gone \/ q = DropRule r /\ (p = LEnd Deleting \/ p = LMarked \/ p = LUnmark Gone)) s tr1 s0 tr0 E).
    - assert (E0 : lexec (s0 :: tr0)) by (apply (lexec_back (s :: tr1)); exact E). split; [|intros p N; unfold unmade in U; congruence]. split; [|eapply (k_made s0 (exec_locks _ _ E0)); [exact G|reflexivity]].
      eapply (y_over s0 (whys_exec _ _ E0)); [exact G|]. destruct AA as [-> | ->]; auto.
    - clear - A. intros s s' tr E [[R L] D] ST. split.
      + destruct ST as [|s i0 q0 p0 s' p' N0 ST]; [auto|]. cbn. split; [|destruct (made_change _ _ _ _ _ _ ST); lia]. destruct (rules_step _ _ _ _ _ _ r ST) as [X | [(X & _) | ->]]; [congruence|exact X|lia].
      + intros p N. destruct (thread_next _ _ _ _ _ ST N) as [N' | [(_ & -> & _) | (p0 & s2 & N' & ST' & ->)]]; [apply D, N'|auto|]. specialize (D _ N').
        inversion ST'; subst; cbn in A; try discriminate; try (injection A as ->); auto; try (exfalso; destruct D as [D | [D | [D | (_ & [D | [D | D]])]]]; discriminate); try congruence; auto 8.
        destruct D as [D | [D | [D | (_ & [D | [D | D]])]]]; try discriminate. injection D as ->. auto. }
  destruct P as [_ P]. specialize (P _ GJ). destruct P as [P | [P | [P | (-> & [P | [P | P]])]]]; try discriminate; injection P as ->; auto.
Qed.
Theorem gone_from_checks s tr1 s0 tr0 i r a j wants sees l xs : lexec (s :: tr1 ++ s0 :: tr0) -> got i (DropRule r) a s0 -> a = Gone \/ a = Dropped -> unmade j s0 -> got j (Limits wants sees) (Saw l) s -> ~ In (r, xs) l.
Proof.
  intros E G AA U GJ.
  set (ok := fun seen : list (nat * list nat) => forall xs, ~ In (r, xs) seen).
  assert (P : (l_rules s r = None /\ r < l_made s) /\ forall p, nth_error (l_threads s) j = Some (mkR (Limits wants sees) p) -> match p with LNext _ seen | LVisit _ _ seen | LEnd (Saw seen) => ok seen | LRead r' _ _ seen | LSee r' _ _ _ seen => r' <> r /\ ok seen | _ => True end).
  { apply (from_then (fun s => (l_rules s r = None /\ r < l_made s) /\ forall p, nth_error (l_threads s) j = Some (mkR (Limits wants sees) p) -> match p with LNext _ seen | LVisit _ _ seen | LEnd (Saw seen) => ok seen | LRead r' _ _ seen | LSee r' _ _ _ seen => r' <> r /\ ok seen | _ => True end) s tr1 s0 tr0 E).
    - assert (E0 : lexec (s0 :: tr0)) by (apply (lexec_back (s :: tr1)); exact E). split; [|intros p N; unfold unmade in U; congruence]. split; [|eapply (k_made s0 (exec_locks _ _ E0)); [exact G|reflexivity]].
      eapply (y_over s0 (whys_exec _ _ E0)); [exact G|]. destruct AA as [-> | ->]; auto.
    - clear. intros s s' tr E [[R L] D] ST. split.
      + destruct ST as [|s i0 q0 p0 s' p' N0 ST]; [auto|]. cbn. split; [|destruct (made_change _ _ _ _ _ _ ST); lia]. destruct (rules_step _ _ _ _ _ _ r ST) as [X | [(X & _) | ->]]; [congruence|exact X|lia].
      + assert (SN : forall seen r' xs', r' <> r -> ok seen -> ok (seen ++ [(r', xs')])) by (intros seen r' xs' NE O xs I; apply in_app_or in I; destruct I as [I | [I | []]]; [apply (O xs I)|congruence]).
        intros p N. destruct (thread_next _ _ _ _ _ ST N) as [N' | [(_ & -> & _) | (p0 & s2 & N' & ST' & ->)]]; [apply D, N'|exact Logic.I|]. specialize (D _ N').
        inversion ST'; subst; try exact Logic.I; auto; try (match type of D with _ /\ _ => destruct D as [D1 D2]; auto end).
        * intros xs [].
        * split; [congruence|exact D]. }
  destruct P as [_ P]. apply (P _ GJ).
Qed.
Theorem rule_stays s tr i g r : lexec (s :: tr) -> got i (NewRule g) (NewIs r) s -> ~ asked (DropRule r) s -> rule_there r g s.
Proof. intros E G NA. pose proof (whys_exec _ _ E) as Y. destruct (y_new s Y i g r G) as [L [D | D]]; [exact D|]. exfalso. apply NA. eapply (y_none s Y); eauto. Qed.
Theorem told_gone s tr i q r : lexec (s :: tr) -> about q = Some r -> got i q Gone s -> asked (DropRule r) s.
Proof. intros E A G. eapply (y_gone s (whys_exec _ _ E)); eauto. Qed.
(** While its deletion does not run its callback, the overrides of a rule have an execution of their own *)
Theorem own_tree s tr r : lexec (s :: tr) -> (forall i, ~ nth_error (l_threads s) i = Some (mkR (DropRule r) LHold)) -> exists tr', exec false true (l_over s r :: tr').
Proof.
  intros E N. destruct (o_exec s (exec_overs _ _ E) r) as (s1 & t1 & E1 & _ & H). rewrite <- H; [eauto|]. intros (i & [q p] & NI & A). destruct p; try discriminate A.
  pose proof (k_fits s (exec_locks _ _ E) _ _ _ NI) as F. destruct q; cbn in F; try contradiction. cbn in A. injection A as ->. eapply N, NI.
Qed.
