(** Proofs about [RuleSync.v]: requests come to an end. *)
From Coq Require Import List Bool Arith Lia.
Import ListNotations.
From Verif Require Import AssocSync SpecAssocSync AssocSyncBase AssocSyncInv AssocSyncFrame AssocSyncStep AssocSyncGlobal AssocSyncAnswers AssocSyncLive RuleSync SpecRuleSync RuleSyncLocks RuleSyncOvers RuleSyncProofs SpecRuleSyncLive.

(** *** The tables of the overrides of a rule *)
Lemma step_item_known i c kv w p w' p' x kv' : tstep false i c kv w p w' p' -> (w_items w x = Some kv' -> In x (w_known w)) -> w_items w' x = Some kv' -> In x (w_known w').
Proof.
  intros ST H N. destruct ST; auto.
  - cbn [with_known with_item w_items w_known] in *. destruct (Nat.eq_dec x x0) as [->|NE]; [left; reflexivity|]. rewrite set_item_other in N by exact NE. right. auto.
  - cbn [with_item with_heap w_items w_known] in *. destruct (Nat.eq_dec x x0) as [->|NE]; [rewrite set_item_same in N; discriminate|]. rewrite set_item_other in N by exact NE. auto.
  - cbv zeta in *. destruct (truncate _), (nd_creating nd); auto.
  - cbn [release with_held with_item w_items w_known] in *. destruct (Nat.eq_dec x x0) as [->|NE]; [rewrite set_item_same in N; discriminate|]. rewrite set_item_other in N by exact NE. auto.
Qed.
Lemma items_known s tr : lexec (s :: tr) -> forall r x kv, w_items (st_world (l_over s r)) x = Some kv -> In x (w_known (st_world (l_over s r))).
Proof.
  intros E. remember (s :: tr) as l eqn:EL. revert s tr EL. induction E as [|s s' tr E IH ST]; intros s0 tr0 EL; injection EL as <- <-; intros r x kv N; [discriminate|].
  specialize (IH s tr eq_refl r x). destruct ST as [s q A | s i q p s' p' N0 ST]; [eapply IH; exact N|]. cbn [at_pc with_threads l_over] in *.
  destruct (over_steps _ _ _ _ _ _ r ST) as [p s' p' EQ NU | s' g A R _ AL _ _ KD EQ | s' m kv' pn w' pn' A NM TS RS EQ | s' y kv' EQQ EI EQ RS | s' EQQ EQ RN]; rewrite EQ in *; cbn [st_world] in *; eauto.
  - eapply step_item_known; eauto.
  - cbn [with_item w_items w_known] in *. destruct (Nat.eq_dec x y) as [->|NE]; [rewrite set_item_same in N; discriminate|]. rewrite set_item_other in N by exact NE. eauto.
  - discriminate.
Qed.
Lemma made_next s tr s' r x kv : lexec (s :: tr) -> lnext s s' -> nth_error (w_made (st_world (l_over s r))) x = Some kv -> ~ locked_by holds (l_threads s) r -> nth_error (w_made (st_world (l_over s' r))) x = Some kv.
Proof.
  intros E ST I NH. destruct ST as [s q A | s i q p s' p' N ST]; [exact I|]. cbn [at_pc with_threads l_over].
  destruct (over_steps _ _ _ _ _ _ r ST) as [p s' p' EQ NU | s' g A R _ AL _ _ KD EQ | s' m kv' pn w' pn' A NM TS RS EQ | s' y kv' EQQ EI EQ RS | s' EQQ EQ RN]; rewrite EQ; cbn [st_world]; auto.
  - destruct TS; auto.
    + cbn [with_heap with_id w_made]. rewrite nth_error_app1 by (eapply nth_error_Some; congruence). exact I.
    + cbv zeta. destruct (truncate _), (nd_creating nd); exact I.
  - exfalso. apply NH. exists i, (mkR q LHold). split; [exact N|]. rewrite EQQ. reflexivity.
Qed.
Lemma not_held s tr r : lexec (s :: tr) -> (forall i, ~ nth_error (l_threads s) i = Some (mkR (DropRule r) LHold)) -> ~ locked_by holds (l_threads s) r.
Proof.
  intros E N (i & [q p] & NI & A). destruct p; try discriminate A. pose proof (k_fits s (exec_locks _ _ E) _ _ _ NI) as F. destruct q; cbn in F; try contradiction. cbn in A. injection A as ->. eapply N, NI.
Qed.
(** Overrides of a rule that is not being deleted: their key-values *)
Lemma items_made s tr r x kv : lexec (s :: tr) -> ~ locked_by holds (l_threads s) r -> w_items (st_world (l_over s r)) x = Some kv -> nth_error (w_made (st_world (l_over s r))) x = Some kv.
Proof.
  intros E NH N. destruct (o_exec s (exec_overs _ _ E) r) as (s1 & t1 & E1 & _ & H). specialize (H NH). subst s1. apply (g_items _ (i_g _ _ (exec_inv _ _ _ _ E1)) x kv N).
Qed.

(** *** What a check still has before it *)
Definition wanted (s : lim) (wants : kvs -> bool) (r : nat) : Prop := r < l_made s /\ forall g, l_rules s r = Some g -> wants g = true.
Definition wanted_over (s : lim) (sees : kvs -> bool) (r x : nat) : Prop := exists kv, nth_error (w_made (st_world (l_over s r))) x = Some kv /\ sees kv = true.
Definition fine (s : lim) (wants sees : kvs -> bool) (p : lpc) : Prop :=
  match p with
  | LRules todo | LNext todo _ => Forall (wanted s wants) todo
  | LVisit r todo _ => Forall (wanted s wants) (r :: todo)
  | LRead r xs todo _ | LSee r xs _ todo _ => Forall (wanted s wants) todo /\ Forall (wanted_over s sees r) xs
  | _ => True
  end.
Lemma wanted_next s s' wants r : lnext s s' -> wanted s wants r -> wanted s' wants r.
Proof.
  intros ST [L W]. destruct ST as [s q A | s i q p s' p' N ST]; [split; assumption|]. unfold wanted. cbn [at_pc with_threads l_made l_rules]. split.
  - destruct (made_change _ _ _ _ _ _ ST); lia.
  - intros g R. destruct (rules_step _ _ _ _ _ _ r ST) as [EQ | [(EQ & _) | EQ]]; [apply W; congruence|congruence|lia].
Qed.
Lemma Forall_wanted s s' wants l : lnext s s' -> Forall (wanted s wants) l -> Forall (wanted s' wants) l.
Proof. intros ST. apply Forall_impl. intros r. apply wanted_next, ST. Qed.
Lemma fine_next s tr s' j q wants sees p : lexec (s :: tr) -> lnext s s' -> nth_error (l_threads s) j = Some (mkR q p) -> fine s wants sees p -> fine s' wants sees p.
Proof.
  intros E ST N F. destruct p; cbn [fine] in *; auto; try (eapply Forall_wanted; eauto; fail).
  - destruct F as [A B]. split; [eapply Forall_wanted; eauto|]. destruct (reader s j q _ r N eq_refl (exec_locks _ _ E)) as [NH _]. revert B. apply Forall_impl. intros x (kv & M & S). exists kv. split; [eapply made_next; eauto|exact S].
  - destruct F as [A B]. split; [eapply Forall_wanted; eauto|]. destruct (reader s j q _ r N eq_refl (exec_locks _ _ E)) as [NH _]. revert B. apply Forall_impl. intros x (kv & M & S). exists kv. split; [eapply made_next; eauto|exact S].
Qed.
Lemma fine_step s tr j wants sees p s' p' : lexec (s :: tr) -> nth_error (l_threads s) j = Some (mkR (Limits wants sees) p) -> lstep s j (Limits wants sees) p s' p' -> fine s wants sees p -> fine s wants sees p'.
Proof.
  intros E N ST F. assert (BD : forall r g, l_rules s r = Some g -> r < l_made s). { intros r g R. destruct (Nat.lt_ge_cases r (l_made s)) as [L | L]; [exact L|]. destruct (k_new s (exec_locks _ _ E) r L) as [H _]. congruence. }
  inversion ST; subst; cbn [fine] in *; auto; try (apply F; fail).
  - apply Forall_forall. intros r I. match goal with H : forall r, In r first <-> _ |- _ => apply H in I end. destruct I as (g & R & W). split; [eauto|]. intros g' R'. congruence.
  - apply Forall_forall. intros r I. match goal with H : forall r, In r todo -> _ |- _ => apply H in I end. exact I.
  - inversion F as [|? ? F1 F2]; subst. split; [exact F2|]. apply Forall_forall. intros x I. match goal with H : forall x, In x first <-> _ |- _ => apply H in I end. destruct I as (kv & X & S). exists kv. split; [eapply items_made; eauto|exact S].
  - destruct F as [F1 F2]. split; [exact F1|]. apply Forall_forall. intros y I. apply filter_In in I. destruct I as [I _]. rewrite Forall_forall in F2. auto.
  - destruct F as [F1 _]. split; [exact F1|]. apply Forall_forall. intros x I. match goal with H : forall x, In x ids -> _ |- _ => apply H in I end. apply I.
  - destruct F as [F1 F2]. inversion F2; subst. auto.
Qed.
Lemma all_fine s tr : lexec (s :: tr) -> forall j wants sees p, nth_error (l_threads s) j = Some (mkR (Limits wants sees) p) -> fine s wants sees p.
Proof.
  intros E. remember (s :: tr) as l eqn:EL. revert s tr EL. induction E as [|s s' tr E IH ST]; intros s0 tr0 EL; injection EL as <- <-; intros j wants sees p N; [destruct j; discriminate|].
  specialize (IH s tr eq_refl). destruct (thread_next _ _ _ _ _ ST N) as [N' | [(_ & -> & _) | (p0 & s2 & N' & ST' & EQ)]]; [|exact Logic.I|].
  - eapply fine_next; eauto.
  - pose proof (fine_step _ _ _ _ _ _ _ _ E N' ST' (IH _ _ _ _ N')) as F. assert (s2 = s) as -> by (inversion ST'; first [reflexivity|discriminate]). subst s'. exact F.
Qed.

(** *** Somebody can go on *)
Lemma none_destroyed n s tr : exec n true (s :: tr) -> (forall i x kv p, nth_error (st_threads s) i <> Some (mkThread (CDestroy x) kv p)) -> exec n false (s :: tr).
Proof.
  intros E. remember (s :: tr) as l eqn:EL. revert s tr EL. induction E as [|s s' tr E IH ST]; intros s0 tr0 EL H; injection EL as <- <-; [apply EX_new|].
  assert (H' : forall i x kv p, nth_error (st_threads s) i <> Some (mkThread (CDestroy x) kv p)).
  { intros i x kv p N. destruct ST as [w ts c kv0 A | w ts j c kv0 p0 w' p' N0 ST]; cbn [st_threads] in *.
    - eapply H. apply nth_snoc_old. exact N.
    - unfold set_thread in H. destruct (Nat.eq_dec i j) as [->|NE]; [|eapply H; rewrite nth_set_other by exact NE; exact N]. rewrite N in N0. injection N0 as <- <- <-. eapply H. eapply nth_set_same; eauto. }
  eapply EX_step; [apply (IH s tr eq_refl H')|]. destruct ST as [w ts c kv0 [A B] | w ts j c kv0 p0 w' p' N0 ST]; [|eapply ST_step; eauto].
  apply ST_call. split; [exact A|]. destruct c; auto. exfalso. eapply H. cbn [st_threads]. rewrite nth_error_app2 by apply Nat.le_refl. rewrite Nat.sub_diag. reflexivity.
Qed.
Lemma find_thread (f : rthread -> bool) ts : (exists i th, nth_error ts i = Some th /\ f th = true) \/ forall i th, nth_error ts i = Some th -> f th = false.
Proof.
  induction ts as [|t ts [(i & th & N & F) | IH]]; [right; intros [|i] th; discriminate|left; exists (S i), th; auto|].
  destruct (f t) eqn:F; [left; exists 0, t; auto|]. right. intros [|i] th N; [injection N as <-; exact F|eapply IH; exact N].
Qed.
Lemma find_item (f : nat -> option kvs) l : (exists x kv, f x = Some kv) \/ forall x, In x l -> f x = None.
Proof.
  induction l as [|x l [IH | IH]]; [right; intros x []|auto|]. destruct (f x) as [kv|] eqn:F; [left; eauto|]. right. intros y [<- | I]; auto.
Qed.
Lemma find_rule (f : nat -> option kvs) n g : (exists r, f r = Some g) \/ forall r, r < n -> f r <> Some g.
Proof.
  assert (D : forall a b : kvs, {a = b} + {a <> b}) by (apply list_eq_dec; decide equality; apply Nat.eq_dec).
  induction n as [|n [IH | IH]]; [right; intros; lia|auto|]. destruct (f n) as [g'|] eqn:F; [destruct (D g' g) as [->|NE]; [left; eauto|]|]; right; intros r L; (destruct (Nat.eq_dec r n) as [->|NR]; [congruence|apply IH; lia]).
Qed.
Lemma covers_dec g kv : covers g kv \/ ~ covers g kv.
Proof.
  unfold covers, incl. induction (map fst g) as [|k l [IH | IH]]; [left; intros k []| |right; intros H; apply IH; intros k' I; apply H; right; exact I].
  destruct (in_dec Nat.eq_dec k (map fst kv)) as [I | I]; [left; intros k' [<- | I']; auto|right; intros H; apply I, H; left; reflexivity].
Qed.
Lemma step_goes s i q p s1 p' : nth_error (l_threads s) i = Some (mkR q p) -> lstep s i q p s1 p' -> exists i s', goes_on i s s'.
Proof. intros N ST. exists i, (at_pc s1 i q p'). exists q, p, s1, p'. auto. Qed.
Definition at_inside (th : rthread) : bool := match r_pc th with LInside _ => true | _ => false end.
Definition at_hold (th : rthread) : bool := match r_pc th with LHold => true | _ => false end.
Definition at_read (th : rthread) : bool := match r_pc th with LRead _ _ _ _ | LSee _ _ _ _ _ => true | _ => false end.
Lemma tree_goes s tr i q n : lexec (s :: tr) -> ordinary s -> nth_error (l_threads s) i = Some (mkR q (LInside n)) -> exists i s', goes_on i s s'.
Proof.
  intros E O N. pose proof (exec_overs _ _ E) as V. pose proof (exec_locks _ _ E) as K.
  assert (A : exists r, about q = Some r). { pose proof (k_fits s K _ _ _ N) as F. destruct q; cbn in F; try contradiction; eexists; reflexivity. } destruct A as (r & A).
  destruct (o_in s V i q n r N A) as (p & NP). assert (RD : reads (mkR q (LInside n)) = Some r) by exact A. destruct (reader s i q _ r N RD K) as [NH _].
  destruct (o_exec s V r) as (s1 & t1 & E1 & _ & EQ). specialize (EQ NH). subst s1.
  assert (D : (exists a, p = PDone a) \/ forall a, p <> PDone a) by (destruct p; eauto; right; discriminate). destruct D as [(a & ->) | D]; [eapply step_goes; [exact N|eapply L_return; eauto]|].
  assert (ND : forall i x kv p, nth_error (st_threads (l_over s r)) i <> Some (mkThread (CDestroy x) kv p)).
  { intros j x kv p0 NJ. destruct (o_run s V r j _ kv p0 NJ) as [[C | (y & _ & B)] _]; [discriminate|]. eapply O; eauto. }
  destruct (no_deadlock false _ _ (none_destroyed _ _ _ E1 ND)) as (j & s2 & c & kv & p0 & w' & p' & NJ & ST & _); [exists n; eexists; split; [exact NP|exact D]|].
  destruct (o_run s V r j c kv p0 NJ) as [_ [(a & ->) | (i' & q' & NI & A' & IC)]]; [exfalso; eapply done_stays; eauto|]. subst c.
  eapply step_goes; [exact NI|]. eapply L_inside; eauto.
Qed.
Lemma drop_goes s tr i q : lexec (s :: tr) -> nth_error (l_threads s) i = Some (mkR q LHold) -> exists i s', goes_on i s s'.
Proof.
  intros E N. pose proof (k_fits s (exec_locks _ _ E) _ _ _ N) as F. destruct q as [| | | |r]; cbn in F; try contradiction.
  destruct (find_item (w_items (st_world (l_over s r))) (w_known (st_world (l_over s r)))) as [(x & kv & X) | H].
  - eapply step_goes; [exact N|eapply L_drop_one; eauto].
  - eapply step_goes; [exact N|eapply L_dropped]. intros x. destruct (w_items (st_world (l_over s r)) x) as [kv|] eqn:X; [|reflexivity]. rewrite <- X. apply H. eapply items_known; eauto.
Qed.
Lemma read_goes s tr i q p : lexec (s :: tr) -> nth_error (l_threads s) i = Some (mkR q p) -> at_read (mkR q p) = true -> exists i s', goes_on i s s'.
Proof.
  intros E N A. pose proof (exec_locks _ _ E) as K. pose proof (k_fits s K _ _ _ N) as F. destruct p as [| | | | | |r first todo seen|r ids xs todo seen| | | |]; try discriminate A; destruct q as [| | |wants sees|]; cbn in F; try contradiction; pose proof (all_fine _ _ E _ _ _ _ N) as [_ W];
    (destruct (reader s i _ _ r N eq_refl K) as [NH _]).
  - eapply step_goes; [exact N|]. eapply (L_found _ _ _ _ r first todo seen (filter (fun x => match w_items (st_world (l_over s r)) x with Some _ => true | None => false end) first)).
    + intros x I X. apply filter_In. split; [exact I|]. destruct (w_items _ x); [reflexivity|congruence].
    + intros x I. apply filter_In in I. destruct I as [I X]. rewrite Forall_forall in W. split; [|apply W, I]. destruct (w_items _ x) as [kv|] eqn:EX; [|discriminate]. eapply items_known; eauto.
  - destruct ids as [|x ids]; [eapply step_goes; [exact N|apply L_seen]|]. destruct (w_items (st_world (l_over s r)) x) as [kv|] eqn:EX.
    + eapply step_goes; [exact N|]. eapply L_see; [exact EX|]. inversion W as [|? ? (kv' & M & S) _]; subst. rewrite (items_made _ _ _ _ _ E NH EX) in M. congruence.
    + eapply step_goes; [exact N|]. apply L_cut. auto.
Qed.
Theorem rules_no_deadlock s tr : lexec (s :: tr) -> ordinary s -> (exists i, waits i s) -> exists i s', goes_on i s s'.
Proof.
  intros E O (i & (q & p & N) & NW). pose proof (exec_locks _ _ E) as K.
  destruct (find_thread at_inside (l_threads s)) as [(j & [q0 p0] & NJ & A) | NI]; [destruct p0; try discriminate A; eapply tree_goes; eauto|].
  destruct (find_thread at_hold (l_threads s)) as [(j & [q0 p0] & NJ & A) | NH]; [destruct p0; try discriminate A; eapply drop_goes; eauto|].
  destruct (find_thread at_read (l_threads s)) as [(j & [q0 p0] & NJ & A) | NR]; [eapply read_goes; eauto|].
  assert (FH : forall r, ~ locked_by holds (l_threads s) r). { intros r (j & [q0 p0] & NJ & A). specialize (NH _ _ NJ). destruct p0; discriminate. }
  assert (FR : forall r, ~ locked_by reads (l_threads s) r). { intros r (j & [q0 p0] & NJ & A). specialize (NI _ _ NJ). specialize (NR _ _ NJ). destruct p0; discriminate. }
  pose proof (k_fits s K _ _ _ N) as F. destruct (O q) as [P ND]; [exists i, p; exact N|].
  assert (BD : forall r g, l_rules s r = Some g -> r < l_made s). { intros r g R. destruct (Nat.lt_ge_cases r (l_made s)) as [L | L]; [exact L|]. destruct (k_new s K r L) as [H _]. congruence. }
  destruct p as [| |n|first|todo seen|r todo seen|r first todo seen|r ids xs todo seen| | |a|a].
  - (* at the check *) destruct q as [g|r kv|r x|wants sees|r].
    + destruct (find_rule (l_rules s) (l_made s) g) as [(r & R) | NG]; [eapply step_goes; [exact N|eapply L_taken; eauto]|]. eapply step_goes; [exact N|eapply L_new; [exact P|]]. intros r R. eapply NG; eauto.
    + destruct (l_dying s r) eqn:D; (eapply step_goes; [exact N|]); [eapply L_marked|eapply L_check]; eauto; first [reflexivity|discriminate].
    + exfalso. eapply ND. reflexivity.
    + eapply step_goes; [exact N|]. eapply (L_start _ _ _ _ (filter (fun r => match l_rules s r with Some g => wants g | None => false end) (seq 0 (l_made s)))). intros r. rewrite filter_In, in_seq. split.
      * intros [_ W]. destruct (l_rules s r) as [g|]; [eauto|discriminate].
      * intros (g & R & W). rewrite R. split; [|exact W]. pose proof (BD _ _ R). lia.
    + destruct (l_dying s r) eqn:D; (eapply step_goes; [exact N|]); [eapply L_deleting|eapply L_mark]; eauto.
  - (* at the lookup *) destruct F as [FA FD]. destruct q as [g|r kv|r x|wants sees|r]; try (exfalso; apply FA; reflexivity); [|exfalso; eapply ND; reflexivity|exfalso; eapply FD; reflexivity].
    destruct (l_rules s r) as [g|] eqn:R; [|eapply step_goes; [exact N|eapply L_missing; [reflexivity|exact R]]].
    destruct (covers_dec g kv) as [C | C]; (eapply step_goes; [exact N|]); [eapply L_override; eauto|eapply L_short; eauto].
  - specialize (NI _ _ N). discriminate.
  - destruct q as [| | |wants sees|]; cbn in F; try contradiction. pose proof (all_fine _ _ E _ _ _ _ N) as W. cbn in W. rewrite Forall_forall in W. eapply step_goes; [exact N|]. apply (L_rules _ _ _ _ first first); [auto|]. intros r I. apply W, I.
  - destruct q as [| | |wants sees|]; cbn in F; try contradiction. destruct todo as [|r todo]; [eapply step_goes; [exact N|apply L_saw]|]. destruct (l_dying s r) eqn:D; (eapply step_goes; [exact N|]); [apply L_stop_marked, D|apply L_next, D].
  - destruct q as [| | |wants sees|]; cbn in F; try contradiction. pose proof (all_fine _ _ E _ _ _ _ N) as W. cbn in W. inversion W as [|? ? [_ W1] _]; subst. destruct (l_rules s r) as [g|] eqn:R; [|eapply step_goes; [exact N|apply L_stop_gone, R]].
    eapply step_goes; [exact N|]. apply (L_read _ _ _ _ r todo seen g (filter (fun x => match w_items (st_world (l_over s r)) x with Some kv => sees kv | None => false end) (w_known (st_world (l_over s r))))); auto.
    intros x. rewrite filter_In. split.
    + intros [_ X]. destruct (w_items _ x) as [kv|]; [eauto|discriminate].
    + intros (kv & X & S). rewrite X. split; [eapply items_known; eauto|exact S].
  - specialize (NR _ _ N). discriminate.
  - specialize (NR _ _ N). discriminate.
  - destruct q as [| | | |r]; cbn in F; try contradiction. destruct (l_rules s r) as [g|] eqn:R; (eapply step_goes; [exact N|]); [eapply L_hold; eauto|apply L_nothing, R].
  - specialize (NH _ _ N). discriminate.
  - destruct q as [| | | |r]; cbn in F; try contradiction. eapply step_goes; [exact N|apply L_unmark].
  - exfalso. apply NW. exists q, a. exact N.
Qed.

(** *** Every step brings the requests closer to their end *)
Definition lex {A B} (RA : A -> A -> Prop) (RB : B -> B -> Prop) (a b : A * B) : Prop := RA (fst a) (fst b) \/ fst a = fst b /\ RB (snd a) (snd b).
Lemma lex_wf {A B} (RA : A -> A -> Prop) (RB : B -> B -> Prop) : (forall a, Acc RA a) -> (forall b, Acc RB b) -> forall p, Acc (lex RA RB) p.
Proof.
  intros WA WB [a b]. revert b. induction (WA a) as [a _ IH]. intros b. induction (WB b) as [b _ IHb]. constructor. intros [a' b'] [L | [E L]]; cbn in *; [apply IH, L|subst a'; apply IHb, L].
Qed.
Definition lowers {A} (R : A -> A -> Prop) (l' l : list A) : Prop := exists i x x', nth_error l i = Some x /\ l' = set_nth l i x' /\ R x' x.
Lemma lowers_wf {A} (R : A -> A -> Prop) : (forall x, Acc R x) -> forall l, Acc (lowers R) l.
Proof.
  intros W. induction l as [|x l IH].
  - constructor. intros l' (i & x & x' & E & _). destruct i; discriminate.
  - revert l IH. induction (W x) as [x _ IHx]. intros l IH. induction IH as [l IH' IHl]. constructor. intros l' (i & y & y' & E & -> & L). destruct i as [|i]; cbn in E |- *.
    + injection E as <-. apply IHx; [exact L|]. constructor. exact IH'.
    + apply IHl. exists i, y, y'. auto.
Qed.
Definition prank (p : lpc) : nat * (nat * nat) :=
  match p with
  | LEnd _ => (0, (0, 0)) | LUnmark _ => (2, (0, 0)) | LInside _ => (3, (0, 0)) | LHold => (3, (0, 0)) | LFind | LRules _ | LMarked => (4, (0, 0)) | LCheck => (5, (0, 0))
  | LNext todo _ => (3, (4 * length todo, 0)) | LVisit _ todo _ => (3, (4 * length todo + 3, 0)) | LRead _ _ todo _ => (3, (4 * length todo + 2, 0)) | LSee _ ids _ todo _ => (3, (4 * length todo + 1, length ids))
  end.
Definition less3 := lex lt (lex lt lt).
Definition stored_at (s : lim) (r : nat) : nat := length (filter (fun x => match w_items (st_world (l_over s r)) x with Some _ => true | None => false end) (w_known (st_world (l_over s r)))).
Definition measure (s : lim) : list (nat * (nat * nat)) * (list (nat * nat) * nat) :=
  (map (fun th => prank (r_pc th)) (l_threads s), (flat_map (fun r => ranks (l_over s r)) (seq 0 (l_made s)), list_sum (map (stored_at s) (seq 0 (l_made s))))).
Definition nearer := lex (lowers less3) (lex lower lt).
Lemma nearer_wf m : Acc nearer m.
Proof. apply lex_wf; [apply lowers_wf; apply lex_wf; [apply lt_wf|apply lex_wf; apply lt_wf]|apply lex_wf; [apply lower_wf|apply lt_wf]]. Qed.
Lemma lower_mid a l l' b : lower l' l -> lower (a ++ l' ++ b) (a ++ l ++ b).
Proof.
  intros (i & x & x' & N & -> & L). exists (length a + i), x, x'. split; [|split; [|exact L]].
  - rewrite nth_error_app2 by lia. replace (length a + i - length a) with i by lia. rewrite nth_error_app1 by (eapply nth_lt; eauto). exact N.
  - assert (SA : forall (l1 l2 : list (nat * nat)) j v, set_nth (l1 ++ l2) (length l1 + j) v = l1 ++ set_nth l2 j v). { induction l1 as [|y l1 IH]; intros l2 j v; cbn; [reflexivity|]. f_equal. apply IH. }
    assert (SB : forall (l1 l2 : list (nat * nat)) j v, j < length l1 -> set_nth (l1 ++ l2) j v = set_nth l1 j v ++ l2). { induction l1 as [|y l1 IH]; intros l2 [|j] v LT; cbn in *; try lia; [reflexivity|]. f_equal. apply IH. lia. }
    rewrite SA, SB by (eapply nth_lt; eauto). reflexivity.
Qed.
Lemma lower_flat (f f' : nat -> list (nat * nat)) l r : NoDup l -> In r l -> (forall r', r' <> r -> f' r' = f r') -> lower (f' r) (f r) -> lower (flat_map f' l) (flat_map f l).
Proof.
  intros ND IR S L. apply in_split in IR. destruct IR as (l1 & l2 & ->). apply NoDup_remove_2 in ND. rewrite !flat_map_app. cbn [flat_map].
  assert (SM : forall l0, (forall x, In x l0 -> x <> r) -> flat_map f' l0 = flat_map f l0). { induction l0 as [|x l0 IH]; intros H; cbn; [reflexivity|]. rewrite (S x) by (apply H; left; reflexivity). rewrite IH by (intros; apply H; right; assumption). reflexivity. }
  rewrite (SM l1), (SM l2) by (intros x I ->; apply ND, in_or_app; auto). apply lower_mid, L.
Qed.
Lemma sum_less (f f' : nat -> nat) l r : In r l -> (forall r', f' r' <= f r') -> f' r < f r -> list_sum (map f' l) < list_sum (map f l).
Proof.
  intros I LE LT. assert (ALL : forall l0, list_sum (map f' l0) <= list_sum (map f l0)). { induction l0 as [|x l0 IH]; cbn; [lia|]. specialize (LE x). unfold list_sum in *. lia. }
  induction l as [|x l IH]; [destruct I|]. cbn. destruct I as [-> | I]; [specialize (ALL l); unfold list_sum in *; lia|]. specialize (IH I). specialize (LE x). unfold list_sum in *. lia.
Qed.
Lemma filter_less (f f' : nat -> bool) l x : In x l -> f x = true -> f' x = false -> (forall y, f' y = true -> f y = true) -> length (filter f' l) < length (filter f l).
Proof.
  intros I T F S. assert (ALL : forall l0, length (filter f' l0) <= length (filter f l0)). { induction l0 as [|y l0 IH]; cbn; [lia|]. destruct (f' y) eqn:Y; [rewrite (S _ Y); cbn; lia|]. destruct (f y); cbn; lia. }
  induction l as [|y l IH]; [destruct I|]. cbn. destruct I as [-> | I]; [rewrite T, F; cbn; specialize (ALL l); lia|]. specialize (IH I). destruct (f' y) eqn:Y; [rewrite (S _ Y); cbn; lia|]. destruct (f y); cbn; lia.
Qed.
Lemma not_marked s tr j q p r x : lexec (s :: tr) -> ordinary s -> nth_error (l_threads s) j = Some (mkR q p) -> reads (mkR q p) = Some r -> w_dying (st_world (l_over s r)) x = false.
Proof.
  intros E O N R. destruct (reader s j q p r N R (exec_locks _ _ E)) as [NH _]. pose proof (exec_overs _ _ E) as V. destruct (o_exec s V r) as (s1 & t1 & E1 & _ & EQ). specialize (EQ NH). subst s1.
  eapply none_dying. eapply none_destroyed; [exact E1|]. intros i y kv p0 NJ. destruct (o_run s V r i _ kv p0 NJ) as [[C | (z & _ & B)] _]; [discriminate|]. eapply O; eauto.
Qed.
Theorem goes_nearer s tr i s' : lexec (s :: tr) -> ordinary s -> goes_on i s s' -> nearer (measure s') (measure s).
Proof.
  intros E O (q & p & s1 & p' & N & ST & ->). pose proof (exec_locks _ _ E) as K.
  assert (HEAD : less3 (prank p') (prank p) -> nearer (measure (at_pc s1 i q p')) (measure s)).
  { intros L. left. cbn [measure fst at_pc with_threads l_threads]. rewrite (lstep_threads _ _ _ _ _ _ ST), map_set. exists i, (prank p), (prank p'). split; [rewrite nth_error_map, N; reflexivity|auto]. }
  assert (SAME : prank p' = prank p -> fst (measure (at_pc s1 i q p')) = fst (measure s)).
  { intros EQ. cbn [measure fst at_pc with_threads l_threads]. rewrite (lstep_threads _ _ _ _ _ _ ST), map_set. cbn [r_pc]. rewrite EQ. clear - N. revert i N. induction (l_threads s) as [|th ts IH]; intros [|i] N; cbn in *; try discriminate; [injection N as ->; reflexivity|]. f_equal. apply IH, N. }
  destruct ST; try (apply HEAD; cbn [prank length]; first [left; cbn; lia | right; cbn [fst snd]; split; [reflexivity|]; first [left; cbn; lia | right; cbn; split; [reflexivity|lia]]]; fail).
  - right. split; [apply SAME; reflexivity|]. left. cbn [measure fst snd at_pc with_threads with_over l_over l_made]. apply lower_flat with (r := r).
    + apply seq_NoDup.
    + apply in_seq. pose proof (k_made s K _ _ _ _ N H). lia.
    + intros r' NE. rewrite set_item_other by exact NE. reflexivity.
    + rewrite set_item_same. eapply moves_lower. eexists _, _, _, _, _. split; [exact H0|]. split; [exact H1|reflexivity].
  - exfalso. rewrite (not_marked _ _ _ _ _ r x E O N eq_refl) in H. discriminate.
  - right. split; [apply SAME; reflexivity|]. right. cbn [measure fst snd at_pc with_threads with_over l_over l_made]. split.
    + rewrite !flat_map_concat_map. f_equal. apply map_ext. intros r'. destruct (Nat.eq_dec r' r) as [->|NE]; [rewrite set_item_same; reflexivity|rewrite set_item_other by exact NE; reflexivity].
    + assert (AT : stored_at (at_pc (with_over s r (mkState (with_item (st_world (l_over s r)) x None) (st_threads (l_over s r)))) i (DropRule r) LHold) r < stored_at s r).
      { unfold stored_at. cbn [at_pc with_threads with_over l_over]. rewrite set_item_same. cbn [st_world with_item w_items w_known]. apply filter_less with (x := x).
        - eapply items_known; eauto.
        - rewrite H. reflexivity.
        - rewrite set_item_same. reflexivity.
        - intros y. unfold set_item. destruct (Nat.eqb y x); [discriminate|auto]. }
      apply sum_less with (r := r); [apply in_seq; pose proof (k_made s K _ _ _ r N eq_refl); lia| |exact AT].
      intros r'. destruct (Nat.eq_dec r' r) as [->|NE]; [apply Nat.lt_le_incl, AT|]. unfold stored_at. cbn [at_pc with_threads with_over l_over]. rewrite set_item_other by exact NE. apply le_n.
Qed.
Lemma ordinary_goes s i s' : ordinary s -> goes_on i s s' -> ordinary s'.
Proof.
  intros O (q & p & s1 & p' & N & ST & ->) q0 (j & p0 & NJ). cbn [at_pc with_threads l_threads] in NJ. rewrite (lstep_threads _ _ _ _ _ _ ST) in NJ.
  destruct (nth_set_cases _ _ _ _ _ _ N NJ) as [[-> EQ] | [_ N']]; apply O; [injection EQ as -> ->; exists i, p; exact N|exists j, p0; exact N'].
Qed.
Lemma waits_dec s : (exists i, waits i s) \/ all_have_answers s.
Proof.
  destruct (find_thread (fun th => match r_pc th with LEnd _ => false | _ => true end) (l_threads s)) as [(i & [q p] & N & A) | H].
  - left. exists i. split; [exists q, p; exact N|]. intros (q' & a & G). unfold got in G. rewrite N in G. injection G as -> ->. discriminate.
  - right. intros i q (p & N). specialize (H _ _ N). cbn in H. destruct p; try discriminate. exists q, a. exact N.
Qed.
Theorem rules_all_end s tr : lexec (s :: tr) -> ordinary s -> in_the_end all_have_answers s.
Proof.
  remember (measure s) as m eqn:EM. revert s tr EM. induction (nearer_wf m) as [m _ IH]. intros s tr -> E O. destruct (waits_dec s) as [W | A]; [|apply end_now, A].
  apply end_later; [eapply rules_no_deadlock; eauto|]. intros i s' G. pose proof (goes_nearer _ _ _ _ E O G) as L. pose proof (ordinary_goes _ _ _ O G) as O'.
  destruct G as (q & p & s1 & p' & N & ST & ->). eapply (IH _ L); [reflexivity| |exact O']. eapply LX_step; [exact E|]. eapply N_step; eauto.
Qed.
