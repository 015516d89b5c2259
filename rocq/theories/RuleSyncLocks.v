(** C89: which requests have a rule locked, and when a rule is there. *)
From Coq Require Import List Bool Arith Lia.
Import ListNotations.
From Verif Require Import AssocSync SpecAssocSync AssocSyncBase AssocSyncGlobal RuleSync SpecRuleSync.

Lemma lstep_threads s i q p s' p' : lstep s i q p s' p' -> l_threads s' = l_threads s.
Proof. intros []; reflexivity. Qed.

(** The state's tables: what is said of them goes by these *)
Definition fits (q : req) (p : lpc) : Prop :=
  match p with
  | LCheck | LEnd _ => True
  | LFind => about q <> None /\ forall r, q <> DropRule r
  | LInside _ => match q with Override _ _ | DropOver _ _ => True | _ => False end
  | LRules _ | LNext _ _ | LVisit _ _ _ | LRead _ _ _ _ | LSee _ _ _ _ _ => match q with Limits _ _ => True | _ => False end
  | LMarked | LHold | LUnmark _ => match q with DropRule _ => True | _ => False end
  end.
Lemma fits_step s i q p s' p' : lstep s i q p s' p' -> fits q p -> fits q p'.
Proof. intros []; cbn; auto; try (intros; exact Logic.I). intros _. split; [congruence|]. intros r0 ->. cbn in *. congruence. Qed.

Record locks (s : lim) : Prop := {
  k_fits : forall i q p, nth_error (l_threads s) i = Some (mkR q p) -> fits q p;
  k_made : forall i q p r, nth_error (l_threads s) i = Some (mkR q p) -> about q = Some r -> r < l_made s;
  k_new : forall r, l_made s <= r -> l_rules s r = None /\ l_over s r = no_overrides /\ l_dying s r = false;
  k_apart : forall r, locked_by holds (l_threads s) r -> ~ locked_by reads (l_threads s) r;
  k_there : forall r, locked_by reads (l_threads s) r \/ locked_by holds (l_threads s) r -> l_rules s r <> None;
  k_one : forall i j r, nth_error (l_threads s) i = Some (mkR (DropRule r) LHold) -> nth_error (l_threads s) j = Some (mkR (DropRule r) LHold) -> i = j }.

Lemma locked_set f ts i q p p' r : nth_error ts i = Some (mkR q p) -> locked_by f (set_nth ts i (mkR q p')) r -> f (mkR q p') = Some r \/ locked_by f ts r.
Proof.
  intros N (j & th & NJ & F). destruct (nth_set_cases _ _ _ _ _ _ N NJ) as [[-> ->] | [NE NJ']]; [left; auto|]. right. exists j, th. auto.
Qed.
Lemma locked_snoc f ts q r : (forall q', f (mkR q' LCheck) = None) -> locked_by f (ts ++ [mkR q LCheck]) r -> locked_by f ts r.
Proof. intros F (j & th & NJ & FT). apply nth_snoc in NJ. destruct NJ as [NJ | [-> ->]]; [exists j, th; auto|]. rewrite F in FT. discriminate. Qed.

Lemma locks_new : locks lim0.
Proof. split; cbn; intros; try (destruct i; discriminate); auto; try (destruct H as (j & th & N & _); destruct j; discriminate). destruct H as [(j & th & N & _) | (j & th & N & _)]; destruct j; discriminate. Qed.

(** The rule of a request that moves on and holds it, or reads, stays; a rule goes only with the end of its callback *)
Lemma step_rules s i q p s' p' r : lstep s i q p s' p' -> l_rules s r <> None -> l_rules s' r <> None \/ q = DropRule r /\ p = LHold /\ p' = LUnmark Dropped.
Proof.
  intros ST N. destruct ST; auto.
  - left. cbn [l_rules]. destruct (Nat.eq_dec r (l_made s)) as [->|NE]; [rewrite set_item_same; discriminate|rewrite set_item_other by exact NE; exact N].
  - destruct (Nat.eq_dec r r0) as [->|NE]; [auto|]. left. cbn [with_rule with_over l_rules]. rewrite set_item_other by exact NE. exact N.
Qed.

Lemma over_change s i q p s' p' r : lstep s i q p s' p' -> l_over s' r <> l_over s r -> about q = Some r.
Proof.
  intros ST N. destruct ST; try (cbn in N; congruence); cbn [with_over with_rule with_mark l_over] in N; (destruct (Nat.eq_dec r r0) as [->|NE]; [cbn; assumption || reflexivity|rewrite set_item_other in N by exact NE; congruence]).
Qed.
Lemma rules_change s i q p s' p' r : lstep s i q p s' p' -> l_rules s' r <> l_rules s r -> about q = Some r \/ r = l_made s /\ l_made s' = S r.
Proof.
  intros ST N. destruct ST; try (cbn in N; congruence).
  - right. cbn [l_rules] in N. destruct (Nat.eq_dec r (l_made s)) as [->|NE]; [auto|]. rewrite set_item_other in N by exact NE. congruence.
  - left. cbn [with_rule with_over l_rules] in N. destruct (Nat.eq_dec r r0) as [->|NE]; [reflexivity|]. rewrite set_item_other in N by exact NE. congruence.
Qed.
Lemma dying_change s i q p s' p' r : lstep s i q p s' p' -> l_dying s' r <> l_dying s r -> about q = Some r /\ q = DropRule r.
Proof. intros ST N. destruct ST; try (cbn in N; congruence); cbn [with_mark l_dying] in N; (destruct (Nat.eq_dec r r0) as [->|NE]; [auto|rewrite set_item_other in N by exact NE; congruence]). Qed.
Lemma made_change s i q p s' p' : lstep s i q p s' p' -> l_made s' = l_made s \/ l_made s' = S (l_made s).
Proof. intros []; auto. Qed.

Lemma locks_step s i q p s' p' : locks s -> nth_error (l_threads s) i = Some (mkR q p) -> lstep s i q p s' p' -> locks (at_pc s' i q p').
Proof.
  intros K N ST. pose proof (lstep_threads _ _ _ _ _ _ ST) as TE.
  assert (M : l_made s <= l_made s') by (destruct (made_change _ _ _ _ _ _ ST); lia).
  assert (LS : forall f r, locked_by f (l_threads (at_pc s' i q p')) r -> f (mkR q p') = Some r \/ locked_by f (l_threads s) r).
  { intros f r L. cbn [at_pc with_threads l_threads] in L. rewrite TE in L. eapply locked_set; eauto. }
  assert (HOLD : p' = LHold -> p = LHold \/ exists r, q = DropRule r /\ ~ locked_by reads (l_threads s) r /\ ~ locked_by holds (l_threads s) r /\ l_rules s r <> None).
  { intros E. destruct ST; try discriminate; auto. right. exists r. repeat split; auto. congruence. }
  assert (READ : forall r, reads (mkR q p') = Some r -> reads (mkR q p) = Some r \/ ~ locked_by holds (l_threads s) r /\ l_rules s r <> None).
  { intros r' E. destruct ST; cbn in E |- *; try discriminate; auto; try (right; injection E as <-; split; [assumption|congruence]). }
  assert (RM : forall r, reads (mkR q p) = Some r -> locked_by reads (l_threads s) r) by (intros r E; exists i, (mkR q p); auto).
  assert (HM : forall r, holds (mkR q p) = Some r -> locked_by holds (l_threads s) r) by (intros r E; exists i, (mkR q p); auto).
  assert (HH : forall r, holds (mkR q p') = Some r -> p' = LHold /\ q = DropRule r).
  { intros r E. destruct p'; try discriminate E. split; [reflexivity|]. cbn in E. pose proof (fits_step _ _ _ _ _ _ ST (k_fits s K _ _ _ N)) as F. destruct q; cbn in F; try contradiction. cbn in E. congruence. }
  assert (TH : forall r, reads (mkR q p') = Some r \/ holds (mkR q p') = Some r -> l_rules s r <> None).
  { intros r [E | E].
    - destruct (READ r E) as [E' | (_ & R)]; [apply (k_there s K); left; apply RM; assumption|exact R].
    - destruct (HH r E) as [-> ->]. destruct (HOLD eq_refl) as [-> | (r' & E' & _ & _ & R)]; [apply (k_there s K); right; apply HM; auto|congruence]. }
  split.
  - intros j q0 p0 NJ. cbn [at_pc with_threads l_threads] in NJ. rewrite TE in NJ. destruct (nth_set_cases _ _ _ _ _ _ N NJ) as [[-> E] | [NE NJ']]; [|eapply (k_fits s K); eauto].
    injection E as -> ->. eapply fits_step; eauto. eapply (k_fits s K); eauto.
  - intros j q0 p0 r NJ A. cbn [at_pc with_threads l_threads l_made] in *. rewrite TE in NJ. destruct (nth_set_cases _ _ _ _ _ _ N NJ) as [[-> E] | [NE NJ']].
    + injection E as -> ->. pose proof (k_made s K _ _ _ _ N A). lia.
    + pose proof (k_made s K _ _ _ _ NJ' A). lia.
  - intros r L. cbn [at_pc with_threads l_made l_rules l_over l_dying] in *. destruct (k_new s K r) as (R & O & D); [lia|].
    assert (NA : about q <> Some r) by (intros A; pose proof (k_made s K _ _ _ _ N A); lia).
    split; [|split].
    + destruct (l_rules s' r) as [g|] eqn:X; [|reflexivity]. exfalso. destruct (rules_change _ _ _ _ _ _ r ST) as [A | [-> B]]; [congruence|contradiction|lia].
    + rewrite <- O. destruct ST; try reflexivity; cbn [with_over with_rule with_mark l_over]; apply set_item_other; intros ->; apply NA; cbn; assumption || reflexivity.
    + rewrite <- D. destruct (bool_dec (l_dying s' r) (l_dying s r)) as [X | X]; [exact X|]. destruct (dying_change _ _ _ _ _ _ _ ST X) as [A _]. contradiction.
  - intros r H R. apply LS in H, R. destruct H as [H | H], R as [R | R].
    + destruct (HH r H) as [-> ->]. discriminate.
    + destruct (HH r H) as [-> ->]. destruct (HOLD eq_refl) as [-> | (r' & E & NR & _)]; [apply (k_apart s K r); auto|]. injection E as <-. contradiction.
    + destruct (READ r R) as [E | (NH & _)]; [apply (k_apart s K r); auto|contradiction].
    + apply (k_apart s K r); auto.
  - intros r L. cbn [at_pc with_threads l_rules]. assert (R : l_rules s r <> None).
    { destruct L as [L | L]; apply LS in L; destruct L as [L | L]; [apply TH; auto|apply (k_there s K); auto|apply TH; auto|apply (k_there s K); auto]. }
    destruct (step_rules _ _ _ _ _ _ _ ST R) as [H | (-> & -> & ->)]; [exact H|]. exfalso.
    destruct L as [L | L].
    + apply LS in L. destruct L as [L | L]; [discriminate|]. apply (k_apart s K r); [|exact L]. apply HM; reflexivity.
    + destruct L as (j & th & NJ & H). cbn [at_pc with_threads l_threads] in NJ. rewrite TE in NJ. destruct (nth_set_cases _ _ _ _ _ _ N NJ) as [[-> ->] | [NE NJ']]; [discriminate|].
      destruct th as [q0 p0]. destruct p0; try discriminate H. cbn in H. pose proof (k_fits s K _ _ _ NJ') as F. destruct q0; cbn in F; try contradiction. cbn in H. injection H as ->. apply NE. eapply (k_one s K); eauto.
  - intros j k r NJ NK. cbn [at_pc with_threads l_threads] in NJ, NK. rewrite TE in NJ, NK. destruct (nth_set_cases _ _ _ _ _ _ N NJ) as [[-> EJ] | [NEJ NJ']], (nth_set_cases _ _ _ _ _ _ N NK) as [[-> EK] | [NEK NK']]; auto.
    + exfalso. injection EJ as <- <-. destruct (HOLD eq_refl) as [-> | (r' & E & _ & NH & _)]; [apply NEK; eapply (k_one s K); eauto|]. injection E as <-. apply NH. exists k, (mkR (DropRule r) LHold). auto.
    + exfalso. injection EK as <- <-. destruct (HOLD eq_refl) as [-> | (r' & E & _ & NH & _)]; [apply NEJ; eapply (k_one s K); eauto|]. injection E as <-. apply NH. exists j, (mkR (DropRule r) LHold). auto.
    + eapply (k_one s K); eauto.
Qed.
Lemma locks_call s q : locks s -> (forall r, about q = Some r -> r < l_made s) -> locks (with_threads s (l_threads s ++ [mkR q LCheck])).
Proof.
  intros K M. split; cbn [with_threads l_threads l_made l_rules l_over l_dying].
  - intros i q0 p NI. apply nth_snoc in NI. destruct NI as [NI | [-> E]]; [eapply (k_fits s K); eauto|]. injection E as -> ->. exact Logic.I.
  - intros i q0 p r NI A. apply nth_snoc in NI. destruct NI as [NI | [-> E]]; [eapply (k_made s K); eauto|]. injection E as -> ->. auto.
  - apply (k_new s K).
  - intros r H R. apply locked_snoc in H, R; try reflexivity. apply (k_apart s K r); auto.
  - intros r [L | L]; apply locked_snoc in L; try reflexivity; apply (k_there s K); auto.
  - intros i j r NI NJ. apply nth_snoc in NI, NJ. destruct NI as [NI | [-> E]]; [|discriminate E]. destruct NJ as [NJ | [-> E]]; [|discriminate E]. eapply (k_one s K); eauto.
Qed.
Theorem exec_locks s tr : lexec (s :: tr) -> locks s.
Proof.
  intros E. remember (s :: tr) as l eqn:EL. revert s tr EL. induction E as [|s s' tr E IH ST]; intros s0 tr0 EL; injection EL as <- <-; [apply locks_new|].
  specialize (IH s tr eq_refl). destruct ST; [apply locks_call; auto|eapply locks_step; eauto].
Qed.
