(** Executions of [RuleSync.v]. *)
From Coq Require Import List Bool Arith Lia.
Import ListNotations.
From Verif Require Import AssocSync SpecAssocSync AssocSyncBase RuleSync SpecRuleSync.

Inductive run (i : nat) (c : call) (kv : kvs) : world -> pc -> world -> pc -> Prop :=
| run_end w p : run i c kv w p w p
| run_step w p w1 p1 w2 p2 : tstep false i c kv w p w1 p1 -> run i c kv w1 p1 w2 p2 -> run i c kv w p w2 p2.
Lemma set_nth_id {A} (l : list A) i x : nth_error l i = Some x -> set_nth l i x = l.
Proof. revert i. induction l as [|y l IH]; intros [|i] E; cbn in *; try discriminate; [injection E as ->; reflexivity|]. f_equal. auto. Qed.
(** A call of the tree of the overrides, from where it is to where it comes *)
Lemma inside i n r q c kv w p w' p' : run n c kv w p w' p' -> forall s tr, lexec (s :: tr) -> nth_error (l_threads s) i = Some (mkR q (LInside n)) -> about q = Some r -> inner q = c ->
  st_world (l_over s r) = w -> nth_error (st_threads (l_over s r)) n = Some (mkThread c kv p) ->
  exists s' tr', lexec (s' :: tr') /\ (exists t, s' :: tr' = t ++ s :: tr) /\ l_rules s' = l_rules s /\ l_made s' = l_made s /\ l_dying s' = l_dying s /\ l_threads s' = l_threads s /\
    st_world (l_over s' r) = w' /\ nth_error (st_threads (l_over s' r)) n = Some (mkThread c kv p').
Proof.
  intros R. induction R as [w p | w p w1 p1 w2 p2 ST R IH]; intros s tr E N A IC EW EP.
  - exists s, tr. repeat split; auto. exists []. reflexivity.
  - subst c. assert (ST' : lstep s i q (LInside n) (with_over s r (mkState w1 (set_thread (st_threads (l_over s r)) n (mkThread (inner q) kv p1)))) (LInside n)).
    { eapply L_inside; eauto. rewrite EW. exact ST. }
    set (s1 := at_pc (with_over s r (mkState w1 (set_thread (st_threads (l_over s r)) n (mkThread (inner q) kv p1)))) i q (LInside n)).
    assert (E1 : lexec (s1 :: s :: tr)) by (eapply LX_step; [exact E|eapply N_step; eauto]).
    assert (T1 : l_threads s1 = l_threads s) by (apply (set_nth_id (l_threads s)), N).
    assert (O1 : l_over s1 r = mkState w1 (set_thread (st_threads (l_over s r)) n (mkThread (inner q) kv p1))) by (unfold s1; cbn; apply set_item_same).
    destruct (IH s1 (s :: tr) E1) as (s' & tr' & E' & (t & ET) & R1 & R2 & R3 & R4 & R5 & R6).
    + rewrite T1. exact N.
    + exact A.
    + reflexivity.
    + rewrite O1. reflexivity.
    + rewrite O1. cbn [st_threads]. eapply nth_set_same; eauto.
    + exists s', tr'. split; [exact E'|]. split; [exists (t ++ [s1]); rewrite ET, <- app_assoc; reflexivity|]. rewrite R1, R2, R3, R4, T1. auto 8.
Qed.
(** The first override of a rule *)
Lemma first_override a b : exists w', run 0 CFindCreate [(a, b)] empty_world (start CFindCreate [(a, b)]) w' (PDone (RCreated 0)) /\ w_items w' 0 = Some [(a, b)] /\ (forall x, x <> 0 -> w_items w' x = None) /\ (forall x, w_dying w' x = false) /\ In 0 (w_known w') /\ nth_error (w_made w') 0 = Some [(a, b)].
Proof.
  eexists. split.
  - eapply run_step; [apply S_query_none; reflexivity|]. eapply run_step; [apply S_pin_new; reflexivity|]. eapply run_step; [apply S_pin_end|].
    eapply run_step; [eapply S_lock; split; reflexivity|]. eapply run_step; [apply S_new; discriminate|].
    eapply run_step; [apply S_created|]. { split; [intros []|left; reflexivity]. }
    eapply run_step; [eapply S_unlock; reflexivity|]. eapply run_step; [apply S_unlock_end|]. apply run_end.
  - cbn [with_node with_known with_item w_items w_dying with_heap with_id with_index]. split; [apply set_item_same|]. split; [intros x NE; rewrite set_item_other by exact NE; reflexivity|]. split; [reflexivity|]. split; [left; reflexivity|reflexivity].
Qed.

(** A request begins; request i takes the given step.  The tables of the states stay folded *)
Ltac begins E q := match type of E with lexec (?s :: ?tr) =>
  let E' := fresh "E" in assert (E' : lexec (with_threads s (l_threads s ++ [mkR q LCheck]) :: s :: tr)); [apply (LX_step _ _ _ E), N_call; intros r A; cbn in A; try discriminate; injection A as <-; cbn; lia|]; clear E; rename E' into E end.
Lemma takes s tr i q p s1 p1 : lexec (s :: tr) -> nth_error (l_threads s) i = Some (mkR q p) -> lstep s i q p s1 p1 -> lexec (at_pc s1 i q p1 :: s :: tr).
Proof. intros E N ST. apply (LX_step _ _ _ E). eapply N_step; eauto. Qed.

(** No request of the list has the rule write-locked, or read-locked *)
Ltac unlocked := intros (k & th & NK & H); repeat (destruct k as [|k]; [cbn in NK; injection NK as <-; discriminate H|]); destruct k; discriminate NK.
(** A rule is made, and an override of it is being made: nothing is known of it yet *)
Lemma made_rule : exists s tr, lexec (s :: tr) /\ l_made s = 1 /\ l_rules s 0 = Some [(1, 1)] /\ (forall r, r <> 0 -> l_rules s r = None) /\ l_dying s 0 = false /\ l_threads s = [mkR (NewRule [(1, 1)]) (LEnd (NewIs 0)); mkR (Override 0 [(1, 1)]) (LInside 0)] /\
  st_world (l_over s 0) = empty_world /\ nth_error (st_threads (l_over s 0)) 0 = Some (mkThread CFindCreate [(1, 1)] (start CFindCreate [(1, 1)])).
Proof.
  pose proof LX_new as E. begins E (NewRule [(1, 1)]). eapply takes with (i := 0) in E; [|reflexivity|apply L_new; [split; [discriminate|cbn; split; [intros y []|exact Logic.I]]|intros r; discriminate]].
  begins E (Override 0 [(1, 1)]). eapply takes with (i := 1) in E; [|reflexivity|eapply (L_check _ _ _ 0); [reflexivity|discriminate|reflexivity]].
  eapply takes with (i := 1) in E; [|reflexivity|eapply (L_override _ _ 0); [reflexivity| |intros x I; exact I|split; [discriminate|cbn; split; [intros y []|exact Logic.I]]]].
  - eexists _, _. split; [exact E|]. split; [reflexivity|]. split; [reflexivity|]. split; [intros r NE; change (set_item (fun _ : nat => @None kvs) 0 (Some [(1, 1)]) r = None); rewrite set_item_other by exact NE; reflexivity|]. repeat split.
  - unlocked.
Qed.
Lemma made_override : exists s tr, lexec (s :: tr) /\ l_made s = 1 /\ l_rules s 0 = Some [(1, 1)] /\ (forall r, r <> 0 -> l_rules s r = None) /\ l_dying s 0 = false /\ l_threads s = [mkR (NewRule [(1, 1)]) (LEnd (NewIs 0)); mkR (Override 0 [(1, 1)]) (LEnd (Told (RCreated 0)))] /\
  over_there 0 0 [(1, 1)] s /\ (forall x, w_dying (st_world (l_over s 0)) x = false) /\ (forall x, x <> 0 -> w_items (st_world (l_over s 0)) x = None) /\ In 0 (w_known (st_world (l_over s 0))) /\ nth_error (w_made (st_world (l_over s 0))) 0 = Some [(1, 1)].
Proof.
  destruct made_rule as (s & tr & E & M & R & RX & D & T & W & N). destruct (first_override 1 1) as (w' & RN & I0 & IX & DX & K0 & K1).
  destruct (inside 1 0 0 (Override 0 [(1, 1)]) _ _ _ _ _ _ RN s tr E) as (s' & tr' & E' & _ & R1 & R2 & R3 & R4 & R5 & R6); try assumption; try reflexivity; [rewrite T; reflexivity|].
  rewrite T in R4. eapply takes with (i := 1) in E'; [|rewrite R4; reflexivity|eapply (L_return _ _ _ 0); [reflexivity|exact R6]].
  eexists _, _. split; [exact E'|]. cbn [at_pc with_threads l_made l_rules l_dying l_threads l_over]. unfold over_there, stored. cbn [at_pc with_threads l_over]. rewrite R1, R2, R3, R4, R5. repeat (split; [first [assumption|reflexivity]|]). assumption.
Qed.
Lemma is_made s tr : lexec (s :: tr) -> l_made s = 1 -> forall q, about q = None \/ about q = Some 0 -> lexec (with_threads s (l_threads s ++ [mkR q LCheck]) :: s :: tr).
Proof. intros E M q A. apply (LX_step _ _ _ E), N_call. intros r B. destruct A as [A | A]; rewrite A in B; [discriminate|]. injection B as <-. lia. Qed.
Definition all : kvs -> bool := fun _ => true.
(** A check made later sees it *)
Lemma seen_later : exists s tr1 s0 tr0, lexec (s :: tr1 ++ s0 :: tr0) /\ got 0 (NewRule [(1, 1)]) (NewIs 0) s0 /\ got 1 (Override 0 [(1, 1)]) (Told (RCreated 0)) s0 /\ unmade 2 s0 /\
  got 2 (Limits all all) (Saw [(0, [0])]) s /\ ~ some_override_dropped 0 s /\ ~ some_rule_dropped s.
Proof.
  destruct made_override as (s & tr & E & M & R & RX & D & T & O & DX & IX & K0 & K1). unfold over_there, stored in O.
  pose proof (is_made _ _ E M (Limits all all) (or_introl eq_refl)) as E1. rewrite T in E1. cbn [app] in E1.
  eapply takes with (i := 2) in E1; [|reflexivity|eapply (L_start _ _ all all [0])]; cbn [at_pc with_threads l_threads l_rules l_over l_made l_dying] in *.
  2: { intros r. split; [intros [<- | []]; eauto|]. intros (g & H & _). destruct (Nat.eq_dec r 0) as [-> | NE]; [left; reflexivity|]. rewrite RX in H by exact NE. discriminate. }
  eapply takes with (i := 2) in E1; [|reflexivity|eapply (L_rules _ _ all all [0] [0])]; [|intros r I _ _; exact I|].
  2: { intros r [<- | []]. unfold at_pc. cbn [at_pc with_threads l_threads l_rules l_over l_made l_dying] in *. split; [lia|reflexivity]. }
  eapply takes with (i := 2) in E1; [|reflexivity|eapply L_next; exact D].
  eapply takes with (i := 2) in E1; [|reflexivity|eapply (L_read _ _ all all 0 [] [] [(1, 1)] [0]); [exact R|reflexivity| |]].
  2: unlocked.
  2: { intros x. unfold at_pc. cbn [at_pc with_threads l_over]. split; [intros [<- | []]; eauto|]. intros (kv & H & _). destruct (Nat.eq_dec x 0) as [-> | NE]; [left; reflexivity|]. rewrite IX in H by exact NE. discriminate. }
  eapply takes with (i := 2) in E1; [|reflexivity|eapply (L_found _ _ all all 0 [0] [] [] [0])]; [|intros x I _; exact I|].
  2: { intros x [<- | []]. unfold at_pc. cbn [at_pc with_threads l_over]. eauto. }
  eapply takes with (i := 2) in E1; [|reflexivity|eapply (L_see _ _ all all 0 0 [(1, 1)]); [exact O|reflexivity]].
  eapply takes with (i := 2) in E1; [|reflexivity|eapply L_seen]. eapply takes with (i := 2) in E1; [|reflexivity|eapply L_saw].
  match type of E1 with lexec (?a :: ?b :: ?c :: ?d :: ?e :: ?f :: ?g :: ?h :: ?k :: s :: tr) => exists a, [b; c; d; e; f; g; h; k], s, tr end.
  split; [exact E1|]. unfold got, unmade. rewrite T. split; [reflexivity|]. split; [reflexivity|]. split; [reflexivity|]. split; [reflexivity|].
  split; [intros (x & k & p & N)|intros (x & k & p & N)]; do 3 (destruct k as [|k]; [cbn in N; discriminate N|]); destruct k; discriminate N.
Qed.

Lemma set_nth_last {A} (l : list A) x y : set_nth (l ++ [x]) (length l) y = l ++ [y].
Proof. induction l as [|z l IH]; cbn; [reflexivity|]. f_equal. exact IH. Qed.
Lemma nth_last {A} (l : list A) x : nth_error (l ++ [x]) (length l) = Some x.
Proof. rewrite nth_error_app2 by lia. rewrite Nat.sub_diag. reflexivity. Qed.
(** An override more of rule 0, of which nobody is in the deletion *)
Lemma another s tr g kv w' x : lexec (s :: tr) -> l_made s > 0 -> l_rules s 0 = Some g -> l_dying s 0 = false -> ~ locked_by holds (l_threads s) 0 -> covers g kv -> kv_ok kv ->
  (forall n, run n CFindCreate kv (st_world (l_over s 0)) (start CFindCreate kv) w' (PDone (RCreated x))) ->
  exists s' tr', lexec (s' :: tr') /\ (exists t, s' :: tr' = t ++ s :: tr) /\ l_made s' = l_made s /\ l_rules s' = l_rules s /\ l_dying s' = l_dying s /\
    l_threads s' = l_threads s ++ [mkR (Override 0 kv) (LEnd (Told (RCreated x)))] /\ st_world (l_over s' 0) = w'.
Proof.
  intros E M R D NH C K RN. assert (NI : ~ locked_by holds (l_threads s ++ [mkR (Override 0 kv) LFind]) 0).
  { intros (k & th & N & H). destruct (Nat.lt_ge_cases k (length (l_threads s))) as [L | L].
    - rewrite nth_error_app1 in N by exact L. apply NH. exists k, th. auto.
    - rewrite nth_error_app2 in N by exact L. destruct (k - length (l_threads s)) as [|m]; [injection N as <-; discriminate|destruct m; discriminate]. }
  assert (E1 : lexec (with_threads s (l_threads s ++ [mkR (Override 0 kv) LCheck]) :: s :: tr)) by (apply (LX_step _ _ _ E), N_call; intros r A; injection A as <-; lia).
  eapply takes with (i := length (l_threads s)) in E1; [|cbn [with_threads l_threads]; apply nth_last|eapply (L_check _ _ _ 0); [reflexivity|discriminate|exact D]].
  eapply takes with (i := length (l_threads s)) in E1; [|cbn [at_pc with_threads l_threads]; rewrite set_nth_last; apply nth_last|eapply (L_override _ _ 0); [exact R| |exact C|exact K]].
  2: { cbn [at_pc with_threads l_threads]. rewrite set_nth_last. exact NI. }
  cbn [at_pc with_threads with_over l_threads l_made l_rules l_dying l_over] in E1. unfold at_pc in E1. cbn [at_pc with_threads with_over l_threads l_made l_rules l_dying l_over] in E1.
  match type of E1 with lexec (?a :: ?b :: ?c :: s :: tr) => destruct (inside (length (l_threads s)) (length (st_threads (l_over s 0))) 0 (Override 0 kv) CFindCreate kv _ _ _ _ (RN _) a (b :: c :: s :: tr) E1) as (s' & tr' & E' & (t & ET) & R1 & R2 & R3 & R4 & R5 & R6) end; try reflexivity.
  - cbn [with_threads with_over l_threads]. rewrite !set_nth_last. apply nth_last.
  - cbn [with_threads with_over l_over]. rewrite set_item_same. cbn [st_threads]. apply nth_last.
  - cbn [with_threads with_over l_threads l_made l_rules l_dying] in R1, R2, R3, R4. rewrite !set_nth_last in R4.
    eapply takes with (i := length (l_threads s)) in E'; [|rewrite R4; apply nth_last|eapply (L_return _ _ _ 0); [reflexivity|exact R6]].
    eexists _, _. split; [exact E'|]. split; [rewrite ET; eexists (_ :: t ++ [_; _; _]); rewrite <- app_comm_cons, <- app_assoc; reflexivity|].
    cbn [at_pc with_threads l_made l_rules l_dying l_threads l_over]. rewrite R1, R2, R3, R4, R5. rewrite set_nth_last. auto 8.
Qed.
(** Two overrides with values of their own *)
Ltac goes := eapply run_step; [solve [ apply S_query_none; reflexivity | apply S_pin_new; reflexivity | apply S_pin_end | eapply S_lock; split; reflexivity | apply S_new; discriminate
  | apply S_created; split; [intros [] | left; reflexivity] | eapply S_unlock; reflexivity | apply S_unlock_end ]|].
Lemma two_overrides : exists w1 w2, (forall n, run n CFindCreate [(1, 1)] empty_world (start CFindCreate [(1, 1)]) w1 (PDone (RCreated 0))) /\
  (forall n, run n CFindCreate [(1, 2)] w1 (start CFindCreate [(1, 2)]) w2 (PDone (RCreated 1))) /\
  w_items w2 0 = Some [(1, 1)] /\ w_items w2 1 = Some [(1, 2)] /\ (forall x, x <> 0 -> x <> 1 -> w_items w2 x = None) /\ (forall x, w_dying w2 x = false) /\ w_known w2 = [1; 0] /\ w_made w2 = [[(1, 1)]; [(1, 2)]].
Proof.
  exists (mkWorld [mkNode (1, 1) [[0]] 0 None] (set_index (fun _ => None) (1, 1) (Some 0)) (set_item (fun _ => None) 0 (Some [(1, 1)])) (fun _ => false) [[(1, 1)]] [] [0]).
  exists (mkWorld [mkNode (1, 1) [[0]] 0 None; mkNode (1, 2) [[1]] 0 None] (set_index (set_index (fun _ => None) (1, 1) (Some 0)) (1, 2) (Some 1))
    (set_item (set_item (fun _ => None) 0 (Some [(1, 1)])) 1 (Some [(1, 2)])) (fun _ => false) [[(1, 1)]; [(1, 2)]] [] [1; 0]).
  split; [intros n; do 8 goes; apply run_end|]. split; [intros n; do 8 goes; apply run_end|].
  cbn. split; [reflexivity|]. split; [reflexivity|]. split; [|repeat split]. intros x N0 N1. unfold set_item. destruct (Nat.eqb_spec x 1); [congruence|]. destruct (Nat.eqb_spec x 0); [congruence|reflexivity].
Qed.
(** A rule *)
Lemma one_rule : exists s tr, lexec (s :: tr) /\ l_made s = 1 /\ l_rules s = set_item (fun _ => None) 0 (Some [(1, 1)]) /\ l_dying s = (fun _ => false) /\ l_threads s = [mkR (NewRule [(1, 1)]) (LEnd (NewIs 0))] /\ l_over s 0 = no_overrides.
Proof.
  pose proof LX_new as E. begins E (NewRule [(1, 1)]). eapply takes with (i := 0) in E; [|reflexivity|apply L_new; [split; [discriminate|cbn; split; [intros y []|exact Logic.I]]|intros r; discriminate]].
  eexists _, _. split; [exact E|]. repeat split.
Qed.
Ltac fld := cbn [at_pc with_threads with_over with_mark l_made l_rules l_dying l_over l_threads app set_nth] in *.
(** The deletion of one override hides another from a check *)
Lemma other_override_refuted : ~ (forall s tr1 s0 tr0 i j r kv x wants sees l xs, lexec (s :: tr1 ++ s0 :: tr0) -> got i (Override r kv) (Told (RCreated x)) s0 -> unmade j s0 -> sees kv = true ->
  got j (Limits wants sees) (Saw l) s -> In (r, xs) l -> ~ asked (DropOver r x) s -> ~ asked (DropRule r) s -> In x xs).
Proof.
  intros P. destruct one_rule as (s & tr & E & M & R & D & T & O). destruct two_overrides as (w1 & w2 & RA & RB & I0 & I1 & IX & DX & K & MD).
  destruct (another s tr [(1, 1)] [(1, 1)] w1 0) as (sa & ta & Ea & _ & Ma & Ra & Da & Ta & Wa); auto.
  { lia. } { rewrite R. reflexivity. } { rewrite D. reflexivity. } { rewrite T. unlocked. } { intros y I; exact I. } { split; [discriminate|cbn; split; [intros y []|exact Logic.I]]. } { rewrite O. exact RA. }
  rewrite T in Ta. cbn [app] in Ta.
  destruct (another sa ta [(1, 1)] [(1, 2)] w2 1) as (sb & tb & Eb & _ & Mb & Rb & Db & Tb & Wb); auto.
  { lia. } { rewrite Ra, R. reflexivity. } { rewrite Da, D. reflexivity. } { rewrite Ta. unlocked. } { intros y I; exact I. } { split; [discriminate|cbn; split; [intros y []|exact Logic.I]]. } { rewrite Wa. exact RB. }
  rewrite Ta in Tb. cbn [app] in Tb. rewrite Ra, R in Rb. rewrite Da, D in Db. rewrite Ma, M in Mb. clear - P Eb Mb Rb Db Tb Wb I0 I1 IX DX K MD.
  pose proof (is_made _ _ Eb Mb (DropOver 0 0) (or_intror eq_refl)) as E. rewrite Tb in E. cbn [app] in E.
  eapply takes with (i := 3) in E; [|reflexivity|eapply (L_check _ _ _ 0); [reflexivity|discriminate|fld; rewrite Db; reflexivity]].
  eapply takes with (i := 3) in E; [|reflexivity|eapply (L_drop_over _ _ 0 0 [(1, 1)]); [fld; rewrite Rb; reflexivity|unlocked|fld; rewrite Wb, K; right; left; reflexivity]].
  unfold at_pc in E. fld.
  eapply takes with (i := 3) in E; [|reflexivity|eapply (L_inside _ _ _ 0); [reflexivity| |]].
  2: { fld. rewrite set_item_same. cbn [st_threads inner]. apply nth_last. }
  2: { fld. rewrite set_item_same. cbn [st_world inner]. rewrite Wb. apply (Y_mark _ _ _ _ _ 0); [reflexivity|apply DX]. }
  unfold at_pc in E. fld.
  match type of E with lexec (?a :: ?t) => set (sc := a) in E; set (tc := t) in E end.
  assert (Tc : l_threads sc = [mkR (NewRule [(1, 1)]) (LEnd (NewIs 0)); mkR (Override 0 [(1, 1)]) (LEnd (Told (RCreated 0))); mkR (Override 0 [(1, 2)]) (LEnd (Told (RCreated 1))); mkR (DropOver 0 0) (LInside (length (st_threads (l_over sb 0))))]) by reflexivity.
  assert (Mc : l_made sc = 1) by exact Mb. assert (Rc : l_rules sc = set_item (fun _ => None) 0 (Some [(1, 1)])) by exact Rb. assert (Dc : l_dying sc = fun _ => false) by exact Db.
  assert (Wc : st_world (l_over sc 0) = with_dying w2 0 true). { unfold sc. cbn [with_threads with_over l_over]. rewrite set_item_same. reflexivity. }
  clearbody sc tc. clear - P E Tc Mc Rc Dc Wc I0 I1 IX K MD.
  pose proof (is_made _ _ E Mc (Limits all all) (or_introl eq_refl)) as E1. rewrite Tc in E1. cbn [app] in E1.
  eapply takes with (i := 4) in E1; [|reflexivity|eapply (L_start _ _ all all [0])]; fld.
  2: { intros r. rewrite Rc. unfold set_item. split; [intros [<- | []]; cbn; eauto|]. intros (g & H & _). destruct (Nat.eqb_spec r 0) as [-> | NE]; [left; reflexivity|discriminate]. }
  eapply takes with (i := 4) in E1; [|reflexivity|eapply (L_rules _ _ all all [0] [0])]; [|intros r I _ _; exact I|].
  2: { intros r [<- | []]. unfold at_pc. fld. split; [lia|reflexivity]. }
  eapply takes with (i := 4) in E1; [|reflexivity|eapply L_next; unfold at_pc; fld; rewrite Dc; reflexivity].
  eapply takes with (i := 4) in E1; [|reflexivity|eapply (L_read _ _ all all 0 [] [] [(1, 1)] [0; 1]); [unfold at_pc; fld; rewrite Rc; reflexivity|reflexivity|unlocked|]].
  2: { intros x. unfold at_pc. fld. rewrite Wc. cbn [with_dying w_items]. split; [intros [<- | [<- | []]]; eauto|]. intros (kv & H & _). destruct (Nat.eq_dec x 0) as [-> | NE]; [left; reflexivity|]. destruct (Nat.eq_dec x 1) as [-> | NE1]; [right; left; reflexivity|]. rewrite IX in H by assumption. discriminate. }
  eapply takes with (i := 4) in E1; [|reflexivity|eapply (L_found _ _ all all 0 [0; 1] [] [] [0; 1])]; [|intros x I _; exact I|].
  2: { intros x I. unfold at_pc. fld. rewrite Wc. cbn [with_dying w_known w_made]. rewrite K, MD. destruct I as [<- | [<- | []]]; (split; [cbn; auto|]); eexists; split; reflexivity. }
  eapply takes with (i := 4) in E1; [|reflexivity|eapply (L_cut _ _ all all 0 0); left; unfold at_pc; fld; rewrite Wc; reflexivity].
  eapply takes with (i := 4) in E1; [|reflexivity|eapply L_saw].
  match type of E1 with lexec (?a :: ?t) => assert (X : exists t1, t = t1 ++ sc :: tc) by (eexists [_; _; _; _; _; _; _]; reflexivity); destruct X as (t1 & ET) end.
  rewrite ET in E1. refine (P _ _ _ _ 2 4 0 [(1, 2)] 1 all all [(0, [])] [] E1 _ _ eq_refl _ _ _ _).
  - unfold got. rewrite Tc. reflexivity.
  - unfold unmade. rewrite Tc. reflexivity.
  - reflexivity.
  - left. reflexivity.
  - intros (k & p & N). do 5 (destruct k as [|k]; [cbn in N; discriminate N|]). destruct k; discriminate N.
  - intros (k & p & N). do 5 (destruct k as [|k]; [cbn in N; discriminate N|]). destruct k; discriminate N.
Qed.
(** The deletion of one rule hides another from a check *)
Lemma other_rule_refuted : ~ (forall s tr1 s0 tr0 i j g r wants sees l, lexec (s :: tr1 ++ s0 :: tr0) -> got i (NewRule g) (NewIs r) s0 -> unmade j s0 -> wants g = true ->
  got j (Limits wants sees) (Saw l) s -> ~ asked (DropRule r) s -> exists xs, In (r, xs) l).
Proof.
  intros P. destruct one_rule as (s & tr & E & M & R & D & T & O).
  assert (E1 : lexec (with_threads s (l_threads s ++ [mkR (NewRule [(2, 2)]) LCheck]) :: s :: tr)) by (apply (LX_step _ _ _ E), N_call; discriminate).
  rewrite T in E1. cbn [app] in E1. eapply takes with (i := 1) in E1; [|reflexivity|apply L_new; [split; [discriminate|cbn; split; [intros y []|exact Logic.I]]|]].
  2: { intros r. fld. rewrite R. unfold set_item. destruct (Nat.eqb r 0); discriminate. }
  unfold at_pc in E1. fld. rewrite M in E1.
  match type of E1 with lexec (?a :: ?t) => assert (E2 : lexec (with_threads a (l_threads a ++ [mkR (DropRule 0) LCheck]) :: a :: t)) by (apply (LX_step _ _ _ E1), N_call; intros r A; injection A as <-; cbn; lia) end.
  unfold at_pc in E2. fld. eapply takes with (i := 2) in E2; [|reflexivity|eapply (L_mark _ _ 0); fld; rewrite D; reflexivity].
  unfold at_pc in E2. fld.
  match type of E2 with lexec (?a :: ?t) => set (sc := a) in E2; set (tc := t) in E2 end.
  assert (Tc : l_threads sc = [mkR (NewRule [(1, 1)]) (LEnd (NewIs 0)); mkR (NewRule [(2, 2)]) (LEnd (NewIs 1)); mkR (DropRule 0) LMarked]) by reflexivity.
  assert (Mc : l_made sc = 2) by reflexivity. assert (Rc : l_rules sc = set_item (set_item (fun _ => None) 0 (Some [(1, 1)])) 1 (Some [(2, 2)])) by (unfold sc; fld; rewrite R; reflexivity).
  assert (Dc : l_dying sc 0 = true) by (unfold sc; fld; apply set_item_same).
  clearbody sc tc. clear - P E2 Tc Mc Rc Dc. rename E2 into E.
  assert (E1 : lexec (with_threads sc (l_threads sc ++ [mkR (Limits all all) LCheck]) :: sc :: tc)) by (apply (LX_step _ _ _ E), N_call; discriminate).
  rewrite Tc in E1. cbn [app] in E1.
  eapply takes with (i := 3) in E1; [|reflexivity|eapply (L_start _ _ all all [0; 1])]; fld.
  2: { intros r. rewrite Rc. unfold set_item. split; [intros [<- | [<- | []]]; cbn; eauto|]. intros (g & H & _). destruct (Nat.eqb_spec r 1) as [-> | N1]; [right; left; reflexivity|]. destruct (Nat.eqb_spec r 0) as [-> | NE]; [left; reflexivity|discriminate]. }
  eapply takes with (i := 3) in E1; [|reflexivity|eapply (L_rules _ _ all all [0; 1] [0; 1])]; [|intros r I _ _; exact I|].
  2: { intros r I. unfold at_pc. fld. split; [destruct I as [<- | [<- | []]]; lia|reflexivity]. }
  eapply takes with (i := 3) in E1; [|reflexivity|eapply L_stop_marked; unfold at_pc; fld; exact Dc].
  match type of E1 with lexec (?a :: ?t) => assert (X : exists t1, t = t1 ++ sc :: tc) by (eexists [_; _; _]; reflexivity); destruct X as (t1 & ET) end.
  rewrite ET in E1. destruct (P _ _ _ _ 1 3 [(2, 2)] 1 all all [] E1) as (xs & []); try reflexivity.
  - unfold got. rewrite Tc. reflexivity.
  - unfold unmade. rewrite Tc. reflexivity.
  - intros (k & p & N). do 4 (destruct k as [|k]; [cbn in N; discriminate N|]). destruct k; discriminate N.
Qed.
(** A rule is deleted with its override, and is not there for a request made later *)
Lemma deleted : exists s tr1 s0 tr0, lexec (s :: tr1 ++ s0 :: tr0) /\ got 1 (Override 0 [(1, 1)]) (Told (RCreated 0)) s0 /\ got 2 (DropRule 0) Dropped s0 /\ unmade 3 s0 /\
  got 3 (Override 0 [(1, 1)]) Gone s /\ exists s', In s' tr0 /\ over_there 0 0 [(1, 1)] s' /\ is_req 2 (DropRule 0) s'.
Proof.
  destruct made_override as (s & tr & E & M & R & RX & D & T & O & DX & IX & K0 & K1). pose proof O as O'. unfold over_there, stored in O.
  pose proof (is_made _ _ E M (DropRule 0) (or_intror eq_refl)) as E1. rewrite T in E1. cbn [app] in E1.
  eapply takes with (i := 2) in E1; [|reflexivity|eapply (L_mark _ _ 0); exact D]. unfold at_pc in E1. fld.
  eapply takes with (i := 2) in E1; [|reflexivity|eapply (L_hold _ _ 0 [(1, 1)]); [exact R|unlocked|unlocked]]. unfold at_pc in E1. fld.
  match type of E1 with lexec (?a :: ?t) => set (sh := a) in E1; set (th := t) in E1 end.
  assert (OH : over_there 0 0 [(1, 1)] sh /\ is_req 2 (DropRule 0) sh) by (split; [exact O'|exists LHold; reflexivity]).
  assert (Th : l_threads sh = [mkR (NewRule [(1, 1)]) (LEnd (NewIs 0)); mkR (Override 0 [(1, 1)]) (LEnd (Told (RCreated 0))); mkR (DropRule 0) LHold]) by reflexivity.
  assert (Mh : l_made sh = 1) by exact M. assert (Rh : l_rules sh 0 = Some [(1, 1)]) by exact R.
  assert (Oh : w_items (st_world (l_over sh 0)) 0 = Some [(1, 1)]) by exact O. assert (Ih : forall x, x <> 0 -> w_items (st_world (l_over sh 0)) x = None) by exact IX.
  clearbody sh th. clear - E1 OH Th Mh Rh Oh Ih.
  eapply takes with (i := 2) in E1; [|rewrite Th; reflexivity|eapply (L_drop_one _ _ 0 0); exact Oh]. unfold at_pc in E1. fld. rewrite Th in E1. cbn [set_nth] in E1.
  eapply takes with (i := 2) in E1; [|reflexivity|eapply (L_dropped _ _ 0)].
  2: { intros x. fld. rewrite set_item_same. cbn [st_world with_item w_items]. destruct (Nat.eq_dec x 0) as [-> | NE]; [apply set_item_same|rewrite set_item_other by exact NE; apply Ih, NE]. }
  unfold at_pc in E1. cbn [with_rule] in E1. fld. eapply takes with (i := 2) in E1; [|reflexivity|eapply (L_unmark _ _ 0)]. unfold at_pc in E1. cbn [with_rule] in E1. fld.
  match type of E1 with lexec (?a :: ?t) => assert (X : exists t1, t = t1 ++ sh :: th) by (eexists [_; _]; reflexivity); destruct X as (t1 & ET); set (sd := a) in E1; set (td := t) in ET, E1 end.
  assert (Td : l_threads sd = [mkR (NewRule [(1, 1)]) (LEnd (NewIs 0)); mkR (Override 0 [(1, 1)]) (LEnd (Told (RCreated 0))); mkR (DropRule 0) (LEnd Dropped)]) by reflexivity.
  assert (Md : l_made sd = 1) by exact Mh. assert (Rd : l_rules sd 0 = None) by (unfold sd; fld; apply set_item_same). assert (Dd : l_dying sd 0 = false) by (unfold sd; fld; apply set_item_same).
  clearbody sd td. clear - E1 ET OH Td Md Rd Dd. subst td.
  pose proof (is_made _ _ E1 Md (Override 0 [(1, 1)]) (or_intror eq_refl)) as E2. rewrite Td in E2. cbn [app] in E2.
  eapply takes with (i := 3) in E2; [|reflexivity|eapply (L_check _ _ _ 0); [reflexivity|discriminate|exact Dd]]. unfold at_pc in E2. fld.
  eapply takes with (i := 3) in E2; [|reflexivity|eapply (L_missing _ _ _ 0); [reflexivity|exact Rd]]. unfold at_pc in E2. fld.
  match type of E2 with lexec (?a :: ?b :: ?c :: ?t) => exists a, [b; c], sd, (t1 ++ sh :: th) end.
  split; [exact E2|]. unfold got, unmade. rewrite Td. repeat (split; [reflexivity|]). exists sh. split; [apply in_or_app; right; left; reflexivity|exact OH].
Qed.
