(** Invariants of [AssocSync.v]: all goroutines together. *)
From Coq Require Import List Bool Arith Lia Permutation.
Import ListNotations.
From Verif Require Import AssocSync AssocSyncBase AssocSyncInv AssocSyncFrame AssocSyncStep.

Definition total (ts : list thread) (a : nat) : nat := list_sum (map (fun th => cnt (pins (th_pc th)) a) ts).
Definition calling (ts : list thread) (x : nat) : Prop := exists i th l, nth_error ts i = Some th /\ th_pc th = PCall l x.
Record inv (nils : bool) (s : state) : Prop := {
  i_g : ginv (st_world s);
  i_t : forall i c kv p, nth_error (st_threads s) i = Some (mkThread c kv p) -> kv_ok kv /\ carg (st_world s) c kv /\ tinv (st_world s) i c kv p;
  i_pins : forall a, creat (st_world s) a = total (st_threads s) a;
  i_mine : forall i j c kv p c' kv' p' x, nth_error (st_threads s) i = Some (mkThread c kv p) -> nth_error (st_threads s) j = Some (mkThread c' kv' p') ->
    mine c p x -> mine c' p' x -> i = j;
  i_ghost : forall a k x, hask (st_world s) a k x -> w_items (st_world s) x <> None \/ ~ In x (w_known (st_world s)) /\ (nils = true \/ calling (st_threads s) x) }.

Lemma total_cons t ts a : total (t :: ts) a = cnt (pins (th_pc t)) a + total ts a.
Proof. reflexivity. Qed.
Lemma total_set ts i th th' a : nth_error ts i = Some th -> total (set_nth ts i th') a + cnt (pins (th_pc th)) a = total ts a + cnt (pins (th_pc th')) a.
Proof.
  revert i. induction ts as [|t ts IH]; intros [|i] E; try discriminate; cbn [nth_error set_nth] in *; rewrite !total_cons.
  - injection E as <-. lia.
  - specialize (IH i E). lia.
Qed.
Lemma total_ge ts i th a : nth_error ts i = Some th -> cnt (pins (th_pc th)) a <= total ts a.
Proof.
  revert i. induction ts as [|t ts IH]; intros [|i] E; try discriminate; cbn [nth_error] in *; rewrite !total_cons; [injection E as <-; lia|]. specialize (IH i E). lia.
Qed.
Lemma cnt_in l a : In a l -> cnt l a <> 0.
Proof. intros I. apply (count_occ_In Nat.eq_dec) in I. unfold cnt. lia. Qed.
Lemma step_kinds nils i c kv w p w' p' : tstep nils i c kv w p w' p' -> forall x, mine c p' x ->
  mine c p x \/ (c = CDestroy x /\ w_dying w x = false) \/ x = length (w_made w).
Proof.
  intros ST x [[l E] | [E D]]; destruct ST; try discriminate E; try (destruct D; fail); try (right; left; split; congruence); try (left; right; split; [exact E|exact I]); try (unfold missed in *; destruct c; (discriminate || destruct D); fail); try (left; left; eauto; fail).
  - destruct (meet acc _); [unfold missed in E; destruct c; discriminate|discriminate].
  - injection E as _ <-. auto.
  - destruct r; discriminate.
  - destruct clean; discriminate.
  - destruct (meet acc _); [unfold missed in D; destruct c; destruct D|destruct D].
  - destruct r; destruct D.
  - destruct clean; destruct D.
Qed.

(** Ids and items after a step *)
Lemma all_nodes w kv locked x b k : ginv w -> kv_ok kv -> Forall2 (for_ w) kv locked -> (forall a, In a locked -> has w a (length kv) x) -> for_all w kv x -> hask w b k x -> In b locked /\ k = length kv - 1.
Proof.
  intros G KV F H M HB. destruct HB as (nd & N & I). destruct (g_ids w G b nd k x N I) as (kv' & M' & L & IP). unfold for_all in M. rewrite M in M'. injection M' as <-. split; [|lia].
  assert (CB : cur w (nd_pair nd) b) by (apply (has_cur w G b k x); [exists nd; auto|exists nd; auto]).
  assert (FC : Forall2 (cur w) kv locked) by (eapply for_cur; eauto). destruct (cur_find' w kv locked FC (nd_pair nd) IP) as (a & IA & CA). unfold cur in *. congruence.
Qed.
Lemma touch_back w a nd nd' b k x : node_at w a nd -> hask (with_node w a nd') b k x -> (forall k, nth k (nd_ids nd') [] = nth k (nd_ids nd) []) -> hask w b k x.
Proof. intros N H E. apply (touch_has w a nd nd' b k x N E), H. Qed.
Lemma real_step nils i c kv w p w' p' : ginv w -> kv_ok kv -> tinv w i c kv p -> carg w c kv -> tstep nils i c kv w p w' p' -> forall b k x, hask w' b k x ->
  (exists l, p' = PCall l x) /\ ~ In x (w_known w') \/
  hask w b k x /\ (w_items w x <> None -> w_items w' x <> None) /\ (w_items w' x <> None \/ ~ In x (w_known w) -> w_items w' x <> None \/ ~ In x (w_known w')) /\
    ((exists l, p = PCall l x) -> nils = true \/ w_items w' x <> None).
Proof.
  intros G KV T A ST. destruct ST; cbn [tinv] in T; intros b k x0 HB; try (right; split; [exact HB|]; split; [tauto|]; split; [tauto|]; intros [l0 E0]; discriminate).
  - destruct H0 as [N _]. right. split; [exact (touch_back _ _ _ _ _ _ _ N HB (fun _ => eq_refl))|]. split; [tauto|]. split; [tauto|]. intros [l0 E0]; discriminate.
  - right. split; [|split; [tauto|split; [tauto|intros [l0 E0]; discriminate]]]. destruct HB as (nd & N & I). apply (pin_new_at w p b nd H) in N. destruct N as [N | [-> ->]]; [exists nd; auto|]. cbn [nd_ids] in I. rewrite nth_nil in I. destruct I.
  - destruct H as [N _]. right. split; [|split; [tauto|split; [tauto|intros [l0 E0]; discriminate]]]. exact (touch_back _ _ _ _ _ _ _ N HB (fun k' => nth_grow _ _ k')).
  - destruct T as (C & O & AC & W). rewrite app_nil_r in C. change (hask (add_world w kv locked) b k x0) in HB. apply (add_has w G kv locked KV C W b k x0) in HB. destruct HB as [HB | (-> & _ & _)].
    + right. split; [exact HB|]. split; [tauto|]. split; [tauto|]. intros [l0 E0]; discriminate.
    + left. split; [eauto|]. intros K. change (In (length (w_made w)) (w_known w)) in K. apply (g_known w G) in K. lia.
  - right. split; [exact HB|]. cbn [with_known with_item w_items w_known]. split; [|split].
    + intros NI. destruct (Nat.eq_dec x0 x) as [->|NE]; [rewrite set_item_same; discriminate|rewrite set_item_other by exact NE; exact NI].
    + destruct (Nat.eq_dec x0 x) as [->|NE]; [rewrite set_item_same; left; discriminate|rewrite set_item_other by exact NE]. intros [H1 | H1]; [auto|right; intros [<- | K]; congruence].
    + intros [l0 E0]. injection E0 as <- <-. right. rewrite set_item_same. discriminate.
  - right. split; [exact HB|]. split; [tauto|]. split; [tauto|]. intros _. left. assumption.
  - right. split; [|split; [tauto|split; [tauto|intros [l0 E0]; discriminate]]]. exact (touch_back _ _ _ _ _ _ _ H HB (fun _ => eq_refl)).
  - destruct H as [N _]. right. split; [|split; [tauto|split; [tauto|intros [l0 E0]; discriminate]]]. exact (touch_back _ _ _ _ _ _ _ N HB (fun _ => eq_refl)).
  - destruct H as [N _]. right. split; [|split; [tauto|split; [tauto|intros [l0 E0]; discriminate]]]. exact (touch_back _ _ _ _ _ _ _ N HB (fun _ => eq_refl)).
  - destruct T as (C & O & M & H'). assert (ND : NoDup locked) by (eapply for_nodup; [apply kv_nodup, KV|exact C]).
    change (hask (cut_world w (length kv) x locked) b k x0) in HB. assert (HB' : hask w b k x0) by (eapply cut_has; eauto). right. split; [exact HB'|].
    assert (NE : x0 <> x). { intros ->. destruct (all_nodes w kv locked x b k G KV C H' M HB') as [IB ->]. apply (cut_gone w (length kv) x locked b ND IB HB). }
    cbn [with_item w_items]. rewrite set_item_other by exact NE. split; [tauto|]. split; [tauto|]. intros [l0 E0]; discriminate.
  - destruct T as (C & O & M & H'). assert (ND : NoDup locked) by (eapply for_nodup; [apply kv_nodup, KV|exact C]). right. split; [eapply cut_has; eauto|]. split; [tauto|]. split; [tauto|]. intros [l0 E0]; discriminate.
  - right. split; [|split; [tauto|split; [tauto|intros [l0 E0]; discriminate]]]. exact (touch_back _ _ _ _ _ _ _ H HB (fun _ => eq_refl)).
  - destruct T as (x' & don & E & _). destruct H1 as [N L]. right. set (w1 := with_node w a (mkNode (nd_pair nd) (truncate (del_id (length kv') x (nd_ids nd))) (nd_creating nd) None)) in *.
    assert (E1 : w1 = cut_world w (length kv') x [a]) by (apply cut_del; assumption). assert (ND1 : NoDup [a]) by (repeat constructor; intros []).
    assert (HX : forall w2, w_heap w2 = w_heap w1 -> hask w2 b k x0 -> hask w b k x0).
    { intros w2 E2 (nd2 & N2 & I2). unfold node_at in N2. rewrite E2 in N2. eapply (cut_has w (length kv') x [a] b k x0 ND1). rewrite <- E1. exists nd2. auto. }
    cbv zeta in HB |- *. fold w1 in HB |- *. destruct (truncate (del_id (length kv') x (nd_ids nd))) as [|t ts]; [destruct (nd_creating nd) as [|m]|]; (split; [eapply HX; [|exact HB]; reflexivity|]; split; [tauto|]; split; [tauto|]; intros [l0 E0]; discriminate).
  - destruct T as (x' & don & E & D & IH & I & PE & R & R'). rewrite H in E. injection E as <-. right. split; [exact HB|].
    assert (NE : x0 <> x).
    { intros ->. destruct HB as (nd & N & IX). change (node_at w b nd) in N. destruct (g_items w G x kv' I) as [M _]. destruct (g_ids w G b nd k x N IX) as (kv0 & M0 & L0 & IP). rewrite M in M0. injection M0 as <-.
      apply (R' (nd_pair nd)); [rewrite app_nil_r in PE; eapply Permutation_in; eauto|]. exists b, kv'. split; [apply (has_cur w G b k x); exists nd; auto|]. split; [exact M|]. exists nd. split; [exact N|]. replace (length kv' - 1) with k by lia. exact IX. }
    cbn [release with_held with_item w_items w_known]. rewrite set_item_other by exact NE. split; [tauto|]. split; [tauto|]. intros [l0 E0]; discriminate.
Qed.

Lemma inv_new nils : inv nils (mkState empty_world []).
Proof.
  constructor; cbn [st_world st_threads].
  - constructor; cbn [empty_world w_index w_items w_dying w_made w_held w_known]; try (intros; discriminate).
    + intros a nd k x N. destruct a; discriminate N.
    + intros a nd k N. destruct a; discriminate N.
    + intros a nd N. destruct a; discriminate N.
    + intros x kv M. destruct x; discriminate M.
    + intros x y kv M. destruct x; discriminate M.
    + intros x [].
    + intros x [].
  - intros i c kv p E. destruct i; discriminate.
  - intros a. destruct a; reflexivity.
  - intros i j c kv p c' kv' p' x E. destruct i; discriminate.
  - intros a k x (nd & N & _). destruct a; discriminate N.
Qed.
Lemma nth_snoc {A} (l : list A) x i y : nth_error (l ++ [x]) i = Some y -> nth_error l i = Some y \/ i = length l /\ y = x.
Proof.
  intros H. destruct (Nat.lt_ge_cases i (length l)) as [L | L]; [rewrite nth_error_app1 in H by exact L; auto|]. rewrite nth_error_app2 in H by exact L.
  destruct (i - length l) as [|[|]] eqn:E; try discriminate. injection H as <-. right. split; [lia|reflexivity].
Qed.
Lemma nth_snoc_old {A} (l : list A) x i y : nth_error l i = Some y -> nth_error (l ++ [x]) i = Some y.
Proof. intros H. rewrite nth_error_app1; [exact H|eapply nth_lt; eauto]. Qed.
Lemma start_pins c kv : pins (start c kv) = [].
Proof. destruct c; reflexivity. Qed.
Lemma start_mine c kv x : ~ mine c (start c kv) x.
Proof. intros [[l E] | [E D]]; destruct c; cbn in *; try discriminate; destruct D. Qed.
Lemma start_tinv w i c kv : tinv w i c kv (start c kv).
Proof.
  destruct c; cbn; eauto.
  - exists []. split; [reflexivity|constructor].
  - exists []. split; reflexivity.
  - exists []. split; reflexivity.
  - exists []. split; [reflexivity|]. split; [apply le_n|]. intros _. constructor.
Qed.
Lemma inv_call nils destroys w ts c kv : inv nils (mkState w ts) -> allowed destroys w c kv -> inv nils (mkState w (ts ++ [mkThread c kv (start c kv)])).
Proof.
  intros [g t pn m gh] [KV AL]. cbn [st_world st_threads] in *. constructor; cbn [st_world st_threads].
  - exact g.
  - intros i c' kv' p' E. apply nth_snoc in E. destruct E as [E | [-> E]]; [eauto|]. injection E as -> -> ->. split; [exact KV|]. split; [|apply start_tinv]. destruct c; cbn; try exact I; [exact AL|apply AL].
  - intros a. rewrite pn. unfold total. rewrite map_app, list_sum_app. cbn [map th_pc list_sum fold_right]. rewrite start_pins. cbn. lia.
  - intros i j c1 kv1 p1 c2 kv2 p2 x E1 E2 M1 M2. apply nth_snoc in E1. apply nth_snoc in E2. destruct E1 as [E1 | [_ E1]]; [|injection E1 as -> -> ->; exfalso; eapply start_mine; eauto].
    destruct E2 as [E2 | [_ E2]]; [eauto|]. injection E2 as -> -> ->. exfalso. eapply start_mine; eauto.
  - intros a k x H. destruct (gh a k x H) as [H' | [H1 [H2 | (i & th & l & H2 & H3)]]]; auto. right. split; [exact H1|]. right. exists i, th, l. split; [apply nth_snoc_old, H2|exact H3].
Qed.
Lemma nth_set_cases {A} (l : list A) i x y j z : nth_error l i = Some y -> nth_error (set_nth l i x) j = Some z -> j = i /\ z = x \/ j <> i /\ nth_error l j = Some z.
Proof. intros H H'. rewrite (nth_set _ _ _ _ _ H) in H'. destruct (Nat.eqb_spec j i); [left|right]; split; congruence. Qed.
Lemma pins_creat nils s i c kv p a : inv nils s -> nth_error (st_threads s) i = Some (mkThread c kv p) -> cnt (pins p) a <= creat (st_world s) a.
Proof. intros I E. rewrite (i_pins _ _ I). exact (total_ge _ _ _ a E). Qed.
Lemma mine_made nils s i c kv p x : inv nils s -> nth_error (st_threads s) i = Some (mkThread c kv p) -> mine c p x -> x < length (w_made (st_world s)).
Proof.
  intros I E M. destruct (i_t _ _ I i c kv p E) as (_ & A & T). destruct M as [[l ->] | [-> _]].
  - destruct T as (_ & _ & M & _). eapply nth_lt; eauto.
  - apply (g_known _ (i_g _ _ I)), A.
Qed.
Lemma inv_own nils s i c kv p w' p' : inv nils s -> nth_error (st_threads s) i = Some (mkThread c kv p) -> tstep nils i c kv (st_world s) p w' p' -> good i c kv (st_world s) p w' p'.
Proof.
  intros I E ST. destruct (i_t _ _ I i c kv p E) as (KV & A & T). eapply own_step; eauto; [apply (i_g _ _ I)|]. intros a. eapply pins_creat; eauto.
Qed.
Lemma inv_step nils w ts i c kv p w' p' : inv nils (mkState w ts) -> nth_error ts i = Some (mkThread c kv p) -> tstep nils i c kv w p w' p' -> inv nils (mkState w' (set_thread ts i (mkThread c kv p'))).
Proof.
  intros I E ST. pose proof (inv_own nils (mkState w ts) i c kv p w' p' I E ST) as (G' & T' & F & CN). pose proof (i_g _ _ I) as g; pose proof (i_t _ _ I) as t; pose proof (i_pins _ _ I) as pn; pose proof (i_mine _ _ I) as m; pose proof (i_ghost _ _ I) as gh. cbn [st_world st_threads] in *. destruct (t i c kv p E) as (KV & A & T).
  unfold set_thread. constructor; cbn [st_world st_threads].
  - exact G'.
  - intros j c1 kv1 p1 E1. destruct (nth_set_cases _ _ _ _ _ _ E E1) as [[-> EQ] | [NE E1']].
    + injection EQ as -> -> ->. split; [exact KV|]. split; [eapply carg_frame; eauto|exact T'].
    + destruct (t j c1 kv1 p1 E1') as (KV1 & A1 & T1). split; [exact KV1|]. split; [eapply carg_frame; eauto|]. eapply tinv_frame; [exact F|exact NE| | |exact T1].
      * intros a IA. pose proof (pins_creat nils (mkState w ts) j c1 kv1 p1 a I E1') as L. cbn [st_world] in L. apply cnt_in in IA. lia.
      * intros x M1 M2. apply NE. eapply m; eauto.
  - intros a. pose proof (total_set ts i _ (mkThread c kv p') a E) as TS. cbn [th_pc] in TS. specialize (CN a). rewrite pn in CN. lia.
  - intros j1 j2 c1 kv1 p1 c2 kv2 p2 x E1 E2 M1 M2. destruct (nth_set_cases _ _ _ _ _ _ E E1) as [[-> EQ1] | [NE1 E1']], (nth_set_cases _ _ _ _ _ _ E E2) as [[-> EQ2] | [NE2 E2']].
    + reflexivity.
    + injection EQ1 as -> -> ->. destruct (step_kinds _ _ _ _ _ _ _ _ ST x M1) as [M1' | [[-> ND] | ->]]; [eapply m; eauto| |].
      * exfalso. destruct (t j2 c2 kv2 p2 E2') as (_ & A2 & T2). destruct M2 as [[l ->] | [-> D2]].
        -- destruct T2 as (_ & _ & _ & _ & _ & NK). apply NK, A.
        -- destruct p2; try destruct D2; cbn in T2; destruct T2 as (x' & T2); [destruct T2 as (EX & DY & _)|destruct T2 as (EX & DY & _)|destruct T2 as (don & EX & DY & _)|destruct T2 as (EX & DY & _)]; injection EX as <-; congruence.
      * exfalso. pose proof (mine_made nils (mkState w ts) j2 c2 kv2 p2 _ I E2' M2). cbn [st_world] in *. lia.
    + injection EQ2 as -> -> ->. destruct (step_kinds _ _ _ _ _ _ _ _ ST x M2) as [M2' | [[-> ND] | ->]]; [eapply m; eauto| |].
      * exfalso. destruct (t j1 c1 kv1 p1 E1') as (_ & A2 & T2). destruct M1 as [[l ->] | [-> D2]].
        -- destruct T2 as (_ & _ & _ & _ & _ & NK). apply NK, A.
        -- destruct p1; try destruct D2; cbn in T2; destruct T2 as (x' & T2); [destruct T2 as (EX & DY & _)|destruct T2 as (EX & DY & _)|destruct T2 as (don & EX & DY & _)|destruct T2 as (EX & DY & _)]; injection EX as <-; congruence.
      * exfalso. pose proof (mine_made nils (mkState w ts) j1 c1 kv1 p1 _ I E1' M1). cbn [st_world] in *. lia.
    + eapply m; eauto.
  - intros b k x HB. assert (CI : forall l, p' = PCall l x -> calling (set_nth ts i (mkThread c kv p')) x).
    { intros l ->. exists i, (mkThread c kv (PCall l x)), l. split; [eapply nth_set_same; eauto|reflexivity]. }
    destruct (real_step _ _ _ _ _ _ _ _ g KV T A ST b k x HB) as [[[l EP] NK] | (HB' & H1 & H2 & H3)]; [right; eauto|]. destruct (gh b k x HB') as [H4 | [H4 H5]]; [auto|].
    destruct H2 as [H2 | H2]; [auto|auto|]. destruct H5 as [H5 | (j0 & th & l & E0 & P0)]; [auto|]. destruct (Nat.eq_dec j0 i) as [->|NE].
    + rewrite E in E0. injection E0 as <-. cbn in P0. destruct H3 as [H3 | H3]; eauto.
    + right. split; [exact H2|]. right. exists j0, th, l. split; [rewrite nth_set_other by exact NE; exact E0|exact P0].
Qed.
Theorem exec_inv nils destroys s tr : exec nils destroys (s :: tr) -> inv nils s.
Proof.
  intros E. remember (s :: tr) as l eqn:EL. revert s tr EL. induction E as [|s s' tr E IH ST]; intros s0 tr0 EL; injection EL as <- <-; [apply inv_new|].
  specialize (IH s tr eq_refl). destruct ST; [eapply inv_call; eauto|eapply inv_step; eauto].
Qed.
