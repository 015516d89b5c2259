(** Proofs about [AssocSync.v]: calls come to an end. *)
From Coq Require Import List Bool Arith Lia Permutation.
Import ListNotations.
From Verif Require Import AssocSync SpecAssocSync AssocSyncBase AssocSyncInv AssocSyncFrame AssocSyncStep AssocSyncGlobal AssocSyncAnswers.

(** *** Every step of a call brings it closer to its end *)
Definition rank (p : pc) : nat * nat :=
  match p with
  | PDone _ => (0, 0) | DClean todo _ => (1, length todo) | DUnlock todo _ _ => (2, length todo) | DItem _ _ => (3, 0) | DLock todo _ _ => (4, length todo) | DFind todo _ => (5, length todo)
  | DLookUp => (6, 0) | DStart => (7, 0) | PUnlock todo _ => (8, length todo) | PCall _ _ | PFound _ _ => (9, 0) | PLock todo _ _ => (10, length todo) | PPin todo _ => (11, length todo)
  | PLook xs => (12, 2 * length xs) | PLookUp _ xs => (12, 2 * length xs + 1) | PQuery todo _ => (13, length todo)
  | YClear _ => (1, 0) | YDel _ todo => (2, length todo) | YAsk _ => (3, 0) | YFind => (4, 0) | YMark => (5, 0)
  end.
Definition less (a b : nat * nat) : Prop := fst a < fst b \/ fst a = fst b /\ snd a < snd b.
Lemma less_wf a : Acc less a.
Proof.
  assert (Q : forall n m, Acc less (n, m)); [|destruct a; apply Q].
  induction n as [n IH] using lt_wf_ind. induction m as [m IHm] using lt_wf_ind. constructor. intros [n' m'] [L | [L L']]; cbn in L; [apply IH, L|]. cbn in L'. subst n'. apply IHm, L'.
Qed.
Lemma step_less nils i c kv w p w' p' : tstep nils i c kv w p w' p' -> less (rank p') (rank p).
Proof.
  intros ST. destruct ST; cbn [rank]; try (left; cbn; lia); try (right; cbn; split; [reflexivity|lia]).
  - left. destruct c; cbn; lia.
  - destruct (meet _ _); [left; destruct c; cbn; lia|right; cbn; split; [reflexivity|lia]].
  - left. destruct c; cbn; lia.
  - left. destruct r; cbn; lia.
  - left. destruct clean; cbn; lia.
Qed.
Definition lower (l' l : list (nat * nat)) : Prop := exists i x x', nth_error l i = Some x /\ l' = set_nth l i x' /\ less x' x.
Lemma lower_wf l : Acc lower l.
Proof.
  induction l as [|x l IH].
  - constructor. intros l' (i & x & x' & E & _). destruct i; discriminate.
  - revert l IH. induction (less_wf x) as [x _ IHx]. intros l IH. induction IH as [l IH' IHl]. constructor. intros l' (i & y & y' & E & -> & L). destruct i as [|i]; cbn in E |- *.
    + injection E as <-. apply IHx; [exact L|]. constructor. exact IH'.
    + apply IHl. exists i, y, y'. auto.
Qed.
Definition ranks (s : state) : list (nat * nat) := map (fun th => rank (th_pc th)) (st_threads s).
Lemma map_set {A B} (f : A -> B) l i x : map f (set_nth l i x) = set_nth (map f l) i (f x).
Proof. revert i. induction l as [|y l IH]; intros [|i]; cbn; [reflexivity|reflexivity|reflexivity|]. rewrite IH. reflexivity. Qed.
Lemma moves_lower nils i s s' : moves nils i s s' -> lower (ranks s') (ranks s).
Proof.
  intros (c & kv & p & w' & p' & N & ST & ->). unfold ranks, set_thread. cbn [st_threads]. rewrite map_set. exists i, (rank p), (rank p'). split; [rewrite nth_error_map, N; reflexivity|]. split; [reflexivity|]. eapply step_less; eauto.
Qed.
Theorem no_endless nils (f : nat -> state) : (forall n, exists i, moves nils i (f n) (f (S n))) -> False.
Proof.
  intros H. assert (Q : forall l, Acc lower l -> forall n, ranks (f n) = l -> False).
  { induction 1 as [l _ IH]. intros n E. destruct (H n) as (i & M). apply moves_lower in M. rewrite E in M. eapply IH; eauto. }
  eapply Q; [apply (lower_wf (ranks (f 0)))|reflexivity].
Qed.

(** *** Somebody can go on, when nothing is destroyed *)
Lemma no_destroys nils s tr : exec nils false (s :: tr) -> forall i x kv p, nth_error (st_threads s) i <> Some (mkThread (CDestroy x) kv p).
Proof.
  intros E. remember (s :: tr) as l eqn:EL. revert s tr EL. induction E as [|s s' tr E IH ST]; intros s0 tr0 EL; injection EL as <- <-; intros i x kv p N.
  - destruct i; discriminate.
  - specialize (IH s tr eq_refl). destruct ST as [w ts c0 kv0 [_ A] | w ts j c0 kv0 p0 w' p' N0 ST]; cbn [st_threads] in *.
    + apply nth_snoc in N. destruct N as [N | [_ EQ]]; [eapply IH; eauto|]. injection EQ as <- -> ->. destruct A. discriminate.
    + unfold set_thread in N. destruct (nth_set_cases _ _ _ _ _ _ N0 N) as [[-> EQ] | [_ N']]; [|eapply IH; eauto]. injection EQ as <- <- <-. eapply IH; eauto.
Qed.
Lemma none_dying nils s tr x : exec nils false (s :: tr) -> w_dying (st_world s) x = false.
Proof.
  intros E. destruct (w_dying (st_world s) x) eqn:D; [|reflexivity]. exfalso. destruct (exec_marked _ _ _ _ E x D) as (i & kv & p & N & _). eapply no_destroys; eauto.
Qed.
Lemma none_held nils s tr : exec nils false (s :: tr) -> w_held (st_world s) = [].
Proof.
  intros E. destruct (w_held (st_world s)) as [|x l] eqn:H; [reflexivity|]. exfalso. assert (D : w_dying (st_world s) x = true) by (apply (g_held _ (i_g _ _ (exec_inv _ _ _ _ E))); rewrite H; left; reflexivity).
  rewrite (none_dying _ _ _ _ E) in D. discriminate.
Qed.
Definition locked_by (s : state) : Prop := forall a nd i, node_at (st_world s) a nd -> nd_lock nd = Some i -> exists c kv p, nth_error (st_threads s) i = Some (mkThread c kv p) /\ In a (locks p).
Lemma map_lock w f l a nd : (forall nd, nd_lock (f nd) = nd_lock nd) -> node_at (with_heap w (map_nodes f (w_heap w) l)) a nd -> exists nd0, node_at w a nd0 /\ nd_lock nd0 = nd_lock nd.
Proof.
  intros F. unfold node_at, with_heap. cbn [w_heap]. generalize (w_heap w) as h. intros h. revert h. induction l as [|b l IH]; intros h N; cbn [map_nodes] in N; [eauto|].
  destruct (IH _ N) as (nd0 & N0 & L0). destruct (nth_error h b) as [nb|] eqn:EB; [|eauto]. destruct (nth_set_cases _ _ _ _ _ _ EB N0) as [[-> ->] | [_ N1]]; [|eauto]. exists nb. rewrite F in L0. auto.
Qed.
Lemma locks_step nils i c kv w p w' p' : tstep nils i c kv w p w' p' -> (forall x, w_dying w x = false) -> (forall a nd, node_at w a nd -> nd_lock nd = Some i -> In a (locks p)) -> forall a nd, node_at w' a nd -> nd_lock nd = Some i -> In a (locks p').
Proof.
  intros ST ND H a0 nd0 N0 L0.
  assert (W : forall a nd nd', node_at w a nd -> node_at (with_node w a nd') a0 nd0 -> a0 = a /\ nd0 = nd' \/ In a0 (locks p)). { intros a nd nd' N N'. apply (with_node_at w a nd nd' a0 nd0 N) in N'. destruct N' as [N' | [_ N']]; [auto|right; eauto]. }
  destruct ST; try (exact (H _ _ N0 L0)); try (exfalso; exact (H _ _ N0 L0)); try (destruct (H _ _ N0 L0); fail).
  - destruct H1 as [N _]. destruct (W _ _ _ N N0) as [[-> ->] | I]; [discriminate|exact I].
  - unfold node_at in N0. cbn [with_index with_heap w_heap] in N0. apply nth_snoc in N0. destruct N0 as [N0 | [_ ->]]; [exact (H _ _ N0 L0)|discriminate].
  - destruct H0 as [N _]. cbn [locks]. apply in_or_app. destruct (W _ _ _ N N0) as [[-> _] | I]; [right; left; reflexivity|left; exact I].
  - apply (map_lock w) in N0; [|reflexivity]. destruct N0 as (nd1 & N1 & L1). rewrite <- L1 in L0. exact (H _ _ N1 L0).
  - destruct (W _ _ _ H0 N0) as [[-> ->] | [-> | I]]; [discriminate| |exact I]. exfalso. apply (with_node_at w a0 nd _ a0 nd0 H0) in N0. destruct N0 as [[_ ->] | [NE _]]; [discriminate|congruence].
  - destruct H0 as [N _]. cbn [locks]. apply in_or_app. destruct (W _ _ _ N N0) as [[-> _] | I]; [right; left; reflexivity|left; exact I].
  - destruct H0 as [N _]. cbn [locks]. apply in_or_app. destruct (W _ _ _ N N0) as [[-> _] | I]; [right; left; reflexivity|left; exact I].
  - rewrite ND in H0. discriminate.
  - apply (map_lock w) in N0; [|reflexivity]. destruct N0 as (nd1 & N1 & L1). rewrite <- L1 in L0. exact (H _ _ N1 L0).
  - apply map_lock in N0; [|reflexivity]. destruct N0 as (nd1 & N1 & L1). rewrite <- L1 in L0. exact (H _ _ N1 L0).
  - destruct (W _ _ _ H0 N0) as [[-> ->] | [-> | I]]; [discriminate| |exact I]. exfalso. apply (with_node_at w a0 nd _ a0 nd0 H0) in N0. destruct N0 as [[_ ->] | [NE _]]; [discriminate|congruence].
  - destruct H2 as [N _]. cbv zeta in N0.
    assert (N1 : node_at (with_node w a (mkNode (nd_pair nd) (truncate (del_id (length kv') x (nd_ids nd))) (nd_creating nd) None)) a0 nd0) by (destruct (truncate _), (nd_creating nd); exact N0).
    destruct (W _ _ _ N N1) as [[_ ->] | I]; [discriminate|exact I].
Qed.
Lemma exec_locked nils s tr : exec nils false (s :: tr) -> locked_by s.
Proof.
  intros E. remember (s :: tr) as l eqn:EL. revert s tr EL. induction E as [|s s' tr E IH ST]; intros s0 tr0 EL; injection EL as <- <-; intros a nd i N L.
  - destruct a; discriminate N.
  - specialize (IH s tr eq_refl). pose proof (exec_inv _ _ _ _ E) as I. assert (DY : forall x, w_dying (st_world s) x = false) by (intros x; eapply none_dying; eauto). destruct ST as [w ts c0 kv0 A | w ts j c0 kv0 p0 w' p' N0 ST]; cbn [st_world st_threads] in *.
    + destruct (IH a nd i N L) as (c & kv & p & H & H'). exists c, kv, p. split; [apply nth_snoc_old, H|exact H'].
    + destruct (Nat.eq_dec i j) as [->|NE].
      * exists c0, kv0, p'. split; [unfold set_thread; eapply nth_set_same; eauto|]. eapply locks_step; eauto. intros b nb NB LB. destruct (IH b nb j NB LB) as (c & kv & p & H & H'). cbn [st_threads] in H. rewrite N0 in H. injection H as <- <- <-. exact H'.
      * pose proof (inv_own nils (mkState w ts) j c0 kv0 p0 w' p' I N0 ST) as (_ & _ & F & _). apply (f_node _ _ _ _ F i a nd NE L) in N. destruct (IH a nd i N L) as (c & kv & p & H & H'). exists c, kv, p. split; [unfold set_thread; rewrite nth_set_other by exact NE; exact H|exact H'].
Qed.

Definition awaits (w : world) (p : pc) (a : nat) : Prop :=
  match p with
  | PQuery (q :: _) _ | PPin (q :: _) _ | DClean (q :: _) _ => w_index w q = Some a
  | PLock (b :: _) _ _ | DLock (b :: _) _ _ => b = a
  | _ => False
  end.
Definition can (nils : bool) (i : nat) (c : call) (kv : kvs) (w : world) (p : pc) : Prop := exists w' p', tstep nils i c kv w p w' p'.
Lemma owned_at w i l a : Forall (owned w i) l -> In a l -> exists nd, node_at w a nd.
Proof. intros F I. rewrite Forall_forall in F. destruct (F a I) as (nd & N & _). eauto. Qed.
Lemma progress nils i c kv w p : ginv w -> kv_ok kv -> tinv w i c kv p -> carg w c kv -> fits nils c p -> w_held w = [] -> (forall x, w_dying w x = false) -> (forall r, p <> PDone r) -> (forall x, c <> CDestroy x) ->
  can nils i c kv w p \/ exists a nd j, awaits w p a /\ node_at w a nd /\ nd_lock nd = Some j.
Proof.
  intros G KV T A F HE DY NP NC. assert (PS : forall x, passable w x) by (intros x; unfold passable; rewrite HE; split; [intros []|auto]).
  assert (AT : forall q a, w_index w q = Some a -> exists nd, node_at w a nd) by (intros q a E; destruct (g_index w G q a E) as (nd & N & _); eauto).
  unfold can. destruct p as [todo acc|xs|x xs|todo nodes|todo locked acc|locked x|locked x|todo r| | |todo nodes|todo locked acc|locked x|todo r cl|todo r| | |k|k todo|r|r].
  - destruct todo as [|q todo].
    + destruct acc as [l|]; [left; eexists _, _; apply S_query_end|]. exfalso. destruct T as (don & EK & Q). cbn in Q. subst don. cbn in EK. destruct KV. congruence.
    + destruct (w_index w q) as [a|] eqn:E; [|left; eexists _, _; apply S_query_none, E]. destruct (AT q a E) as (nd & N). destruct (nd_lock nd) as [j|] eqn:L; [right; exists a, nd, j; auto|]. left. eexists _, _. eapply S_query; [exact E|split; eauto].
  - destruct xs as [|x xs]; left; eexists _, _; [apply S_look_end|apply S_look, DY].
  - left. destruct (w_items w x) eqn:E; eexists _, _; [eapply S_look_found; eauto|apply S_look_not; auto].
  - destruct todo as [|q todo]; [left; eexists _, _; apply S_pin_end|]. destruct (w_index w q) as [a|] eqn:E; [|left; eexists _, _; apply S_pin_new, E]. destruct (AT q a E) as (nd & N). destruct (nd_lock nd) as [j|] eqn:L; [right; exists a, nd, j; auto|]. left. eexists _, _. eapply S_pin; [exact E|split; eauto].
  - destruct todo as [|a todo].
    + left. assert (D : (exists x, acc = Some [x]) \/ forall x, acc <> Some [x]) by (destruct acc as [[|y [|z l]]|]; eauto; right; congruence). destruct D as [[x ->] | D]; [|eexists _, _; apply S_new, D].
      destruct c; cbn in F; try contradiction; eexists _, _; [apply S_exists; reflexivity|apply S_check; auto].
    + destruct T as (C & _). destruct (Forall2_app_r _ _ _ _ C) as (l1 & l2 & EK & _ & F2). inversion F2 as [|q ? l' ? Hq Fr]; subst. destruct (AT _ _ Hq) as (nd & N). destruct (nd_lock nd) as [j|] eqn:L; [right; exists a, nd, j; cbn; auto|]. left. eexists _, _. eapply S_lock. split; eauto.
  - left. destruct (w_items w x) eqn:E; eexists _, _; [eapply S_found; eauto|apply S_neither; auto].
  - left. eexists _, _. apply S_created, PS.
  - left. destruct todo as [|a todo]; [eexists _, _; apply S_unlock_end|]. destruct T as (_ & _ & _ & _ & O). destruct (owned_at _ _ _ a O (or_introl eq_refl)) as (nd & N). eexists _, _. eapply S_unlock; eauto.
  - left. destruct T as (b & x & ->). eexists _, _. eapply D_id; eauto.
  - left. destruct T as (b & x & ->). destruct A as [_ M]. destruct (w_items w x) as [kv'|] eqn:E; eexists _, _; [eapply D_id_found; eauto|eapply D_id_none; eauto]. destruct (g_items w G x kv' E) as [M' _]. rewrite E. congruence.
  - left. destruct todo as [|q todo]; [destruct (Nat.eq_dec (length nodes) (length kv)) as [E|E]; eexists _, _; [apply D_all, E|apply D_missing, E]|]. destruct (w_index w q) eqn:E; eexists _, _; [eapply D_find; eauto|eapply D_find_none; eauto].
  - destruct todo as [|a todo].
    + left. assert (D : (exists x, acc = Some [x]) \/ forall x, acc <> Some [x]) by (destruct acc as [[|y [|z l]]|]; eauto; right; congruence). destruct D as [[x ->] | D]; eexists _, _; [apply D_check, DY|apply D_none, D].
    + destruct T as (C & _). destruct (Forall2_app_r _ _ _ _ C) as (l1 & l2 & EK & _ & F2). inversion F2 as [|q ? l' ? Hq Fr]; subst. destruct Hq as (nd & N & _). destruct (nd_lock nd) as [j|] eqn:L; [right; exists a, nd, j; cbn; auto|]. left.
      destruct (Nat.le_gt_cases (length (l1 ++ q :: l')) (length (nd_ids nd))) as [LE | GT]; eexists _, _; [eapply D_lock; [split; eauto|exact LE]|eapply D_short; [split; eauto|exact GT]].
  - left. destruct (w_items w x) eqn:E; eexists _, _; [eapply D_delete; eauto|apply D_ghost; auto].
  - left. destruct todo as [|a todo]; [eexists _, _; apply D_unlock_end|]. destruct T as (_ & O). destruct (owned_at _ _ _ a O (or_introl eq_refl)) as (nd & N). eexists _, _. eapply D_unlock; eauto.
  - destruct todo as [|q todo]; [left; eexists _, _; apply D_clean_end|]. destruct (w_index w q) as [a|] eqn:E; [|left; eexists _, _; apply D_clean_none, E]. destruct (AT q a E) as (nd & N). destruct (nd_lock nd) as [j|] eqn:L; [right; exists a, nd, j; auto|]. left.
    destruct (nd_ids nd) as [|t ts] eqn:EI; [destruct (nd_creating nd) eqn:EC|]; eexists _, _.
    + eapply D_clean_drop; [exact E|split; eauto|exact EI|exact EC].
    + eapply D_clean_keep; [exact E|split; eauto|right; congruence].
    + eapply D_clean_keep; [exact E|split; eauto|left; congruence].
  - exfalso. destruct T as (x & E). eapply NC; eauto.
  - exfalso. destruct T as (x & E & _). eapply NC; eauto.
  - exfalso. destruct T as (x & E & _). eapply NC; eauto.
  - exfalso. destruct T as (x & don & E & _). eapply NC; eauto.
  - exfalso. destruct T as (x & E & _). eapply NC; eauto.
  - exfalso. eapply NP; eauto.
Qed.
Definition key (w : world) (a : nat) : nat := match nth_error (w_heap w) a with Some nd => fst (nd_pair nd) | None => 0 end.
Lemma key_for w p a : for_ w p a -> key w a = fst p.
Proof. intros (nd & N & <-). unfold key. unfold node_at in N. rewrite N. reflexivity. Qed.
Lemma increasing_app l m x y : increasing (l ++ m) -> In x l -> In y m -> x < y.
Proof.
  induction l as [|z l IH]; [intros _ []|]. cbn. intros [H1 H2] [<- | I] J; [apply H1, in_or_app; auto|apply IH; auto].
Qed.
Lemma keys_order w kv locked a todo b : kv_ok kv -> Forall2 (for_ w) kv (locked ++ a :: todo) -> In b locked -> key w b < key w a.
Proof.
  intros [_ KV] F I. destruct (Forall2_app_r _ _ _ _ F) as (l1 & l2 & -> & F1 & F2). inversion F2 as [|q0 ? l' ? Hq Fr]; subst. rewrite (key_for w q0 a Hq). assert (X : exists q, In q l1 /\ for_ w q b). { clear - F1 I. induction F1 as [|q c l m C F IH]; [destruct I|]. destruct I as [-> | I]; [exists q; split; [left; reflexivity|exact C]|]. destruct (IH I) as (q' & I' & C'). exists q'. split; [right; exact I'|exact C']. }
  destruct X as (q & IQ & FQ). rewrite (key_for w q b FQ). rewrite map_app in KV. eapply increasing_app; [exact KV|apply in_map, IQ|left; reflexivity].
Qed.
Lemma keys_bound w : exists n, forall a, key w a <= n.
Proof.
  unfold key. induction (w_heap w) as [|nd h [n IH]]; [exists 0; intros [|a]; apply le_n|]. exists (fst (nd_pair nd) + n). intros [|a]; cbn; [lia|]. specialize (IH a). lia.
Qed.
Theorem no_deadlock nils s tr : exec nils false (s :: tr) -> (exists i, running i s) -> exists i s', moves nils i s s'.
Proof.
  intros E (i0 & [c0 kv0 p0] & N0 & R0). pose proof (exec_inv _ _ _ _ E) as I. pose proof (i_g _ _ I) as G. destruct (keys_bound (st_world s)) as (n & KB). cbn in R0.
  assert (GO : forall i c kv p, nth_error (st_threads s) i = Some (mkThread c kv p) -> (forall r, p <> PDone r) -> (exists i s', moves nils i s s') \/ exists a nd j, awaits (st_world s) p a /\ node_at (st_world s) a nd /\ nd_lock nd = Some j).
  { intros i c kv p N R. destruct (i_t _ _ I _ _ _ _ N) as (KV & A & T). assert (NC : forall x, c <> CDestroy x) by (intros x ->; eapply no_destroys; eauto). assert (DY : forall x, w_dying (st_world s) x = false) by (intros x; eapply none_dying; eauto).
    destruct (progress nils i c kv _ p G KV T A (proj1 (exec_told _ _ _ _ E _ _ _ _ N)) (none_held _ _ _ E) DY R NC) as [(w' & p' & ST) | H]; [|auto].
    left. exists i, (mkState w' (set_thread (st_threads s) i (mkThread c kv p'))). exists c, kv, p, w', p'. auto. }
  assert (UP : forall m i c kv p a, nth_error (st_threads s) i = Some (mkThread c kv p) -> In a (locks p) -> n - key (st_world s) a <= m -> exists i s', moves nils i s s').
  { induction m as [m IH] using lt_wf_ind. intros i c kv p a N IA LE. assert (R : forall r, p <> PDone r) by (intros r ->; destruct IA). destruct (GO i c kv p N R) as [H | (b & nd & j & AW & NB & LB)]; [exact H|].
    destruct (exec_locked _ _ _ E b nd j NB LB) as (cj & kvj & pj & NJ & IJ). destruct (i_t _ _ I _ _ _ _ N) as (KV & A & T).
    assert (LT : key (st_world s) a < key (st_world s) b). { destruct p; try (destruct IA; fail); cbn in AW; try contradiction; destruct todo as [|b' todo]; try contradiction; subst b'; cbn in IA, T; destruct T as (C & _); (eapply keys_order; [exact KV| |exact IA]); [apply cur_for; [exact G|]|]; exact C. }
    pose proof (KB b). destruct (Nat.eq_dec m 0) as [->|]; [pose proof (KB a); lia|]. eapply (IH (m - 1)); [lia|exact NJ|exact IJ|]. lia. }
  destruct (GO _ _ _ _ N0 R0) as [H | (b & nd & j & AW & NB & LB)]; [exact H|]. destruct (exec_locked _ _ _ E b nd j NB LB) as (cj & kvj & pj & NJ & IJ). eapply (UP n); eauto. lia.
Qed.
Lemma running_dec s : (exists i, running i s) \/ all_answered s.
Proof.
  unfold all_answered, running. induction (st_threads s) as [|th ts IH]; [right; intros [|i] (th & N & _); discriminate|].
  assert (D : (exists r, th_pc th = PDone r) \/ forall r, th_pc th <> PDone r) by (destruct (th_pc th); eauto; right; discriminate). destruct D as [(r & D) | D]; [|left; exists 0, th; auto].
  destruct IH as [(i & H) | IH]; [left; exists (S i); exact H|]. right. intros [|i] (th' & N & R); [injection N as <-; eapply R; eauto|]. apply (IH i). exists th'. auto.
Qed.
Theorem all_end nils s tr : exec nils false (s :: tr) -> inevitably nils all_answered s.
Proof.
  remember (ranks s) as l eqn:EL. revert s tr EL. induction (lower_wf l) as [l _ IH]. intros s tr -> E. destruct (running_dec s) as [R | R]; [|apply inevitably_now, R]. apply inevitably_later; [eapply no_deadlock; eauto|].
  intros i s' M. pose proof (moves_lower _ _ _ _ M) as L. destruct M as (c & kv & p & w' & p' & N & ST & ->). eapply (IH _ L); [reflexivity|]. eapply EX_step; [exact E|]. destruct s as [w ts]. eapply ST_step; eauto.
Qed.

(** *** A destruction can hang for ever *)
Lemma index_locked nils t c kv w p w' p' q a nd j : tstep nils t c kv w p w' p' -> w_index w q = Some a -> node_at w a nd -> nd_lock nd = Some j -> w_index w' q = Some a.
Proof.
  intros ST EQ N L. destruct ST; try exact EQ.
  - cbn [with_index with_heap w_index]. rewrite set_index_other by congruence. exact EQ.
  - cbn [with_index w_index]. destruct (pair_eqb_spec q p) as [->|NE]; [|rewrite set_index_other by exact NE; exact EQ]. exfalso. destruct H0 as [N' L']. assert (a0 = a) as -> by congruence. rewrite (node_fun _ _ _ _ N N') in L. congruence.
  - cbv zeta. destruct (truncate _) as [|t0 ts] eqn:ET; [destruct (nd_creating nd0)|]; try exact EQ. cbn [with_index with_node w_index]. destruct (pair_eqb_spec q p) as [->|NE]; [|rewrite set_index_other by exact NE; exact EQ].
    exfalso. destruct H1 as [N' L']. assert (a0 = a) as -> by congruence. rewrite (node_fun _ _ _ _ N N') in L. congruence.
Qed.
Record hung (nils : bool) (i j z : nat) (s : state) : Prop := {
  h_held : w_held (st_world s) = [z];
  h_small : ~ large (st_world s);
  h_i : exists kv k q todo a nd, nth_error (st_threads s) i = Some (mkThread (CDestroy z) kv (YDel k (q :: todo))) /\ w_index (st_world s) q = Some a /\ node_at (st_world s) a nd /\ nd_lock nd = Some j;
  h_j : exists c kv p, nth_error (st_threads s) j = Some (mkThread c kv p) /\ ((exists r, p = PDone r) \/ nils = false /\ exists l x, p = PCall l x) }.
Lemma hung_step nils destroys i j z s tr s' : exec nils destroys (s :: tr) -> step nils destroys s s' -> hung nils i j z s ->
  hung nils i j z s' /\ (forall x, w_items (st_world s') x = w_items (st_world s) x) /\ nth_error (st_threads s') i = nth_error (st_threads s) i /\ nth_error (st_threads s') j = nth_error (st_threads s) j.
Proof.
  intros E ST H. pose proof (exec_inv _ _ _ _ E) as I. destruct H as [HE HS (kv & k & q & todo & a & nd & Ni & EQ & N & L) (cj & kvj & pj & Nj & PJ)].
  assert (NPA : forall x, ~ passable (st_world s) x). { intros x [_ [P | P]]; [congruence|contradiction]. }
  destruct ST as [w ts c0 kv0 A | w ts t c0 kv0 p w' p' NT ST]; cbn [st_world st_threads] in *.
  - rewrite (nth_snoc_old _ (mkThread c0 kv0 (start c0 kv0)) _ _ Ni), (nth_snoc_old _ (mkThread c0 kv0 (start c0 kv0)) _ _ Nj). split; [|auto]. constructor; cbn [st_world st_threads]; auto.
    + exists kv, k, q, todo, a, nd. split; [apply nth_snoc_old, Ni|auto].
    + exists cj, kvj, pj. split; [apply nth_snoc_old, Nj|exact PJ].
  - assert (TI : t <> i). { intros ->. rewrite Ni in NT. injection NT as <- <- <-. inversion ST; subst; [congruence|]. match goal with H1 : w_index w q = Some ?b, H2 : unlocked w ?b ?n |- _ => destruct H2 as [N2 L2]; assert (b = a) as -> by congruence; rewrite (node_fun _ _ _ _ N N2) in L; congruence end. }
    assert (TJ : t <> j). { intros ->. rewrite Nj in NT. injection NT as <- <- <-. destruct PJ as [(r & ->) | (-> & l & x & ->)]; inversion ST; subst; [eapply NPA; eauto|discriminate]. }
    pose proof (inv_own nils (mkState w ts) t c0 kv0 p w' p' I NT ST) as (_ & _ & F & _). cbn [st_world] in F. destruct (i_t _ _ I _ _ _ _ NT) as (_ & _ & T). cbn [st_world] in T.
    assert (NY : forall x, c0 = CDestroy x -> destroying p -> In x (w_held w) -> False). { intros x -> DP IX. rewrite HE in IX. destruct IX as [<- | []]. apply TI. eapply (i_mine _ _ I t i); [exact NT|exact Ni|right; split; [reflexivity|exact DP]|right; split; [reflexivity|exact Logic.I]]. }
    assert (SAME : w_items w' = w_items w /\ w_held w' = w_held w).
    { destruct ST; try (split; reflexivity); try (exfalso; eapply NPA; eauto; fail).
      - exfalso. destruct T as (x' & EX & _ & IX & _). eapply NY; eauto. exact Logic.I.
      - cbv zeta. destruct (truncate _), (nd_creating nd0); split; reflexivity.
      - exfalso. destruct T as (x' & don & EX & _ & IX & _). eapply NY; eauto. exact Logic.I. }
    destruct SAME as [S1 S2]. unfold set_thread. rewrite !nth_set_other by auto. split; [|rewrite S1; auto]. constructor; cbn [st_world st_threads].
    + rewrite S2. exact HE.
    + unfold large in *. rewrite S1. exact HS.
    + exists kv, k, q, todo, a, nd. unfold set_thread. rewrite nth_set_other by auto. split; [exact Ni|]. split; [eapply index_locked; eauto|]. split; [|exact L]. apply (f_node _ _ _ _ F j a nd); auto.
    + exists cj, kvj, pj. unfold set_thread. rewrite nth_set_other by auto. auto.
Qed.
Lemma hung_run nils destroys i j z s tr tr' : hung nils i j z s -> exec nils destroys (tr' ++ s :: tr) -> forall s', In s' (tr' ++ [s]) -> hung nils i j z s' /\
  (forall x, w_items (st_world s') x = w_items (st_world s) x) /\ nth_error (st_threads s') i = nth_error (st_threads s) i /\ nth_error (st_threads s') j = nth_error (st_threads s) j.
Proof.
  intros H. induction tr' as [|s1 tr' IH]; intros E s' IN; cbn in *; [destruct IN as [<- | []]; auto|].
  inversion E as [HH|s0 s0' tr0 E0 ST HH]; subst; [destruct tr'; discriminate|]. match goal with X : _ :: _ = tr' ++ _ |- _ => rename X into HE end. rewrite HE in E0. destruct IN as [<- | IN]; [|apply IH; assumption].
  assert (I0 : In s0 (tr' ++ [s])) by (destruct tr' as [|s2 tr']; cbn in HE; injection HE as -> _; left; reflexivity). destruct (IH E0 s0 I0) as (H0 & A1 & A2 & A3). rewrite <- HE in E0. destruct (hung_step _ _ _ _ _ _ _ _ E0 ST H0) as (H1 & B1 & B2 & B3).
  split; [exact H1|]. split; [intros x; rewrite B1; apply A1|]. split; congruence.
Qed.
Theorem hung_stuck nils destroys i j z s : hung nils i j z s -> stuck nils destroys i s /\ (running j s -> stuck nils destroys j s) /\ frozen nils destroys s.
Proof.
  intros H. assert (Q : forall tr tr', exec nils destroys (tr' ++ s :: tr) -> forall s', In s' tr' -> hung nils i j z s' /\ (forall x, w_items (st_world s') x = w_items (st_world s) x) /\ nth_error (st_threads s') i = nth_error (st_threads s) i /\ nth_error (st_threads s') j = nth_error (st_threads s) j).
  { intros tr tr' E s' IN. eapply hung_run; eauto. apply in_or_app. auto. }
  split; [|split].
  - split; [destruct H as [_ _ (kv & k & q & todo & a & nd & Ni & _) _]; eapply running_at; [exact Ni|discriminate]|]. intros tr tr' _ E s' IN. eapply Q; eauto.
  - intros R. split; [exact R|]. intros tr tr' _ E s' IN. eapply Q; eauto.
  - intros tr tr' _ E s' IN. apply (Q tr tr' E s' IN).
Qed.
