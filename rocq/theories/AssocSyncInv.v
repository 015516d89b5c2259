(** Invariants of [AssocSync.v]: the tree. *)
From Coq Require Import List Bool Arith Lia.
Import ListNotations.
From Verif Require Import AssocSync AssocSyncBase.

Definition hask (w : world) (a k x : nat) : Prop := exists nd, node_at w a nd /\ In x (nth k (nd_ids nd) []).
Definition has (w : world) (a n x : nat) : Prop := hask w a (n - 1) x.
Definition reg (w : world) (p : pair) (x : nat) : Prop := exists a kv, w_index w p = Some a /\ nth_error (w_made w) x = Some kv /\ has w a (length kv) x.
Definition cur (w : world) (p : pair) (a : nat) : Prop := w_index w p = Some a.
Definition for_ (w : world) (p : pair) (a : nat) : Prop := exists nd, node_at w a nd /\ nd_pair nd = p.
Definition owned (w : world) (i a : nat) : Prop := exists nd, node_at w a nd /\ nd_lock nd = Some i.
Record ginv (w : world) : Prop := {
  g_index : forall p a, w_index w p = Some a -> for_ w p a;
  g_ids : forall a nd k x, node_at w a nd -> In x (nth k (nd_ids nd) []) -> exists kv, nth_error (w_made w) x = Some kv /\ length kv = S k /\ In (nd_pair nd) kv;
  g_nodup : forall a nd k, node_at w a nd -> NoDup (nth k (nd_ids nd) []);
  g_stale : forall a nd, node_at w a nd -> w_index w (nd_pair nd) <> Some a -> nd_ids nd = [] /\ nd_creating nd = 0;
  g_made : forall x kv, nth_error (w_made w) x = Some kv -> kv_ok kv;
  g_items : forall x kv, w_items w x = Some kv -> nth_error (w_made w) x = Some kv /\ In x (w_known w);
  g_reg : forall x kv p, w_items w x = Some kv -> ~ In x (w_held w) -> In p kv -> reg w p x;
  g_one : forall x y kv, nth_error (w_made w) x = Some kv -> nth_error (w_made w) y = Some kv -> (forall p, In p kv -> reg w p x /\ reg w p y) -> x = y;
  g_held : forall x, In x (w_held w) -> w_dying w x = true /\ w_items w x <> None;
  g_dying : forall x, w_dying w x = true -> In x (w_known w);
  g_known : forall x, In x (w_known w) -> x < length (w_made w) }.

Lemma node_fun w a nd nd' : node_at w a nd -> node_at w a nd' -> nd = nd'.
Proof. unfold node_at. congruence. Qed.
Lemma nth_nil {A} k (d : A) : nth k [] d = d.
Proof. destruct k; reflexivity. Qed.
Lemma with_node_at w a nd nd' b x : node_at w a nd -> node_at (with_node w a nd') b x <-> (b = a /\ x = nd' \/ b <> a /\ node_at w b x).
Proof.
  intros E. unfold node_at, with_node. cbn [w_heap]. rewrite (nth_set _ _ _ _ _ E). destruct (Nat.eqb_spec b a) as [->|N]; split; intros H.
  - left. split; congruence.
  - destruct H as [[_ ->] | [N _]]; [reflexivity|congruence].
  - right. auto.
  - destruct H as [[X _] | [_ H]]; [congruence|exact H].
Qed.

Section G.
  Variable w : world.
  Hypothesis G : ginv w.
  Lemma reg_item_ids p x : reg w p x -> exists kv, nth_error (w_made w) x = Some kv /\ In p kv.
  Proof.
    intros (a & kv & E & M & nd & N & I). destruct (g_index w G p a E) as (nd0 & N0 & <-). rewrite (node_fun _ _ _ _ N0 N) in *.
    destruct (g_ids w G a nd _ x N I) as (kv' & M' & _ & I'). rewrite M in M'. injection M' as <-. eauto.
  Qed.
  Lemma cur_nodup l nodes : NoDup l -> Forall2 (cur w) l nodes -> NoDup nodes.
  Proof.
    intros ND F. induction F as [|p a l nodes C F IH]; [constructor|]. inversion ND; subst. constructor; [|auto]. intros I. apply H1.
    clear - F C I G. induction F as [|q b l nodes C' F IH]; [destruct I|]. destruct I as [-> | I]; [|right; auto]. left.
    destruct (g_index w G q a C') as (nd & N & <-). destruct (g_index w G p a C) as (nd' & N' & <-). rewrite (node_fun _ _ _ _ N N'). reflexivity.
  Qed.
  Lemma for_nodup l nodes : NoDup l -> Forall2 (for_ w) l nodes -> NoDup nodes.
  Proof.
    intros ND F. induction F as [|p a l nodes C F IH]; [constructor|]. inversion ND; subst. constructor; [|auto]. intros I. apply H1.
    clear - F C I. induction F as [|q b l nodes C' F IH]; [destruct I|]. destruct I as [-> | I]; [|right; auto]. left.
    destruct C' as (nd & N & <-). destruct C as (nd' & N' & <-). rewrite (node_fun _ _ _ _ N N'). reflexivity.
  Qed.
  Lemma cur_for l nodes : Forall2 (cur w) l nodes -> Forall2 (for_ w) l nodes.
  Proof. induction 1; constructor; auto. apply (g_index w G). assumption. Qed.

  (** A node changes, but not its ids *)
  Lemma touch_has a nd nd' b k x : node_at w a nd -> (forall k, nth k (nd_ids nd') [] = nth k (nd_ids nd) []) -> hask (with_node w a nd') b k x <-> hask w b k x.
  Proof.
    intros N L. unfold hask. split.
    - intros (n & Nb & I). apply (with_node_at w a nd nd' b n N) in Nb. destruct Nb as [[-> ->] | [_ Nb]]; [exists nd; rewrite <- L; auto|eauto].
    - intros (n & Nb & I). destruct (Nat.eq_dec b a) as [->|NE].
      + exists nd'. split; [apply (with_node_at w a nd nd' a nd' N); auto|]. rewrite L. rewrite (node_fun _ _ _ _ N Nb). exact I.
      + exists n. split; [apply (with_node_at w a nd nd' b n N); auto|exact I].
  Qed.
  Lemma touch_reg a nd nd' p x : node_at w a nd -> (forall k, nth k (nd_ids nd') [] = nth k (nd_ids nd) []) -> reg (with_node w a nd') p x <-> reg w p x.
  Proof.
    intros N L. unfold reg. split; intros (b & kv & E & M & H); exists b, kv; (split; [exact E|split; [exact M|]]); unfold has in *; eapply touch_has; eauto.
  Qed.
  Lemma ginv_touch a nd nd' : node_at w a nd -> nd_pair nd' = nd_pair nd -> (forall k, nth k (nd_ids nd') [] = nth k (nd_ids nd) []) ->
    w_index w (nd_pair nd) = Some a \/ nd_ids nd' = nd_ids nd /\ nd_creating nd' = nd_creating nd -> ginv (with_node w a nd').
  Proof.
    intros N P L ST. destruct G as [g1 g2 g3 g4 g5 g6 g7 g8 g9 gd gk]. constructor; cbn [with_node w_index w_items w_dying w_made w_held w_known]; auto.
    - intros p b E. destruct (g1 p b E) as (n & Nb & <-). destruct (Nat.eq_dec b a) as [->|NE].
      + exists nd'. split; [apply (with_node_at w a nd nd' a nd' N); auto|]. rewrite (node_fun _ _ _ _ Nb N). exact P.
      + exists n. split; [apply (with_node_at w a nd nd' b n N); auto|reflexivity].
    - intros b n k x Nb I. apply (with_node_at w a nd nd' b n N) in Nb. destruct Nb as [[-> ->] | [_ Nb]]; [rewrite P; rewrite L in I; eauto|eauto].
    - intros b n k Nb. apply (with_node_at w a nd nd' b n N) in Nb. destruct Nb as [[-> ->] | [_ Nb]]; [rewrite L; eauto|eauto].
    - intros b n Nb X. apply (with_node_at w a nd nd' b n N) in Nb. destruct Nb as [[-> ->] | [_ Nb]]; [|eauto]. rewrite P in X.
      destruct ST as [ST | [-> ->]]; [congruence|eauto].
    - intros x kv p I D HP. rewrite (touch_reg a nd nd' p x N L). eauto.
    - intros x y kv Mx My H. apply (g8 x y kv Mx My). intros p HP. specialize (H p HP). rewrite !(touch_reg a nd nd' p _ N L) in H. exact H.
  Qed.

  (** A new node *)
  Lemma pin_new_at p b n : w_index w p = None ->
    node_at (with_index (with_heap w (w_heap w ++ [mkNode p [] 1 None])) p (Some (length (w_heap w)))) b n <-> (node_at w b n \/ b = length (w_heap w) /\ n = mkNode p [] 1 None).
  Proof.
    intros _. unfold node_at. cbn [with_index with_heap w_heap]. destruct (Nat.lt_trichotomy b (length (w_heap w))) as [L | [-> | L]].
    - rewrite nth_error_app1 by exact L. split; [auto|]. intros [H | [X _]]; [exact H|lia].
    - rewrite nth_error_app2, Nat.sub_diag by lia. cbn. split; [intros [= <-]; auto|]. intros [H | [_ ->]]; [|reflexivity]. apply nth_lt in H. lia.
    - split; [intros H; apply nth_lt in H; rewrite app_length in H; cbn in H; lia|]. intros [H | [-> _]]; [apply nth_lt in H; lia|lia].
  Qed.
  Lemma pin_new_reg p q x : w_index w p = None ->
    reg (with_index (with_heap w (w_heap w ++ [mkNode p [] 1 None])) p (Some (length (w_heap w)))) q x <-> reg w q x.
  Proof.
    intros NP. unfold reg, has, hask. cbn [with_index with_heap w_index w_made]. split.
    - intros (a & kv & E & M & nd & N & I). apply (pin_new_at p a nd NP) in N. destruct N as [N | [-> ->]]; [|cbn [nd_ids] in I; rewrite nth_nil in I; destruct I].
      exists a, kv. split; [|split; [exact M|exists nd; auto]]. destruct (pair_eqb_spec q p) as [->|NE]; [|rewrite set_index_other in E by exact NE; exact E].
      rewrite set_index_same in E. injection E as <-. apply nth_lt in N. lia.
    - intros (a & kv & E & M & nd & N & I). exists a, kv. split; [rewrite set_index_other; [exact E|congruence]|]. split; [exact M|]. exists nd. split; [apply (pin_new_at p a nd NP); auto|exact I].
  Qed.
  Lemma ginv_pin_new p : w_index w p = None -> ginv (with_index (with_heap w (w_heap w ++ [mkNode p [] 1 None])) p (Some (length (w_heap w)))).
  Proof.
    intros NP. destruct G as [g1 g2 g3 g4 g5 g6 g7 g8 g9 gd gk]. constructor; try exact g5; try exact g6; try exact g9; try exact gd; try exact gk.
    - intros q a E. cbn [with_index w_index with_heap] in E. destruct (pair_eqb_spec q p) as [->|NE].
      + rewrite set_index_same in E. injection E as <-. exists (mkNode p [] 1 None). split; [apply pin_new_at; auto|reflexivity].
      + rewrite set_index_other in E by exact NE. destruct (g1 q a E) as (nd & N & <-). exists nd. split; [apply pin_new_at; auto|reflexivity].
    - intros b n k x Nb I. apply (pin_new_at p b n NP) in Nb. destruct Nb as [Nb | [-> ->]]; [eapply g2; eauto|cbn [nd_ids] in I; rewrite nth_nil in I; destruct I].
    - intros b n k Nb. apply (pin_new_at p b n NP) in Nb. destruct Nb as [Nb | [-> ->]]; [eauto|cbn [nd_ids]; rewrite nth_nil; constructor].
    - intros b n Nb X. cbn [with_index w_index with_heap] in X. apply (pin_new_at p b n NP) in Nb. destruct Nb as [Nb | [-> ->]].
      + apply (g4 b n Nb). intros E. apply X. rewrite set_index_other; [exact E|congruence].
      + cbn [nd_pair] in X. rewrite set_index_same in X. congruence.
    - intros x kv q I D HP. apply pin_new_reg; [exact NP|]. eapply g7; eauto.
    - intros x y kv Mx My H. apply (g8 x y kv Mx My). intros q HQ. specialize (H q HQ). rewrite !pin_new_reg in H by exact NP. exact H.
  Qed.

  (** Items and flags *)
  Lemma ginv_created x kv : nth_error (w_made w) x = Some kv -> (forall p, In p kv -> reg w p x) -> ginv (with_known (with_item w x (Some kv)) x).
  Proof.
    intros M R. destruct G as [g1 g2 g3 g4 g5 g6 g7 g8 g9 gd gk]. constructor; try assumption; cbn [with_known with_item w_items w_made w_dying w_held w_known].
    - intros y kv' E. destruct (Nat.eq_dec y x) as [->|N]; [rewrite set_item_same in E; injection E as <-; cbn; auto|rewrite set_item_other in E by exact N]. destruct (g6 y kv' E). cbn. auto.
    - intros y kv' p E D HP. change (reg w p y). destruct (Nat.eq_dec y x) as [->|N]; [rewrite set_item_same in E; injection E as <-; auto|rewrite set_item_other in E by exact N; eauto].
    - intros y D. destruct (g9 y D) as [D1 D2]. split; [exact D1|]. destruct (Nat.eq_dec y x) as [->|N]; [rewrite set_item_same; discriminate|rewrite set_item_other by exact N; auto].
    - intros y D. right. auto.
    - intros y [<- | K]; [eapply nth_lt; eauto|auto].
  Qed.
  Lemma ginv_gone x : ~ In x (w_held w) -> ginv (with_item w x None).
  Proof.
    intros DX. destruct G as [g1 g2 g3 g4 g5 g6 g7 g8 g9 gd gk]. constructor; try assumption; cbn [with_item w_items w_made w_dying w_held].
    - intros y kv' E. destruct (Nat.eq_dec y x) as [->|N]; [rewrite set_item_same in E; congruence|rewrite set_item_other in E by exact N; eauto].
    - intros y kv' p E D HP. change (reg w p y). destruct (Nat.eq_dec y x) as [->|N]; [rewrite set_item_same in E; discriminate|rewrite set_item_other in E by exact N; eauto].
    - intros y D. destruct (Nat.eq_dec y x) as [->|N]; [contradiction|rewrite set_item_other by exact N; auto].
  Qed.
  Lemma In_release x y : In y (w_held (release w x)) <-> In y (w_held w) /\ y <> x.
  Proof. cbn [release with_held w_held]. rewrite filter_In. destruct (Nat.eqb_spec y x); cbn; intuition congruence. Qed.
  Lemma ginv_end x : ginv (release (with_item w x None) x).
  Proof.
    destruct G as [g1 g2 g3 g4 g5 g6 g7 g8 g9 gd gk]. constructor; try assumption; cbn [release with_held with_item w_items w_made w_dying w_known].
    - intros y kv' E. destruct (Nat.eq_dec y x) as [->|N]; [rewrite set_item_same in E; congruence|rewrite set_item_other in E by exact N; eauto].
    - intros y kv' p E D HP. change (reg w p y). destruct (Nat.eq_dec y x) as [->|N]; [rewrite set_item_same in E; discriminate|rewrite set_item_other in E by exact N].
      apply (g7 y kv' p E); [|exact HP]. intros X. apply D. change (In y (w_held (release w x))). apply In_release. auto.
    - intros y D. change (In y (w_held (release w x))) in D. apply In_release in D. destruct D as [D N]. rewrite set_item_other by exact N. auto.
  Qed.
  Lemma ginv_mark x : In x (w_known w) -> ginv (with_dying w x true).
  Proof.
    intros I. destruct G as [g1 g2 g3 g4 g5 g6 g7 g8 g9 gd gk]. constructor; try assumption; cbn [with_dying w_items w_made w_dying w_held w_known].
    - intros y D. destruct (g9 y D). split; [|assumption]. destruct (Nat.eq_dec y x) as [->|N]; [apply set_item_same|rewrite set_item_other by exact N; auto].
    - intros y D. destruct (Nat.eq_dec y x) as [->|N]; [exact I|rewrite set_item_other in D by exact N; auto].
  Qed.
  Lemma ginv_unmark x : ~ In x (w_held w) -> ginv (with_dying w x false).
  Proof.
    intros NH. destruct G as [g1 g2 g3 g4 g5 g6 g7 g8 g9 gd gk]. constructor; try assumption; cbn [with_dying w_items w_made w_dying w_held w_known].
    - intros y D. destruct (g9 y D). split; [|assumption]. destruct (Nat.eq_dec y x) as [->|N]; [contradiction|rewrite set_item_other by exact N; auto].
    - intros y D. destruct (Nat.eq_dec y x) as [->|N]; [rewrite set_item_same in D; discriminate|rewrite set_item_other in D by exact N; auto].
  Qed.
  Lemma ginv_hold x : w_dying w x = true -> w_items w x <> None -> ginv (with_held w (x :: w_held w)).
  Proof.
    intros D I. destruct G as [g1 g2 g3 g4 g5 g6 g7 g8 g9 gd gk]. constructor; try assumption; cbn [with_held w_items w_made w_dying w_held w_known].
    - intros y kv p E H HP. change (reg w p y). apply (g7 y kv p E); [|exact HP]. intros X. apply H. right. exact X.
    - intros y [<- | H]; auto.
  Qed.
  Lemma ginv_release x kv : w_items w x = Some kv -> (forall p, In p kv -> reg w p x) -> ginv (release w x).
  Proof.
    intros I R. destruct G as [g1 g2 g3 g4 g5 g6 g7 g8 g9 gd gk]. constructor; try assumption; cbn [release with_held w_items w_made w_dying w_known].
    - intros y kv' p E H HP. change (reg w p y). destruct (Nat.eq_dec y x) as [->|N]; [rewrite I in E; injection E as <-; auto|]. apply (g7 y kv' p E); [|exact HP].
      intros X. apply H. change (In y (w_held (release w x))). apply In_release. auto.
    - intros y D. change (In y (w_held (release w x))) in D. apply In_release in D. destruct D as [D _]. auto.
  Qed.

  (** An empty node leaves the index *)
  Lemma drop_reg p a nd q x : w_index w p = Some a -> node_at w a nd -> nd_ids nd = [] -> reg (with_index w p None) q x <-> reg w q x.
  Proof.
    intros E N EI. unfold reg. cbn [with_index w_index w_made]. split; intros (b & kv & Eb & M & H).
    - exists b, kv. split; [|auto]. destruct (pair_eqb_spec q p) as [->|NE]; [rewrite set_index_same in Eb; discriminate|rewrite set_index_other in Eb by exact NE; exact Eb].
    - exists b, kv. split; [|auto]. destruct (pair_eqb_spec q p) as [->|NE]; [|rewrite set_index_other by exact NE; exact Eb]. exfalso.
      rewrite E in Eb. injection Eb as <-. destruct H as (nd' & N' & I). rewrite (node_fun _ _ _ _ N' N), EI in I. rewrite nth_nil in I. destruct I.
  Qed.
  Lemma ginv_drop p a nd : w_index w p = Some a -> node_at w a nd -> nd_ids nd = [] -> nd_creating nd = 0 -> ginv (with_index w p None).
  Proof.
    intros E N EI EC. destruct G as [g1 g2 g3 g4 g5 g6 g7 g8 g9 gd gk]. constructor; try assumption.
    - intros q b Eb. cbn [with_index w_index] in Eb. destruct (pair_eqb_spec q p) as [->|NE]; [rewrite set_index_same in Eb; discriminate|rewrite set_index_other in Eb by exact NE; apply g1; exact Eb].
    - intros b n Nb X. cbn [with_index w_index] in X. destruct (pair_eqb_spec (nd_pair n) p) as [EP|NE]; [|rewrite set_index_other in X by exact NE; apply (g4 b n Nb X)].
      destruct (Nat.eq_dec b a) as [->|NB]; [rewrite (node_fun _ _ _ _ Nb N); auto|]. apply (g4 b n Nb). rewrite EP. congruence.
    - intros x kv q I D HP. rewrite (drop_reg p a nd q x E N EI). eauto.
    - intros x y kv Mx My H. apply (g8 x y kv Mx My). intros q HQ. specialize (H q HQ). rewrite !(drop_reg p a nd q _ E N EI) in H. exact H.
  Qed.

  (** An id leaves some nodes *)
  Definition cut (n x : nat) (nd : node) : node := on_ids (fun ids => truncate (del_id n x ids)) nd.
  Lemma nth_cut n x nd k : nth k (nd_ids (cut n x nd)) [] = if Nat.eqb k (n - 1) then filter (fun y => negb (Nat.eqb y x)) (nth k (nd_ids nd) []) else nth k (nd_ids nd) [].
  Proof. cbn [cut on_ids nd_ids]. rewrite nth_truncate. apply nth_del_id. Qed.
  Definition cut_world (n x : nat) (l : list nat) : world := with_heap w (map_nodes (cut n x) (w_heap w) l).
  Lemma cut_at n x l b nd' : NoDup l -> node_at (cut_world n x l) b nd' -> exists nd, node_at w b nd /\ nd_pair nd' = nd_pair nd /\ nd_creating nd' = nd_creating nd /\ nd_lock nd' = nd_lock nd /\
    (nd' = nd \/ In b l /\ nd' = cut n x nd).
  Proof.
    intros ND. unfold node_at, cut_world. cbn [with_heap w_heap]. rewrite map_nodes_in by exact ND. destruct (in_dec Nat.eq_dec b l) as [I | I].
    - destruct (nth_error (w_heap w) b) as [nd|] eqn:E; cbn; [|discriminate]. intros [= <-]. exists nd. cbn. auto 8.
    - intros E. exists nd'. auto 8.
  Qed.
  Lemma at_cut n x l b nd : NoDup l -> node_at w b nd -> node_at (cut_world n x l) b (if in_dec Nat.eq_dec b l then cut n x nd else nd).
  Proof. intros ND N. unfold node_at, cut_world in *. cbn [with_heap w_heap]. rewrite map_nodes_in by exact ND. destruct (in_dec Nat.eq_dec b l); rewrite N; reflexivity. Qed.
  Lemma cut_has n x l b k y : NoDup l -> hask (cut_world n x l) b k y -> hask w b k y.
  Proof.
    intros ND (nd' & N' & I). destruct (cut_at n x l b nd' ND N') as (nd & N & _ & _ & _ & [-> | [_ ->]]); [exists nd; auto|]. exists nd. split; [exact N|].
    rewrite nth_cut in I. destruct (Nat.eqb k (n - 1)); [apply filter_In in I; apply I|exact I].
  Qed.
  Lemma has_cut n x l b k y : NoDup l -> hask w b k y -> y <> x \/ ~ In b l -> hask (cut_world n x l) b k y.
  Proof.
    intros ND (nd & N & I) NE. eexists. split; [apply (at_cut n x l b nd ND N)|]. destruct (in_dec Nat.eq_dec b l) as [IB | IB]; [|exact I]. rewrite nth_cut.
    destruct (Nat.eqb k (n - 1)); [|exact I]. apply filter_In. split; [exact I|]. destruct (Nat.eqb_spec y x); [|reflexivity]. destruct NE; [congruence|contradiction].
  Qed.
  Lemma cut_gone n x l b : NoDup l -> In b l -> ~ hask (cut_world n x l) b (n - 1) x.
  Proof.
    intros ND IB (nd' & N' & I). destruct (nth_error (w_heap w) b) as [nd|] eqn:E.
    - pose proof (at_cut n x l b nd ND E) as N. rewrite (node_fun _ _ _ _ N' N) in I. destruct (in_dec Nat.eq_dec b l); [|contradiction].
      rewrite nth_cut, Nat.eqb_refl in I. apply filter_In in I. destruct I as [_ I]. rewrite Nat.eqb_refl in I. discriminate.
    - unfold node_at, cut_world in N'. cbn [with_heap w_heap] in N'. rewrite map_nodes_in in N' by exact ND. destruct (in_dec Nat.eq_dec b l); [|contradiction]. rewrite E in N'. discriminate.
  Qed.
  Lemma cut_reg n x l q y : NoDup l -> reg (cut_world n x l) q y -> reg w q y.
  Proof. intros ND (a & kv & E & M & H). exists a, kv. split; [exact E|split; [exact M|]]. eapply cut_has; eauto. Qed.
  Lemma reg_cut n x l q y : NoDup l -> reg w q y -> y <> x -> reg (cut_world n x l) q y.
  Proof. intros ND (a & kv & E & M & H) NE. exists a, kv. split; [exact E|split; [exact M|]]. apply has_cut; auto. Qed.
  Lemma ginv_cut n x l : NoDup l -> w_items w x = None \/ In x (w_held w) -> ginv (cut_world n x l).
  Proof.
    intros ND NX. destruct G as [g1 g2 g3 g4 g5 g6 g7 g8 g9 gd gk]. constructor; try assumption.
    - intros p a E. destruct (g1 p a E) as (nd & N & <-). eexists. split; [apply (at_cut n x l a nd ND N)|]. destruct (in_dec Nat.eq_dec a l); reflexivity.
    - intros a nd k y N I. destruct (cut_at n x l a nd ND N) as (nd0 & N0 & P & _ & _ & [-> | [_ ->]]); [eauto|]. rewrite P. apply (g2 a nd0 k y N0).
      rewrite nth_cut in I. destruct (Nat.eqb k (n - 1)); [apply filter_In in I; apply I|exact I].
    - intros a nd k N. destruct (cut_at n x l a nd ND N) as (nd0 & N0 & P & _ & _ & [-> | [_ ->]]); [eauto|]. rewrite nth_cut. destruct (Nat.eqb k (n - 1)); [apply NoDup_filter|]; eauto.
    - intros a nd N X. destruct (cut_at n x l a nd ND N) as (nd0 & N0 & P & PC & _ & C). rewrite P in X. destruct (g4 a nd0 N0 X) as [EI EC]. split; [|congruence].
      destruct C as [-> | [_ ->]]; [exact EI|]. cbn [cut on_ids nd_ids]. rewrite EI. unfold del_id. destruct (n - 1); reflexivity.
    - intros y kv p E D HP. apply reg_cut; [exact ND|eapply g7; eauto|]. intros ->. destruct NX as [NX | NX]; [change (w_items w x = Some kv) in E; congruence|contradiction].
    - intros u v kv Mu Mv H. apply (g8 u v kv Mu Mv). intros p HP. destruct (H p HP) as [H1 H2]. split; eapply cut_reg; eauto.
  Qed.

  (** A new id *)
  Definition add_world (kv : kvs) (l : list nat) : world :=
    with_heap (with_id w kv) (map_nodes (on_ids (add_id (length kv) (length (w_made w)))) (w_heap w) l).
  Section Add.
    Variables (kv : kvs) (l : list nat).
    Hypothesis KV : kv_ok kv.
    Hypothesis C : Forall2 (cur w) kv l.
    Hypothesis LEN : forall a nd, In a l -> node_at w a nd -> length kv <= length (nd_ids nd).
    Let new := length (w_made w).
    Lemma kv_pos : 0 < length kv.
    Proof. destruct KV as [N _]. destruct kv; [congruence|cbn; lia]. Qed.
    Lemma add_ND : NoDup l.
    Proof. eapply cur_nodup; [apply kv_nodup, KV|exact C]. Qed.
    Lemma cur_find a : In a l -> exists p, In p kv /\ cur w p a.
    Proof. intros I. clear - C I. induction C as [|p b kv' l' H F IH]; [destruct I|]. destruct I as [-> | I]; [exists p; cbn; auto|]. destruct IH as (q & H1 & H2); auto. exists q. cbn. auto. Qed.
    Lemma cur_find' p : In p kv -> exists a, In a l /\ cur w p a.
    Proof. intros I. clear - C I. induction C as [|q b kv' l' H F IH]; [destruct I|]. destruct I as [-> | I]; [exists b; cbn; auto|]. destruct IH as (a & H1 & H2); auto. exists a. cbn. auto. Qed.
    Lemma add_at b nd' : node_at (add_world kv l) b nd' -> exists nd, node_at w b nd /\ nd_pair nd' = nd_pair nd /\ nd_creating nd' = nd_creating nd /\ nd_lock nd' = nd_lock nd /\
      (nd' = nd /\ ~ In b l \/ In b l /\ nd' = on_ids (add_id (length kv) new) nd).
    Proof.
      unfold node_at, add_world. cbn [with_heap with_id w_heap]. rewrite map_nodes_in by apply add_ND. destruct (in_dec Nat.eq_dec b l) as [I | I].
      - destruct (nth_error (w_heap w) b) as [nd|] eqn:E; cbn; [|discriminate]. intros [= <-]. exists nd. cbn. auto 8.
      - intros E. exists nd'. auto 8.
    Qed.
    Lemma at_add b nd : node_at w b nd -> node_at (add_world kv l) b (if in_dec Nat.eq_dec b l then on_ids (add_id (length kv) new) nd else nd).
    Proof. intros N. unfold node_at, add_world in *. cbn [with_heap with_id w_heap]. rewrite map_nodes_in by apply add_ND. destruct (in_dec Nat.eq_dec b l); rewrite N; reflexivity. Qed.
    Lemma nth_add b nd k : In b l -> node_at w b nd -> nth k (nd_ids (on_ids (add_id (length kv) new) nd)) [] = if Nat.eqb k (length kv - 1) then nth k (nd_ids nd) [] ++ [new] else nth k (nd_ids nd) [].
    Proof. intros I N. cbn [on_ids nd_ids]. apply nth_add_id; [apply kv_pos|apply (LEN b nd I N)]. Qed.
    Lemma add_has b k y : hask (add_world kv l) b k y -> hask w b k y \/ y = new /\ In b l /\ k = length kv - 1.
    Proof.
      intros (nd' & N' & I). destruct (add_at b nd' N') as (nd & N & _ & _ & _ & [[-> _] | [IB ->]]); [left; exists nd; auto|].
      rewrite (nth_add b nd k IB N) in I. destruct (Nat.eqb_spec k (length kv - 1)) as [EK|]; [|left; exists nd; auto]. apply in_app_iff in I. destruct I as [I | [<- | []]]; [left; exists nd; auto|right; auto].
    Qed.
    Lemma has_add b k y : hask w b k y -> hask (add_world kv l) b k y.
    Proof.
      intros (nd & N & I). eexists. split; [apply (at_add b nd N)|]. destruct (in_dec Nat.eq_dec b l) as [IB | IB]; [|exact I]. rewrite (nth_add b nd k IB N). destruct (Nat.eqb k _); [apply in_or_app; auto|exact I].
    Qed.
    Lemma has_new b : In b l -> hask (add_world kv l) b (length kv - 1) new.
    Proof.
      intros IB. destruct (cur_find b IB) as (p & _ & CP). destruct (g_index w G p b CP) as (nd & N & _). eexists. split; [apply (at_add b nd N)|]. destruct (in_dec Nat.eq_dec b l); [|contradiction].
      rewrite (nth_add b nd _ IB N), Nat.eqb_refl. apply in_or_app. right. left. reflexivity.
    Qed.
    Lemma made_add x kv' : nth_error (w_made w) x = Some kv' -> nth_error (w_made (add_world kv l)) x = Some kv'.
    Proof. intros M. cbn [add_world with_heap with_id w_made]. rewrite nth_error_app1 by (eapply nth_lt; eauto). exact M. Qed.
    Lemma made_new : nth_error (w_made (add_world kv l)) new = Some kv.
    Proof. cbn [add_world with_heap with_id w_made]. rewrite nth_error_app2 by (unfold new; lia). unfold new. rewrite Nat.sub_diag. reflexivity. Qed.
    Lemma add_made x kv' : nth_error (w_made (add_world kv l)) x = Some kv' -> nth_error (w_made w) x = Some kv' \/ x = new /\ kv' = kv.
    Proof.
      cbn [add_world with_heap with_id w_made]. intros M. destruct (Nat.lt_ge_cases x new) as [L | L]; [rewrite nth_error_app1 in M by exact L; auto|].
      rewrite nth_error_app2 in M by exact L. unfold new in *. destruct (x - length (w_made w)) as [|[|]] eqn:E; try discriminate. injection M as <-. right. split; [lia|reflexivity].
    Qed.
    Lemma reg_add q y : reg w q y -> reg (add_world kv l) q y.
    Proof. intros (a & kv' & E & M & H). exists a, kv'. split; [exact E|split; [apply made_add, M|]]. apply has_add, H. Qed.
    Lemma add_reg q y : reg (add_world kv l) q y -> y < new -> reg w q y.
    Proof.
      intros (a & kv' & E & M & H) L. destruct (add_made y kv' M) as [M' | [-> _]]; [|lia]. exists a, kv'. split; [exact E|split; [exact M'|]]. destruct (add_has _ _ _ H) as [H' | [-> _]]; [exact H'|lia].
    Qed.
    Lemma reg_new p : In p kv -> reg (add_world kv l) p new.
    Proof. intros I. destruct (cur_find' p I) as (a & IA & CP). exists a, kv. split; [exact CP|split; [apply made_new|]]. apply has_new, IA. Qed.
    Hypothesis NONE : forall x, ~ (forall a, In a l -> has w a (length kv) x).
    Lemma ginv_add : ginv (add_world kv l).
    Proof.
      destruct G as [g1 g2 g3 g4 g5 g6 g7 g8 g9 gd gk]. constructor.
      - intros p a E. destruct (g1 p a E) as (nd & N & <-). eexists. split; [apply (at_add a nd N)|]. destruct (in_dec Nat.eq_dec a l); reflexivity.
      - intros a nd k y N I. destruct (add_at a nd N) as (nd0 & N0 & P & _ & _ & _). assert (H : hask (add_world kv l) a k y) by (exists nd; auto). destruct (add_has a k y H) as [(nd1 & N1 & I1) | (-> & IA & ->)].
        + rewrite P. rewrite (node_fun _ _ _ _ N1 N0) in I1. destruct (g2 a nd0 k y N0 I1) as (kv' & M & L & IP). exists kv'. split; [apply made_add, M|auto].
        + exists kv. split; [apply made_new|]. split; [pose proof kv_pos; lia|]. rewrite P. destruct (cur_find a IA) as (p & IP & CP). destruct (g1 p a CP) as (nd1 & N1 & <-). rewrite (node_fun _ _ _ _ N0 N1). exact IP.
      - intros a nd k N. destruct (add_at a nd N) as (nd0 & N0 & _ & _ & _ & [[-> _] | [IA ->]]); [eauto|]. rewrite (nth_add a nd0 k IA N0). destruct (Nat.eqb k _); [|eauto].
        apply NoDup_Add with (a := new) (l := nth k (nd_ids nd0) []); [|split; [eauto|]].
        + rewrite <- (app_nil_r (nth k (nd_ids nd0) [])) at 1. apply Add_app.
        + intros I. destruct (g2 a nd0 k new N0 I) as (kv' & M & _). apply nth_lt in M. unfold new in M. lia.
      - intros a nd N X. destruct (add_at a nd N) as (nd0 & N0 & P & PC & _ & Q). rewrite P in X. destruct (g4 a nd0 N0 X) as [EI EC]. split; [|congruence]. destruct Q as [[-> _] | [IA ->]]; [exact EI|]. exfalso.
        destruct (cur_find a IA) as (p & _ & CP). destruct (g1 p a CP) as (nd1 & N1 & EP). rewrite (node_fun _ _ _ _ N0 N1) in X. rewrite EP in X. apply X. exact CP.
      - intros x kv' M. destruct (add_made x kv' M) as [M' | [_ ->]]; [eauto|exact KV].
      - intros x kv' E. destruct (g6 x kv' E). split; [apply made_add; assumption|assumption].
      - intros x kv' p E D HP. apply reg_add. eapply g7; eauto.
      - intros x y kv' Mx My H. destruct (add_made x kv' Mx) as [Mx' | [-> ->]], (add_made y _ My) as [My' | [-> EQ]].
        + apply (g8 x y kv' Mx' My'). intros p HP. destruct (H p HP). apply nth_lt in Mx'. apply nth_lt in My'. split; apply add_reg; auto.
        + subst kv'. exfalso. apply (NONE x). intros a IA. destruct (cur_find a IA) as (p & IP & CP). destruct (H p IP) as [H1 _]. apply nth_lt in Mx' as LX. apply add_reg in H1; [|exact LX].
          destruct H1 as (a' & kv' & E & M & HH). unfold cur in CP. rewrite CP in E. injection E as <-. rewrite Mx' in M. injection M as <-. exact HH.
        + exfalso. apply (NONE y). intros a IA. destruct (cur_find a IA) as (p & IP & CP). destruct (H p IP) as [_ H1]. apply nth_lt in My' as LX. apply add_reg in H1; [|exact LX].
          destruct H1 as (a' & kv' & E & M & HH). unfold cur in CP. rewrite CP in E. injection E as <-. rewrite My' in M. injection M as <-. exact HH.
        + reflexivity.
      - intros x D. apply (g9 x D).
      - exact gd.
      - intros x K. cbn [add_world with_heap with_id w_made]. rewrite app_length. specialize (gk x K). lia.
    Qed.
  End Add.
End G.
