(** Lemmas about the operations of [AssocSync.v]. *)
From Coq Require Import List Bool Arith Lia.
Import ListNotations.
From Verif Require Import AssocSync.

Lemma pair_eqb_spec p q : reflect (p = q) (pair_eqb p q).
Proof.
  unfold pair_eqb. destruct p as [a b], q as [c d]. cbn. destruct (Nat.eqb_spec a c), (Nat.eqb_spec b d); cbn; constructor; congruence.
Qed.
Lemma set_index_same f p a : set_index f p a p = a.
Proof. unfold set_index. destruct (pair_eqb_spec p p); congruence. Qed.
Lemma set_index_other f p a q : q <> p -> set_index f p a q = f q.
Proof. unfold set_index. destruct (pair_eqb_spec q p); congruence. Qed.
Lemma set_item_same {X} (f : nat -> X) x v : set_item f x v x = v.
Proof. unfold set_item. rewrite Nat.eqb_refl. reflexivity. Qed.
Lemma set_item_other {X} (f : nat -> X) x v y : y <> x -> set_item f x v y = f y.
Proof. unfold set_item. destruct (Nat.eqb_spec y x); congruence. Qed.

Lemma nth_set_nth {A} (l : list A) i x j : i < length l -> nth_error (set_nth l i x) j = if Nat.eqb j i then Some x else nth_error l j.
Proof.
  revert i j. induction l as [|y l IH]; intros i j L; cbn in L; [lia|]. destruct i as [|i], j as [|j]; cbn; auto. apply IH. lia.
Qed.
Lemma nth_lt {A} (l : list A) i x : nth_error l i = Some x -> i < length l.
Proof. intros H. apply nth_error_Some. congruence. Qed.
Lemma nth_set {A} (l : list A) i x y j : nth_error l i = Some y -> nth_error (set_nth l i x) j = if Nat.eqb j i then Some x else nth_error l j.
Proof. intros H. apply nth_set_nth. eapply nth_lt; eauto. Qed.
Lemma nth_set_same {A} (l : list A) i x y : nth_error l i = Some y -> nth_error (set_nth l i x) i = Some x.
Proof. intros H. rewrite (nth_set _ _ _ _ _ H), Nat.eqb_refl. reflexivity. Qed.
Lemma nth_set_other {A} (l : list A) i x j : j <> i -> nth_error (set_nth l i x) j = nth_error l j.
Proof. revert i j. induction l as [|y l IH]; intros [|i] [|j] N; cbn; auto; try congruence. Qed.
Lemma length_set_nth {A} (l : list A) i x : length (set_nth l i x) = length l.
Proof. revert i. induction l as [|y l IH]; intros [|i]; cbn; auto. Qed.

Lemma map_nodes_in f h l a : NoDup l -> nth_error (map_nodes f h l) a = if in_dec Nat.eq_dec a l then option_map f (nth_error h a) else nth_error h a.
Proof.
  revert h. induction l as [|b l IH]; intros h ND; [reflexivity|]. inversion ND; subst. cbn [map_nodes]. rewrite IH by assumption.
  destruct (nth_error h b) as [nd|] eqn:E.
  - destruct (in_dec Nat.eq_dec a l) as [I | I], (in_dec Nat.eq_dec a (b :: l)) as [J | J]; try (exfalso; cbn in J; tauto).
    + rewrite nth_set_other; [reflexivity|]. congruence.
    + assert (a = b) as -> by (destruct J as [|]; [congruence|contradiction]). rewrite (nth_set_same _ _ _ _ E), E. reflexivity.
    + rewrite nth_set_other; [reflexivity|]. cbn in J. intuition congruence.
  - destruct (in_dec Nat.eq_dec a l) as [I | I], (in_dec Nat.eq_dec a (b :: l)) as [J | J]; try (exfalso; cbn in J; tauto); auto.
    assert (a = b) as -> by (destruct J as [|]; [congruence|contradiction]). rewrite E. reflexivity.
Qed.
Lemma map_nodes_length f h l : length (map_nodes f h l) = length h.
Proof. revert h. induction l as [|b l IH]; intros h; [reflexivity|]. cbn [map_nodes]. rewrite IH. destruct (nth_error h b); [apply length_set_nth|reflexivity]. Qed.

(** *** Levels *)
Lemma nth_repeat_nil k m : nth k (repeat (@nil nat) m) [] = [].
Proof. revert k. induction m as [|m IH]; intros [|k]; cbn; auto. Qed.
Lemma nth_grow n ids k : nth k (grow n ids) [] = nth k ids [].
Proof.
  unfold grow. destruct (Nat.lt_ge_cases k (length ids)) as [L | L]; [apply app_nth1, L|]. rewrite app_nth2 by exact L. rewrite nth_repeat_nil, nth_overflow by exact L. reflexivity.
Qed.
Lemma level_grow n m ids : level n (grow m ids) = level n ids.
Proof. apply nth_grow. Qed.
Lemma length_grow n ids : n <= length (grow n ids).
Proof. unfold grow. rewrite app_length, repeat_length. lia. Qed.
Lemma nth_at_level f k ids j : f [] = [] \/ k < length ids -> nth j (at_level f k ids) [] = if Nat.eqb j k then f (nth j ids []) else nth j ids [].
Proof.
  revert k j. induction ids as [|l r IH]; intros k j H.
  - destruct H as [H | H]; [|cbn in H; lia]. assert (Z : nth j (@nil (list nat)) [] = []) by (destruct j; reflexivity). destruct k; cbn [at_level]; rewrite Z, H; destruct (Nat.eqb j _); reflexivity.
  - destruct k as [|k], j as [|j]; cbn; auto. apply IH. destruct H as [|H]; [auto|right; cbn in H; lia].
Qed.
Lemma length_at_level f k ids : length (at_level f k ids) = length ids.
Proof. revert k. induction ids as [|l r IH]; intros [|k]; cbn; auto. Qed.
Lemma nth_add_id n x ids j : 0 < n -> n <= length ids -> nth j (add_id n x ids) [] = if Nat.eqb j (n - 1) then nth j ids [] ++ [x] else nth j ids [].
Proof. intros L L'. unfold add_id. rewrite nth_at_level by (right; lia). reflexivity. Qed.
Lemma nth_del_id n x ids j : nth j (del_id n x ids) [] = if Nat.eqb j (n - 1) then filter (fun y => negb (Nat.eqb y x)) (nth j ids []) else nth j ids [].
Proof. unfold del_id. rewrite nth_at_level by (left; reflexivity). reflexivity. Qed.
Lemma nth_truncate ids j : nth j (truncate ids) [] = nth j ids [].
Proof.
  revert j. induction ids as [|l r IH]; intros j; [reflexivity|]. cbn [truncate].
  assert (T : l = [] /\ truncate r = [] \/ (match l, truncate r with [], [] => [] | _, r' => l :: r' end) = l :: truncate r).
  { destruct l; [|right; reflexivity]. destruct (truncate r); auto. }
  destruct T as [[-> T] | T].
  - rewrite T in *. cbn. destruct j as [|j]; [reflexivity|]. specialize (IH j). rewrite <- IH. destruct j; reflexivity.
  - rewrite T. destruct j as [|j]; cbn; auto.
Qed.

(** *** Sets of ids *)
Lemma In_meet acc l x : In x (meet acc l) <-> match acc with Some s => In x s | None => True end /\ In x l.
Proof.
  destruct acc as [s|]; cbn; [|tauto]. rewrite filter_In, existsb_exists. split.
  - intros [H (y & H1 & H2)]. apply Nat.eqb_eq in H2. subst y. tauto.
  - intros [H1 H2]. split; [exact H1|]. exists x. rewrite Nat.eqb_refl. auto.
Qed.
Lemma NoDup_filter {A} (f : A -> bool) l : NoDup l -> NoDup (filter f l).
Proof. induction 1 as [|x l N ND IH]; cbn; [constructor|]. destruct (f x); [constructor; [rewrite filter_In; tauto|exact IH]|exact IH]. Qed.
Lemma NoDup_meet acc l : match acc with Some s => NoDup s | None => True end -> NoDup l -> NoDup (meet acc l).
Proof. destruct acc as [s|]; cbn; intros H1 H2; [apply NoDup_filter, H1|exact H2]. Qed.

(** *** Key-values *)
Lemma increasing_nodup l : increasing l -> NoDup l.
Proof. induction l as [|x l IH]; cbn; intros H; constructor; [intros I; destruct H as [H _]; specialize (H x I); lia|apply IH, H]. Qed.
Lemma kv_nodup kv : kv_ok kv -> NoDup kv.
Proof. intros [_ H]. apply (NoDup_map_inv fst), increasing_nodup, H. Qed.
Lemma increasing_incl l l' : increasing l -> increasing l' -> length l = length l' -> incl l l' -> l = l'.
Proof.
  revert l'. induction l as [|x l IH]; intros [|y l'] I I' L S; try discriminate; [reflexivity|]. cbn in I, I', L.
  assert (P : incl l' (x :: l)).
  { assert (Q : incl (y :: l') (x :: l)). { apply (NoDup_length_incl (l := x :: l) (l' := y :: l')); [apply (increasing_nodup (x :: l)), I|cbn; lia|exact S]. }
    intros z Hz. apply Q. right. exact Hz. }
  assert (E : x = y).
  { assert (X : In x (y :: l')) by (apply S; left; reflexivity).
    assert (Q : incl (y :: l') (x :: l)). { apply (NoDup_length_incl (l := x :: l) (l' := y :: l')); [apply (increasing_nodup (x :: l)), I|cbn; lia|exact S]. }
    assert (Y : In y (x :: l)) by (apply Q; left; reflexivity). destruct X as [<- | X]; [reflexivity|]. destruct Y as [<- | Y]; [reflexivity|].
    destruct I as [I _], I' as [I' _]. specialize (I y Y). specialize (I' x X). lia. }
  subst y. f_equal. apply IH; [apply I|apply I'|lia|]. intros z Hz. assert (Z : In z (x :: l')) by (apply S; right; exact Hz).
  destruct Z as [<- | Z]; [|exact Z]. destruct I as [I _]. specialize (I x Hz). lia.
Qed.
Lemma kv_same kv kv' : kv_ok kv -> kv_ok kv' -> length kv = length kv' -> incl kv kv' -> kv = kv'.
Proof.
  intros [N I] [N' I'] L S.
  assert (M : map fst kv = map fst kv').
  { apply increasing_incl; auto; [rewrite !map_length; exact L|]. intros k Hk. apply in_map_iff in Hk. destruct Hk as (p & <- & Hp). apply in_map, S, Hp. }
  assert (X : forall a b : kvs, map fst a = map fst b -> NoDup (map fst b) -> incl a b -> a = b).
  { clear. induction a as [|p a IH]; intros [|q b] M ND S; try discriminate; [reflexivity|]. cbn in M, ND. injection M as E M. inversion ND; subst.
    assert (p = q) as ->.
    { assert (X : In p (q :: b)) by (apply S; left; reflexivity). destruct X as [<- | X]; [reflexivity|]. exfalso. apply H1. rewrite <- E. apply in_map, X. }
    f_equal. apply IH; auto. intros z Hz. assert (Z : In z (q :: b)) by (apply S; right; exact Hz). destruct Z as [<- | Z]; [|exact Z]. exfalso. apply H1. rewrite <- M. apply in_map, Hz. }
  apply X; auto. apply increasing_nodup, I'.
Qed.
