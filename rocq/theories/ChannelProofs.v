(** The invariant of a queue channel *)
From Coq Require Import String List Bool Arith NArith ZArith Lia Permutation.
From Verif Require Import Channel SpecChannel.
Import ListNotations.

(** *** The map of items *)
Lemma get_put_same i x l : get i (put i x l) = Some x.
Proof.
  induction l as [|[j y] t IH]; cbn [put get]; [rewrite Nat.eqb_refl; reflexivity|].
  destruct (Nat.eqb i j) eqn:E; cbn [get]; rewrite E; auto.
Qed.
Lemma get_put_other i j x l : i <> j -> get j (put i x l) = get j l.
Proof.
  intros N. induction l as [|[k y] t IH]; cbn [put get].
  - destruct (Nat.eqb_spec j i); [congruence|reflexivity].
  - destruct (Nat.eqb_spec i k); cbn [get]; destruct (Nat.eqb_spec j k); subst; try congruence; auto.
Qed.
Lemma get_put i j x l : get j (put i x l) = if Nat.eqb j i then Some x else get j l.
Proof.
  destruct (Nat.eqb_spec j i); [subst; apply get_put_same|apply get_put_other; congruence].
Qed.
Lemma get_in i x l : get i l = Some x -> In (i, x) l.
Proof.
  induction l as [|[j y] t IH]; cbn [get]; [discriminate|]. destruct (Nat.eqb_spec i j).
  - intros [= ->]. subst. left. reflexivity.
  - intros H. right. auto.
Qed.
Lemma get_none i l : get i l = None <-> ~ In i (map fst l).
Proof.
  induction l as [|[j y] t IH]; cbn [get map fst]; [tauto|]. destruct (Nat.eqb_spec i j).
  - split; [discriminate|]. intros H. exfalso. apply H. left. auto.
  - rewrite IH. split; [intros H [E|E]; [congruence|auto]|intros H E; apply H; right; auto].
Qed.
Lemma in_get i x l : NoDup (map fst l) -> In (i, x) l -> get i l = Some x.
Proof.
  induction l as [|[j y] t IH]; cbn [get map fst]; [intros _ []|]. intros N [[= -> ->]|I].
  - rewrite Nat.eqb_refl. reflexivity.
  - destruct (Nat.eqb_spec i j); inversion N; subst.
    + exfalso. apply H1. change j with (fst (j, x)). apply in_map, I.
    + auto.
Qed.
Lemma get_del_same i l : NoDup (map fst l) -> get i (del i l) = None.
Proof.
  induction l as [|[j y] t IH]; cbn [del get map fst]; [reflexivity|]. intros N. inversion N; subst.
  destruct (Nat.eqb_spec i j); cbn [get].
  - subst. apply get_none, H1.
  - destruct (Nat.eqb_spec i j); [congruence|auto].
Qed.
Lemma get_del_other i j l : i <> j -> get j (del i l) = get j l.
Proof.
  intros N. induction l as [|[k y] t IH]; cbn [del get]; [reflexivity|].
  destruct (Nat.eqb_spec i k); cbn [get]; destruct (Nat.eqb_spec j k); subst; try congruence; auto.
Qed.
Lemma get_del i j l : NoDup (map fst l) -> get j (del i l) = if Nat.eqb j i then None else get j l.
Proof.
  intros N. destruct (Nat.eqb_spec j i); [subst; apply get_del_same, N|apply get_del_other; congruence].
Qed.
Lemma keys_put i x l k : In k (map fst (put i x l)) <-> k = i \/ In k (map fst l).
Proof.
  induction l as [|[j y] t IH]; cbn [put map fst In]; [intuition|]. destruct (Nat.eqb_spec i j); cbn [map fst In].
  - subst. intuition.
  - rewrite IH. intuition.
Qed.
Lemma keys_put_nodup i x l : NoDup (map fst l) -> NoDup (map fst (put i x l)).
Proof.
  induction l as [|[j y] t IH]; cbn [put map fst]; intros N; [repeat constructor; intros []|].
  inversion N; subst. destruct (Nat.eqb_spec i j); cbn [map fst].
  - constructor; auto.
  - constructor; auto. rewrite keys_put. intros [E|E]; [congruence|auto].
Qed.
Lemma keys_del i l k : In k (map fst (del i l)) -> In k (map fst l).
Proof.
  induction l as [|[j y] t IH]; cbn [del map fst In]; [tauto|]. destruct (Nat.eqb i j); cbn [map fst In]; intuition.
Qed.
Lemma keys_del_nodup i l : NoDup (map fst l) -> NoDup (map fst (del i l)).
Proof.
  induction l as [|[j y] t IH]; cbn [del map fst]; intros N; [constructor|]. inversion N; subst.
  destruct (Nat.eqb i j); cbn [map fst]; [auto|]. constructor; auto. intros E. apply H1. eapply keys_del, E.
Qed.
Lemma length_put_some i x y l : get i l = Some y -> length (put i x l) = length l.
Proof.
  induction l as [|[j z] t IH]; cbn [get put length]; [discriminate|].
  destruct (Nat.eqb i j); cbn [length]; auto.
Qed.
Lemma length_put_none i x l : get i l = None -> length (put i x l) = S (length l).
Proof.
  induction l as [|[j z] t IH]; cbn [get put length]; [reflexivity|].
  destruct (Nat.eqb i j); cbn [length]; [discriminate|auto].
Qed.
Lemma length_del i y l : get i l = Some y -> S (length (del i l)) = length l.
Proof.
  induction l as [|[j z] t IH]; cbn [get del length]; [discriminate|].
  destruct (Nat.eqb i j); cbn [length]; [reflexivity|]. intros H. rewrite IH; auto.
Qed.

(** *** The end of a list *)
Lemma last_id_none l : last_id l = None <-> l = [].
Proof.
  unfold last_id. destruct l as [|a t] using rev_ind; [tauto|]. rewrite rev_app_distr. cbn [rev app].
  split; [discriminate|]. intros E. destruct t; discriminate E.
Qed.
Lemma last_id_some l j : last_id l = Some j <-> l = removelast l ++ [j].
Proof.
  unfold last_id. destruct l as [|a t] using rev_ind.
  - split; [discriminate|]. intros E. discriminate E.
  - rewrite rev_app_distr, removelast_last. cbn [rev app]. split.
    + intros [= ->]. reflexivity.
    + intros E. apply app_inv_head in E. injection E as ->. reflexivity.
Qed.
Lemma last_id_app l j : last_id (l ++ [j]) = Some j.
Proof. unfold last_id. rewrite rev_app_distr. reflexivity. Qed.

(** *** The invariant *)
Definition tok (f : flight) : nat := match f with FReady | FAsk | FTake => 1 | _ => 0 end.
Definition about (f : flight) (i : id) : Prop := f = FTaken i \/ f = FSent i \/ f = FBlank i \/ f = FBack i.
Record qinv (c : channel) : Prop := mkQinv {
  q_keys : NoDup (map fst (items c));
  q_wait : NoDup (wait c);
  q_used_i : forall i x, get i (items c) = Some x -> In i (used c);
  q_used_w : forall i, In i (wait c) -> In i (used c);
  q_used_f : forall i, about (fl c) i -> In i (used c);
  q_waits : forall i, In i (wait c) -> rem c <> RGone -> get i (items c) <> None;
  q_idle : forall i x, In i (wait c) -> get i (items c) = Some x -> it_hb x = HbNone;
  q_tokens : fl c <> FStopped -> tokens c + tok (fl c) = length (wait c);
  q_taken : forall i, fl c = FTaken i -> ~ In i (wait c);
  q_taken_s : forall i, fl c = FTaken i -> rem c <> RGone -> get i (items c) <> None;
  q_taken_h : forall i x, fl c = FTaken i -> get i (items c) = Some x -> it_hb x = HbNone;
  q_sent : forall i x, fl c = FSent i \/ fl c = FBack i -> get i (items c) = Some x -> it_hb x = HbNone \/ it_hb x = HbCreated;
  q_created : forall i x, get i (items c) = Some x -> it_hb x = HbCreated -> fl c = FSent i \/ fl c = FBack i;
  q_none : down c = false -> rem c = RNo -> forall i x, get i (items c) = Some x -> it_hb x = HbNone ->
    In i (wait c) \/ fl c = FTaken i;
  q_ended : down c = false -> rem c = RNo -> forall i x, get i (items c) = Some x -> it_hb x <> HbEnded;
  q_held : forall i k, In (i, k) (held c) -> rem c = RNo /\ exists x, get i (items c) = Some x /\
    (it_hb x = HbFired \/ it_hb x = HbCreated /\ k = CBeat);
  q_count : forall i x, get i (items c) = Some x -> (it_count x <= p_max (it_props x))%N;
  q_gone : rem c = RGone -> items c = [];
  q_blank : forall i, fl c = FBlank i -> rem c = RGone;
  q_stopped : fl c = FStopped -> down c = true \/ rem c <> RNo }.

Lemma q_blank_none c i : qinv c -> fl c = FBlank i -> get i (items c) = None.
Proof. intros Q F. rewrite (q_gone c Q (q_blank c Q i F)). reflexivity. Qed.
Lemma qinv_new e r : qinv (newChannel e r).
Proof.
  constructor; cbn; intros; try congruence; try tauto; try discriminate; try (now constructor); try lia.
  all: unfold about in *; intuition congruence.
Qed.

Lemma qinv_run c n : qinv c -> qinv (set_run c n).
Proof. intros []. constructor; assumption. Qed.
Lemma qinv_enq c n : qinv c -> qinv (set_enq c n).
Proof. intros []. constructor; assumption. Qed.
Lemma qinv_crash c : qinv c -> qinv (crash c).
Proof. intros []. constructor; assumption. Qed.
Lemma qinv_down c : qinv c -> qinv (set_down c).
Proof. intros []. constructor; try assumption; cbn; try discriminate. auto. Qed.

Lemma free_held i c k : free i c = true -> ~ In (i, k) (held c).
Proof.
  unfold free. intros F I. apply negb_true_iff in F.
  assert (E : existsb (fun h => Nat.eqb i (fst h)) (held c) = true).
  { apply existsb_exists. exists (i, k). split; [exact I|cbn; apply Nat.eqb_refl]. }
  congruence.
Qed.
Lemma free_neq i c j k : free i c = true -> In (j, k) (held c) -> j <> i.
Proof. intros F I ->. eapply free_held; eassumption. Qed.

Ltac split_eqb :=
  repeat match goal with
  | H : context [if Nat.eqb ?a ?b then _ else _] |- _ => destruct (Nat.eqb_spec a b); subst
  | |- context [if Nat.eqb ?a ?b then _ else _] => destruct (Nat.eqb_spec a b); subst
  end.
Ltac injs := repeat match goal with H : Some _ = Some _ |- _ => injection H as H; try subst end.

(** A processed item leaves *)
Lemma qinv_remove c i x : qinv c -> get i (items c) = Some x -> it_hb x <> HbNone -> free i c = true ->
  qinv (set_items c (del i (items c))).
Proof.
  intros Q G H F. pose proof (q_keys c Q) as K.
  assert (NW : ~ In i (wait c)) by (intros I; apply H; eapply q_idle; eassumption).
  assert (NT : fl c <> FTaken i) by (intros I; apply H; eapply q_taken_h; eassumption).
  constructor; cbn [set_items items wait tokens fl held rem down used].
  - apply keys_del_nodup, K.
  - apply Q.
  - intros j y. rewrite get_del by exact K. split_eqb; [discriminate|]. apply (q_used_i c Q).
  - apply Q.
  - apply Q.
  - intros j I R. rewrite get_del by exact K. split_eqb; [contradiction|]. apply (q_waits c Q); assumption.
  - intros j y I. rewrite get_del by exact K. split_eqb; [discriminate|]. apply (q_idle c Q); assumption.
  - apply Q.
  - apply Q.
  - intros j E R. rewrite get_del by exact K. split_eqb; [contradiction|]. apply (q_taken_s c Q); assumption.
  - intros j y E. rewrite get_del by exact K. split_eqb; [discriminate|]. apply (q_taken_h c Q); assumption.
  - intros j y E. rewrite get_del by exact K. split_eqb; [discriminate|]. apply (q_sent c Q); assumption.
  - intros j y. rewrite get_del by exact K. split_eqb; [discriminate|]. apply (q_created c Q); assumption.
  - intros D R j y. rewrite get_del by exact K. split_eqb; [discriminate|]. apply (q_none c Q); assumption.
  - intros D R j y. rewrite get_del by exact K. split_eqb; [discriminate|]. apply (q_ended c Q); assumption.
  - intros j k I. destruct (q_held c Q j k I) as (R & y & Gy & P). split; [exact R|]. exists y. split; [|exact P].
    rewrite get_del by exact K. split_eqb; [exfalso; eapply free_held; eassumption|exact Gy].
  - intros j y. rewrite get_del by exact K. split_eqb; [discriminate|]. apply (q_count c Q).
  - intros R. rewrite (q_gone c Q R) in *. discriminate G.
  - apply Q.
  - apply Q.
Qed.

(** A processed item waits again *)
Lemma qinv_requeue c i x x' w1 w2 : qinv c -> get i (items c) = Some x -> it_hb x <> HbNone -> free i c = true ->
  it_hb x' = HbNone -> (it_count x' <= p_max (it_props x'))%N -> wait c = w1 ++ w2 ->
  qinv (set_wait (set_items c (put i x' (items c))) (w1 ++ i :: w2) (S (tokens c))).
Proof.
  intros Q G H F H' C W. pose proof (q_keys c Q) as K.
  assert (NW : ~ In i (wait c)) by (intros I; apply H; eapply q_idle; eassumption).
  assert (NT : fl c <> FTaken i) by (intros I; apply H; eapply q_taken_h; eassumption).
  assert (IW : forall j, In j (w1 ++ i :: w2) <-> j = i \/ In j (wait c)).
  { intros j. rewrite W, !in_app_iff. cbn [In]. intuition. }
  constructor; cbn [set_items set_wait items wait tokens fl held rem down used].
  - apply keys_put_nodup, K.
  - apply NoDup_Add with (a := i) (l := w1 ++ w2); [apply Add_app|]. rewrite <- W. split; [apply Q|exact NW].
  - intros j y. rewrite get_put. split_eqb; [intros _; eapply q_used_i; eassumption|apply (q_used_i c Q)].
  - intros j. rewrite IW. intros [->|I]; [eapply q_used_i; eassumption|apply (q_used_w c Q), I].
  - apply Q.
  - intros j. rewrite IW, get_put. intros I R. split_eqb; [discriminate|]. apply (q_waits c Q); intuition.
  - intros j y. rewrite IW, get_put. intros I. split_eqb; [intros [= <-]; exact H'|]. apply (q_idle c Q). intuition.
  - intros E. pose proof (q_tokens c Q E) as T. rewrite W in T. rewrite app_length in *. cbn [length]. lia.
  - intros j E. rewrite IW. intros [->|I]; [contradiction|]. apply (q_taken c Q j E I).
  - intros j E R. rewrite get_put. split_eqb; [contradiction|]. apply (q_taken_s c Q); assumption.
  - intros j y E. rewrite get_put. split_eqb; [contradiction|]. apply (q_taken_h c Q); assumption.
  - intros j y E. rewrite get_put. split_eqb; [intros [= <-]; auto|]. apply (q_sent c Q); assumption.
  - intros j y. rewrite get_put. split_eqb; [intros [= <-]; congruence|]. apply (q_created c Q); assumption.
  - intros D R j y. rewrite IW, get_put. split_eqb; [auto|]. intros Gy Hy.
    destruct (q_none c Q D R j y Gy Hy); auto.
  - intros D R j y. rewrite get_put. split_eqb; [intros [= <-]; congruence|]. apply (q_ended c Q); assumption.
  - intros j k I. destruct (q_held c Q j k I) as (R & y & Gy & P). split; [exact R|]. exists y. split; [|exact P].
    rewrite get_put. split_eqb; [exfalso; eapply free_held; eassumption|exact Gy].
  - intros j y. rewrite get_put. split_eqb; [intros [= <-]; exact C|]. apply (q_count c Q).
  - intros R. rewrite (q_gone c Q R) in *. discriminate G.
  - apply Q.
  - apply Q.
Qed.

(** A processed item waits again, instead of the last waiting one *)
Lemma qinv_replace c i x x' w j : qinv c -> get i (items c) = Some x -> it_hb x <> HbNone -> free i c = true ->
  it_hb x' = HbNone -> (it_count x' <= p_max (it_props x'))%N -> wait c = w ++ [j] ->
  qinv (set_items (set_wait c (w ++ [i]) (tokens c)) (del j (put i x' (items c)))).
Proof.
  intros Q G H F H' C W. pose proof (q_keys c Q) as K0.
  assert (K : NoDup (map fst (put i x' (items c)))) by (apply keys_put_nodup, K0).
  assert (NW : ~ In i (wait c)) by (intros I; apply H; eapply q_idle; eassumption).
  assert (NT : fl c <> FTaken i) by (intros I; apply H; eapply q_taken_h; eassumption).
  assert (IJ : In j (wait c)) by (rewrite W, in_app_iff; cbn [In]; auto).
  assert (NIJ : i <> j) by (intros ->; contradiction).
  pose proof (q_wait c Q) as ND. rewrite W in ND.
  assert (JW : ~ In j w). { apply NoDup_remove_2 in ND. rewrite app_nil_r in ND. exact ND. }
  assert (NDw : NoDup w). { apply NoDup_remove_1 in ND. rewrite app_nil_r in ND. exact ND. }
  assert (IW : forall k, In k (w ++ [i]) <-> k = i \/ (In k (wait c) /\ k <> j)).
  { intros k. rewrite W, !in_app_iff. cbn [In]. split.
    - intros [I|[E|[]]]; [right|left; auto]. split; [auto|]. intros ->. contradiction.
    - intros [->|[[I|[E|[]]] N]]; auto; congruence. }
  assert (HJ : forall y, get j (items c) = Some y -> it_hb y = HbNone) by (intros y; apply (q_idle c Q); exact IJ).
  constructor; cbn [set_items set_wait items wait tokens fl held rem down used].
  - apply keys_del_nodup, K.
  - apply NoDup_Add with (a := i) (l := w); [rewrite <- (app_nil_r w) at 1; apply Add_app|]. split; [exact NDw|].
    intros I. apply NW. rewrite W, in_app_iff. auto.
  - intros k y. rewrite get_del, get_put by exact K. split_eqb; try discriminate.
    + intros _. eapply q_used_i; eassumption.
    + apply (q_used_i c Q).
  - intros k. rewrite IW. intros [->|[I _]]; [eapply q_used_i; eassumption|apply (q_used_w c Q), I].
  - apply Q.
  - intros k. rewrite IW, get_del, get_put by exact K. intros I R. split_eqb; try congruence; try tauto.
    + exfalso. destruct I as [E|[_ E]]; congruence.
    + apply (q_waits c Q); tauto.
  - intros k y. rewrite IW, get_del, get_put by exact K. intros I. split_eqb; try discriminate; try congruence.
    apply (q_idle c Q). tauto.
  - intros E. pose proof (q_tokens c Q E) as T. rewrite W in T. rewrite app_length in *. exact T.
  - intros k E. rewrite IW. intros [->|[I _]]; [contradiction|]. apply (q_taken c Q k E I).
  - intros k E R. rewrite get_del, get_put by exact K. split_eqb; try contradiction.
    + exfalso. apply (q_taken c Q j E IJ).
    + apply (q_taken_s c Q); assumption.
  - intros k y E. rewrite get_del, get_put by exact K. split_eqb; try discriminate; try contradiction.
    apply (q_taken_h c Q); assumption.
  - intros k y E. rewrite get_del, get_put by exact K. split_eqb; try discriminate; [intros [= <-]; auto|].
    apply (q_sent c Q); assumption.
  - intros k y. rewrite get_del, get_put by exact K. split_eqb; try discriminate; [intros [= <-]; congruence|].
    apply (q_created c Q); assumption.
  - intros D R k y. rewrite IW, get_del, get_put by exact K. split_eqb; try discriminate; [auto|]. intros Gy Hy.
    destruct (q_none c Q D R k y Gy Hy); auto.
  - intros D R k y. rewrite get_del, get_put by exact K. split_eqb; try discriminate; [intros [= <-]; congruence|].
    apply (q_ended c Q); assumption.
  - intros k l I. destruct (q_held c Q k l I) as (R & y & Gy & P). split; [exact R|]. exists y. split; [|exact P].
    rewrite get_del, get_put by exact K. split_eqb; [exfalso|exfalso; eapply free_held; eassumption|exact Gy].
    specialize (HJ y Gy). intuition congruence.
  - intros k y. rewrite get_del, get_put by exact K. split_eqb; try discriminate; [intros [= <-]; exact C|].
    apply (q_count c Q).
  - intros R. rewrite (q_gone c Q R) in *. discriminate G.
  - apply Q.
  - apply Q.
Qed.

(** The heartbeater of an item changes *)
Lemma qinv_phase c i x h f : qinv c -> get i (items c) = Some x -> free i c = true ->
  (forall k, about f k -> In k (used c)) -> (forall k, f = FBlank k -> fl c = FBlank k) ->
  (f <> FStopped -> fl c <> FStopped /\ tok f = tok (fl c)) -> (f = FStopped -> fl c = FStopped) ->
  (forall k, f = FTaken k -> fl c = f /\ k <> i) ->
  (In i (wait c) -> h = HbNone) -> (h = HbNone -> down c = false -> rem c = RNo -> In i (wait c)) ->
  (h = HbEnded -> down c = true \/ rem c <> RNo) ->
  (h = HbCreated -> f = FSent i \/ f = FBack i) ->
  (f = FSent i \/ f = FBack i -> h = HbNone \/ h = HbCreated) ->
  (forall k, k <> i -> f = FSent k \/ f = FBack k -> fl c = f) ->
  (forall k y, k <> i -> get k (items c) = Some y -> it_hb y = HbCreated -> f = FSent k \/ f = FBack k) ->
  (forall k, k <> i -> fl c = FTaken k -> f = FTaken k) ->
  qinv (set_fl (set_items c (put i (set_hb x h) (items c))) f).
Proof.
  intros Q G F U B T ST NT HW HN HE HC HS O1 O2 O3. pose proof (q_keys c Q) as K.
  constructor; cbn [set_items set_fl items wait tokens fl held rem down used].
  - apply keys_put_nodup, K.
  - apply Q.
  - intros j y. rewrite get_put. split_eqb; [intros _; eapply q_used_i; eassumption|apply (q_used_i c Q)].
  - apply Q.
  - exact U.
  - intros j I R. rewrite get_put. split_eqb; [discriminate|]. apply (q_waits c Q); assumption.
  - intros j y I. rewrite get_put. split_eqb; [intros [= <-]; cbn; auto|]. apply (q_idle c Q); assumption.
  - intros E. destruct (T E) as [E' E2]. rewrite E2. apply (q_tokens c Q), E'.
  - intros j E. destruct (NT j E) as [E1 _]. rewrite E in E1. apply (q_taken c Q), E1.
  - intros j E R. rewrite get_put. destruct (NT j E) as [E1 N]. rewrite E in E1.
    destruct (Nat.eqb_spec j i); [contradiction|]. apply (q_taken_s c Q); assumption.
  - intros j y E. rewrite get_put. destruct (NT j E) as [E1 N]. rewrite E in E1.
    destruct (Nat.eqb_spec j i); [contradiction|]. apply (q_taken_h c Q); assumption.
  - intros j y E. rewrite get_put. destruct (Nat.eqb_spec j i) as [->|n]; [intros [= <-]; cbn; auto|]. intros Gy.
    rewrite <- (O1 j n E) in E. apply (q_sent c Q j y); assumption.
  - intros j y. rewrite get_put. split_eqb; [intros [= <-]; cbn; auto|]. apply O2; assumption.
  - intros D R j y. rewrite get_put. split_eqb; [intros [= <-]; cbn; auto|]. intros Gy Hy.
    destruct (q_none c Q D R j y Gy Hy) as [I|E']; [auto|]. right. eapply O3; eassumption.
  - intros D R j y. rewrite get_put. split_eqb.
    + intros [= <-]; cbn. intros E. destruct (HE E) as [E'|E']; congruence.
    + apply (q_ended c Q); assumption.
  - intros j k I. destruct (q_held c Q j k I) as (R & y & Gy & P). split; [exact R|]. exists y. split; [|exact P].
    rewrite get_put. split_eqb; [exfalso; eapply free_held; eassumption|exact Gy].
  - intros j y. rewrite get_put. split_eqb; [intros [= <-]; cbn; eapply (q_count c Q), G|]. apply (q_count c Q).
  - intros R. rewrite (q_gone c Q R) in *. discriminate G.
  - intros j E. apply (q_blank c Q j), B, E.
  - intros E. apply (q_stopped c Q), ST, E.
Qed.

(** the flight moves on *)
Lemma qinv_fl c f : qinv c -> (forall k, about f k -> about (fl c) k) -> (f <> FStopped -> fl c <> FStopped /\ tok f = tok (fl c)) ->
  (f = FStopped -> down c = true \/ rem c <> RNo) -> (forall k, f <> FTaken k) -> (forall k, fl c <> FTaken k) -> (forall k, f <> FBlank k) ->
  (forall k, f = FSent k \/ f = FBack k -> fl c = FSent k \/ fl c = FBack k \/ fl c = FBlank k) ->
  (forall k, fl c = FSent k \/ fl c = FBack k -> f = FSent k \/ f = FBack k \/ forall x, get k (items c) = Some x -> it_hb x <> HbCreated) ->
  qinv (set_fl c f).
Proof.
  intros Q A T ST N1 N2 N3 S1 S2.
  constructor; cbn [set_fl items wait tokens fl held rem down used]; try apply Q.
  - intros k E. apply (q_used_f c Q), A, E.
  - intros E. destruct (T E) as [E' E2]. rewrite E2. apply (q_tokens c Q), E'.
  - intros k E. exfalso. apply (N1 k E).
  - intros k E. exfalso. apply (N1 k E).
  - intros k y E. exfalso. apply (N1 k E).
  - intros k y E G. destruct (S1 k E) as [E'|[E'|E']].
    + apply (q_sent c Q k y); auto.
    + apply (q_sent c Q k y); auto.
    + rewrite (q_blank_none c k Q E') in G. discriminate G.
  - intros k y G H. pose proof (q_created c Q k y G H) as E. destruct (S2 k E) as [E'|[E'|E']]; auto.
    exfalso. apply (E' y G H).
  - intros D R k y G H. destruct (q_none c Q D R k y G H) as [I|E]; [auto|]. exfalso. apply (N2 k E).
  - intros k E. exfalso. apply (N3 k E).
  - exact ST.
Qed.

Lemma incr_le n m : N.ltb m (incr64 n) = false -> (incr64 n <= m)%N.
Proof. intros E. apply N.ltb_ge in E. exact E. Qed.

Lemma qinv_fail c i x c' f : qinv c -> get i (items c) = Some x -> it_hb x <> HbNone -> free i c = true ->
  fail_item c i x = (c', f) -> qinv c'.
Proof.
  intros Q G H F. unfold fail_item. cbn [it_props it_count].
  assert (Q1 : qinv (set_run c (pred (run c)))) by (apply qinv_run, Q).
  set (x' := mkItem (it_props x) (incr64 (it_count x)) HbNone).
  destruct (N.ltb (p_max (it_props x)) (incr64 (it_count x))) eqn:E.
  { intros [= <- <-]. apply (qinv_remove (set_enq (set_run c (pred (run c))) (pred (enq c))) i x); try assumption.
    apply qinv_enq, Q1. }
  apply incr_le in E.
  assert (NW : ~ In i (wait c)) by (intros I; apply H; eapply q_idle; eassumption).
  destruct (p_pos (it_props x)).
  - (* front *)
    cbn [wait set_items set_run].
    destruct (wait c) as [|k w] eqn:W.
    + intros [= <- <-]. apply (qinv_requeue (set_run c (pred (run c))) i x x' [] []); try assumption; reflexivity.
    + destruct (p_upd (it_props x)).
      * intros [= <- <-].
        assert (D : del i (put i x' (items c)) = del i (items c)).
        { clear. induction (items c) as [|[j y] t IH]; cbn [put del]; [rewrite Nat.eqb_refl; reflexivity|].
          destruct (Nat.eqb i j) eqn:Ej; cbn [del]; rewrite Ej; [reflexivity|rewrite IH; reflexivity]. }
        unfold set_items; cbn [items set_run wait tokens fl enq run held rem down dead used]. rewrite D.
        apply (qinv_remove (set_run c (pred (run c))) i x); assumption.
      * intros [= <- <-]. apply (qinv_requeue (set_run c (pred (run c))) i x x' [] (k :: w)); try assumption; reflexivity.
  - (* back *)
    cbn [wait set_items set_run items].
    destruct (last_id (wait c)) as [j|] eqn:L.
    + apply last_id_some in L.
      assert (NIJ : i <> j). { intros ->. apply NW. rewrite L, in_app_iff. cbn [In]. auto. }
      rewrite get_put_other by exact NIJ.
      destruct (get j (items c)) as [y|] eqn:Gj.
      * destruct (p_upd (it_props y)).
        -- intros [= <- <-].
           apply (qinv_replace (set_run c (pred (run c))) i x x' (removelast (wait c)) j); try assumption.
           reflexivity.
        -- intros [= <- <-]. apply (qinv_requeue (set_run c (pred (run c))) i x x' (wait c) []); try assumption.
           ++ reflexivity.
           ++ symmetry. apply app_nil_r.
      * exfalso. apply (q_waits c Q j); [rewrite L, in_app_iff; cbn [In]; auto| |exact Gj].
        intros R. rewrite (q_gone c Q R) in G. discriminate G.
    + apply last_id_none in L. rewrite L. intros [= <- <-].
      apply (qinv_requeue (set_run c (pred (run c))) i x x' [] []); try assumption; reflexivity.
Qed.

Lemma qinv_enqueue c p i ok c' a : qinv c -> rem c = RNo -> ~ In i (used c) -> enqueue c p i ok = (c', a) -> qinv c'.
Proof.
  intros Q R N. unfold enqueue.
  assert (Gi : get i (items c) = None).
  { destruct (get i (items c)) as [x|] eqn:G; [|reflexivity]. exfalso. apply N. eapply q_used_i; eassumption. }
  assert (NW : ~ In i (wait c)) by (intros I; apply N, (q_used_w c Q), I).
  assert (NA : forall f, about (fl c) f -> f <> i) by (intros f A ->; apply N, (q_used_f c Q), A).
  assert (IW : forall j, In j (wait c ++ [i]) <-> j = i \/ In j (wait c)) by (intros j; rewrite in_app_iff; cbn [In]; intuition).
  assert (ADD : qinv (set_used (set_wait (set_items (set_enq c (S (enq c))) (put i (newItem p) (items c)))
                        (wait c ++ [i]) (S (tokens c))) (i :: used c))).
  { constructor; cbn [set_used set_items set_wait set_enq items wait tokens fl held rem down used].
    - apply keys_put_nodup, Q.
    - apply NoDup_Add with (a := i) (l := wait c); [rewrite <- (app_nil_r (wait c)) at 1; apply Add_app|]. split; [apply Q|exact NW].
    - intros j y. rewrite get_put. split_eqb; [left; reflexivity|]. intros G. right. eapply q_used_i; eassumption.
    - intros j. rewrite IW. intros [->|I]; [left; reflexivity|right; apply (q_used_w c Q), I].
    - intros j A. right. apply (q_used_f c Q), A.
    - intros j. rewrite IW, get_put. intros I R'. split_eqb; [discriminate|]. apply (q_waits c Q); intuition.
    - intros j y. rewrite IW, get_put. intros I. split_eqb; [intros [= <-]; reflexivity|]. apply (q_idle c Q). intuition.
    - intros E. pose proof (q_tokens c Q E) as T. rewrite app_length. cbn [length]. lia.
    - intros j E. rewrite IW. intros [->|I]; [apply (NA i); unfold about; auto|]. apply (q_taken c Q j E I).
    - intros j E R'. rewrite get_put. split_eqb; [discriminate|]. apply (q_taken_s c Q); assumption.
    - intros j y E. rewrite get_put. split_eqb; [intros [= <-]; reflexivity|]. apply (q_taken_h c Q); assumption.
    - intros j y E. rewrite get_put. split_eqb; [intros [= <-]; auto|]. apply (q_sent c Q); assumption.
    - intros j y. rewrite get_put. split_eqb; [intros [= <-]; discriminate|]. apply (q_created c Q); assumption.
    - intros D R' j y. rewrite IW, get_put. split_eqb; [auto|]. intros Gy Hy.
      destruct (q_none c Q D R' j y Gy Hy); auto.
    - intros D R' j y. rewrite get_put. split_eqb; [intros [= <-]; discriminate|]. apply (q_ended c Q); assumption.
    - intros j k I. destruct (q_held c Q j k I) as (R' & y & Gy & P). split; [exact R'|]. exists y. split; [|exact P].
      rewrite get_put. split_eqb; [congruence|exact Gy].
    - intros j y. rewrite get_put. split_eqb; [intros [= <-]; cbn; apply N.le_0_l|]. apply (q_count c Q).
    - congruence.
    - apply Q.
    - apply Q. }
  destruct (last_id (wait c)) as [j|] eqn:L.
  2:{ destruct ok; cbn [negb]; intros [= <- <-]; assumption. }
  apply last_id_some in L.
  assert (IJ : In j (wait c)) by (rewrite L, in_app_iff; cbn [In]; auto).
  destruct (get j (items c)) as [x|] eqn:G.
  2:{ destruct ok; cbn [negb]; intros [= <- <-]; assumption. }
  destruct (p_upd (it_props x)).
  2:{ destruct ok; cbn [negb]; intros [= <- <-]; assumption. }
  intros [= <- <-].
  pose proof (q_idle c Q j x IJ G) as H.
  constructor; cbn [set_used set_items set_wait set_enq items wait tokens fl held rem down used].
  - apply keys_put_nodup, Q.
  - apply Q.
  - intros k y. rewrite get_put. split_eqb; [intros _; eapply q_used_i; eassumption|apply (q_used_i c Q)].
  - apply Q.
  - apply Q.
  - intros k I R'. rewrite get_put. split_eqb; [discriminate|]. apply (q_waits c Q); assumption.
  - intros k y I. rewrite get_put. split_eqb; [intros [= <-]; exact H|]. apply (q_idle c Q); assumption.
  - apply Q.
  - apply Q.
  - intros k E R'. rewrite get_put. split_eqb; [discriminate|]. apply (q_taken_s c Q); assumption.
  - intros k y E. rewrite get_put. split_eqb; [intros [= <-]; exact H|]. apply (q_taken_h c Q); assumption.
  - intros k y E. rewrite get_put. split_eqb; [intros [= <-]; left; exact H|]. apply (q_sent c Q); assumption.
  - intros k y. rewrite get_put. split_eqb; [intros [= <-]; cbn; congruence|]. apply (q_created c Q); assumption.
  - intros D R' k y. rewrite get_put. split_eqb; [auto|]. apply (q_none c Q); assumption.
  - intros D R' k y. rewrite get_put. split_eqb; [intros [= <-]; cbn; congruence|]. apply (q_ended c Q); assumption.
  - intros k l I. destruct (q_held c Q k l I) as (R' & y & Gy & P). split; [exact R'|]. exists y. split; [|exact P].
    rewrite get_put. split_eqb; [|exact Gy]. rewrite G in Gy. injection Gy as <-. intuition congruence.
  - intros k y. rewrite get_put. split_eqb; [intros [= <-]; cbn; apply N.le_0_l|]. apply (q_count c Q).
  - congruence.
  - apply Q.
  - apply Q.
Qed.

Lemma qinv_held c i k x : qinv c -> rem c = RNo -> get i (items c) = Some x ->
  (it_hb x = HbFired \/ it_hb x = HbCreated /\ k = CBeat) -> qinv (set_held c ((i, k) :: held c)).
Proof.
  intros Q R G H. constructor; cbn [set_held items wait tokens fl held rem down used]; try apply Q.
  intros j l [[= <- <-]|I]; [|apply (q_held c Q), I]. split; [exact R|]. exists x. auto.
Qed.

Lemma guard_some b r z : guard b r = Some z -> b = true /\ r = z.
Proof. unfold guard. destruct b; [intros [= <-]; auto|discriminate]. Qed.
Lemma indexed_rem c : indexed c = true <-> rem c = RNo.
Proof. unfold indexed. destruct (rem c); split; congruence. Qed.
Lemma destroying_rem c : destroying c = true <-> rem c = RDestroying.
Proof. unfold destroying. destruct (rem c); split; congruence. Qed.
Lemma existsb_used i l : negb (existsb (Nat.eqb i) l) = true -> ~ In i l.
Proof.
  intros E I. apply negb_true_iff in E.
  assert (existsb (Nat.eqb i) l = true) by (apply existsb_exists; exists i; split; [exact I|apply Nat.eqb_refl]). congruence.
Qed.
Lemma is_phase_get c i h : is_phase c i h = true -> exists x, get i (items c) = Some x /\ it_hb x = h /\ (h = HbRunning \/ h = HbFired).
Proof.
  unfold is_phase. destruct (get i (items c)) as [x|]; [|discriminate]. intros E. exists x. split; [reflexivity|].
  destruct (it_hb x), h; try discriminate; auto.
Qed.
Lemma is_running_free c i : qinv c -> is_phase c i HbRunning = true -> free i c = true.
Proof.
  intros Q P. destruct (is_phase_get _ _ _ P) as (x & G & H & _). unfold free. apply negb_true_iff.
  destruct (existsb (fun h => Nat.eqb i (fst h)) (held c)) eqn:E; [|reflexivity]. exfalso.
  apply existsb_exists in E. destruct E as ([j k] & I & E). cbn in E. apply Nat.eqb_eq in E. subst j.
  destruct (q_held c Q i k I) as (_ & y & Gy & P'). rewrite G in Gy. injection Gy as <-. intuition congruence.
Qed.

Lemma qinv_step c o c' a : qinv c -> qstep c o = Some (c', a) -> qinv c'.
Proof.
  intros Q. unfold qstep. destruct (dead c); [discriminate|]. destruct o.
  - (* OEnqueue *)
    intros E. apply guard_some in E. destruct E as [B E]. apply andb_true_iff in B. destruct B as [B U].
    apply andb_true_iff in B. destruct B as [B _]. apply indexed_rem in B. apply existsb_used in U.
    eapply qinv_enqueue; eassumption.
  - (* OReady *)
    destruct (fl c) eqn:F; try discriminate. destruct (tokens c) as [|n] eqn:T; [discriminate|]. intros [= <- <-].
    pose proof (q_tokens c Q) as TT. rewrite F, T in TT. cbn [tok] in TT. specialize (TT ltac:(discriminate)).
    constructor; cbn [set_fl set_wait items wait tokens fl held rem down used]; try apply Q; unfold about; try (intros; intuition congruence).
    + intros _. cbn [tok]. lia.
    + intros i x G H. pose proof (q_created c Q i x G H). intuition congruence.
    + intros D R i x G H. pose proof (q_none c Q D R i x G H). intuition congruence.
  - (* OAsk *)
    destruct (fl c) eqn:F; try discriminate. intros [= <- <-]. apply qinv_fl; rewrite ?F; unfold about; try (intros; intuition congruence).
  - (* ORun *)
    destruct (fl c) eqn:F; try discriminate. destruct ok; intros [= <- <-].
    + apply (qinv_fl (set_run c (S (run c)))); [apply qinv_run, Q|..]; cbn [fl set_run]; rewrite ?F; unfold about; try (intros; intuition congruence).
    + pose proof (q_tokens c Q) as TT. rewrite F in TT. cbn [tok] in TT. specialize (TT ltac:(discriminate)).
      constructor; cbn [set_fl set_wait items wait tokens fl held rem down used]; try apply Q; unfold about; try (intros; intuition congruence).
      * intros _. cbn [tok]. lia.
      * intros i x G H. pose proof (q_created c Q i x G H). intuition congruence.
      * intros D R i x G H. pose proof (q_none c Q D R i x G H). intuition congruence.
  - (* OTake *)
    destruct (fl c) eqn:F; try discriminate. intros E. apply guard_some in E. destruct E as [_ E].
    destruct (wait c) as [|i w] eqn:W; injection E as <- <-; [apply qinv_crash, Q|].
    pose proof (q_tokens c Q) as TT. rewrite F, W in TT. cbn [tok length] in TT. specialize (TT ltac:(discriminate)).
    pose proof (q_wait c Q) as ND. rewrite W in ND. inversion ND as [|? ? NI ND']; subst.
    assert (SUB : forall j, In j w -> In j (wait c)) by (intros j I; rewrite W; right; exact I).
    assert (HD : In i (wait c)) by (rewrite W; left; reflexivity).
    constructor; cbn [set_fl set_wait items wait tokens fl held rem down used]; try apply Q; unfold about.
    + exact ND'.
    + intros j I. apply (q_used_w c Q), SUB, I.
    + intros j A. assert (j = i) as -> by intuition congruence. apply (q_used_w c Q), HD.
    + intros j I. apply (q_waits c Q), SUB, I.
    + intros j x I. apply (q_idle c Q), SUB, I.
    + intros _. cbn [tok]. lia.
    + intros j [= <-]. exact NI.
    + intros j [= <-]. apply (q_waits c Q), HD.
    + intros j x [= <-]. apply (q_idle c Q), HD.
    + intros j x A. intuition congruence.
    + intros j x G H. pose proof (q_created c Q j x G H). intuition congruence.
    + intros D R j x G H. destruct (q_none c Q D R j x G H) as [I|I]; [|congruence]. rewrite W in I. destruct I as [->|I]; auto.
    + intros j. discriminate.
    + discriminate.
  - (* OCreate *)
    destruct (fl c) eqn:F; try discriminate. rename i into i0. intros E. apply guard_some in E. destruct E as [B E].
    apply andb_true_iff in B. destruct B as [FR AD]. unfold create in E.
    destruct (destroying c); [injection E as <- <-; apply qinv_crash, Q|].
    destruct (get i0 (items c)) as [x|] eqn:G.
    + pose proof (q_taken_h c Q i0 x F G) as H. rewrite H in E. injection E as <- <-.
      pose proof (q_taken c Q i0 F) as NW.
      apply qinv_phase; try assumption; rewrite ?F; unfold about; try (intros; intuition congruence).
      * intros k A. assert (k = i0) as -> by intuition congruence. eapply q_used_i; eassumption.
      * destruct added; [discriminate|]. intros _ D. cbn [orb] in AD. congruence.
      * destruct added; discriminate.
      * destruct added; auto.
      * intros k y N Gy Hy. pose proof (q_created c Q k y Gy Hy). intuition congruence.
    + injection E as <- <-.
      constructor; cbn [set_fl set_wait items wait tokens fl held rem down used]; try apply Q; unfold about; try (intros; intuition congruence).
      * intros j A. apply (q_used_f c Q). rewrite F. unfold about. intuition congruence.
      * intros _. pose proof (q_tokens c Q) as TT. rewrite F in TT. apply TT. discriminate.
      * intros j x Gj H. pose proof (q_created c Q j x Gj H). intuition congruence.
      * intros D R j x Gj H. pose proof (q_none c Q D R j x Gj H). intuition congruence.
      * intros j _. destruct (rem c) eqn:R; try reflexivity; exfalso; apply (q_taken_s c Q i0 F); congruence.
  - (* OSuccess *)
    destruct (fl c) eqn:F; try discriminate. rename i into i0. intros E. apply guard_some in E. destruct E as [FR E].
    unfold success in E. destruct (destroying c); [injection E as <- <-; apply qinv_crash, Q|].
    assert (Q2 : (forall x, get i0 (items c) = Some x -> it_hb x <> HbCreated) -> qinv (set_fl c FIdle)).
    { intros N. apply qinv_fl; rewrite ?F; unfold about; try (intros; intuition congruence).
      intros k Ek. right. right. assert (k = i0) as -> by intuition congruence. exact N. }
    destruct (get i0 (items c)) as [x|] eqn:G.
    2:{ injection E as <- <-. apply Q2. intros; congruence. }
    destruct (q_sent c Q i0 x (or_introl F) G) as [H|H]; rewrite H in E.
    { injection E as <- <-. apply Q2. intros; congruence. }
    destruct (Z.leb (p_timeout (it_props x)) 0); injection E as <- <-; [apply qinv_crash, Q|].
    apply qinv_phase; try assumption; rewrite ?F; unfold about; try (intros; intuition congruence).
    { intros I. pose proof (q_idle c Q i0 x I G). congruence. }
    intros k y N Gy Hy. pose proof (q_created c Q k y Gy Hy). intuition congruence.
  - (* OFailRun *)
    destruct (fl c) eqn:F; try discriminate; intros [= <- <-];
      (apply (qinv_fl (set_run c (pred (run c)))); [apply qinv_run, Q|..]); cbn [fl set_run]; rewrite ?F; unfold about;
      try (intros; intuition congruence).
  - (* OFailBack *)
    destruct (fl c) eqn:F; try discriminate. rename i into i0. intros E. apply guard_some in E. destruct E as [B E].
    apply andb_true_iff in B. destruct B as [_ FR].
    unfold fail_back in E. destruct (destroying c); [injection E as <- <-; apply qinv_crash, Q|].
    assert (Q2 : (forall x, get i0 (items c) = Some x -> it_hb x <> HbCreated) -> qinv (set_fl c FIdle)).
    { intros N. apply qinv_fl; rewrite ?F; unfold about; try (intros; intuition congruence).
      intros k Ek. right. right. assert (k = i0) as -> by intuition congruence. exact N. }
    destruct (get i0 (items c)) as [x|] eqn:G.
    2:{ injection E as <- <-. apply Q2. intros; congruence. }
    destruct (q_sent c Q i0 x (or_intror F) G) as [H|H]; rewrite H in E.
    { injection E as <- <-. apply Q2. intros; congruence. }
    assert (N0 : it_hb x <> HbNone) by congruence.
    assert (RQ : qinv (set_fl (set_wait (set_items c (put i0 (set_hb x HbNone) (items c))) (i0 :: wait c) (S (tokens c))) FIdle)).
    { apply qinv_fl.
      - apply (qinv_requeue c i0 x (set_hb x HbNone) [] (wait c)); try assumption; try reflexivity. cbn. eapply q_count; eassumption.
      - unfold about. intros; intuition congruence.
      - cbn [fl set_wait set_items]. rewrite F. intros _. split; [discriminate|reflexivity].
      - discriminate.
      - discriminate.
      - cbn [fl set_wait set_items]. rewrite F. discriminate.
      - discriminate.
      - intros; intuition congruence.
      - cbn [fl set_wait set_items items]. rewrite F. intros k Ek. assert (k = i0) as -> by intuition congruence.
        right. right. intros y. rewrite get_put_same. intros [= <-]. cbn. discriminate. }
    assert (RM : qinv (set_fl (set_items (set_enq c (pred (enq c))) (del i0 (items c))) FIdle)).
    { apply qinv_fl.
      - apply (qinv_remove (set_enq c (pred (enq c))) i0 x); try assumption. apply qinv_enq, Q.
      - unfold about. intros; intuition congruence.
      - cbn [fl set_enq set_items]. rewrite F. intros _. split; [discriminate|reflexivity].
      - discriminate.
      - discriminate.
      - cbn [fl set_enq set_items]. rewrite F. discriminate.
      - discriminate.
      - intros; intuition congruence.
      - cbn [fl set_enq set_items items]. rewrite F. intros k Ek. assert (k = i0) as -> by intuition congruence.
        right. right. intros y. rewrite get_del_same by apply Q. discriminate. }
    cbn [wait set_fl items tokens enq] in E.
    destruct (p_upd (it_props x)).
    + destruct (wait c) eqn:W; injection E as <- <-; [exact RQ|exact RM].
    + injection E as <- <-. exact RQ.
  - (* ORecheck *)
    destruct (fl c) eqn:F; try discriminate. intros [= <- <-]. apply qinv_fl; rewrite ?F; unfold about; try (intros; intuition congruence).
  - (* OStop *)
    destruct (fl c) eqn:F; try discriminate; intros E; apply guard_some in E; destruct E as [B E]; injection E as <- <-;
      apply qinv_fl; rewrite ?F; unfold about; try (intros; intuition congruence);
      intros _; apply orb_true_iff in B; destruct B as [B|B]; auto; right; intros R; apply indexed_rem in R; rewrite R in B; discriminate.
  - (* OAck *)
    intros E. apply guard_some in E. destruct E as [B E]. apply andb_true_iff in B. destruct B as [R FR].
    apply indexed_rem in R. unfold ack in E. destruct (get i (items c)) as [x|] eqn:G; [|injection E as <- <-; exact Q].
    destruct (it_hb x) eqn:H.
    + injection E as <- <-. exact Q.
    + injection E as <- <-. apply (qinv_remove (set_enq (set_run c (pred (run c))) (pred (enq c))) i x); try assumption; [|congruence].
      apply qinv_enq, qinv_run, Q.
    + injection E as <- <-. apply (qinv_remove (set_enq (set_run c (pred (run c))) (pred (enq c))) i x); try assumption; [|congruence].
      apply qinv_enq, qinv_run, Q.
    + injection E as <- <-. eapply qinv_held; eauto.
    + injection E as <- <-.
      assert (NW : ~ In i (wait c)) by (intros I; pose proof (q_idle c Q i x I G); congruence).
      assert (D : down c = true) by (destruct (down c) eqn:D; [reflexivity|exfalso; exact (q_ended c Q D R i x G H)]).
      assert (FE : set_items c (put i (set_hb x HbNone) (items c)) = set_fl (set_items c (put i (set_hb x HbNone) (items c))) (fl c)) by reflexivity.
      rewrite FE. apply qinv_phase; try assumption; try apply Q; try (intros; intuition congruence).
      * intros k Ek. split; [reflexivity|]. intros ->. pose proof (q_taken_h c Q i x Ek G). congruence.
      * intros k y _ Gy Hy. apply (q_created c Q k y Gy Hy).
  - (* ONack *)
    intros E. apply guard_some in E. destruct E as [B E]. apply andb_true_iff in B. destruct B as [R FR].
    apply andb_true_iff in R. destruct R as [R _].
    apply indexed_rem in R. unfold nack in E. destruct (get i (items c)) as [x|] eqn:G; [|injection E as <- <-; exact Q].
    destruct (it_hb x) eqn:H.
    + injection E as <- <-. exact Q.
    + destruct (fail_item c i x) as [c1 f] eqn:FI. injection E as <- <-. eapply qinv_fail; try eassumption. congruence.
    + destruct (fail_item c i x) as [c1 f] eqn:FI. injection E as <- <-. eapply qinv_fail; try eassumption. congruence.
    + injection E as <- <-. eapply qinv_held; eauto.
    + injection E as <- <-.
      assert (NW : ~ In i (wait c)) by (intros I; pose proof (q_idle c Q i x I G); congruence).
      assert (D : down c = true) by (destruct (down c) eqn:D; [reflexivity|exfalso; exact (q_ended c Q D R i x G H)]).
      assert (FE : set_items c (put i (set_hb x HbNone) (items c)) = set_fl (set_items c (put i (set_hb x HbNone) (items c))) (fl c)) by reflexivity.
      rewrite FE. apply qinv_phase; try assumption; try apply Q; try (intros; intuition congruence).
      * intros k Ek. split; [reflexivity|]. intros ->. pose proof (q_taken_h c Q i x Ek G). congruence.
      * intros k y _ Gy Hy. apply (q_created c Q k y Gy Hy).
  - (* OBeat *)
    intros E. apply guard_some in E. destruct E as [B E]. apply andb_true_iff in B. destruct B as [R FR].
    apply indexed_rem in R. unfold beat in E. destruct (get i (items c)) as [x|] eqn:G; [|injection E as <- <-; exact Q].
    destruct (it_hb x) eqn:H; injection E as <- <-; try exact Q; eapply qinv_held; eauto.
  - (* OFire *)
    intros E. apply guard_some in E. destruct E as [P E]. pose proof (is_running_free c i Q P) as FR.
    destruct (is_phase_get _ _ _ P) as (x & G & H & _). rewrite G in E. injection E as <- <-.
    assert (NW : ~ In i (wait c)) by (intros I; pose proof (q_idle c Q i x I G); congruence).
    assert (FE : set_items c (put i (set_hb x HbFired) (items c)) = set_fl (set_items c (put i (set_hb x HbFired) (items c))) (fl c)) by reflexivity.
    rewrite FE. apply qinv_phase; try assumption; try apply Q; try (intros; intuition congruence).
    + intros k Ek. split; [reflexivity|]. intros ->. pose proof (q_taken_h c Q i x Ek G). congruence.
    + intros A. pose proof (q_sent c Q i x A G). intuition congruence.
    + intros k y _ Gy Hy. apply (q_created c Q k y Gy Hy).
  - (* OTimeout *)
    intros E. apply guard_some in E. destruct E as [B E]. apply andb_true_iff in B. destruct B as [B FR].
    apply andb_true_iff in B. destruct B as [P _]. destruct (is_phase_get _ _ _ P) as (x & G & H & _).
    unfold time_out in E. destruct (destroying c); [injection E as <- <-; apply qinv_crash, Q|]. rewrite G in E.
    destruct (fail_item c i x) as [c1 f] eqn:FI. injection E as <- <-. eapply qinv_fail; try eassumption. congruence.
  - (* OEnd *)
    intros E. apply guard_some in E. destruct E as [B E]. apply andb_true_iff in B. destruct B as [P DS].
    pose proof (is_running_free c i Q P) as FR.
    destruct (is_phase_get _ _ _ P) as (x & G & H & _). rewrite G in E. injection E as <- <-.
    assert (NW : ~ In i (wait c)) by (intros I; pose proof (q_idle c Q i x I G); congruence).
    assert (FE : set_items c (put i (set_hb x HbEnded) (items c)) = set_fl (set_items c (put i (set_hb x HbEnded) (items c))) (fl c)) by reflexivity.
    rewrite FE. apply qinv_phase; try assumption; try apply Q; try (intros; intuition congruence).
    + intros k Ek. split; [reflexivity|]. intros ->. pose proof (q_taken_h c Q i x Ek G). congruence.
    + intros _. apply orb_true_iff in DS. destruct DS as [DS|DS]; [auto|]. apply (q_stopped c Q).
      destruct (fl c); try discriminate; reflexivity.
    + intros A. pose proof (q_sent c Q i x A G). intuition congruence.
    + intros k y _ Gy Hy. apply (q_created c Q k y Gy Hy).
  - (* ODelete *)
    intros E. apply guard_some in E. destruct E as [B E]. apply andb_true_iff in B. destruct B as [R HH].
    apply indexed_rem in R. destruct (held c) eqn:HE; [|discriminate].
    destruct (items c) as [|e l] eqn:IT; injection E as <- <-; [|exact Q].
    assert (W : wait c = []).
    { destruct (wait c) as [|i w] eqn:W; [reflexivity|]. exfalso. apply (q_waits c Q i); [rewrite W; left; reflexivity|congruence|rewrite IT; reflexivity]. }
    constructor; cbn [set_rem items wait tokens fl held rem down used]; try apply Q; rewrite ?IT, ?HE, ?W; cbn; try (intros; intuition congruence).
    all: try (constructor; fail).
  - (* OClose *)
    intros E. apply guard_some in E. destruct E as [B E]. apply andb_true_iff in B. destruct B as [R HH].
    apply indexed_rem in R. destruct (held c) eqn:HE; [|discriminate]. injection E as <- <-.
    constructor; cbn [set_rem items wait tokens fl held rem down used]; try apply Q; rewrite ?HE; try (intros; cbn in *; intuition congruence).
    + intros i I _. apply (q_waits c Q i I). congruence.
    + intros i I _. apply (q_taken_s c Q i I). congruence.
    + intros i E. pose proof (q_blank c Q i E). congruence.
  - (* OZeroEnq *)
    destruct (rem c) eqn:R; try discriminate. intros [= <- <-].
    constructor; cbn [set_rem set_enq items wait tokens fl held rem down used]; try apply Q; try (intros; cbn in *; intuition congruence).
    + intros i I _. apply (q_waits c Q i I). congruence.
    + intros i I _. apply (q_taken_s c Q i I). congruence.
    + intros i k I. destruct (q_held c Q i k I) as (R' & _). congruence.
    + intros i E. pose proof (q_blank c Q i E). congruence.
  - (* OZeroRun *)
    destruct (rem c) eqn:R; try discriminate. intros [= <- <-].
    constructor; cbn [set_rem set_run items wait tokens fl held rem down used]; try apply Q; try (intros; cbn in *; intuition congruence).
    + intros i I _. apply (q_waits c Q i I). congruence.
    + intros i I _. apply (q_taken_s c Q i I). congruence.
    + intros i k I. destruct (q_held c Q i k I) as (R' & _). congruence.
    + intros i E. pose proof (q_blank c Q i E). congruence.
  - (* ODestroy *)
    destruct (rem c) eqn:R; try discriminate. intros [= <- <-].
    constructor; cbn [set_rem items wait tokens fl held rem down used]; try apply Q; try (intros; cbn in *; intuition congruence).
    + intros i I _. apply (q_waits c Q i I). congruence.
    + intros i I _. apply (q_taken_s c Q i I). congruence.
    + intros i k I. destruct (q_held c Q i k I) as (R' & _). congruence.
    + intros i E. pose proof (q_blank c Q i E). congruence.
  - (* OWipe *)
    destruct (rem c) eqn:R; try discriminate. intros E. apply guard_some in E. destruct E as [_ E]. injection E as <- <-.
    constructor; cbn [set_rem set_items items wait tokens fl held rem down used get map]; try apply Q; try (intros; cbn in *; intuition congruence).
    + constructor.
    + intros i k I. destruct (q_held c Q i k I) as (R' & _). congruence.
  - (* OShutdown *) intros [= <- <-]. apply qinv_down, Q.
Qed.

Lemma qexec_inv c0 tr c : qinv c0 -> qexec c0 tr c -> qinv c.
Proof. intros Q E. induction E; [exact Q|eapply qinv_step; eassumption]. Qed.
Lemma reach_inv tr c : reach tr c -> qinv c.
Proof. intros (e & r & E). eapply qexec_inv; [apply qinv_new|exact E]. Qed.
