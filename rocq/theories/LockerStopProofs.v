(** A locker that is told to stop does, on every key whose lock has not ended, what a locker that goes on would do. *)
From Coq Require Import String List Bool Arith Lia ZArith.
From Verif Require Import DestroySync Locker SpecLocker LockerProofs LockerTrace LockerStop SpecLockerStop.
Import ListNotations.
Local Open Scope nat_scope.
Local Open Scope list_scope.

Section Sim.
Context {key : Type}.
Variable key_dec : forall a b : key, {a = b} + {a <> b}.
Notation locker := (locker key).
Notation stopping := (stopping key).

Definition lock_of (d : deletion) : nat := match d with DLost _ j | DRel j _ _ | DTime j => j end.

Record sim (fz : key -> bool) (tre : list (nat * st_event key)) (st : stopping) (trb : list (nat * lk_event key)) (b : locker) : Prop := {
  g_now : lm_now _ (s_lm _ st) = lm_now _ b;
  g_next : lm_next _ (s_lm _ st) = lm_next _ b;
  g_sess : lm_sess _ (s_lm _ st) = lm_sess _ b;
  g_key : forall j, keyof (s_lm _ st) j = keyof b j;
  g_lock : forall j, fz (keyof b j) = false -> match s_mode _ st j with
     | MNone => lm_lock _ (s_lm _ st) j = lm_lock _ b j
     | MWait g => exists t, lm_lock _ (s_lm _ st) j = set_ph _ LStuck (lm_lock _ b j) /\ ph b j = LTimingOut t g
     | MRefused => False end;
  g_off : forall j, fz (keyof b j) = true -> match s_mode _ st j with
     | MNone => ph (s_lm _ st) j = LDone | MWait _ => False | MRefused => ph (s_lm _ st) j = LStuck end;
  g_fresh : forall j, lm_next _ b <= j -> s_mode _ st j = MNone;
  g_at : forall k, fz k = false -> lm_cur _ (s_lm _ st) k = lm_cur _ b k /\ lm_busy _ (s_lm _ st) k = lm_busy _ b k /\
     lm_beats _ (s_lm _ st) k = lm_beats _ b k;
  g_frz : forall k, fz k = true -> lm_cur _ (s_lm _ st) k <> None;
  g_notime : forall k j, fz k = true -> lm_busy _ (s_lm _ st) k <> Some (DTime j);
  g_cur : forall k j, lm_cur _ (s_lm _ st) k = Some j -> keyof b j = k /\ j < lm_next _ b;
  g_busy : forall k d, lm_busy _ (s_lm _ st) k = Some d -> keyof b (lock_of d) = k /\ lock_of d < lm_next _ b;
  g_beats : forall k j s, In (j, s) (lm_beats _ (s_lm _ st) k) -> keyof b j = k /\ j < lm_next _ b;
  g_client : forall i, lm_client _ (s_lm _ st) i = lm_client _ b i \/ lm_client _ (s_lm _ st) i = CEnd \/
     exists j, waits (lm_client _ (s_lm _ st) i) j /\ j < lm_next _ b /\ fz (keyof b j) = true;
  g_tr : forall k, fz k = false -> on_key key_dec k trb = on_key key_dec k (lock_events tre) }.

Lemma sim_live fz tre st trb b j : sim fz tre st trb b ->
  match l_ph _ (lm_lock _ (s_lm _ st) j) with LDone | LStuck => False | _ => True end ->
  fz (keyof b j) = false /\ lm_lock _ (s_lm _ st) j = lm_lock _ b j /\ s_mode _ st j = MNone.
Proof.
  intros H E. destruct (fz (keyof b j)) eqn:F.
  - apply (g_off _ _ _ _ _ H) in F. unfold ph in F. destruct (s_mode _ st j); [rewrite F in E|rewrite F in E|]; contradiction.
  - pose proof (g_lock _ _ _ _ _ H j F) as G. destruct (s_mode _ st j); [auto|contradiction|]. destruct G as (t & G & _). rewrite G in E. contradiction.
Qed.
Lemma sim_client fz tre st trb b i j : sim fz tre st trb b -> waits (lm_client _ (s_lm _ st) i) j -> fz (keyof b j) = false ->
  lm_client _ (s_lm _ st) i = lm_client _ b i.
Proof.
  intros H W F. destruct (g_client _ _ _ _ _ H i) as [E | [E | (j' & W' & _ & F')]]; [exact E|rewrite E in W; contradiction|].
  exfalso. assert (j = j') by (destruct (lm_client _ (s_lm _ st) i); cbn in *; try contradiction; congruence). congruence.
Qed.
Lemma sim_new fz tre st trb b i : sim fz tre st trb b -> lm_client _ (s_lm _ st) i = CNew -> lm_client _ b i = CNew.
Proof. intros H E. destruct (g_client _ _ _ _ _ H i) as [X | [X | (j & X & _)]]; rewrite E in X; [auto|discriminate|contradiction]. Qed.
Lemma sim_key fz tre st trb b j : sim fz tre st trb b -> l_key _ (lm_lock _ (s_lm _ st) j) = l_key _ (lm_lock _ b j).
Proof. intros H. exact (g_key _ _ _ _ _ H j). Qed.
Lemma waits_next (b : locker) i j : lk_inv b -> waits (lm_client _ b i) j -> j < lm_next _ b.
Proof. intros H W. apply (i_waits _ _ _ H) in W. apply (i_live _ H) in W. apply (i_cur _ H) in W. apply W. Qed.

Ltac upds := unfold with_lm, with_mode, with_time, with_lock, with_client, with_busy, with_cur, with_beats, with_session, with_new, with_refused, drop_client, set_ph, set_cnt, ph, cnt, keyof, upd_nat, upd_key in *;
  cbn [s_lm s_stop s_closed s_mode lm_now lm_next lm_lock lm_cur lm_busy lm_beats lm_client lm_sess l_key l_ph l_cnt lock_of] in *.
Ltac eqs := repeat (match goal with
  | H : context [Nat.eqb ?a ?b] |- _ => destruct (Nat.eqb_spec a b); [try subst a|]
  | |- context [Nat.eqb ?a ?b] => destruct (Nat.eqb_spec a b); [try subst a|]
  | H : context [key_dec ?a ?b] |- _ => destruct (key_dec a b); [try subst a|]
  | |- context [key_dec ?a ?b] => destruct (key_dec a b); [try subst a|]
  end; cbn [lm_now lm_next lm_lock lm_cur lm_busy lm_beats lm_client lm_sess l_key l_ph l_cnt] in * ).

Lemma on_key_push k t (e : lk_event key) tr :
  on_key key_dec k ((t, e) :: tr) = if key_dec (event_key e) k then (t, e) :: on_key key_dec k tr else on_key key_dec k tr.
Proof. unfold on_key. cbn [filter snd]. unfold same_key. destruct (key_dec (event_key e) k); reflexivity. Qed.


Ltac gs H := pose proof (g_now _ _ _ _ _ H) as Gnow; pose proof (g_next _ _ _ _ _ H) as Gnext; pose proof (g_sess _ _ _ _ _ H) as Gsess;
  pose proof (g_key _ _ _ _ _ H) as Gkey; pose proof (g_lock _ _ _ _ _ H) as Glock; pose proof (g_off _ _ _ _ _ H) as Goff;
  pose proof (g_fresh _ _ _ _ _ H) as Gfresh; pose proof (g_at _ _ _ _ _ H) as Gat; pose proof (g_frz _ _ _ _ _ H) as Gfrz; pose proof (g_notime _ _ _ _ _ H) as Gnt;
  pose proof (g_cur _ _ _ _ _ H) as Gcur; pose proof (g_busy _ _ _ _ _ H) as Gbusy; pose proof (g_beats _ _ _ _ _ H) as Gbeats;
  pose proof (g_client _ _ _ _ _ H) as Gcl; pose proof (g_tr _ _ _ _ _ H) as Gtr.



Ltac sc := cbn [with_lm with_mode s_lm s_stop s_closed s_mode with_time with_lock with_client with_busy with_cur with_beats with_session with_new with_refused lm_now lm_next lm_lock lm_cur lm_busy lm_beats lm_client lm_sess lock_of] in *.
Lemma keyof_lock (b : locker) j l x : l_key _ l = keyof b j -> keyof (with_lock _ b j l) x = keyof b x.
Proof. intros E. unfold keyof, with_lock, upd_nat in *. cbn. destruct (Nat.eqb_spec x j); [subst x; exact E|reflexivity]. Qed.
Lemma upd_same {X} (f : nat -> X) i x : upd_nat f i x i = x. Proof. unfold upd_nat. rewrite Nat.eqb_refl. reflexivity. Qed.
Lemma upd_other {X} (f : nat -> X) i x y : y <> i -> upd_nat f i x y = f y.
Proof. intros N. unfold upd_nat. apply Nat.eqb_neq in N. rewrite N. reflexivity. Qed.
Lemma key_same {X} (f : key -> X) i x : upd_key _ key_dec f i x i = x. Proof. unfold upd_key. destruct (key_dec i i); congruence. Qed.
Lemma key_other {X} (f : key -> X) i x y : y <> i -> upd_key _ key_dec f i x y = f y.
Proof. intros N. unfold upd_key. destruct (key_dec y i); congruence. Qed.
Lemma key_out (fz : key -> bool) k k' v v' : fz k = v -> fz k' = v' -> v <> v' -> k' <> k. Proof. congruence. Qed.

(** both set the lock [j] *)
Lemma m_lock fz tre st trb b j l : sim fz tre st trb b -> l_key _ l = keyof b j -> fz (keyof b j) = false -> s_mode _ st j = MNone ->
  sim fz tre (with_lm _ st (with_lock _ (s_lm _ st) j l)) trb (with_lock _ b j l).
Proof.
  intros H EK F M. gs H. pose proof (fun x => keyof_lock b j l x EK) as KB.
  constructor; auto; intros; rewrite ?KB in *; auto.
  - cbn [with_lm s_lm]. rewrite (keyof_lock (s_lm _ st)); [auto|]. rewrite Gkey. exact EK.
  - sc. unfold ph. sc. destruct (Nat.eq_dec j0 j) as [-> | N]; [rewrite M, !upd_same; reflexivity|rewrite !upd_other by exact N; apply Glock; assumption].
  - sc. unfold ph. sc. destruct (Nat.eq_dec j0 j) as [-> | N]; [congruence|rewrite !upd_other by exact N; apply Goff; assumption].
  - eapply Gbeats. eassumption.
  - destruct (Gcl i) as [C | [C | (x & X1 & X2 & X3)]]; auto. right. right. exists x. rewrite KB. auto.
Qed.
(** the stopped one counts another client at a lock that has ended *)
Lemma m_lock_off fz tre st trb b j n : sim fz tre st trb b -> fz (keyof b j) = true ->
  sim fz tre (with_lm _ st (with_lock _ (s_lm _ st) j (set_cnt _ n (lm_lock _ (s_lm _ st) j)))) trb b.
Proof.
  intros H F. gs H.
  constructor; auto; intros.
  - cbn [with_lm s_lm]. rewrite (keyof_lock (s_lm _ st)); [auto|]. reflexivity.
  - sc. destruct (Nat.eq_dec j0 j) as [-> | N]; [congruence|rewrite !upd_other by exact N; apply Glock; assumption].
  - sc. unfold ph. sc. destruct (Nat.eq_dec j0 j) as [-> | N]; [rewrite upd_same; apply Goff; assumption|rewrite !upd_other by exact N; apply Goff; assumption].
Qed.
Lemma m_client fz tre st trb b i c : sim fz tre st trb b -> sim fz tre (with_lm _ st (with_client _ (s_lm _ st) i c)) trb (with_client _ b i c).
Proof.
  intros H. gs H. constructor; auto; intros.
  sc. destruct (Nat.eq_dec i0 i) as [-> | N]; [rewrite !upd_same; auto|rewrite !upd_other by exact N; apply Gcl].
Qed.
Lemma m_client_off fz tre st trb b i c : sim fz tre st trb b -> c = CEnd \/ (exists j, waits c j /\ j < lm_next _ b /\ fz (keyof b j) = true) ->
  sim fz tre (with_lm _ st (with_client _ (s_lm _ st) i c)) trb b.
Proof.
  intros H HC. gs H. constructor; auto; intros.
  sc. destruct (Nat.eq_dec i0 i) as [-> | N]; [rewrite !upd_same; right; exact HC|rewrite !upd_other by exact N; apply Gcl].
Qed.
Lemma m_busy fz tre st trb b k d : sim fz tre st trb b -> fz k = false -> (forall x, d = Some x -> keyof b (lock_of x) = k /\ lock_of x < lm_next _ b) ->
  sim fz tre (with_lm _ st (with_busy _ key_dec (s_lm _ st) k d)) trb (with_busy _ key_dec b k d).
Proof.
  intros H F HD. gs H. constructor; auto; intros.
  - sc. destruct (Gat k0 H0) as (A1 & A2 & A3). split; [exact A1|]. split; [|exact A3].
    destruct (key_dec k0 k) as [-> | N]; [rewrite !key_same; reflexivity|rewrite !key_other by exact N; exact A2].
  - sc. rewrite key_other by congruence. apply Gnt. exact H0.
  - sc. destruct (key_dec k0 k) as [-> | N]; [rewrite key_same in H0; apply HD; exact H0|rewrite key_other in H0 by exact N; apply Gbusy; exact H0].
Qed.
Lemma m_busy_off fz tre st trb b k d : sim fz tre st trb b -> fz k = true -> (forall j, d <> Some (DTime j)) -> (forall x, d = Some x -> keyof b (lock_of x) = k /\ lock_of x < lm_next _ b) ->
  sim fz tre (with_lm _ st (with_busy _ key_dec (s_lm _ st) k d)) trb b.
Proof.
  intros H F NT HD. gs H. constructor; auto; intros.
  - sc. destruct (Gat k0 H0) as (A1 & A2 & A3). split; [exact A1|]. split; [|exact A3].
    rewrite !key_other by congruence. exact A2.
  - sc. destruct (key_dec k0 k) as [-> | N]; [rewrite key_same; apply NT|rewrite key_other by exact N; apply Gnt; exact H0].
  - sc. destruct (key_dec k0 k) as [-> | N]; [rewrite key_same in H0; apply HD; exact H0|rewrite key_other in H0 by exact N; apply Gbusy; exact H0].
Qed.
Lemma m_beats fz tre st trb b k l : sim fz tre st trb b -> (forall j s, In (j, s) l -> keyof b j = k /\ j < lm_next _ b) ->
  sim fz tre (with_lm _ st (with_beats _ key_dec (s_lm _ st) k l)) trb (with_beats _ key_dec b k l).
Proof.
  intros H HD. gs H. constructor; auto; intros.
  - sc. destruct (Gat k0 H0) as (A1 & A2 & A3). split; [exact A1|]. split; [exact A2|].
    destruct (key_dec k0 k) as [-> | N]; [rewrite !key_same; reflexivity|rewrite !key_other by exact N; exact A3].
  - sc. destruct (key_dec k0 k) as [-> | N]; [rewrite key_same in H0; eapply HD; exact H0|rewrite key_other in H0 by exact N; eapply Gbeats; exact H0].
Qed.
Lemma m_beats_off fz tre st trb b k l : sim fz tre st trb b -> fz k = true -> (forall j s, In (j, s) l -> keyof b j = k /\ j < lm_next _ b) ->
  sim fz tre (with_lm _ st (with_beats _ key_dec (s_lm _ st) k l)) trb b.
Proof.
  intros H F HD. gs H. constructor; auto; intros.
  - sc. destruct (Gat k0 H0) as (A1 & A2 & A3). split; [exact A1|]. split; [exact A2|].
    rewrite !key_other by congruence. exact A3.
  - sc. destruct (key_dec k0 k) as [-> | N]; [rewrite key_same in H0; eapply HD; exact H0|rewrite key_other in H0 by exact N; eapply Gbeats; exact H0].
Qed.
Lemma m_removed fz tre st trb b k : sim fz tre st trb b -> fz k = false ->
  sim fz tre (with_lm _ st (with_cur _ key_dec (s_lm _ st) k None)) trb (with_cur _ key_dec b k None).
Proof.
  intros H F. gs H. constructor; auto; intros.
  - sc. destruct (Gat k0 H0) as (A1 & A2 & A3). split; [|split; [exact A2|exact A3]].
    destruct (key_dec k0 k) as [-> | N]; [rewrite !key_same; reflexivity|rewrite !key_other by exact N; exact A1].
  - sc. rewrite key_other by congruence. apply Gfrz. exact H0.
  - sc. destruct (key_dec k0 k) as [-> | N]; [rewrite key_same in H0; discriminate|rewrite key_other in H0 by exact N; apply Gcur; exact H0].
Qed.
Lemma m_session fz tre st trb b s : sim fz tre st trb b -> sim fz tre (with_lm _ st (with_session _ (s_lm _ st) s)) trb (with_session _ b s).
Proof. intros H. gs H. constructor; auto. sc. congruence. Qed.
Lemma m_time fz tre st trb b d : sim fz tre st trb b -> sim fz tre (with_lm _ st (with_time _ (s_lm _ st) d)) trb (with_time _ b d).
Proof. intros H. gs H. constructor; auto. sc. congruence. Qed.
Lemma m_new fz tre st trb b k : sim fz tre st trb b -> fz k = false ->
  sim fz tre (with_lm _ st (with_new _ key_dec (s_lm _ st) k)) trb (with_new _ key_dec b k).
Proof.
  intros H F. gs H. assert (KB : forall x, x < lm_next _ b -> keyof (with_new _ key_dec b k) x = keyof b x)
    by (intros x L; unfold keyof, with_new; sc; rewrite upd_other by lia; reflexivity).
  assert (KN : keyof (with_new _ key_dec b k) (lm_next _ b) = k) by (unfold keyof, with_new; sc; rewrite upd_same; reflexivity).
  assert (KO : forall x, x <> lm_next _ b -> keyof (with_new _ key_dec b k) x = keyof b x)
    by (intros x L; unfold keyof, with_new; sc; rewrite upd_other by lia; reflexivity).
  constructor; auto; intros.
  - sc. congruence.
  - unfold keyof. sc. rewrite Gnext. destruct (Nat.eq_dec j (lm_next _ b)) as [-> | N]; [rewrite !upd_same; reflexivity|rewrite !upd_other by exact N; apply Gkey].
  - unfold ph. sc. rewrite Gnext. destruct (Nat.eq_dec j (lm_next _ b)) as [-> | N]; [rewrite Gfresh, !upd_same by lia; reflexivity|rewrite !upd_other by exact N; apply Glock].
    rewrite KO in H0; auto.
  - unfold ph. sc. rewrite Gnext. destruct (Nat.eq_dec j (lm_next _ b)) as [-> | N]; [congruence|rewrite !upd_other by exact N; apply Goff].
    rewrite KO in H0; auto.
  - sc. apply Gfresh. lia.
  - sc. destruct (Gat k0 H0) as (A1 & A2 & A3). split; [|split; [exact A2|exact A3]].
    destruct (key_dec k0 k) as [-> | N]; [rewrite !key_same; congruence|rewrite !key_other by exact N; exact A1].
  - sc. rewrite key_other by congruence. apply Gfrz. exact H0.
  - sc. destruct (key_dec k0 k) as [-> | N]; [rewrite key_same in H0; injection H0 as <-; rewrite Gnext; split; [exact KN|lia]|rewrite key_other in H0 by exact N].
    destruct (Gcur _ _ H0). rewrite KB by assumption. split; [assumption|lia].
  - sc. destruct (Gbusy _ _ H0). rewrite KB by assumption. split; [assumption|lia].
  - sc. destruct (Gbeats _ _ _ H0). rewrite KB by assumption. split; [assumption|lia].
  - sc. destruct (Gcl i) as [C | [C | (x & X1 & X2 & X3)]]; auto. right. right. exists x. rewrite KB by assumption. auto.
Qed.
Lemma m_event fz tre st trb b t e : sim fz tre st trb b -> sim fz ((t, SEv _ e) :: tre) st ((t, e) :: trb) b.
Proof.
  intros H. gs H. constructor; auto. intros k F. cbn [lock_events]. rewrite !on_key_push. destruct (key_dec (event_key e) k); [f_equal|]; auto.
Qed.
Lemma m_event_off fz tre st trb b t e : sim fz tre st trb b -> fz (event_key e) = true -> sim fz ((t, SEv _ e) :: tre) st trb b.
Proof.
  intros H F. gs H. constructor; auto. intros k F'. cbn [lock_events]. rewrite !on_key_push. destruct (key_dec (event_key e) k); [congruence|]; auto.
Qed.
Lemma m_other fz tre st trb b t e : sim fz tre st trb b -> (forall x, e <> SEv _ x) -> sim fz ((t, e) :: tre) st trb b.
Proof.
  intros H F. gs H. constructor; auto. intros k F'. destruct e; [destruct (F e eq_refl)| |]; cbn [lock_events]; auto.
Qed.
Lemma m_gen fz tre st trb b j l l' m : sim fz tre st trb b -> l_key _ l = keyof b j -> l_key _ l' = keyof b j -> fz (keyof b j) = false ->
  (lm_next _ b <= j -> m = MNone) ->
  (match m with MNone => l = l' | MWait g => exists t, l = set_ph _ LStuck l' /\ l_ph _ l' = LTimingOut t g | MRefused => False end) ->
  sim fz tre (with_mode _ (with_lm _ st (with_lock _ (s_lm _ st) j l)) j m) trb (with_lock _ b j l').
Proof.
  intros H EK EK' F HN HM. gs H. pose proof (fun x => keyof_lock b j l' x EK') as KB.
  constructor; auto; intros; rewrite ?KB in *; auto.
  - cbn [with_lm with_mode s_lm]. rewrite (keyof_lock (s_lm _ st)); [auto|]. rewrite Gkey. exact EK.
  - sc. unfold ph. sc. destruct (Nat.eq_dec j0 j) as [-> | N]; [rewrite !upd_same; exact HM|rewrite !upd_other by exact N; apply Glock; assumption].
  - sc. unfold ph. sc. destruct (Nat.eq_dec j0 j) as [-> | N]; [congruence|rewrite !upd_other by exact N; apply Goff; assumption].
  - sc. destruct (Nat.eq_dec j0 j) as [-> | N]; [rewrite upd_same; auto|rewrite upd_other by exact N; auto].
  - eapply Gbeats. eassumption.
  - destruct (Gcl i) as [C | [C | (x & X1 & X2 & X3)]]; auto. right. right. exists x. rewrite KB. auto.
Qed.
Definition same_lm (a b : locker) : Prop :=
  lm_now _ a = lm_now _ b /\ lm_next _ a = lm_next _ b /\ lm_sess _ a = lm_sess _ b /\ (forall j, lm_lock _ a j = lm_lock _ b j) /\
  (forall k, lm_cur _ a k = lm_cur _ b k) /\ (forall k, lm_busy _ a k = lm_busy _ b k) /\ (forall k, lm_beats _ a k = lm_beats _ b k) /\
  (forall i, lm_client _ a i = lm_client _ b i).
Lemma m_ext fz tre st st' trb b : sim fz tre st trb b -> same_lm (s_lm _ st') (s_lm _ st) -> (forall j, s_mode _ st' j = s_mode _ st j) -> sim fz tre st' trb b.
Proof.
  intros H (E1 & E2 & E3 & E4 & E5 & E6 & E7 & E8) E9. gs H.
  constructor; intros; rewrite ?E1, ?E2, ?E3, ?E5, ?E6, ?E7, ?E8, ?E9 in *; unfold keyof, ph in *; rewrite ?E4 in *; auto.
  - apply Glock. assumption.
  - apply Goff. assumption.
  - eapply Gbeats. eassumption.
Qed.
(** the lock of [k] has ended *)
Lemma m_freeze fz tre st trb b k j l m : sim fz tre st trb b -> fz k = false -> keyof b j = k -> l_key _ l = k -> lm_cur _ (s_lm _ st) k <> None ->
  (lm_next _ b <= j -> m = MNone) ->
  (m = MNone /\ l_ph _ l = LDone \/ m = MRefused /\ l_ph _ l = LStuck) -> (forall x, lm_busy _ (s_lm _ st) k <> Some (DTime x)) ->
  (forall x, x <> j -> keyof b x = k -> s_mode _ st x = MNone /\ ph (s_lm _ st) x = LDone) ->
  sim (upd_key _ key_dec fz k true) tre (with_mode _ (with_lm _ st (with_lock _ (s_lm _ st) j l)) j m) trb b.
Proof.
  intros H F KJ EK EC HN HM NT HX. gs H.
  assert (FF : forall k', upd_key _ key_dec fz k true k' = false -> k' <> k /\ fz k' = false).
  { intros k' E. destruct (key_dec k' k) as [-> | N]; [rewrite key_same in E; discriminate|rewrite key_other in E by exact N; auto]. }
  assert (FT : forall k', upd_key _ key_dec fz k true k' = true -> k' = k \/ fz k' = true).
  { intros k' E. destruct (key_dec k' k) as [-> | N]; [auto|rewrite key_other in E by exact N; auto]. }
  constructor; auto; intros.
  - cbn [with_lm with_mode s_lm]. rewrite (keyof_lock (s_lm _ st)); [auto|]. rewrite Gkey. congruence.
  - apply FF in H0 as [N E]. assert (j0 <> j) by congruence. sc. rewrite !upd_other by assumption. apply Glock. exact E.
  - apply FT in H0. sc. unfold ph. sc. destruct (Nat.eq_dec j0 j) as [-> | N].
    + rewrite !upd_same. destruct HM as [[-> HM] | [-> HM]]; exact HM.
    + rewrite !upd_other by exact N. destruct H0 as [E | E]; [destruct (HX _ N E) as [-> X]; exact X|apply Goff; exact E].
  - sc. destruct (Nat.eq_dec j0 j) as [-> | N]; [rewrite upd_same; auto|rewrite upd_other by exact N; auto].
  - apply FF in H0 as [N E]. apply Gat. exact E.
  - apply FT in H0 as [-> | E]; [exact EC|apply Gfrz; exact E].
  - apply FT in H0 as [-> | E]; [apply NT|apply Gnt; exact E].
  - destruct (Gcl i) as [C | [C | (x & X1 & X2 & X3)]]; auto. right. right. exists x. split; [exact X1|]. split; [exact X2|].
    destruct (key_dec (keyof b x) k) as [-> | N]; [apply key_same|rewrite key_other by exact N; exact X3].
  - apply FF in H0 as [N E]. apply Gtr. exact E.
Qed.
(** the other locks of a key that has a living lock are done *)
Lemma others_done fz tre st trb b k j : sim fz tre st trb b -> lk_inv b -> fz k = false -> lm_cur _ b k = Some j ->
  forall x, x <> j -> keyof b x = k -> s_mode _ st x = MNone /\ ph (s_lm _ st) x = LDone.
Proof.
  intros H HI F EC x N EX. assert (D : ph b x = LDone).
  { destruct (ph b x) eqn:E; try reflexivity; exfalso; (assert (X : ph b x <> LDone) by congruence); apply (i_live _ HI) in X; rewrite EX in X; congruence. }
  pose proof (g_lock _ _ _ _ _ H x) as G. rewrite EX in G. specialize (G F). destruct (s_mode _ st x); [|contradiction|].
  - split; [reflexivity|]. unfold ph. rewrite G. exact D.
  - destruct G as (t & _ & G). congruence.
Qed.
Definition at_now (l : locker) {E} (e : option E) : option (nat * E) := match e with Some e => Some (lm_now _ l, e) | None => None end.
Definition follows fz tre (st : stopping) trb (b : locker) e (st' : stopping) : Prop := exists fz' trb' b',
  ((trb' = trb /\ b' = b) \/ exists eb, lk_step _ key_dec b eb b' /\ trb' = push (at_now b eb) trb) /\
  sim fz' (push (at_now (s_lm _ st) e) tre) st' trb' b' /\
  (forall k, fz k = true -> fz' k = true) /\
  (forall ev, e = Some (SEv _ ev) -> fz (event_key ev) = false -> trb' = (lm_now _ b, ev) :: trb).
(** the same step on both sides *)
Lemma follow_same fz tre st trb b e b' st' : lk_step _ key_dec b e b' -> lm_now _ (s_lm _ st) = lm_now _ b ->
  sim fz tre st' trb b' -> follows fz tre st trb b (option_map (SEv key) e) st'.
Proof.
  intros HS EN H. exists fz, (push (at_now b e) trb), b'. split; [right; exists e; auto|]. split; [|split; [auto|]].
  - destruct e as [e|]; cbn; [|exact H]. rewrite EN. apply m_event. exact H.
  - intros ev E _. destruct e as [e|]; cbn in *; [|discriminate]. injection E as ->. reflexivity.
Qed.
(** a step on a key whose lock has ended *)
Lemma follow_off fz tre st trb b e st' : sim fz tre st' trb b -> (forall ev, e = Some ev -> fz (event_key ev) = true) ->
  follows fz tre st trb b (option_map (SEv key) e) st'.
Proof.
  intros H HF. exists fz, trb, b. split; [left; auto|]. split; [|split; [auto|]].
  - destruct e as [e|]; cbn; [|exact H]. apply m_event_off; [exact H|]. apply HF. reflexivity.
  - intros ev E F. destruct e as [e|]; cbn in *; [|discriminate]. injection E as ->. rewrite (HF _ eq_refl) in F. discriminate.
Qed.

Lemma m_drop fz tre st trb b k j p : sim fz tre st trb b -> lm_lock _ (s_lm _ st) j = lm_lock _ b j -> keyof b j = k -> fz k = false -> s_mode _ st j = MNone ->
  sim fz tre (with_lm _ st (drop_client _ key_dec (s_lm _ st) k j p)) trb (drop_client _ key_dec b k j p).
Proof.
  intros H L K F M. unfold drop_client. rewrite L. subst k. destruct (l_cnt _ (lm_lock _ b j) - 1).
  - pose proof (m_lock _ _ _ _ _ j (mkLock _ (l_key _ (lm_lock _ b j)) LDone 0) H eq_refl F M) as H1.
    pose proof (m_removed _ _ _ _ _ (keyof b j) H1 F) as H2.
    exact (m_busy _ _ _ _ _ (keyof b j) None H2 F (fun x E => match (eq_ind None (fun o => match o with None => True | Some _ => False end) Logic.I _ E) with end)).
  - pose proof (m_lock _ _ _ _ _ j (mkLock _ (l_key _ (lm_lock _ b j)) p (S n)) H eq_refl F M) as H1.
    exact (m_busy _ _ _ _ _ (keyof b j) None H1 F (fun x E => match (eq_ind None (fun o => match o with None => True | Some _ => False end) Logic.I _ E) with end)).
Qed.

(** the same with the state spelt out *)
Lemma n_client fz tre st l trb b i c : sim fz tre (with_lm _ st l) trb b -> sim fz tre (with_lm _ st (with_client _ l i c)) trb (with_client _ b i c).
Proof. exact (m_client fz tre (with_lm _ st l) trb b i c). Qed.
Lemma n_client_off fz tre st l trb b i c : sim fz tre (with_lm _ st l) trb b -> c = CEnd \/ (exists j, waits c j /\ j < lm_next _ b /\ fz (keyof b j) = true) ->
  sim fz tre (with_lm _ st (with_client _ l i c)) trb b.
Proof. exact (m_client_off fz tre (with_lm _ st l) trb b i c). Qed.
Lemma n_busy fz tre st l trb b k d : sim fz tre (with_lm _ st l) trb b -> fz k = false -> (forall x, d = Some x -> keyof b (lock_of x) = k /\ lock_of x < lm_next _ b) ->
  sim fz tre (with_lm _ st (with_busy _ key_dec l k d)) trb (with_busy _ key_dec b k d).
Proof. exact (m_busy fz tre (with_lm _ st l) trb b k d). Qed.
Lemma n_busy_off fz tre st l trb b k d : sim fz tre (with_lm _ st l) trb b -> fz k = true -> (forall j, d <> Some (DTime j)) -> (forall x, d = Some x -> keyof b (lock_of x) = k /\ lock_of x < lm_next _ b) ->
  sim fz tre (with_lm _ st (with_busy _ key_dec l k d)) trb b.
Proof. exact (m_busy_off fz tre (with_lm _ st l) trb b k d). Qed.
Lemma n_beats fz tre st l trb b k x : sim fz tre (with_lm _ st l) trb b -> (forall j s, In (j, s) x -> keyof b j = k /\ j < lm_next _ b) ->
  sim fz tre (with_lm _ st (with_beats _ key_dec l k x)) trb (with_beats _ key_dec b k x).
Proof. exact (m_beats fz tre (with_lm _ st l) trb b k x). Qed.
Lemma n_session fz tre st l trb b s : sim fz tre (with_lm _ st l) trb b -> sim fz tre (with_lm _ st (with_session _ l s)) trb (with_session _ b s).
Proof. exact (m_session fz tre (with_lm _ st l) trb b s). Qed.
Ltac lv j := match goal with H : sim ?fz _ ?st _ ?b, E : l_ph _ (lm_lock _ (s_lm _ ?st) j) = _ |- _ =>
  destruct (sim_live _ _ _ _ _ j H) as (F & L & M); [rewrite E; exact Logic.I|] end.
Lemma m_id fz tre st trb b : sim fz tre st trb b -> sim fz tre (with_lm _ st (s_lm _ st)) trb b.
Proof. intros H. eapply m_ext; [exact H|repeat split|reflexivity]. Qed.
Lemma run_follows fz tre st trb b e l : sim fz tre st trb b -> lk_inv b -> lk_step _ key_dec (s_lm _ st) e l -> 
  follows fz tre st trb b (option_map (SEv key) e) (with_lm _ st l).
Proof.
  intros H HI HS. gs H. inversion HS; subst; clear HS.
  - (* time *) eapply follow_same; [apply K_time|exact Gnow|]. apply m_time. exact H.
  - lv j. eapply follow_same; [eapply K_fire; [rewrite <- L; eassumption|lia]|exact Gnow|]. rewrite <- L. apply m_lock; auto. cbn. rewrite L. reflexivity.
  - lv j. eapply follow_same; [eapply K_fire_again; [rewrite <- L; eassumption|lia]|exact Gnow|]. rewrite <- L. apply m_lock; auto. cbn. rewrite L. reflexivity.
  - (* join_new *) destruct (fz k) eqn:F; [destruct (Gfrz _ F); assumption|]. destruct (Gat _ F) as (A1 & A2 & A3).
    eapply follow_same; [eapply (K_join_new _ _ _ i k d); [eapply sim_new; eauto|congruence|congruence]|exact Gnow|].
    rewrite Gnext. exact (m_client _ _ _ _ _ i _ (m_new _ _ _ _ _ k H F)).
  - (* join *) destruct (fz k) eqn:F.
    + apply follow_off; [|intros ev [= <-]; exact F]. destruct (Gcur _ _ H2) as [KJ LT]. assert (FJ : fz (keyof b j) = true) by congruence.
      refine (m_client_off _ _ _ _ _ i (CWait j d) (m_lock_off _ _ _ _ _ j _ H FJ) (or_intror (ex_intro _ j (conj eq_refl (conj LT FJ))))).
    + destruct (Gat _ F) as (A1 & A2 & A3). destruct (Gcur _ _ H2) as [KJ LT].
      assert (G := Glock j). rewrite KJ in G. specialize (G F). destruct (s_mode _ st j) eqn:M; [|contradiction|].
      * eapply follow_same; [eapply (K_join _ _ _ i k j d); [eapply sim_new; eauto|congruence|congruence]|exact Gnow|].
        rewrite <- G. refine (m_client _ _ _ _ _ i _ (m_lock _ _ _ _ _ j _ H _ _ M)); [cbn; rewrite G; reflexivity|congruence].
      * destruct G as (t & G1 & G2). eapply follow_same; [eapply (K_join _ _ _ i k j d); [eapply sim_new; eauto|congruence|congruence]|exact Gnow|].
        refine (m_client _ _ (with_lm _ st (with_lock _ (s_lm _ st) j _)) _ (with_lock _ b j _) i _ _).
        assert (X := m_gen _ _ _ _ _ j (set_cnt _ (S (l_cnt _ (lm_lock _ (s_lm _ st) j))) (lm_lock _ (s_lm _ st) j)) (set_cnt _ (S (l_cnt _ (lm_lock _ b j))) (lm_lock _ b j)) (MWait begun) H).
        eapply m_ext; [apply X; clear X|repeat split|].
        -- rewrite G1. reflexivity.
        -- reflexivity.
        -- congruence.
        -- lia.
        -- exists t. rewrite G1. split; [reflexivity|exact G2].
        -- intros x. cbn. unfold upd_nat. destruct (Nat.eqb_spec x j); [congruence|reflexivity].
  - (* claim *) lv j. pose proof (sim_client _ _ _ _ _ i j H) as C. rewrite H0 in C. specialize (C eq_refl F).
    eapply follow_same; [eapply (K_claim _ _ _ i j d); [congruence|congruence]|exact Gnow|]. rewrite <- L.
    apply (n_client _ _ _ _ _ _ i). apply m_lock; auto. cbn. rewrite L. reflexivity.
  - (* grant *) lv j. replace (l_key _ (lm_lock _ (s_lm _ st) j)) with (l_key _ (lm_lock _ b j)) by (rewrite L; reflexivity).
    eapply follow_same; [eapply (K_grant _ _ _ i j d s); [congruence|congruence|assumption]|exact Gnow|].
    apply (n_session _ _ _ _ _ _ s). rewrite <- L, <- Gnow. apply (n_client _ _ _ _ _ _ i). apply m_lock; auto. cbn. rewrite L. reflexivity.
  - (* gone *) destruct (fz (keyof b j)) eqn:F.
    + apply follow_off; [|discriminate]. apply m_client_off; [exact H|]. right. exists j. split; [reflexivity|]. split; [|exact F].
      destruct (Gcl i) as [C | [C | (x & X1 & X2 & X3)]]; [|congruence|].
      * eapply waits_next; [exact HI|]. rewrite <- C, H0. reflexivity.
      * rewrite H0 in X1. cbn in X1. subst x. exact X2.
    + pose proof (sim_client _ _ _ _ _ i j H) as C. rewrite H0 in C. specialize (C eq_refl F).
      eapply follow_same; [eapply (K_gone _ _ _ i j d); congruence|exact Gnow|]. apply m_client. exact H.
  - (* lost_begin *) set (k := l_key _ (lm_lock _ (s_lm _ st) j)) in *. assert (KE : keyof b j = k) by (rewrite <- (Gkey j); reflexivity).
    destruct (Gcur _ _ H4) as [KJ LT]. destruct (fz k) eqn:F.
    + apply follow_off; [|discriminate]. apply (n_busy_off _ _ _ _ _ _ k); [|exact F|discriminate|intros x [= <-]; cbn; auto].
      apply m_client_off; [exact H|]. right. exists j. split; [reflexivity|]. split; [|congruence].
      destruct (Gcl i) as [C | [C | (x & X1 & X2 & X3)]]; [|congruence|].
      * eapply waits_next; [exact HI|]. rewrite <- C, H0. reflexivity.
      * rewrite H0 in X1. cbn in X1. subst x. exact X2.
    + pose proof (sim_client _ _ _ _ _ i j H) as C. rewrite H0, KE in C. specialize (C eq_refl F). destruct (Gat _ F) as (A1 & A2 & A3).
      eapply follow_same; [eapply (K_lost_begin _ _ _ i j j' k); try congruence; symmetry; exact KE|exact Gnow|].
      apply (n_busy _ _ _ _ _ _ k); [|exact F|intros x [= <-]; cbn; auto]. apply m_client. exact H.
  - (* lost_none *) set (k := l_key _ (lm_lock _ (s_lm _ st) j)) in *. assert (KE : keyof b j = k) by (rewrite <- (Gkey j); reflexivity).
    destruct (fz k) eqn:F; [destruct (Gfrz _ F); assumption|].
    pose proof (sim_client _ _ _ _ _ i j H) as C. rewrite H0, KE in C. specialize (C eq_refl F). destruct (Gat _ F) as (A1 & A2 & A3).
    eapply follow_same; [eapply (K_lost_none _ _ _ i j k); try congruence; symmetry; exact KE|exact Gnow|]. apply m_client. exact H.
  - (* lost_idle *) lv j. destruct (Gbusy _ _ H0) as [KJ LT]. cbn in KJ. assert (F' : fz k = false) by congruence. destruct (Gat _ F') as (A1 & A2 & A3).
    eapply follow_same; [eapply (K_lost_idle _ _ _ i j k); congruence|exact Gnow|]. apply (n_client _ _ _ _ _ _ i). apply m_drop; auto.
  - (* lost_held *) assert (E : exists p, l_ph _ (lm_lock _ (s_lm _ st) j) = p /\ match p with LHeld _ _ _ _ | LTimingOut _ _ => True | _ => False end) by eauto.
    assert (LV : match l_ph _ (lm_lock _ (s_lm _ st) j) with LDone | LStuck => False | _ => True end) by (destruct (l_ph _ (lm_lock _ (s_lm _ st) j)); tauto).
    destruct (sim_live _ _ _ _ _ j H LV) as (F & L & M). destruct (Gbusy _ _ H0) as [KJ LT]. cbn in KJ. assert (F' : fz k = false) by congruence. destruct (Gat _ F') as (A1 & A2 & A3).
    rewrite L in *. eapply follow_same; [eapply (K_lost_held _ _ _ i j k _); [congruence|reflexivity|assumption]|exact Gnow|].
    destruct (l_cnt _ (lm_lock _ b j) - 1).
    + apply m_lock; auto.
    + apply (n_client _ _ _ _ _ _ i). apply (n_busy _ _ _ _ _ _ k); [|exact F'|discriminate]. apply m_lock; auto.
  - (* lost_done *) destruct (fz k) eqn:F.
    + apply follow_off; [|intros ev [= <-]; exact F]. apply (n_client_off _ _ _ _ _ _ i); [|auto]. apply m_busy_off; [exact H|exact F|discriminate|discriminate].
    + destruct (Gbusy _ _ H0) as [KJ LT]. cbn in KJ. destruct (Gat _ F) as (A1 & A2 & A3). assert (G := Glock j). rewrite KJ in G. specialize (G F).
      destruct (s_mode _ st j); [|contradiction|destruct G as (t & G & _); rewrite G in H1; discriminate].
      eapply follow_same; [eapply (K_lost_done _ _ _ i j k); congruence|exact Gnow|]. apply (n_client _ _ _ _ _ _ i). apply m_busy; [exact H|exact F|discriminate].
  - (* rel_none *) destruct (fz k) eqn:F; [apply follow_off; [exact (m_id _ _ _ _ _ H)|intros ev [= <-]; exact F]|]. destruct (Gat _ F) as (A1 & A2 & A3).
    eapply follow_same; [eapply (K_rel_none _ _ _ k r s); congruence|exact Gnow|exact (m_id _ _ _ _ _ H)].
  - (* rel_begin *) destruct (Gcur _ _ H3) as [KJ LT]. destruct (fz k) eqn:F.
    + apply follow_off; [|discriminate]. apply m_busy_off; [exact H|exact F|discriminate|intros x [= <-]; cbn; auto].
    + destruct (Gat _ F) as (A1 & A2 & A3). eapply follow_same; [eapply (K_rel_begin _ _ _ k r s j); congruence|exact Gnow|].
      apply m_busy; [exact H|exact F|intros x [= <-]; cbn; auto].
  - (* rel_ok *) lv j. destruct (Gbusy _ _ H0) as [KJ LT]. cbn in KJ. assert (F' : fz k = false) by congruence. destruct (Gat _ F') as (A1 & A2 & A3).
    eapply follow_same; [eapply (K_rel_ok _ _ _ k j r s d next tick); congruence|exact Gnow|]. apply m_drop; auto.
  - (* rel_fail *) destruct (Gbusy _ _ H0) as [KJ LT]. cbn in KJ. destruct (fz k) eqn:F.
    + apply follow_off; [|intros ev [= <-]; exact F]. apply m_busy_off; [exact H|exact F|discriminate|discriminate].
    + destruct (Gat _ F) as (A1 & A2 & A3). assert (G := Glock j). rewrite KJ in G. specialize (G F).
      destruct (s_mode _ st j); [|contradiction|destruct G as (t & G & _); rewrite G in H2; contradiction].
      rewrite G in *. eapply follow_same; [eapply (K_rel_fail _ _ _ k j r s _); [congruence|reflexivity|assumption]|exact Gnow|]. apply m_busy; [exact H|exact F|discriminate].
  - (* beat_none *) destruct (fz k) eqn:F; [apply follow_off; [exact (m_id _ _ _ _ _ H)|intros ev [= <-]; exact F]|]. destruct (Gat _ F) as (A1 & A2 & A3).
    eapply follow_same; [eapply (K_beat_none _ _ _ k j s); congruence|exact Gnow|exact (m_id _ _ _ _ _ H)].
  - (* beat_begin *) destruct (Gcur _ _ H2) as [KJ LT].
    assert (HB : forall j0 s0, In (j0, s0) (lm_beats _ (s_lm _ st) k ++ [(j, s)]) -> keyof b j0 = k /\ j0 < lm_next _ b).
    { intros j0 s0 HIn. apply in_app_iff in HIn as [HIn | [[= <- <-] | []]]; [eapply Gbeats; exact HIn|auto]. }
    destruct (fz k) eqn:F.
    + apply follow_off; [|discriminate]. apply m_beats_off; assumption.
    + destruct (Gat _ F) as (A1 & A2 & A3). eapply follow_same; [eapply (K_beat_begin _ _ _ k s j); congruence|exact Gnow|].
      rewrite <- A3. apply m_beats; assumption.
  - (* beat_ok *) lv j. destruct (Gbeats k j s) as [KJ LT]; [rewrite H0; apply in_elt|]. assert (F' : fz k = false) by congruence. destruct (Gat _ F') as (A1 & A2 & A3).
    eapply follow_same; [eapply (K_beat_ok _ _ _ k j s d next tick b1 b2); congruence|exact Gnow|].
    apply (n_beats _ _ _ _ _ _ k (b1 ++ b2)).
    + rewrite <- L, <- Gnow. apply m_lock; auto. cbn. rewrite L. reflexivity.
    + intros j0 s0 HIn. rewrite keyof_lock by reflexivity. eapply (Gbeats k j0 s0). rewrite H0. apply in_app_iff in HIn. apply in_app_iff. destruct HIn; [left|right; right]; assumption.
  - (* beat_fail *) destruct (Gbeats k j s) as [KJ LT]; [rewrite H0; apply in_elt|].
    assert (HB : forall j0 s0, In (j0, s0) (b1 ++ b2) -> keyof b j0 = k /\ j0 < lm_next _ b).
    { intros j0 s0 HIn. eapply (Gbeats k j0 s0). rewrite H0. apply in_app_iff in HIn. apply in_app_iff. destruct HIn; [left|right; right]; assumption. }
    destruct (fz k) eqn:F.
    + apply follow_off; [|intros ev [= <-]; exact F]. apply m_beats_off; assumption.
    + destruct (Gat _ F) as (A1 & A2 & A3). assert (G := Glock j). rewrite KJ in G. specialize (G F).
      destruct (s_mode _ st j); [|contradiction|destruct G as (t & G & _); rewrite G in H2; contradiction].
      rewrite G in *. eapply follow_same; [eapply (K_beat_fail _ _ _ k j s _ b1 b2); [congruence|reflexivity|assumption]|exact Gnow|]. apply m_beats; assumption.
  - (* take *) lv j. eapply follow_same; [eapply (K_take _ _ _ j s d next); congruence|exact Gnow|]. rewrite <- L. apply m_lock; auto. cbn. rewrite L. reflexivity.
  - (* expire *) lv j. replace (l_key _ (lm_lock _ (s_lm _ st) j)) with (l_key _ (lm_lock _ b j)) by (rewrite L; reflexivity).
    eapply follow_same; [eapply (K_expire _ _ _ j s d next tick); congruence|exact Gnow|]. rewrite <- L. apply m_lock; auto. cbn. rewrite L. reflexivity.
  - (* take_again *) lv j. eapply follow_same; [eapply (K_take_again _ _ _ j b0); congruence|exact Gnow|]. rewrite <- L. apply m_lock; auto. cbn. rewrite L. reflexivity.
  - (* time_begin *) lv j. destruct (Gcur _ _ H4) as [KJ LT]. assert (KE : keyof b j = l_key _ (lm_lock _ (s_lm _ st) j)) by (rewrite L; reflexivity).
    destruct (Gat _ F) as (A1 & A2 & A3). rewrite KE in *.
    eapply follow_same; [eapply (K_time_begin _ _ _ j j' tick (l_key _ (lm_lock _ (s_lm _ st) j))); congruence|exact Gnow|].
    apply (n_busy _ _ _ _ _ _ (l_key _ (lm_lock _ (s_lm _ st) j))).
    + rewrite <- L. apply m_lock; auto. congruence.
    + exact F.
    + intros x [= <-]. rewrite keyof_lock; cbn; [auto|reflexivity].
  - (* time_done *) lv j. destruct (Gbusy _ _ H0) as [KJ LT]. cbn in KJ. assert (F' : fz k = false) by congruence. destruct (Gat _ F') as (A1 & A2 & A3).
    eapply follow_same; [eapply (K_time_done _ _ _ j tick b0 k); congruence|exact Gnow|]. apply m_drop; auto.
  - (* time_wrong *) lv j. destruct (Gbusy _ _ H0) as [KJ LT]. cbn in KJ. assert (F' : fz k = false) by congruence. destruct (Gat _ F') as (A1 & A2 & A3).
    eapply follow_same; [eapply (K_time_wrong _ _ _ j s d next tick k); congruence|exact Gnow|]. rewrite <- L. apply m_lock; auto. cbn. rewrite L. reflexivity.
Qed.
Lemma m_extb fz tre st trb b b' : sim fz tre st trb b -> same_lm b' b -> sim fz tre st trb b'.
Proof.
  intros H (E1 & E2 & E3 & E4 & E5 & E6 & E7 & E8). gs H.
  assert (KE : forall j, keyof b' j = keyof b j) by (intros j; unfold keyof; rewrite E4; reflexivity).
  constructor; intros; rewrite ?E1, ?E2, ?E3, ?E5, ?E6, ?E7, ?E8, ?KE in *; unfold ph; rewrite ?E4; auto.
  - apply Glock. assumption.
  - apply Goff. assumption.
  - eapply Gbeats. eassumption.
  - destruct (Gcl i) as [C | [C | (x & X1 & X2 & X3)]]; auto. right. right. exists x. rewrite KE. auto.
Qed.
Lemma same_id (b : locker) j : same_lm b (with_lock _ b j (lm_lock _ b j)).
Proof. repeat split. intros x. cbn. unfold upd_nat. destruct (Nat.eqb_spec x j); [subst; reflexivity|reflexivity]. Qed.
(** nothing that happens but for the one who stops *)
Lemma follow_none fz fz' tre st trb b st' : sim fz' tre st' trb b -> (forall k, fz k = true -> fz' k = true) -> follows fz tre st trb b None st'.
Proof. intros H HF. exists fz', trb, b. split; [left; auto|]. split; [exact H|]. split; [exact HF|discriminate]. Qed.
Lemma follow_other fz tre st trb b e st' : sim fz tre st' trb b -> (forall x, e <> SEv _ x) -> follows fz tre st trb b (Some e) st'.
Proof.
  intros H N. exists fz, trb, b. split; [left; auto|]. split; [apply m_other; assumption|]. split; [auto|]. intros ev [= ->] _. destruct (N _ eq_refl).
Qed.
Lemma frz_more (fz : key -> bool) k k' : fz k' = true -> upd_key _ key_dec fz k true k' = true.
Proof. intros F. unfold upd_key. destruct (key_dec k' k); [reflexivity|exact F]. Qed.

Lemma step_follows fz tre st trb b e st' : sim fz tre st trb b -> lk_inv b -> st_step _ key_dec st e st' -> follows fz tre st trb b e st'.
Proof.
  intros H HI HS. gs H. inversion HS; subst; clear HS.
  - apply run_follows; assumption.
  - apply follow_other; [|discriminate]. eapply m_ext; [exact H|repeat split|reflexivity].
  - eapply follow_none; [|intros k; exact (fun X => X)]. eapply m_ext; [exact H|repeat split|reflexivity].
  - (* end *) lv j. set (k := keyof b j) in *. destruct (Gat _ F) as (A1 & A2 & A3).
    assert (EC : lm_cur _ b k = Some j) by (apply (i_live _ HI); unfold ph; rewrite <- L; congruence).
    eapply follow_none; [|intros k'; apply (frz_more fz k)].
    eapply m_ext; [refine (m_freeze _ _ _ _ _ k j (set_ph _ LDone (lm_lock _ (s_lm _ st) j)) MNone H F eq_refl _ _ _ _ _ (others_done _ _ _ _ _ _ _ H HI F EC))|repeat split|].
    + cbn. rewrite L. reflexivity.
    + congruence.
    + reflexivity.
    + left. split; reflexivity.
    + intros x. rewrite A2. intros B. destruct (i_busy _ HI _ _ B) as (_ & C & tt & X). unfold ph in X. assert (x = j) as -> by congruence. rewrite <- L in X. destruct X; congruence.
    + intros x. cbn. unfold upd_nat. destruct (Nat.eqb_spec x j); congruence.
  - (* drain *) lv j. eapply follow_none; [|intros k; exact (fun X => X)]. eapply m_extb; [|apply (same_id b j)].
    apply m_gen; auto.
    + cbn. rewrite L. reflexivity.
    + intros LE. exfalso. assert (X : ph b j <> LDone) by (unfold ph; rewrite <- L; congruence). apply (i_live _ HI) in X. apply (i_cur _ HI) in X. lia.
    + exists tick. rewrite L in *. split; [reflexivity|assumption].
  - (* drain_begin *) assert (KE : keyof b j = l_key _ (lm_lock _ (s_lm _ st) j)) by (symmetry; apply Gkey).
    destruct (fz (keyof b j)) eqn:F; [apply Goff in F; rewrite H0 in F; contradiction|].
    pose proof (Glock _ F) as G. rewrite H0 in G. destruct G as (t & G1 & G2). destruct (Gat _ F) as (A1 & A2 & A3). rewrite <- KE in *.
    destruct (Gcur _ _ H4) as [KJ LT].
    assert (j' = j) as -> by (assert (X : ph b j <> LDone) by congruence; apply (i_live _ HI) in X; congruence).
    change (@None (st_event key)) with (option_map (SEv key) None).
    eapply follow_same; [eapply (K_time_begin _ _ _ j j t (keyof b j)); [exact G2|reflexivity|congruence|congruence|congruence]|exact Gnow|].
    assert (X := m_gen fz tre st trb b j (lm_lock _ (s_lm _ st) j) (set_ph _ (LTimingOut t true) (lm_lock _ b j)) (MWait true) H (eq_sym KE) eq_refl F (fun Q => match Nat.lt_irrefl _ (Nat.lt_le_trans _ _ _ LT Q) with end)
        (ex_intro _ t (conj G1 eq_refl))).
    assert (Y := m_busy _ _ _ _ _ (keyof b j) (Some (DTime j)) X F). eapply m_ext; [apply Y|repeat split|].
    + intros x [= <-]. rewrite keyof_lock by reflexivity. auto.
    + intros x. cbn. unfold upd_nat. destruct (Nat.eqb_spec x j); [subst; reflexivity|reflexivity].
    + reflexivity.
  - (* drain_done *) destruct (Gbusy _ _ H0) as [KJ LT]. cbn in KJ, LT. subst k.
    destruct (fz (keyof b j)) eqn:F; [apply Goff in F; rewrite H1 in F; contradiction|].
    pose proof (Glock _ F) as G. rewrite H1 in G. destruct G as (t & G1 & G2). destruct (Gat _ F) as (A1 & A2 & A3).
    assert (EC : lm_cur _ b (keyof b j) = Some j) by (apply (i_live _ HI); congruence).
    pose proof (K_time_done _ key_dec b j t b0 (keyof b j) ltac:(congruence) G2) as HS.
    assert (EL : l_cnt _ (lm_lock _ (s_lm _ st) j) = l_cnt _ (lm_lock _ b j)) by (rewrite G1; reflexivity).
    assert (EK : l_key _ (lm_lock _ (s_lm _ st) j) = keyof b j) by (rewrite G1; reflexivity).
    assert (NB : lm_next _ b <= j -> MNone = MNone) by reflexivity.
    assert (DN : forall b' : locker, forall x, @None deletion = Some x -> keyof b' (lock_of x) = keyof b j /\ lock_of x < lm_next _ b') by discriminate.
    unfold drop_client in *. rewrite EL, EK. destruct (l_cnt _ (lm_lock _ b j) - 1) as [|n] eqn:EN.
    + change (@Some (st_event key) (SEv _ (LHandOn _ (keyof b j)))) with (option_map (SEv key) (Some (LHandOn _ (keyof b j)))).
      eapply follow_same; [exact HS|exact Gnow|].
      assert (X := m_gen fz tre st trb b j (mkLock _ (keyof b j) LDone 0) (mkLock _ (keyof b j) LDone 0) MNone H eq_refl eq_refl F NB eq_refl).
      assert (Y := m_removed _ _ _ _ _ (keyof b j) X F). assert (Z := m_busy _ _ _ _ _ (keyof b j) None Y F (DN _)). exact Z.
    + assert (X := m_gen fz tre st trb b j (mkLock _ (keyof b j) LIdle (S n)) (mkLock _ (keyof b j) LIdle (S n)) MNone H eq_refl eq_refl F NB eq_refl).
      assert (Y := m_busy _ _ _ _ _ (keyof b j) None X F (DN _)).
      assert (HI' := step_inv _ _ _ _ HI HS). change (l_key _ (lm_lock _ b j)) with (keyof b j) in *.
      assert (KJ : keyof (with_busy _ key_dec (with_lock _ b j (mkLock _ (keyof b j) LIdle (S n))) (keyof b j) None) j = keyof b j)
        by (unfold keyof; cbn; rewrite upd_same; reflexivity).
      assert (EC' : lm_cur _ (with_busy _ key_dec (with_lock _ b j (mkLock _ (keyof b j) LIdle (S n))) (keyof b j) None) (keyof b j) = Some j) by exact EC.
      assert (CN : lm_cur _ (s_lm _ st) (keyof b j) <> None) by congruence.
      assert (Z := m_freeze _ _ _ _ _ (keyof b j) j (mkLock _ (keyof b j) LDone (S n)) MNone Y F KJ eq_refl CN NB (or_introl (conj eq_refl eq_refl)) ltac:(intros x; cbn; rewrite key_same; discriminate) (others_done _ _ _ _ _ _ _ Y HI' F EC')).
      eexists _, _, _. split; [right; eexists; split; [exact HS|reflexivity]|]. split; [|split; [intros k'; apply (frz_more fz (keyof b j))|]].
      * cbn [push at_now]. rewrite Gnow. apply m_event. eapply m_ext; [exact Z|repeat split|].
        -- intros x. cbn. unfold upd_nat. destruct (Nat.eqb_spec x j); reflexivity.
        -- intros x. cbn. unfold upd_nat. destruct (Nat.eqb_spec x j); reflexivity.
      * intros ev [= <-] _. reflexivity.
  - (* refused *) destruct (fz k) eqn:F; [destruct (Gfrz _ F); assumption|]. destruct (Gat _ F) as (A1 & A2 & A3).
    pose proof (K_join_new _ key_dec b i k 0 (sim_new _ _ _ _ _ _ H H1) ltac:(congruence) ltac:(congruence)) as HS.
    assert (X := m_new _ _ _ _ _ k H F). assert (Y := n_client _ _ _ _ _ _ i (CWait (lm_next _ b) 0) X).
    assert (Y' := n_client_off _ _ _ _ _ _ i CEnd Y (or_introl eq_refl)).
    assert (HI' := step_inv _ _ _ _ HI HS).
    assert (KJ : keyof (with_client _ (with_new _ key_dec b k) i (CWait (lm_next _ b) 0)) (lm_next _ b) = k) by (unfold keyof; cbn; rewrite upd_same; reflexivity).
    assert (EC' : lm_cur _ (with_client _ (with_new _ key_dec b k) i (CWait (lm_next _ b) 0)) k = Some (lm_next _ b)) by (cbn; apply key_same).
    assert (LN : lm_next _ (with_client _ (with_new _ key_dec b k) i (CWait (lm_next _ b) 0)) <= lm_next _ b -> MRefused = MNone) by (cbn; intros; lia).
    assert (Z := m_freeze _ _ _ _ _ k (lm_next _ b) (mkLock _ k LStuck 0) MRefused Y' F KJ eq_refl
       ltac:(cbn; rewrite key_same; discriminate) LN (or_intror (conj eq_refl eq_refl)) ltac:(cbn; congruence) (others_done _ _ _ _ _ _ _ Y' HI' F EC')).
    eexists _, _, _. split; [right; eexists; split; [exact HS|reflexivity]|]. split; [|split; [intros k'; apply (frz_more fz k)|discriminate]].
    cbn [push at_now]. apply m_other; [|discriminate].
    destruct Z as [Z1 Z2 Z3 Z4 Z5 Z6 Z7 Z8 Z9 Z10 Z11 Z12 Z13 Z14 Z15].
    assert (ZZ : sim (upd_key _ key_dec fz k true) tre (with_mode _ (with_lm _ st (with_client _ (with_refused _ key_dec (s_lm _ st) k) i CEnd)) (lm_next _ (s_lm _ st)) MRefused) trb (with_client _ (with_new _ key_dec b k) i (CWait (lm_next _ b) 0))).
    { eapply m_ext; [constructor; eassumption|repeat split|].
      - intros x. cbn. rewrite Gnext. unfold upd_nat. destruct (Nat.eqb_spec x (lm_next _ b)); reflexivity.
      - intros x. cbn. unfold upd_nat. destruct (Nat.eqb_spec x i); reflexivity.
      - intros x. cbn. rewrite Gnext. reflexivity. }
    clear -ZZ Gtr. destruct ZZ. constructor; auto. intros k' F'. cbn [push at_now]. rewrite on_key_push. cbn [event_key].
    assert (k' <> k) by (intros ->; rewrite key_same in F'; discriminate). destruct (key_dec k k'); [congruence|]. auto.
  - (* away *) apply follow_other; [|discriminate]. apply m_client_off; [exact H|auto].
Qed.

Lemma sim_init k0 : sim (fun _ => false) [] (st_init _ k0) [] (lm_init _ k0).
Proof. constructor; cbn; intros; auto; try discriminate; try contradiction. Qed.
Lemma exec_sim k0 tre st : st_exec _ key_dec k0 tre st -> exists fz trb b, lk_exec _ key_dec k0 trb b /\ sim fz tre st trb b.
Proof.
  unfold st_exec. induction 1 as [|tr st e st' HX (fz & trb & b & HE & H) HS].
  - exists (fun _ => false), [], (lm_init _ k0). split; [apply KR_init|apply sim_init].
  - destruct (step_follows _ _ _ _ _ _ _ H (exec_inv _ _ _ _ HE) HS) as (fz' & trb' & b' & HB & H' & _ & _).
    exists fz', trb', b'. split; [|exact H']. destruct HB as [[-> ->] | (eb & HB & ->)]; [exact HE|]. eapply KR_step; eassumption.
Qed.
End Sim.