(** The invariant of the whole tree with its calls, and that every step keeps it. *)
From Coq Require Import Sorted Permutation ZifyBool ZifyNat.
From Verif Require Import Datatypes SpecValues DatatypesProofs BTree SpecBTree BTreeProofs BTreeFind
  BTreeSync BTreeSyncSeq BTreeSyncSeq2 BTreeSyncInv SpecBTreeSync BTreeSyncStep BTreeSyncStep2 BTreeSyncStep3 BTreeSyncCount BTreeSyncCount2 BTreeSyncSem.
Local Open Scope nat_scope.

Lemma before_snoc {A} (x y : A) l : In x l -> before x y (l ++ [y]).
Proof. intros H. apply in_split in H as (l1 & l2 & ->). exists l1, l2, []. rewrite <- app_assoc. reflexivity. Qed.
Lemma before_more {A} (x y z : A) l : before x y l -> before x y (l ++ [z]).
Proof. intros (l1 & l2 & l3 & ->). exists l1, l2, (l3 ++ [z]). rewrite <- app_assoc. cbn. rewrite <- app_assoc. reflexivity. Qed.
Lemma snoc_split {A} (tr : list A) e tr1 x tr2 : tr ++ [e] = tr1 ++ x :: tr2 ->
  (tr2 = [] /\ tr = tr1 /\ e = x) \/ (exists tr2', tr2 = tr2' ++ [e] /\ tr = tr1 ++ x :: tr2').
Proof.
  intros H. destruct tr2 as [|y tr2] using rev_ind.
  - left. apply app_inj_tail in H as [-> ->]. auto.
  - right. exists tr2. rewrite app_comm_cons, app_assoc in H. apply app_inj_tail in H as [-> ->]. auto.
Qed.
Lemma call_run_snoc {V} (c c' c'' : list (EV * V)) l o a : call_run c l c' -> call_step c' o a c'' -> call_run c (l ++ [(o, a)]) c''.
Proof. induction 1; intros H'; cbn [app]; [econstructor; [exact H'|constructor]|econstructor; eauto]. Qed.

Section Top.
  Context {V : Type}.
  Variable n : nat.
  Variable ops : nat -> cop V.
  Notation node := (node V).
  Notation entry := (entry V).
  Notation atree := (atree V).
  Notation state := (state V).
  Notation event := (event V).
  Notation phase := (phase V).

  (** The answers, in the order in which the calls took effect *)
  Definition lin (L : list (nat * out V)) : list (nat * ans V) :=
    flat_map (fun x => match fin ops (fst x) (snd x) with Some a => [(fst x, a)] | None => [] end) L.
  Definition served (l : list (nat * ans V)) : list (cop V * ans V) := map (fun x => (ops (fst x), snd x)) l.

  Definition phase_ok (L : list (nat * out V)) (p : phase) (c : nat) : Prop :=
    match p with
    | PNew => forall o, ~ In (c, o) L
    | PRead | PRWait => (forall o, ~ In (c, o) L) /\ rkey ops c <> None
    | PReading => exists x, forall o, In (c, o) L -> o = ORead x
    | PWrite | PWWait => (forall o, In (c, o) L -> fin ops c o = None) /\ wkey ops c <> None
    | PWriting => True
    | PDone a | PRet a => In (c, a) (lin L)
    end.

  Definition rcount (c : nat) (r : option atree) : nat := match r with Some t => tsum (fun _ => readers c) 0 t | None => 0 end.
  Definition wcount (c : nat) (r : option atree) : nat := match r with Some t => tsum (fun _ => writers c) 0 t | None => 0 end.
  Definition is_reading (p : phase) : nat := match p with PReading => 1 | _ => 0 end.
  Definition is_writing (p : phase) : nat := match p with PWriting => 1 | _ => 0 end.
  Definition is_waiting (p : phase) : nat := match p with PRWait => 1 | _ => 0 end.
  Definition working (p : phase) : Prop := match p with PWriting | PDone _ => True | _ => False end.

  Definition rt_ok (tr : list event) (l : list (nat * ans V)) : Prop :=
    forall tr1 tr2 c a d b, tr = tr1 ++ ECall d :: tr2 -> In (EReturn c a) tr1 -> In (d, b) l -> before (c, a) (d, b) l.

  Record ginv (tr : list event) (s : state) (L : list (nat * out V)) (M : list entry) : Prop := {
    g_tree : match root s with Some t => exists h, inv n ops (fun c o => In (c, o) L) true h t | None => True end;
    g_map : call_run [] (served (lin L)) M;
    g_perm : Permutation M (match root s with Some t => flat (pl (fl n ops t)) | None => [] end);
    g_tag : forall t d, root s = Some t -> tag (fl n ops t) = Some d -> top s = TIn d;
    g_in : forall c, top s = TIn c -> root s <> None /\ working (ph s c);
    g_rc : forall c, rcount c (root s) = is_reading (ph s c);
    g_wc : forall c, wcount c (root s) = is_writing (ph s c);
    g_trs : forall c, count_occ Nat.eq_dec (trs s) c = is_waiting (ph s c);
    g_wait : forall c, top s = TWait c <-> ph s c = PWWait;
    g_mark : forall t c, root s = Some t -> marked c t = true -> working (ph s c);
    g_ph : forall c, phase_ok L (ph s c) c;
    g_nodup : NoDup (map fst (lin L));
    g_call : forall c, In (ECall c) tr <-> ph s c <> PNew;
    g_ret : forall c a, In (EReturn c a) tr <-> ph s c = PRet a;
    g_rt : rt_ok tr (lin L)
  }.

  Lemma lin_app L1 L2 : lin (L1 ++ L2) = lin L1 ++ lin L2.
  Proof using. unfold lin. induction L1 as [|x L1 IH]; [reflexivity|]. cbn [app flat_map]. rewrite IH, app_assoc. reflexivity. Qed.
  Lemma lin_one c o : lin [(c, o)] = match fin ops c o with Some a => [(c, a)] | None => [] end.
  Proof using. cbn. apply app_nil_r. Qed.
  Lemma lin_in L c o a : In (c, o) L -> fin ops c o = Some a -> In (c, a) (lin L).
  Proof using. intros H F. unfold lin. apply in_flat_map. exists (c, o). split; [exact H|]. cbn. rewrite F. left. reflexivity. Qed.
  Lemma in_lin L c a : In (c, a) (lin L) -> exists o, In (c, o) L /\ fin ops c o = Some a.
  Proof using.
    unfold lin. intros H. apply in_flat_map in H as ((d & o) & H & E). cbn in E. destruct (fin ops d o) eqn:F; [|destruct E].
    destruct E as [E|[]]. injection E as -> ->. eauto.
  Qed.

  Lemma set_same f c (p : phase) : set_ph f c p c = p.
  Proof using. unfold set_ph. rewrite Nat.eqb_refl. reflexivity. Qed.
  Lemma set_other f c (p : phase) d : d <> c -> set_ph f c p d = f d.
  Proof using. intros N. unfold set_ph. apply Nat.eqb_neq in N. rewrite N. reflexivity. Qed.

  (** Phases after one call's phase and entry changed *)
  Lemma phase_set L (f : nat -> phase) c p : (forall d, phase_ok L (f d) d) -> phase_ok L p c -> forall d, phase_ok L (set_ph f c p d) d.
  Proof using. intros H Hc d. destruct (Nat.eq_dec d c) as [->|N]; [rewrite set_same; exact Hc|rewrite set_other by exact N; apply H]. Qed.
  Lemma phase_grow L p c d o : d <> c -> phase_ok L p d -> phase_ok (L ++ [(c, o)]) p d.
  Proof using.
    intros N. assert (I : forall q, In (d, q) (L ++ [(c, o)]) -> In (d, q) L).
    { intros q H. apply in_app_iff in H as [H|[H|[]]]; [exact H|congruence]. }
    destruct p; cbn [phase_ok]; try rewrite lin_app; try (intros H; apply in_or_app; left; exact H).
    - intros H q X. exact (H q (I q X)).
    - intros [H E]. split; [|exact E]. intros q X. exact (H q (I q X)).
    - intros [H E]. split; [|exact E]. intros q X. exact (H q (I q X)).
    - intros [x H]. exists x. intros q X. apply H, I, X.
    - intros [H E]. split; [|exact E]. intros q X. apply H, I, X.
    - intros [H E]. split; [|exact E]. intros q X. apply H, I, X.
    - auto.
  Qed.
  Lemma phase_add L (f : nat -> phase) c o p : (forall d, phase_ok L (f d) d) -> phase_ok (L ++ [(c, o)]) p c ->
    forall d, phase_ok (L ++ [(c, o)]) (set_ph f c p d) d.
  Proof using.
    intros H Hc d. destruct (Nat.eq_dec d c) as [->|N]; [rewrite set_same; exact Hc|rewrite set_other by exact N].
    apply phase_grow; auto.
  Qed.

  (** The order and the map after an entry *)
  Lemma add_entry tr s L M c o :
    ginv tr s L M -> (forall q, In (c, q) L -> fin ops c q = None) ->
    NoDup (map fst (lin (L ++ [(c, o)]))) /\ rt_ok tr (lin (L ++ [(c, o)])).
  Proof using.
    intros G Nc. rewrite lin_app, lin_one. destruct (fin ops c o) as [a|]; [|rewrite app_nil_r; split; apply G].
    split.
    - rewrite map_app. cbn [map fst]. apply NoDup_Add with (a := c) (l := map fst (lin L)).
      + rewrite <- (app_nil_r (map fst (lin L))) at 1. apply Add_app.
      + split; [apply G|]. intros H. apply in_map_iff in H as ((d & b) & E & H). cbn in E. subst d.
        apply in_lin in H as (q & Hq & F). rewrite (Nc q Hq) in F. discriminate.
    - intros tr1 tr2 c1 a1 d b E H1 H2. apply in_app_iff in H2 as [H2|[H2|[]]].
      + apply before_more. eapply (g_rt _ _ _ _ G); eauto.
      + injection H2 as -> ->. apply before_snoc.
        assert (R : ph s c1 = PRet a1) by (apply (g_ret _ _ _ _ G); rewrite E; apply in_or_app; left; exact H1).
        pose proof (g_ph _ _ _ _ G c1) as Q. rewrite R in Q. exact Q.
  Qed.

  Lemma served_add L M c o a M' : call_run [] (served (lin L)) M -> fin ops c o = Some a -> call_step M (ops c) a M' ->
    call_run [] (served (lin (L ++ [(c, o)]))) M'.
  Proof using. intros H F St. rewrite lin_app, lin_one, F. unfold served. rewrite map_app. cbn [map fst snd]. eapply call_run_snoc; eauto. Qed.

  Lemma rt_event tr l e : rt_ok tr l -> (forall d b, e = ECall d -> ~ In (d, b) l) -> rt_ok (tr ++ [e]) l.
  Proof using.
    intros H N tr1 tr2 c a d b E H1 H2. apply snoc_split in E as [(-> & -> & ->)|(tr2' & -> & ->)].
    - destruct (N d b eq_refl H2).
    - eapply H; eauto.
  Qed.
End Top.
