(** The invariant of a tree with its calls and its lookups. *)
From Coq Require Import Sorted Permutation ZifyBool ZifyNat.
From Verif Require Import Datatypes SpecValues DatatypesProofs BTree SpecBTree BTreeProofs BTreeFind SpecFind BTreeFindProofs
  BTreeSync SpecBTreeSync BTreeSyncSeq BTreeSyncInv BTreeSyncStep BTreeSyncStep3 BTreeSyncSem BTreeSyncTop BTreeSyncTop2 BTreeSyncLin
  BTreeIter SpecBTreeIter BTreeIterEr BTreeIterTk BTreeIterVisit BTreeIterSees.
Local Open Scope nat_scope.

Section Pre.
  Context {V : Type}.
  Notation entry := (entry V).

  (** The calls among the events and the items *)
  Definition btr (tr : list (xevent V)) : list (event V) := flat_map (fun e => match e with EB x => [x] | _ => [] end) tr.
  Definition base (l : list (item V)) : list (nat * ans V) := flat_map (fun i => match i with OCall c a => [(c, a)] | OLook _ _ => [] end) l.
  Lemma btr_app a b : btr (a ++ b) = btr a ++ btr b.
  Proof. apply flat_map_app. Qed.
  Lemma base_app a b : base (a ++ b) = base a ++ base b.
  Proof. apply flat_map_app. Qed.
  Lemma in_btr tr e : In e (btr tr) <-> In (EB e) tr.
  Proof.
    unfold btr. rewrite in_flat_map. split.
    - intros (x & H & E). destruct x as [x|j|j l]; [destruct E as [->|[]]; exact H|destruct E|destruct E].
    - intros H. exists (EB e). split; [exact H|left; reflexivity].
  Qed.
  Lemma in_base l c a : In (c, a) (base l) <-> In (OCall c a) l.
  Proof.
    unfold base. rewrite in_flat_map. split.
    - intros (x & H & E). destruct x as [d b|j m]; [destruct E as [E|[]]; injection E as -> ->; exact H|destruct E].
    - intros H. exists (OCall c a). split; [exact H|left; reflexivity].
  Qed.

  (** Serving, with the whole map as a lookup's snapshot *)
  Inductive run0 (f : nat -> cop V) : list entry -> list (item V) -> list entry -> Prop :=
  | R_nil m : run0 f m [] m
  | R_call m m' m'' c a l : call_step m (f c) a m' -> run0 f m' l m'' -> run0 f m (OCall c a :: l) m''
  | R_look m m'' j l : run0 f m l m'' -> run0 f m (OLook j m :: l) m''.
  Lemma run0_call f m l m' c a m'' : run0 f m l m' -> call_step m' (f c) a m'' -> run0 f m (l ++ [OCall c a]) m''.
  Proof. induction 1; intros H'; cbn [app]; econstructor; eauto. constructor. Qed.
  Lemma run0_look f m l m' j : run0 f m l m' -> run0 f m (l ++ [OLook j m']) m'.
  Proof. induction 1; cbn [app]; econstructor; eauto. constructor. Qed.

  (** Real time *)
  Definition rtx (tr : list (xevent V)) (l : list (item V)) : Prop :=
    forall tr1 tr2 e e' i y, tr = tr1 ++ e' :: tr2 -> In e tr1 -> returned e = Some i -> called e' = Some (who y) -> In y l ->
      exists x, who x = who i /\ before x y l.
  Lemma rtx_event tr l e : rtx tr l -> (forall y, called e = Some (who y) -> ~ In y l) -> rtx (tr ++ [e]) l.
  Proof.
    intros H N tr1 tr2 e1 e2 i y E H1 H2 H3 H4. apply snoc_split in E as [(-> & -> & ->)|(tr2' & -> & ->)].
    - destruct (N y H3 H4).
    - eapply H; eauto.
  Qed.
  Lemma rtx_item tr l y : rtx tr l -> (forall e i, In e tr -> returned e = Some i -> exists x, In x l /\ who x = who i) -> rtx tr (l ++ [y]).
  Proof.
    intros H D tr1 tr2 e1 e2 i z E H1 H2 H3 H4. apply in_app_iff in H4 as [H4|[<-|[]]].
    - destruct (H tr1 tr2 e1 e2 i z E H1 H2 H3 H4) as (x & W & B). exists x. split; [exact W|apply before_more, B].
    - destruct (D e1 i) as (x & Hx & W); [rewrite E; apply in_or_app; left; exact H1|exact H2|]. exists x. split; [exact W|apply before_snoc, Hx].
  Qed.

  Definition mok (m : list entry) : Prop := exists c, goods c /\ sorted c /\ Permutation m c.

  (** What a lookup has seen and will see is what it wants of the map [m] *)
  Definition look_ok (G : nat -> node V) (M : list entry) (tp : tmark) (m : list entry) (ds : list descent) (p : iphase V) : Prop :=
    match p with
    | INew | IWant => True
    | IHold rest acc => tp = TFree /\ m = M /\ Forall descent_ok rest /\ Permutation (acc ++ wants rest m) (wants ds m)
    | IDown d rest held acc =>
        (rest <> [] -> tp = TFree /\ m = M) /\ descent_ok d /\ Forall descent_ok rest /\ (forall y, In y held -> Nat.odd y = true) /\
        Permutation (acc ++ concat (map (fun y => tgt d (G y)) held) ++ wants rest m) (wants ds m)
    | IDone _ acc | IRet _ acc => Permutation acc (wants ds m)
    end.
  Definition started (p : iphase V) : Prop := match p with INew | IWant => False | _ => True end.

  Lemma look_other G G' M M' tp tp' m ds p : look_ok G M tp m ds p -> (holds_tree p = true -> tp = TFree -> tp' = TFree /\ M' = M) ->
    (forall y, In y (held_of p) -> G' y = G y) -> look_ok G' M' tp' m ds p.
  Proof.
    intros H K F. destruct p as [| |rest acc|d rest held acc|b acc|b acc]; cbn [look_ok holds_tree held_of] in *; auto.
    - destruct H as (H1 & -> & H3). destruct (K eq_refl H1) as [-> ->]. auto.
    - destruct H as (H1 & H2 & H3 & H4 & H5). split; [|split; [exact H2|split; [exact H3|split; [exact H4|]]]].
      + intros N. destruct (H1 N) as [H6 ->]. destruct rest; [congruence|]. destruct (K eq_refl H6) as [-> ->]. auto.
      + replace (map (fun y => tgt d (G' y)) held) with (map (fun y => tgt d (G y)) held); [exact H5|].
        apply map_ext_in. intros y Hy. rewrite (F y Hy). reflexivity.
  Qed.
End Pre.

Section Inv.
  Context {V : Type}.
  Variable n : nat.
  Variable ops : nat -> cop V.
  Variable lks : nat -> lookup * EV * TypeRestrictions.
  Notation entry := (entry V).
  Notation bops := (bops ops).

  Record xinv (tr : list (xevent V)) (s : xstate V) (G : nat -> node V) (L : list (nat * out V)) (M : list entry) (Lx : list (item V)) : Prop := {
    x_g : ginv n bops (btr tr) (er_state (xs s)) L M;
    x_tk : tks n ops G (root (xs s));
    x_odd : forall c, Nat.odd c = true -> ph (xs s) c = PNew;
    x_lin : lin bops L = base Lx;
    x_run : run0 bops [] Lx M;
    x_look : forall j m, In (OLook j m) Lx -> mok m /\ look_ok G M (top (xs s)) m (descents (lks j)) (xi s j);
    x_in : forall j, started (xi s j) -> exists m, In (OLook j m) Lx;
    x_out : forall j m, In (OLook j m) Lx -> started (xi s j);
    x_nd : NoDup (map who Lx);
    x_call : forall j, In (ELCall j) tr <-> xi s j <> INew;
    x_ret : forall j l, In (ELRet j l) tr <-> exists b, xi s j = IRet b l;
    x_rt : rtx tr Lx
  }.

  Lemma set_xi_same f j (p : iphase V) : set_xi f j p j = p.
  Proof. unfold set_xi. rewrite Nat.eqb_refl. reflexivity. Qed.
  Lemma set_xi_other f j (p : iphase V) i : i <> j -> set_xi f j p i = f i.
  Proof. intros N. unfold set_xi. apply Nat.eqb_neq in N. rewrite N. reflexivity. Qed.

  Lemma call_item tr s G L M Lx c a : xinv tr s G L M Lx -> In (c, a) (lin bops L) <-> In (OCall c a) Lx.
  Proof. intros X. rewrite (x_lin _ _ _ _ _ _ X). apply in_base. Qed.
  Lemma back_item tr s G L M Lx e i : xinv tr s G L M Lx -> In e tr -> returned e = Some i -> exists x, In x Lx /\ who x = who i.
  Proof.
    intros X H R. destruct e as [[c|c a]|j|j l]; try discriminate; cbn [returned] in R; injection R as <-.
    - exists (OCall c a). split; [|reflexivity]. apply (call_item _ _ _ _ _ _ _ _ X). apply in_btr, (g_ret _ _ _ _ _ _ (x_g _ _ _ _ _ _ X)) in H.
      pose proof (g_ph _ _ _ _ _ _ (x_g _ _ _ _ _ _ X) c) as Q. cbn [er_state ph] in *. rewrite H in Q. exact Q.
    - apply (x_ret _ _ _ _ _ _ X) in H as [b H]. destruct (x_in _ _ _ _ _ _ X j) as [m Hm]; [rewrite H; exact Logic.I|].
      exists (OLook j m). auto.
  Qed.

  Lemma er_same (s : state V) t t' : root s = Some t -> er t' = er t -> er_state (with_root s (Some t')) = er_state s.
  Proof. intros R E. unfold er_state, with_root. cbn [top trs root ph option_map]. rewrite R, E. reflexivity. Qed.

  (** A step of one lookup that leaves the rest alone *)
  Lemma look_step tr s G L M Lx j p root' G' :
    xinv tr s G L M Lx -> er_state (with_root (xs s) root') = er_state (xs s) -> tks n ops G' root' ->
    (forall i y, i <> j -> In y (held_of (xi s i)) -> G' y = G y) ->
    started (xi s j) -> started p -> (forall b l, p <> IRet b l) -> (forall b l, xi s j <> IRet b l) ->
    (forall m, In (OLook j m) Lx -> mok m -> look_ok G M (top (xs s)) m (descents (lks j)) (xi s j) -> look_ok G' M (top (xs s)) m (descents (lks j)) p) ->
    xinv tr (mkX (with_root (xs s) root') (set_xi (xi s) j p)) G' L M Lx.
  Proof.
    intros X E T F St Sp Np No Lk. constructor; cbn [xs xi].
    - rewrite E. apply X.
    - exact T.
    - apply X.
    - apply X.
    - apply X.
    - intros i m H. destruct (x_look _ _ _ _ _ _ X i m H) as [Mk Li]. split; [exact Mk|]. destruct (Nat.eq_dec i j) as [->|N].
      + rewrite set_xi_same. apply Lk; assumption.
      + rewrite set_xi_other by exact N. cbn [with_root top]. eapply look_other; [exact Li|auto|]. intros y Hy. apply (F i y N Hy).
    - intros i H. apply (x_in _ _ _ _ _ _ X). destruct (Nat.eq_dec i j) as [->|N]; [exact St|]. rewrite set_xi_other in H by exact N. exact H.
    - intros i m H. destruct (Nat.eq_dec i j) as [->|N]; [rewrite set_xi_same; exact Sp|]. rewrite set_xi_other by exact N. apply (x_out _ _ _ _ _ _ X i m H).
    - apply X.
    - intros i. rewrite (x_call _ _ _ _ _ _ X). destruct (Nat.eq_dec i j) as [->|N]; [|rewrite set_xi_other by exact N; reflexivity]. rewrite set_xi_same.
      split; intros _ H; [rewrite H in Sp; destruct Sp|rewrite H in St; destruct St].
    - intros i l. rewrite (x_ret _ _ _ _ _ _ X). destruct (Nat.eq_dec i j) as [->|N]; [|rewrite set_xi_other by exact N; reflexivity]. rewrite set_xi_same.
      split; intros [b H]; exfalso; [exact (No _ _ H)|exact (Np _ _ H)].
    - apply X.
  Qed.
  Lemma same_root (s : state V) : with_root s (root s) = s.
  Proof. destruct s; reflexivity. Qed.
  Lemma look_step' tr s G L M Lx j p :
    xinv tr s G L M Lx -> started (xi s j) -> started p -> (forall b l, p <> IRet b l) -> (forall b l, xi s j <> IRet b l) ->
    (forall m, In (OLook j m) Lx -> mok m -> look_ok G M (top (xs s)) m (descents (lks j)) (xi s j) -> look_ok G M (top (xs s)) m (descents (lks j)) p) ->
    xinv tr (mkX (xs s) (set_xi (xi s) j p)) G L M Lx.
  Proof.
    intros X St Sp Np No Lk. pose proof (look_step tr s G L M Lx j p (root (xs s)) G X) as H. rewrite same_root in H.
    apply H; auto. apply X.
  Qed.

  Lemma ginv_map tr s L M : ginv n bops tr (er_state s) L M -> top s = TFree -> mok M.
  Proof.
    intros G T. pose proof (g_tree _ _ _ _ _ _ G) as I. pose proof (g_perm _ _ _ _ _ _ G) as Pm. pose proof (g_tag _ _ _ _ _ _ G) as Tg.
    cbn [er_state root top] in *. destruct (root s) as [t|]; cbn [option_map] in *.
    - destruct I as [h I]. specialize (Tg (er t)). destruct (er t) as [m rs vs ks] eqn:Et. apply inv_elim in I as (O & _ & _).
      rewrite <- fl_eq with (rs := rs) in O. destruct (fl n bops (ANode m rs vs ks)) as [u|c p|c u|] eqn:F; cbn [pl okres tag] in *.
      + destruct O as (_ & _ & _ & S & Go). exists (flat u). auto.
      + rewrite (Tg c eq_refl eq_refl) in T. discriminate.
      + rewrite (Tg c eq_refl eq_refl) in T. discriminate.
      + destruct O.
    - exists []. split; [constructor|split; [constructor|exact Pm]].
  Qed.
End Inv.
