(** Proofs about concurrent increments. *)
From Coq Require Import Permutation SpecFloat Relations Sorted.
From Verif Require Import Datatypes SpecValues DatatypesProofs PropLemmasValues Collections SpecCollections CollectionsProofs Query SpecQuery QueryProofs
  Assoc SpecAssoc AssocMaps AssocProofs AssocQueryProofs AssocOps AssocMatchProofs PropLemmasAssoc OneToMany SpecOneToMany OneToManyProofs
  Limiter SpecLimiter LimiterProofs LimiterCounts LimiterLimits LimiterSums PropLemmasLimiter LimiterLocks SpecLocks.
Local Open Scope Z_scope.

(** ** Threads in a list *)
Lemma nth_set ts i th' j : (i < length ts)%nat -> nth_error (set_thread ts i th') j = if Nat.eq_dec j i then Some th' else nth_error ts j.
Proof.
  revert i j. induction ts as [|x r IH]; intros i j H; [cbn in H; lia|]. unfold set_thread in *. destruct i as [|i].
  - cbn. destruct j as [|j]; [reflexivity|]. destruct (Nat.eq_dec (S j) 0); [lia|reflexivity].
  - cbn [firstn skipn app]. destruct j as [|j]; [reflexivity|]. cbn [nth_error]. rewrite IH by (cbn in H; lia).
    destruct (Nat.eq_dec j i) as [-> | N]; [destruct (Nat.eq_dec (S i) (S i)); [reflexivity|congruence]|]. destruct (Nat.eq_dec (S j) (S i)); [lia|reflexivity].
Qed.
Lemma nth_some_lt {A} (ts : list A) i th : nth_error ts i = Some th -> (i < length ts)%nat.
Proof. intros H. apply nth_error_Some. congruence. Qed.
Lemma nth_snoc {A} (ts : list A) x j th : nth_error (ts ++ [x]) j = Some th -> nth_error ts j = Some th \/ (j = length ts /\ th = x).
Proof.
  intros H. destruct (Nat.lt_ge_cases j (length ts)) as [L | L].
  - rewrite nth_error_app1 in H by exact L. auto.
  - rewrite nth_error_app2 in H by exact L. destruct (j - length ts)%nat as [|m] eqn:E; [|cbn in H; destruct m; discriminate]. cbn in H. injection H as <-. right. split; [lia|reflexivity].
Qed.

(** ** What each thread has locked *)
Definition todo_of (p : progress) : list string := match p with PLock _ todo => todo | _ => [] end.
Record tinv (th : thread) : Prop := {
  ti_kv : counter_kv (th_kv th);
  ti_n : 0 < th_n th /\ int64 (th_n th);
  ti_keys : exists done, sorted_keys (th_kv th) = done ++ match th_at th with PLock _ todo => todo | _ => [] end /\ incl (th_held th) done;
  ti_all : th_lost th = false -> match th_at th with
             | PLock _ todo => forall k, In k (kv_keys (th_kv th)) -> In k (th_held th) \/ In k todo
             | PCheck _ => forall k, In k (kv_keys (th_kv th)) -> In k (th_held th)
             | _ => True
             end;
  ti_none : match th_at th with PStart | PDone _ => th_held th = [] | _ => True end
}.
Lemma sorted_keys_in kv k : In k (sorted_keys kv) <-> In k (kv_keys kv).
Proof.
  unfold sorted_keys. split; intros H; [apply (Permutation_in _ (sort_strings_perm _)); exact H|apply (Permutation_in _ (Permutation_sym (sort_strings_perm _))); exact H].
Qed.
Lemma begin_cases s kv : (exists a, begin_at s kv = PDone a) \/ begin_at s kv = PAdd \/ exists limits, begin_at s kv = PLock limits (sorted_keys kv).
Proof.
  unfold begin_at. destruct (FindLimits s kv) as [[|r rs]|]; eauto. destruct (last_is_zero _); eauto. destruct (all_unlimited _); eauto.
Qed.
Lemma check_cases counts kv limits : check_one counts kv limits = PAdd \/ (exists a, check_one counts kv limits = PRelease a) \/ exists x r, limits = x :: r /\ check_one counts kv limits = PCheck r.
Proof.
  unfold check_one. destruct limits as [|[keys limit] r]; [auto|]. destruct (limit =? -1); [eauto 6|]. destruct (checkCounters _ _ _ _) as [[]|]; eauto 6.
Qed.
Lemma tstep_tinv s ts i id th s' th' : tinv th -> tstep s ts i id th s' th' -> tinv th'.
Proof.
  intros [K N (done & E & I) A Z] ST. destruct ST as [HA|limits k todo HA HL HF|limits HA HL|limits todo HA HL|limits HA|HA|a k r HA HH|a HA HH]; rewrite HA in *.
  - constructor; cbn; auto.
    + destruct (begin_cases s (th_kv th)) as [(a & ->) | [-> | (limits & ->)]]; [exists done|exists done|exists []]; rewrite ?Z.
      * split; [exact E|intros x []].
      * split; [exact E|intros x []].
      * split; [reflexivity|intros x []].
    + intros _. destruct (begin_cases s (th_kv th)) as [(a & ->) | [-> | (limits & ->)]]; auto. intros k Hk. right. apply sorted_keys_in. exact Hk.
    + destruct (begin_cases s (th_kv th)) as [(a & ->) | [-> | (limits & ->)]]; auto.
  - constructor; cbn; auto.
    + exists (done ++ [k]). split; [rewrite <- app_assoc; exact E|]. intros x [<- | Hx]; apply in_or_app; [right; left; reflexivity|left; apply I; exact Hx].
    + intros _ x Hx. destruct (A HL x Hx) as [H | [<- | H]]; auto.
  - constructor; cbn; auto.
    + exists done. auto.
    + intros _ k Hk. destruct (A HL k Hk) as [H | []]; auto.
  - constructor; cbn; auto. exists (done ++ todo). split; [rewrite app_nil_r; exact E|]. intros x Hx. apply in_or_app. left. apply I. exact Hx.
  - constructor; cbn; auto.
    + exists done. split; [|exact I]. destruct (check_cases (l_counts s) (th_kv th) limits) as [-> | [(a & ->) | (x & r & _ & ->)]]; exact E.
    + intros L. destruct (check_cases (l_counts s) (th_kv th) limits) as [-> | [(a & ->) | (x & r & _ & ->)]]; auto.
    + destruct (check_cases (l_counts s) (th_kv th) limits) as [-> | [(a & ->) | (x & r & _ & ->)]]; auto.
  - constructor; cbn; auto. exists done. auto.
  - constructor; cbn; auto. exists done. split; [exact E|]. intros x Hx. apply I. rewrite HH. right. exact Hx.
  - constructor; cbn; auto. exists done. auto.
Qed.
Definition excl (ts : list thread) : Prop :=
  forall i j thi thj k, nth_error ts i = Some thi -> nth_error ts j = Some thj -> i <> j -> In k (th_held thi) -> locks thj (th_kv thi) k -> False.
Lemma tstep_held s ts i id th s' th' : tstep s ts i id th s' th' -> th_kv th' = th_kv th /\ th_n th' = th_n th /\ th_lost th' = th_lost th /\
  forall k, In k (th_held th') -> In k (th_held th) \/ lock_free ts i (th_kv th) k.
Proof.
  intros ST. destruct ST as [HA|limits k todo HA HL HF|limits HA HL|limits todo HA HL|limits HA|HA|a k r HA HH|a HA HH]; cbn; (split; [reflexivity|]); (split; [reflexivity|]); (split; [reflexivity|]); intros x Hx; auto.
  - destruct Hx as [<- | Hx]; auto.
  - left. rewrite HH. right. exact Hx.
Qed.
Lemma excl_set ts i th th' : excl ts -> nth_error ts i = Some th -> th_kv th' = th_kv th ->
  (forall k, In k (th_held th') -> In k (th_held th) \/ lock_free ts i (th_kv th) k) -> excl (set_thread ts i th').
Proof.
  intros X HN EK HH a b tha thb k Ha Hb NE H1 [H2 S]. pose proof (nth_some_lt _ _ _ HN) as LT. rewrite nth_set in Ha, Hb by exact LT.
  destruct (Nat.eq_dec a i) as [-> | Na]; destruct (Nat.eq_dec b i) as [-> | Nb]; [contradiction| | |].
  - injection Ha as <-. rewrite EK in S. destruct (HH k H1) as [H | H].
    + apply (X i b th thb k HN Hb NE H). split; [exact H2|exact S].
    + apply (H b thb Hb); [congruence|]. split; [exact H2|exact S].
  - injection Hb as <-. rewrite EK in S. destruct (HH k H2) as [H | H].
    + apply (X a i tha th k Ha HN NE H1). split; [exact H|exact S].
    + apply (H a tha Ha); [congruence|]. split; [exact H1|apply same_value_sym; exact S].
  - apply (X a b tha thb k Ha Hb NE H1). split; [exact H2|exact S].
Qed.
Record cinv (st : cstate) : Prop := {
  ci_lim : linv (c_lim st) (c_used st);
  ci_threads : forall i th, nth_error (c_threads st) i = Some th -> tinv th;
  ci_excl : excl (c_threads st)
}.
Lemma tstep_linv s used ts i id th s' th' : linv s used -> tinv th -> fresh used id -> tstep s ts i id th s' th' -> linv s' (id :: used).
Proof.
  intros L T [F1 F2] ST. assert (M : linv s (id :: used)) by (eapply linv_mono; [|exact L]; intros x Hx; right; exact Hx).
  destruct ST; auto. apply add_count_inv; auto; [apply T|apply (ti_n th T)].
Qed.
Lemma cstep_inv st l st' : cinv st -> cstep st l st' -> cinv st'.
Proof.
  intros [L T X] ST. destruct ST as [s used ts kv n C N P|s used ts i id th s' th' HN F TS|s used ts x HA HF HU|s used ts i k th HN HK]; cbn [c_lim c_used c_threads] in *.
  - constructor; cbn [c_lim c_used c_threads]; auto.
    + intros i th H. apply nth_snoc in H as [H | (_ & ->)]; [eauto|]. constructor; cbn; auto. exists (sorted_keys kv). split; [rewrite app_nil_r; reflexivity|intros x []].
    + intros i j thi thj k Hi Hj NE HK [HK2 S]. apply nth_snoc in Hi as [Hi | (-> & ->)]; [|contradiction]. apply nth_snoc in Hj as [Hj | (-> & ->)]; [|contradiction].
      apply (X i j thi thj k Hi Hj NE HK). split; assumption.
  - pose proof (nth_some_lt _ _ _ HN) as LT. constructor; cbn [c_lim c_used c_threads].
    + eapply tstep_linv; eauto.
    + intros j thj H. rewrite nth_set in H by exact LT. destruct (Nat.eq_dec j i); [|eauto]. injection H as <-. eapply tstep_tinv; eauto.
    + destruct (tstep_held _ _ _ _ _ _ _ TS) as (E1 & _ & _ & E2). eapply excl_set; eauto.
  - constructor; cbn [c_lim c_used c_threads]; auto. apply step_inv; auto.
  - pose proof (nth_some_lt _ _ _ HN) as LT.
    assert (RM : forall x, In x (remove string_dec k (th_held th)) -> In x (th_held th)) by (intros x Hx; apply in_remove in Hx; apply Hx).
    constructor; cbn [c_lim c_used c_threads]; auto.
    + intros j thj H. rewrite nth_set in H by exact LT. destruct (Nat.eq_dec j i); [|eauto]. injection H as <-. destruct (T i th HN) as [A B (done & E & I) D Z].
      constructor; cbn; auto; [exists done; split; [exact E|intros x Hx; apply I, RM; exact Hx]|discriminate|]. destruct (th_at th); auto; rewrite Z; reflexivity.
    + eapply excl_set; eauto.
Qed.
Lemma creach_inv st : creach st -> cinv st.
Proof.
  induction 1 as [|st l st' R IH ST]; [|eapply cstep_inv; eauto]. constructor; cbn.
  - apply lreach_inv. constructor.
  - intros [|i] th [=].
  - intros [|i] j thi thj k [=].
Qed.

(** ** No deadlock *)
Definition waiting (th : thread) (k : string) : Prop := exists limits todo, th_at th = PLock limits (k :: todo).
Lemma held_before th k k' : tinv th -> In k (th_held th) -> waiting th k' -> str_ltb k k' = true.
Proof.
  intros T HI (limits & todo & E). destruct (ti_keys th T) as (done & ES & I). rewrite E in ES. apply I in HI.
  assert (S : ssort (sorted_keys (th_kv th))) by (apply sort_strings_sorted; apply (proj1 (ti_kv th T))). rewrite ES in S. clear -S HI.
  induction done as [|x done IH]; [contradiction|]. cbn in S. inversion S as [|? ? S' F]; subst. destruct HI as [<- | HI]; [|auto]. rewrite Forall_forall in F. apply F. apply in_or_app. right. left. reflexivity.
Qed.
Lemma waits_order st i j thi thj k k' : cinv st -> waits_for st i j -> nth_error (c_threads st) i = Some thi -> nth_error (c_threads st) j = Some thj ->
  waiting thi k -> waiting thj k' -> str_ltb k k' = true.
Proof.
  intros C (a & b & limits & k0 & todo & Ha & Hb & NE & E & [HK _]) Hi Hj (l1 & t1 & E1) W. rewrite Ha in Hi. injection Hi as <-. rewrite Hb in Hj. injection Hj as <-.
  rewrite E in E1. injection E1 as _ <- _. eapply held_before; eauto. eapply ci_threads; eauto.
Qed.
Lemma c35_acyclic st i : creach st -> ~ clos_trans nat (waits_for st) i i.
Proof.
  intros R C. apply creach_inv in R.
  assert (K : forall i j, clos_trans nat (waits_for st) i j -> exists thi k, nth_error (c_threads st) i = Some thi /\ waiting thi k /\
     forall thj k', nth_error (c_threads st) j = Some thj -> waiting thj k' -> str_ltb k k' = true).
  { clear C i. intros i j H. apply clos_trans_t1n in H. induction H as [i j H | i j l H _ IH].
    - assert (W := H). destruct W as (thi & thj & limits & k & todo & Hi & Hj & NE & E & _). exists thi, k. split; [exact Hi|]. split; [exists limits, todo; exact E|].
      intros thj' k' Hj' W. eapply waits_order; eauto. exists limits, todo. exact E.
    - destruct IH as (thj & kj & Hj & Wj & IH). assert (W := H). destruct W as (thi & thj' & limits & k & todo & Hi & _ & NE & E & _). exists thi, k. split; [exact Hi|].
      assert (Wi : waiting thi k) by (exists limits, todo; exact E). split; [exact Wi|]. intros thl k' Hl Wl. apply (str_ltb_trans k kj k'); [|eauto]. eapply waits_order; eauto. }
  destruct (K i i C) as (th & k & H & W & F). specialize (F th k H W). rewrite str_ltb_irrefl in F. discriminate.
Qed.

Lemma lock_dec ts : (forall i th, nth_error ts i = Some th -> tinv th) -> forall i th k, nth_error ts i = Some th -> In k (kv_keys (th_kv th)) ->
  lock_free ts i (th_kv th) k \/ exists j thj, nth_error ts j = Some thj /\ j <> i /\ locks thj (th_kv th) k.
Proof.
  intros T i th k HN HK. assert (G : forall j thj, nth_error ts j = Some thj -> In k (th_held thj) -> {same_value (value_of (th_kv thj) k) (value_of (th_kv th) k)} + {~ same_value (value_of (th_kv thj) k) (value_of (th_kv th) k)}).
  { intros j thj Hj HKj. assert (Gv : forall th0, tinv th0 -> In k (kv_keys (th_kv th0)) -> good (value_of (th_kv th0) k)).
    { intros th0 T0 H0. destruct (counter_rep _ (ti_kv th0 T0)) as [[ND R] _]. apply in_map_iff in H0 as ([k1 v] & <- & H0). cbn [fst]. rewrite (value_of_get _ _ _ (In_kv_get _ _ _ ND H0)). eapply R; eauto. }
    assert (Tj := T j thj Hj). assert (KJ : In k (kv_keys (th_kv thj))). { destruct (ti_keys thj Tj) as (done & E & I). apply sorted_keys_in. rewrite E. apply in_or_app. left. apply I. exact HKj. }
    destruct (veq (value_of (th_kv thj) k) (value_of (th_kv th) k)) eqn:E; [left; apply veq_iff in E; auto; apply Gv; auto; eapply T; eauto|].
    right. intros S. apply veq_iff in S; [congruence| |]; apply Gv; auto. eapply T; eauto. }
  assert (D : forall m, (forall j thj, (j < m)%nat -> nth_error ts j = Some thj -> j <> i -> ~ locks thj (th_kv th) k) \/ exists j thj, nth_error ts j = Some thj /\ j <> i /\ locks thj (th_kv th) k).
  { induction m as [|m [IH | IH]]; [left; intros; lia| |auto]. destruct (nth_error ts m) as [thm|] eqn:Em.
    - destruct (Nat.eq_dec m i) as [-> | N].
      + left. intros j thj Hlt Hj NE. apply (IH j thj); auto. lia.
      + destruct (in_dec string_dec k (th_held thm)) as [H | H].
        * destruct (G m thm Em H) as [S | S]; [right; exists m, thm; split; [exact Em|]; split; [exact N|]; split; assumption|].
          left. intros j thj Hlt Hj NE [H1 H2]. destruct (Nat.eq_dec j m) as [-> | Nj]; [rewrite Em in Hj; injection Hj as <-; contradiction|]. apply (IH j thj); auto; [lia|split; auto].
        * left. intros j thj Hlt Hj NE [H1 H2]. destruct (Nat.eq_dec j m) as [-> | Nj]; [rewrite Em in Hj; injection Hj as <-; contradiction|]. apply (IH j thj); auto; [lia|split; auto].
    - left. intros j thj Hlt Hj NE. destruct (Nat.eq_dec j m) as [-> | Nj]; [congruence|]. apply (IH j thj); auto. lia. }
  destruct (D (length ts)) as [H | H]; [left|right; exact H]. intros j thj Hj NE. apply (H j thj); auto. eapply nth_some_lt; eauto.
Qed.
(** a thread that is not finished can move or waits for another one *)
Lemma moves_or_waits st i th id : cinv st -> nth_error (c_threads st) i = Some th -> ~ finished th -> fresh (c_used st) id ->
  (exists st', cstep st (CThread i id) st') \/ exists j, waits_for st i j.
Proof.
  intros C HN NF F. destruct st as [s used ts]. cbn [c_threads c_used] in *. pose proof (ci_threads _ C i th HN) as T.
  assert (GO : forall s' th', tstep s ts i id th s' th' -> (exists st', cstep (mkC s used ts) (CThread i id) st') \/ exists j, waits_for (mkC s used ts) i j).
  { intros s' th' H. left. eexists. eapply CS_thread; eauto. }
  destruct (th_at th) as [|limits todo|limits| |a|a] eqn:E.
  - eapply GO. apply TS_start. exact E.
  - destruct (th_lost th) eqn:EL; [eapply GO; eapply TS_lost; eauto|]. destruct todo as [|k todo]; [eapply GO; eapply TS_locked; eauto|].
    destruct (lock_dec ts (ci_threads _ C) i th k HN) as [H | (j & thj & Hj & NE & HL)].
    + destruct (ti_keys th T) as (done & ES & _). rewrite E in ES. apply sorted_keys_in. rewrite ES. apply in_or_app. right. left. reflexivity.
    + eapply GO. eapply TS_lock; eauto.
    + right. exists j. exists th, thj, limits, k, todo. split; [exact HN|]. split; [exact Hj|]. split; [congruence|]. split; [exact E|exact HL].
  - eapply GO. apply TS_check. exact E.
  - eapply GO. apply TS_add. exact E.
  - destruct (th_held th) as [|k r] eqn:EH; [eapply GO; eapply TS_end; eauto|eapply GO; eapply TS_release; eauto].
  - exfalso. apply NF. exists a. exact E.
Qed.
Lemma waits_ends st i j : cinv st -> waits_for st i j -> exists thj, nth_error (c_threads st) j = Some thj /\ ~ finished thj.
Proof.
  intros C (thi & thj & limits & k & todo & Hi & Hj & NE & E & [HK _]). exists thj. split; [exact Hj|]. intros (a & EA). pose proof (ti_none thj (ci_threads _ C j thj Hj)) as Z. rewrite EA in Z. rewrite Z in HK. contradiction.
Qed.
Lemma c35_progress st id : creach st -> (exists i th, nth_error (c_threads st) i = Some th /\ ~ finished th) -> fresh (c_used st) id ->
  exists i st', cstep st (CThread i id) st'.
Proof.
  intros R (i & th & HN & NF) F. pose proof (creach_inv st R) as C.
  (* follow the waits: they cannot run in a circle, and there are finitely many threads *)
  assert (K : forall m seen i th, NoDup seen -> (forall j, In j seen -> clos_trans nat (waits_for st) j i) -> (forall j, In j seen -> j < length (c_threads st))%nat ->
     (length (c_threads st) <= length seen + m)%nat -> nth_error (c_threads st) i = Some th -> ~ finished th -> exists i' st', cstep st (CThread i' id) st').
  { clear i th HN NF. induction m as [|m IH]; intros seen i th ND WT LT LEN HN NF.
    - exfalso. assert (NI : ~ In i seen) by (intros H; exact (c35_acyclic st i R (WT i H))).
      assert (B : (length (i :: seen) <= length (seq 0 (length (c_threads st))))%nat).
      { apply NoDup_incl_length; [constructor; assumption|]. intros x [<- | Hx]; apply in_seq; [apply nth_some_lt in HN; lia|apply LT in Hx; lia]. }
      rewrite seq_length in B. cbn in B. lia.
    - destruct (moves_or_waits st i th id C HN NF F) as [(st' & H) | (j & H)]; [eauto|].
      destruct (waits_ends st i j C H) as (thj & Hj & NFj). assert (NI : ~ In i seen) by (intros X; exact (c35_acyclic st i R (WT i X))).
      apply (IH (i :: seen) j thj); auto.
      + constructor; assumption.
      + intros x [<- | Hx]; [apply t_step; exact H|]. eapply t_trans; [apply WT; exact Hx|apply t_step; exact H].
      + intros x [<- | Hx]; [eapply nth_some_lt; eauto|auto].
      + cbn. lia. }
  apply (K (length (c_threads st)) [] i th); [apply NoDup_nil|intros j []|intros j []|cbn; lia|exact HN|exact NF].
Qed.

(** ** Every increment finishes *)
Definition mstate (p : progress) (held : nat) : nat :=
  match p with
  | PDone _ => 0 | PRelease _ => 1 + held | PAdd => 2 + held | PCheck l => 3 + length l + held
  | PLock l todo => 4 + length l + 2 * length todo + held | PStart => 0
  end.
Definition tmeas (s : limiter) (th : thread) : nat :=
  match th_at th with PStart => S (mstate (begin_at s (th_kv th)) (length (th_held th))) | p => mstate p (length (th_held th)) end.
Definition cmeas (st : cstate) : nat := list_sum (map (tmeas (c_lim st)) (c_threads st)).
Lemma tmeas_counts s t th : tmeas (with_counts s t) th = tmeas s th.
Proof. reflexivity. Qed.
Lemma tstep_meas s ts i id th s' th' : tstep s ts i id th s' th' -> (tmeas s' th' < tmeas s th)%nat /\ forall x, tmeas s' x = tmeas s x.
Proof.
  intros ST. destruct ST as [HA|limits k todo HA HL HF|limits HA HL|limits todo HA HL|limits HA|HA|a k r HA HH|a HA HH]; unfold tmeas, moved; rewrite HA; cbn [th_at th_held th_kv]; (split; [|intros; reflexivity]).
  - destruct (begin_cases s (th_kv th)) as [(a & ->) | [-> | (limits & ->)]]; cbn; lia.
  - cbn. lia.
  - cbn. lia.
  - cbn. lia.
  - destruct (check_cases (l_counts s) (th_kv th) limits) as [-> | [(a & ->) | (x & r & -> & ->)]]; cbn; lia.
  - cbn. lia.
  - rewrite HH. cbn. lia.
  - cbn. lia.
Qed.
Lemma sum_set (f : thread -> nat) ts i th th' : nth_error ts i = Some th -> (list_sum (map f (set_thread ts i th')) + f th = list_sum (map f ts) + f th')%nat.
Proof.
  revert i. induction ts as [|x r IH]; intros [|i] H; try discriminate.
  - injection H as ->. change (set_thread (th :: r) 0 th') with (th' :: r). unfold list_sum. cbn [map fold_right]. lia.
  - specialize (IH i H). change (set_thread (x :: r) (S i) th') with (x :: set_thread r i th'). unfold list_sum in *. cbn [map fold_right]. lia.
Qed.
Lemma step_meas st i id st' : cstep st (CThread i id) st' -> (cmeas st' < cmeas st)%nat.
Proof.
  intros H. inversion H as [|s used ts i0 id0 th s' th' HN F TS| |]; subst. unfold cmeas. cbn [c_lim c_threads]. destruct (tstep_meas _ _ _ _ _ _ _ TS) as [M1 M2].
  rewrite (map_ext _ _ M2). pose proof (sum_set (tmeas s) ts i th th' HN). rewrite M2 in M1. lia.
Qed.
Lemma steps_meas n st st' : thread_steps n st st' -> (n + cmeas st' <= cmeas st)%nat.
Proof. induction 1 as [|n st st1 st2 i id T IH S]; [lia|]. apply step_meas in S. lia. Qed.
Lemma steps_reach n st st' : creach st -> thread_steps n st st' -> creach st'.
Proof. intros R T. induction T as [|n st st1 st2 i id T IH S]; [exact R|]. eapply CR_step; [apply IH; exact R|exact S]. Qed.
Lemma c35_finishes st : creach st -> exists bound, forall n st', thread_steps n st st' ->
  (n <= bound)%nat /\ forall id, fresh (c_used st') id -> (forall i st'', ~ cstep st' (CThread i id) st'') -> forall i th, nth_error (c_threads st') i = Some th -> finished th.
Proof.
  intros R. exists (cmeas st). intros n st' T. split; [pose proof (steps_meas n st st' T); lia|]. intros id F NS i th HN.
  pose proof (steps_reach n st st' R T) as R'. destruct (th_at th) eqn:E; try (exfalso; destruct (c35_progress st' id R') as (i' & st'' & H); [exists i, th; split; [exact HN|intros (a0 & C); congruence]|exact F|exact (NS _ _ H)]).
  eexists. exact E.
Qed.
