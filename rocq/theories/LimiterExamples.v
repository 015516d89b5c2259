(** Concrete executions of the limiter, for the examples and refutations of [PropertiesLimiter.v]. *)
From Coq Require Import SpecFloat.
From Verif Require Import Datatypes SpecValues Query SpecQuery Assoc SpecAssoc AssocMaps AssocProofs OneToMany SpecOneToMany Limiter SpecLimiter LimiterProofs LimiterCounts LimiterLimits LimiterSums PropLemmasLimiter LimiterLocks SpecLocks.
Local Open Scope Z_scope.
Local Open Scope list_scope.

Definition lops (xs : list lop) : limiter := fold_left (fun s x => fst (lrun s x)) xs empty_limiter.
Definition ids_of (xs : list lop) : list string := fold_left (fun u x => match lop_id x with Some id => id :: u | None => u end) xs [].
Lemma lops_reach xs : Forall lop_arg xs ->
  (forall p x r, xs = p ++ x :: r -> forall id, lop_id x = Some id -> ~ In id (ids_of p) /\ id <> EmptyString) -> lreach (lops xs) (ids_of xs).
Proof.
  unfold lops, ids_of. induction xs as [|x xs IH] using rev_ind; intros A F; [constructor|]. rewrite !fold_left_app. cbn [fold_left]. apply Forall_app in A as [A AX]. inversion AX; subst.
  apply LR_step; auto.
  - apply IH; [exact A|]. intros p y r E. apply (F p y (r ++ [x])). rewrite E, <- app_assoc. reflexivity.
  - intros id E. apply (F xs x [] eq_refl id E).
Qed.
Fixpoint fresh_ids (u : list string) (xs : list lop) : bool :=
  match xs with
  | [] => true
  | x :: r => match lop_id x with
              | Some id => negb (String.eqb id EmptyString) && negb (existsb (String.eqb id) u) && fresh_ids (id :: u) r
              | None => fresh_ids u r
              end
  end.
Fixpoint nodupb (l : list string) : bool := match l with [] => true | k :: r => negb (existsb (String.eqb k) r) && nodupb r end.
Lemma nodupb_ok l : nodupb l = true -> NoDup l.
Proof.
  induction l as [|k r IH]; cbn; [constructor|]. intros H. apply andb_true_iff in H as [H1 H2]. constructor; [|auto]. intros HI. apply negb_true_iff in H1.
  assert (X : existsb (String.eqb k) r = true) by (apply existsb_exists; exists k; split; [exact HI|apply String.eqb_refl]). congruence.
Qed.
Definition kv_argb (kv : KeyValues) : bool :=
  nodupb (kv_keys kv) && forallb (fun p => match ev_data (snd p) with PInt _ _ | PString _ | PNil => true | _ => false end) kv.
Lemma kv_argb_ok kv : kv_argb kv = true -> kv_arg kv.
Proof.
  unfold kv_argb. intros H. apply andb_true_iff in H as [ND H]. apply nodupb_ok in ND. split; [exact ND|].
  intros k v HI [C | C]; rewrite forallb_forall in H; specialize (H _ HI); cbn in H; rewrite C in H; discriminate.
Qed.
Definition int64b (z : Z) : bool := (- 2 ^ 63 <=? z) && (z <? 2 ^ 63).
Definition argb (x : lop) : bool :=
  match x with
  | LCreateRule kv _ n | LCreateOverride _ kv _ n | LUpsert kv n _ _ | LSet kv n _ => kv_argb kv && int64b n
  | LUpdateRule _ n | LUpdateOverride _ _ n => int64b n
  | _ => true
  end.
Lemma int64b_ok z : int64b z = true -> int64 z.
Proof. unfold int64b, int64. rewrite andb_true_iff, Z.leb_le, Z.ltb_lt. auto. Qed.
Lemma argb_ok x : argb x = true -> lop_arg x.
Proof.
  destruct x; cbn [argb lop_arg]; rewrite ?andb_true_iff; auto using int64b_ok; intros [H1 H2]; auto using int64b_ok, kv_argb_ok.
Qed.
Lemma run_reach xs : forallb argb xs = true -> fresh_ids [] xs = true -> lreach (lops xs) (ids_of xs).
Proof.
  intros A F. apply lops_reach.
  - rewrite Forall_forall. rewrite forallb_forall in A. intros x Hx. apply argb_ok, A, Hx.
  - assert (K : forall xs u, fresh_ids u xs = true -> forall p x r, xs = p ++ x :: r -> forall id, lop_id x = Some id ->
      ~ In id (fold_left (fun u x => match lop_id x with Some id => id :: u | None => u end) p u) /\ id <> EmptyString).
    { clear. induction xs as [|y xs IH]; intros u F p x r E id HID; [destruct p; discriminate|]. cbn [fresh_ids] in F. destruct p as [|z p]; injection E as -> ->.
      - rewrite HID in F. apply andb_true_iff in F as [F _]. apply andb_true_iff in F as [F1 F2]. apply negb_true_iff in F1, F2. cbn. split; [|intros ->; discriminate].
        intros HI. assert (X : existsb (String.eqb id) u = true) by (apply existsb_exists; exists id; split; [exact HI|apply String.eqb_refl]). congruence.
      - cbn [fold_left]. destruct (lop_id z) as [i|].
        + apply andb_true_iff in F as [_ F]. eapply (IH (i :: u) F p x r eq_refl id HID).
        + eapply (IH u F p x r eq_refl id HID). }
    intros p x r E id HID. eapply K; eauto.
Qed.
Lemma counter_kvb kv : kv_argb kv = true -> kv_validate kv MinDataType MaxWithoutAnyDataType = true -> counter_kv kv.
Proof. intros A V. apply counter_kv_iff; auto using kv_argb_ok. Qed.
Lemma gsum_total s used g kv : lreach s used -> counter_kv kv -> group_total s g kv (gsum (l_counts s) g kv).
Proof. intros R C. apply (group_total_iff s used); auto; [apply lreach_inv; exact R|apply counter_rep; exact C]. Qed.

(** ** Executing threads *)
Definition free_of (ts : list thread) (i : nat) (k : string) : bool :=
  forallb (fun j => (Nat.eqb j i) || match nth_error ts j with Some th => negb (existsb (String.eqb k) (th_held th)) | None => true end) (seq 0 (length ts)).
Definition exec_thread (s : limiter) (ts : list thread) (i : nat) (id : string) (th : thread) : option (limiter * thread) :=
  match th_at th with
  | PStart => Some (s, moved th (begin_at s (th_kv th)))
  | PLock limits (k :: todo) =>
      if th_lost th then Some (s, moved th (PRelease LFailed))
      else if free_of ts i k then Some (s, mkThread (th_kv th) (th_n th) (PLock limits todo) (k :: th_held th) (th_lost th)) else None
  | PLock limits [] => if th_lost th then Some (s, moved th (PRelease LFailed)) else Some (s, moved th (PCheck limits))
  | PCheck limits => Some (s, moved th (check_one (l_counts s) (th_kv th) limits))
  | PAdd => Some (with_counts s (fst (add_count (l_counts s) (th_kv th) (th_n th) id)), moved th (PRelease (snd (add_count (l_counts s) (th_kv th) (th_n th) id))))
  | PRelease a => match th_held th with
                  | k :: r => Some (s, mkThread (th_kv th) (th_n th) (PRelease a) r (th_lost th))
                  | [] => Some (s, moved th (PDone a))
                  end
  | PDone _ => None
  end.
Lemma free_of_ok ts i kv k : free_of ts i k = true -> lock_free ts i kv k.
Proof.
  unfold free_of. rewrite forallb_forall. intros H j th HN NE [HI _]. assert (L : (j < length ts)%nat) by (apply nth_error_Some; congruence).
  specialize (H j (proj2 (in_seq _ _ _) (conj (Nat.le_0_l _) L))). rewrite HN in H. apply orb_true_iff in H as [H | H]; [apply Nat.eqb_eq in H; contradiction|].
  apply negb_true_iff in H. assert (X : existsb (String.eqb k) (th_held th) = true) by (apply existsb_exists; exists k; split; [exact HI|apply String.eqb_refl]). congruence.
Qed.
Lemma exec_thread_ok s ts i id th s' th' : exec_thread s ts i id th = Some (s', th') -> tstep s ts i id th s' th'.
Proof.
  unfold exec_thread. destruct (th_at th) as [|limits [|k todo]|limits| |a|a] eqn:E.
  - intros [= <- <-]. apply TS_start. exact E.
  - destruct (th_lost th) eqn:L; intros [= <- <-]; [eapply TS_lost; eauto|apply TS_locked; auto].
  - destruct (th_lost th) eqn:L; [intros [= <- <-]; eapply TS_lost; eauto|]. destruct (free_of ts i k) eqn:F; [|discriminate]. intros [= <- <-]. rewrite <- L. apply TS_lock; auto. apply free_of_ok. exact F.
  - intros [= <- <-]. eapply TS_check; eauto.
  - intros [= <- <-]. apply TS_add. exact E.
  - destruct (th_held th) as [|k r] eqn:H; intros [= <- <-]; [apply TS_end; auto|eapply TS_release; eauto].
  - discriminate.
Qed.
Definition freshb (u : list string) (id : string) : bool := negb (String.eqb id EmptyString) && negb (existsb (String.eqb id) u).
Lemma freshb_ok u id : freshb u id = true -> fresh u id.
Proof.
  unfold freshb, fresh. rewrite andb_true_iff, !negb_true_iff. intros [H1 H2]. split; [|intros ->; discriminate]. intros HI.
  assert (X : existsb (String.eqb id) u = true) by (apply existsb_exists; exists id; split; [exact HI|apply String.eqb_refl]). congruence.
Qed.
Definition cexec (st : cstate) (l : clabel) : option cstate :=
  match l with
  | CArrive kv n =>
      if kv_argb kv && kv_validate kv MinDataType MaxWithoutAnyDataType && int64b n && (0 <? n) then Some (mkC (c_lim st) (c_used st) (c_threads st ++ [mkThread kv n PStart [] false])) else None
  | CThread i id =>
      match nth_error (c_threads st) i with
      | Some th => if freshb (c_used st) id then
                     match exec_thread (c_lim st) (c_threads st) i id th with
                     | Some (s', th') => Some (mkC s' (id :: c_used st) (set_thread (c_threads st) i th'))
                     | None => None
                     end
                   else None
      | None => None
      end
  | CLose i k =>
      match nth_error (c_threads st) i with
      | Some th => if existsb (String.eqb k) (th_held th) then
                     Some (mkC (c_lim st) (c_used st) (set_thread (c_threads st) i (mkThread (th_kv th) (th_n th) (th_at th) (remove string_dec k (th_held th)) true)))
                   else None
      | None => None
      end
  | CEnv (LCreateRule kv id n) =>
      if kv_argb kv && int64b n && freshb (c_used st) id then Some (mkC (fst (CreateRule (c_lim st) kv id n)) (id :: c_used st) (c_threads st)) else None
  | CEnv _ => None
  end.
Lemma cexec_ok st l st' : cexec st l = Some st' -> cstep st l st'.
Proof.
  destruct st as [s u ts]. destruct l as [kv n|i id|x|i k]; cbn [cexec c_lim c_used c_threads].
  - destruct (kv_argb kv && _ && _ && _) eqn:E; [|discriminate]. intros [= <-]. apply andb_true_iff in E as [E E3]. apply andb_true_iff in E as [E E2]. apply andb_true_iff in E as [E0 E1].
    apply CS_arrive; [apply counter_kvb; auto|apply int64b_ok; auto|apply Z.ltb_lt; auto].
  - destruct (nth_error ts i) as [th|] eqn:HN; [|discriminate]. destruct (freshb u id) eqn:F; [|discriminate]. destruct (exec_thread s ts i id th) as [[s' th']|] eqn:E; [|discriminate].
    intros [= <-]. eapply CS_thread; eauto using freshb_ok, exec_thread_ok.
  - destruct x; try discriminate. destruct (kv_argb kv && _ && _) eqn:E; [|discriminate]. intros [= <-]. apply andb_true_iff in E as [E E2]. apply andb_true_iff in E as [E0 E1].
    apply (CS_env s u ts (LCreateRule kv id limit)); [split; auto using kv_argb_ok, int64b_ok|intros ? [= <-]; apply freshb_ok; auto|intros; discriminate].
  - destruct (nth_error ts i) as [th|] eqn:HN; [|discriminate]. destruct (existsb (String.eqb k) (th_held th)) eqn:E; [|discriminate]. intros [= <-].
    apply CS_lose; [exact HN|]. apply existsb_exists in E as (k' & HI & EQ). apply String.eqb_eq in EQ. subst k'. exact HI.
Qed.
Fixpoint cexecs (st : cstate) (ls : list clabel) : option cstate :=
  match ls with [] => Some st | l :: r => match cexec st l with Some st' => cexecs st' r | None => None end end.
Lemma cexecs_reach ls : forall st st', creach st -> cexecs st ls = Some st' -> creach st'.
Proof.
  induction ls as [|l r IH]; intros st st' R; cbn; [intros [= <-]; exact R|]. destruct (cexec st l) as [st1|] eqn:E; [|discriminate]. apply IH. eapply CR_step; eauto using cexec_ok.
Qed.

(** ** Executing increments of one counter that keep to the rules of [crun] *)
Definition fitb (s : limiter) : bool := forallb (fun i => 0 <? it_val i) (a_items (l_counts s)) && (sum_of (a_items (l_counts s)) <? 2 ^ 63).
Lemma fitb_ok s : fitb s = true -> counts_fit s.
Proof. unfold fitb, counts_fit. rewrite andb_true_iff, forallb_forall, Z.ltb_lt. intros [H1 H2]. split; [|exact H2]. intros i Hi. apply Z.ltb_lt. auto. Qed.
Fixpoint safe_execs (kv : KeyValues) (most : Z) (st : cstate) (ls : list clabel) : option cstate :=
  match ls with
  | [] => Some st
  | l :: r => match (match l with CArrive _ n => if n <=? most then cexec st (CArrive kv n) else None | CThread i id => if fitb (c_lim st) then cexec st l else None | _ => None end) with
              | Some st' => safe_execs kv most st' r
              | None => None
              end
  end.
Lemma governs_counts s s' kv g limit : l_rules s' = l_rules s -> l_over s' = l_over s -> governs s kv g limit -> governs s' kv g limit.
Proof. unfold governs, has_rule, has_override. intros -> ->. auto. Qed.
Lemma tstep_rules s ts i id th s' th' : tstep s ts i id th s' th' -> l_rules s' = l_rules s /\ l_over s' = l_over s /\ th_kv th' = th_kv th.
Proof. intros ST. destruct ST; auto. Qed.
Lemma safe_run g kv limit most ls : forall st st', crun g kv limit most st -> governs (c_lim st) kv g limit -> (forall i th, nth_error (c_threads st) i = Some th -> th_kv th = kv) ->
  safe_execs kv most st ls = Some st' -> crun g kv limit most st'.
Proof.
  induction ls as [|l r IH]; intros st st' RUN GOV KV; cbn [safe_execs]; [intros [= <-]; exact RUN|].
  destruct l as [kv1 n|i id|x|i k]; try discriminate.
  - destruct (n <=? most) eqn:EM; [|discriminate]. destruct (cexec st (CArrive kv n)) as [st1|] eqn:E; [|discriminate]. apply Z.leb_le in EM. pose proof (cexec_ok _ _ _ E) as ST.
    assert (R1 : crun g kv limit most st1). { eapply CRN_step; [exact RUN|exact ST| | | | |]; try discriminate. intros kv' n' [= <- <-] _. exact EM. }
    apply IH; [exact R1| |]; inversion ST; subst; [exact GOV|]. cbn [c_threads] in *. intros j th H. destruct (Nat.lt_ge_cases j (length ts)) as [L | L].
    + rewrite nth_error_app1 in H by exact L. eauto.
    + rewrite nth_error_app2 in H by exact L. destruct (j - length ts)%nat as [|m]; [|cbn in H; destruct m; discriminate]. injection H as <-. reflexivity.
  - destruct (fitb (c_lim st)) eqn:EF; [|discriminate]. destruct (cexec st (CThread i id)) as [st1|] eqn:E; [|discriminate]. apply fitb_ok in EF. pose proof (cexec_ok _ _ _ E) as ST.
    assert (R1 : crun g kv limit most st1).
    { eapply CRN_step; [exact RUN|exact ST| | | | |]; try discriminate; [|intros; exact EF]. intros j id' th [= <- <-] HN _ _. rewrite (KV i th HN). exact GOV. }
    apply IH; [exact R1| |]; inversion ST as [|? ? ? ? ? th ? ? HN F TS| |]; subst; cbn [c_lim c_threads] in *; destruct (tstep_rules _ _ _ _ _ _ _ TS) as (T1 & T2 & T3).
    + eapply governs_counts; eauto.
    + intros j thj H. unfold set_thread in H. assert (LI : (i < length ts)%nat) by (apply nth_error_Some; congruence). apply nth_error_In in H. apply in_app_or in H as [H | [<- | H]].
      * apply firstn_in in H. apply In_nth_error in H as (m & H). eauto.
      * rewrite T3. eauto.
      * assert (H' : In thj ts) by (rewrite <- (firstn_skipn (S i) ts); apply in_or_app; auto). apply In_nth_error in H' as (m & H'). eauto.
Qed.
