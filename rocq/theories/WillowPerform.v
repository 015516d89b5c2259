(** A step of a channel together with its calls of the limiter. *)
From Coq Require Import String List Bool Arith NArith ZArith Lia Permutation.
Import ListNotations.
From Verif Require Import Datatypes SpecValues DatatypesProofs PropLemmasValues Collections Query SpecQuery Assoc SpecAssoc AssocMaps AssocProofs AssocOps OneToMany SpecOneToMany OneToManyProofs
  Limiter SpecLimiter LimiterProofs LimiterCounts LimiterLimits LimiterSums PropLemmasLimiter PropLemmasRules PropLemmasUnit.
From Verif Require Import Channel SpecChannel ChannelProofs ChannelContents ChannelOrder ChannelCounts Willow SpecWillow WillowMaps WillowCounts.
Local Open Scope Z_scope.

(** ** The channel's own counting agrees with the calls *)
Definition call_on (y : counter) (x : lcall) (n : nat) : nat :=
  match x, y with
  | Less CEnqueued, CEnqueued | Less CRunning, CRunning => pred n
  | Zero CEnqueued, CEnqueued | Zero CRunning, CRunning => O
  | _, _ => n
  end.
Definition calls_on (y : counter) (l : list lcall) (n : nat) : nat := fold_left (fun n x => call_on y x n) l n.
Lemma step_counts c o c' a : qinv c -> qstep c o = Some (c', a) ->
  match wanted o a with
  | Some CEnqueued => enq c' = S (enq c) /\ run c' = run c
  | Some CRunning => enq c' = enq c /\ run c' = (if match o with ORun b => b | _ => true end then S (run c) else run c)
  | None => enq c' = calls_on CEnqueued (calls c o a) (enq c) /\ run c' = calls_on CRunning (calls c o a) (run c)
  end.
Proof.
  intros Q H. qcases Q H; bools; qfail; sel; cbn [wanted calls]; rewrite ?Heqo0, ?Heqp0; cbn; auto.
  all: repeat match goal with E : get ?i (items ?c) = Some _, E' : get ?i (items ?c) = Some _ |- _ => rewrite E in E'; injection E' as ->
       | E : get ?i (items ?c) = Some _ |- context [get ?i (items ?c)] => rewrite E | E : it_hb ?x = _ |- context [it_hb ?x] => rewrite E end.
  all: try match goal with F : failed _ _ _ _ _ |- _ => inversion F; subst; cbn; auto end.
  all: auto.
Qed.

(** ** The calls *)
Definition marked (kv : KeyValues) : Prop := kv_get kv EnqueuedKey <> None.
Lemma marked_running q kv kv' : plain kv -> marked kv' -> ~ kv_same kv' (running_kv q kv).
Proof. intros P M S. specialize (S EnqueuedKey). rewrite (running_enqueued q kv P) in S. unfold marked in M. destruct (kv_get kv' EnqueuedKey); [exact S|congruence]. Qed.
Lemma marked_enqueued q kv : counter_kv kv -> plain kv -> marked (enqueued_kv q kv).
Proof. intros C P. unfold marked. rewrite (proj2 (enqueued_queue q kv (proj1 (proj1 C)) P)). discriminate. Qed.
Lemma counter_of_ok y q kv : counter_kv kv -> counter_kv (counter_of y q kv).
Proof. destruct y; [apply enqueued_counter|apply running_counter]. Qed.
Lemma enqueued_group name kv : counter_kv kv -> plain kv -> in_group (queue_kv name) (queue_kv name) (enqueued_kv name kv).
Proof.
  intros C P k Hk. destruct (enqueued_queue name kv (proj1 (proj1 C)) P) as [E1 E2]. destruct Hk as [<- | [<- | []]].
  - exists (Str name), (Str name). split; [reflexivity|]. split; [exact E1|]. apply same_value_refl.
  - exists (Str "true"), (Str "true"). split; [reflexivity|]. split; [exact E2|]. apply same_value_refl.
Qed.
Lemma enqueued_other_group name q kv : counter_kv kv -> plain kv -> name <> q -> ~ in_group (queue_kv name) (queue_kv name) (enqueued_kv q kv).
Proof.
  intros C P N G. destruct (enqueued_queue q kv (proj1 (proj1 C)) P) as [E1 _]. destruct (G QueueKey (or_introl eq_refl)) as (v & v' & E & E' & S).
  rewrite E1 in E'. injection E' as <-. cbn in E. injection E as <-. apply N. destruct S as [_ S]. inversion S. reflexivity.
Qed.
Lemma running_group name q kv : plain kv -> ~ in_group (queue_kv name) (queue_kv name) (running_kv q kv).
Proof. intros P G. destruct (G EnqueuedKey (or_intror (or_introl eq_refl))) as (v & v' & _ & E & _). rewrite (running_enqueued q kv P) in E. discriminate. Qed.
(** the limiter's total for a queue *)
Definition total_of (s : limiter) (name : string) : Z := gsum (l_counts s) (queue_kv name) (queue_kv name).
Lemma queue_rep name : kv_rep (queue_kv name).
Proof. apply counter_rep. apply queue_counter. Qed.
(** What happens to the counters of stored items: that of channel kv of queue q changes by f, the others stay *)
Record marks (s s' : limiter) (q : string) (kv : KeyValues) (f : nat -> nat) : Prop := {
  mk_rules : l_rules s' = l_rules s; mk_over : l_over s' = l_over s;
  mk_this : count_of s' (enqueued_kv q kv) = f (count_of s (enqueued_kv q kv));
  mk_other : forall kv', counter_kv kv' -> marked kv' -> ~ kv_same kv' (enqueued_kv q kv) -> count_of s' kv' = count_of s kv';
  mk_sum : total_of s' q = total_of s q + Z.of_nat (f (count_of s (enqueued_kv q kv))) - Z.of_nat (count_of s (enqueued_kv q kv));
  mk_sums : forall name, name <> q -> total_of s' name = total_of s name }.
Lemma marks_refl s q kv : marks s s q kv (fun n => n).
Proof. constructor; auto; lia. Qed.
Lemma marks_trans s s1 s2 q kv f g : marks s s1 q kv f -> marks s1 s2 q kv g -> marks s s2 q kv (fun n => g (f n)).
Proof.
  intros [] []. constructor; try congruence.
  - intros kv' C M N. rewrite mk_other1, mk_other0 by assumption. reflexivity.
  - rewrite mk_sum1, mk_sum0, mk_this0. lia.
  - intros name N. rewrite mk_sums1, mk_sums0 by exact N. reflexivity.
Qed.
Lemma marks_changes s s' q kv n : counter_kv kv -> plain kv -> changes s s' (enqueued_kv q kv) n -> forall f, f (count_of s (enqueued_kv q kv)) = n -> marks s s' q kv f.
Proof.
  intros C P [] f E. constructor; auto; try congruence.
  - unfold total_of. rewrite E. apply ch_in; [apply queue_rep|apply enqueued_group; assumption].
  - intros name N. apply ch_out; [apply queue_rep|apply enqueued_other_group; assumption].
Qed.
Lemma marks_running s s' q kv n : counter_kv kv -> plain kv -> changes s s' (running_kv q kv) n -> marks s s' q kv (fun n => n).
Proof.
  intros C P []. constructor; auto.
  - apply ch_other; [apply enqueued_counter; exact C|]. apply marked_running; [exact P|apply marked_enqueued; assumption].
  - intros kv' C' M N. apply ch_other; [exact C'|]. apply marked_running; assumption.
  - unfold total_of. rewrite ch_out; [lia|apply queue_rep|apply running_group; exact P].
  - intros name N. apply ch_out; [apply queue_rep|apply running_group; exact P].
Qed.
Lemma call_effect k s u q kv x id e : sound k s u -> k < 2 ^ 63 -> counter_kv kv -> plain kv -> ~ In id u -> id <> EmptyString ->
  exists s', lrun s (lcall_op q kv x id e) = (s', LDone) /\ sound k s' (id :: u) /\ marks s s' q kv (call_on CEnqueued x).
Proof.
  intros SO LT C P NU NE. destruct x as [y|y]; cbn [lcall_op lrun].
  - destruct (dec_effect k s u (counter_of y q kv) id (e_locked e) SO LT (counter_of_ok y q kv C) NU NE) as (E & S & CH).
    eexists. split; [rewrite <- E; apply surjective_pairing|]. split; [exact S|].
    destruct y; cbn [counter_of] in *; [eapply marks_changes; eauto|eapply marks_running; eauto].
  - destruct (zero_effect k s u (counter_of y q kv) id SO LT (counter_of_ok y q kv C) NU NE) as (E & S & CH).
    eexists. split; [rewrite <- E; apply surjective_pairing|]. split; [exact S|].
    destruct y; cbn [counter_of] in *; [eapply marks_changes; eauto|eapply marks_running; eauto].
Qed.
Lemma run_calls_ok k q kv e : k < 2 ^ 63 -> counter_kv kv -> plain kv -> forall l s u ids, sound k s u -> (length l <= length ids)%nat -> fresh u ids ->
  exists s' u', run_calls s q kv l ids e = Some s' /\ sound k s' u' /\ incl u' (ids ++ u) /\ marks s s' q kv (calls_on CEnqueued l).
Proof.
  intros LT C P. induction l as [|x l IH]; intros s u ids SO LE F.
  - exists s, u. split; [destruct ids; reflexivity|]. split; [exact SO|]. split; [intros y Hy; apply in_or_app; auto|]. apply marks_refl.
  - destruct ids as [|i ids]; [cbn in LE; lia|]. destruct F as [ND F]. apply NoDup_cons_iff in ND as [NI ND]. destruct (F i (or_introl eq_refl)) as [NU NE].
    destruct (call_effect k s u q kv x i e SO LT C P NU NE) as (s1 & E1 & SO1 & M1).
    destruct (IH s1 (i :: u) ids SO1) as (s' & u' & E & SO' & I' & M'); [cbn in LE; lia| |].
    { split; [exact ND|]. intros y Hy. destruct (F y (or_intror Hy)) as [F1 F2]. split; [|exact F2]. intros [-> | X]; auto. }
    exists s', u'. split; [cbn [run_calls]; rewrite E1; exact E|]. split; [exact SO'|]. split.
    + intros y Hy. apply I' in Hy. apply in_app_iff in Hy as [Hy | [<- | Hy]]; [right; apply in_or_app; auto|left; reflexivity|right; apply in_or_app; auto].
    + exact (marks_trans _ _ _ _ _ _ _ M1 M').
Qed.
Lemma calls_short c o a : (length (calls c o a) <= 2)%nat.
Proof.
  unfold calls. destruct o, a; cbn; auto; repeat match goal with |- context [match ?x with _ => _ end] => destruct x; cbn; auto end.
Qed.

(** ** The step *)
Lemma perform_spec k s u q kv c o e s' c' a : sound k s u -> k + 1 < 2 ^ 63 -> counter_kv kv -> plain kv -> fresh u [e_id e; e_id2 e] -> qinv c ->
  perform s q kv c o e = Some (s', c', a) ->
  (exists b, qstep c (granted o b) = Some (c', a)) /\
  (exists u', sound (k + 1) s' u' /\ incl u' (e_id e :: e_id2 e :: u)) /\
  (exists f, marks s s' q kv f /\ enq c' = f (enq c) /\ (items c = [] -> rem c = RGone -> forall n, f n = n) /\
     ((forall i, a <> AStored i) -> forall n, (f n <= n)%nat) /\
     (forall i, a = AStored i -> (forall n, f n = S n) /\ forall g limit total, governs s (enqueued_kv q kv) g limit -> limit <> -1 -> group_total s g (enqueued_kv q kv) total -> total < limit)).
Proof.
  intros SO LT C P F Q. unfold perform. destruct (qstep c (granted o true)) as [[c1 a1]|] eqn:E1; [|discriminate].
  destruct F as [ND F]. destruct (F (e_id e) (or_introl eq_refl)) as [NU NE].
  destruct (wanted o a1) as [x|] eqn:W.
  - destruct (lrun s (LUpsert (counter_of x q kv) 1 (e_id e) (e_locked e))) as [s1 la] eqn:EL. cbn [lrun] in EL.
    destruct (inc_effect k s u (counter_of x q kv) (e_id e) (e_locked e) SO LT (counter_of_ok x q kv C) NU NE) as (SO' & SAME & GO). cbv zeta in *. rewrite EL in *. cbn [fst snd] in *.
    assert (US : exists u', sound (k + 1) s1 u' /\ incl u' (e_id e :: e_id2 e :: u)).
    { exists (e_id e :: u). split; [exact SO'|]. intros y [<- | Hy]; [left; reflexivity|right; right; exact Hy]. }
    pose proof (step_counts c _ c1 a1 Q E1) as SC.
    destruct (match la with LDone => true | _ => false end) eqn:LA.
    + destruct la; try discriminate. intros [= <- <- <-]. split; [exists true; exact E1|]. split; [exact US|]. destruct (GO eq_refl) as [CH LIM].
      destruct o as [p i ok| | | | | | | | | | | | | | | | | | | | | | | ]; try discriminate W; cbn [granted] in *.
      * unfold wanted in SC, W. destruct a1; try discriminate W. injection W as <-. destruct SC as [SC _].
        exists S. split; [eapply marks_changes; eauto|]. split; [exact SC|]. split.
        { intros IT RG. exfalso. clear - E1 RG. unfold qstep in E1. destruct (dead c); [discriminate|]. apply guard_some in E1 as [G _]. unfold indexed in G. rewrite RG in G. discriminate. }
        split; [intros N; exfalso; eapply N; reflexivity|]. intros j _. split; [reflexivity|exact LIM].
      * cbn in W. injection W as <-. destruct SC as [SC _]. exists (fun n => n). split; [eapply marks_running; eauto|]. split; [exact SC|]. split; [reflexivity|]. split; [reflexivity|].
        intros j ->. exfalso. clear - E1. unfold qstep in E1. destruct (dead c); [discriminate|]. destruct (fl c); discriminate.
    + assert (s1 = s) by (apply SAME; intros ->; discriminate). subst s1.
      assert (ID : forall x', match la with LDone => Some (s, c1, a1) | _ => x' end = x') by (intros x'; destruct la; [reflexivity|discriminate|reflexivity..]).
      rewrite ID. destruct (qstep c (granted o false)) as [[c2 a2]|] eqn:E2; [|discriminate]. intros [= <- <- <-].
      split; [exists false; exact E2|]. split; [exact US|]. pose proof (step_counts c _ c2 a2 Q E2) as SC2.
      assert (NS : forall i, a2 <> AStored i).
      { intros i ->. clear - E2 W. destruct o; try discriminate W; cbn [granted] in E2; unfold qstep in E2; (destruct (dead c); [discriminate|]).
        - apply guard_some in E2 as [_ E2]. unfold enqueue in E2. cbn in E2. repeat match type of E2 with context [match ?x with _ => _ end] => destruct x end; discriminate.
        - destruct (fl c); discriminate. }
      assert (EQ : enq c2 = enq c).
      { destruct o; try discriminate W; cbn [granted] in *; unfold wanted in SC2; cbn [calls] in SC2.
        - destruct a2; try (exfalso; eapply NS; reflexivity); apply SC2.
        - apply SC2. }
      exists (fun n => n). split; [apply marks_refl|]. split; [exact EQ|]. split; [reflexivity|]. split; [reflexivity|]. intros i E. exfalso. eapply NS; eauto.
  - destruct (run_calls_ok k q kv e ltac:(lia) C P (calls c o a1) s u [e_id e; e_id2 e] SO (calls_short c o a1) (conj ND F)) as (s1 & u1 & ER & SO1 & I1 & M1).
    rewrite ER. intros [= <- <- <-]. split; [exists true; exact E1|]. split; [exists u1; split; [eapply sound_more; eauto; lia|exact I1]|].
    exists (calls_on CEnqueued (calls c o a1)). split; [exact M1|].
    assert (W' : wanted (granted o true) a1 = None) by (destruct o; exact W).
    assert (CC : calls c (granted o true) a1 = calls c o a1) by (destruct o; reflexivity).
    pose proof (step_counts c _ c1 a1 Q E1) as SC. rewrite W', CC in SC. split; [apply SC|]. split.
    + intros IT RG n. clear - E1 IT RG. destruct o; cbn [calls granted]; try reflexivity; unfold qstep in E1; destruct (dead c); try discriminate; unfold is_phase in *; rewrite ?IT, ?RG in *; cbn in E1; try discriminate.
      all: try (unfold indexed in E1; rewrite RG in E1; discriminate).
      destruct (fl c); try discriminate. apply guard_some in E1 as [_ E1]. unfold fail_back, destroying in E1. rewrite RG, IT in E1. injection E1 as <- <-. reflexivity.
    + split.
      * intros _ n. generalize (calls c o a1). intros l. revert n. induction l as [|y l IH]; intros n; [cbn; lia|]. unfold calls_on in *. cbn [fold_left]. rewrite IH. destruct y as [[]|[]]; cbn; lia.
      * intros i ->. destruct o; try discriminate W'; cbn in W; try discriminate; exfalso; clear - E1; cbn [granted] in E1; unfold qstep in E1; destruct (dead c); try discriminate; unfold create, success, fail_back, time_out, ack, nack, beat in E1;
        repeat match type of E1 with
        | guard _ _ = Some _ => apply guard_some in E1 as [_ E1]
        | context [match ?x with _ => _ end] => destruct x; try discriminate
        | context [let (_, _) := ?x in _] => destruct x; try discriminate end; discriminate.
Qed.
