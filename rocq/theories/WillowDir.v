(** Requests for queues, other clients of the limiter, and the invariant of histories. *)
From Coq Require Import String List Bool Arith NArith ZArith Lia Permutation.
Import ListNotations.
From Verif Require Import Datatypes SpecValues DatatypesProofs PropLemmasValues Collections Query SpecQuery QueryProofs Assoc SpecAssoc AssocMaps AssocProofs AssocOps PropLemmasAssoc OneToMany SpecOneToMany OneToManyProofs
  Limiter SpecLimiter LimiterProofs LimiterCounts LimiterLimits LimiterSums PropLemmasLimiter PropLemmasRules PropLemmasUnit.
From Verif Require Import BTree SpecBTree WillowQueues.
From Verif Require Import Channel SpecChannel ChannelProofs ChannelContents ChannelOrder ChannelCounts Willow SpecWillow WillowMaps WillowCounts WillowPerform WillowInv WillowSteps.
Local Open Scope Z_scope.

(** ** The override of a queue *)
Lemma override_query_ok name n : n = None \/ n = Some 2 ->
  q_validate (override_query name n) = true /\ query_no_nan (override_query name n) /\ every_node node_simple (override_query name n).
Proof.
  intros H. split; [|split].
  - destruct H as [-> | ->]; reflexivity.
  - cbn. repeat split; auto. intros s k v [= <-]. cbn. intros [[= <- <-] | [[= <- <-] | []]]; apply str_ok.
  - cbn. repeat split; auto; try (left; discriminate). intros s [= <-]. right. split.
    + intros p p' H1 _ E _. cbn in H1. destruct H1 as [<- | [<- | []]]; discriminate.
    + intros k q [[= <- <-] | [[= <- <-] | []]]; exact I.
Qed.
Lemma override_query_holds name name' n id : n = None \/ n = Some 2 -> query_holds (override_query name n) id (queue_kv name') <-> name = name'.
Proof.
  intros H. unfold query_holds, override_query. rewrite q_holds_Q. cbn [elems]. rewrite Exists_nil. unfold sel_holds, tags_hold, size_holds. cbn [s_ids s_kvs s_min s_max]. split.
  - intros [((_ & _ & H3) & _) | []]. destruct (H3 _ _ (or_introl eq_refl)) as (m & E & _ & C). cbn in E. injection E as <-. cbn in C. destruct C as [C | [C | [_ C]]]; try discriminate. inversion C. congruence.
  - intros <-. left. split; [|split; [constructor|left; discriminate]]. split; [left; reflexivity|]. split.
    + destruct H as [-> | ->]; split; intros a E; try discriminate; injection E as <-; cbn; lia.
    + intros k q [[= <- <-] | [[= <- <-] | []]]; cbn; eexists; (split; [reflexivity|]); (split; [unfold type_permitted; cbn; lia|right; right; apply same_value_refl]).
Qed.
Lemma query_override k w used name q n : winv k w used -> queue_at w name q -> n = None \/ n = Some 2 ->
  exists oid, QueryOverrides (w_lim w) (w_rule w) (override_query name n) = Some [oid] /\ oid <> EmptyString /\ has_override (w_lim w) (w_rule w) oid (queue_kv name) (q_limit q).
Proof.
  intros I A N. destruct (wi_over1 _ _ _ I name q A) as (oid & NE & HO). exists oid. split; [|auto]. destruct (wi_lim _ _ _ I) as (u & SO & _). pose proof (so_reach _ _ _ SO) as LR. pose proof (lreach_inv _ _ LR) as L.
  unfold QueryOverrides. rewrite (find_rule_spec (w_lim w) u (w_rule w) L). pose proof (rule_find (w_lim w) u (w_rule w) L) as FR.
  destruct (find_item (a_items (l_rules (w_lim w))) (w_rule w)) as [rr|]; [|exfalso; eapply FR; apply I].
  assert (RNE : w_rule w <> EmptyString) by (apply (proj1 (values_ok _ _ LR) _ _ _ (wi_rule _ _ _ I))).
  destruct (li_over _ _ L) as (uo & RO & _). destruct (override_query_ok name n N) as (V & NN & SI).
  destruct (c25_query (l_over (w_lim w)) uo (w_rule w) (override_query name n) RO RNE V NN (or_intror SI)) as (l & ND & HL & HQ). rewrite HQ.
  assert (EL : l = [mkMany (q_limit q) (w_rule w) oid (queue_kv name)]).
  { assert (ALL : forall i, In i l <-> i = mkMany (q_limit q) (w_rule w) oid (queue_kv name)).
    { intros i. rewrite HL. split.
      - intros [HI HH]. assert (HO' : has_override (w_lim w) (w_rule w) (m_id i) (m_kv i) (m_val i)).
        { unfold has_override. pose proof (belongings_owner _ _ _ _ RO HI) as E. clear HL. destruct i as [i1 i2 i3 i4]. cbn in *. subst i2. exact HI. }
        destruct (wi_over2 _ _ _ I _ _ _ HO') as (name' & q' & A' & EK & EM). rewrite EK in HH. apply override_query_holds in HH; [|exact N]. subst name'.
        assert (q' = q) by (eapply at_unique; eauto). subst q'.
        destruct (overrides_unique _ _ _ _ _ _ _ _ _ LR HO HO') as (E1 & E2 & E3); [right; rewrite EK; apply kv_same_refl|].
        pose proof (belongings_owner _ _ _ _ RO HI) as E. clear HL. destruct i as [i1 i2 i3 i4]. cbn in *. congruence.
      - intros ->. split; [exact HO|]. cbn. apply override_query_holds; auto. }
    destruct l as [|x l]; [exfalso; apply (proj2 (ALL _) eq_refl)|]. pose proof (proj1 (ALL x) (or_introl eq_refl)) as ->. destruct l as [|y l]; [reflexivity|].
    exfalso. apply NoDup_cons_iff in ND as [NI _]. apply NI. pose proof (proj1 (ALL y) (or_intror (or_introl eq_refl))) as ->. left. reflexivity. }
  subst l. cbn. reflexivity.
Qed.
Lemma count_of_counts s s' kv : l_counts s' = l_counts s -> count_of s' kv = count_of s kv.
Proof. unfold count_of. intros ->. reflexivity. Qed.
Lemma chan_counts s s' name kv c : l_counts s' = l_counts s -> chan_ok s name kv c -> chan_ok s' name kv c.
Proof. intros E []. constructor; auto. rewrite (count_of_counts s s'); auto. Qed.

(** ** Requests for queues *)
Section Queues.
  Variables (k : Z) (w : willow) (used : list string) (o : wop) (e : env).
  Hypothesis (I : winv k w used) (F : fresh used (drawn o e)) (LT : k + 1 < 2 ^ 63).
  Let used' := drawn o e ++ used.
  Lemma chans' : exists u, oreach (w_chans w) u /\ incl u used'.
  Proof. destruct (wi_chans k w used I) as (u & R & RU). exists u. split; [exact R|]. intros y Hy. apply incl_used. auto. Qed.
  Lemma lim' x s' a : lrun (w_lim w) x = (s', a) -> lop_arg x -> (forall id, lop_id x = Some id -> id = e_id e) -> lcost x = 0 -> exists u, sound (k + 1) s' u /\ incl u used'.
  Proof.
    intros E HA HI HC. destruct (wi_lim k w used I) as (u & SO & IU). destruct F as [_ F2]. destruct (F2 (e_id e) (or_introl eq_refl)) as [NU NE]. exists (with_id x u). split.
    - replace s' with (fst (lrun (w_lim w) x)) by (rewrite E; reflexivity). eapply sound_more; [apply (sound_run k)|]; auto; try lia. intros id Hid. rewrite (HI id Hid). auto.
    - unfold with_id. destruct (lop_id x) as [id|] eqn:EI; [|intros y Hy; apply incl_used; auto]. rewrite (HI id eq_refl). intros y [<- | Hy]; [left; reflexivity|apply incl_used; auto].
  Qed.
  Lemma queue_kv_facts name : kv_arg (queue_kv name) /\ kv_valid (queue_kv name) /\ ~ reserved (queue_kv name) /\ forall x, In x (kv_keys rule_kv) -> In x (kv_keys (queue_kv name)).
  Proof.
    destruct (queue_counter name) as (HA & HV & _). split; [exact HA|]. split; [exact HV|]. split; [|intros x Hx; exact Hx]. intros (v & [[=] | [[=] | []]]).
  Qed.
  Lemma create_queue_ok name m w1 b : int64 m -> -1 <= m -> CreateQueue w name (Some m) e = (w1, b) -> winv (k + 1) w1 used' /\ grows w w1.
  Proof.
    intros HM LM. unfold CreateQueue. destruct (String.eqb_spec name EmptyString) as [|NE]; [intros [= <- <-]; eapply stay; eauto|].
    destruct (busy w name) eqn:NB; [intros [= <- <-]; eapply stay; eauto|].
    pose proof (create_queue_spec (w_queues w) name (length (w_objs w)) (wi_tree k w used I)) as CQ. destruct (find_queue (w_queues w) name) as [p|] eqn:FQ.
    { destruct CQ as (r & ->). intros [= <- <-]; eapply stay; eauto. }
    destruct CQ as (t & -> & WS & PM). destruct (lrun (w_lim w) (LCreateOverride (w_rule w) (queue_kv name) (e_id e) m)) as [s a] eqn:EL.
    destruct (wi_lim k w used I) as (u & SO & IU). destruct F as [_ F2]. destruct (F2 (e_id e) (or_introl eq_refl)) as [NU NID]. pose proof (so_reach _ _ _ SO) as LR.
    destruct (queue_kv_facts name) as (HA & HV & NR & KEYS).
    pose proof (create_override (w_lim w) u (w_rule w) (queue_kv name) (e_id e) m LR HA (fun X => NU (IU _ X))) as CO. cbn [lrun] in EL. cbv zeta in CO. rewrite EL in CO. cbn [fst snd] in CO.
    destruct CO as (RU & CN & _ & _ & _ & _ & GO). specialize (GO (conj HV LM) rule_kv 0 (wi_rule k w used I) KEYS). destruct GO as (_ & _ & GO).
    destruct GO as [-> OV]; [exact NR| |].
    { intros (i & kv & m0 & HO & S). destruct (wi_over2 k w used I _ _ _ HO) as (name' & q & (p & FP & _) & -> & _). apply queue_kv_inj in S. subst name'. congruence. }
    intros [= <- <-].
    set (w' := set_queues (set_lim w s) t (w_objs w ++ [mkQueue name m])).
    assert (AT : forall n q, queue_at w' n q <-> queue_at w n q \/ n = name /\ q = mkQueue name m).
    { intros n q. unfold queue_at. cbn [w_queues w_objs w' set_queues]. split.
      - intros (p & FP & EP). apply find_queue_in in FP; [|exact WS]. apply (Permutation_in _ PM) in FP as [[= <- <-] | FP].
        + right. split; [reflexivity|]. rewrite nth_error_app2 in EP by lia. rewrite Nat.sub_diag in EP. cbn in EP. congruence.
        + left. exists p. split; [apply find_queue_in; [apply I|exact FP]|]. destruct (wi_objs k w used I _ _ FP) as (q0 & E0 & _). rewrite nth_error_app1 in EP; [exact EP|]. apply nth_error_Some. congruence.
      - intros [(p & FP & EP) | [-> ->]].
        + exists p. split.
          * apply find_queue_in in FP; [|apply I]. apply find_queue_in; [exact WS|]. apply (Permutation_in _ (Permutation_sym PM)). right. exact FP.
          * rewrite nth_error_app1; [exact EP|]. apply nth_error_Some. congruence.
        + exists (length (w_objs w)). split; [apply find_queue_in; [exact WS|]; apply (Permutation_in _ (Permutation_sym PM)); left; reflexivity|].
          rewrite nth_error_app2 by lia. rewrite Nat.sub_diag. reflexivity. }
    split; [|apply grows_less; reflexivity]. fold w'. constructor.
    - apply (lim' (LCreateOverride (w_rule w) (queue_kv name) (e_id e) m) s (LCreated (e_id e))); auto; [split; [exact HA|exact HM]|intros id [= <-]; reflexivity].
    - unfold w', has_rule. cbn [w_lim w_rule set_queues set_lim]. rewrite RU. apply I.
    - apply chans'.
    - exact WS.
    - intros x p HI. cbn [w_queues w_objs w' set_queues] in *. apply (Permutation_in _ PM) in HI as [[= <- <-] | HI].
      + exists (mkQueue name m). rewrite nth_error_app2 by lia. rewrite Nat.sub_diag. split; [reflexivity|]. split; [reflexivity|]. split; [exact NE|]. cbn. unfold int64 in HM. lia.
      + destruct (wi_objs k w used I _ _ HI) as (q0 & E0 & R0). exists q0. split; [|exact R0]. rewrite nth_error_app1; [exact E0|]. apply nth_error_Some. congruence.
    - intros n q A. cbn [w_lim w_rule w' set_queues set_lim]. apply AT in A as [A | [-> ->]].
      + destruct (wi_over1 k w used I n q A) as (oid & NO & HO). exists oid. split; [exact NO|]. apply OV. left. exact HO.
      + exists (e_id e). split; [exact NID|]. apply OV. right. auto.
    - intros oid kv m0. cbn [w_lim w_rule w' set_queues set_lim]. intros HO. apply OV in HO as [HO | (_ & _ & -> & ->)].
      + destruct (wi_over2 k w used I _ _ _ HO) as (n & q & A & E). exists n, q. split; [apply AT; auto|exact E].
      + exists name, (mkQueue name m). split; [apply AT; auto|auto].
    - intros n ch H. destruct (wi_chan k w used I n ch H) as [(q & A) C]. split; [exists q; apply AT; auto|]. eapply chan_counts; [exact CN|exact C].
    - apply (wi_old k w used I).
    - intros n H. destruct (wi_busy k w used I n H) as (q & A). exists q. apply AT. auto.
  Qed.
  Lemma nth_set_nth {X} (l : list X) : forall n m x, nth_error (set_nth n x l) m = if Nat.eqb n m then match nth_error l m with Some _ => Some x | None => None end else nth_error l m.
  Proof. induction l as [|y l IH]; intros [|n] [|m] x; try reflexivity; [cbn; destruct (Nat.eqb n m); reflexivity|exact (IH n m x)]. Qed.
  Lemma update_queue_ok name m w1 b : int64 m -> -1 <= m -> UpdateQueue w name m = (w1, b) -> winv (k + 1) w1 used' /\ grows w w1.
  Proof.
    intros HM LM. unfold UpdateQueue. destruct (busy w name) eqn:NB; [intros [= <- <-]; eapply stay; eauto|].
    destruct (find_queue (w_queues w) name) as [p|] eqn:FQ; [|intros [= <- <-]; eapply stay; eauto].
    destruct (find_at k w used name p I FQ) as (q & EQ & EN & NE & RG). assert (A : queue_at w name q) by (exists p; auto). cbv zeta.
    cbn [w_lim w_rule set_queues w_queues w_objs]. destruct (query_override k w used name q (Some 2) I A (or_intror eq_refl)) as (oid & -> & NO & HO).
    destruct (lrun (w_lim w) (LUpdateOverride (w_rule w) oid m)) as [s a] eqn:EL. destruct (wi_lim k w used I) as (u & SO & IU). pose proof (so_reach _ _ _ SO) as LR.
    pose proof (update_override (w_lim w) u (w_rule w) oid m LR) as UO. cbn [lrun] in EL. cbv zeta in UO. rewrite EL in UO. cbn [fst snd] in UO. destruct UO as (RU & CN & _ & _ & GO).
    destruct (GO LM _ _ HO) as [-> OV]. intros [= <- <-]. unfold set_limit. rewrite EQ.
    set (w' := set_lim (set_queues w (w_queues w) (set_nth p (mkQueue (q_name q) m) (w_objs w))) s).
    assert (AT : forall n q', queue_at w' n q' <-> n <> name /\ queue_at w n q' \/ n = name /\ q' = mkQueue name m).
    { intros n q'. unfold queue_at. cbn [w_queues w_objs w' set_queues set_lim]. split.
      - intros (p' & FP & EP). rewrite nth_set_nth in EP. destruct (Nat.eqb_spec p p') as [<- | NP].
        + rewrite EQ in EP. injection EP as <-. destruct (find_at k w used n p I FP) as (q0 & E0 & N0 & _). right. rewrite EQ in E0. injection E0 as <-. rewrite EN in *. auto.
        + left. split; [intros ->; rewrite FQ in FP; congruence|eauto].
      - intros [[NN (p' & FP & EP)] | [-> ->]].
        + exists p'. split; [exact FP|]. rewrite nth_set_nth. destruct (Nat.eqb_spec p p') as [<- | NP]; [|exact EP]. destruct (find_at k w used n p I FP) as (q0 & E0 & N0 & _). congruence.
        + exists p. split; [exact FQ|]. rewrite nth_set_nth, Nat.eqb_refl, EQ, EN. reflexivity. }
    split; [|apply grows_less; reflexivity]. fold w'. constructor.
    - apply (lim' (LUpdateOverride (w_rule w) oid m) s LDone); auto; discriminate.
    - unfold w', has_rule. cbn [w_lim w_rule set_queues set_lim]. rewrite RU. apply I.
    - apply chans'.
    - apply I.
    - intros x p' HI. cbn [w_queues w_objs w' set_queues set_lim] in *. destruct (wi_objs k w used I _ _ HI) as (q0 & E0 & R0). rewrite nth_set_nth. destruct (Nat.eqb_spec p p') as [<- | NP]; [|eauto].
      rewrite E0. rewrite EQ in E0. injection E0 as <-. eexists. split; [reflexivity|]. cbn. destruct R0 as (R1 & R2 & _). split; [exact R1|]. split; [exact R2|]. unfold int64 in HM. lia.
    - intros n q' H. cbn [w_lim w_rule w' set_queues set_lim]. apply AT in H as [[NN H] | [-> ->]].
      + destruct (wi_over1 k w used I n q' H) as (oid' & NO' & HO'). exists oid'. split; [exact NO'|]. apply OV. left. split; [|exact HO']. intros [_ ->].
        destruct (overrides_unique _ _ _ _ _ _ _ _ _ LR HO HO' (or_introl eq_refl)) as (_ & EK & _). apply NN. symmetry. apply queue_kv_inj. rewrite EK. apply kv_same_refl.
      + exists oid. split; [exact NO|]. apply OV. right. auto.
    - intros oid' kv m0. cbn [w_lim w_rule w' set_queues set_lim]. intros H. apply OV in H as [[NN H] | (_ & _ & -> & ->)].
      + destruct (wi_over2 k w used I _ _ _ H) as (n & q' & A' & EK & EM). exists n, q'. split; [|auto]. apply AT. left. split; [|exact A']. intros ->. apply NN. split; [reflexivity|].
        symmetry. apply (overrides_unique _ _ _ _ _ _ _ _ _ LR HO H). right. rewrite EK. apply kv_same_refl.
      + exists name, (mkQueue name m). split; [apply AT; auto|auto].
    - intros n ch H. destruct (wi_chan k w used I n ch H) as [(q' & A') C]. split; [|eapply chan_counts; [exact CN|exact C]].
      destruct (string_dec n name) as [-> | N]; [exists (mkQueue name m)|exists q']; apply AT; auto.
    - apply (wi_old k w used I).
    - intros n H. destruct (wi_busy k w used I n H) as (q' & A'). destruct (string_dec n name) as [-> | N]; [exists (mkQueue name m)|exists q']; apply AT; auto.
  Qed.
  Lemma delete_queue_ok name w1 b : DeleteQueue w name = (w1, b) -> winv (k + 1) w1 used' /\ grows w w1.
  Proof.
    unfold DeleteQueue. destruct (busy w name) eqn:NB; [intros [= <- <-]; eapply stay; eauto|]. destruct (find_queue (w_queues w) name) as [p|] eqn:FQ; [|intros [= <- <-]; eapply stay; eauto].
    intros [= <- <-]. destruct (stay k w used o e I) as [[] _]. split; [|apply grows_less; reflexivity]. constructor; auto. intros n [<- | H]; [|apply (wi_busy n H)].
    destruct (find_at k w used name p I FQ) as (q & EQ & _). exists q, p. auto.
  Qed.
  Lemma drop_queue_ok name w1 b : DropQueue w name = Some (w1, b) -> winv (k + 1) w1 used' /\ grows w w1.
  Proof.
    unfold DropQueue. destruct (busy w name) eqn:NB; [|discriminate].
    assert (EMP : match otm_get (w_chans w) name with Some t => match a_items t with [] => true | _ => false end | None => true end = true -> belongings (w_chans w) name = []).
    { unfold belongings. destruct (otm_get (w_chans w) name) as [t|]; [|auto]. destruct (a_items t); [auto|discriminate]. }
    destruct (match otm_get (w_chans w) name with Some t => match a_items t with [] => true | _ => false end | None => true end); [|discriminate]. specialize (EMP eq_refl). cbn [andb].
    apply busy_iff in NB. destruct (wi_busy k w used I name NB) as (q & A). assert (A0 := A). destruct A0 as (p & FQ & EQ). destruct (at_name k w used name q I A) as (EN & NE & RG). cbv zeta.
    cbn [w_lim w_rule set_chans w_queues w_objs]. destruct (query_override k w used name q None I A (or_introl eq_refl)) as (oid & -> & NO & HO).
    destruct (lrun (w_lim w) (LDeleteOverride (w_rule w) oid)) as [s a] eqn:EL. destruct (wi_lim k w used I) as (u & SO & IU). pose proof (so_reach _ _ _ SO) as LR.
    pose proof (delete_override (w_lim w) u (w_rule w) oid LR NO) as DO. cbn [lrun] in EL. cbv zeta in DO. rewrite EL in DO. cbn [fst snd] in DO. destruct DO as (RU & CN & OV & LD & _).
    replace a with LDone by (symmetry; apply LD; exists rule_kv, 0; apply I).
    destruct (delete_queue_spec (w_queues w) name p (wi_tree k w used I) FQ) as (t & x & -> & WS & PM). intros [= <- <-].
    destruct (wi_chans k w used I) as (uc & RC & IC).
    pose proof (OR_step (w_chans w) uc (SpecOneToMany.ODestroyOne name (fun _ => true)) RC Logic.I) as RC'. cbn [oop_id orun] in RC'. specialize (RC' ltac:(discriminate)).
    pose proof (fun n N => c25_isolated (w_chans w) uc (SpecOneToMany.ODestroyOne name (fun _ => true)) n RC N) as ISO. cbn [owner orun] in ISO.
    destruct (c25_destroy_one (w_chans w) uc name (fun _ => true) RC NE) as (_ & gone & rest & EB & _ & _ & RB). rewrite EMP in EB. symmetry in EB. apply app_eq_nil in EB as [-> ->].
    set (m' := fst (OtmDestroyOne (w_chans w) name (fun _ => true))) in *.
    assert (BE : forall n i, In i (belongings m' n) -> In i (belongings (w_chans w) n) /\ n <> name).
    { intros n i H. destruct (string_dec n name) as [-> | N]; [apply RB in H; destruct H|]. rewrite ISO in H by congruence. auto. }
    set (w' := not_busy (set_queues (set_lim (set_chans w m') s) t (w_objs w)) name).
    assert (AT : forall n q', queue_at w' n q' <-> n <> name /\ queue_at w n q').
    { intros n q'. unfold queue_at. cbn [w_queues w_objs w' not_busy set_busy set_queues set_lim set_chans]. split.
      - intros (p' & FP & EP). apply find_queue_in in FP; [|exact WS]. assert (FP0 : In (Str n, p') (tree_contents (w_queues w))) by (apply (Permutation_in _ (Permutation_sym PM)); right; exact FP).
        split; [|exists p'; split; [apply find_queue_in; [apply I|exact FP0]|exact EP]]. intros ->. pose proof (contents_nodup (w_queues w) (wi_tree k w used I)) as ND.
        apply (Permutation_NoDup (Permutation_map fst PM)) in ND. cbn [map fst] in ND. apply NoDup_cons_iff in ND as [NI _]. apply NI. apply (in_map fst) in FP. exact FP.
      - intros [NN (p' & FP & EP)]. exists p'. split; [|exact EP]. apply find_queue_in in FP; [|apply I]. apply find_queue_in; [exact WS|]. apply (Permutation_in _ PM) in FP as [[= <- _] | FP]; [congruence|exact FP]. }
    split.
    2: { apply grows_less. intros n. rewrite !stored_weight. cbn [w_chans w' not_busy set_busy set_queues set_lim set_chans]. apply sum_incl; [eapply index_nodup'; eauto|]. intros i Hi. apply (BE n i Hi). }
    fold w'. constructor.
    - apply (lim' (LDeleteOverride (w_rule w) oid) s a); auto; try discriminate. exact Logic.I.
    - unfold w', has_rule. cbn [w_lim w_rule not_busy set_busy set_queues set_lim set_chans]. rewrite RU. apply I.
    - exists uc. split; [exact RC'|]. intros y Hy. apply incl_used. auto.
    - exact WS.
    - intros x0 p' HI. cbn [w_queues w_objs w' not_busy set_busy set_queues set_lim set_chans] in *. apply (wi_objs k w used I). apply (Permutation_in _ (Permutation_sym PM)). right. exact HI.
    - intros n q' H. cbn [w_lim w_rule w' not_busy set_busy set_queues set_lim set_chans]. apply AT in H as [NN H].
      destruct (wi_over1 k w used I n q' H) as (oid' & NO' & HO'). exists oid'. split; [exact NO'|]. apply OV. split; [exact HO'|]. intros [_ ->].
      destruct (overrides_unique _ _ _ _ _ _ _ _ _ LR HO HO' (or_introl eq_refl)) as (_ & EK & _). apply NN. symmetry. apply queue_kv_inj. rewrite EK. apply kv_same_refl.
    - intros oid' kv m0. cbn [w_lim w_rule w' not_busy set_busy set_queues set_lim set_chans]. intros H. apply OV in H as [H NN].
      destruct (wi_over2 k w used I _ _ _ H) as (n & q' & A' & EK & EM). exists n, q'. split; [|auto]. apply AT. split; [|exact A']. intros ->. apply NN. split; [reflexivity|].
      symmetry. apply (overrides_unique _ _ _ _ _ _ _ _ _ LR HO H). right. rewrite EK. apply kv_same_refl.
    - intros n ch H. destruct (BE n ch H) as [H1 NN]. destruct (wi_chan k w used I n ch H1) as [(q' & A') C]. split; [exists q'; apply AT; auto|eapply chan_counts; [exact CN|exact C]].
    - apply (wi_old k w used I).
    - intros n H. cbn [w_busy w' not_busy set_busy set_queues set_lim set_chans] in H. apply filter_In in H as [H N]. destruct (wi_busy k w used I n H) as (q' & A'). exists q'. apply AT. split; [|exact A'].
      intros ->. rewrite String.eqb_refl in N. discriminate.
  Qed.
End Queues.

(** ** Other clients of the limiter *)
Lemma lim_frame k k' w used used' s' : winv k w used -> (exists u, sound k' s' u /\ incl u used') -> incl used used' ->
  has_rule s' (w_rule w) rule_kv 0 -> (forall oid kv m, has_override s' (w_rule w) oid kv m <-> has_override (w_lim w) (w_rule w) oid kv m) ->
  (forall kv, counter_kv kv -> marked kv -> count_of s' kv = count_of (w_lim w) kv) -> winv k' (set_lim w s') used'.
Proof.
  intros I SO IU HR HO HC. constructor; cbn [w_lim w_rule w_chans w_queues w_objs w_busy w_old set_lim]; auto; try apply I.
  - destruct (wi_chans k w used I) as (u & R & RU). exists u. split; [exact R|]. intros y Hy. auto.
  - intros name q A. destruct (wi_over1 k w used I name q A) as (oid & NO & H). exists oid. split; [exact NO|]. apply HO. exact H.
  - intros oid kv m H. apply HO in H. apply (wi_over2 k w used I oid kv m H).
  - intros name ch H. destruct (wi_chan k w used I name ch H) as [A []]. split; [exact A|]. constructor; auto. rewrite HC; auto; [apply enqueued_counter; assumption|apply marked_enqueued; assumption].
Qed.
Lemma count_of_has s s' u u' kv : linv s u -> linv s' u' -> counter_kv kv -> (forall m, has_count s' kv m <-> has_count s kv m) -> count_of s' kv = count_of s kv.
Proof.
  intros L L' C H. destruct (li_counts s u L) as (u0 & RU & _). destruct (li_counts s' u' L') as (u0' & RU' & _).
  destruct (held_ex (l_counts s) u0 kv RU C) as (o & HO). destruct (held_ex (l_counts s') u0' kv RU' C) as (o' & HO').
  rewrite (count_of_held s u kv o L C HO), (count_of_held s' u' kv o' L' C HO'). destruct o' as [[i1 i2 i3]|], o as [[j1 j2 j3]|]; cbn in *.
  - destruct HO as [H1 S1], HO' as [H2 S2]. destruct (proj1 (H i3)) as (a & b & HI & S); [exists i1, i2; auto|].
    destruct (areach_inv _ _ RU) as [AI _]. assert (E : Assoc.mkItem a b i3 = Assoc.mkItem j1 j2 j3) by (eapply item_unique; eauto). injection E as -> -> ->. reflexivity.
  - destruct HO' as [H2 S2]. destruct (proj1 (H i3)) as (a & b & HI & S); [exists i1, i2; auto|]. exfalso. apply HO. exists (Assoc.mkItem a b i3). auto.
  - destruct HO as [H1 S1]. destruct (proj2 (H j3)) as (a & b & HI & S); [exists j1, j2; auto|]. exfalso. apply HO'. exists (Assoc.mkItem a b j3). auto.
  - reflexivity.
Qed.
Lemma unmarked kv kv' : ~ In EnqueuedKey (kv_keys kv) -> marked kv' -> ~ kv_same kv' kv.
Proof.
  intros N M S. specialize (S EnqueuedKey). unfold marked in M. destruct (kv_get kv' EnqueuedKey) as [v|]; [|congruence].
  destruct (kv_get kv EnqueuedKey) as [v'|] eqn:E; [|exact S]. apply kv_get_In in E. apply N. apply (in_map fst) in E. exact E.
Qed.
Lemma other_rule_over s used rid x r : linv s used -> owner x = rid -> r <> rid -> forall oid kv m, has_override (with_over s (fst (orun (l_over s) x))) r oid kv m <-> has_override s r oid kv m.
Proof. intros L E N oid kv m. unfold has_override. cbn [with_over l_over]. apply (other_over s used rid x L E r _ N). Qed.
Lemma limiter_ok k w used x e s' a : winv k w used -> lop_arg x -> tame (w_rule w) (WLimiter x) -> fresh used (drawn (WLimiter x) e) -> k + lcost x < 2 ^ 63 ->
  lrun (w_lim w) x = (s', a) -> winv (k + lcost x) (set_lim w s') (drawn (WLimiter x) e ++ used) /\ grows w (set_lim w s').
Proof.
  intros I HA T F LT E. split; [|apply grows_less; reflexivity]. destruct (wi_lim k w used I) as (u & SO & IU). pose proof (so_reach _ _ _ SO) as LR. pose proof (lreach_inv _ _ LR) as L.
  assert (ID : forall id, lop_id x = Some id -> ~ In id u /\ id <> EmptyString).
  { intros id H. destruct F as [_ F]. destruct (F id) as [F1 F2]; [unfold drawn; rewrite H; right; right; left; reflexivity|]. split; [intros X; apply F1, IU; exact X|exact F2]. }
  pose proof (sound_run k (w_lim w) u x SO HA ID LT) as SO'. rewrite E in SO'. cbn [fst] in SO'. pose proof (lreach_inv _ _ (so_reach _ _ _ SO')) as L'. pose proof (lcost_pos x) as CP.
  assert (FIT : counts_fit (w_lim w)) by (eapply sound_fit; eauto; lia). pose proof (wi_rule k w used I) as HR.
  apply (lim_frame k _ w used); auto.
  { exists (with_id x u). split; [exact SO'|]. unfold with_id, drawn. intros y Hy. destruct (lop_id x) as [id|]; [|right; right; apply IU; exact Hy]. destruct Hy as [<- | Hy]; [right; right; left; reflexivity|right; right; right; apply IU; exact Hy]. }
  { apply incl_used. }
  all: destruct x as [kv id li|id li|id|rid kv id li|rid id li|rid id|kv n id locked|kv n id]; cbn [tame lop_arg lrun lop_id] in *.
  (* the rule *)
  - destruct HA as [HA _]. destruct (ID id eq_refl) as [NU _]. pose proof (create_rule (w_lim w) u kv id li LR HA NU) as X. cbv zeta in X. rewrite E in X. cbn [fst snd] in X. destruct X as (_ & _ & X1 & X2 & X3).
    assert (D : kv_valid kv /\ -1 <= li \/ ~ (kv_valid kv /\ -1 <= li)) by (destruct (definition_ok kv li) eqn:D; [left; apply definition_iff; exact D|right; intros Y; apply definition_iff in Y; congruence]).
    destruct D as [D | D]; [|destruct (X1 D) as [_ ->]; exact HR]. destruct (li_rules _ _ L) as (ur & RR & _). destruct (areach_inv _ _ RR) as [AI _].
    destruct (validate_rep kv HA (proj1 (kv_valid_iff kv) (proj1 D))) as [RP NE]. destruct (holds_dec (l_rules (w_lim w)) kv AI RP NE) as [([i1 i2 i3] & Hi & S) | NH].
    + apply (X2 D); [|exact HR]. exists i1, i2, i3. auto.
    + apply (X3 D); [|left; exact HR]. intros (i1 & i2 & i3 & Hi & S). apply NH. exists (Assoc.mkItem i1 i2 i3). auto.
  - pose proof (update_rule (w_lim w) u id li LR) as X. cbv zeta in X. rewrite E in X. cbn [fst snd] in X. destruct X as (_ & _ & X1 & X2 & X3). destruct T as [T _].
    destruct (Z_lt_ge_dec li (-1)) as [D | D]; [destruct (X1 D) as [_ ->]; exact HR|]. pose proof (rule_find (w_lim w) u id L) as FR. destruct (find_item (a_items (l_rules (w_lim w))) id) as [r|].
    + destruct FR as [_ FR]. apply (X3 ltac:(lia) _ _ FR). left. split; [congruence|exact HR].
    + destruct (X2 ltac:(lia)) as [_ ->]; [intros kv m H; eapply FR; eauto|exact HR].
  - destruct T as [T NE]. pose proof (delete_rule (w_lim w) u id LR NE) as X. cbv zeta in X. rewrite E in X. cbn [fst snd] in X. destruct X as (_ & X & _). apply X. split; [exact HR|congruence].
  - destruct HA as [HA _]. destruct (ID id eq_refl) as [NU _]. pose proof (create_override (w_lim w) u rid kv id li LR HA NU) as X. cbv zeta in X. rewrite E in X. cbn [fst snd] in X. unfold has_rule in *. destruct X as [-> _]. exact HR.
  - pose proof (update_override (w_lim w) u rid id li LR) as X. cbv zeta in X. rewrite E in X. cbn [fst snd] in X. unfold has_rule in *. destruct X as [-> _]. exact HR.
  - destruct T as [T NE]. pose proof (delete_override (w_lim w) u rid id LR NE) as X. cbv zeta in X. rewrite E in X. cbn [fst snd] in X. unfold has_rule in *. destruct X as [-> _]. exact HR.
  - assert (l_rules s' = l_rules (w_lim w)) as ER; [|unfold has_rule; rewrite ER; exact HR]. revert E. unfold UpsertCounters, IncrementCounters, DecrementCounters.
    repeat match goal with |- context [if ?b then _ else _] => destruct b | |- context [match ?x with _ => _ end] => destruct x end; intros [= <- _]; reflexivity.
  - assert (l_rules s' = l_rules (w_lim w)) as ER; [|unfold has_rule; rewrite ER; exact HR]. revert E. unfold SetCounters.
    repeat match goal with |- context [if ?b then _ else _] => destruct b | |- context [match ?x with _ => _ end] => destruct x end; intros [= <- _]; reflexivity.
  (* its overrides *)
  - intros oid kv' m. destruct HA as [HA _]. destruct (ID id eq_refl) as [NU _]. pose proof (create_rule (w_lim w) u kv id li LR HA NU) as X. cbv zeta in X. rewrite E in X. cbn [fst snd] in X. unfold has_override. destruct X as [-> _]. reflexivity.
  - intros oid kv' m. pose proof (update_rule (w_lim w) u id li LR) as X. cbv zeta in X. rewrite E in X. cbn [fst snd] in X. unfold has_override. destruct X as [-> _]. reflexivity.
  - intros oid kv' m. destruct T as [T NE]. pose proof (delete_rule (w_lim w) u id LR NE) as X. cbv zeta in X. rewrite E in X. cbn [fst snd] in X. destruct X as (_ & _ & X & _). rewrite X. split; [tauto|]. intros H. split; [exact H|congruence].
  - pose proof (other_rule_over (w_lim w) u rid (OCreateOrFind rid kv id (Some li)) (w_rule w) L eq_refl (fun X => T (eq_sym X))) as OO. cbn [orun] in OO. revert E. unfold CreateOverride.
    destruct (negb (definition_ok kv li)); [intros [= <- _]; reflexivity|]. destruct (find_rule (w_lim w) rid) as [[r|]|]; try (intros [= <- _]; reflexivity). destruct (forallb _ _); [|intros [= <- _]; reflexivity].
    destruct (OtmCreateOrFind (l_over (w_lim w)) rid kv id (Some li)) as [m r']. intros [= <- _]. exact OO.
  - intros oid kv' m. revert E. unfold UpdateOverride. destruct (li <? -1); [intros [= <- _]; reflexivity|]. destruct (find_rule (w_lim w) rid) as [[r|]|]; try (intros [= <- _]; reflexivity).
    destruct (find_override (w_lim w) rid id) as [[i|]|]; try (intros [= <- _]; reflexivity). intros [= <- _].
    apply (other_rule_over (w_lim w) u rid (OUpdate rid (m_id i) (fun _ => li)) (w_rule w) L eq_refl (fun X => T (eq_sym X))).
  - intros oid kv' m. destruct T as [T NE]. pose proof (delete_override (w_lim w) u rid id LR NE) as X. cbv zeta in X. rewrite E in X. cbn [fst snd] in X. destruct X as (_ & _ & X & _). rewrite X. split; [tauto|]. intros H. split; [exact H|]. intros [X1 _]. congruence.
  - assert (l_over s' = l_over (w_lim w)) as ER; [|intros; unfold has_override; rewrite ER; reflexivity]. revert E. unfold UpsertCounters, IncrementCounters, DecrementCounters.
    repeat match goal with |- context [if ?b then _ else _] => destruct b | |- context [match ?x with _ => _ end] => destruct x end; intros [= <- _]; reflexivity.
  - assert (l_over s' = l_over (w_lim w)) as ER; [|intros; unfold has_override; rewrite ER; reflexivity]. revert E. unfold SetCounters.
    repeat match goal with |- context [if ?b then _ else _] => destruct b | |- context [match ?x with _ => _ end] => destruct x end; intros [= <- _]; reflexivity.
  (* the counters *)
  - intros kv' C M. apply count_of_counts. destruct HA as [HA _]. destruct (ID id eq_refl) as [NU _]. pose proof (create_rule (w_lim w) u kv id li LR HA NU) as X. cbv zeta in X. rewrite E in X. apply X.
  - intros kv' C M. apply count_of_counts. pose proof (update_rule (w_lim w) u id li LR) as X. cbv zeta in X. rewrite E in X. apply X.
  - intros kv' C M. apply count_of_counts. destruct T as [T NE]. pose proof (delete_rule (w_lim w) u id LR NE) as X. cbv zeta in X. rewrite E in X. apply X.
  - intros kv' C M. apply count_of_counts. destruct HA as [HA _]. destruct (ID id eq_refl) as [NU _]. pose proof (create_override (w_lim w) u rid kv id li LR HA NU) as X. cbv zeta in X. rewrite E in X. apply X.
  - intros kv' C M. apply count_of_counts. pose proof (update_override (w_lim w) u rid id li LR) as X. cbv zeta in X. rewrite E in X. apply X.
  - intros kv' C M. apply count_of_counts. destruct T as [T NE]. pose proof (delete_override (w_lim w) u rid id LR NE) as X. cbv zeta in X. rewrite E in X. apply X.
  - intros kv' C M. pose proof (unmarked kv kv' T M) as N. destruct HA as [HA _]. destruct (ID id eq_refl) as [NU NE]. apply (count_of_has _ _ u _ _ L L' C). intros m.
    destruct (kv_validate kv MinDataType MaxWithoutAnyDataType) eqn:V; [|unfold UpsertCounters in E; rewrite V in E; injection E as <- _; reflexivity]. apply (counter_kv_iff kv HA) in V.
    destruct (Z_lt_ge_dec 0 n) as [P | P].
    + pose proof (c33_increment (w_lim w) u kv n id locked LR FIT V P NU NE) as X. cbv zeta in X. rewrite E in X. cbn [fst snd] in X. destruct X as (_ & _ & X1 & X2).
      assert (DA : a = LDone \/ a <> LDone) by (destruct a; auto; right; discriminate). destruct DA as [-> | DA]; [|rewrite (X1 DA); reflexivity]. destruct (X2 eq_refl) as (_ & _ & X). rewrite X. tauto.
    + pose proof (c34_decrement (w_lim w) u kv n id locked LR V ltac:(lia)) as X. cbv zeta in X. rewrite E in X. cbn [fst snd] in X. destruct X as (_ & _ & _ & X). rewrite X. tauto.
  - intros kv' C M. pose proof (unmarked kv kv' T M) as N. destruct HA as [HA _]. destruct (ID id eq_refl) as [NU NE]. apply (count_of_has _ _ u _ _ L L' C). intros m.
    destruct (kv_validate kv MinDataType MaxWithoutAnyDataType) eqn:V; [|unfold SetCounters in E; rewrite V in E; injection E as <- _; reflexivity]. apply (counter_kv_iff kv HA) in V.
    pose proof (c34_set (w_lim w) u kv n id LR V NU NE) as X. cbv zeta in X. rewrite E in X. cbn [fst snd] in X. destruct X as (_ & _ & _ & X). rewrite X. tauto.
Qed.

(** ** Histories *)
Lemma cost_limiter x : cost (WLimiter x) = lcost x.
Proof. destruct x; reflexivity. Qed.
Lemma step_result k w used o e w' a : winv k w used -> good_step w used o e w' a -> k + cost o < 2 ^ 63 -> winv (k + cost o) w' (drawn o e ++ used) /\ grows w w'.
Proof.
  intros I (HA & T & F & H) LT. unfold wstep in H. destruct (w_up w); cbn [negb] in H; [|discriminate].
  destruct o as [name max|name m|name|name|name kv p i|name kv i passed|name kv i|name kv|name kv|name cid x|name cid|n x|x]; cbn [cost wop_arg tame] in *; try injection H as H.
  - destruct T as (m & -> & LM). eapply create_queue_ok; eauto.
  - eapply update_queue_ok; eauto.
  - eapply delete_queue_ok; eauto.
  - eapply drop_queue_ok; eauto.
  - eapply enqueue_ok; eauto.
  - eapply (item_ok k w used (WAck name kv i passed) e I F LT name kv); [exact HA| |exact H]. exists i. destruct passed; auto.
  - eapply (item_ok k w used (WBeat name kv i) e I F LT name kv); [exact HA| |exact H]. exists i. auto.
  - eapply delete_channel_ok; eauto.
  - eapply expire_ok; eauto.
  - eapply tick_ok; eauto.
  - eapply close_for_ok; eauto.
  - eapply old_step; eauto.
  - destruct (lrun (w_lim w) x) as [s' b] eqn:E. injection H as <- <-. fold (cost (WLimiter x)) in *. rewrite cost_limiter in *. eapply limiter_ok; eauto.
Qed.
Lemma start_ok k s used id w : lreach s used -> (forall i, In i (a_items (l_counts s)) -> 0 < it_val i) -> sum_of (a_items (l_counts s)) <= k -> k < 2 ^ 63 ->
  fresh used [id] -> start s id = Some w -> winv k w (id :: used) /\ (forall name, stored_in w name = O).
Proof.
  intros LR POS SUM LT F. assert (SO : sound k s used) by (apply sound_iff; auto). destruct F as [_ F]. destruct (F id (or_introl eq_refl)) as [NU NE]. unfold start.
  destruct (lrun s (LCreateRule rule_kv id 0)) as [s' a] eqn:E. destruct a; try discriminate. intros [= <-].
  assert (HA : kv_arg rule_kv). { split; [repeat constructor; cbn; intuition discriminate|]. intros x v [[= <- <-] | [[= <- <-] | []]]; intros [X | X]; discriminate. }
  assert (SO' : sound k s' (id :: used)).
  { replace s' with (fst (lrun s (LCreateRule rule_kv id 0))) by (rewrite E; reflexivity). replace k with (k + lcost (LCreateRule rule_kv id 0)) by (cbn; lia). apply (sound_run k s used); auto; [split; [exact HA|unfold int64; lia]|intros i [= <-]; auto|cbn; lia]. }
  pose proof (create_rule s used rule_kv id 0 LR HA NU) as X. cbv zeta in X. cbn [lrun] in E. rewrite E in X. cbn [fst snd] in X. destruct X as (OV & CN & X1 & X2 & X3).
  assert (D : kv_valid rule_kv /\ -1 <= 0) by (split; [apply kv_valid_iff; reflexivity|lia]).
  destruct (li_rules _ _ (lreach_inv _ _ LR)) as (ur & RR & IR). destruct (areach_inv _ _ RR) as [AI IDS].
  destruct (validate_rep rule_kv HA eq_refl) as [RP NEK]. destruct (holds_dec (l_rules s) rule_kv AI RP NEK) as [([i1 i2 i3] & Hi & S) | NH].
  { destruct X2 as [C _]; auto; [exists i1, i2, i3; auto|discriminate]. }
  destruct X3 as [EI HR]; auto; [intros (i1 & i2 & i3 & Hi & S); apply NH; exists (Assoc.mkItem i1 i2 i3); auto|]. injection EI as ->.
  assert (NO : forall oid kv m, ~ has_override s' id oid kv m).
  { intros oid kv m H. unfold has_override in H. rewrite OV in H. destruct (consistent s used id oid kv m LR H) as (rk & rn & HR0 & _). apply NU.
    apply IR. apply (IDS _ HR0). }
  split; [|intros name; reflexivity]. constructor; cbn [w_lim w_rule w_queues w_objs w_busy w_chans w_old].
  - exists (id :: used). split; [exact SO'|apply incl_refl].
  - apply HR. auto.
  - exists []. split; [constructor|intros ? []].
  - exact Logic.I.
  - intros ? ? [].
  - intros name q (p & FP & _). discriminate.
  - intros oid kv m H. exfalso. eapply NO; eauto.
  - intros name ch [].
  - intros ? ? ? [].
  - intros ? [].
Qed.
Lemma wreach_inv k w used : wreach k w used -> k < 2 ^ 63 -> winv k w used.
Proof.
  induction 1 as [k s used id w LR POS SUM F S|k w used o e w' a H IH G]; intros LT.
  - eapply start_ok; eauto.
  - assert (0 <= cost o) by (destruct o as [| | | | | | | | | | | |[]]; cbn; lia). eapply step_result; eauto. apply IH. lia.
Qed.
