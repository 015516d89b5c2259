(** Which limits an increment checks, and the sums it checks them against. *)
From Coq Require Import Permutation SpecFloat.
From Verif Require Import Datatypes SpecValues DatatypesProofs PropLemmasValues Collections SpecCollections CollectionsProofs Query SpecQuery QueryProofs
  Assoc SpecAssoc AssocMaps AssocProofs AssocQueryProofs AssocOps AssocMatchProofs PropLemmasAssoc OneToMany SpecOneToMany OneToManyProofs
  Limiter SpecLimiter LimiterProofs LimiterCounts.
Local Open Scope Z_scope.

(** ** Prefixes *)
Fixpoint upto {A} (stop : A -> bool) (l : list A) : list A :=
  match l with [] => [] | x :: r => x :: if stop x then [] else upto stop r end.
Lemma upto_incl {A} (stop : A -> bool) l x : In x (upto stop l) -> In x l.
Proof. induction l as [|y r IH]; [auto|]. cbn. destruct (stop y); cbn; intuition. Qed.
Lemma upto_nil {A} (stop : A -> bool) l : upto stop l = [] -> l = [].
Proof. destruct l; [auto|discriminate]. Qed.
(** either nothing stops and the prefix is everything, or its last element is the only one that stops *)
Lemma upto_cases {A} (stop : A -> bool) l :
  (upto stop l = l /\ forall x, In x l -> stop x = false) \/
  (exists p x, upto stop l = p ++ [x] /\ In x l /\ stop x = true /\ forall y, In y p -> In y l /\ stop y = false).
Proof.
  induction l as [|y r IH]; [left; split; [reflexivity|intros x []]|]. cbn. destruct (stop y) eqn:E.
  - right. exists [], y. split; [reflexivity|]. split; [auto|]. split; [exact E|]. intros z [].
  - destruct IH as [[IH1 IH2] | (p & x & IH1 & IH2 & IH3 & IH4)].
    + left. rewrite IH1. split; [reflexivity|]. intros x [<- | H]; auto.
    + right. exists (y :: p), x. rewrite IH1. split; [reflexivity|]. split; [auto|]. split; [exact IH3|]. intros z [<- | H]; [auto|]. destruct (IH4 z H); auto.
Qed.
Lemma offer_upto {A B} (f : many A -> B) stop (l : list (many A)) acc :
  offer (fun acc i => (acc ++ [f i], negb (stop i))) acc l = acc ++ map f (upto stop l).
Proof.
  revert acc. induction l as [|x r IH]; intros acc; [cbn; rewrite app_nil_r; reflexivity|]. cbn. destruct (stop x); cbn; [reflexivity|].
  rewrite IH, <- app_assoc. reflexivity.
Qed.
Lemma iterate_upto {B} (f : item Z -> B) stop (cb : option (list B) -> item Z -> option (list B) * bool) (l : list (item Z)) :
  (forall acc i, In i l -> cb (Some acc) i = (Some (acc ++ [f i]), negb (stop i))) ->
  forall acc, iterate cb (Some acc) l = Some (acc ++ map f (upto stop l)).
Proof.
  induction l as [|x r IH]; intros H acc; [cbn; rewrite app_nil_r; reflexivity|]. cbn. rewrite H by (left; reflexivity). destruct (stop x); cbn; [reflexivity|].
  rewrite IH by (intros; apply H; right; assumption). rewrite <- app_assoc. reflexivity.
Qed.

(** ** The overrides found for a rule *)
Definition ov (i : many Z) : override := mkOverride (m_id i) (m_kv i) (m_val i).
Definition zero_ov (i : many Z) : bool := m_val i =? 0.
Lemma many_rep s used o i : linv s used -> In i (belongings (l_over s) o) -> kv_rep (m_kv i) /\ m_kv i <> [].
Proof.
  intros L HI. destruct (li_over s used L) as (w & RW & _). destruct (string_dec o EmptyString) as [-> | NE].
  { destruct (li_owner s used L _ _ HI) as (r & HR & E & _). destruct (li_rules s used L) as (u & RU & _). destruct (areach_inv _ u RU) as [_ U]. destruct (U r HR). contradiction. }
  destruct (tree_of_ok (l_over s) w o RW NE) as [(_ & (u & RU & _) & LB) EB]. destruct (areach_inv _ u RU) as [AI _].
  rewrite EB in HI. apply in_map_iff in HI as (it0 & <- & H0). destruct (LB it0 H0) as (_ & _ & ->). apply (item_rep _ _ AI H0).
Qed.
Lemma rule_rep s used r : linv s used -> In r (a_items (l_rules s)) -> kv_rep (it_kv r) /\ it_kv r <> [] /\ it_id r <> EmptyString.
Proof.
  intros L HR. destruct (li_rules s used L) as (u & RU & _). destruct (areach_inv _ u RU) as [AI U]. destruct (item_rep _ _ AI HR) as [H1 H2]. destruct (U r HR). auto.
Qed.
Lemma overrides_found s used rid kv : linv s used -> counter_kv kv -> rid <> EmptyString ->
  exists l, (forall i, In i l <-> In i (belongings (l_over s) rid) /\ covers (m_kv i) kv) /\
    FindOverrideLimits s rid kv = Some (map ov (upto zero_ov l)).
Proof.
  intros L C NE. destruct (li_over s used L) as (w & RW & _). destruct (counter_rep kv C) as [RP NK]. destruct (any_match_ok kv RP NK) as (V & MA & NC).
  destruct (c25_match (l_over s) w rid (AnyMatchQuery kv) RW NE V MA NC) as (l & _ & HL & HC). exists l. split.
  - intros i. rewrite HL. split; intros [H1 H2]; (split; [exact H1|]); apply any_match_covers; auto; apply (many_rep s used rid i L H1).
  - unfold FindOverrideLimits. rewrite HC.
    transitivity (Some ([] ++ map ov (upto zero_ov l))); [f_equal; exact (offer_upto ov zero_ov l [])|reflexivity].
Qed.
Lemma last_limit_snoc p x : last_limit (p ++ [x]) = o_limit x.
Proof. unfold last_limit. rewrite rev_app_distr. reflexivity. Qed.

(** ** The rules found *)
(** what is known of the answer for one rule *)
Definition rule_found (s : limiter) (kv : KeyValues) (i : item Z) (r : found_rule) : Prop :=
  f_id r = it_id i /\ f_kv r = it_kv i /\ f_limit r = it_val i /\
  (f_over r = [] -> forall j, In j (belongings (l_over s) (it_id i)) -> ~ covers (m_kv j) kv) /\
  (forall o, In o (f_over r) -> exists j, In j (belongings (l_over s) (it_id i)) /\ covers (m_kv j) kv /\ o = ov j) /\
  (last_limit (f_over r) <> 0 -> forall j, In j (belongings (l_over s) (it_id i)) -> covers (m_kv j) kv -> In (ov j) (f_over r)).
Definition stops (r : found_rule) : bool :=
  match f_over r with [] => f_limit r =? 0 | os => (f_limit r =? 0) && (last_limit os =? 0) end.
Lemma step_found s used kv i acc : linv s used -> counter_kv kv -> In i (a_items (l_rules s)) ->
  exists r, rule_found s kv i r /\ find_step s kv (Some acc) i = (Some (acc ++ [r]), negb (stops r)).
Proof.
  intros L C HI. destruct (rule_rep s used i L HI) as (_ & _ & NE). destruct (overrides_found s used (it_id i) kv L C NE) as (l & HL & HF).
  exists (mkFound (it_id i) (it_kv i) (it_val i) (map ov (upto zero_ov l))). split.
  - split; [reflexivity|]. split; [reflexivity|]. split; [reflexivity|]. cbn [f_over]. split; [|split].
    + intros E j Hj HC. apply map_eq_nil in E. apply upto_nil in E. subst l. apply (HL j). auto.
    + intros o Ho. apply in_map_iff in Ho as (j & <- & Hj). apply upto_incl in Hj. apply HL in Hj as [H1 H2]. eauto.
    + intros N j Hj HC. apply in_map. destruct (upto_cases zero_ov l) as [[E _] | (p & x & E & _ & EZ & _)]; [rewrite E; apply HL; auto|].
      exfalso. apply N. rewrite E, map_app. cbn [map]. rewrite last_limit_snoc. apply Z.eqb_eq. exact EZ.
  - unfold find_step. rewrite HF. unfold stops. cbn [f_over f_limit]. destruct (map ov (upto zero_ov l)); reflexivity.
Qed.
(** choose the answers of all rules of a list *)
Lemma found_fun s used kv l : linv s used -> counter_kv kv -> (forall i, In i l -> In i (a_items (l_rules s))) ->
  forall acc, exists rs, Forall2 (rule_found s kv) (firstn (length rs) l) rs /\ iterate (find_step s kv) (Some acc) l = Some (acc ++ rs) /\
    ((length rs = length l /\ forall r, In r rs -> stops r = false) \/
     exists p r, rs = p ++ [r] /\ stops r = true /\ forall r', In r' p -> stops r' = false).
Proof.
  intros L C. induction l as [|i l IH]; intros H acc.
  - exists []. cbn. rewrite app_nil_r. split; [constructor|]. split; [reflexivity|]. left. split; [reflexivity|intros r []].
  - destruct (step_found s used kv i acc L C (H i (or_introl eq_refl))) as (r & HR & HS). cbn [iterate]. rewrite HS. destruct (stops r) eqn:ES; cbn [negb].
    + exists [r]. cbn. split; [constructor; [exact HR|constructor]|]. split; [reflexivity|]. right. exists [], r. split; [reflexivity|]. split; [exact ES|intros r' []].
    + destruct (IH (fun j Hj => H j (or_intror Hj)) (acc ++ [r])) as (rs & F & E & K). exists (r :: rs). cbn [length firstn]. split; [constructor; assumption|].
      split; [rewrite E, <- app_assoc; reflexivity|]. destruct K as [[K1 K2] | (p & r' & -> & K2 & K3)].
      * left. split; [cbn; congruence|]. intros x [<- | Hx]; auto.
      * right. exists (r :: p), r'. split; [reflexivity|]. split; [exact K2|]. intros x [<- | Hx]; auto.
Qed.
Lemma limits_found s used kv : linv s used -> counter_kv kv ->
  exists l rs, (forall i, In i l <-> In i (a_items (l_rules s)) /\ covers (it_kv i) kv) /\ FindLimits s kv = Some rs /\
    Forall2 (rule_found s kv) (firstn (length rs) l) rs /\
    ((length rs = length l /\ forall r, In r rs -> stops r = false) \/
     exists p r, rs = p ++ [r] /\ stops r = true /\ forall r', In r' p -> stops r' = false).
Proof.
  intros L C. destruct (li_rules s used L) as (u & RU & _). destruct (counter_rep kv C) as [RP NK]. destruct (any_match_ok kv RP NK) as (V & MA & NC).
  destruct (c24_match (l_rules s) u (AnyMatchQuery kv) RU V MA NC) as (l & _ & HL & HC).
  assert (HL' : forall i, In i l <-> In i (a_items (l_rules s)) /\ covers (it_kv i) kv).
  { intros i. rewrite HL. split; intros [H1 H2]; (split; [exact H1|]); apply any_match_covers; auto; apply (rule_rep s used i L H1). }
  destruct (found_fun s used kv l L C (fun i Hi => proj1 (proj1 (HL' i) Hi)) []) as (rs & F & E & K).
  exists l, rs. split; [exact HL'|]. split; [unfold FindLimits; rewrite HC, E; reflexivity|]. auto.
Qed.

(** the limits of a found rule govern; all that govern are there unless a zero was met *)
Lemma found_governs s used kv i r keys limit : linv s used -> In i (a_items (l_rules s)) -> covers (it_kv i) kv -> rule_found s kv i r -> In (keys, limit) (limits_of r) ->
  exists g, governs s kv g limit /\ keys = kv_keys g.
Proof.
  intros L HI HC (F1 & F2 & F3 & F4 & F5 & F6) HL. unfold limits_of in HL. destruct (f_over r) as [|o os] eqn:EO.
  - destruct HL as [[= <- <-] | []]. exists (it_kv i). split; [|congruence]. exists (it_id i), (it_kv i), (it_val i).
    split; [unfold has_rule; destruct i; exact HI|]. split; [exact HC|]. right. split; [reflexivity|]. split; [congruence|].
    intros oid okv ol HO. apply (F4 eq_refl _ HO).
  - apply in_map_iff in HL as (o' & [= <- <-] & Ho). destruct (F5 o' Ho) as (j & HJ & HCJ & ->). exists (m_kv j). split; [|reflexivity].
    exists (it_id i), (it_kv i), (it_val i). split; [unfold has_rule; destruct i; exact HI|]. split; [exact HC|]. left. exists (m_id j). cbn [o_limit ov]. split; [|exact HCJ].
    unfold has_override. destruct j as [a b c d]. cbn in *. replace b with (it_id i) in HJ; [exact HJ|].
    destruct (li_over s used L) as (w & RW & _). symmetry. exact (belongings_owner (l_over s) w _ _ RW HJ).
Qed.

Lemma last_limit_zero os : os <> [] -> last_limit os = 0 -> exists o, In o os /\ o_limit o = 0.
Proof.
  intros N E. destruct (exists_last N) as (p & x & ->). rewrite last_limit_snoc in E. exists x. split; [apply in_or_app; right; left; reflexivity|exact E].
Qed.
Lemma last_zero_limit r : (match f_over r with [] => f_limit r =? 0 | os => last_limit os =? 0 end) = true -> exists keys, In (keys, 0) (limits_of r).
Proof.
  unfold limits_of. destruct (f_over r) as [|o os]; intros E; apply Z.eqb_eq in E.
  - rewrite E. eexists. left. reflexivity.
  - destruct (last_limit_zero (o :: os)) as (x & H1 & H2); [discriminate|exact E|]. exists (kv_keys (o_kv x)). apply in_map_iff. exists x. rewrite H2. auto.
Qed.
Lemma last_is_zero_spec rs : last_is_zero rs = true -> exists keys, In (keys, 0) (flat_map limits_of rs).
Proof.
  unfold last_is_zero. destruct (rev rs) as [|r q] eqn:E; [discriminate|]. intros H. apply last_zero_limit in H as (keys & H). exists keys. apply in_flat_map. exists r.
  split; [|exact H]. apply in_rev. rewrite E. left. reflexivity.
Qed.
Lemma last_snoc p r : last_is_zero (p ++ [r]) = match f_over r with [] => f_limit r =? 0 | os => last_limit os =? 0 end.
Proof. unfold last_is_zero. rewrite rev_app_distr. reflexivity. Qed.
Lemma stops_zero r : stops r = true -> (match f_over r with [] => f_limit r =? 0 | os => last_limit os =? 0 end) = true.
Proof. unfold stops. destruct (f_over r); [auto|]. intros H. apply andb_true_iff in H. apply H. Qed.
Lemma forall2_in_r {A B} (P : A -> B -> Prop) la lb b : Forall2 P la lb -> In b lb -> exists a, In a la /\ P a b.
Proof. induction 1 as [|x y la lb H F IH]; [intros []|]. intros [<- | Hb]; [exists x; cbn; auto|]. destruct (IH Hb) as (a & H1 & H2). exists a. cbn; auto. Qed.
Lemma forall2_in_l {A B} (P : A -> B -> Prop) la lb a : Forall2 P la lb -> In a la -> exists b, In b lb /\ P a b.
Proof. induction 1 as [|x y la lb H F IH]; [intros []|]. intros [<- | Ha]; [exists y; cbn; auto|]. destruct (IH Ha) as (b & H1 & H2). exists b. cbn; auto. Qed.
Lemma firstn_in {A} n (l : list A) x : In x (firstn n l) -> In x l.
Proof. intros H. rewrite <- (firstn_skipn n l). apply in_or_app; auto. Qed.

(** the limits that an increment of [kv] checks *)
Lemma limits_complete s used kv : linv s used -> counter_kv kv ->
  exists rs, FindLimits s kv = Some rs /\
    (forall keys limit, In (keys, limit) (flat_map limits_of rs) -> exists g, governs s kv g limit /\ keys = kv_keys g) /\
    (last_is_zero rs = false -> forall g limit, governs s kv g limit -> In (kv_keys g, limit) (flat_map limits_of rs) \/ exists keys, In (keys, 0) (flat_map limits_of rs)).
Proof.
  intros L C. destruct (limits_found s used kv L C) as (l & rs & HL & E & F & K). exists rs. split; [exact E|]. split.
  - intros keys limit HI. apply in_flat_map in HI as (r & HR & HI). destruct (forall2_in_r _ _ _ _ F HR) as (i & Hi & RF). apply firstn_in in Hi. apply HL in Hi as [H1 H2].
    eapply found_governs; eauto.
  - intros NZ g limit (rid & rkv & rlimit & HR & HC & HG). destruct K as [[K1 _] | (p & r & -> & K2 & _)]; [|rewrite last_snoc in NZ; apply stops_zero in K2; congruence].
    rewrite K1, firstn_all in F. destruct (forall2_in_l _ _ _ (mkItem rid rkv rlimit) F) as (r & Hr & F1 & F2 & F3 & F4 & F5 & F6); [apply HL; split; assumption|].
    cbn [it_id it_kv it_val] in *.
    destruct (f_over r) as [|o os] eqn:EO.
    + left. apply in_flat_map. exists r. split; [exact Hr|]. unfold limits_of. rewrite EO. left. destruct HG as [(oid & HO & HCO) | (-> & -> & _)]; [|congruence].
      exfalso. exact (F4 eq_refl _ HO HCO).
    + destruct (Z.eq_dec (last_limit (o :: os)) 0) as [EZ | NEZ].
      * right. destruct (last_zero_limit r) as (keys & H); [rewrite EO; apply Z.eqb_eq; exact EZ|]. exists keys. apply in_flat_map. eauto.
      * left. apply in_flat_map. exists r. split; [exact Hr|]. unfold limits_of. rewrite EO. destruct HG as [(oid & HO & HCO) | (_ & _ & HN)].
        { specialize (F6 NEZ _ HO HCO). apply (in_map (fun o => (kv_keys (o_kv o), o_limit o))) in F6. exact F6. }
        exfalso. destruct (F5 o (or_introl eq_refl)) as (j & HJ & HCJ & _). destruct (li_over s used L) as (w & RW & _). pose proof (belongings_owner _ w _ _ RW HJ) as EO1.
        destruct j as [a b c d]. cbn in *. subst b. exact (HN _ _ _ HJ HCJ).
Qed.
