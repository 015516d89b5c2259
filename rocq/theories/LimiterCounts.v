(** Proofs about the limiter's counters and histories. *)
From Coq Require Import Permutation SpecFloat.
From Verif Require Import Datatypes SpecValues DatatypesProofs PropLemmasValues Collections SpecCollections CollectionsProofs Query SpecQuery QueryProofs
  Assoc SpecAssoc AssocMaps AssocProofs AssocQueryProofs AssocOps AssocMatchProofs PropLemmasAssoc OneToMany SpecOneToMany OneToManyProofs
  Limiter SpecLimiter LimiterProofs.
Local Open Scope Z_scope.

Lemma i64_wraps z m : wraps z m <-> m = i64 z.
Proof.
  unfold wraps. split.
  - intros [I (k & ->)]. unfold i64. rewrite <- (i64_id (z + k * 2 ^ 64) I) at 1. unfold i64.
    replace (z + k * 2 ^ 64 + 2 ^ 63) with (z + 2 ^ 63 + k * 2 ^ 64) by lia. rewrite Z_mod_plus_full. reflexivity.
  - intros ->. split; [apply i64_range|]. unfold i64. exists (- ((z + 2 ^ 63) / 2 ^ 64)).
    pose proof (Z_div_mod_eq_full (z + 2 ^ 63) (2 ^ 64)). lia.
Qed.

(** ** One counter changes *)
Definition opt {A} (o : option A) : list A := match o with Some x => [x] | None => [] end.
Record counter_step (t t' : atree Z) (kv : KeyValues) (old new : option (item Z)) : Prop := {
  cs_rest : exists rest, Permutation (a_items t) (opt old ++ rest) /\ Permutation (a_items t') (opt new ++ rest) /\
              forall i, In i rest -> ~ kv_same (it_kv i) kv;
  cs_old : forall i, old = Some i -> kv_same (it_kv i) kv;
  cs_new : forall i, new = Some i -> kv_same (it_kv i) kv
}.
Lemma nodup_items {A} (t : atree A) u : areach t u -> NoDup (a_items t).
Proof. intros R. destruct (areach_inv t u R) as [AI _]. eapply NoDup_map_inv. apply ainv_nodup; eauto. Qed.

Definition valof (o : option (item Z)) : option Z := option_map it_val o.
(** what a tree holds for [kv] *)
Definition held (t : atree Z) (kv : KeyValues) (o : option (item Z)) : Prop :=
  match o with Some i => In i (a_items t) /\ kv_same (it_kv i) kv | None => ~ holds_kv t kv end.
Lemma held_ex t u kv : areach t u -> counter_kv kv -> exists o, held t kv o.
Proof.
  intros R C. destruct (areach_inv t u R) as [AI _]. destruct (counter_rep kv C) as [RP NE].
  destruct (holds_dec t kv AI RP NE) as [(i & H) | H]; [exists (Some i)|exists None]; exact H.
Qed.
Lemma step_of t u t' u' kv old new : areach t u -> areach t' u' -> held t kv old -> 
  (forall i, new = Some i -> kv_same (it_kv i) kv) ->
  (forall i, In i (a_items t') <-> (In i (a_items t) /\ ~ kv_same (it_kv i) kv) \/ new = Some i) ->
  counter_step t t' kv old new.
Proof.
  intros R R' H HN HI. destruct (areach_inv t u R) as [AI _]. pose proof (nodup_items t u R) as ND. pose proof (nodup_items t' u' R') as ND'.
  constructor.
  - assert (SPL : exists rest, Permutation (a_items t) (opt old ++ rest)).
    { destruct old as [i|]; [|exists (a_items t); reflexivity]. destruct H as [H _]. apply in_split in H as (a & b & E). exists (a ++ b). rewrite E. cbn. symmetry. apply Permutation_middle. }
    destruct SPL as (rest & P). exists rest. assert (NR : forall i, In i rest -> ~ kv_same (it_kv i) kv).
    { intros i Hi HS. assert (HT : In i (a_items t)) by (eapply Permutation_in; [symmetry; exact P|apply in_or_app; auto]).
      destruct old as [j|]; [|apply H; exists i; auto]. destruct H as [HJ HSJ]. assert (i = j) by (eapply item_unique; eauto). subst j.
      apply (Permutation_NoDup P) in ND. inversion ND; auto. }
    split; [exact P|]. split; [|exact NR]. apply NoDup_Permutation; [exact ND'| |].
    + assert (NDR : NoDup rest) by (apply (Permutation_NoDup P) in ND; destruct old; [inversion ND; assumption|exact ND]).
      destruct new as [j|]; cbn; [|exact NDR]. constructor; [|exact NDR]. intros C. exact (NR j C (HN j eq_refl)).
    + intros i. rewrite HI, in_app_iff. assert (IR : In i rest <-> In i (a_items t) /\ ~ kv_same (it_kv i) kv).
      { split; [intros Hi; split; [eapply Permutation_in; [symmetry; exact P|apply in_or_app; auto]|auto]|].
        intros [H1 H2]. apply (Permutation_in _ P) in H1. apply in_app_iff in H1 as [H1 | H1]; [|exact H1]. destruct old as [j|]; [|contradiction].
        cbn in H1. destruct H1 as [<- | []]. destruct H as [_ H]. contradiction. }
      rewrite IR. destruct new as [j|]; cbn; [|intuition discriminate]. split; intros [X | X]; auto; [injection X as ->; auto|destruct X as [-> | []]; auto].
  - intros i ->. apply H.
  - exact HN.
Qed.
Lemma update_at (t : atree Z) u (i : item Z) f kv : areach t u -> In i (a_items t) -> kv_same (it_kv i) kv ->
  forall j, In j (a_items (update_value t (it_id i) f)) <-> (In j (a_items t) /\ ~ kv_same (it_kv j) kv) \/ Some (mkItem (it_id i) (it_kv i) (f (it_val i))) = Some j.
Proof.
  intros R HI HS j. destruct (areach_inv t u R) as [AI _]. rewrite in_update_value. split.
  - intros [[H N] | (j' & H & E & ->)].
    + left. split; [exact H|]. intros HJ. apply N. f_equal. eapply item_unique; eauto.
    + right. assert (j' = i). { pose proof (in_find_item _ _ (ainv_nodup t AI) H). pose proof (in_find_item _ _ (ainv_nodup t AI) HI). congruence. } subst j'. reflexivity.
  - intros [[H N] | [= <-]].
    + left. split; [exact H|]. intros E. apply N. assert (j = i). { pose proof (in_find_item _ _ (ainv_nodup t AI) H). pose proof (in_find_item _ _ (ainv_nodup t AI) HI). congruence. } subst j. exact HS.
    + right. exists i. auto.
Qed.

(** ** What the operations do to the counters *)
Lemma create_or_find_at t u kv id n : areach t u -> counter_kv kv -> ~ In id u -> id <> EmptyString ->
  forall o, held t kv o ->
  match o with
  | Some i => CreateOrFind t kv id (Some n) = (t, RFound i)
  | None => exists t', CreateOrFind t kv id (Some n) = (t', RId id) /\ areach t' (id :: u) /\ a_items t' = a_items t ++ [mkItem id kv n]
  end.
Proof.
  intros R C NU NE o H. destruct C as (HA & V & _). destruct (c20_create_or_find t u kv id (Some n) R HA NU) as (_ & C1 & C2 & _).
  destruct o as [i|]; [apply C1; [exact V|apply H|apply H]|].
  destruct (C2 V H n eq_refl) as [E1 E2]. destruct (CreateOrFind t kv id (Some n)) as [t' r] eqn:E. cbn [fst snd] in E1, E2. subst r. exists t'. split; [reflexivity|]. split; [|exact E2].
  change t' with (fst (t', @RId Z id)). rewrite <- E. apply (AR_step t u (ACreateOrFind kv id (Some n))); [exact R|exact HA|]. intros id0 [= <-]. auto.
Qed.
Lemma upsert_at t u kv id n f : areach t u -> counter_kv kv -> ~ In id u -> id <> EmptyString ->
  forall o, held t kv o ->
  let r := match CreateOrFind t kv id (Some n) with
           | (t', RId _) => (t', LDone)
           | (t', RFound i) => (update_value t' (it_id i) f, LDone)
           | (t', _) => (t', LFailed)
           end in
  exists new, snd r = LDone /\ (exists u', areach (fst r) u' /\ incl u' (id :: u)) /\ counter_step t (fst r) kv o (Some new) /\
    it_kv new = match o with Some i => it_kv i | None => kv end /\ it_val new = match o with Some i => f (it_val i) | None => n end /\
    (it_id new = match o with Some i => it_id i | None => id end).
Proof.
  intros R C NU NE o H r. pose proof (create_or_find_at t u kv id n R C NU NE o H) as E. destruct (areach_inv t u R) as [AI _].
  destruct o as [i|].
  - unfold r. rewrite E. cbn [fst snd]. destruct H as [HI HS]. exists (mkItem (it_id i) (it_kv i) (f (it_val i))). split; [reflexivity|].
    pose proof (proj1 (c21_update t u (it_id i) f R)) as R'. split; [exists u; split; [exact R'|intros x Hx; right; exact Hx]|].
    split; [apply (step_of t u _ u); auto; [split; assumption|intros j [= <-]; exact HS|apply update_at with (u := u); auto]|].
    cbn. auto.
  - destruct E as (t' & E & R' & EI). unfold r. rewrite E. cbn [fst snd]. exists (mkItem id kv n). split; [reflexivity|].
    split; [exists (id :: u); split; [exact R'|intros x Hx; exact Hx]|]. split; [|cbn; auto].
    apply (step_of t u _ (id :: u)); auto; [intros j [= <-]; apply kv_same_refl|]. intros j. rewrite EI, in_app_iff. cbn. split.
    + intros [HJ | [<- | []]]; [left; split; [exact HJ|intros HS; apply H; exists j; auto]|auto].
    + intros [[HJ _] | [= <-]]; auto.
Qed.

Lemma delete_at t u kv can : areach t u -> counter_kv kv -> forall o, held t kv o ->
  let r := Delete t kv can in
  let new := match o with Some i => if can i then None else Some i | None => None end in
  snd r = ROk /\ areach (fst r) u /\ counter_step t (fst r) kv o new.
Proof.
  intros R C o H r new. destruct C as (HA & V & _). destruct (areach_inv t u R) as [AI _]. destruct (c21_delete t u kv can R HA V) as [E IT]. split; [exact E|].
  assert (R' : areach (fst r) u) by (apply (AR_step t u (ADelete kv can)); [exact R|exact HA|discriminate]). split; [exact R'|].
  apply (step_of t u _ u); auto.
  - intros i. unfold new. destruct o as [j|]; [|discriminate]. destruct (can j); [discriminate|intros [= <-]; apply H].
  - intros i. unfold r. rewrite IT. unfold new. destruct o as [j|].
    + destruct H as [HJ HSJ]. destruct (can j) eqn:EC.
      * split; [intros [H1 H2]; left; split; [exact H1|]; intros HS; apply H2; assert (i = j) by (eapply item_unique; eauto); subst; auto|].
        intros [[H1 H2] | [=]]. split; [exact H1|]. intros [HS _]. auto.
      * split; [intros [H1 H2]|].
        { destruct (string_dec (it_id i) (it_id j)) as [EI | NI].
          - right. f_equal. pose proof (in_find_item _ _ (ainv_nodup t AI) H1). pose proof (in_find_item _ _ (ainv_nodup t AI) HJ). congruence.
          - left. split; [exact H1|]. intros HS. apply NI. f_equal. eapply item_unique; eauto. }
        intros [[H1 H2] | [= <-]]; (split; [assumption|]); [tauto|]. intros [_ C]. congruence.
    + split; [intros [H1 H2]; left; split; [exact H1|]; intros HS; apply H; exists i; auto|]. intros [[H1 H2] | [=]]. split; [exact H1|tauto].
Qed.
Lemma step_in t t' kv old new : counter_step t t' kv old new ->
  forall i, In i (a_items t') <-> (In i (a_items t) /\ ~ kv_same (it_kv i) kv) \/ new = Some i.
Proof.
  intros [(rest & P & P' & NR) HO HN] i. split.
  - intros H. apply (Permutation_in _ P') in H. apply in_app_iff in H as [H | H].
    + destruct new as [j|]; [|contradiction]. destruct H as [<- | []]. auto.
    + left. split; [|auto]. eapply Permutation_in; [symmetry; exact P|]. apply in_or_app; auto.
  - intros [[H N] | ->]; (eapply Permutation_in; [symmetry; exact P'|]); apply in_or_app; [|left; left; reflexivity].
    right. apply (Permutation_in _ P) in H. apply in_app_iff in H as [H | H]; [|exact H]. destruct old as [j|]; [|contradiction]. destruct H as [<- | []].
    exfalso. apply N, HO. reflexivity.
Qed.
Lemma step_held t t' kv old new : counter_step t t' kv old new -> held t' kv new.
Proof.
  intros S. pose proof (step_in _ _ _ _ _ S) as H. destruct new as [j|]; cbn.
  - split; [apply H; auto|]. apply (cs_new _ _ _ _ _ S). reflexivity.
  - intros (i & Hi & HS). apply H in Hi as [[_ N] | [=]]. auto.
Qed.
Lemma step_refl t u kv o : areach t u -> held t kv o -> counter_step t t kv o o.
Proof.
  intros R H. apply (step_of t u t u); auto; [intros i ->; apply H|]. destruct (areach_inv t u R) as [AI _]. intros i. split.
  - intros Hi. destruct o as [j|]; [|left; split; [exact Hi|]; intros HS; apply H; exists i; auto]. destruct H as [HJ HSJ].
    destruct (string_dec (it_id i) (it_id j)) as [EI | NI].
    + right. f_equal. pose proof (in_find_item _ _ (ainv_nodup t AI) Hi). pose proof (in_find_item _ _ (ainv_nodup t AI) HJ). congruence.
    + left. split; [exact Hi|]. intros HS. apply NI. f_equal. eapply item_unique; eauto.
  - intros [[Hi _] | ->]; [exact Hi|apply H].
Qed.
Lemma step_trans t u t1 u1 t2 u2 kv a b c : areach t u -> areach t1 u1 -> areach t2 u2 -> held t kv a -> counter_step t t1 kv a b -> counter_step t1 t2 kv b c -> counter_step t t2 kv a c.
Proof.
  intros R R1 R2 H S1 S2. apply (step_of t u t2 u2); auto; [apply S2|]. intros i.
  rewrite (step_in _ _ _ _ _ S2 i), (step_in _ _ _ _ _ S1 i). split.
  - intros [[[X | ->] N] | X]; auto. exfalso. apply N, (cs_new _ _ _ _ _ S1). reflexivity.
  - intros [[X N] | X]; auto.
Qed.
Definition dec_result (n : Z) (o : option (item Z)) : option (item Z) :=
  match o with
  | Some i => if i64 (it_val i + n) <=? 0 then None else Some (mkItem (it_id i) (it_kv i) (i64 (it_val i + n)))
  | None => None
  end.
Lemma dec_at s u kv n : areach (l_counts s) u -> counter_kv kv -> forall o, held (l_counts s) kv o ->
  exists t', DecrementCounters s kv n = (with_counts s t', LDone) /\ areach t' u /\ counter_step (l_counts s) t' kv o (dec_result n o).
Proof.
  intros R C o H. unfold DecrementCounters. set (t := l_counts s) in *.
  destruct (c21_offered t u kv R (proj1 C) (proj1 (proj2 C))) as [T1 T2].
  set (counts := match delete_target t kv with Some i => update_value t (it_id i) (fun c => i64 (c + n)) | None => t end).
  set (mid := match o with Some i => Some (mkItem (it_id i) (it_kv i) (i64 (it_val i + n))) | None => None end).
  assert (M : areach counts u /\ counter_step t counts kv o mid).
  { unfold counts, mid. destruct o as [i|].
    - rewrite (T1 i (proj1 H) (proj2 H)). pose proof (proj1 (c21_update t u (it_id i) (fun c => i64 (c + n)) R)) as R'. split; [exact R'|].
      apply (step_of t u _ u); auto; [intros j [= <-]; apply H|]. apply update_at with (u := u); [exact R|apply H|apply H].
    - rewrite (T2 H). split; [exact R|]. apply step_refl with (u := u); auto. }
  destruct M as [R1 S1]. destruct (delete_at counts u kv (fun i => it_val i <=? 0) R1 C mid (step_held _ _ _ _ _ S1)) as (E & R2 & S2).
  destruct (Delete counts kv (fun i => it_val i <=? 0)) as [t' r] eqn:ED. cbn [fst snd] in E, R2, S2. subst r. exists t'. split; [reflexivity|]. split; [exact R2|].
  replace (dec_result n o) with (match mid with Some i => if it_val i <=? 0 then None else Some i | None => None end).
  - apply (step_trans t u counts u t' u kv o mid); auto.
  - unfold mid, dec_result. destruct o as [i|]; reflexivity.
Qed.
Lemma inc_at t u kv n id : areach t u -> counter_kv kv -> ~ In id u -> id <> EmptyString -> forall o, held t kv o ->
  exists t' u' new, add_count t kv n id = (t', LDone) /\ areach t' u' /\ incl u' (id :: u) /\ counter_step t t' kv o (Some new) /\
    it_kv new = match o with Some i => it_kv i | None => kv end /\ it_val new = match o with Some i => i64 (it_val i + n) | None => n end /\
    it_id new = match o with Some i => it_id i | None => id end.
Proof.
  intros R C NU NE o H. destruct (upsert_at t u kv id n (fun c => i64 (c + n)) R C NU NE o H) as (new & E & (u' & R' & I) & S & V1 & V2 & V3).
  unfold add_count. set (r := match CreateOrFind t kv id (Some n) with (t', RId _) => (t', LDone) | (t', RFound i) => (update_value t' (it_id i) (fun c => i64 (c + n)), LDone) | (t', _) => (t', LFailed) end) in *.
  exists (fst r), u', new. split; [destruct r as [x y]; cbn in *; congruence|]. auto 10.
Qed.
Definition set_result (n : Z) (id : string) (kv : KeyValues) (o : option (item Z)) : option (item Z) :=
  if n <=? 0 then None else Some (match o with Some i => mkItem (it_id i) (it_kv i) n | None => mkItem id kv n end).
Lemma set_at s u kv n id : areach (l_counts s) u -> counter_kv kv -> ~ In id u -> id <> EmptyString -> forall o, held (l_counts s) kv o ->
  exists t' u', SetCounters s kv n id = (with_counts s t', LDone) /\ areach t' u' /\ incl u' (id :: u) /\ counter_step (l_counts s) t' kv o (set_result n id kv o).
Proof.
  intros R C NU NE o H. unfold SetCounters, set_result. rewrite (proj1 (counter_kv_iff kv (proj1 C)) C). cbn [negb]. destruct (n <=? 0) eqn:EN.
  - destruct (delete_at (l_counts s) u kv (fun _ => true) R C o H) as (E & R2 & S2).
    destruct (Delete (l_counts s) kv (fun _ => true)) as [t' r] eqn:ED. cbn [fst snd] in E, R2, S2. subst r. exists t', u. split; [reflexivity|]. split; [exact R2|].
    split; [intros x Hx; right; exact Hx|]. destruct o; exact S2.
  - destruct (upsert_at (l_counts s) u kv id n (fun _ => n) R C NU NE o H) as (new & E & (u' & R' & I) & S & V1 & V2 & V3).
    set (r := match CreateOrFind (l_counts s) kv id (Some n) with (t', RId _) => (t', LDone) | (t', RFound i) => (update_value t' (it_id i) (fun _ => n), LDone) | (t', _) => (t', LFailed) end) in *.
    exists (fst r), u'. split; [|split; [exact R'|split; [exact I|]]].
    + unfold r in *. destruct (CreateOrFind (l_counts s) kv id (Some n)) as [t' []]; cbn in *; congruence.
    + replace (Some match o with Some i => mkItem (it_id i) (it_kv i) n | None => mkItem id kv n end) with (Some new); [exact S|].
      destruct new as [a b c]. cbn in V1, V2, V3. destruct o as [i|]; cbn in *; congruence.
Qed.

(** ** The invariant holds in every history *)
Lemma held_item t kv o i : held t kv o -> o = Some i -> In i (a_items t).
Proof. intros H ->. apply H. Qed.
Lemma counts_step_inv s used used' t' u' kv o new : linv s used -> incl used used' -> areach t' u' -> incl u' used' ->
  counter_step (l_counts s) t' kv o new -> (forall i, new = Some i -> counter_kv (it_kv i) /\ int64 (it_val i)) -> linv (with_counts s t') used'.
Proof.
  intros L I R I' S N. eapply counts_replace; eauto. intros i Hi. apply (step_in _ _ _ _ _ S) in Hi as [[Hi _] | ->]; [|auto]. apply (li_count s used L). exact Hi.
Qed.
Lemma add_count_inv s used kv n id : linv s used -> counter_kv kv -> int64 n -> ~ In id used -> id <> EmptyString ->
  linv (with_counts s (fst (add_count (l_counts s) kv n id))) (id :: used).
Proof.
  intros L C N NU NE. destruct (li_counts s used L) as (u & R & I). destruct (held_ex (l_counts s) u kv R C) as (o & H).
  destruct (inc_at (l_counts s) u kv n id R C (fun X => NU (I _ X)) NE o H) as (t' & u' & new & E & R' & I' & S & V1 & V2 & V3). rewrite E. cbn [fst].
  eapply counts_step_inv; eauto.
  - intros x Hx; right; exact Hx.
  - intros x Hx. apply I' in Hx as [<- | Hx]; [left; reflexivity|right; auto].
  - intros i [= <-]. rewrite V1, V2. destruct o as [i|]; [|auto]. split; [apply (li_count s used L), H|apply i64_range].
Qed.

Lemma step_inv s used x : linv s used -> lop_arg x -> (forall id, lop_id x = Some id -> ~ In id used /\ id <> EmptyString) ->
  linv (fst (lrun s x)) (match lop_id x with Some id => id :: used | None => used end).
Proof.
  intros L HA HID. assert (MONO : forall id, linv s (id :: used)) by (intros id; eapply linv_mono; [|exact L]; intros y Hy; right; exact Hy).
  destruct x as [kv id limit|id limit|id|rid kv id limit|rid id limit|rid id|kv n id locked|kv n id]; cbn [lop_id lrun lop_arg] in *.
  - destruct HA as [HA HN]. destruct (HID id eq_refl) as [NU NE]. unfold CreateRule. destruct (definition_ok kv limit) eqn:D; cbn [negb]; [|apply MONO].
    apply andb_true_iff in D as [_ D]. apply Z.leb_le in D.
    destruct (Create (l_rules s) kv id (Some limit)) as [t r] eqn:E. cbn [fst]. replace t with (fst (Create (l_rules s) kv id (Some limit))) by (rewrite E; reflexivity).
    apply rules_create; auto. unfold int64 in HN. lia.
  - unfold UpdateRule. destruct (limit <? -1) eqn:D; [exact L|]. apply Z.ltb_ge in D.
    destruct (find_rule s id) as [[i|]|]; try exact L. apply rules_update; [exact L|]. unfold int64 in HA. lia.
  - unfold DeleteRule. destruct (string_dec id EmptyString) as [-> | NE].
    { unfold DestroyByAssociatedID. cbn. destruct s; exact L. }
    destruct (li_rules s used L) as (u & R & _). pose proof (rules_destroy s used id L NE) as RD.
    destruct (c21_destroy_id (l_rules s) u id (fun _ => true) R NE) as [E IT].
    destruct (DestroyByAssociatedID (l_rules s) id (fun _ => true)) as [t r] eqn:ED. cbn [fst snd] in *. subst r.
    destruct (find_item (a_items (l_rules s)) id) as [i|] eqn:EF; [exact RD|]. cbn [fst].
    destruct L as [A B C D E F G]. constructor; cbn [with_rules l_rules l_over l_counts]; auto.
    + destruct RD as [A' _ _ _ _ _ _]. exact A'.
    + intros j Hj. apply IT in Hj as [Hj _]. auto.
    + intros o j Hj. destruct (F o j Hj) as (r & HR & ER & K). exists r. split; [|auto]. apply IT. split; [exact HR|]. intros [C1 _].
      apply (proj1 (find_item_none _ _) EF). rewrite <- C1. apply in_map. exact HR.
  - destruct HA as [HA HN]. destruct (HID id eq_refl) as [NU NE]. unfold CreateOverride. destruct (definition_ok kv limit) eqn:D; cbn [negb]; [|apply MONO].
    apply andb_true_iff in D as [_ D]. apply Z.leb_le in D. rewrite (find_rule_spec s used rid L). destruct (find_item (a_items (l_rules s)) rid) as [r|] eqn:EF; [|apply MONO].
    destruct (forallb _ _) eqn:FB; [|apply MONO]. apply find_item_some in EF as [HR <-].
    destruct (OtmCreateOrFind (l_over s) (it_id r) kv id (Some limit)) as [m a] eqn:E. cbn [fst].
    replace m with (fst (OtmCreateOrFind (l_over s) (it_id r) kv id (Some limit))) by (rewrite E; reflexivity).
    apply over_create; auto; [unfold int64 in HN; lia|]. intros k Hk. rewrite forallb_forall in FB. specialize (FB k Hk).
    destruct (kv_get kv k) as [v|] eqn:EG; [|discriminate]. apply kv_get_In in EG. apply (in_map fst) in EG. exact EG.
  - unfold UpdateOverride. destruct (limit <? -1) eqn:D; [exact L|]. apply Z.ltb_ge in D. destruct (find_rule s rid) as [[i|]|]; try exact L.
    destruct (find_override s rid id) as [[j|]|]; try exact L. apply over_update; [exact L|]. unfold int64 in HA. lia.
  - unfold DeleteOverride. rewrite (find_rule_spec s used rid L). destruct (find_item (a_items (l_rules s)) rid) as [r|] eqn:EF; [|exact L].
    apply find_item_some in EF as [HR <-]. assert (NR : it_id r <> EmptyString) by (destruct (li_rules s used L) as (u & RU & _); destruct (areach_inv _ u RU) as [_ U]; apply (U r HR)).
    destruct (OtmDestroyByID (l_over s) (it_id r) id (fun _ => true)) as [m a] eqn:E. cbn [fst].
    replace m with (fst (OtmDestroyByID (l_over s) (it_id r) id (fun _ => true))) by (rewrite E; reflexivity). apply over_destroy; auto.
  - destruct HA as [HA HN]. destruct (HID id eq_refl) as [NU NE]. unfold UpsertCounters. destruct (kv_validate kv MinDataType MaxWithoutAnyDataType) eqn:V; cbn [negb]; [|apply MONO].
    apply (counter_kv_iff kv HA) in V. destruct (0 <? n) eqn:EN.
    + unfold IncrementCounters. destruct (decide s kv locked); try apply MONO.
      pose proof (add_count_inv s used kv n id L V HN NU NE) as AI. destruct (add_count (l_counts s) kv n id) as [t a]. exact AI.
    + destruct (li_counts s used L) as (u & R & I). destruct (held_ex (l_counts s) u kv R V) as (o & H).
      destruct (dec_at s u kv n R V o H) as (t' & E & R' & S). rewrite E. cbn [fst]. eapply counts_step_inv; eauto.
      * intros y Hy; right; exact Hy.
      * intros y Hy; right; auto.
      * intros i Ei. unfold dec_result in Ei. destruct o as [j|]; [|discriminate]. destruct (_ <=? _); [discriminate|]. injection Ei as <-. cbn.
        split; [apply (li_count s used L), H|apply i64_range].
  - destruct HA as [HA HN]. destruct (HID id eq_refl) as [NU NE]. destruct (kv_validate kv MinDataType MaxWithoutAnyDataType) eqn:V.
    2: { unfold SetCounters. rewrite V. apply MONO. }
    apply (counter_kv_iff kv HA) in V. destruct (li_counts s used L) as (u & R & I). destruct (held_ex (l_counts s) u kv R V) as (o & H).
    destruct (set_at s u kv n id R V (fun X => NU (I _ X)) NE o H) as (t' & u' & E & R' & I' & S). rewrite E. cbn [fst]. eapply counts_step_inv; eauto.
    + intros y Hy; right; exact Hy.
    + intros y Hy. apply I' in Hy as [<- | Hy]; [left; reflexivity|right; auto].
    + intros i Ei. unfold set_result in Ei. destruct (n <=? 0); [discriminate|]. injection Ei as <-. destruct o as [j|]; cbn; [|auto]. split; [apply (li_count s used L), H|exact HN].
Qed.
Lemma lreach_inv s used : lreach s used -> linv s used.
Proof.
  induction 1 as [|s used x R IH HA HID]; [|apply step_inv; auto].
  constructor; cbn; try contradiction; exists []; (split; [constructor|apply incl_refl]).
Qed.
