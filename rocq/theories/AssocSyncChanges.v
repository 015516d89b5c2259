(** Proofs about [AssocSync.v]: which call changes what. *)
From Coq Require Import List Bool Arith Lia Permutation.
Import ListNotations.
From Verif Require Import AssocSync SpecAssocSync AssocSyncBase AssocSyncInv AssocSyncFrame AssocSyncStep AssocSyncGlobal AssocSyncAnswers AssocSyncLive.

(** *** What comes later *)
Definition since (s s' : state) : Prop :=
  (forall x kv, nth_error (w_made (st_world s)) x = Some kv -> nth_error (w_made (st_world s')) x = Some kv) /\
  (forall x, In x (w_known (st_world s)) -> In x (w_known (st_world s'))) /\
  (forall x, In x (w_known (st_world s)) -> absent x s -> absent x s') /\
  (forall i c kv p, nth_error (st_threads s) i = Some (mkThread c kv p) -> exists p', nth_error (st_threads s') i = Some (mkThread c kv p')) /\
  (forall i c kv p r, nth_error (st_threads s) i = Some (mkThread c kv p) -> pend p = Some r -> r <> RNil -> exists p', nth_error (st_threads s') i = Some (mkThread c kv p') /\ pend p' = Some r).
Lemma since_refl s : since s s.
Proof. repeat split; eauto. Qed.
Lemma since_trans s1 s2 s3 : since s1 s2 -> since s2 s3 -> since s1 s3.
Proof.
  intros (A1 & A2 & A3 & A4 & A5) (B1 & B2 & B3 & B4 & B5). split; [eauto|]. split; [eauto|]. split; [eauto|]. split.
  - intros i c kv p H. destruct (A4 _ _ _ _ H). eauto.
  - intros i c kv p r H H' NR. destruct (A5 _ _ _ _ _ H H' NR) as (p' & H1 & H2). eauto.
Qed.
Lemma pend_step nils i c kv w p w' p' r : tstep nils i c kv w p w' p' -> pend p = Some r -> r <> RNil -> pend p' = Some r.
Proof.
  intros ST E NR. destruct ST; cbn [pend] in *; try discriminate; try exact E; injection E as ->.
  - destruct r; (reflexivity || congruence).
  - destruct clean; reflexivity.
Qed.
Lemma step_since nils destroys s tr s' : exec nils destroys (s :: tr) -> step nils destroys s s' -> since s s'.
Proof.
  intros E ST. pose proof (exec_inv _ _ _ _ E) as I. destruct ST as [w ts c kv A | w ts i c kv p w' p' N ST].
  - split; [eauto|]. split; [eauto|]. split; [eauto|]. cbn [st_threads]. split; eauto using nth_snoc_old.
  - pose proof (inv_own nils (mkState w ts) i c kv p w' p' I N ST) as (_ & _ & F & _). cbn [st_world] in F. destruct (i_t _ _ I i c kv p N) as (_ & _ & T). cbn [st_world] in T. split; [exact (f_made _ _ _ _ F)|]. split; [exact (f_known _ _ _ _ F)|]. split; [|split].
    + intros x K AB. unfold absent in *. cbn [st_world] in *. destruct ST; try exact AB.
      * cbn [with_known with_item w_items]. destruct T as (_ & _ & _ & _ & _ & NK). rewrite set_item_other; congruence.
      * cbn [with_heap with_item w_items]. unfold set_item. destruct (Nat.eqb x x0); auto.
      * cbv zeta. destruct (truncate _), (nd_creating nd); exact AB.
      * cbn [release with_held with_item w_items]. unfold set_item. destruct (Nat.eqb x x0); auto.
    + intros j cj kj pj NJ. cbn [st_threads] in *. unfold set_thread. destruct (Nat.eq_dec j i) as [->|NE]; [|rewrite nth_set_other by exact NE; eauto]. rewrite N in NJ. injection NJ as <- <- <-. exists p'. eapply nth_set_same; eauto.
    + intros j cj kj pj r NJ EP NR. cbn [st_threads] in *. unfold set_thread. destruct (Nat.eq_dec j i) as [->|NE]; [|rewrite nth_set_other by exact NE; eauto]. rewrite N in NJ. injection NJ as <- <- <-. exists p'. split; [eapply nth_set_same; eauto|]. eapply pend_step; eauto.
Qed.
Lemma later nils destroys tr1 s tr s' : exec nils destroys (tr1 ++ s :: tr) -> In s' (tr1 ++ [s]) -> since s s'.
Proof.
  revert s'. induction tr1 as [|s1 tr1 IH]; intros s' E I; cbn in *.
  - destruct I as [-> | []]. apply since_refl.
  - inversion E as [H|s0 s0' tr0 E0 ST H]; subst; [destruct tr1; discriminate|]. match goal with H : _ :: _ = tr1 ++ _ |- _ => rename H into HE end. rewrite HE in E0. destruct I as [<- | I]; [|apply IH; assumption].
    apply (since_trans s s0); [|rewrite <- HE in E0; eapply step_since; eauto]. apply IH; [exact E0|]. destruct tr1 as [|s2 tr1]; cbn in HE; injection HE as -> _; [left; reflexivity|left; reflexivity].
Qed.
Lemma exec_step nils destroys tr1 s' s tr2 : exec nils destroys (tr1 ++ s' :: s :: tr2) -> exec nils destroys (s :: tr2) /\ step nils destroys s s'.
Proof. intros E. apply exec_back in E. inversion E; subst. auto. Qed.
Lemma same_or {A} (l m r t : list A) a b : l ++ a :: r = m ++ b :: t -> (l = m /\ a = b /\ r = t) \/ (exists k, l = m ++ b :: k /\ t = k ++ a :: r) \/ (exists k, m = l ++ a :: k /\ r = k ++ b :: t).
Proof.
  revert m. induction l as [|x l IH]; intros [|y m] E; cbn in E; injection E as -> E.
  - left. auto.
  - right. right. exists m. auto.
  - right. left. exists l. auto.
  - destruct (IH m E) as [(-> & -> & ->) | [(k & -> & ->) | (k & -> & ->)]]; [left; auto|right; left; exists k; auto|right; right; exists k; auto].
Qed.

(** *** The one who changes an item *)
Definition done_by (nils destroys : bool) (i : nat) (c : call) (kv : kvs) (s s' : state) (r : result) : Prop :=
  call_is i c kv s /\ running i s /\ acts i s s' /\ exists p', nth_error (st_threads s') i = Some (mkThread c kv p') /\ pend p' = Some r.
Lemma step_acts ts i c kv p p' w w' : nth_error ts i = Some (mkThread c kv p) -> p <> p' -> acts i (mkState w ts) (mkState w' (set_thread ts i (mkThread c kv p'))).
Proof. intros E NE. unfold set_thread. split; cbn [st_threads]; [intros j NJ; apply nth_set_other, NJ|]. rewrite (nth_set_same _ _ _ _ E), E. congruence. Qed.
Lemma step_item nils destroys s tr s' x kv : exec nils destroys (s :: tr) -> step nils destroys s s' -> absent x s -> stored kv x s' ->
  exists i c, (c = CCreate \/ c = CFindCreate) /\ done_by nils destroys i c kv s s' (RCreated x).
Proof.
  intros E ST AB S. pose proof (exec_inv _ _ _ _ E) as I. unfold absent, stored in *. destruct ST as [w ts c0 kv0 A | w ts i c kv0 p w' p' N ST]; cbn [st_world] in *; [congruence|].
  pose proof (proj1 (exec_told _ _ _ _ E i c kv0 p N)) as F. destruct ST; try (change (w_items w x = Some kv) in S; congruence).
  - cbn [with_known with_item w_items] in S. destruct (Nat.eq_dec x x0) as [<-|NE]; [|rewrite set_item_other in S by exact NE; congruence]. rewrite set_item_same in S. injection S as <-. exists i, c. split; [destruct c; cbn in F; tauto|].
    split; [exists (PCall locked x); exact N|]. split; [eapply running_at; [exact N|discriminate]|]. split; [apply (step_acts _ _ _ _ _ _ _ _ N); discriminate|]. exists (PUnlock locked (RCreated x)). split; [unfold set_thread; eapply nth_set_same; exact N|reflexivity].
  - cbn [with_heap with_item w_items] in S. unfold set_item in S. destruct (Nat.eqb x x0); congruence.
  - cbv zeta in S. destruct (truncate _), (nd_creating nd); cbn in S; congruence.
  - cbn [release with_held with_item w_items] in S. unfold set_item in S. destruct (Nat.eqb x x0); congruence.
Qed.
Lemma step_gone nils destroys s tr s' x kv : exec nils destroys (s :: tr) -> step nils destroys s s' -> stored kv x s -> absent x s' ->
  exists i c kv', (match c with CDelete _ | CDeleteId _ _ => kv' = kv | CDestroy y => y = x | CCreate | CFindCreate => kv' = kv /\ nils = true | CFind => False end) /\
    done_by nils destroys i c kv' s s' (match c with CCreate | CFindCreate => RNil | _ => RDeleted x end).
Proof.
  intros E ST S AB. pose proof (exec_inv _ _ _ _ E) as I. unfold absent, stored in *. destruct ST as [w ts c0 kv0 A | w ts i c kv0 p w' p' N ST]; cbn [st_world] in *; [congruence|].
  pose proof (proj1 (exec_told _ _ _ _ E i c kv0 p N)) as F. destruct (i_t _ _ I i c kv0 p N) as (_ & _ & T). cbn [st_world] in T. pose proof (i_g _ _ I) as G. cbn [st_world] in G.
  destruct ST; try (change (w_items w x = None) in AB; congruence).
  - cbn [with_known with_item w_items] in AB. unfold set_item in AB. destruct (Nat.eqb x x0); congruence.
  - cbn [with_heap with_item w_items] in AB. destruct (Nat.eq_dec x x0) as [<-|NE]; [|rewrite set_item_other in AB by exact NE; congruence]. destruct T as (_ & _ & M & _). destruct (g_items w G x kv S) as [M' _]. unfold for_all in M. rewrite M in M'. injection M' as ->.
    exists i, c, kv. split; [destruct c; cbn in F; tauto|]. split; [exists (DItem locked x); exact N|]. split; [eapply running_at; [exact N|discriminate]|]. split; [apply (step_acts _ _ _ _ _ _ _ _ N); discriminate|]. exists (DUnlock locked (verdict c (RDeleted x)) true). split; [unfold set_thread; eapply nth_set_same; exact N|]. destruct c; cbn in F |- *; tauto.
  - cbv zeta in AB. destruct (truncate _), (nd_creating nd); cbn in AB; congruence.
  - cbn [release with_held with_item w_items] in AB. destruct (Nat.eq_dec x x0) as [<-|NE]; [|rewrite set_item_other in AB by exact NE; congruence]. exists i, c, kv0. subst c. split; [reflexivity|]. split; [exists (YDel kv' []); exact N|]. split; [eapply running_at; [exact N|discriminate]|]. split; [apply (step_acts _ _ _ _ _ _ _ _ N); discriminate|]. exists (YClear (RDeleted x)). split; [unfold set_thread; eapply nth_set_same; exact N|reflexivity].
Qed.
Lemma answer_later nils destroys tr1 s' s tr2 i c kv r : exec nils destroys (tr1 ++ s' :: s :: tr2) -> done_by nils destroys i c kv s s' r -> r <> RNil -> forall s'' c' kv' r', In s'' (tr1 ++ [s']) -> answered i c' kv' r' s'' -> c' = c /\ kv' = kv /\ r' = r.
Proof.
  intros E (_ & _ & _ & p' & N & EP) NR s'' c' kv' r' IS AN. destruct (later _ _ _ _ _ _ E IS) as (_ & _ & _ & _ & L). destruct (L _ _ _ _ _ N EP NR) as (q & NQ & EQ). unfold answered in AN. rewrite AN in NQ. injection NQ as <- <- <-. cbn in EQ. split; [reflexivity|]. split; [reflexivity|congruence].
Qed.

Lemma kv_dec (kv kv' : kvs) : {kv = kv'} + {kv <> kv'}.
Proof. repeat decide equality. Qed.

(** An item comes with the creation that answers its id *)
Theorem appears nils destroys tr1 s' s tr2 x kv : exec nils destroys (tr1 ++ s' :: s :: tr2) -> ~ stored kv x s -> stored kv x s' ->
  absent x s /\ gone kv s /\ exists i c, (c = CCreate \/ c = CFindCreate) /\ call_is i c kv s /\ running i s /\ acts i s s' /\
    forall s'' c' kv' r, In s'' (tr1 ++ [s']) -> answered i c' kv' r s'' -> r = RCreated x.
Proof.
  intros E NS S. destruct (exec_step _ _ _ _ _ _ E) as [E0 ST]. assert (AB : absent x s).
  { unfold absent, stored in *. destruct (w_items (st_world s) x) as [kv'|] eqn:EI; [|reflexivity]. exfalso. apply NS. pose proof (i_g _ _ (exec_inv _ _ _ _ E0)) as G. pose proof (i_g _ _ (exec_inv _ _ _ _ (EX_step _ _ _ _ _ E0 ST))) as G'.
    destruct (g_items _ G _ _ EI) as [M _]. destruct (g_items _ G' _ _ S) as [M' _]. destruct (step_since _ _ _ _ _ E0 ST) as (A & _). rewrite (A _ _ M) in M'. exact M'. }
  split; [exact AB|]. destruct (step_item _ _ _ _ _ _ _ E0 ST AB S) as (i & c & CC & D). split.
  - eapply gone_dying; [exact E0|]. destruct D as ((p & N) & _). pose proof (exec_inv _ _ _ _ E0) as I. clear CC. unfold absent, stored in AB, S, NS. intros y SY. destruct (w_dying (st_world s) y) eqn:DY; [reflexivity|]. exfalso.
    assert (LV : live (st_world s) kv y) by (split; assumption). destruct ST as [w ts c0 kv0 A | w ts j c0 kv0 q w' q' NJ ST]; cbn [st_world] in *; [congruence|]. destruct (i_t _ _ I _ _ _ _ NJ) as (KV & _ & T).
    cbn [st_world] in *. destruct ST; try (change (w_items w x = Some kv) in S; congruence).
    + cbn [with_known with_item w_items] in S. destruct (Nat.eq_dec x x0) as [<-|NE]; [|rewrite set_item_other in S by exact NE; congruence]. rewrite set_item_same in S. injection S as <-. rewrite (called_clean w j kv0 locked x (i_g _ _ I) KV T y SY) in DY. discriminate.
    + cbn [with_heap with_item w_items] in S. unfold set_item in S. destruct (Nat.eqb x x0); congruence.
    + cbv zeta in S. destruct (truncate _), (nd_creating nd); cbn in S; congruence.
    + cbn [release with_held with_item w_items] in S. unfold set_item in S. destruct (Nat.eqb x x0); congruence.
  - exists i, c. split; [exact CC|]. pose proof D as (D1 & D2 & D3 & _). split; [exact D1|]. split; [exact D2|]. split; [exact D3|]. intros s'' c' kv' r IS AN. eapply answer_later in AN; eauto; [apply AN|discriminate].
Qed.
(** An item goes with a deletion of its key-values that answers its id, or a destruction of it *)
Theorem leaves destroys tr1 s' s tr2 x kv : exec false destroys (tr1 ++ s' :: s :: tr2) -> stored kv x s -> ~ stored kv x s' ->
  absent x s' /\ exists i c kv', (kv' = kv /\ (exists b, c = CDelete b \/ exists y, c = CDeleteId b y) \/ c = CDestroy x) /\ call_is i c kv' s /\ running i s /\ acts i s s' /\
    forall s'' c' kv'' r, In s'' (tr1 ++ [s']) -> answered i c' kv'' r s'' -> r = RDeleted x.
Proof.
  intros E S NS. destruct (exec_step _ _ _ _ _ _ E) as [E0 ST]. assert (AB : absent x s').
  { unfold absent, stored in *. destruct (w_items (st_world s') x) as [kv'|] eqn:EI; [|reflexivity]. exfalso. apply NS. pose proof (i_g _ _ (exec_inv _ _ _ _ E0)) as G. pose proof (i_g _ _ (exec_inv _ _ _ _ (EX_step _ _ _ _ _ E0 ST))) as G'.
    destruct (g_items _ G _ _ S) as [M _]. destruct (g_items _ G' _ _ EI) as [M' _]. destruct (step_since _ _ _ _ _ E0 ST) as (A & _). rewrite (A _ _ M) in M'. congruence. }
  split; [exact AB|]. destruct (step_gone _ _ _ _ _ _ _ E0 ST S AB) as (i & c & kv' & CC & D). exists i, c, kv'. pose proof D as (D1 & D2 & D3 & _). split; [destruct c; try (destruct CC; congruence); [left; eauto|left; split; [exact CC|exists asks; right; exists x0; reflexivity]|right; congruence]|].
  split; [exact D1|]. split; [exact D2|]. split; [exact D3|]. assert (RN : (match c with CCreate | CFindCreate => RNil | _ => RDeleted x end) = RDeleted x) by (destruct c; try reflexivity; destruct CC; congruence). rewrite RN in D.
  intros s'' c' kv'' r IS AN. eapply answer_later in AN; eauto; [apply AN|discriminate].
Qed.
(** With callbacks that may return nil *)
Theorem leaves_nil nils destroys tr1 s' s tr2 x kv : exec nils destroys (tr1 ++ s' :: s :: tr2) -> stored kv x s -> ~ stored kv x s' ->
  absent x s' /\ exists i c kv', (kv' = kv /\ c <> CFind \/ c = CDestroy x) /\ call_is i c kv' s /\ running i s /\ acts i s s'.
Proof.
  intros E S NS. destruct (exec_step _ _ _ _ _ _ E) as [E0 ST]. assert (AB : absent x s').
  { unfold absent, stored in *. destruct (w_items (st_world s') x) as [kv'|] eqn:EI; [|reflexivity]. exfalso. apply NS. pose proof (i_g _ _ (exec_inv _ _ _ _ E0)) as G. pose proof (i_g _ _ (exec_inv _ _ _ _ (EX_step _ _ _ _ _ E0 ST))) as G'.
    destruct (g_items _ G _ _ S) as [M _]. destruct (g_items _ G' _ _ EI) as [M' _]. destruct (step_since _ _ _ _ _ E0 ST) as (A & _). rewrite (A _ _ M) in M'. congruence. }
  split; [exact AB|]. destruct (step_gone _ _ _ _ _ _ _ E0 ST S AB) as (i & c & kv' & CC & D). exists i, c, kv'. destruct D as (D1 & D2 & D3 & _). split; [|auto]. destruct c; try (left; split; [apply CC || tauto|discriminate]); [contradiction|right; congruence].
Qed.
(** An item keeps its key-values, and never comes back *)
Theorem keeps nils destroys tr1 s tr2 s' x kv kv' : exec nils destroys (tr1 ++ s :: tr2) -> In s' (tr1 ++ [s]) -> stored kv x s -> stored kv' x s' -> kv' = kv.
Proof.
  intros E I S S'. destruct (later _ _ _ _ _ _ E I) as (A & _). assert (E' : exists tr', exec nils destroys (s' :: tr')). { eapply exec_in; [exact E|]. apply in_app_or in I. apply in_or_app. destruct I as [I | [-> | []]]; [auto|right; left; reflexivity]. }
  destruct E' as (tr' & E'). apply exec_back in E. destruct (g_items _ (i_g _ _ (exec_inv _ _ _ _ E)) _ _ S) as [M _]. destruct (g_items _ (i_g _ _ (exec_inv _ _ _ _ E')) _ _ S') as [M' _]. rewrite (A _ _ M) in M'. congruence.
Qed.
Theorem never_back nils destroys tr1 s tr2 s1 s2 x kv : exec nils destroys (tr1 ++ s :: tr2) -> stored kv x s -> forall tr1a tr1b, tr1 = tr1a ++ s1 :: tr1b -> absent x s1 -> In s2 (tr1a ++ [s1]) -> absent x s2.
Proof.
  intros E S tr1a tr1b -> AB I. assert (K : In x (w_known (st_world s))). { apply exec_back in E. apply (g_items _ (i_g _ _ (exec_inv _ _ _ _ E)) _ _ S). }
  rewrite <- app_assoc in E. cbn in E. assert (L2 : since s s1). { apply (later nils destroys (s1 :: tr1b) s tr2 s1); [exact (exec_back _ _ _ _ _ E)|left; reflexivity]. }
  destruct L2 as (_ & L2 & _). destruct (later _ _ _ _ _ s2 E I) as (_ & _ & L3 & _). apply L3; auto.
Qed.

(** *** Each id is created and deleted by one call *)
Lemma acts_unique i j s s' : acts i s s' -> acts j s s' -> i = j.
Proof. intros [A B] [C D]. destruct (Nat.eq_dec i j); [assumption|]. exfalso. apply B, C. assumption. Qed.
Theorem once (P : state -> state -> Prop) nils destroys tr i j : exec nils destroys tr -> (forall t1 s' s t2 u s2 s2', exec nils destroys (t1 ++ s' :: s :: t2) -> In s2 (t1 ++ [s']) -> P s s' -> P s2 s2' -> exec nils destroys (s2 :: u) -> step nils destroys s2 s2' -> False) ->
  change tr i P -> change tr j P -> i = j.
Proof.
  intros E ONE (s1 & s1' & (t1 & t2 & E1) & _ & A1 & P1) (s2 & s2' & (u1 & u2 & E2) & _ & A2 & P2).
  assert (X : forall (a a' b b' : state) l1 l2 m1 k, tr = l1 ++ a' :: a :: l2 -> tr = m1 ++ b' :: (k ++ a' :: a :: l2) -> P a a' -> (exists u, (k ++ a' :: a :: l2) = b :: u) -> P b b' -> False).
  { intros a a' b b' l1 l2 m1 k H1 H2 PA (u & HU) PB. rewrite H2 in E. apply exec_back in E. rewrite HU in E. inversion E as [|? ? ? E' ST']; subst. eapply (ONE k a' a l2 u b b'); eauto; [rewrite HU; exact E'|]. destruct k as [|k0 k]; cbn in HU; injection HU as -> _; left; reflexivity. }
  rewrite E1 in E2. destruct (same_or _ _ _ _ _ _ E2) as [(-> & -> & EQ) | [(k & K1 & K2) | (k & K1 & K2)]].
  - injection EQ as -> ->. eapply acts_unique; eauto.
  - exfalso. eapply (X s1 s1' s2 s2' t1 t2 u1 k); [exact E1| |exact P1| |exact P2]; [rewrite E1, K1, <- app_assoc; reflexivity|]. exists u2. symmetry. exact K2.
  - exfalso. eapply (X s2 s2' s1 s1' u1 u2 t1 k); [rewrite E1; exact E2| |exact P2| |exact P1]; [rewrite E1, E2, K1, <- app_assoc; reflexivity|]. exists t2. symmetry. exact K2.
Qed.
Theorem created_once nils destroys s tr i j c kv c' kv' x : exec nils destroys (s :: tr) -> answered i c kv (RCreated x) s -> answered j c' kv' (RCreated x) s -> i = j.
Proof.
  intros E A B.
  assert (Q : forall i c kv, answered i c kv (RCreated x) s -> change (s :: tr) i (fun s s' => absent x s /\ exists kv, stored kv x s')).
  { intros i0 c0 kv0 A0. pose proof (answers _ _ _ _ _ _ _ _ E A0) as R. destruct c0; cbn in R; try contradiction; destruct R as (a & b & H1 & H2 & H3 & _ & H4 & H5); exists a, b; eauto 8. }
  eapply (once (fun s s' => absent x s /\ exists kv, stored kv x s') nils destroys); [exact E| |eapply Q; exact A|eapply Q; exact B].
  intros t1 s1' s1 t2 u s2 s2' E1 I2 (A1 & k1 & S1) (A2 & k2 & S2) E2 ST2.
  assert (K1 : In x (w_known (st_world s1'))) by (apply exec_back in E1; apply (g_items _ (i_g _ _ (exec_inv _ _ _ _ E1)) _ _ S1)).
  destruct (later _ _ _ _ _ _ E1 I2) as (_ & L & _). destruct (step_since _ _ _ _ _ E2 ST2) as (_ & _ & L2 & _). specialize (L2 x (L x K1) A2). unfold absent, stored in *. congruence.
Qed.
Theorem deleted_once nils destroys s tr i j c kv c' kv' x : exec nils destroys (s :: tr) -> answered i c kv (RDeleted x) s -> answered j c' kv' (RDeleted x) s -> i = j.
Proof.
  intros E A B.
  assert (Q : forall i c kv, answered i c kv (RDeleted x) s -> change (s :: tr) i (fun s s' => (exists kv, stored kv x s) /\ absent x s')).
  { intros i0 c0 kv0 A0. pose proof (answers _ _ _ _ _ _ _ _ E A0) as R. destruct c0; cbn in R; try contradiction; [| |destruct R as [-> R]]; destruct R as (a & b & H1 & H2 & H3 & H4 & H5); exists a, b; eauto 8. }
  eapply (once (fun s s' => (exists kv, stored kv x s) /\ absent x s') nils destroys); [exact E| |eapply Q; exact A|eapply Q; exact B].
  intros t1 s1' s1 t2 u s2 s2' E1 I2 ((k1 & S1) & A1) ((k2 & S2) & A2) E2 ST2.
  assert (K1 : In x (w_known (st_world s1))). { apply exec_step in E1. destruct E1 as [E1 _]. apply (g_items _ (i_g _ _ (exec_inv _ _ _ _ E1)) _ _ S1). }
  assert (S12 : since s1 s1') by (destruct (exec_step _ _ _ _ _ _ E1); eapply step_since; eauto). destruct S12 as (_ & K2 & _). destruct (later _ _ _ _ _ _ E1 I2) as (_ & _ & L & _). specialize (L x (K2 x K1) A1). unfold absent, stored in *. congruence.
Qed.

(** *** Deletion by id *)
Lemma known_stored nils destroys s tr x : exec nils destroys (s :: tr) -> In x (w_known (st_world s)) -> exists s' kv, In s' (s :: tr) /\ stored kv x s'.
Proof.
  intros E. remember (s :: tr) as l eqn:EL. revert s tr EL. induction E as [|s s' tr E IH ST]; intros s0 tr0 EL; injection EL as <- <-; intros K.
  - destruct K.
  - specialize (IH s tr eq_refl). assert (D : In x (w_known (st_world s)) \/ exists kv, stored kv x s').
    { destruct ST as [w ts c0 kv0 A | w ts t c0 kv0 p w' p' NT ST]; cbn [st_world st_threads] in *; [auto|]. destruct ST; try (left; exact K).
      - cbn [with_known w_known] in K. destruct K as [<- | K]; [|left; exact K]. right. exists kv0. unfold stored. cbn [st_world with_known with_item w_items]. apply set_item_same.
      - left. revert K. cbv zeta. destruct (truncate _), (nd_creating nd); auto. }
    destruct D as [D | (kv & D)]; [|exists s', kv; split; [left; reflexivity|exact D]]. destruct (IH D) as (s1 & kv & I1 & S1). exists s1, kv. split; [right; exact I1|exact S1].
Qed.
Theorem delete_id_same nils destroys s tr i b y kv x : exec nils destroys (s :: tr) -> answered i (CDeleteId b y) kv (RDeleted x) s ->
  change (s :: tr) i (fun s s' => stored kv x s /\ absent x s') /\ exists s', In s' (s :: tr) /\ stored kv y s'.
Proof.
  intros E A. split; [exact (answers _ _ _ _ _ _ _ _ E A)|]. destruct (i_t _ _ (exec_inv _ _ _ _ E) _ _ _ _ A) as (_ & [K M] & _). destruct (known_stored _ _ _ _ _ E K) as (s' & kv' & I & S). exists s'. split; [exact I|].
  apply in_split in I. destruct I as (t1 & t2 & EQ). assert (E' := E). rewrite EQ in E'. assert (L : since s' s). { eapply later; [exact E'|]. destruct t1 as [|u t1]; cbn in EQ; injection EQ as -> _; left; reflexivity. }
  destruct L as (L & _). apply exec_back in E'. destruct (g_items _ (i_g _ _ (exec_inv _ _ _ _ E')) _ _ S) as [M' _]. rewrite (L _ _ M') in M. injection M as <-. exact S.
Qed.
Theorem delete_id_own nils s tr i b y kv x : exec nils false (s :: tr) -> answered i (CDeleteId b y) kv (RDeleted x) s -> (forall s', In s' tr -> running i s' -> stored kv y s') -> x = y.
Proof.
  intros E A H. destruct (answers _ _ _ _ _ _ _ _ E A) as (s1 & s1' & (t1 & t2 & EQ) & R & _ & S & _).
  assert (I : In s1 tr). { destruct t1 as [|u t1]; cbn in EQ; injection EQ as -> ->; [left; reflexivity|]. apply in_or_app. right. right. left. reflexivity. }
  destruct (exec_in _ _ _ _ E (or_intror I)) as (tr' & E'). eapply one_item; [exact E'|exact S|apply H; assumption| |].
  - intros (j & kv' & (p & N) & _). revert N. apply (AssocSyncLive.no_destroys _ _ _ E').
  - intros (j & kv' & (p & N) & _). revert N. apply (AssocSyncLive.no_destroys _ _ _ E').
Qed.
