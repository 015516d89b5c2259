(** The invariant of lock clients and the service. *)
From Coq Require Import String List Bool Arith Lia.
From Verif Require Import DestroySync Locker SpecLocker LockerProofs LockerTrace LockClient SpecLockClient.
Import ListNotations.
Local Open Scope nat_scope.
Local Open Scope list_scope.

Section Inv.
Context {key : Type}.
Variable key_dec : forall a b : key, {a = b} + {a <> b}.
Variable shares : key -> key -> Prop.
Notation world := (world key).
Notation step := (w_step key key_dec shares).
Notation exec := (w_exec key key_dec shares).
Notation history := (list (nat * w_event key)).
Implicit Types (w : world) (h : history).

(** ** Facts about the service *)
Lemma grant_session t i k j s d (tr : list (nat * lk_event key)) : In (t, LGrant key i k j s d) tr -> In s (sessions tr).
Proof. induction tr as [|[t' e] r IH]; [intros []|]. intros [[= -> ->] | HI]; [left; reflexivity|]. apply IH in HI. destruct e; cbn; auto. Qed.
Lemma grant_same k0 tr st : lk_exec key key_dec k0 tr st -> forall t t' i i' k k' j j' s d d',
  In (t, LGrant key i k j s d) tr -> In (t', LGrant key i' k' j' s d') tr -> t = t' /\ i = i' /\ k = k' /\ j = j' /\ d = d'.
Proof.
  unfold lk_exec. induction 1 as [|tr st e st' HX IH HS]; [intros; contradiction|]. intros t t' i i' k k' j j' s d d' H1 H2.
  pose proof (exec_tr key_dec k0 _ _ HX) as T. destruct e as [e|]; cbn [push] in *; [|eauto].
  destruct H1 as [H1|H1], H2 as [H2|H2]; try solve [inversion H1; inversion H2; subst; repeat split; congruence]; eauto.
  - inversion H1; subst; clear H1. exfalso. apply grant_session in H2. apply (t_sess _ _ _ T) in H2. inversion HS; subst. contradiction.
  - inversion H2; subst; clear H2. exfalso. apply grant_session in H1. apply (t_sess _ _ _ T) in H1. inversion HS; subst. contradiction.
Qed.

(** ** The invariant *)
Definition running (c : once) : Prop := match c with ONew | ORun _ => True | _ => False end.
Definition won (c : rcall) (o : nat) : Prop := match c with RStop o' | RWait o' | RSent o' | RNil o' | RFailed o' => o' = o | _ => False end.
Definition deleted (c : rcall) (o : nat) : Prop := match c with RSent o' | RNil o' | RFailed o' => o' = o | _ => False end.
Definition past_stop (c : rcall) (o : nat) : Prop := match c with RWait o' => o' = o | _ => deleted c o end.
Definition rel_of (c : rcall) : option nat :=
  match c with RUnused => None | RCalled o | RStop o | RWait o | RSent o | RNil o | RFailed o | RAlready o => Some o end.
Definition over (l : loop) : Prop := match l with HStopped | HFlagged | HEnded => True | _ => False end.
Definition by_loop (c : once) : Prop := match c with ORun ByLoop | ODeleted ByLoop => True | _ => False end.
Definition by_release (c : once) (r : nat) : Prop := match c with ORun (ByRelease r') | ODeleted (ByRelease r') => r' = r | _ => False end.

(** the DELETE for session [s] was sent: by a Release or because the answer to an ObtainLock could not be delivered *)
Definition given_up h w (s : string) : Prop :=
  (exists o x r, w_obj _ w o = Some x /\ o_sess _ x = s /\ deleted (w_rel _ w r) o) \/
  (exists t i a k k' j d, In (t, LGrant key i k j s d) (server_history h) /\ w_call _ w i = CNoLock _ a k' true).

Record winv (k0 : key) h w : Prop := {
  v_srv : lk_exec key key_dec k0 (server_history h) (w_srv _ w);
  v_next : forall o x, w_obj _ w o = Some x -> o < w_n _ w;
  v_obj : forall o x, w_obj _ w o = Some x ->
    (w_call _ w (o_call _ x) = CStoring _ (o_client _ x) (o_key _ x) o \/ w_call _ w (o_call _ x) = CGotLock _ (o_client _ x) (o_key _ x) o) /\
    exists t, In (t, LGrant key (o_call _ x) (o_key _ x) (o_lock _ x) (o_sess _ x) (o_time _ x)) (server_history h);
  v_storing : forall i a k o, w_call _ w i = CStoring _ a k o -> exists x, w_obj _ w o = Some x /\ o_call _ x = i /\
    o_client _ x = a /\ o_key _ x = k /\ running (o_once _ x);
  v_got : forall i a k o, w_call _ w i = CGotLock _ a k o -> exists x, w_obj _ w o = Some x /\ o_client _ x = a /\ o_key _ x = k;
  v_tree : forall a k o, w_tree _ w a k = Some o -> exists x, w_obj _ w o = Some x /\ o_client _ x = a /\ o_key _ x = k /\
    running (o_once _ x) /\ w_call _ w (o_call _ x) = CGotLock _ a k o;
  v_live : forall o x, w_obj _ w o = Some x -> running (o_once _ x) ->
    w_tree _ w (o_client _ x) (o_key _ x) = Some o \/ w_call _ w (o_call _ x) = CStoring _ (o_client _ x) (o_key _ x) o;
  v_one : forall i i' a k, creating _ (w_call _ w i) a k -> creating _ (w_call _ w i') a k -> i = i';
  v_free : forall i a k, creating _ (w_call _ w i) a k -> w_tree _ w a k = None;
  v_answered : forall i a k j s d, w_call _ w i = CAnswered _ a k j s d -> exists t, In (t, LGrant key i k j s d) (server_history h);
  v_grant : forall i j s d, w_grant _ w i = Some (j, s, d) -> exists t k, In (t, LGrant key i k j s d) (server_history h);
  v_loop : forall o x, w_obj _ w o = Some x -> (over (o_loop _ x) -> o_once _ x = ODone) /\ (by_loop (o_once _ x) -> o_loop _ x = HQuit) ;
  v_rel : forall r o, rel_of (w_rel _ w r) = Some o -> exists x, w_obj _ w o = Some x /\
    (won (w_rel _ w r) o -> o_released _ x = true) /\ (past_stop (w_rel _ w r) o -> o_once _ x = ODone) /\
    (deleted (w_rel _ w r) o -> o_loop _ x = HEnded);
  v_won : forall r r' o, won (w_rel _ w r) o -> won (w_rel _ w r') o -> r = r';
  v_runner : forall o x r, w_obj _ w o = Some x -> by_release (o_once _ x) r -> w_rel _ w r = RStop o;
  v_dels : forall k j s, In (k, j, s) (w_dels _ w) -> given_up h w s;
  v_handled : forall t k j s ok, In (t, LRelease key k j s ok) (server_history h) -> given_up h w s;
  v_sent : forall r o x, deleted (w_rel _ w r) o -> w_obj _ w o = Some x ->
    (In (o_key _ x, o_lock _ x, o_sess _ x) (w_dels _ w) /\ (forall o', w_rel _ w r <> RNil o')) \/
    exists t ok, In (t, LRelease key (o_key _ x) (o_lock _ x) (o_sess _ x) ok) (server_history h) }.

(** ** Its preservation *)
Definition tick w (e : option (w_event key)) : option (nat * w_event key) := match e with Some e => Some (lm_now key (w_srv _ w), e) | None => None end.
Lemma history_mono w e h z : In z (server_history h) -> In z (server_history (push (tick w e) h)).
Proof. destruct e as [[]|]; cbn; auto. Qed.
Lemma happened_mono (v : w_event key) z h : happened v h -> happened v (push z h).
Proof. intros (t & H). exists t. destruct z; cbn; auto. Qed.

Ltac sim := cbn [with_srv with_obj with_newobj with_tree with_call with_grant with_rel with_msgs w_srv w_n w_obj w_tree w_call w_grant w_rel w_beats w_dels
  set_loop set_ticker set_timeout set_sent set_once set_released o_call o_client o_key o_lock o_sess o_time o_loop o_next o_tick o_outn o_out o_sent o_once o_released new_lock] in *.
Ltac upd := sim; unfold upd_nat, upd_key in *; sim.
Ltac eqs := repeat (match goal with
  | H : context [Nat.eqb ?a ?b] |- _ => destruct (Nat.eqb_spec a b); [subst|]
  | |- context [Nat.eqb ?a ?b] => destruct (Nat.eqb_spec a b); [subst|]
  | H : context [key_dec ?a ?b] |- _ => destruct (key_dec a b); [subst|]
  | |- context [key_dec ?a ?b] => destruct (key_dec a b); [subst|]
  | H : Some _ = Some _ |- _ => injection H as H; subst
  | H : Some _ = None |- _ => discriminate H
  | H : None = Some _ |- _ => discriminate H
  end; sim).

Lemma step_srv k0 h w e w' : lk_exec key key_dec k0 (server_history h) (w_srv _ w) -> step w e w' ->
  lk_exec key key_dec k0 (server_history (push (tick w e) h)) (w_srv _ w').
Proof.
  intros H ST. destruct ST; sim; cbn [tick push server_history]; auto;
    try (match goal with X : lk_step _ _ _ (Some ?e) _ |- _ => exact (KR_step _ _ _ _ _ _ _ H X) end).
  exact (KR_step _ _ _ _ _ _ _ H H0).
Qed.
(** what a step leaves of a lock *)
Definition same_lock (x y : lobj key) : Prop :=
  o_call _ x = o_call _ y /\ o_client _ x = o_client _ y /\ o_key _ x = o_key _ y /\ o_lock _ x = o_lock _ y /\ o_sess _ x = o_sess _ y /\ o_time _ x = o_time _ y.
Lemma same_refl x : same_lock x x. Proof. repeat split. Qed.
Lemma answer_same x n r : same_lock (answer _ x n r) x /\ o_once _ (answer _ x n r) = o_once _ x /\ o_released _ (answer _ x n r) = o_released _ x /\
  (o_loop _ (answer _ x n r) = o_loop _ x \/ o_loop _ x = HSent n /\ o_loop _ (answer _ x n r) = HReply n r) /\ o_sent _ (answer _ x n r) = o_sent _ x.
Proof.
  unfold answer. destruct (o_loop _ x) eqn:E; cbn [set_loop o_loop o_once o_released o_sent]; rewrite ?E; repeat split; auto.
  all: destruct (Nat.eqb_spec n0 n); subst; cbn; rewrite ?E; auto.
Qed.
Ltac uni := repeat match goal with
  | H1 : ?a = Some ?x, H2 : ?a = Some ?y |- _ => tryif constr_eq x y then clear H2 else (assert (x = y) by congruence; subst; clear H2)
  | H1 : ?a = ?x, H2 : ?a = ?y |- _ => is_constructor x; is_constructor y; congruence
  end.
Lemma step_keep w e w' o x : step w e w' -> w_obj _ w o = Some x -> o < w_n _ w -> exists y, w_obj _ w' o = Some y /\ same_lock y x.
Proof.
  intros ST H LT. destruct ST; upd; eqs; uni; eauto using same_refl; try lia; try (eexists; split; [reflexivity|]; repeat split; congruence).
  eexists; split; [reflexivity|]. apply answer_same.
Qed.
Lemma step_next w e w' : step w e w' -> (forall o x, w_obj _ w o = Some x -> o < w_n _ w) -> forall o x, w_obj _ w' o = Some x -> o < w_n _ w'.
Proof. intros ST I o1 y. destruct ST; upd; eqs; eauto; intros; eqs; eauto; try lia. enough (o1 < w_n key w) by lia. eauto. Qed.
(** an old lock is there before *)
Lemma step_back w e w' o y : step w e w' -> w_obj _ w' o = Some y -> (exists x, w_obj _ w o = Some x /\ same_lock y x) \/
  exists i a k j s d, o = w_n _ w /\ w_call _ w i = CAnswered _ a k j s d /\ y = new_lock _ i a k j s d /\ w_call _ w' i = CStoring _ a k o /\ e = None.
Proof.
  intros ST H. destruct ST; upd; eqs; uni; eauto using same_refl; try (left; eexists; split; [eassumption|]; repeat split; congruence).
  - left. eexists; split; [eassumption|]. apply answer_same.
  - right. exists i, a, k, j, s, d. rewrite Nat.eqb_refl. auto.
Qed.
(** calls *)
Lemma step_call w e w' i c : step w e w' -> w_call _ w i = c ->
  match c with
  | CGotLock _ _ _ _ | CNoLock _ _ _ _ => w_call _ w' i = c
  | CStoring _ a k o => w_call _ w' i = c \/ w_call _ w' i = CGotLock _ a k o
  | _ => True
  end.
Proof. intros ST H. destruct c; auto; destruct ST; upd; eqs; auto; try congruence. right; congruence. Qed.
Lemma step_obj k0 h w e w' : winv k0 h w -> step w e w' -> forall o x, w_obj _ w' o = Some x ->
    (w_call _ w' (o_call _ x) = CStoring _ (o_client _ x) (o_key _ x) o \/ w_call _ w' (o_call _ x) = CGotLock _ (o_client _ x) (o_key _ x) o) /\
    exists t, In (t, LGrant key (o_call _ x) (o_key _ x) (o_lock _ x) (o_sess _ x) (o_time _ x)) (server_history (push (tick w e) h)).
Proof.
  intros I ST o y H. destruct (step_back _ _ _ _ _ ST H) as [(x & HX & (E1 & E2 & E3 & E4 & E5 & E6)) | (i & a & k & j & s & d & -> & HC & -> & HC' & ->)].
  - rewrite E1, E2, E3, E4, E5, E6. destruct (v_obj _ _ _ I _ _ HX) as ([HC|HC] & t & HT); (split; [|exists t; apply history_mono; exact HT]).
    + exact (step_call _ _ _ _ _ ST HC).
    + right. exact (step_call _ _ _ _ _ ST HC).
  - cbn. split; [left; exact HC'|]. exact (v_answered _ _ _ I _ _ _ _ _ _ HC).
Qed.

Lemma step_storing k0 h w e w' : winv k0 h w -> step w e w' -> forall i a k o, w_call _ w' i = CStoring _ a k o ->
  exists x, w_obj _ w' o = Some x /\ o_call _ x = i /\ o_client _ x = a /\ o_key _ x = k /\ running (o_once _ x).
Proof.
  intros I ST i1 a1 k1 o1 H. pose proof (v_storing _ _ _ I) as VS. destruct ST; upd; eqs; try discriminate;
    try (destruct (VS _ _ _ _ H) as (y & Y1 & Y2 & Y3 & Y4 & Y5)); uni; try solve [eauto 9];
    try solve [eexists; split; [reflexivity|]; sim; repeat split; auto].
  - eexists. split; [reflexivity|]. destruct (answer_same y n r) as ((A1 & A2 & A3 & _) & A4 & _). rewrite A1, A2, A3, A4. auto.
  - injection H as <- <-. eexists. split; [reflexivity|]. sim. cbn. auto.
  - congruence.
  - pose proof (v_next _ _ _ I _ _ Y1). lia.
  - exfalso. apply H2. exists (o_call _ y), (o_key _ y). rewrite H. cbn. auto.
  - rewrite H1 in Y5. destruct Y5.
Qed.

Lemma step_got k0 h w e w' : winv k0 h w -> step w e w' -> forall i a k o, w_call _ w' i = CGotLock _ a k o ->
  exists x, w_obj _ w' o = Some x /\ o_client _ x = a /\ o_key _ x = k.
Proof.
  intros I ST i1 a1 k1 o1 H.
  assert (P : exists x, w_obj _ w o1 = Some x /\ o_client _ x = a1 /\ o_key _ x = k1).
  { destruct ST; upd; eqs; try discriminate; try solve [eapply (v_got _ _ _ I); eauto].
    - injection H as <- <- <-. destruct (v_tree _ _ _ I _ _ _ H1) as (x & X1 & X2 & X3 & _). eauto.
    - injection H as <- <- <-. destruct (v_storing _ _ _ I _ _ _ _ H0) as (x & X1 & _ & X2 & X3 & _). eauto. }
  destruct P as (x & X1 & X2 & X3). destruct (step_keep _ _ _ _ _ ST X1 (v_next _ _ _ I _ _ X1)) as (y & Y1 & (_ & Y2 & Y3 & _)).
  exists y. repeat split; congruence.
Qed.
(** the state of doneOnce *)
Lemma step_once w e w' o x : step w e w' -> w_obj _ w o = Some x -> o < w_n _ w -> exists y, w_obj _ w' o = Some y /\
  (o_once _ y = o_once _ x \/
   (o_once _ x = ONew /\ exists b, o_once _ y = ORun b) \/
   (exists b, o_once _ x = ORun b /\ o_once _ y = ODeleted b /\ ~ blocked _ shares w (o_client _ x) (o_key _ x) /\ w_call _ w' = w_call _ w /\
      w_tree _ w' = w_tree _ (with_tree _ key_dec w (o_client _ x) (o_key _ x) None)) \/
   (exists b, o_once _ x = ODeleted b /\ o_once _ y = ODone /\ e = Some (EDone _ o))).
Proof.
  intros ST H LT. destruct ST; upd; eqs; uni; try solve [eauto]; try lia; try solve [eexists; split; [reflexivity|]; sim; eauto].
  - eexists; split; [reflexivity|]. left. apply answer_same.
  - eexists; split; [reflexivity|]. sim. right. right. left. exists b. auto.
  - eexists; split; [reflexivity|]. sim. right. right. right. exists b. auto.
Qed.
Lemma step_tree w e w' a k : step w e w' -> w_tree _ w' a k = w_tree _ w a k \/
  (exists i o, w_call _ w i = CStoring _ a k o /\ w_call _ w' = w_call _ (with_call _ w i (CGotLock _ a k o)) /\ w_obj _ w' = w_obj _ w /\ w_tree _ w' a k = Some o) \/
  (exists o x b y, w_obj _ w o = Some x /\ o_client _ x = a /\ o_key _ x = k /\ o_once _ x = ORun b /\ w_tree _ w' a k = None /\ w_obj _ w' o = Some y /\ o_once _ y = ODeleted b).
Proof.
  intros ST. destruct ST; upd; auto; eqs; auto.
  - right. left. exists i, o. auto.
  - right. right. exists o, x, b, (set_once _ x (ODeleted b)). rewrite Nat.eqb_refl. auto 9.
Qed.
Lemma step_tree_inv k0 h w e w' : winv k0 h w -> step w e w' -> forall a k o, w_tree _ w' a k = Some o -> exists x, w_obj _ w' o = Some x /\ o_client _ x = a /\ o_key _ x = k /\
    running (o_once _ x) /\ w_call _ w' (o_call _ x) = CGotLock _ a k o.
Proof.
  intros I ST a k o H. destruct (step_tree _ _ _ a k ST) as [E | [(i & o' & C1 & C2 & C3 & C4) | (o' & x & b & y & _ & _ & _ & _ & E & _)]]; [| |congruence].
  - rewrite E in H. destruct (v_tree _ _ _ I _ _ _ H) as (x & X1 & X2 & X3 & X4 & X5). pose proof (v_next _ _ _ I _ _ X1) as LT.
    destruct (step_keep _ _ _ _ _ ST X1 LT) as (y & Y1 & (Y2 & Y3 & Y4 & _)). exists y. split; [exact Y1|]. split; [congruence|]. split; [congruence|].
    destruct (step_once _ _ _ _ _ ST X1 LT) as (y' & Y1' & HO). assert (y' = y) by congruence; subst y'. split.
    + destruct HO as [-> | [(_ & b & ->) | [(b & B1 & B2 & B3 & B4 & B5) | (b & B1 & _)]]]; auto; [exact Logic.I| |rewrite B1 in X4; destruct X4].
      exfalso. rewrite B5 in E. sim. unfold upd_nat, upd_key in E. rewrite X2, X3, Nat.eqb_refl in E. destruct (key_dec k k); congruence.
    + rewrite Y2. exact (step_call _ _ _ _ _ ST X5).
  - rewrite C4 in H. injection H as ->. destruct (v_storing _ _ _ I _ _ _ _ C1) as (x & X1 & X2 & X3 & X4 & X5). exists x. rewrite C3, C2. sim. unfold upd_nat.
    rewrite X2, Nat.eqb_refl. auto.
Qed.
Lemma step_creating w e w' i a k : step w e w' -> creating _ (w_call _ w' i) a k -> creating _ (w_call _ w i) a k \/
  (w_call _ w i = CCalled _ a k /\ ~ blocked _ shares w a k /\ w_tree _ w' = w_tree _ w /\ w_tree _ w a k = None /\ w_call _ w' = w_call _ (with_call _ w i (CPosted _ a k))).
Proof.
  intros ST H. destruct ST; upd; eqs; auto; cbn [creating] in *; try contradiction; try solve [left; match goal with X : w_call _ _ _ = _ |- _ => rewrite X end; cbn; auto].
  destruct H as [-> ->]. right. auto.
Qed.
Lemma step_one k0 h w e w' : winv k0 h w -> step w e w' -> forall i i' a k, creating _ (w_call _ w' i) a k -> creating _ (w_call _ w' i') a k -> i = i'.
Proof.
  intros I ST i i' a k H1 H2. destruct (step_creating _ _ _ _ _ _ ST H1) as [P1 | (P1 & N1 & _ & _ & E1)], (step_creating _ _ _ _ _ _ ST H2) as [P2 | (P2 & N2 & _ & _ & E2)].
  - exact (v_one _ _ _ I _ _ _ _ P1 P2).
  - exfalso. apply N2. exists i, k. auto.
  - exfalso. apply N1. exists i', k. auto.
  - rewrite E1 in H2. sim. unfold upd_nat in H2. destruct (Nat.eqb_spec i' i); [auto|]. rewrite P2 in H2. destruct H2.
Qed.
Lemma step_free k0 h w e w' : winv k0 h w -> step w e w' -> forall i a k, creating _ (w_call _ w' i) a k -> w_tree _ w' a k = None.
Proof.
  intros I ST i a k H. destruct (step_creating _ _ _ _ _ _ ST H) as [P | (_ & _ & -> & E & _)]; [|exact E].
  pose proof (v_free _ _ _ I _ _ _ P) as F. destruct (step_tree _ _ _ a k ST) as [E | [(i' & o' & C1 & C2 & C3 & C4) | (o' & x & b & y & _ & _ & _ & _ & E & _)]]; [congruence| |exact E].
  exfalso. assert (i = i') by (eapply (v_one _ _ _ I); [exact P|rewrite C1; cbn; auto]). subst i'. rewrite C2 in H. sim. unfold upd_nat in H. rewrite Nat.eqb_refl in H. exact H.
Qed.
Lemma step_stored w e w' i a k o : step w e w' -> w_call _ w i = CStoring _ a k o -> w_call _ w' i = CGotLock _ a k o -> w_tree _ w' a k = Some o.
Proof.
  intros ST H1 H2. destruct ST; upd; eqs; try congruence; try solve [destruct H0; congruence].
  all: assert (X : CStoring key a0 k0 o0 = CStoring key a k o) by congruence; injection X as -> -> ->; congruence.
Qed.
Lemma step_live k0 h w e w' : winv k0 h w -> step w e w' -> forall o x, w_obj _ w' o = Some x -> running (o_once _ x) ->
    w_tree _ w' (o_client _ x) (o_key _ x) = Some o \/ w_call _ w' (o_call _ x) = CStoring _ (o_client _ x) (o_key _ x) o.
Proof.
  intros I ST o y H HR. destruct (step_back _ _ _ _ _ ST H) as [(x & HX & (E1 & E2 & E3 & _)) | (i & a & k & j & s & d & -> & HC & -> & HC' & ->)].
  - pose proof (v_next _ _ _ I _ _ HX) as LT. destruct (step_once _ _ _ _ _ ST HX LT) as (y' & Y1 & HO). assert (y' = y) by congruence; subst y'.
    assert (RX : running (o_once _ x)). { destruct HO as [<- | [(-> & _) | [(b & -> & _) | (b & _ & B & _)]]]; auto; try exact Logic.I. rewrite B in HR. destruct HR. }
    rewrite E1, E2, E3. destruct (v_live _ _ _ I _ _ HX RX) as [L|L].
    + destruct (step_tree _ _ _ (o_client _ x) (o_key _ x) ST) as [E | [(i' & o' & C1 & C2 & C3 & C4) | (o' & x' & b & y' & O1 & O2 & O3 & O4 & E & O5 & O6)]].
      * left. congruence.
      * pose proof (v_free _ _ _ I i' (o_client _ x) (o_key _ x)) as F. rewrite C1 in F. cbn in F. rewrite F in L; auto. discriminate.
      * exfalso. assert (o' = o).
        { destruct (v_live _ _ _ I _ _ O1) as [L'|L']; [rewrite O4; exact Logic.I|rewrite O2, O3 in L'; congruence|].
          rewrite (v_free _ _ _ I (o_call _ x') (o_client _ x) (o_key _ x)) in L; [discriminate|]. rewrite L'. cbn. auto. }
        subst o'. assert (y' = y) by congruence. subst y'. rewrite O6 in HR. exact HR.
    + pose proof (step_call _ _ _ _ _ ST L) as [C|C]; [right; exact C|left]. exact (step_stored _ _ _ _ _ _ _ ST L C).
  - right. sim. exact HC'.
Qed.
Lemma step_answered k0 h w e w' : winv k0 h w -> step w e w' -> forall i a k j s d, w_call _ w' i = CAnswered _ a k j s d ->
  exists t, In (t, LGrant key i k j s d) (server_history (push (tick w e) h)).
Proof.
  intros I ST i1 a1 k1 j1 s1 d1 H. destruct ST; upd; eqs; try discriminate;
    try (destruct (v_answered _ _ _ I _ _ _ _ _ _ H) as (t & HT); exists t; apply history_mono; exact HT).
  injection H as <- <- <- <- <-. exists (lm_now key (w_srv key w)). cbn. auto.
Qed.
Lemma step_grant k0 h w e w' : winv k0 h w -> step w e w' -> forall i j s d, w_grant _ w' i = Some (j, s, d) ->
  exists t k, In (t, LGrant key i k j s d) (server_history (push (tick w e) h)).
Proof.
  intros I ST i1 j1 s1 d1 H. destruct ST; upd; eqs; try discriminate;
    try (destruct (v_grant _ _ _ I _ _ _ _ H) as (t & k1 & HT); exists t, k1; apply history_mono; exact HT).
  - exists (lm_now key (w_srv key w)), k. cbn. auto.
  - destruct (v_answered _ _ _ I _ _ _ _ _ _ H0) as (t & HT). exists t, k. exact HT.
Qed.
Lemma step_loop k0 h w e w' : winv k0 h w -> step w e w' -> forall o x, w_obj _ w' o = Some x ->
  (over (o_loop _ x) -> o_once _ x = ODone) /\ (by_loop (o_once _ x) -> o_loop _ x = HQuit).
Proof.
  intros I ST o1 y H. pose proof (v_loop _ _ _ I) as VL. destruct ST; upd; eqs; eauto; sim.
  all: try (match goal with X : w_obj _ _ _ = Some _ |- _ => destruct (VL _ _ X) as [V1 V2] end).
  all: try solve [split; cbn; auto; try tauto; intros; try (apply V2 in H; congruence)].
  all: try solve [split; cbn; auto; intros Z; try (destruct Z; fail); repeat (match goal with X : o_loop _ _ = _ |- _ => rewrite X in * end); cbn in *; try tauto; try (specialize (V2 Z)); try discriminate; try congruence; auto].
  - destruct (answer_same x n r) as (_ & -> & _ & [-> | [E ->]] & _); [auto|]. split; [intros []|]. intros Z. apply V2 in Z. congruence.
  - split; [intros []|]. intros Z. apply V2 in Z. destruct H1 as [C | (r & C)]; congruence.
  - rewrite H1 in *. split; [intros Z; apply V1 in Z; discriminate|exact V2].
  - split; [auto|]. rewrite H2. intros [].
  - split; [|intros []]. intros Z. apply V1 in Z. congruence.
Qed.
Ltac rels := repeat match goal with H : w_rel _ _ ?r = _ |- _ => rewrite H in *; cbn [won deleted past_stop rel_of] in * end.
Lemma step_deleted w e w' r o : step w e w' -> deleted (w_rel _ w r) o -> deleted (w_rel _ w' r) o.
Proof. intros ST H. destruct ST; upd; eqs; auto; rels; cbn in *; auto; try contradiction. Qed.
Lemma step_won w e w' r o : step w e w' -> won (w_rel _ w r) o -> won (w_rel _ w' r) o.
Proof. intros ST H. destruct ST; upd; eqs; auto; rels; cbn in *; auto; try contradiction. Qed.
Lemma step_won_back w e w' r o : step w e w' -> won (w_rel _ w' r) o -> won (w_rel _ w r) o \/ exists x, w_obj _ w o = Some x /\ o_released _ x = false /\ w_rel _ w' = w_rel _ (with_rel _ w r (RStop o)).
Proof. intros ST H. destruct ST; upd; eqs; auto; rels; cbn in *; auto; try contradiction. subst. right. eauto. Qed.
Lemma step_rel k0 h w e w' : winv k0 h w -> step w e w' -> forall r o, rel_of (w_rel _ w' r) = Some o -> exists x, w_obj _ w' o = Some x /\
    (won (w_rel _ w' r) o -> o_released _ x = true) /\ (past_stop (w_rel _ w' r) o -> o_once _ x = ODone) /\ (deleted (w_rel _ w' r) o -> o_loop _ x = HEnded).
Proof.
  intros I ST r1 o1 H. pose proof (v_rel _ _ _ I) as VR. pose proof (v_loop _ _ _ I) as VL. destruct ST; upd; eqs; eauto; sim; cbn [rel_of] in H; eqs.
  all: try (match goal with X : rel_of (w_rel _ _ _) = Some _ |- _ => destruct (VR _ _ X) as (y & Y1 & Y2 & Y3 & Y4) end; uni).
  all: try solve [eexists; split; [first [reflexivity|eassumption]|]; sim; auto].
  all: try (eexists; split; [first [reflexivity|eassumption]|]; sim).
  all: try solve [split; [auto|split; intros Z; [specialize (Y3 Z)|specialize (Y4 Z)]; try (destruct H1 as [?|(?&?)]); congruence]].
  - destruct (answer_same y n r) as (_ & -> & -> & [-> | [E ->]] & _); [auto|]. split; [auto|]. split; [auto|]. intros Z. apply Y4 in Z. congruence.
  - exfalso. pose proof (v_next _ _ _ I _ _ Y1). lia.
  - destruct (v_got _ _ _ I _ _ _ _ H1) as (x & X1 & _). exists x. cbn. repeat split; auto; intros [].
  - cbn. repeat split; auto; intros [].
  - exfalso. congruence.
  - cbn. repeat split; auto; intros [].
  - destruct (VR r o1) as (y & Y1 & Y2 & Y3 & Y4); [rewrite H0; reflexivity|]. uni. rewrite H0 in Y2, Y3, Y4. cbn in *. repeat split; auto; intros [].
  - destruct (VR r o1) as (y & Y1 & Y2 & Y3 & Y4); [rewrite H0; reflexivity|]. uni. rewrite H0 in Y2, Y3, Y4. cbn in *. repeat split; auto; intros [].
  - destruct (VR r o1) as (y & Y1 & Y2 & Y3 & Y4); [rewrite H0; reflexivity|]. uni. rewrite H0 in Y2, Y3, Y4. cbn in *. repeat split; auto; intros [].
  - destruct (VR r o1) as (y & Y1 & Y2 & Y3 & Y4); [rewrite H0; reflexivity|]. exists y. rewrite H0 in Y2, Y3, Y4. cbn in *. repeat split; auto.
Qed.
Lemma step_won_one k0 h w e w' : winv k0 h w -> step w e w' -> forall r r' o, won (w_rel _ w' r) o -> won (w_rel _ w' r') o -> r = r'.
Proof.
  intros I ST r r' o H1 H2.
  assert (F : forall r0 x, won (w_rel _ w r0) o -> w_obj _ w o = Some x -> o_released _ x = true).
  { intros r0 x W X. destruct (v_rel _ _ _ I r0 o) as (y & Y1 & Y2 & _); [destruct (w_rel _ w r0); cbn in *; try contradiction; subst; reflexivity|]. uni. auto. }
  destruct (step_won_back _ _ _ _ _ ST H1) as [P1 | (x & X1 & X2 & X3)], (step_won_back _ _ _ _ _ ST H2) as [P2 | (y & Y1 & Y2 & Y3)].
  - exact (v_won _ _ _ I _ _ _ P1 P2).
  - rewrite (F _ _ P1 Y1) in Y2. discriminate.
  - rewrite (F _ _ P2 X1) in X2. discriminate.
  - rewrite X3 in H2. sim. unfold upd_nat in H2. destruct (Nat.eqb_spec r' r); [auto|]. rewrite (F _ _ H2 X1) in X2. discriminate.
Qed.
Lemma step_runner k0 h w e w' : winv k0 h w -> step w e w' -> forall o x r, w_obj _ w' o = Some x -> by_release (o_once _ x) r -> w_rel _ w' r = RStop o.
Proof.
  intros I ST o1 y r1 H HB. pose proof (v_runner _ _ _ I) as VR. destruct ST; upd; eqs; eauto; sim.
  all: try solve [match goal with X : w_obj _ _ _ = Some _ |- _ => pose proof (VR _ _ _ X HB); congruence end].
  all: try solve [destruct HB].
  all: try solve [cbn in HB; subst; auto].
  - destruct (answer_same x n r) as (_ & E & _). rewrite E in HB. eauto.
  - apply (VR _ _ _ H0). rewrite H1. exact HB.
  - pose proof (VR _ _ _ H HB) as E. rewrite H0 in E. injection E as <-. uni. rewrite H2 in HB. destruct HB.
Qed.
(** what was given up stays given up *)
Lemma given_up_mono k0 h w e w' s : winv k0 h w -> step w e w' -> given_up h w s -> given_up (push (tick w e) h) w' s.
Proof.
  intros I ST [(o & x & r & X1 & X2 & X3) | (t & i & a & k & k' & j & d & HT & HC)].
  - left. destruct (step_keep _ _ _ _ _ ST X1 (v_next _ _ _ I _ _ X1)) as (y & Y1 & (_ & _ & _ & _ & Y2 & _)). exists o, y, r.
    split; [exact Y1|]. split; [congruence|]. exact (step_deleted _ _ _ _ _ ST X3).
  - right. exists t, i, a, k, k', j, d. split; [apply history_mono; exact HT|]. exact (step_call _ _ _ _ _ ST HC).
Qed.
Lemma step_dels k0 h w e w' : winv k0 h w -> step w e w' -> forall k j s, In (k, j, s) (w_dels _ w') -> given_up (push (tick w e) h) w' s.
Proof.
  intros I ST k1 j1 s1 H. destruct (in_dec (fun a b : key * nat * string => ltac:(repeat decide equality)) (k1, j1, s1) (w_dels _ w)) as [Y|N].
  - eapply given_up_mono; eauto. exact (v_dels _ _ _ I _ _ _ Y).
  - destruct ST; sim; try contradiction.
    + exfalso. apply N. rewrite H1. apply in_app_or in H. apply in_or_app. destruct H; cbn; auto.
    + destruct H as [[= -> -> ->]|H]; [|contradiction]. destruct (v_grant _ _ _ I _ _ _ _ H1) as (t & k & HT).
      right. exists t, i, a, k, k1, j1, d. split; [exact HT|exact H0].
    + destruct H as [E|H]; [|contradiction]. left. exists o, x, r. split; [assumption|]. split; [congruence|]. upd. rewrite Nat.eqb_refl. reflexivity.
Qed.
Lemma step_handled k0 h w e w' : winv k0 h w -> step w e w' -> forall t k j s ok, In (t, LRelease key k j s ok) (server_history (push (tick w e) h)) ->
  given_up (push (tick w e) h) w' s.
Proof.
  intros I ST t1 k1 j1 s1 ok1 H.
  assert (P : In (t1, LRelease key k1 j1 s1 ok1) (server_history h) \/ In (k1, j1, s1) (w_dels _ w)).
  { destruct ST; cbn in H; auto; destruct H as [H|H]; auto; try discriminate; try (injection H as <- ->; cbn in *; contradiction).
    right. rewrite H1. apply in_or_app. right. left. congruence. }
  eapply given_up_mono; eauto. destruct P as [P|P]; [exact (v_handled _ _ _ I _ _ _ _ _ P)|exact (v_dels _ _ _ I _ _ _ P)].
Qed.
Lemma step_sent k0 h w e w' : winv k0 h w -> step w e w' -> forall r o x, deleted (w_rel _ w' r) o -> w_obj _ w' o = Some x ->
    (In (o_key _ x, o_lock _ x, o_sess _ x) (w_dels _ w') /\ (forall o', w_rel _ w' r <> RNil o')) \/
    exists t ok, In (t, LRelease key (o_key _ x) (o_lock _ x) (o_sess _ x) ok) (server_history (push (tick w e) h)).
Proof.
  intros I ST r1 o1 y HD HY.
  destruct (step_back _ _ _ _ _ ST HY) as [(x & HX & (E1 & E2 & E3 & E4 & E5 & E6)) | (i & a & k & j & s & d & -> & HC & -> & HC' & ->)].
  - rewrite E3, E4, E5. clear HY E1 E2 E3 E4 E5 E6 y.
    assert (P : deleted (w_rel _ w r1) o1 -> 
      (In (o_key _ x, o_lock _ x, o_sess _ x) (w_dels _ w) /\ (forall o', w_rel _ w r1 <> RNil o')) \/
      exists t ok, In (t, LRelease key (o_key _ x) (o_lock _ x) (o_sess _ x) ok) (server_history (push (tick w e) h))).
    { intros D. destruct (v_sent _ _ _ I _ _ _ D HX) as [L | (t & ok & HT)]; [left; exact L|right; exists t, ok; apply history_mono; exact HT]. }
    destruct ST; sim; auto.
    + destruct (P HD) as [[L1 L2]|R]; [|right; exact R]. rewrite H0 in L1. apply in_app_or in L1.
      destruct L1 as [L1 | [[= <- <- <-] | L1]]; [left; split; [apply in_or_app; auto|exact L2] |  | left; split; [apply in_or_app; auto|exact L2]].
      right. exists (lm_now key (w_srv key w)), ok. cbn. auto.
    + destruct (P HD) as [[L1 L2]|R]; [|right; exact R]. left. split; [right; exact L1|exact L2].
    + upd. eqs; auto. destruct HD.
    + upd. eqs; auto. destruct HD.
    + upd. eqs; auto. destruct HD.
    + upd. eqs; auto. destruct HD.
    + upd. eqs.
      * cbn in HD. subst o1. uni. left. split; [left; reflexivity|discriminate].
      * destruct (P HD) as [[L1 L2]|R]; [|right; exact R]. left. split; [right; exact L1|exact L2].
    + upd. eqs; auto. cbn in HD. subst o1. uni. destruct P as [[L1 L2]|R]; [rewrite H; reflexivity|contradiction|right; exact R].
    + upd. eqs; auto. cbn in HD. subst o1. uni. destruct P as [[L1 L2]|R]; [rewrite H; reflexivity| |right; exact R]. left. split; [exact L1|discriminate].
  - exfalso.
    assert (P : exists x, w_obj _ w (w_n _ w) = Some x).
    { clear HY HC'. inversion ST; subst; sim; try (destruct (v_rel _ _ _ I r1 (w_n _ w)) as (z & Z & _); [destruct (w_rel _ w r1); cbn in *; try contradiction; subst; reflexivity|exists z; exact Z]); try discriminate.
      all: upd; eqs; try (destruct (v_rel _ _ _ I r1 (w_n _ w)) as (z & Z & _); [destruct (w_rel _ w r1); cbn in *; try contradiction; subst; reflexivity|exists z; exact Z]); cbn in HD; try contradiction; subst; eauto. }
    destruct P as (x & X). pose proof (v_next _ _ _ I _ _ X). lia.
Qed.
Lemma init_inv k0 : winv k0 [] (w_init key k0).
Proof. constructor; cbn; intros; try discriminate; try contradiction; try (destruct H; fail); try constructor. Qed.
Lemma step_inv k0 h w e w' : winv k0 h w -> step w e w' -> winv k0 (push (tick w e) h) w'.
Proof.
  intros I ST. constructor.
  - exact (step_srv _ _ _ _ _ (v_srv _ _ _ I) ST).
  - exact (step_next _ _ _ ST (v_next _ _ _ I)).
  - exact (step_obj _ _ _ _ _ I ST).
  - exact (step_storing _ _ _ _ _ I ST).
  - exact (step_got _ _ _ _ _ I ST).
  - exact (step_tree_inv _ _ _ _ _ I ST).
  - exact (step_live _ _ _ _ _ I ST).
  - exact (step_one _ _ _ _ _ I ST).
  - exact (step_free _ _ _ _ _ I ST).
  - exact (step_answered _ _ _ _ _ I ST).
  - exact (step_grant _ _ _ _ _ I ST).
  - exact (step_loop _ _ _ _ _ I ST).
  - exact (step_rel _ _ _ _ _ I ST).
  - exact (step_won_one _ _ _ _ _ I ST).
  - exact (step_runner _ _ _ _ _ I ST).
  - exact (step_dels _ _ _ _ _ I ST).
  - exact (step_handled _ _ _ _ _ I ST).
  - exact (step_sent _ _ _ _ _ I ST).
Qed.
Lemma exec_winv k0 h w : exec k0 h w -> winv k0 h w.
Proof. induction 1 as [|h w e w' HX IH HS]; [apply init_inv|]. exact (step_inv _ _ _ _ _ IH HS). Qed.
End Inv.
