(** C63: a Release waits for every ObtainLock of its client with a pair in common; two clients can wait for each other. *)
From Coq Require Import String List Bool Arith Lia.
From Verif Require Import DestroySync Locker SpecLocker LockerProofs LockerTrace LockClient SpecLockClient LockClientInv LockClientHist LockClientValid LockClientDone.
Import ListNotations.
Local Open Scope nat_scope.
Local Open Scope list_scope.

Section Jam.
Context {key : Type}.
Variable key_dec : forall a b : key, {a = b} + {a <> b}.
Variable shares : key -> key -> Prop.
Notation world := (world key).
Notation step := (w_step key key_dec shares).
Notation exec := (w_exec key key_dec shares).
Notation run := (w_run key_dec shares).
Notation winv := (winv key_dec).
Notation history := (list (nat * w_event key)).
Implicit Types (w : world) (h : history).
Ltac sim := cbn [with_srv with_obj with_newobj with_tree with_call with_grant with_rel with_msgs w_srv w_n w_obj w_tree w_call w_grant w_rel w_beats w_dels
  set_loop set_ticker set_timeout set_sent set_once set_released o_call o_client o_key o_lock o_sess o_time o_loop o_next o_tick o_outn o_out o_sent o_once o_released new_lock] in *.
Ltac upd := sim; unfold upd_nat, upd_key in *; sim.
Ltac eqs := repeat (match goal with
  | H : context [Nat.eqb ?a ?b] |- _ => destruct (Nat.eqb_spec a b); [subst|]
  | |- context [Nat.eqb ?a ?b] => destruct (Nat.eqb_spec a b); [subst|]
  end; sim).

Lemma creating_on w e w' i a k : step w e w' -> creating _ (w_call _ w i) a k -> (forall o, e <> Some (EObtained _ i o)) -> e <> Some (ENoLock _ i) -> creating _ (w_call _ w' i) a k.
Proof.
  intros ST C N1 N2. destruct ST; upd; eqs; auto; try solve [exfalso; eapply N1; reflexivity]; try solve [exfalso; apply N2; reflexivity];
    match goal with X : w_call _ _ _ = _ |- _ => rewrite X in C end; try solve [destruct C]; exact C.
Qed.
(** while the onCreate of call [i] runs, the Done() of a lock of the same client with a common pair stays open *)
Lemma running_on w e w' i a k' o x : step w e w' -> w_obj _ w o = Some x -> o < w_n _ w -> creating _ (w_call _ w i) a k' -> o_client _ x = a -> (k' = o_key _ x \/ shares k' (o_key _ x)) ->
  running (o_once _ x) -> exists y, w_obj _ w' o = Some y /\ same_lock y x /\ running (o_once _ y).
Proof.
  intros ST X LT C EA SH R. destruct (step_keep _ _ _ _ _ _ _ ST X LT) as (y & Y & SL). exists y. split; [exact Y|]. split; [exact SL|].
  destruct (step_once _ _ _ _ _ _ _ ST X LT) as (y' & Y' & HO). assert (y' = y) by congruence; subst y'.
  destruct HO as [-> | [(_ & b & ->) | [(b & B1 & B2 & B3 & _) | (b & B1 & _)]]]; [exact R|exact Logic.I| |rewrite B1 in R; destruct R].
  exfalso. apply B3. exists i, k'. rewrite EA. auto.
Qed.
Lemma release_waits k0 h w i a k' o x : exec k0 h w -> creating _ (w_call _ w i) a k' -> w_obj _ w o = Some x -> o_client _ x = a -> (k' = o_key _ x \/ shares k' (o_key _ x)) ->
  running (o_once _ x) -> forall h' w', run w h' w' -> ~ obtained i h' ->
  creating _ (w_call _ w' i) a k' /\ exists y, w_obj _ w' o = Some y /\ same_lock y x /\ running (o_once _ y).
Proof.
  intros HX C X EA SH R h' w' HR. induction HR as [|h' w1 e w2 HR IH HS]; intros NO.
  - split; [exact C|]. exists x. split; [exact X|]. split; [apply same_refl|exact R].
  - assert (NO1 : ~ obtained i h'). { intros [(o1 & Z)|Z]; apply NO; [left; exists o1|right]; apply happened_mono; exact Z. }
    destruct (IH NO1) as (C1 & y & Y1 & Y2 & Y3). pose proof Y2 as (_ & E2 & E3 & _).
    pose proof (v_next _ _ _ _ (exec_winv _ _ _ _ _ (exec_run _ _ _ _ _ _ _ HX HR)) _ _ Y1) as LT. split.
    + eapply creating_on; eauto.
      * intros o1 ->. apply NO. left. exists o1. eexists. left. reflexivity.
      * intros ->. apply NO. right. eexists. left. reflexivity.
    + destruct (running_on _ _ _ _ _ _ _ _ HS Y1 LT C1) as (z & Z1 & Z2 & Z3); [congruence|rewrite E3; exact SH|exact Y3|].
      exists z. split; [exact Z1|]. split; [|exact Z3]. destruct Y2 as (A1 & A2 & A3 & A4 & A5 & A6), Z2 as (B1 & B2 & B3 & B4 & B5 & B6). repeat split; congruence.
Qed.
(** in terms of the calls *)
Lemma release_after k0 h w i a k' o x : exec k0 h w -> creating _ (w_call _ w i) a k' -> w_obj _ w o = Some x -> o_client _ x = a -> (k' = o_key _ x \/ shares k' (o_key _ x)) ->
  running (o_once _ x) -> forall h' w', run w h' w' -> ~ obtained i h' ->
  ~ happened (EDone _ o) (h' ++ h) /\ ~ happened (EDelete _ o) (h' ++ h) /\ forall r, happened (ERelease _ r o) (h' ++ h) -> ~ happened (EReturn _ r true) (h' ++ h).
Proof.
  intros HX C X EA SH R h' w' HR NO. destruct (release_waits _ _ _ _ _ _ _ _ HX C X EA SH R _ _ HR NO) as (_ & y & Y1 & _ & Y3).
  pose proof (exec_run _ _ _ _ _ _ _ HX HR) as HX'. pose proof (exec_winv _ _ _ _ _ HX') as I.
  assert (ND : o_once _ y <> ODone) by (intros E; rewrite E in Y3; exact Y3).
  assert (NR : forall r, ~ past_stop (w_rel _ w' r) o).
  { intros r P. destruct (v_rel _ _ _ _ I r o) as (z & Z1 & _ & Z3 & _); [destruct (w_rel _ w' r); cbn in *; try contradiction; subst; reflexivity|]. apply ND. apply Z3 in P. congruence. }
  rewrite (tracks_exec _ _ _ _ _ _ _ (track_done _ _ k0 o) HX'), (tracks_exec _ _ _ _ _ _ _ (track_deleted _ _ k0 o) HX'). split; [|split].
  - intros (z & Z1 & Z2). congruence.
  - intros (r & D). apply (NR r). destruct (w_rel _ w' r); cbn in *; auto; contradiction.
  - intros r. rewrite (tracks_exec _ _ _ _ _ _ _ (track_release _ _ k0 r o) HX'), (tracks_exec _ _ _ _ _ _ _ (track_nil _ _ k0 r) HX').
    intros E (o' & N). rewrite N in E. injection E as ->. apply (NR r). rewrite N. reflexivity.
Qed.

(** *** the calls under way, read off the history *)
Lemma track_nolock k0 i : tracks key_dec shares k0 (ENoLock _ i) (fun w => exists a k b, w_call _ w i = CNoLock _ a k b).
Proof.
  split; [intros (a & k & b & [=])|]. intros h w e w' I ST. destruct ST; upd; try solve [split; [intros Z; left; exact Z|intros [Z|Z]; [exact Z|discriminate Z]]].
  all: destruct (Nat.eqb_spec i i0) as [->|N]; try solve [split; [intros Z; left; exact Z|intros [Z|Z]; [exact Z|discriminate Z]]].
  all: try solve [match goal with X : w_call _ _ _ = _ |- _ => rewrite X end; cbn; split; [intros (? & ? & ? & [=])|intros [(? & ? & ? & [=])|[=]]]].
  all: try solve [split; [intros Z; left; exact Z|]; intros [Z|[= Z]]; [exact Z|congruence]].
  all: split; [intros _; right; reflexivity|intros _; eauto].
Qed.
Lemma obtained_iff k0 h w i : exec k0 h w -> (obtained i h <-> (exists a k o, w_call _ w i = CGotLock _ a k o) \/ exists a k b, w_call _ w i = CNoLock _ a k b).
Proof.
  intros HX. unfold obtained. rewrite (tracks_exec _ _ _ _ _ _ _ (track_nolock k0 i) HX). split.
  - intros [(o & Z)|Z]; [left|right; exact Z]. rewrite (tracks_exec _ _ _ _ _ _ _ (track_obtained _ _ k0 i o) HX) in Z. destruct Z as (a & k & E). eauto.
  - intros [(a & k & o & E)|Z]; [left|right; exact Z]. exists o. rewrite (tracks_exec _ _ _ _ _ _ _ (track_obtained _ _ k0 i o) HX). eauto.
Qed.
Lemma not_blocked k0 h w a k : exec k0 h w -> (forall i k', happened (EObtain _ i a k') h -> k' = k \/ shares k' k -> obtained i h) -> ~ blocked _ shares w a k.
Proof.
  intros HX HA (i & k' & C & SH).
  assert (E : caller (w_call _ w i) = Some (a, k')). { destruct (w_call _ w i); cbn in *; try contradiction; destruct C; subst; reflexivity. }
  assert (O : obtained i h). { apply (HA i k'); [rewrite (tracks_exec _ _ _ _ _ _ _ (track_obtain _ _ k0 i a k') HX); exact E|exact SH]. }
  rewrite (obtained_iff _ _ _ _ HX) in O. destruct O as [(a1 & k1 & o & O) | (a1 & k1 & b & O)]; rewrite O in C; exact C.
Qed.
Definition posted (c : ocall key) (k : key) : Prop :=
  match c with CPosted _ _ k' | CAnswered _ _ k' _ _ _ | CStoring _ _ k' _ | CGotLock _ _ k' _ | CNoLock _ _ k' true => k' = k | _ => False end.
Lemma posted_on w e w' i k : step w e w' -> posted (w_call _ w i) k -> posted (w_call _ w' i) k.
Proof.
  intros ST C. destruct ST; upd; eqs; auto; match goal with X : w_call _ _ _ = _ |- _ => rewrite X in C end; try solve [destruct C]; exact C.
Qed.
Lemma joined_posted k0 h w : exec k0 h w -> forall t i k, In (t, LJoin key i k) (server_history h) -> posted (w_call _ w i) k.
Proof.
  induction 1 as [|h w e w' HX IH HS]; intros t i k HI; [destruct HI|].
  assert (P : In (t, LJoin key i k) (server_history h) \/ e = Some (EServer _ (LJoin key i k))).
  { destruct e as [e|]; [|left; exact HI]. destruct e; cbn in HI; auto. destruct HI as [[= _ ->]|HI]; auto. }
  destruct P as [P| ->]; [eapply posted_on; eauto|]. eapply posted_on; [exact HS|]. inversion HS; subst; [contradiction|].
  match goal with X : _ \/ _ |- _ => destruct X as [X|X]; rewrite X; reflexivity end.
Qed.
Lemma joined_creating k0 h w t i k a : exec k0 h w -> In (t, LJoin key i k) (server_history h) -> happened (EObtain _ i a k) h -> ~ obtained i h -> creating _ (w_call _ w i) a k.
Proof.
  intros HX HJ HO NO. apply (joined_posted _ _ _ HX) in HJ. rewrite (tracks_exec _ _ _ _ _ _ _ (track_obtain _ _ k0 i a k) HX) in HO. rewrite (obtained_iff _ _ _ _ HX) in NO.
  destruct (w_call _ w i) eqn:E; cbn in *; try discriminate; try contradiction; try (injection HO as <- <-; auto).
  - destruct NO. eauto.
  - destruct NO. eauto.
Qed.
Lemma release_blocked k0 h w t i a k' o x : exec k0 h w -> w_obj _ w o = Some x ->
  In (t, LJoin key i k') (server_history h) -> happened (EObtain _ i a k') h -> ~ obtained i h -> o_client _ x = a -> (k' = o_key _ x \/ shares k' (o_key _ x)) ->
  (forall r, ~ happened (ERelease _ r o) h) -> ~ unconfirmed h o (o_time _ x) (lm_now key (w_srv _ w)) -> ~ refused h x ->
  forall h' w', run w h' w' -> ~ obtained i (h' ++ h) ->
  ~ happened (EDone _ o) (h' ++ h) /\ ~ happened (EDelete _ o) (h' ++ h) /\ forall r, happened (ERelease _ r o) (h' ++ h) -> ~ happened (EReturn _ r true) (h' ++ h).
Proof.
  intros HX X HJ HO NO EA SH N1 N2 N3 h' w' HR NO'. eapply release_after; eauto.
  - eapply joined_creating; eauto.
  - destruct (o_once _ x) eqn:E; try exact Logic.I; exfalso; (destruct (d_once _ _ (exec_dinv _ _ _ _ _ HX) _ _ X) as [(r & C)|[C|C]]; [congruence|exact (N1 r C)|exact (N2 C)|exact (N3 C)]).
  - intros [(o1 & tt & Z)|(tt & Z)]; apply NO'; [left; exists o1, tt|right; exists tt]; apply in_or_app; auto.
Qed.

(** ** The deadlock *)
Record jam h w (r1 o1 i1 : nat) (x1 x2 : lobj key) : Prop := {
  j_obj : exists y, w_obj _ w o1 = Some y /\ same_lock y x1 /\ running (o_once _ y);
  j_call : w_call _ w i1 = CPosted _ (o_client _ x1) (o_key _ x2);
  j_rel : w_rel _ w r1 = RStop o1;
  j_hold : holder key_dec (server_history h) (o_key _ x1) = Some (o_lock _ x1, o_sess _ x1) }.
Lemma holder_on k0 h w e w' r o i x x2 : exec k0 h w -> step w e w' -> jam h w r o i x x2 -> (forall s, e <> Some (EServer _ (LExpire key (o_key _ x) s))) ->
  holder key_dec (server_history (push (tick w e) h)) (o_key _ x) = Some (o_lock _ x, o_sess _ x).
Proof.
  intros HX ST J NE. pose proof (exec_winv _ _ _ _ _ HX) as I. pose proof (step_inv _ _ _ _ _ _ _ I ST) as I'. pose proof (j_hold _ _ _ _ _ _ _ J) as H.
  destruct (j_obj _ _ _ _ _ _ _ J) as (y & Y1 & Y2 & Y3).
  destruct e as [e|]; [|exact H]. destruct e; try exact H. cbn [tick push server_history]. pose proof (v_srv _ _ _ _ I') as XS. cbn [tick push server_history] in XS.
  destruct e; cbn; auto; unfold same_key.
  - destruct (key_dec k (o_key _ x)); [|exact H]. subst k. pose proof (c27 _ _ _ _ _ _ _ _ _ _ XS). congruence.
  - destruct ok; [|exact H]. destruct (key_dec k (o_key _ x)); [|exact H]. subst k. exfalso. destruct (c28_release _ _ _ _ _ _ _ _ _ XS) as [C _]. destruct (C eq_refl) as (j' & C1).
    rewrite H in C1. injection C1 as _ <-. assert (G : given_up h w (o_sess _ x)).
    { inversion ST; subst; [contradiction|]. eapply (v_dels _ _ _ _ I). match goal with X : w_dels _ _ = _ |- _ => rewrite X end. apply in_or_app. right. left. reflexivity. }
    destruct Y2 as (E1 & _ & _ & _ & E5 & _). rewrite <- E5 in G. revert G. apply (not_given_up _ _ _ _ _ _ _ HX Y1).
    rewrite (tracks_exec _ _ _ _ _ _ _ (track_deleted _ _ k0 o) HX). intros (r' & D).
    destruct (v_rel _ _ _ _ I r' o) as (z & Z1 & _ & Z3 & _); [destruct (w_rel _ w r'); cbn in *; try contradiction; subst; reflexivity|].
    assert (z = y) by congruence. subst z. rewrite Z3 in Y3; [exact Y3|]. destruct (w_rel _ w r'); cbn in *; auto; contradiction.
  - destruct (key_dec k (o_key _ x)); [|exact H]. subst k. exfalso. eapply NE. reflexivity.
Qed.
Lemma jam_on k0 h w e w' r1 o1 i1 x1 r2 o2 i2 x2 : exec k0 h w -> step w e w' -> jam h w r1 o1 i1 x1 x2 -> jam h w r2 o2 i2 x2 x1 ->
  shares (o_key _ x2) (o_key _ x1) -> (forall k s, e <> Some (EServer _ (LExpire key k s))) -> e <> Some (ENoLock _ i1) -> jam (push (tick w e) h) w' r1 o1 i1 x1 x2.
Proof.
  intros HX ST J1 J2 SH NE NL. pose proof (exec_winv _ _ _ _ _ HX) as I. destruct (j_obj _ _ _ _ _ _ _ J1) as (y & Y1 & Y2 & Y3). pose proof Y2 as (_ & E2 & E3 & _).
  constructor.
  - destruct (running_on _ _ _ i1 (o_client _ x1) (o_key _ x2) _ _ ST Y1 (v_next _ _ _ _ I _ _ Y1)) as (z & Z1 & Z2 & Z3); [rewrite (j_call _ _ _ _ _ _ _ J1); cbn; auto|exact E2|rewrite E3; auto|exact Y3|].
    exists z. split; [exact Z1|]. split; [|exact Z3]. destruct Y2 as (A1 & A2 & A3 & A4 & A5 & A6), Z2 as (B1 & B2 & B3 & B4 & B5 & B6). repeat split; congruence.
  - pose proof (j_call _ _ _ _ _ _ _ J1) as C. pose proof (j_hold _ _ _ _ _ _ _ J2) as H2. pose proof (step_inv _ _ _ _ _ _ _ I ST) as I'. pose proof (v_srv _ _ _ _ I') as XS.
    destruct ST; upd; eqs; auto; try congruence.
    exfalso. assert (k = o_key _ x2) by congruence. subst k. cbn in XS. pose proof (c27 _ _ _ _ _ _ _ _ _ _ XS). congruence.
  - pose proof (j_rel _ _ _ _ _ _ _ J1) as R. destruct ST; upd; eqs; auto; try congruence.
    exfalso. assert (o = o1) by congruence. subst o. assert (x = y) by congruence. subst x.
    match goal with X : o_once _ _ = ODone |- _ => rewrite X in Y3 end. exact Y3.
  - eapply holder_on; eauto.
Qed.
Lemma deadlock k0 h w r1 o1 i1 x1 r2 o2 i2 x2 : exec k0 h w -> jam h w r1 o1 i1 x1 x2 -> jam h w r2 o2 i2 x2 x1 ->
  shares (o_key _ x2) (o_key _ x1) -> shares (o_key _ x1) (o_key _ x2) ->
  forall h' w', run w h' w' -> (forall t k s, ~ In (t, EServer _ (LExpire key k s)) h') -> ~ happened (ENoLock _ i1) h' -> ~ happened (ENoLock _ i2) h' ->
  jam (h' ++ h) w' r1 o1 i1 x1 x2 /\ jam (h' ++ h) w' r2 o2 i2 x2 x1.
Proof.
  intros HX J1 J2 S1 S2 h' w' HR. induction HR as [|h' wa e wb HR IH HS]; intros NE N1 N2; [auto|].
  destruct IH as [K1 K2].
  - intros t k s HI. eapply NE. destruct e; cbn; [right|]; exact HI.
  - intros Z. apply N1. apply happened_mono. exact Z.
  - intros Z. apply N2. apply happened_mono. exact Z.
  - pose proof (exec_run _ _ _ _ _ _ _ HX HR) as HX'.
    assert (A1 : forall k s, e <> Some (EServer _ (LExpire key k s))) by (intros k s ->; eapply NE; left; reflexivity).
    assert (A2 : e <> Some (ENoLock _ i1)) by (intros ->; apply N1; eexists; left; reflexivity).
    assert (A3 : e <> Some (ENoLock _ i2)) by (intros ->; apply N2; eexists; left; reflexivity).
    pose proof (jam_on _ _ _ _ _ _ _ _ _ _ _ _ _ HX' HS K1 K2 S1 A1 A2) as L1. pose proof (jam_on _ _ _ _ _ _ _ _ _ _ _ _ _ HX' HS K2 K1 S2 A1 A3) as L2.
    destruct e; cbn [tick push] in *; auto.
Qed.
Lemma jam_no_return k0 h w r o i x x2 : exec k0 h w -> jam h w r o i x x2 -> ~ returned r h.
Proof.
  intros HX J. unfold returned, is_nil. rewrite (tracks_exec _ _ _ _ _ _ _ (track_nil _ _ k0 r) HX), (tracks_exec _ _ _ _ _ _ _ (track_error _ _ k0 r) HX). unfold is_nil.
  rewrite (j_rel _ _ _ _ _ _ _ J). intros [(? & [=])|(? & [[=]|[=]])].
Qed.
End Jam.
