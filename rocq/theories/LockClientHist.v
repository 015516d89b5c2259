(** What the events of a history say about the state of the lock clients, and C60. *)
From Coq Require Import String List Bool Arith Lia.
From Verif Require Import DestroySync Locker SpecLocker LockerProofs LockerTrace LockClient SpecLockClient LockClientInv.
Import ListNotations.
Local Open Scope nat_scope.
Local Open Scope list_scope.

Section Hist.
Context {key : Type}.
Variable key_dec : forall a b : key, {a = b} + {a <> b}.
Variable shares : key -> key -> Prop.
Notation world := (world key).
Notation step := (w_step key key_dec shares).
Notation exec := (w_exec key key_dec shares).
Notation winv := (winv key_dec).
Notation history := (list (nat * w_event key)).
Implicit Types (w : world) (h : history).

(** ** From events to states *)
Lemma split_in {A} (x : A) l : In x l -> exists a b, l = a ++ x :: b. Proof. apply in_split. Qed.
Lemma exec_split k0 h w : exec k0 h w -> forall newer t e older, h = newer ++ (t, e) :: older ->
  exists w1 w2, exec k0 older w1 /\ step w1 (Some e) w2 /\ t = lm_now key (w_srv _ w1).
Proof.
  induction 1 as [|h w e' w' HX IH HS]; intros newer t e older E; [destruct newer; discriminate|].
  destruct e' as [e'|]; cbn [push] in E; [|eauto].
  destruct newer as [|z newer]; cbn in E; injection E; intros; subst; [eauto|].
  eapply IH. reflexivity.
Qed.
(** [ev] happened exactly when [P] holds *)
Definition tracks (k0 : key) (ev : w_event key) (P : world -> Prop) : Prop :=
  ~ P (w_init key k0) /\ forall h w e w', winv k0 h w -> step w e w' -> (P w' <-> P w \/ e = Some ev).
Lemma tracks_exec k0 ev P h w : tracks k0 ev P -> exec k0 h w -> (happened ev h <-> P w).
Proof.
  intros [T0 T1]. induction 1 as [|h w e w' HX IH HS].
  - split; [intros (t & [])|intros Z; contradiction].
  - rewrite (T1 h w e w' (exec_winv _ _ _ _ _ HX) HS), <- IH. destruct e as [e|]; cbn [push]; split.
    + intros (t & [[= <- ->] | HI]); [right; reflexivity|left; exists t; exact HI].
    + intros [(t & HI)|[= ->]]; [exists t; right; exact HI|eexists; left; reflexivity].
    + auto.
    + intros [Z|Z]; [exact Z|discriminate].
Qed.
Lemma after_by k0 ev P e h w : tracks k0 ev P -> (forall h1 w1 w2, winv k0 h1 w1 -> step w1 (Some e) w2 -> P w1) -> exec k0 h w -> after ev e h.
Proof.
  intros T HB HX newer t older E. destruct (exec_split _ _ _ HX _ _ _ _ E) as (w1 & w2 & X1 & S1 & _).
  rewrite (tracks_exec _ _ _ _ _ T X1). eapply HB; eauto. exact (exec_winv _ _ _ _ _ X1).
Qed.
Lemma never_by k0 ev P e h w : tracks k0 ev P -> (forall h1 w1 w2, winv k0 h1 w1 -> step w1 (Some e) w2 -> ~ P w1) -> exec k0 h w -> never_after ev e h.
Proof.
  intros T HB HX newer t older E (t' & HI). apply in_split in HI. destruct HI as (n1 & n2 & ->). rewrite <- app_assoc in E. cbn in E.
  destruct (exec_split _ _ _ HX _ _ _ _ E) as (w1 & w2 & X1 & S1 & _). apply (HB _ _ _ (exec_winv _ _ _ _ _ X1) S1).
  rewrite <- (tracks_exec _ _ _ _ _ T X1). exists t. apply in_or_app. right. left. reflexivity.
Qed.

Ltac sim := cbn [with_srv with_obj with_newobj with_tree with_call with_grant with_rel with_msgs w_srv w_n w_obj w_tree w_call w_grant w_rel w_beats w_dels
  set_loop set_ticker set_timeout set_sent set_once set_released o_call o_client o_key o_lock o_sess o_time o_loop o_next o_tick o_outn o_out o_sent o_once o_released new_lock] in *.
Ltac upd := sim; unfold upd_nat, upd_key in *; sim.
Ltac eqs := repeat (match goal with
  | H : context [Nat.eqb ?a ?b] |- _ => destruct (Nat.eqb_spec a b); [subst|]
  | |- context [Nat.eqb ?a ?b] => destruct (Nat.eqb_spec a b); [subst|]
  | H : context [key_dec ?a ?b] |- _ => destruct (key_dec a b); [subst|]
  | |- context [key_dec ?a ?b] => destruct (key_dec a b); [subst|]
  | H : Some _ = Some _ |- _ => injection H as H; subst
  | H : Some _ = None |- _ => discriminate H
  | H : None = Some _ |- _ => discriminate H
  end; sim).
Ltac uni := repeat match goal with
  | H1 : ?a = Some ?x, H2 : ?a = Some ?y |- _ => tryif constr_eq x y then clear H2 else (assert (x = y) by congruence; subst; clear H2)
  end.
Ltac side := try solve [split; [intros Z; left; exact Z|intros [Z|Z]; [exact Z|discriminate Z]]].

Definition is_done w o := exists x, w_obj _ w o = Some x /\ o_once _ x = ODone.
Definition is_ended w o := exists x, w_obj _ w o = Some x /\ o_loop _ x = HEnded.
Definition is_deleted w o := exists r, deleted (w_rel _ w r) o.
Definition is_nil w r := exists o, w_rel _ w r = RNil o.
Definition caller (c : ocall key) : option (nat * key) :=
  match c with CUnused _ => None | CCalled _ a k | CPosted _ a k | CAnswered _ a k _ _ _ | CStoring _ a k _ | CGotLock _ a k _ | CNoLock _ a k _ => Some (a, k) end.

Lemma old_obj k0 h w : winv k0 h w -> w_obj _ w (w_n _ w) = None.
Proof. intros I. destruct (w_obj _ w (w_n _ w)) eqn:E; [|reflexivity]. apply (v_next _ _ _ _ I) in E. lia. Qed.
Lemma track_done k0 o : tracks k0 (EDone _ o) (fun w => is_done w o).
Proof.
  split; [intros (x & [=] & _)|]. intros h w e w' I ST. unfold is_done. destruct ST; upd; side;
    (destruct (Nat.eqb_spec o o0) as [->|N] || destruct (Nat.eqb_spec o (w_n key w)) as [->|N]); side.
  all: try solve [split; [intros (y & [= <-] & Y); left; eexists; split; [eassumption|]; sim; congruence|
                          intros [(y & Y1 & Y2)|[=]]; uni; eexists; split; [reflexivity|]; sim; congruence]].
  - destruct (answer_same x n r) as (_ & E & _). split; [intros (y & [= <-] & Y); left; exists x; split; congruence|].
    intros [(y & Y1 & Y2)|[=]]. uni. eexists; split; [reflexivity|]. congruence.
  - pose proof (old_obj _ _ _ I). split; [intros (y & [= <-] & Y); discriminate|]. intros [(y & Y1 & Y2)|[=]]. congruence.
  - split; [intros _; right; reflexivity|]. intros _. eexists; split; reflexivity.
  - split; [intros (y & Y1 & Y2); left; eauto|]. intros [(y & Y1 & Y2)|[= Z]]; [eauto|congruence].
Qed.
Lemma track_ended k0 o : tracks k0 (EEnded _ o) (fun w => is_ended w o).
Proof.
  split; [intros (x & [=] & _)|]. intros h w e w' I ST. unfold is_ended. destruct ST; upd; side;
    (destruct (Nat.eqb_spec o o0) as [->|N] || destruct (Nat.eqb_spec o (w_n key w)) as [->|N]); side.
  all: try solve [split; [intros (y & [= <-] & Y); left; eexists; split; [eassumption|]; sim; congruence|
                          intros [(y & Y1 & Y2)|[=]]; uni; eexists; split; [reflexivity|]; sim; try (destruct H0 as [?|(?&?)]); congruence]].
  - destruct (answer_same x n r) as (_ & _ & _ & [E|[E1 E2]] & _); (split; [intros (y & [= <-] & Y); left; exists x; split; congruence|]);
    (intros [(y & Y1 & Y2)|[=]]; uni; eexists; split; [reflexivity|]; congruence).
  - pose proof (old_obj _ _ _ I). split; [intros (y & [= <-] & Y); discriminate|]. intros [(y & Y1 & Y2)|[=]]. congruence.
  - split; [intros _; right; reflexivity|]. intros _. eexists; split; reflexivity.
  - split; [intros (y & Y1 & Y2); left; eauto|]. intros [(y & Y1 & Y2)|[= Z]]; [eauto|congruence].
Qed.

Ltac rels := repeat match goal with H : w_rel _ _ ?r = _ |- _ => rewrite H in *; cbn [won deleted past_stop rel_of] in * end.
Lemma track_deleted k0 o : tracks k0 (EDelete _ o) (fun w => is_deleted w o).
Proof.
  split; [intros (r & [])|]. intros h w e w' I ST. unfold is_deleted. destruct ST; upd; side.
  all: try solve [split; [intros (r' & Z); destruct (Nat.eqb_spec r' r) as [RE|N]; [subst r'; cbn in Z; try contradiction|left; eauto]; left; exists r; rels; exact Z
    |intros [(r' & Z)|[=]]; exists r'; destruct (Nat.eqb_spec r' r) as [RE|N]; [subst r'; rels; cbn; try contradiction; exact Z|exact Z]]].
  split.
  - intros (r' & Z). destruct (Nat.eqb_spec r' r) as [RE|N]; [subst r'|eauto]. cbn in Z. subst. right. reflexivity.
  - intros [(r' & Z)|[= <-]]; [exists r'|exists r; rewrite Nat.eqb_refl; reflexivity]. destruct (Nat.eqb_spec r' r) as [RE|N]; [subst r'; rels; contradiction|exact Z].
Qed.
Lemma track_release k0 r o : tracks k0 (ERelease _ r o) (fun w => rel_of (w_rel _ w r) = Some o).
Proof.
  split; [intros [=]|]. intros h w e w' I ST. destruct ST; upd; side.
  all: destruct (Nat.eqb_spec r r0) as [->|N]; side.
  all: try (rels; side).
  - split; [intros [= ->]; right; reflexivity|intros [[=]|[= ->]]; reflexivity].
  - split; [intros Z; left; exact Z|]. intros [Z|[= Z]]; [exact Z|congruence].
Qed.
Lemma track_nil k0 r : tracks k0 (EReturn _ r true) (fun w => is_nil w r).
Proof.
  split; [intros (o & [=])|]. intros h w e w' I ST. unfold is_nil. destruct ST; upd; side.
  all: destruct (Nat.eqb_spec r r0) as [->|N]; side.
  all: try (rels; side).
  all: try solve [split; [intros (o' & [=])|intros [(o' & [=])|[=]]]].
  - split; [intros _; right; reflexivity|intros _; eauto].
  - split; [intros Z; left; exact Z|]. intros [Z|[= Z]]; [exact Z|congruence].
Qed.
Lemma track_obtain k0 i a k : tracks k0 (EObtain _ i a k) (fun w => caller (w_call _ w i) = Some (a, k)).
Proof.
  split; [intros [=]|]. intros h w e w' I ST. destruct ST; upd; side.
  all: destruct (Nat.eqb_spec i i0) as [->|N]; side.
  all: try solve [match goal with X : w_call _ _ _ = _ |- _ => rewrite X end; cbn; side].
  - rewrite H. cbn. split; [intros [= -> ->]; right; reflexivity|intros [[=]|[= -> ->]]; reflexivity].
  - split; [intros Z; left; exact Z|]. intros [Z|[= Z]]; [exact Z|congruence].
Qed.
Lemma track_obtained k0 i o : tracks k0 (EObtained _ i o) (fun w => exists a k, w_call _ w i = CGotLock _ a k o).
Proof.
  split; [intros (a & k & [=])|]. intros h w e w' I ST. destruct ST; upd; side.
  all: destruct (Nat.eqb_spec i i0) as [->|N]; side.
  all: try solve [match goal with X : w_call _ _ _ = _ |- _ => rewrite X end; cbn; side; split; [intros (? & ? & [=])|intros [(? & ? & [=])|[=]]]].
  all: try solve [split; [intros Z; left; exact Z|]; intros [Z|[= Z]]; [exact Z|congruence]].
  all: split; [intros (a1 & k1 & [= -> -> ->]); right; reflexivity|intros [(a1 & k1 & Z)|[= ->]]; [congruence|eauto]].
Qed.
(** ** C60 *)
Lemma done_once k0 h w o : exec k0 h w -> never_after (EDone _ o) (EDone _ o) h.
Proof.
  apply never_by with (1 := track_done k0 o). intros h1 w1 w2 _ ST (x & X1 & X2). inversion ST; subst; uni. congruence.
Qed.
Lemma one_delete k0 h w o : exec k0 h w -> never_after (EDelete _ o) (EDelete _ o) h.
Proof.
  apply never_by with (1 := track_deleted k0 o). intros h1 w1 w2 I ST (r' & D). inversion ST; subst.
  assert (r = r'). { apply (v_won _ _ _ _ I r r' o); [rewrite H0; reflexivity|]. destruct (w_rel _ w1 r'); try contradiction; exact D. }
  subst. rewrite H0 in D. exact D.
Qed.
Lemma delete_after_done k0 h w o : exec k0 h w -> after (EDone _ o) (EDelete _ o) h.
Proof.
  apply after_by with (1 := track_done k0 o). intros h1 w1 w2 I ST. inversion ST; subst. destruct (v_rel _ _ _ _ I r o) as (y & Y1 & _ & Y3 & _); [rewrite H0; reflexivity|].
  exists y. split; [exact Y1|]. apply Y3. rewrite H0. reflexivity.
Qed.
Lemma delete_after_end k0 h w o : exec k0 h w -> after (EEnded _ o) (EDelete _ o) h.
Proof.
  apply after_by with (1 := track_ended k0 o). intros h1 w1 w2 I ST. inversion ST; subst. exists x. auto.
Qed.
Lemma no_beat_after_end k0 h w o n : exec k0 h w -> never_after (EEnded _ o) (ESent _ o n) h.
Proof.
  apply never_by with (1 := track_ended k0 o). intros h1 w1 w2 _ ST (x & X1 & X2). inversion ST; subst; uni. congruence.
Qed.
Lemma no_beat_after_delete k0 h w o n : exec k0 h w -> never_after (EDelete _ o) (ESent _ o n) h.
Proof.
  apply never_by with (1 := track_deleted k0 o). intros h1 w1 w2 I ST (r & D). inversion ST; subst.
  destruct (v_rel _ _ _ _ I r o) as (y & Y1 & _ & _ & Y4); [destruct (w_rel _ w1 r); cbn in *; try contradiction; subst; reflexivity|]. uni. apply Y4 in D. congruence.
Qed.
Lemma one_nil k0 h w o r r' : exec k0 h w -> happened (ERelease _ r o) h -> happened (ERelease _ r' o) h -> happened (EReturn _ r true) h -> happened (EReturn _ r' true) h -> r = r'.
Proof.
  intros HX. rewrite !(tracks_exec _ _ _ _ _ (track_release k0 _ _) HX), !(tracks_exec _ _ _ _ _ (track_nil k0 _) HX).
  intros R1 R2 (o1 & N1) (o2 & N2). rewrite N1 in R1. rewrite N2 in R2. injection R1 as ->. injection R2 as ->.
  apply (v_won _ _ _ _ (exec_winv _ _ _ _ _ HX) r r' o); [rewrite N1|rewrite N2]; reflexivity.
Qed.
(** a call returns at most once, with a lock for the key-values that were asked for, that is not done *)
Lemma obtained_key k0 h w i o a k : exec k0 h w -> happened (EObtained _ i o) h -> happened (EObtain _ i a k) h ->
  exists x, w_obj _ w o = Some x /\ o_client _ x = a /\ o_key _ x = k.
Proof.
  intros HX. rewrite (tracks_exec _ _ _ _ _ (track_obtained k0 i o) HX), (tracks_exec _ _ _ _ _ (track_obtain k0 i a k) HX).
  intros (a' & k' & E) C. rewrite E in C. injection C as -> ->. exact (v_got _ _ _ _ (exec_winv _ _ _ _ _ HX) _ _ _ _ E).
Qed.
Lemma obtained_called k0 h w i o : exec k0 h w -> happened (EObtained _ i o) h -> exists a k, happened (EObtain _ i a k) h.
Proof.
  intros HX. rewrite (tracks_exec _ _ _ _ _ (track_obtained k0 i o) HX). intros (a & k & E). exists a, k.
  rewrite (tracks_exec _ _ _ _ _ (track_obtain k0 i a k) HX), E. reflexivity.
Qed.
Lemma obtained_first k0 h w i o a k : exec k0 h w -> never_after (EObtained _ i o) (EObtain _ i a k) h.
Proof.
  apply never_by with (1 := track_obtained k0 i o). intros h1 w1 w2 I ST (a' & k' & E). inversion ST; subst. congruence.
Qed.
Lemma done_not_returned k0 h w i o : exec k0 h w -> never_after (EDone _ o) (EObtained _ i o) h.
Proof.
  apply never_by with (1 := track_done k0 o). intros h1 w1 w2 I ST (x & X1 & X2). inversion ST; subst.
  - destruct (v_tree _ _ _ _ I _ _ _ ltac:(eassumption)) as (y & Y1 & _ & _ & Y2 & _). uni. rewrite X2 in Y2. exact Y2.
  - destruct (v_storing _ _ _ _ I _ _ _ _ ltac:(eassumption)) as (y & Y1 & _ & _ & _ & Y2). uni. rewrite X2 in Y2. exact Y2.
Qed.
Lemma released_not_returned k0 h w i a k o : exec k0 h w -> forall newer t older, h = newer ++ (t, EObtain _ i a k) :: older -> happened (EDone _ o) older -> ~ happened (EObtained _ i o) h.
Proof.
  intros HX newer t older E D O. subst h. destruct O as (t' & O). apply in_app_or in O. destruct O as [O|[[=]|O]].
  - destruct D as (t'' & D). apply in_split in D. destruct D as (d1 & d2 & ->).
    apply (done_not_returned _ _ _ i o HX (newer ++ (t, EObtain _ i a k) :: d1) t'' d2); [rewrite <- app_assoc; reflexivity|]. exists t'. apply in_or_app. auto.
  - apply in_split in O. destruct O as (d1 & d2 & ->).
    apply (obtained_first _ _ _ i o a k HX (newer ++ (t, EObtain _ i a k) :: d1) t' d2); [rewrite <- app_assoc; reflexivity|]. exists t. apply in_or_app. right. left. reflexivity.
Qed.
(** ** The goroutine's end marks the lock as released *)
Lemma step_flagged k0 h w e w' : winv k0 h w -> step w e w' -> (forall o x, w_obj _ w o = Some x -> o_loop _ x = HFlagged \/ o_loop _ x = HEnded -> o_released _ x = true) ->
  forall o x, w_obj _ w' o = Some x -> o_loop _ x = HFlagged \/ o_loop _ x = HEnded -> o_released _ x = true.
Proof.
  intros I ST F o1 y H L. destruct ST; upd; eqs; uni; eauto; try (destruct L; discriminate).
  all: try solve [eapply F; [eassumption|]; auto].
  destruct (answer_same x n r) as (_ & _ & E & [E1|[_ E1]] & _); rewrite E1 in L; [rewrite E; eauto|destruct L; discriminate].
Qed.
Lemma exec_flagged k0 h w : exec k0 h w -> forall o x, w_obj _ w o = Some x -> o_loop _ x = HFlagged \/ o_loop _ x = HEnded -> o_released _ x = true.
Proof. induction 1 as [|h w e w' HX IH HS]; [discriminate|]. eapply step_flagged; eauto. exact (exec_winv _ _ _ _ _ HX). Qed.
Lemma ended_refuses k0 h w r o : exec k0 h w -> forall newer t older, h = newer ++ (t, ERelease _ r o) :: older -> happened (EEnded _ o) older ->
  w_rel _ w r = RCalled o \/ w_rel _ w r = RAlready o.
Proof.
  induction 1 as [|h w e w' HX IH HS]; intros newer t older E D; [destruct newer; discriminate|].
  assert (K : (exists n1, h = n1 ++ (t, ERelease _ r o) :: older) \/ (h = older /\ e = Some (ERelease _ r o))).
  { destruct e as [e|]; cbn [push] in E; [|left; eauto]. destruct newer as [|z newer]; cbn in E; injection E; intros; subst; [right; auto|left; eauto]. }
  clear E. destruct K as [[n1 ->]|[-> ->]].
  - specialize (IH n1 t older eq_refl D).
    assert (EN : is_ended w o).
    { apply (proj1 (tracks_exec _ _ _ _ _ (track_ended k0 o) HX)). destruct D as [t' D]. exists t'. apply in_or_app. right. right. exact D. }
    destruct EN as (x & X1 & X2). pose proof (exec_flagged _ _ _ HX _ _ X1 (or_intror X2)) as FL.
    destruct HS; upd; auto; destruct (Nat.eqb_spec r r0) as [->|N]; auto; destruct IH as [IH|IH]; rewrite IH in *; try discriminate.
    + match goal with H : RCalled _ = RCalled _ |- _ => injection H as -> end. uni. congruence.
    + match goal with H : RCalled _ = RCalled _ |- _ => injection H as -> end. auto.
  - inversion HS; subst. upd. rewrite Nat.eqb_refl. auto.
Qed.
Theorem late_release k0 h w r o : exec k0 h w -> forall newer t older, h = newer ++ (t, ERelease _ r o) :: older -> happened (EEnded _ o) older -> ~ happened (EReturn _ r true) h.
Proof.
  intros HX newer t older E D Z. apply (proj1 (tracks_exec _ _ _ _ _ (track_nil k0 r) HX)) in Z. destruct Z as [o' Z].
  destruct (ended_refuses _ _ _ _ _ HX _ _ _ E D); congruence.
Qed.
(** a lock that was not released before its goroutine ended is never deleted by its client *)
Theorem late_no_delete k0 h w o : exec k0 h w -> forall newer t older, h = newer ++ (t, EEnded _ o) :: older -> (forall r, ~ happened (ERelease _ r o) older) -> ~ happened (EDelete _ o) h.
Proof.
  intros HX newer t older E N Z. apply (proj1 (tracks_exec _ _ _ _ _ (track_deleted k0 o) HX)) in Z. destruct Z as [r Z].
  assert (HR : happened (ERelease _ r o) h).
  { apply (tracks_exec _ _ _ _ _ (track_release k0 r o) HX). destruct (w_rel _ w r); cbn in Z; try contradiction; cbn; congruence. }
  destruct HR as (t' & HR). subst h. apply in_app_or in HR. destruct HR as [HR|[[=]|HR]]; [|apply (N r); exists t'; exact HR].
  apply in_split in HR. destruct HR as (n1 & n2 & ->).
  destruct (ended_refuses _ _ _ r o HX n1 t' (n2 ++ (t, EEnded _ o) :: older)) as [Q|Q].
  - rewrite <- app_assoc. reflexivity.
  - exists t. apply in_or_app. right. left. reflexivity.
  - rewrite Q in Z. exact Z.
  - rewrite Q in Z. exact Z.
Qed.
(** ** After the release the service does not have the session any more *)
Lemma released_gone k0 h w : exec k0 h w -> forall t k j s ok, In (t, LRelease key k j s ok) (server_history h) -> holder key_dec (server_history h) k <> Some (j, s).
Proof.
  induction 1 as [|h w e w' HX IH HS]; intros t k j s ok HI; [destruct HI|].
  pose proof (exec_winv _ _ _ _ _ HX) as I.
  assert (HX' : exec k0 (push (tick w e) h) w') by (econstructor; eauto).
  pose proof (v_srv _ _ _ _ (exec_winv _ _ _ _ _ HX')) as XS. unfold tick in XS.
  assert (GS : In (t, LRelease key k j s ok) (server_history h) -> In s (sessions (server_history h))).
  { intros Z. destruct (v_handled _ _ _ _ I _ _ _ _ _ Z) as [(o & x & r & X1 & <- & _) | (t1 & i & a & k1 & k2 & j1 & d & G & _)].
    - destruct (v_obj _ _ _ _ I _ _ X1) as (_ & t1 & G). exact (grant_session _ _ _ _ _ _ _ G).
    - exact (grant_session _ _ _ _ _ _ _ G). }
  pose proof (exec_tr key_dec k0 _ _ (v_srv _ _ _ _ I)) as T.
  destruct e as [e|]; cbn [push] in *; [|eauto]. destruct e; cbn [server_history] in *; eauto.
  destruct HI as [E|HI].
  - injection E as _ ->. pose proof (c28_release _ _ _ _ _ _ _ _ _ XS) as C. destruct ok.
    + cbn. unfold same_key. destruct (key_dec k k); congruence.
    + cbn. intros Z. enough (false = true) by discriminate. apply C. exact Z.
  - specialize (GS HI). specialize (IH _ _ _ _ _ HI). destruct e; cbn; auto; unfold same_key; try (destruct ok0; auto); try (destruct (key_dec _ _); auto; try discriminate).
    intros [= -> ->]. apply (c28_fresh _ _ _ _ _ _ _ _ _ _ XS). exact GS.
Qed.
Lemma nil_gone k0 h w r o x : exec k0 h w -> happened (ERelease _ r o) h -> happened (EReturn _ r true) h -> w_obj _ w o = Some x ->
  holder key_dec (server_history h) (o_key _ x) <> Some (o_lock _ x, o_sess _ x).
Proof.
  intros HX. rewrite (tracks_exec _ _ _ _ _ (track_release k0 r o) HX), (tracks_exec _ _ _ _ _ (track_nil k0 r) HX). intros R (o' & N) X.
  rewrite N in R. injection R as ->. destruct (v_sent _ _ _ _ (exec_winv _ _ _ _ _ HX) r o x) as [[_ L]|(t & ok & HI)]; [rewrite N; reflexivity|exact X|destruct (L _ N)|].
  exact (released_gone _ _ _ HX _ _ _ _ _ HI).
Qed.
End Hist.
