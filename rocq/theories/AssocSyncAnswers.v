(** Proofs about [AssocSync.v]: the answers. *)
From Coq Require Import List Bool Arith Lia Permutation.
Import ListNotations.
From Verif Require Import AssocSync SpecAssocSync AssocSyncBase AssocSyncInv AssocSyncFrame AssocSyncStep AssocSyncGlobal.

(** Who marks an id as being destroyed *)
Definition marked (s : state) : Prop := forall x, w_dying (st_world s) x = true -> exists i kv p, nth_error (st_threads s) i = Some (mkThread (CDestroy x) kv p) /\ destroying p.
Lemma step_marks nils i c kv w p w' p' x : tstep nils i c kv w p w' p' -> w_dying w' x = true ->
  w_dying w x = true /\ (c = CDestroy x -> destroying p -> destroying p') \/ c = CDestroy x /\ destroying p'.
Proof.
  intros ST. destruct ST; cbn [with_node with_heap with_index with_item with_dying with_id with_held with_known release w_dying]; intros D; try (left; split; [exact D|]; cbn [destroying]; tauto).
  - unfold set_item in D. destruct (Nat.eqb_spec x x0) as [->|NE]; [right; split; [assumption|exact Logic.I]|left; split; [exact D|]; intros _ []].
  - left. split; [|cbn [destroying]; tauto]. revert D. cbv zeta. destruct (truncate _), (nd_creating nd); auto.
  - unfold set_item in D. destruct (Nat.eqb_spec x x0) as [->|NE]; [discriminate|left; split; [exact D|]; congruence].
Qed.
Lemma exec_marked nils destroys s tr : exec nils destroys (s :: tr) -> marked s.
Proof.
  intros E. remember (s :: tr) as l eqn:EL. revert s tr EL. induction E as [|s s' tr E IH ST]; intros s0 tr0 EL; injection EL as <- <-.
  - intros x D. discriminate D.
  - specialize (IH s tr eq_refl). destruct ST as [w ts c kv A | w ts i c kv p w' p' N ST]; intros x D; cbn [st_world st_threads] in *.
    + destruct (IH x D) as (j & kv' & p & H & H'). exists j, kv', p. split; [apply nth_snoc_old, H|exact H'].
    + destruct (step_marks _ _ _ _ _ _ _ _ _ ST D) as [[D' Q] | [-> Q]].
      * destruct (IH x D') as (j & kv' & q & H & H'). cbn [st_threads] in H. destruct (Nat.eq_dec j i) as [->|NE].
        -- rewrite N in H. injection H as -> -> ->. exists i, kv', p'. split; [unfold set_thread; eapply nth_set_same; eauto|auto].
        -- exists j, kv', q. split; [unfold set_thread; rewrite nth_set_other by exact NE; exact H|exact H'].
      * exists i, kv, p'. split; [unfold set_thread; eapply nth_set_same; eauto|exact Q].
Qed.
Lemma dying_now nils destroys s tr x : exec nils destroys (s :: tr) -> w_dying (st_world s) x = true -> destroyed_now x s.
Proof.
  intros E D. destruct (exec_marked _ _ _ _ E x D) as (i & kv & p & H & H'). exists i, kv. split; [exists p; exact H|]. exists (mkThread (CDestroy x) kv p). split; [exact H|]. intros r EQ. cbn in EQ. subst p. destruct H'.
Qed.

(** The places a call can be at *)
Definition fits (nils : bool) (c : call) (p : pc) : Prop :=
  match c, p with
  | _, PDone _ => True
  | CFind, (PQuery _ _ | PLook _ | PLookUp _ _) => True
  | CFindCreate, (PQuery _ _ | PLook _ | PLookUp _ _ | PFound _ _) => True
  | (CCreate | CFindCreate), (PPin _ _ | PLock _ _ _ | PCall _ _ | PUnlock _ _) => True
  | (CCreate | CFindCreate), (DFind _ _ | DLock _ _ _ | DItem _ _ | DUnlock _ _ _ | DClean _ _) => nils = true
  | (CDelete _ | CDeleteId _ _), (DFind _ _ | DLock _ _ _ | DItem _ _ | DUnlock _ _ _ | DClean _ _) => True
  | CDeleteId _ _, (DStart | DLookUp) => True
  | CDestroy _, (YMark | YFind | YAsk _ | YDel _ _ | YClear _) => True
  | _, _ => False
  end.
Definition pend (p : pc) : option result := match p with PUnlock _ r | DUnlock _ r _ | DClean _ r | YClear r | PDone r => Some r | _ => None end.
Definition searching (c : call) : Prop := match c with CFind | CDelete _ | CDeleteId _ _ => True | _ => False end.
Definition told (nils : bool) (tr : list state) (i : nat) (c : call) (kv : kvs) (p : pc) : Prop :=
  fits nils c p /\ forall r, pend p = Some r -> r = RNone /\ searching c \/ right nils tr i c kv r.

Lemma moment_more tr s i P : moment tr i P -> moment (s :: tr) i P.
Proof. intros (s0 & I & H). exists s0. split; [right; exact I|exact H]. Qed.
Lemma change_more tr s i P : change tr i P -> change (s :: tr) i P.
Proof. intros (s0 & s1 & (t1 & t2 & ->) & H). exists s0, s1. split; [exists (s :: t1), t2; reflexivity|exact H]. Qed.
Lemma right_more nils tr s i c kv r : right nils tr i c kv r -> right nils (s :: tr) i c kv r.
Proof.
  destruct c, r; cbn [right]; auto using moment_more, change_more; intros H; try (destruct H as [H1 H2]; split; auto using moment_more, change_more); destruct H; auto using moment_more.
Qed.
Lemma told_more nils tr s i c kv p : told nils tr i c kv p -> told nils (s :: tr) i c kv p.
Proof. intros [F T]. split; [exact F|]. intros r E. destruct (T r E); auto using right_more. Qed.

(** An id in all the nodes of its key-values, which a call has locked, is the id of an item stored *)
Lemma ids_stored nils s i c kv p locked x : inv nils s -> nth_error (st_threads s) i = Some (mkThread c kv p) -> kv_ok kv -> Forall2 (cur (st_world s)) kv locked -> Forall (owned (st_world s) i) locked ->
  (forall a, In a locked -> has (st_world s) a (length kv) x) -> (forall l, p <> PCall l x) -> nils = false \/ In x (w_known (st_world s)) -> w_items (st_world s) x = Some kv.
Proof.
  intros I E KV C O H NP NI. assert (M : for_all (st_world s) kv x) by (eapply all_of_for; eauto using i_g; apply cur_for; [apply (i_g _ _ I)|exact C]).
  destruct locked as [|a locked]; [inversion C; subst; destruct KV as [Z _]; congruence|]. pose proof (H a (or_introl eq_refl)) as HA. destruct (i_ghost _ _ I _ _ _ HA) as [HI | [NK HI]].
  - destruct (w_items (st_world s) x) as [kv'|] eqn:EI; [|congruence]. destruct (g_items _ (i_g _ _ I) x kv' EI) as [M' _]. unfold for_all in M. congruence.
  - exfalso. destruct NI as [NI | NI]; [|contradiction]. destruct HI as [HI | (j & [cj kj pj] & l & EJ & PJ)]; [congruence|]. cbn in PJ. subst pj.
    destruct (i_t _ _ I j _ _ _ EJ) as (KVJ & _ & (CJ & OJ & MJ & _)). unfold for_all in M, MJ. rewrite M in MJ. injection MJ as <-.
    assert (EQ : l = a :: locked). { clear -C CJ. revert CJ. generalize (a :: locked), C. clear. intros m C. revert l. induction C as [|p a ps l C F IH]; intros m D; inversion D as [|? b ? m' D1 D2]; subst; [reflexivity|]. unfold cur in *. rewrite (IH _ D2). congruence. }
    subst l. inversion O as [|? ? (nd & N & L) _]; subst. inversion OJ as [|? ? (nd' & N' & L') _]; subst. rewrite (node_fun _ _ _ _ N N') in L. assert (i = j) as -> by congruence. rewrite E in EJ. injection EJ as -> EJ. apply (NP _ EJ).
Qed.

Lemma running_at s i c kv p : nth_error (st_threads s) i = Some (mkThread c kv p) -> (forall r, p <> PDone r) -> running i s.
Proof. intros E H. exists (mkThread c kv p). split; [exact E|exact H]. Qed.
Lemma now tr s s' i c kv p (P : state -> Prop) : nth_error (st_threads s) i = Some (mkThread c kv p) -> (forall r, p <> PDone r) -> P s -> moment (s' :: s :: tr) i P.
Proof. intros E H HP. exists s. split; [right; left; reflexivity|]. split; [eapply running_at; eauto|exact HP]. Qed.
Lemma here tr w ts w' i c kv p p' (P : state -> state -> Prop) : nth_error ts i = Some (mkThread c kv p) -> (forall r, p <> PDone r) -> p <> p' -> P (mkState w ts) (mkState w' (set_thread ts i (mkThread c kv p'))) ->
  change (mkState w' (set_thread ts i (mkThread c kv p')) :: mkState w ts :: tr) i P.
Proof.
  intros E H NE HP. exists (mkState w ts), (mkState w' (set_thread ts i (mkThread c kv p'))). split; [exists [], tr; reflexivity|]. split; [eapply running_at; eauto|]. split; [|exact HP]. unfold set_thread. split; cbn [st_threads].
  - intros j NJ. apply nth_set_other, NJ.
  - rewrite (nth_set_same _ _ _ _ E), E. congruence.
Qed.
Lemma gone_dying nils destroys s tr kv : exec nils destroys (s :: tr) -> (forall x, w_items (st_world s) x = Some kv -> w_dying (st_world s) x = true) -> gone kv s.
Proof. intros E H x S. eapply dying_now; eauto. Qed.
Lemma stored_unique w kv x y : ginv w -> w_items w x = Some kv -> w_items w y = Some kv -> w_dying w x = false -> w_dying w y = false -> x = y.
Proof.
  intros G X Y DX DY. assert (HX : ~ In x (w_held w)) by (intros H; apply (g_held w G) in H; destruct H; congruence). assert (HY : ~ In y (w_held w)) by (intros H; apply (g_held w G) in H; destruct H; congruence).
  apply (g_one w G x y kv); [apply (g_items w G), X|apply (g_items w G), Y|]. intros p I. split; eapply (g_reg w G); eauto.
Qed.
Lemma called_clean w i kv locked x : ginv w -> kv_ok kv -> tinv w i CCreate kv (PCall locked x) -> forall y, w_items w y = Some kv -> w_dying w y = true.
Proof.
  intros G KV (C & O & M & H & IX & _) y IY. destruct (w_dying w y) eqn:DY; [reflexivity|]. exfalso. assert (HY : ~ In y (w_held w)) by (intros Z; apply (g_held w G) in Z; destruct Z; congruence).
  assert (x = y); [|congruence]. apply (g_one w G x y kv); [exact M|apply (g_items w G), IY|]. intros p IP. split; [|eapply (g_reg w G); eauto].
  destruct (cur_find' w kv locked C p IP) as (a & IA & CA). exists a, kv. auto.
Qed.

Lemma told_step nils destroys tr w ts i c kv p w' p' : exec nils destroys (mkState w ts :: tr) -> nth_error ts i = Some (mkThread c kv p) -> tstep nils i c kv w p w' p' -> told nils (mkState w ts :: tr) i c kv p ->
  told nils (mkState w' (set_thread ts i (mkThread c kv p')) :: mkState w ts :: tr) i c kv p'.
Proof.
  intros E N ST TT. pose proof (exec_inv _ _ _ _ E) as I. pose proof (i_g _ _ I) as G. cbn [st_world] in G. destruct (i_t _ _ I i c kv p N) as (KV & A & T). cbn [st_world] in A, T.
  apply (told_more _ _ (mkState w' (set_thread ts i (mkThread c kv p')))) in TT. destruct TT as [F TT]. 
  assert (NOW : forall P : state -> Prop, (forall r, p <> PDone r) -> P (mkState w ts) -> moment (mkState w' (set_thread ts i (mkThread c kv p')) :: mkState w ts :: tr) i P) by (intros P NP HP; eapply now; eauto).
  assert (HERE : forall P : state -> state -> Prop, (forall r, p <> PDone r) -> p <> p' -> P (mkState w ts) (mkState w' (set_thread ts i (mkThread c kv p'))) -> change (mkState w' (set_thread ts i (mkThread c kv p')) :: mkState w ts :: tr) i P) by (intros P NP NE HP; eapply here; eauto).
  assert (IS : forall locked x, Forall2 (cur w) kv locked -> Forall (owned w i) locked -> (forall a, In a locked -> has w a (length kv) x) -> (forall l, p <> PCall l x) -> nils = false \/ In x (w_known w) -> w_items w x = Some kv) by (intros; eapply (ids_stored nils (mkState w ts)); eauto).
  assert (DN : forall x, w_dying w x = true -> destroyed_now x (mkState w ts)) by (intros x D; eapply dying_now; eauto).
  destruct ST.
  all: try (split; [destruct c; cbn in F |- *; auto; contradiction|]; cbn [pend missed] in *; intros r0 E0; (discriminate || (injection E0 as <-) || idtac); auto; fail).
  - destruct c; cbn in F |- *; try contradiction; split; cbn; auto; intros r0 E0; (discriminate || (injection E0 as <-)); auto.
  - destruct (meet acc _); [destruct c; cbn in F |- *; try contradiction; split; cbn; auto; intros r0 E0; (discriminate || (injection E0 as <-)); auto|].
    split; [destruct c; cbn in F |- *; auto|intros r0 E0; discriminate].
  - destruct c; cbn in F |- *; try contradiction; split; cbn; auto; intros r0 E0; (discriminate || (injection E0 as <-)); auto.
  - assert (IK : w_items w x = Some kv). { rewrite H0. f_equal. destruct (g_items w G x kv' H0) as [M _]. specialize (T x (or_introl eq_refl)). unfold for_all in T. congruence. }
    split; [destruct c; exact Logic.I|]. intros r0 E0. injection E0 as <-. right. destruct c; cbn in F |- *; try contradiction; (apply NOW; [congruence|exact IK]).
  - subst c. split; [exact F|]. intros r0 E0. injection E0 as <-. right. destruct nils eqn:EN; [left; reflexivity|]. right. apply NOW; [congruence|]. exists x. destruct T as (C & O & AC & W). rewrite app_nil_r in C.
    apply (IS locked x C O); [apply acc_one, AC|congruence|auto].
  - subst c. split; [exact Logic.I|]. intros r0 E0. discriminate.
  - subst c. split; [exact F|]. intros r0 E0. injection E0 as <-. right. apply NOW; [congruence|]. exists x. destruct T as (C & O & AC & W). rewrite app_nil_r in C. split; [|apply DN, H0].
    apply (IS locked x C O); [apply acc_one, AC|congruence|right; apply (g_dying w G), H0].
  - assert (IK : w_items w x = Some kv). { rewrite H0. f_equal. destruct (g_items w G x kv' H0) as [M' _]. destruct T as (_ & _ & M & _). unfold for_all in M. congruence. }
    destruct c; cbn in F; try contradiction. split; [exact Logic.I|]. intros r0 E0. injection E0 as <-. right. apply NOW; [congruence|exact IK].
  - destruct c; cbn in F; try contradiction. split; [exact Logic.I|]. intros r0 E0. injection E0 as <-. right. cbn. destruct nils eqn:EN; [reflexivity|]. exfalso. destruct T as (C & O & M & H').
    assert (w_items w x = Some kv) by (apply (IS locked x C O); [exact H'|congruence|auto]). congruence.
  - assert (CG : change (mkState (with_known (with_item w x (Some kv)) x) (set_thread ts i (mkThread c kv (PUnlock locked (RCreated x)))) :: mkState w ts :: tr) i (fun s s' => gone kv s /\ absent x s /\ stored kv x s')).
    { apply HERE; [congruence|congruence|]. split; [|split].
      - eapply gone_dying; [exact E|]. eapply called_clean; eauto.
      - apply T.
      - unfold stored. cbn [st_world with_known with_item w_items]. apply set_item_same. }
    destruct c; cbn in F; try contradiction; (split; [exact Logic.I|]; intros r0 E0; injection E0 as <-; right; exact CG).
  - destruct c; cbn in F; try contradiction; (split; [exact Logic.I|]; intros r0 E0; injection E0 as <-; right; assumption).
  - destruct (TT r eq_refl) as [[-> SC] | R].
    + destruct c; cbn in F, SC; contradiction.
    + assert (D : r = RNil \/ (match r with RNil => DFind kv [] | _ => PDone r end) = PDone r) by (destruct r; auto). destruct D as [-> | D].
      * split; [|intros r0 E0; discriminate]. destruct c; cbn in F, R |- *; auto.
      * rewrite D. split; [destruct c; exact Logic.I|]. intros r0 E0. injection E0 as <-. right. rewrite <- D at 1. exact R.
  - subst c. split; [exact Logic.I|]. intros r0 E0. injection E0 as <-. left. split; [reflexivity|exact Logic.I].
  - subst c. split; [exact Logic.I|]. intros r0 E0. injection E0 as <-. left. split; [reflexivity|exact Logic.I].
  - destruct c; cbn in F; try contradiction; (split; [cbn; auto|]; intros r0 E0; injection E0 as <-; cbn; auto).
  - destruct c; cbn in F; try contradiction; (split; [cbn; auto|]; intros r0 E0; injection E0 as <-; cbn; auto).
  - assert (BM : moment (mkState w (set_thread ts i (mkThread c kv (PDone (verdict c RBusy)))) :: mkState w ts :: tr) i (fun s => exists x, stored kv x s /\ destroyed_now x s)).
    { apply NOW; [congruence|]. exists x. destruct T as (C & O & AC & W). rewrite app_nil_r in C. pose proof (acc_one _ _ _ _ AC) as HX. split; [|apply DN, H]. apply (IS locked x); [eapply for_cur; eauto|exact O|exact HX|congruence|right; apply (g_dying w G), H]. }
    destruct c; cbn in F; try contradiction; (split; [cbn; auto|]; intros r0 E0; injection E0 as <-; right; cbn; auto).
  - assert (IK : w_items w x = Some kv). { rewrite H0. f_equal. destruct (g_items w G x kv' H0) as [M' _]. destruct T as (_ & _ & M & _). unfold for_all in M. congruence. }
    match goal with |- told _ (?s1 :: ?s0 :: _) _ _ _ _ => assert (CG : change (s1 :: s0 :: tr) i (fun s s' => stored kv x s /\ absent x s')) end.
    { apply HERE; [congruence|congruence|]. split; [exact IK|]. unfold absent. cbn [st_world with_item w_items]. apply set_item_same. }
    destruct c; cbn in F; try contradiction; (split; [cbn; auto|]; intros r0 E0; injection E0 as <-; right; cbn; auto).
  - assert (IK : w_items w x = Some kv). { rewrite H1. f_equal. destruct (g_items w G x kv' H1) as [M' _]. destruct T as (_ & _ & M & _). unfold for_all in M. congruence. }
    assert (MM : moment (mkState w (set_thread ts i (mkThread c kv (DUnlock locked (RRefused x) true))) :: mkState w ts :: tr) i (stored kv x)) by (apply NOW; [congruence|exact IK]).
    destruct c; cbn in F, H; try contradiction; try discriminate; (split; [cbn; auto|]; intros r0 E0; injection E0 as <-; right; split; auto).
  - destruct c; cbn in F; try contradiction; (split; [cbn; auto|]; intros r0 E0; injection E0 as <-; cbn; auto).
  - destruct c; cbn in F; try contradiction; (split; [cbn; auto|]; intros r0 E0; injection E0 as <-; cbn; auto).
  - destruct clean; (split; [destruct c; cbn in F |- *; auto|exact TT]).
  - subst c. split; [exact Logic.I|]. intros r0 E0. injection E0 as <-. right. apply NOW; [congruence|]. destruct (exec_marked _ _ _ _ E x H0) as (j & kv' & q & HJ & DJ). exists j, kv'. cbn [st_threads] in HJ. split; [|split].
    + intros ->. rewrite N in HJ. injection HJ as _ <-. destruct DJ.
    + exists q. exact HJ.
    + eapply running_at; [exact HJ|]. intros r EQ. subst q. destruct DJ.
  - subst c. split; [exact Logic.I|]. intros r0 E0. injection E0 as <-. right. apply NOW; [congruence|]. assumption.
  - subst c. destruct T as (x' & EX & _ & _ & IX & _). injection EX as <-. split; [exact Logic.I|]. intros r0 E0. injection E0 as <-. right. split; [reflexivity|]. apply NOW; [congruence|]. exists kv'. exact IX.
  - subst c. destruct T as (x' & don & EX & _ & _ & IX & _). injection EX as <-. split; [exact Logic.I|]. intros r0 E0. injection E0 as <-. right. split; [reflexivity|]. apply HERE; [congruence|congruence|]. split; [exists kv'; exact IX|]. unfold absent. cbn [st_world with_held release with_item w_items]. apply set_item_same.
Qed.
Lemma start_fits nils c kv : fits nils c (start c kv).
Proof. destruct c; exact Logic.I. Qed.
Lemma start_pend c kv : pend (start c kv) = None.
Proof. destruct c; reflexivity. Qed.
Theorem exec_told nils destroys s tr : exec nils destroys (s :: tr) -> forall i c kv p, nth_error (st_threads s) i = Some (mkThread c kv p) -> told nils (s :: tr) i c kv p.
Proof.
  intros E. remember (s :: tr) as l eqn:EL. revert s tr EL. induction E as [|s s' tr E IH ST]; intros s0 tr0 EL; injection EL as <- <-.
  - intros i c kv p N. destruct i; discriminate.
  - specialize (IH s tr eq_refl). destruct ST as [w ts c kv A | w ts i c kv p w' p' N ST]; cbn [st_world st_threads] in *; intros j cj kj pj NJ.
    + apply nth_snoc in NJ. destruct NJ as [NJ | [-> EQ]]; [apply told_more, IH, NJ|]. injection EQ as -> -> ->. split; [apply start_fits|]. intros r E0. rewrite start_pend in E0. discriminate.
    + unfold set_thread in NJ. destruct (nth_set_cases _ _ _ _ _ _ N NJ) as [[-> EQ] | [NE NJ']]; [|apply told_more, IH, NJ']. injection EQ as -> -> ->. eapply told_step; eauto.
Qed.

(** *** Answers that nothing was found *)
Definition live (w : world) (kv : kvs) (x : nat) : Prop := w_items w x = Some kv /\ w_dying w x = false.
Definition target (c : call) (z : nat) : Prop := match c with CDeleteId _ y => z = y | _ => True end.
Definition aware (w : world) (kv : kvs) (p : pc) (z : nat) : Prop :=
  match p with
  | PQuery todo acc => match acc with None => True | Some l => In z l end
  | PLook xs => In z xs
  | PLookUp x xs => In z (x :: xs)
  | DStart | DLookUp => True
  | DFind todo nodes => exists don, kv = don ++ todo /\ Forall2 (cur w) don nodes
  | DLock todo locked acc => Forall2 (cur w) kv (locked ++ todo) /\ match acc with None => True | Some l => In z l end
  | DItem l x => x = z
  | _ => False
  end.
Definition told_some (p : pc) : Prop := match pend p with Some r => r <> RNone | None => False end.

Section Live.
  Variable w : world.
  Hypothesis G : ginv w.
  Variable kv : kvs.
  Variable z : nat.
  Hypothesis L : live w kv z.
  Lemma live_free : ~ In z (w_held w).
  Proof. intros H. apply (g_held w G) in H. destruct L, H. congruence. Qed.
  Lemma live_reg p : In p kv -> reg w p z.
  Proof. intros I. eapply (g_reg w G); eauto using live_free. apply L. Qed.
  Lemma live_made : nth_error (w_made w) z = Some kv.
  Proof. apply (g_items w G), L. Qed.
  Lemma live_has p a : In p kv -> w_index w p = Some a -> has w a (length kv) z.
  Proof. intros I E. destruct (live_reg p I) as (b & kv' & E' & M & H). rewrite live_made in M. injection M as <-. congruence. Qed.
  Lemma live_level p a nd : In p kv -> w_index w p = Some a -> node_at w a nd -> In z (level (length kv) (nd_ids nd)).
  Proof. intros I E N. destruct (live_has p a I E) as (nd' & N' & H). rewrite (node_fun _ _ _ _ N N'). exact H. Qed.
  Lemma live_index p : In p kv -> w_index w p <> None.
  Proof. intros I. destruct (live_reg p I) as (b & kv' & E' & _). congruence. Qed.
End Live.

Lemma live_step nils i c kv' w p w' p' kv z : ginv w -> tinv w i c kv' p -> tstep nils i c kv' w p w' p' -> live w kv z -> live w' kv z \/ forall y, ~ live w' kv y.
Proof.
  intros G T ST L. destruct ST; try (left; exact L).
  - left. destruct T as (_ & _ & _ & _ & IX & _). destruct L as [L D]. split; [|exact D]. cbn [with_known with_item w_items]. rewrite set_item_other; congruence.
  - destruct (Nat.eq_dec z x) as [->|NE].
    + right. intros y [LY DY]. cbn [with_item with_heap w_items w_dying] in LY, DY. destruct (Nat.eq_dec y x) as [->|NY]; [rewrite set_item_same in LY; discriminate|]. rewrite set_item_other in LY by exact NY. apply NY. eapply stored_unique; eauto; apply L.
    + left. destruct L as [L D]. split; [|exact D]. cbn [with_item with_heap w_items]. rewrite set_item_other by exact NE. exact L.
  - destruct (Nat.eq_dec z x) as [->|NE].
    + right. intros y [LY DY]. cbn [with_dying w_items w_dying] in LY, DY. destruct (Nat.eq_dec y x) as [->|NY]; [rewrite set_item_same in DY; discriminate|]. rewrite set_item_other in DY by exact NY. apply NY. eapply stored_unique; eauto; apply L.
    + left. destruct L as [L D]. split; [exact L|]. cbn [with_dying w_dying]. rewrite set_item_other by exact NE. exact D.
  - left. destruct L as [L D]. cbv zeta. destruct (truncate _), (nd_creating nd); (split; [exact L|exact D]).
  - left. destruct T as (x' & don & EX & DX & _). rewrite H in EX. injection EX as <-. destruct L as [L D]. split; [|exact D]. cbn [release with_held with_item w_items]. rewrite set_item_other; congruence.
  - left. destruct L as [L D]. split; [exact L|]. cbn [with_dying w_dying]. unfold set_item. destruct (Nat.eqb z x); auto.
Qed.
Lemma index_step nils i c kv' w p w' p' kv z q a : ginv w -> tinv w i c kv' p -> tstep nils i c kv' w p w' p' -> live w kv z -> In q kv -> w_index w q = Some a -> w_index w' q = Some a.
Proof.
  intros G T ST L IQ EQ. destruct ST; try exact EQ.
  - cbn [with_index with_heap w_index]. rewrite set_index_other by congruence. exact EQ.
  - cbn [with_index w_index]. destruct (pair_eqb_spec q p) as [->|NE]; [|rewrite set_index_other by exact NE; exact EQ]. exfalso. destruct H0 as [N _]. pose proof (live_level w G kv z L p a0 nd IQ H N) as LV. rewrite H1 in LV. unfold level in LV. rewrite nth_nil in LV. destruct LV.
  - cbv zeta. destruct (truncate _) as [|t ts] eqn:ET; [destruct (nd_creating nd)|]; try exact EQ. cbn [with_index with_node w_index]. destruct (pair_eqb_spec q p) as [->|NE]; [|rewrite set_index_other by exact NE; exact EQ].
    exfalso. destruct H1 as [N _]. pose proof (live_level w G kv z L p a0 nd IQ H0 N) as LV. destruct T as (x' & don & EX & DX & _). rewrite H in EX. injection EX as <-.
    assert (NZ : z <> x) by (destruct L; congruence). assert (IZ : In z (nth (length kv - 1) (truncate (del_id (length kv'0) x (nd_ids nd))) [])).
    { rewrite nth_truncate, nth_del_id. destruct (Nat.eqb _ _); [|exact LV]. apply filter_In. split; [exact LV|]. destruct (Nat.eqb_spec z x); [congruence|reflexivity]. }
    rewrite ET, nth_nil in IZ. destruct IZ.
Qed.
Lemma cur_step nils i c kv' w p w' p' kv z don l : ginv w -> tinv w i c kv' p -> tstep nils i c kv' w p w' p' -> live w kv z -> incl don kv -> Forall2 (cur w) don l -> Forall2 (cur w') don l.
Proof.
  intros G T ST L IN F. induction F as [|q a don l C F IH]; constructor; [eapply index_step; eauto; apply IN; left; reflexivity|]. apply IH. intros x I. apply IN. right. exact I.
Qed.
Lemma aware_other nils i c kv' w p w' p' kv z pc : ginv w -> tinv w i c kv' p -> tstep nils i c kv' w p w' p' -> live w kv z -> aware w kv pc z -> aware w' kv pc z.
Proof.
  intros G T ST L. destruct pc; cbn [aware]; auto.
  - intros (don & EK & F). exists don. split; [exact EK|]. eapply cur_step; eauto. rewrite EK. intros x I. apply in_or_app. auto.
  - intros [F A]. split; [|exact A]. eapply cur_step; eauto. intros x I. exact I.
Qed.
Lemma forall2_len {A B} (P : A -> B -> Prop) l m : Forall2 P l m -> length l = length m.
Proof. induction 1; cbn; congruence. Qed.
Lemma aware_step nils i c kv w p w' p' z : ginv w -> kv_ok kv -> tinv w i c kv p -> fits nils c p -> tstep nils i c kv w p w' p' -> searching c -> live w kv z -> target c z -> aware w kv p z -> told_some p' \/ aware w' kv p' z.
Proof.
  intros G KV T F ST SC L TG AW. destruct ST.
  all: try (exfalso; destruct c; cbn in F, SC; contradiction).
  - exfalso. destruct T as (don & EK & _). apply (live_index w G kv z L p); [rewrite EK; apply in_or_app; right; left; reflexivity|assumption].
  - destruct T as (don & EK & _). destruct H0 as [N _]. assert (IZ : In z (meet acc (level (length kv) (nd_ids nd)))).
    { apply In_meet. split; [destruct acc; exact AW|]. eapply live_level; eauto. rewrite EK. apply in_or_app. right. left. reflexivity. }
    destruct (meet acc _) as [|m l] eqn:EM; [destruct IZ|]. right. exact IZ.
  - right. exact AW.
  - right. exact AW.
  - right. destruct AW as [-> | AW]; [destruct L; congruence|exact AW].
  - left. cbn. discriminate.
  - right. destruct AW as [-> | AW]; [destruct L; congruence|exact AW].
  - right. exact Logic.I.
  - exfalso. subst c. cbn in TG. subst z. destruct L. congruence.
  - right. exists []. split; [reflexivity|constructor].
  - exfalso. subst c. cbn in TG. subst z. destruct L. congruence.
  - right. destruct AW as (don & EK & FC). exists (don ++ [p]). split; [rewrite <- app_assoc; exact EK|]. apply Forall2_app; [exact FC|constructor; [assumption|constructor]].
  - exfalso. destruct AW as (don & EK & _). apply (live_index w G kv z L p); [rewrite EK; apply in_or_app; right; left; reflexivity|assumption].
  - right. destruct AW as (don & EK & FC). rewrite app_nil_r in EK. subst don. split; [exact FC|exact Logic.I].
  - exfalso. destruct AW as (don & EK & FC). rewrite app_nil_r in EK. subst don. pose proof (forall2_len _ _ _ FC). congruence.
  - right. destruct AW as [FC AW]. split; [rewrite <- app_assoc; exact FC|]. apply In_meet. split; [destruct acc; exact AW|]. destruct (Forall2_app_r _ _ _ _ FC) as (l1 & l2 & EK & _ & F2). inversion F2; subst. destruct H as [N _].
    eapply live_level; [exact G|exact L| |eassumption|exact N]. apply in_or_app. right. left. reflexivity.
  - exfalso. destruct AW as [FC AW]. destruct (Forall2_app_r _ _ _ _ FC) as (l1 & l2 & EK & _ & F2). inversion F2; subst. destruct H as [N _].
    assert (LV : In z (level (length (l1 ++ x :: l)) (nd_ids nd))) by (eapply live_level; [exact G|exact L| |eassumption|exact N]; apply in_or_app; right; left; reflexivity).
    unfold level in LV. destruct KV as [KV _]. rewrite nth_overflow in LV; [destruct LV|]. lia.
  - right. destruct AW as [_ [-> | []]]. reflexivity.
  - exfalso. destruct AW as [_ [-> | []]]. destruct L. congruence.
  - left. cbn. destruct c; cbn in SC |- *; try contradiction; discriminate.
  - left. cbn. discriminate.
  - exfalso. cbn in AW. subst z. destruct L. congruence.
  - exfalso. destruct AW as [FC AW]. destruct T as (FO & O & AC & W). rewrite app_nil_r in *. destruct acc as [l|]; [|cbn in AC; subst locked; inversion FC; subst; destruct KV as [KV _]; congruence].
    destruct AC as (NE & ND & AL). assert (UN : forall y, In y l -> y = z).
    { intros y IY. apply (g_one w G y z kv); [eapply all_of_for; eauto; apply AL, IY|apply (live_made w G kv z L)|]. intros q IQ. split; [|apply (live_reg w G kv z L q IQ)]. destruct (cur_find' w kv locked FC q IQ) as (a & IA & CA).
      exists a, kv. split; [exact CA|]. split; [eapply all_of_for; eauto; apply AL, IY|apply AL; assumption]. }
    destruct l as [|y [|y' l]]; [destruct AW|specialize (H y); congruence|]. inversion ND as [|? ? NI _]; subst. apply NI. left. rewrite (UN y (or_introl eq_refl)), (UN y' (or_intror (or_introl eq_refl))). reflexivity.
Qed.
Lemma told_some_step nils i c kv w p w' p' : fits nils c p -> tstep nils i c kv w p w' p' -> searching c -> told_some p -> told_some p'.
Proof.
  intros F ST SC TS. destruct ST; cbn in TS; try contradiction; try exact TS; try (exfalso; destruct c; cbn in F, SC; contradiction). destruct clean; exact TS.
Qed.

(** For each search: it had a moment when its items were gone, or has found one, or is on its way to one *)
Definition without (c : call) (kv : kvs) (s : state) : Prop := forall z, target c z -> ~ live (st_world s) kv z.
Definition seeks (tr : list state) (w : world) (i : nat) (c : call) (kv : kvs) (p : pc) : Prop :=
  searching c -> moment tr i (without c kv) \/ told_some p \/ exists z, target c z /\ live w kv z /\ aware w kv p z.
Lemma live_dec w kv x : live w kv x \/ ~ live w kv x.
Proof.
  unfold live. destruct (w_dying w x); [right; intros [_ D]; discriminate|]. destruct (w_items w x) as [kv'|]; [|right; intros [D _]; discriminate].
  assert (D : {kv' = kv} + {kv' <> kv}) by (repeat decide equality). destruct D as [->|D]; [left; auto|right; intros [D' _]; congruence].
Qed.
Lemma live_some c w kv : ginv w -> (exists z, target c z /\ live w kv z) \/ forall z, target c z -> ~ live w kv z.
Proof.
  intros G. assert (Q : forall n, (exists z, target c z /\ live w kv z) \/ forall z, z < n -> target c z -> ~ live w kv z).
  { induction n as [|n IH]; [right; lia|]. destruct IH as [IH | IH]; [auto|]. assert (TD : target c n \/ ~ target c n) by (destruct c; cbn; auto; destruct (Nat.eq_dec n x); auto).
    destruct TD as [TD | TD], (live_dec w kv n) as [D | D]; eauto; right; intros z LZ TZ; destruct (Nat.eq_dec z n) as [->|NE]; auto; apply IH; auto; lia. }
  destruct (Q (length (w_made w))) as [H | H]; [auto|]. right. intros z TZ L. apply (H z); auto. eapply nth_lt. apply (live_made w G kv z L).
Qed.
Lemma start_aware w c kv z : searching c -> aware w kv (start c kv) z.
Proof. destruct c; cbn; try tauto; intros _; exists []; (split; [reflexivity|constructor]). Qed.
Lemma start_run c kv r : start c kv <> PDone r.
Proof. destruct c; discriminate. Qed.
Lemma aware_run w kv p z r : aware w kv p z -> p <> PDone r.
Proof. intros A ->. exact A. Qed.
Lemma moment_head s tr i c kv p (P : state -> Prop) : nth_error (st_threads s) i = Some (mkThread c kv p) -> (forall r, p <> PDone r) -> P s -> moment (s :: tr) i P.
Proof. intros E H HP. exists s. split; [left; reflexivity|]. split; [eapply running_at; eauto|exact HP]. Qed.
Theorem exec_seeks nils destroys s tr : exec nils destroys (s :: tr) -> forall i c kv p, nth_error (st_threads s) i = Some (mkThread c kv p) -> seeks (s :: tr) (st_world s) i c kv p.
Proof.
  intros E. remember (s :: tr) as l eqn:EL. revert s tr EL. induction E as [|s s' tr E IH ST]; intros s0 tr0 EL; injection EL as <- <-.
  - intros i c kv p N. destruct i; discriminate.
  - specialize (IH s tr eq_refl). pose proof (exec_inv _ _ _ _ E) as I. pose proof (i_g _ _ I) as G. pose proof (exec_inv _ _ _ _ (EX_step _ _ _ _ _ E ST)) as I'. pose proof (i_g _ _ I') as G'. intros j cj kj pj NJ SC.
    destruct ST as [w ts c kv A | w ts i c kv p w' p' N ST]; cbn [st_world st_threads] in *.
    + pose proof NJ as NJ0. apply nth_snoc in NJ. destruct NJ as [NJ | [-> EQ]].
      * destruct (IH _ _ _ _ NJ SC) as [H | H]; [left; apply moment_more, H|right; exact H].
      * injection EQ as -> -> ->. destruct (live_some c w kv G) as [(z & TZ & LZ) | NO]; [right; right; exists z; auto using start_aware|]. left. eapply moment_head; [exact NJ0|intros r; apply start_run|exact NO].
    + destruct (i_t _ _ I i c kv p N) as (KV & AR & T). cbn [st_world] in *. pose proof NJ as NJ0. unfold set_thread in NJ. destruct (nth_set_cases _ _ _ _ _ _ N NJ) as [[-> EQ] | [NE NJ']].
      * injection EQ as -> -> ->. pose proof (proj1 (exec_told _ _ _ _ E i c kv p N)) as F. destruct (IH _ _ _ _ N SC) as [H | [H | (z & TZ & LZ & AW)]]; [left; apply moment_more, H|right; left; eapply told_some_step; eauto|].
        destruct (aware_step _ _ _ _ _ _ _ _ _ G KV T F ST SC LZ TZ AW) as [TS | AW']; [auto|]. destruct (live_step _ _ _ _ _ _ _ _ _ _ G T ST LZ) as [L' | NL]; [right; right; eauto|].
        left. eapply moment_head; [exact NJ0|intros r; eapply aware_run; eauto|]. intros y _. apply NL.
      * destruct (IH _ _ _ _ NJ' SC) as [H | [H | (z & TZ & LZ & AW)]]; [left; apply moment_more, H|right; left; exact H|].
        destruct (live_step _ _ _ _ _ _ _ _ _ _ G T ST LZ) as [L' | NL]; [right; right; exists z; split; [exact TZ|]; split; [exact L'|]; exact (aware_other _ _ _ _ _ _ _ _ _ _ _ G T ST LZ AW)|].
        left. eapply moment_head; [exact NJ0|intros r; eapply aware_run; eauto|]. intros y _. apply NL.
Qed.

(** *** All answers *)
Lemma exec_back nils destroys tr1 s tr : exec nils destroys (tr1 ++ s :: tr) -> exec nils destroys (s :: tr).
Proof. induction tr1 as [|s1 tr1 IH]; [auto|]. intros E. cbn in E. inversion E as [H|s0 s0' tr0 E0 ST H]; subst; [destruct tr1; discriminate|]. apply IH. match goal with H : _ :: _ = tr1 ++ _ |- _ => rewrite <- H end. exact E0. Qed.
Lemma exec_in nils destroys tr s : exec nils destroys tr -> In s tr -> exists tr', exec nils destroys (s :: tr').
Proof. intros E I. apply in_split in I. destruct I as (t1 & t2 & ->). exists t2. eapply exec_back; eauto. Qed.
Theorem answers nils destroys s tr i c kv r : exec nils destroys (s :: tr) -> answered i c kv r s -> right nils (s :: tr) i c kv r.
Proof.
  intros E N. destruct (proj2 (exec_told _ _ _ _ E _ _ _ _ N) r eq_refl) as [[-> SC] | R]; [|exact R].
  destruct (exec_seeks _ _ _ _ E _ _ _ _ N SC) as [(s0 & I & RU & W) | [TS | (z & _ & _ & [])]]; [|exfalso; apply TS; reflexivity]. destruct (exec_in _ _ _ _ E I) as (tr' & E').
  assert (Q : forall x, target c x -> stored kv x s0 -> destroyed_now x s0).
  { intros x TX SX. eapply dying_now; [exact E'|]. destruct (w_dying (st_world s0) x) eqn:D; [reflexivity|]. exfalso. apply (W x TX). split; [exact SX|exact D]. }
  destruct c; cbn in SC; try contradiction; exists s0; (split; [exact I|]; split; [exact RU|]).
  - intros x. apply Q. exact Logic.I.
  - intros x. apply Q. exact Logic.I.
  - apply Q. reflexivity.
Qed.
Theorem one_item nils destroys s tr kv x y : exec nils destroys (s :: tr) -> stored kv x s -> stored kv y s -> ~ destroyed_now x s -> ~ destroyed_now y s -> x = y.
Proof.
  intros E X Y DX DY. eapply stored_unique; eauto; [apply (i_g _ _ (exec_inv _ _ _ _ E))| |].
  - destruct (w_dying (st_world s) x) eqn:D; [|reflexivity]. exfalso. apply DX. eapply dying_now; eauto.
  - destruct (w_dying (st_world s) y) eqn:D; [|reflexivity]. exfalso. apply DY. eapply dying_now; eauto.
Qed.
