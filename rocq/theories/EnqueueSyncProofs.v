(** Proofs about [EnqueueSync.v]. *)
From Coq Require Import List Bool Arith Lia.
Import ListNotations.
From Verif Require Import AssocSync SpecAssocSync AssocSyncBase AssocSyncInv AssocSyncFrame AssocSyncStep AssocSyncGlobal AssocSyncAnswers AssocSyncChanges AssocSyncLive AssocSyncExamples EnqueueSync.

Lemma c72_replies nils destroys s tr i kv r : exec nils destroys (s :: tr) -> answered i CFindCreate kv r s -> forall took, exists a, enqueue_reply took r = Some a.
Proof.
  intros E A took. destruct nils.
  - pose proof (answers true destroys s tr i CFindCreate kv r E A) as H. destruct r; cbn in H; try contradiction; cbn; eauto.
  - pose proof (answers false destroys s tr i CFindCreate kv r E A) as H. destruct r; cbn in H; try contradiction; cbn; eauto.
Qed.
Lemma change_in tr i P : change tr i P -> exists s', In s' tr /\ exists s, P s s'.
Proof. intros (s & s' & (t1 & t2 & ->) & _ & _ & H). exists s'. split; [apply in_or_app; right; left; reflexivity|eauto]. Qed.
Lemma c72_stored destroys s tr i kv r took : exec false destroys (s :: tr) -> answered i CFindCreate kv r s -> enqueue_reply took r = Some Accepted ->
  exists x s', put_in took r x /\ In s' (s :: tr) /\ stored kv x s'.
Proof.
  intros E A R. pose proof (answers false destroys s tr i CFindCreate kv r E A) as H. destruct r as [x|x| | | |x|x| |]; cbn in H, R; try contradiction; try discriminate.
  - apply change_in in H as (s' & HI & s0 & _ & _ & HS). exists x, s'. split; [left; reflexivity|]. auto.
  - destruct took; [|discriminate]. destruct H as (s' & HI & _ & HS). exists x, s'. split; [right; auto|]. auto.
Qed.
(** Between two states, one where x is stored and a later one where it is not, there is a step where it goes *)
Lemma goes kv x tr1 s tr2 s' : In s' (tr1 ++ [s]) -> stored kv x s -> ~ stored kv x s' ->
  exists ta b a tb, tr1 ++ s :: tr2 = ta ++ b :: a :: tb /\ In a (tr1 ++ [s]) /\ stored kv x a /\ ~ stored kv x b.
Proof.
  revert s tr2. induction tr1 as [|b tr1 IH] using rev_ind; intros s tr2 HI HS HN.
  - destruct HI as [<- | []]. contradiction.
  - assert (D : {stored kv x b} + {~ stored kv x b}).
    { assert (PD : forall p q : nat * nat, {p = q} + {p <> q}) by (decide equality; apply Nat.eq_dec). unfold stored. decide equality. apply (list_eq_dec PD). }
    destruct D as [D | D].
    + rewrite <- app_assoc in HI. cbn in HI. apply in_app_or in HI. destruct (IH b (s :: tr2)) as (ta & b' & a & tb & E & HA & H1 & H2); auto.
      { apply in_or_app. destruct HI as [HI | [<- | [<- | []]]]; [left; exact HI|right; left; reflexivity|contradiction]. }
      exists ta, b', a, tb. rewrite <- !app_assoc. cbn. split; [exact E|]. split; [|auto]. apply in_app_or in HA. apply in_or_app. destruct HA as [HA | [<- | []]]; [left; exact HA|right; left; reflexivity].
    + exists tr1, b, s, tr2. rewrite <- !app_assoc. cbn. split; [reflexivity|]. split; [|auto]. apply in_or_app. right. right. left. reflexivity.
Qed.
Lemma c72_kept destroys tr1 s tr2 s' kv x : exec false destroys (tr1 ++ s :: tr2) -> stored kv x s -> In s' (tr1 ++ [s]) -> ~ stored kv x s' ->
  exists j c kv' t, In t (tr1 ++ [s]) /\ call_is j c kv' t /\ running j t /\ (kv' = kv /\ (exists b, c = CDelete b \/ exists y, c = CDeleteId b y) \/ c = CDestroy x).
Proof.
  intros E HS HI HN. destruct (goes kv x tr1 s tr2 s' HI HS HN) as (ta & b & a & tb & EQ & HA & H1 & H2). rewrite EQ in E.
  destruct (leaves destroys ta b a tb x kv E H1 H2) as (_ & j & c & kv' & HC & CI & RU & _). exists j, c, kv', a. auto.
Qed.
(** ** Who leaves an id without item *)
Definition creates (c : call) : Prop := c = CCreate \/ c = CFindCreate.
(** onCreate has returned nil, and the creation cleans up or has done so *)
Definition cleaning (p : pc) : Prop :=
  match p with PUnlock _ r | DUnlock _ r _ | DClean _ r | PDone r => r = RNil | DFind _ _ | DLock _ _ _ | DItem _ _ => True | _ => False end.
Definition nil_call (j : nat) (kv : kvs) (s : state) : Prop := exists c p, nth_error (st_threads s) j = Some (mkThread c kv p) /\ creates c /\ cleaning p.
Lemma cleaning_step nils i c kv w p w' p' : creates c -> cleaning p -> tstep nils i c kv w p w' p' -> cleaning p'.
Proof.
  intros HC H ST. assert (V : forall r, verdict c r = RNil) by (intros r; destruct HC as [-> | ->]; reflexivity). assert (AS : asking c = false) by (destruct HC as [-> | ->]; reflexivity).
  destruct ST; cbn [cleaning] in *; try contradiction; try exact H; try exact I; auto; try congruence.
  - rewrite H. exact I.
  - destruct clean; exact H.
Qed.
Lemma thread_step nils destroys s s' j c kv p : step nils destroys s s' -> nth_error (st_threads s) j = Some (mkThread c kv p) ->
  exists p', nth_error (st_threads s') j = Some (mkThread c kv p') /\ (p' = p \/ exists w w', tstep nils j c kv w p w' p').
Proof.
  intros ST N. destruct ST as [w ts c0 kv0 A | w ts i c0 kv0 p0 w' p' N0 ST]; cbn [st_threads] in *.
  - exists p. split; [apply nth_snoc_old; exact N|auto].
  - unfold set_thread. destruct (Nat.eq_dec j i) as [->|NE].
    + rewrite N0 in N. injection N as -> -> ->. exists p'. split; [eapply nth_set_same; eauto|]. right. eauto.
    + exists p. split; [rewrite nth_set_other by exact NE; exact N|auto].
Qed.
Lemma nil_call_step nils destroys s s' j kv : step nils destroys s s' -> nil_call j kv s -> nil_call j kv s'.
Proof.
  intros ST (c & p & N & HC & CL). destruct (thread_step _ _ _ _ _ _ _ _ ST N) as (p' & N' & [-> | (w & w' & T)]); exists c; [exists p; auto|exists p'].
  split; [exact N'|]. split; [exact HC|]. eapply cleaning_step; eauto.
Qed.
Definition made_inv (s : state) : Prop := forall x kv, nth_error (w_made (st_world s)) x = Some kv ->
  In x (w_known (st_world s)) \/ calling (st_threads s) x \/ exists j, nil_call j kv s.
Definition neither_inv (s : state) : Prop := forall i c kv p, nth_error (st_threads s) i = Some (mkThread c kv p) -> pend p = Some RNeither ->
  exists j, j <> i /\ nil_call j kv s.
Lemma made_known nils i c kv w p w' p' : tstep nils i c kv w p w' p' ->
  (w_made w' = w_made w \/ exists l, w_made w' = w_made w ++ [kv] /\ p' = PCall l (length (w_made w))) /\ incl (w_known w) (w_known w').
Proof.
  intros ST. split.
  - destruct ST; try (left; reflexivity); try (right; eexists; split; reflexivity). left. cbv zeta. destruct (truncate _), (nd_creating nd); reflexivity.
  - destruct ST; try apply incl_refl; try (apply incl_tl, incl_refl). cbv zeta. destruct (truncate _), (nd_creating nd); apply incl_refl.
Qed.
Lemma call_ends nils i c kv w l x w' p' : fits nils c (PCall l x) -> tstep nils i c kv w (PCall l x) w' p' -> In x (w_known w') \/ (creates c /\ cleaning p').
Proof.
  intros F ST. inversion ST; subst.
  - left. left. reflexivity.
  - right. split; [|reflexivity]. unfold creates. destruct c; cbn in F; tauto.
Qed.
Lemma nil_inv nils destroys s tr : exec nils destroys (s :: tr) -> made_inv s /\ neither_inv s.
Proof.
  intros E. remember (s :: tr) as t eqn:ET. revert s tr ET. induction E as [|s0 s' tr0 E IH ST]; intros s tr ET.
  { injection ET as <- <-. split; [intros x kv H; destruct x; discriminate H|]. intros i c kv p H. destruct i; discriminate H. }
  injection ET as <- <-. destruct (IH s0 tr0 eq_refl) as [MI NI]. clear IH. pose proof (exec_inv _ _ _ _ E) as I.
  assert (FITS : forall i c kv p, nth_error (st_threads s0) i = Some (mkThread c kv p) -> fits nils c p) by (intros i c kv p N; apply (exec_told _ _ _ _ E i c kv p N)).
  split.
  - intros x kv M.
    assert (OLD : nth_error (w_made (st_world s0)) x = Some kv -> In x (w_known (st_world s')) \/ calling (st_threads s') x \/ exists j, nil_call j kv s').
    { intros M0. pose proof (MI x kv M0) as H. destruct ST as [w ts c kv1 A | w ts i c kv1 p w' p' N ST].
      - cbn [st_world st_threads] in *. destruct H as [H | [(j & th & l & H & HP) | (j & H)]]; [auto| |].
        + right; left. exists j, th, l. split; [apply nth_snoc_old; exact H|exact HP].
        + right; right. exists j. eapply (nil_call_step nils destroys); [apply ST_call; exact A|exact H].
      - pose proof (proj2 (made_known _ _ _ _ _ _ _ _ ST)) as K. cbn [st_world st_threads] in *. destruct H as [H | [(j & th & l & H & HP) | (j & H)]]; [auto| |].
        + destruct (Nat.eq_dec j i) as [-> | NE].
          * rewrite N in H. injection H as <-. cbn in HP. subst p. destruct (call_ends nils i c kv1 w l x w' p' (FITS i _ _ _ N) ST) as [X | [X1 X2]]; [auto|]. right; right. exists i.
            assert (kv1 = kv) as ->. { destruct (i_t _ _ I i _ _ _ N) as (_ & _ & (_ & _ & MX & _)). unfold for_all in MX. cbn [st_world] in MX. congruence. }
            exists c, p'. split; [eapply nth_set_same; eauto|]. auto.
          * right; left. exists j, th, l. split; [unfold set_thread; rewrite nth_set_other by exact NE; exact H|exact HP].
        + right; right. exists j. eapply (nil_call_step nils destroys); [eapply ST_step; eauto|exact H]. }
    destruct ST as [w ts c kv1 A | w ts i c kv1 p w' p' N ST]; [apply OLD; exact M|]. cbn [st_world st_threads] in *. destruct (made_known _ _ _ _ _ _ _ _ ST) as [[EM | (l & EM & ->)] K].
    + rewrite EM in M. apply OLD. exact M.
    + rewrite EM in M. destruct (Nat.lt_ge_cases x (length (w_made w))) as [LT | GE]; [rewrite nth_error_app1 in M by exact LT; apply OLD; exact M|].
      rewrite nth_error_app2 in M by exact GE. assert (x = length (w_made w)) as ->. { assert (X : x - length (w_made w) < length [kv1]) by (apply nth_error_Some; congruence). cbn in X. lia. }
      right; left. exists i, (mkThread c kv1 (PCall l (length (w_made w)))), l. split; [eapply nth_set_same; eauto|reflexivity].
  - intros i c kv p N P. pose proof ST as ST0. destruct ST as [w ts c0 kv0 A | w ts j c0 kv0 p0 w' p' N0 ST]; cbn [st_threads] in N.
    + destruct (Nat.lt_ge_cases i (length ts)) as [LT | GE].
      * rewrite nth_error_app1 in N by exact LT. destruct (NI i c kv p N P) as (j & NE & H). exists j. split; [exact NE|]. eapply (nil_call_step nils destroys); [exact ST0|exact H].
      * rewrite nth_error_app2 in N by exact GE. destruct (i - length ts) as [|n]; [|destruct n; discriminate N]. injection N as <- <- <-. destruct c0; discriminate P.
    + apply (nth_set_cases _ _ _ _ _ _ N0) in N. destruct N as [[-> E2] | [NE N]].
      * injection E2 as -> -> ->.
        assert (C : pend p0 = Some RNeither \/ exists l x, p0 = PFound l x /\ w_items w x = None).
        { clear - ST P. destruct ST; cbn [pend missed] in *; try discriminate; auto; try (unfold missed in P; destruct c0; discriminate P); try (destruct c0; discriminate P).
          - destruct (meet acc _); [unfold missed in P; destruct c0; discriminate P|discriminate P].
          - right. eauto.
          - left. destruct r; auto; discriminate P.
          - left. destruct clean; exact P. }
        destruct C as [C | (l & x & -> & NX)].
        -- destruct (NI j c0 kv0 p0 N0 C) as (j' & NE & H). exists j'. split; [exact NE|]. eapply (nil_call_step nils destroys); eauto.
        -- pose proof (i_t _ _ I j _ _ _ N0) as (KV & _ & (CU & OW & FA & HH)). cbn [st_world] in *.
           destruct (MI x kv0 FA) as [K | [(j' & th & l' & H & HP) | (j' & H)]].
           ++ exfalso. assert (X := ids_stored nils (mkState w ts) j c0 kv0 (PFound l x) l x I N0 KV CU OW HH ltac:(discriminate) (or_intror K)). cbn [st_world] in X. congruence.
           ++ exfalso. destruct th as [c' kv' pp]. cbn in HP. subst pp. cbn [st_threads] in H. destruct (i_t _ _ I j' _ _ _ H) as (_ & _ & (CJ & OJ & MJ & _)). cbn [st_world] in *. unfold for_all in *. assert (kv' = kv0) as -> by congruence.
              assert (EQ : l' = l). { clear -CU CJ. revert l' CJ. induction CU as [|p a ps l C F IH]; intros m D; inversion D as [|? b ? m' D1 D2]; subst; [reflexivity|]. unfold cur in *. rewrite (IH _ D2). congruence. }
              subst l'. destruct l as [|a l]; [inversion CU; subst; destruct KV as [Z _]; congruence|].
              inversion OW as [|? ? (nd & Na & L) _]; subst. inversion OJ as [|? ? (nd' & Na' & L') _]; subst. rewrite (node_fun _ _ _ _ Na Na') in L. assert (j = j') as <- by congruence. rewrite N0 in H. discriminate H.
           ++ exists j'. split; [|eapply (nil_call_step nils destroys); eauto]. intros ->. destruct H as (c' & p2 & H & _ & CL). cbn [st_threads] in H. rewrite N0 in H. injection H as <- <-. exact CL.
      * destruct (NI i c kv p N P) as (j' & NE' & H). exists j'. split; [exact NE'|]. eapply (nil_call_step nils destroys); eauto.
Qed.
Lemma nil_call_later nils destroys tr1 s tr2 j kv : exec nils destroys (tr1 ++ s :: tr2) -> nil_call j kv s -> forall s', In s' (tr1 ++ [s]) -> nil_call j kv s'.
Proof.
  revert s tr2. induction tr1 as [|b tr1 IH] using rev_ind; intros s tr2 E H s' HI; [destruct HI as [<- | []]; exact H|].
  rewrite <- app_assoc in E, HI. cbn in E, HI. assert (HB : nil_call j kv b).
  { assert (EB : exec nils destroys (b :: s :: tr2)) by (clear -E; induction tr1 as [|x tr1 IH]; [exact E|apply IH; inversion E; subst; [destruct tr1; discriminate|]; assumption || (rewrite <- H in *; assumption)]).
    inversion EB; subst. eapply (nil_call_step nils destroys); eauto. }
  apply in_app_or in HI. destruct HI as [HI | [<- | [<- | []]]]; [|exact HB|exact H]. apply (IH b (s :: tr2) E HB). apply in_or_app. left. exact HI.
Qed.

(** Two enqueues that overlap: the first is refused, the second is accepted and its item is nowhere *)
Lemma enqueue_neither : exists s tr, exec true false (s :: tr) /\ answered 1 CFindCreate [(1, 1)] RNeither s /\ forall s' x, In s' (s :: tr) -> absent x s'.
Proof. exact nil_neither. Qed.
(** An enqueue that is refused, a deletion of the channel and an enqueue that is accepted: the first removes the channel of the last *)
Lemma enqueue_lost : exists s tr, exec true false (s :: tr) /\ answered 0 CFindCreate [(1, 1)] RNil s /\ answered 1 (CDelete true) [(1, 1)] RNone s /\ answered 2 CFindCreate [(1, 1)] (RCreated 1) s /\
  length (st_threads s) = 3 /\ absent 1 s.
Proof.
  pose proof (EX_new true false) as E. unfold empty_world in E. call E CFindCreate [(1, 1)]. go E 0 S_query_none. go E 0 S_pin_new. go E 0 S_pin_end. go E 0 S_lock. go E 0 S_new. go E 0 S_nil. go E 0 S_unlock. go E 0 S_unlock_end.
  call E (CDelete true) [(1, 1)]. go E 1 D_find. go E 1 D_all. go E 1 D_lock. go E 1 D_check. go E 1 D_ghost. go E 1 D_unlock. go E 1 D_unlock_end. go E 1 D_clean_drop. go E 1 D_clean_end.
  call E CFindCreate [(1, 1)]. go E 2 S_query_none. create1 E 2. go E 0 D_find. go E 0 D_all. go E 0 D_lock. go E 0 D_check. go E 0 D_delete. go E 0 D_unlock. go E 0 D_unlock_end. go E 0 D_clean_drop. go E 0 D_clean_end.
  eexists _, _. split; [exact E|]. repeat split.
Qed.

(** ** C72 *)
Lemma c72_accepted nils destroys s tr i kv r took : exec nils destroys (s :: tr) -> answered i CFindCreate kv r s -> enqueue_reply took r = Some Accepted ->
  (exists x s', put_in took r x /\ In s' (s :: tr) /\ stored kv x s') \/
  (exists j c, j <> i /\ (c = CCreate \/ c = CFindCreate) /\ call_is j c kv s /\
     forall tr' s' r', exec nils destroys (tr' ++ s :: tr) -> In s' (tr' ++ [s]) -> answered j c kv r' s' -> r' = RNil).
Proof.
  intros E A R. assert (H : right nils (s :: tr) i CFindCreate kv r) by (destruct nils; eapply answers; eauto). destruct r as [x|x| | | |x|x| |]; cbn in H, R; try contradiction; try discriminate.
  - left. apply change_in in H as (s' & HI & s0 & _ & _ & HS). exists x, s'. split; [left; reflexivity|]. auto.
  - left. destruct took; [|discriminate]. destruct H as (s' & HI & _ & HS). exists x, s'. split; [right; auto|]. auto.
  - right. destruct (proj2 (nil_inv _ _ _ _ E) i _ _ _ A eq_refl) as (j & NE & HN). pose proof HN as (c & p & N & HC & _). exists j, c. split; [exact NE|]. split; [exact HC|]. split; [exists p; exact N|].
    intros tr' s' r' E' HI AJ. destruct (nil_call_later _ _ _ _ _ _ _ E' HN s' HI) as (c' & p' & N' & _ & CL). unfold answered in AJ. rewrite N' in AJ. injection AJ as -> ->. exact CL.
Qed.
(** Two enqueues of the same channel, the second waits for the first; then the channel is deleted *)
Lemma enqueues : exists s tr, exec false false (s :: tr) /\ answered 0 CFindCreate [(1, 1)] (RCreated 0) s /\ answered 1 CFindCreate [(1, 1)] (RFound 0) s /\ answered 2 (CDelete true) [(1, 1)] (RDeleted 0) s /\ absent 0 s /\
  exists s', In s' tr /\ stored [(1, 1)] 0 s'.
Proof.
  pose proof (EX_new false false) as E. unfold empty_world in E. call E CFindCreate [(1, 1)]. go E 0 S_query_none. call E CFindCreate [(1, 1)]. go E 1 S_query_none. create1 E 0.
  go E 1 S_pin. go E 1 S_pin_end. go E 1 S_lock. go E 1 S_check. go E 1 S_found. go E 1 S_unlock. go E 1 S_unlock_end.
  call E (CDelete true) [(1, 1)]. go E 2 D_find. go E 2 D_all. go E 2 D_lock. go E 2 D_check. go E 2 D_delete. go E 2 D_unlock. go E 2 D_unlock_end. go E 2 D_clean_drop. go E 2 D_clean_end.
  eexists _, _. split; [exact E|]. split; [reflexivity|]. split; [reflexivity|]. split; [reflexivity|]. split; [reflexivity|].
  eexists. split; [do 6 right; left; reflexivity|reflexivity].
Qed.
