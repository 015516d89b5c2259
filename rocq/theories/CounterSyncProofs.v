(** Proofs about [CounterSync.v]. *)
From Coq Require Import List Bool Arith ZArith Lia Permutation.
Import ListNotations.
From Verif Require Import AssocSync SpecAssocSync AssocSyncBase AssocSyncInv AssocSyncFrame AssocSyncStep AssocSyncGlobal AssocSyncAnswers AssocSyncLive AssocSyncChanges CounterSync SpecCounterSync.
Local Open Scope Z_scope.

(** *** The tree *)
Lemma tree_step s s' : cstep s s' -> step false false (c_tree s) (c_tree s').
Proof. intros [w ts v cs o kv A | w ts v cs i c kv p w' p' cc v' cc' N NC ST CB]; cbn [c_tree]; [apply ST_call, A|eapply ST_step; eauto]. Qed.
Lemma tree_exec tr : cexec tr -> exec false false (map c_tree tr).
Proof. induction 1 as [|s s' tr E IH ST]; [constructor|]. cbn [map] in *. econstructor; [exact IH|apply tree_step, ST]. Qed.
Lemma no_destroys s tr : exec false false (s :: tr) -> forall i x kv p, nth_error (st_threads s) i <> Some (mkThread (CDestroy x) kv p).
Proof.
  intros E. remember (s :: tr) as l eqn:EL. revert s tr EL. induction E as [|s s' tr E IH ST]; intros s0 tr0 EL; injection EL as <- <-.
  - intros [|i] x kv p N; discriminate.
  - specialize (IH s tr eq_refl). destruct ST as [w ts c kv A | w ts i c kv p w' p' N ST]; intros j x k q NJ; cbn [st_threads] in *.
    + apply nth_snoc in NJ. destruct NJ as [NJ | [-> EQ]]; [exact (IH _ _ _ _ NJ)|]. injection EQ as <- <- _. destruct A as (_ & A & _). discriminate.
    + unfold set_thread in NJ. destruct (nth_set_cases _ _ _ _ _ _ N NJ) as [[-> EQ] | [_ NJ']]; [|exact (IH _ _ _ _ NJ')]. injection EQ as <- <- _. exact (IH _ _ _ _ N).
Qed.
Lemma none_destroyed s tr x : exec false false (s :: tr) -> ~ destroyed_now x s.
Proof. intros E (i & kv & (p & N) & _). exact (no_destroys s tr E _ _ _ _ N). Qed.
Lemma stored_one s tr kv x y : exec false false (s :: tr) -> stored kv x s -> stored kv y s -> x = y.
Proof. intros E X Y. eapply one_item; eauto; eapply none_destroyed; eauto. Qed.

(** A call has been told about an item *)
Definition settled (p : pc) : bool := match pend p with Some (RCreated _ | RFound _ | RDeleted _ | RRefused _) => true | _ => false end.
Lemma settled_missed c kv : settled (missed c kv) = false.
Proof. destruct c; reflexivity. Qed.
Definition same_items (w w' : world) : Prop := forall x, w_items w' x = w_items w x.
Definition told_of (h : option hit) (c : call) (kv : kvs) (w w' : world) (p p' : pc) : Prop :=
  match h with
  | None => same_items w w' /\ settled p' = settled p
  | Some (HFound x) => (c = CFind \/ c = CFindCreate) /\ w_items w x = Some kv /\ same_items w w' /\ settled p = false /\ settled p' = true
  | Some (HNew x) => (c = CCreate \/ c = CFindCreate) /\ (forall y, w_items w y <> Some kv) /\ w_items w x = None /\ (forall y, w_items w' y = set_item (w_items w) x (Some kv) y) /\ settled p = false /\ settled p' = true
  | Some (HDelete x) => (exists b, c = CDelete b \/ exists y, c = CDeleteId b y) /\ w_items w x = Some kv /\ (forall y, w_items w' y = set_item (w_items w) x None y) /\ settled p = false /\ settled p' = true
  | Some (HKeep x) => (exists b, c = CDelete b \/ exists y, c = CDeleteId b y) /\ w_items w x = Some kv /\ same_items w w' /\ settled p = false /\ settled p' = true
  end.
Lemma events w ts tr i c kv p w' p' : exec false false (mkState w ts :: tr) -> nth_error ts i = Some (mkThread c kv p) -> tstep false i c kv w p w' p' ->
  told_of (hits p p') c kv w w' p p'.
Proof.
  intros E N ST. pose proof (exec_inv _ _ _ _ E) as I. pose proof (i_g _ _ I) as G. cbn [st_world] in G. destruct (i_t _ _ I i c kv p N) as (KV & _ & T). cbn [st_world] in T.
  pose proof (proj1 (exec_told _ _ _ _ E i c kv p N)) as F. pose proof (fun x => no_destroys _ _ E i x kv p) as ND. cbn [st_threads] in ND.
  assert (IT : forall x kv', w_items w x = Some kv' -> nth_error (w_made w) x = Some kv') by (intros x kv' H; apply (g_items w G), H).
  destruct ST; subst; try (exfalso; eapply ND; eassumption); cbn [hits].
  all: try (split; [intros z; reflexivity|]; rewrite ?settled_missed; try reflexivity).
  - destruct (meet acc _); [apply settled_missed|reflexivity].
  - assert (KE : kv' = kv) by (specialize (T x (or_introl eq_refl)); specialize (IT _ _ H0); unfold for_all in T; congruence). subst kv'.
    split; [destruct c; cbn in F; auto; contradiction|]. split; [assumption|]. split; [intros z; reflexivity|]. split; reflexivity.
  - assert (KE : kv' = kv) by (destruct T as (_ & _ & M & _); specialize (IT _ _ H0); unfold for_all in M; congruence). subst kv'.
    split; [destruct c; cbn in F; auto; contradiction|]. split; [assumption|]. split; [intros z; reflexivity|]. split; reflexivity.
  - split; [destruct c; cbn in F; auto; contradiction|]. split; [|split; [apply T|split; [intros z; reflexivity|split; reflexivity]]].
    intros y SY. assert (D : w_dying w y = true) by (eapply called_clean; eauto). apply (none_destroyed _ _ y E). eapply dying_now; eauto.
  - destruct r; reflexivity.
  - destruct c; reflexivity.
  - destruct c; reflexivity.
  - destruct c; reflexivity.
  - assert (KE : kv' = kv) by (destruct T as (_ & _ & M & _); specialize (IT _ _ H0); unfold for_all in M; congruence). subst kv'.
    destruct c; cbn in F; try contradiction; try discriminate; (cbn [verdict told_of]; split; [eauto|]; split; [assumption|]; split; [intros z; reflexivity|]; split; reflexivity).
  - assert (KE : kv' = kv) by (destruct T as (_ & _ & M & _); specialize (IT _ _ H1); unfold for_all in M; congruence). subst kv'.
    destruct c; cbn in F; try contradiction; try discriminate; (cbn [told_of]; split; [eauto|]; split; [assumption|]; split; [intros z; reflexivity|]; split; reflexivity).
  - destruct c; cbn in F; try contradiction; try discriminate; (cbn [verdict told_of]; split; [intros z; reflexivity|reflexivity]).
  - destruct c; reflexivity.
  - destruct clean; reflexivity.
Qed.

(** *** The calls *)
Lemma shape s tr : cexec (s :: tr) -> length (c_calls s) = length (st_threads (c_tree s)) /\
  forall i cc th, nth_error (c_calls s) i = Some cc -> nth_error (st_threads (c_tree s)) i = Some th -> th_call th = call_of (cc_op cc).
Proof.
  intros E. remember (s :: tr) as l eqn:EL. revert s tr EL. induction E as [|s s' tr E IH ST]; intros s0 tr0 EL; injection EL as <- <-.
  - split; [reflexivity|]. intros [|i] cc th N; discriminate.
  - specialize (IH s tr eq_refl). destruct IH as [L C]. destruct ST as [w ts v cs o kv A | w ts v cs i c kv p w' p' cc v' cc' N NC ST CB]; cbn [c_tree c_calls st_threads] in *.
    + split; [rewrite !app_length, L; reflexivity|]. intros i cc th H1 H2. apply nth_snoc in H1, H2. destruct H1 as [H1 | [-> ->]], H2 as [H2 | [H2 H3]]; subst.
      * eapply C; eauto.
      * exfalso. rewrite <- L in H1. rewrite (proj2 (nth_error_None cs (length cs)) (Nat.le_refl _)) in H1. discriminate.
      * exfalso. rewrite L in H2. rewrite (proj2 (nth_error_None ts (length ts)) (Nat.le_refl _)) in H2. discriminate.
      * reflexivity.
    + unfold set_thread. split; [rewrite !length_set_nth; exact L|]. intros j dd th H1 H2.
      assert (O : cc_op cc' = cc_op cc).
      { destruct (hits p p') as [[x|x|x|x]|]; cbn [called] in CB; intuition subst; try reflexivity. destruct (cc_op cc) eqn:EO; cbn; auto. }
      destruct (nth_set_cases _ _ _ _ _ _ NC H1) as [[-> ->] | [NE H1']], (nth_set_cases _ _ _ _ _ _ N H2) as [[E2 ->] | [NE2 H2']]; try congruence.
      * cbn [th_call]. rewrite O. exact (C _ _ _ NC N).
      * exact (C _ _ _ H1' H2').
Qed.
Lemma done_stays nils i c kv w r w' p' : ~ tstep nils i c kv w (PDone r) w' p'.
Proof. intros ST. inversion ST. Qed.
Lemma ended_step s s' i : cstep s s' -> ended i s -> ended i s'.
Proof.
  intros ST (c & kv & r & A). unfold ended, answered in *. destruct ST as [w ts v cs o kv0 AL | w ts v cs j c0 kv0 p w' p' cc v' cc' N NC ST CB]; cbn [c_tree st_threads] in *.
  - exists c, kv, r. apply nth_snoc_old, A.
  - unfold set_thread. destruct (Nat.eq_dec i j) as [->|NE]; [|exists c, kv, r; rewrite nth_set_other by exact NE; exact A]. rewrite A in N. injection N as <- <- <-. destruct (done_stays _ _ _ _ _ _ _ _ ST).
Qed.
Definition made (i : nat) (s : cstate) : Prop := nth_error (st_threads (c_tree s)) i <> None.
Lemma made_step s s' i : cstep s s' -> made i s -> made i s'.
Proof.
  intros ST. unfold made. rewrite !nth_error_Some. destruct ST as [w ts v cs o kv0 AL | w ts v cs j c0 kv0 p w' p' cc v' cc' N NC ST CB]; cbn [c_tree st_threads].
  - rewrite app_length. cbn. lia.
  - unfold set_thread. rewrite length_set_nth. auto.
Qed.
Lemma ended_older s tr s' i : cexec (s :: tr) -> In s' (s :: tr) -> ended i s' -> ended i s.
Proof.
  intros E. remember (s :: tr) as l eqn:EL. revert s tr EL. induction E as [|s s1 tr E IH ST]; intros s0 tr0 EL H HE; injection EL as <- <-.
  - destruct H as [<- | []]. exact HE.
  - destruct H as [<- | H]; [exact HE|]. eapply ended_step; eauto.
Qed.
Lemma made_older s tr s' i : cexec (s :: tr) -> In s' (s :: tr) -> made i s' -> made i s.
Proof.
  intros E. remember (s :: tr) as l eqn:EL. revert s tr EL. induction E as [|s s1 tr E IH ST]; intros s0 tr0 EL H HE; injection EL as <- <-.
  - destruct H as [<- | []]. exact HE.
  - destruct H as [<- | H]; [exact HE|]. eapply made_step; eauto.
Qed.
Lemma cexec_back tr1 s tr : cexec (tr1 ++ s :: tr) -> cexec (s :: tr).
Proof. induction tr1 as [|s1 tr1 IH]; [auto|]. intros E. cbn in E. inversion E as [H|s0 s0' tr0 E0 ST H]; subst; [destruct tr1; discriminate|]. apply IH. match goal with H : _ :: _ = tr1 ++ _ |- _ => rewrite <- H end. exact E0. Qed.

(** *** Orders, in blocks: one block for every state gone through, newest first *)
Definition flat (bs : list (list entry)) : list entry := concat (rev bs).
Lemma flat_cons b bs : flat (b :: bs) = flat bs ++ b.
Proof. unfold flat. cbn [rev]. rewrite concat_app. cbn. rewrite app_nil_r. reflexivity. Qed.
Lemma flat_app b1 b2 : flat (b1 ++ b2) = flat b2 ++ flat b1.
Proof. unfold flat. rewrite rev_app_distr, concat_app. reflexivity. Qed.
Definition apply1 (kv : kvs) (n : option Z) (e : entry) : option Z := let '(_, o, kv') := e in if same_kvs kv' kv then effect o n else n.
Lemma total_fold kv l : total kv l = fold_left (apply1 kv) l None.
Proof. reflexivity. Qed.
Lemma total_app kv l m : total kv (l ++ m) = fold_left (apply1 kv) m (total kv l).
Proof. rewrite !total_fold. apply fold_left_app. Qed.
Lemma total_insert kv0 l m i o kv : total kv l = None -> effect o None = None -> total kv0 (l ++ (i, o, kv) :: m) = total kv0 (l ++ m).
Proof.
  intros T E. rewrite !total_app. cbn [fold_left]. f_equal. unfold apply1. destruct (same_kvs kv kv0) as [<-|]; [|reflexivity]. rewrite T. exact E.
Qed.
Inductive lined : list cstate -> list (list entry) -> Prop :=
| L_nil : lined [] []
| L_cons s tr b bs : lined tr bs -> (forall kv, counter kv (total kv (flat (b :: bs))) s) ->
    (forall e, In e b -> made (who e) s /\ forall s', In s' tr -> ~ ended (who e) s') -> lined (s :: tr) (b :: bs).
Lemma lined_split tr1 s tr2 bs : lined (tr1 ++ s :: tr2) bs -> exists b1 b b2, bs = b1 ++ b :: b2 /\ lined (s :: tr2) (b :: b2) /\
  forall e, In e (flat b1) -> ~ ended (who e) s.
Proof.
  revert bs. induction tr1 as [|s1 tr1 IH]; intros bs L; cbn in L.
  - inversion L; subst. exists [], b, bs0. split; [reflexivity|]. split; [exact L|]. intros e [].
  - inversion L as [|s0 tr0 b bs0 L0 C P]; subst. destruct (IH _ L0) as (b1 & b' & b2 & -> & L' & H). exists (b :: b1), b', b2. split; [reflexivity|]. split; [exact L'|].
    intros e HI. rewrite flat_cons in HI. apply in_app_iff in HI as [HI | HI]; [apply H, HI|]. apply P; [exact HI|]. apply in_elt.
Qed.
Lemma lined_made s tr bs e : cexec (s :: tr) -> lined (s :: tr) bs -> In e (flat bs) -> made (who e) s.
Proof.
  intros E. remember (s :: tr) as l eqn:EL. revert s tr bs EL. induction E as [|s s1 tr E IH ST]; intros s0 tr0 bs EL L H; injection EL as <- <-; inversion L as [|s2 tr2 b bs0 L0 C P]; subst; rewrite flat_cons in H; apply in_app_iff in H as [H | H]; try (apply P, H).
  - inversion L0; subst. destruct H.
  - eapply made_step; [exact ST|]. eapply IH; eauto.
Qed.
Lemma counter_fun s tr kv n m : exec false false (c_tree s :: tr) -> counter kv n s -> counter kv m s -> n = m.
Proof.
  intros E A B. destruct n as [n|], m as [m|]; cbn in A, B; auto.
  - destruct A as (x & X & <-), B as (y & Y & <-). rewrite (stored_one _ _ _ _ _ E X Y). reflexivity.
  - destruct A as (x & X & _). destruct (B _ X).
  - destruct B as (x & X & _). destruct (A _ X).
Qed.
Lemma lined_insert tr1 s tr2 bs i o kv : cexec (tr1 ++ s :: tr2) -> lined (tr1 ++ s :: tr2) bs -> (forall x, ~ stored kv x (c_tree s)) -> effect o None = None ->
  made i s -> (forall s', In s' tr2 -> ~ ended i s') ->
  exists b1 b b2, bs = b1 ++ b :: b2 /\ total kv (flat b2 ++ b) = None /\ lined (tr1 ++ s :: tr2) (b1 ++ (b ++ [(i, o, kv)]) :: b2).
Proof.
  intros E L NS EN MD NE. revert bs E L. induction tr1 as [|s1 tr1 IH]; intros bs E L; cbn [app] in *.
  - inversion L as [|s0 tr0 b bs0 L0 C P]; subst. exists [], b, bs0. split; [reflexivity|].
    assert (T : total kv (flat bs0 ++ b) = None). { rewrite <- flat_cons. pose proof (tree_exec _ E) as X. cbn [map] in X. exact (counter_fun s _ kv _ None X (C kv) NS). }
    split; [exact T|]. cbn [app]. constructor; [exact L0| |].
    + intros kv0. specialize (C kv0). rewrite flat_cons in *. rewrite app_assoc. rewrite (total_insert kv0 (flat bs0 ++ b) [] i o kv T EN), app_nil_r. exact C.
    + intros e HI. apply in_app_iff in HI as [HI | [<- | []]]; [apply P, HI|]. split; assumption.
  - inversion L as [|s0 tr0 b bs0 L0 C P]; subst. assert (E0 : cexec (tr1 ++ s :: tr2)) by (inversion E as [H|? ? ? E0 ST H]; [destruct tr1; discriminate|exact E0]).
    destruct (IH _ E0 L0) as (b1 & b' & b2 & -> & T & L'). exists (b :: b1), b', b2. split; [reflexivity|]. split; [exact T|]. cbn [app]. constructor; [exact L'| |exact P].
    intros kv0. specialize (C kv0). rewrite flat_cons, flat_app, flat_cons in *. 
    replace (((flat b2 ++ b' ++ [(i, o, kv)]) ++ flat b1) ++ b) with ((flat b2 ++ b') ++ (i, o, kv) :: (flat b1 ++ b)) by (rewrite <- !app_assoc; reflexivity).
    rewrite (total_insert kv0 _ _ i o kv T EN). rewrite app_assoc. exact C.
Qed.

(** *** What a callback does *)
Lemma hit_effect s s' h cc v' cc' c kv p p' : call_of (cc_op cc) = c -> called (Some h) cc (c_val s) v' cc' -> c_val s' = v' ->
  told_of (Some h) c kv (st_world (c_tree s)) (st_world (c_tree s')) p p' ->
  (forall n, counter kv n s -> (forall x y, stored kv x (c_tree s) -> stored kv y (c_tree s) -> x = y) -> counter kv (effect (cc_op cc) n) s') /\
  (forall kv0 n, kv0 <> kv -> counter kv0 n s -> counter kv0 n s').
Proof.
  intros CO CB EV TO. unfold counter, stored. destruct h as [x|x|x|x]; cbn [called told_of] in *.
  - destruct CB as [CB _]. destruct TO as (CC & IX & SI & _). split.
    + intros n CN U. destruct n as [n|]; [|destruct (CN _ IX)]. destruct CN as (y & IY & <-). rewrite (U y x IY IX) in *. clear y IY. assert (R : effect (cc_op cc) (Some (c_val s x)) = Some (on_find (cc_op cc) (c_val s x))).
      { destruct (cc_op cc) as [d|d|m|]; cbn in CO |- *; try reflexivity; [destruct CC; congruence|]. destruct (m <=? 0); [destruct CC; congruence|reflexivity]. }
      rewrite R. exists x. rewrite SI, EV, CB. split; [exact IX|]. apply set_item_same.
    + intros kv0 n NE CN. destruct n as [n|]; [|intros y; rewrite SI; apply CN]. destruct CN as (y & IY & <-). exists y. rewrite SI, EV, CB. split; [exact IY|]. apply set_item_other. congruence.
  - destruct CB as [CB _]. destruct TO as (CC & NK & IX & SI & _). split.
    + intros n CN U. destruct n as [n|]; [destruct CN as (y & IY & _); destruct (NK y IY)|]. assert (R : effect (cc_op cc) None = Some (on_create (cc_op cc))).
      { destruct (cc_op cc) as [d|d|m|]; cbn in CO |- *; try reflexivity; try (destruct CC; congruence). destruct (m <=? 0); [destruct CC; congruence|reflexivity]. }
      rewrite R. exists x. rewrite SI, EV, CB, !set_item_same. split; reflexivity.
    + intros kv0 n NE CN. destruct n as [n|].
      * destruct CN as (y & IY & <-). exists y. assert (y <> x) by congruence. rewrite SI, EV, CB, !set_item_other by assumption. split; [exact IY|reflexivity].
      * intros y. rewrite SI. unfold set_item. destruct (Nat.eqb y x); [congruence|apply CN].
  - destruct CB as (CD & CB & _). destruct TO as ((b & CC) & IX & SI & _). split.
    + intros n CN U. destruct n as [n|]; [|destruct (CN _ IX)]. destruct CN as (y & IY & <-). rewrite (U y x IY IX) in *. clear y IY. assert (R : effect (cc_op cc) (Some (c_val s x)) = None).
      { destruct (cc_op cc) as [d|d|m|]; cbn in CO, CD |- *; try (rewrite CD; reflexivity); try (destruct CC as [CC | (z & CC)]; congruence). destruct (m <=? 0); [reflexivity|destruct CC as [CC | (z & CC)]; congruence]. }
      rewrite R. intros z. rewrite SI. unfold set_item. destruct (Nat.eqb_spec z x) as [->|NE]; [discriminate|]. intros IZ. apply NE. exact (U z x IZ IX).
    + intros kv0 n NE CN. destruct n as [n|].
      * destruct CN as (y & IY & <-). exists y. assert (y <> x) by congruence. rewrite SI, EV, CB, !set_item_other by assumption. split; [exact IY|reflexivity].
      * intros y. rewrite SI. unfold set_item. destruct (Nat.eqb y x); [congruence|apply CN].
  - destruct CB as (CD & CB & _). destruct TO as ((b & CC) & IX & SI & _). split.
    + intros n CN U. destruct n as [n|]; [|destruct (CN _ IX)]. destruct CN as (y & IY & <-). rewrite (U y x IY IX) in *. clear y IY. assert (R : effect (cc_op cc) (Some (c_val s x)) = Some (fst (can_delete (cc_op cc) (c_val s x)))).
      { destruct (cc_op cc) as [d|d|m|]; cbn in CO, CD |- *; try discriminate. rewrite CD. reflexivity. }
      rewrite R. exists x. rewrite SI, EV, CB. split; [exact IX|]. apply set_item_same.
    + intros kv0 n NE CN. destruct n as [n|]; [|intros y; rewrite SI; apply CN]. destruct CN as (y & IY & <-). exists y. rewrite SI, EV, CB. split; [exact IY|]. apply set_item_other. congruence.
Qed.

(** *** The order *)
Record ledger (s : cstate) (tr : list cstate) (bs : list (list entry)) : Prop := {
  lg_lined : lined (s :: tr) bs;
  lg_once : NoDup (map who (flat bs));
  lg_does : forall i o kv, In (i, o, kv) (flat bs) -> does i o kv s;
  lg_in : forall i c kv p, nth_error (st_threads (c_tree s)) i = Some (mkThread c kv p) -> In i (map who (flat bs)) <-> settled p = true \/ p = PDone RNone;
  lg_reads : forall l1 i kv l2 a, flat bs = l1 ++ (i, Read, kv) :: l2 -> nth_error (c_calls s) i = Some (mkCall Read a) -> a = total kv l1;
  lg_unread : forall i o a c kv p, nth_error (c_calls s) i = Some (mkCall o a) -> nth_error (st_threads (c_tree s)) i = Some (mkThread c kv p) -> settled p = false -> a = None }.
Lemma in_who i o kv l : In (i, o, kv) l -> In i (map who l).
Proof. intros H. change i with (who (i, o, kv)). apply in_map, H. Qed.
Lemma start_settled o kv : settled (start (call_of o) kv) = false /\ start (call_of o) kv <> PDone RNone.
Proof. destruct o as [d|d|m|]; cbn; try destruct (m <=? 0); split; (reflexivity || discriminate). Qed.
Lemma nodup_split (l1 l2 m1 m2 : list nat) i : NoDup (l1 ++ i :: l2) -> l1 ++ i :: l2 = m1 ++ i :: m2 -> l1 = m1.
Proof.
  revert m1. induction l1 as [|x l1 IH]; intros [|y m1] N E; cbn in *.
  - reflexivity.
  - injection E as -> E. inversion N as [|? ? NI _]; subst. destruct NI. apply in_elt.
  - injection E as -> E. inversion N as [|? ? NI _]; subst. destruct NI. apply in_elt.
  - injection E as -> E. inversion N; subst. f_equal. eapply IH; eauto.
Qed.
Lemma nodup_snoc (l : list nat) x : NoDup l -> ~ In x l -> NoDup (l ++ [x]).
Proof. intros N NI. apply (Permutation_NoDup (l := x :: l)); [apply Permutation_cons_append|]. constructor; assumption. Qed.
Lemma nodup_entry (l1 l2 m1 m2 : list entry) i o kv o' kv' : NoDup (map who (l1 ++ (i, o, kv) :: l2)) -> l1 ++ (i, o, kv) :: l2 = m1 ++ (i, o', kv') :: m2 -> l1 = m1.
Proof.
  revert m1. induction l1 as [|x l1 IH]; intros [|y m1] N E; cbn in *.
  - reflexivity.
  - injection E as <- E. inversion N as [|? ? NI _]; subst. destruct NI. rewrite map_app. apply in_elt.
  - injection E as -> E. inversion N as [|? ? NI _]; subst. destruct NI. rewrite map_app. apply in_elt.
  - injection E as -> E. inversion N; subst. f_equal. eapply IH; eauto.
Qed.
Lemma split_insert {A} (l r m1 m2 : list A) (e f : A) : l ++ e :: r = m1 ++ f :: m2 ->
  (exists k, l = m1 ++ f :: k /\ m2 = k ++ e :: r) \/ (l = m1 /\ e = f /\ r = m2) \/ (exists k, m1 = l ++ e :: k /\ r = k ++ f :: m2).
Proof.
  revert m1. induction l as [|x l IH]; intros [|y m1] E; cbn in E; injection E as -> E.
  - right. left. auto.
  - right. right. exists m1. auto.
  - left. exists l. auto.
  - destruct (IH m1 E) as [(k & -> & ->) | [(-> & -> & ->) | (k & -> & ->)]]; [left; exists k; auto|right; left; auto|right; right; exists k; auto].
Qed.
Lemma ledger_call w ts v cs tr o kv bs : cexec (mkC (mkState w ts) v cs :: tr) -> ledger (mkC (mkState w ts) v cs) tr bs ->
  ledger (mkC (mkState w (ts ++ [mkThread (call_of o) kv (start (call_of o) kv)])) v (cs ++ [mkCall o None])) (mkC (mkState w ts) v cs :: tr) ([] :: bs).
Proof.
  intros E LG. destruct (shape _ _ E) as [LEN _]. cbn [c_calls c_tree st_threads] in LEN. pose proof (lg_lined _ _ _ LG) as LI.
  assert (FL : flat ([] :: bs) = flat bs) by (rewrite flat_cons, app_nil_r; reflexivity).
  assert (OLD : forall i, In i (map who (flat bs)) -> (i < length ts)%nat).
  { intros i HI. apply in_map_iff in HI as ([[j o'] kv'] & <- & HI). apply (lg_does _ _ _ LG) in HI as ((q & N) & _). eapply nth_lt, N. }
  constructor.
  - constructor; [exact LI| |intros e []]. intros kv0. rewrite FL. inversion LI as [|s0 tr0 b bs0 L0 C P]; subst. specialize (C kv0). exact C.
  - rewrite FL. apply LG.
  - intros i o' kv' HI. rewrite FL in HI. destruct (lg_does _ _ _ LG _ _ _ HI) as ((q & N) & a & NC). cbn [c_tree c_calls st_threads] in *.
    split; [exists q|exists a]; apply nth_snoc_old; assumption.
  - intros i c0 kv' p N. rewrite FL. cbn [c_tree st_threads] in N. apply nth_snoc in N as [N | [-> EQ]]; [exact (lg_in _ _ _ LG _ _ _ _ N)|]. injection EQ as -> -> ->.
    destruct (start_settled o kv) as [S1 S2]. split; [intros HI; specialize (OLD _ HI); lia|]. intros [H | H]; congruence.
  - intros l1 i kv' l2 a EQ N. rewrite FL in EQ. cbn [c_calls] in N. apply nth_snoc in N as [N | [-> _]]; [exact (lg_reads _ _ _ LG _ _ _ _ _ EQ N)|].
    assert (HI : In (length cs, Read, kv') (flat bs)) by (rewrite EQ; apply in_elt). apply in_who in HI. specialize (OLD _ HI). lia.
  - intros i o' a c0 kv' p N NT S. cbn [c_calls c_tree st_threads] in *. apply nth_snoc in N. apply nth_snoc in NT. destruct N as [N | [-> EQ]]; [|injection EQ as -> ->; reflexivity].
    destruct NT as [NT | [-> _]]; [exact (lg_unread _ _ _ LG _ _ _ _ _ _ N NT S)|]. apply nth_lt in N. lia.
Qed.

Section Step.
  Variables (w : world) (ts : list thread) (v : nat -> Z) (cs : list ccall) (tr : list cstate) (i : nat) (c : call) (kv : kvs) (p p' : pc) (w' : world) (cc cc' : ccall) (v' : nat -> Z) (bs : list (list entry)).
  Notation s := (mkC (mkState w ts) v cs).
  Notation s' := (mkC (mkState w' (set_thread ts i (mkThread c kv p'))) v' (set_nth cs i cc')).
  Hypothesis E : cexec (s :: tr).
  Hypothesis LG : ledger s tr bs.
  Hypothesis N : nth_error ts i = Some (mkThread c kv p).
  Hypothesis NC : nth_error cs i = Some cc.
  Hypothesis ST : tstep false i c kv w p w' p'.
  Hypothesis CB : called (hits p p') cc v v' cc'.
  Lemma exec_now : exec false false (mkState w ts :: map c_tree tr).
  Proof. exact (tree_exec _ E). Qed.
  Lemma exec_next : cexec (s' :: s :: tr).
  Proof. econstructor; [exact E|]. econstructor; eauto. Qed.
  Lemma is_call : call_of (cc_op cc) = c.
  Proof. symmetry. exact (proj2 (shape _ _ E) i cc _ NC N). Qed.
  Lemma told_now : told_of (hits p p') c kv w w' p p'.
  Proof. eapply events; eauto using exec_now. Qed.
  Lemma same_op : cc_op cc' = cc_op cc.
  Proof. destruct (hits p p') as [[x|x|x|x]|]; cbn [called] in CB; intuition subst; try reflexivity. destruct (cc_op cc) eqn:EO; cbn; auto. Qed.
  Lemma p_runs r : p <> PDone r.
  Proof. intros ->. destruct (done_stays _ _ _ _ _ _ _ _ ST). Qed.
  Lemma own_thread : nth_error (st_threads (c_tree s')) i = Some (mkThread c kv p').
  Proof. cbn. unfold set_thread. eapply nth_set_same, N. Qed.
  Lemma own_call : nth_error (c_calls s') i = Some cc'.
  Proof. cbn. eapply nth_set_same, NC. Qed.
  Lemma other_thread j : j <> i -> nth_error (st_threads (c_tree s')) j = nth_error ts j.
  Proof. cbn. unfold set_thread. apply nth_set_other. Qed.
  Lemma other_call j : j <> i -> nth_error (c_calls s') j = nth_error cs j.
  Proof. cbn. apply nth_set_other. Qed.
  Lemma does_next j o kv0 : does j o kv0 s -> does j o kv0 s'.
  Proof.
    intros ((q & NQ) & a & NA). cbn [c_tree st_threads c_calls] in *. destruct (Nat.eq_dec j i) as [->|NE].
    - rewrite N in NQ. injection NQ as EC <- <-. rewrite NC in NA. injection NA as ECC. split; [exists p'; rewrite own_thread, EC; reflexivity|].
      exists (cc_read cc'). rewrite own_call. pose proof same_op as SO. rewrite ECC in SO. cbn in SO. destruct cc' as [o' a']. cbn in *. rewrite SO. reflexivity.
    - split; [exists q; rewrite (other_thread j NE); exact NQ|exists a; rewrite (other_call j NE); exact NA].
  Qed.
  Lemma i_does : does i (cc_op cc) kv s'.
  Proof.
    split; [exists p'; rewrite own_thread, is_call; reflexivity|]. exists (cc_read cc'). rewrite own_call, <- same_op. destruct cc'; reflexivity.
  Qed.
  Lemma old_i : In i (map who (flat bs)) <-> settled p = true.
  Proof. rewrite (lg_in _ _ _ LG i c kv p N). split; [intros [H|H]; [exact H|destruct (p_runs _ H)]|auto]. Qed.
  Lemma counts_now kv0 : counter kv0 (total kv0 (flat bs)) s.
  Proof. pose proof (lg_lined _ _ _ LG) as LI. inversion LI; subst. auto. Qed.

  (** Nothing is called, and the call does not end without having found anything *)
  Lemma step_quiet : hits p p' = None -> p' <> PDone RNone -> ledger s' (s :: tr) ([] :: bs).
  Proof.
    intros H NP. pose proof told_now as TN. rewrite H in TN. destruct TN as [SI SE]. pose proof CB as CB'. rewrite H in CB'. destruct CB' as [EV EC].
    assert (FL : flat ([] :: bs) = flat bs) by (rewrite flat_cons, app_nil_r; reflexivity). constructor.
    - constructor; [apply LG| |intros e []]. intros kv0. rewrite FL. pose proof (counts_now kv0) as C. rewrite EV. destruct (total kv0 (flat bs)) as [n|]; cbn in C |- *; unfold stored in *; cbn [c_tree st_world] in *.
      + destruct C as (x & X & V). exists x. rewrite (SI x). auto.
      + intros x. rewrite (SI x). apply C.
    - rewrite FL. apply LG.
    - intros j o kv0 HI. rewrite FL in HI. apply does_next. apply LG, HI.
    - intros j cj kj pj NJ. rewrite FL. destruct (Nat.eq_dec j i) as [->|NE].
      + rewrite own_thread in NJ. injection NJ as <- <- <-. rewrite old_i, SE. split; [auto|]. intros [X|X]; [exact X|congruence].
      + rewrite (other_thread j NE) in NJ. exact (lg_in _ _ _ LG _ _ _ _ NJ).
    - intros l1 j kj l2 a EQ NJ. rewrite FL in EQ. cbn [c_calls] in NJ. rewrite EC in NJ. destruct (Nat.eq_dec j i) as [->|NE].
      + rewrite (nth_set_same _ _ _ _ NC) in NJ. injection NJ as NJ. apply (lg_reads _ _ _ LG _ _ _ _ _ EQ). cbn [c_calls]. rewrite NC, NJ. reflexivity.
      + rewrite nth_set_other in NJ by exact NE. exact (lg_reads _ _ _ LG _ _ _ _ _ EQ NJ).
    - intros j o a cj kj pj NJ NT S. destruct (Nat.eq_dec j i) as [->|NE].
      + rewrite own_thread in NT. injection NT as <- <- <-. rewrite own_call, EC in NJ. injection NJ as ->. eapply (lg_unread _ _ _ LG); cbn [c_calls c_tree st_threads]; eauto; congruence.
      + rewrite (other_thread j NE) in NT. rewrite (other_call j NE) in NJ. eapply (lg_unread _ _ _ LG); cbn [c_calls c_tree st_threads]; eauto.
  Qed.
  (** A callback is called *)
  Lemma step_hit h : hits p p' = Some h -> ledger s' (s :: tr) ([(i, cc_op cc, kv)] :: bs).
  Proof.
    intros H. pose proof told_now as TN. rewrite H in TN. pose proof CB as CB'. rewrite H in CB'.
    assert (SE : settled p = false /\ settled p' = true) by (destruct h; cbn in TN; tauto). destruct SE as [SE SE'].
    assert (NI : ~ In i (map who (flat bs))) by (rewrite old_i; congruence).
    assert (U : forall x y, stored kv x (c_tree s) -> stored kv y (c_tree s) -> x = y) by (intros x y X Y; eapply stored_one; [exact exec_now|exact X|exact Y]).
    destruct (hit_effect s s' h cc v' cc' c kv p p' is_call CB' eq_refl TN) as [HE HO]. constructor.
    - constructor; [apply LG| |].
      + intros kv0. rewrite flat_cons, total_app. cbn [fold_left apply1]. destruct (same_kvs kv kv0) as [<-|NE]; [apply HE; [apply counts_now|exact U]|apply HO; [congruence|apply counts_now]].
      + intros e [<- | []]. cbn [who fst]. split; [unfold made; rewrite own_thread; discriminate|]. intros s1 H1 HD. apply (ended_older _ _ _ _ E H1) in HD as (c1 & kv1 & r1 & A). unfold answered in A. cbn [c_tree st_threads] in A. rewrite N in A. injection A as _ _ A. exact (p_runs _ A).
    - rewrite flat_cons, map_app. cbn [map who fst]. apply nodup_snoc; [apply LG|exact NI].
    - intros j o kv0 HI. rewrite flat_cons in HI. apply in_app_iff in HI as [HI | [EQ | []]]; [apply does_next, LG, HI|]. injection EQ as <- <- <-. exact i_does.
    - intros j cj kj pj NJ. rewrite flat_cons, map_app, in_app_iff. cbn [map who fst In]. destruct (Nat.eq_dec j i) as [->|NE].
      + rewrite own_thread in NJ. injection NJ as <- <- <-. tauto.
      + rewrite (other_thread j NE) in NJ. rewrite (lg_in _ _ _ LG _ _ _ _ NJ). split; [intros [X|[X|[]]]; [exact X|congruence]|auto].
    - intros l1 j kj l2 a EQ NJ. rewrite flat_cons in EQ. destruct (split_insert _ _ _ _ _ _ EQ) as [(k & EL & _) | [(EL & EE & _) | (k & _ & EK)]]; [| |destruct k; discriminate].
      + assert (NE : j <> i) by (intros ->; apply NI; rewrite EL, map_app; apply in_elt). rewrite (other_call j NE) in NJ. exact (lg_reads _ _ _ LG _ _ _ _ _ EL NJ).
      + injection EE as <- EO <-. rewrite own_call in NJ. injection NJ as NJ. rewrite <- EL. rewrite EO in HE. pose proof is_call as IC. rewrite EO in IC. cbn in IC. subst c.
        destruct h as [x|x|x|x]; cbn [called told_of] in CB', TN.
        * destruct CB' as [_ CB']. rewrite EO, NJ in CB'. injection CB' as ->. destruct TN as (_ & IX & _). symmetry. eapply (counter_fun s (map c_tree tr) kv); [exact exec_now|apply counts_now|]. exists x. split; [exact IX|reflexivity].
        * destruct TN as ([X|X] & _); discriminate.
        * destruct TN as ((b & [X|(y & X)]) & _); discriminate.
        * destruct TN as ((b & [X|(y & X)]) & _); discriminate.
    - intros j o a cj kj pj NJ NT S. destruct (Nat.eq_dec j i) as [->|NE].
      + rewrite own_thread in NT. injection NT as <- <- <-. congruence.
      + rewrite (other_thread j NE) in NT. rewrite (other_call j NE) in NJ. eapply (lg_unread _ _ _ LG); cbn [c_calls c_tree st_threads]; eauto.
  Qed.
  (** The call ends without having found anything: it is put where nothing was there *)
  Lemma step_none : hits p p' = None -> p' = PDone RNone -> exists bs', ledger s' (s :: tr) bs'.
  Proof.
    intros H EP. pose proof told_now as TN. rewrite H in TN. destruct TN as [SI SE]. pose proof CB as CB'. rewrite H in CB'. destruct CB' as [EV EC].
    assert (SF : settled p = false) by (rewrite <- SE, EP; reflexivity). assert (NI : ~ In i (map who (flat bs))) by (rewrite old_i; congruence).
    assert (RT : right false (map c_tree (s' :: s :: tr)) i c kv RNone).
    { pose proof (tree_exec _ exec_next) as X. cbn [map] in X |- *. eapply answers; [exact X|]. unfold answered. rewrite own_thread, EP. reflexivity. }
    assert (MO : effect (cc_op cc) None = None /\ moment (map c_tree (s' :: s :: tr)) i (gone kv)).
    { pose proof is_call as IC. destruct (cc_op cc) as [d|d|m|]; cbn in IC |- *; try (destruct (m <=? 0)); subst c; cbn [right] in RT; try contradiction; (split; [reflexivity|exact RT]). }
    destruct MO as [EN (st & HI & RU & GO)]. apply in_map_iff in HI as (s1 & <- & HI). apply in_split in HI as (t1 & t2 & TE).
    pose proof exec_next as EX. rewrite TE in EX. pose proof (cexec_back _ _ _ EX) as E1. pose proof (tree_exec _ E1) as ET. cbn [map] in ET.
    assert (NS : forall x, ~ stored kv x (c_tree s1)) by (intros x X; exact (none_destroyed _ _ x ET (GO x X))).
    assert (LI : lined (t1 ++ s1 :: t2) ([] :: bs)).
    { rewrite <- TE. constructor; [apply LG| |intros e []]. intros kv0. rewrite flat_cons, app_nil_r. pose proof (counts_now kv0) as C. rewrite EV. destruct (total kv0 (flat bs)) as [n|]; cbn in C |- *; unfold stored in *; cbn [c_tree st_world] in *.
      - destruct C as (x & X & V). exists x. rewrite (SI x). auto.
      - intros x. rewrite (SI x). apply C. }
    assert (MD : made i s1) by (destruct RU as (th & NT & _); unfold made; rewrite NT; discriminate).
    assert (NE1 : forall s2, In s2 t2 -> ~ ended i s2).
    { intros s2 H2 HD. apply (ended_older s1 t2 s2 i E1 (or_intror H2)) in HD as (c1 & kv1 & r1 & A). destruct RU as (th & NT & R). unfold answered in A. rewrite A in NT. injection NT as <-. exact (R r1 eq_refl). }
    destruct (lined_insert t1 s1 t2 ([] :: bs) i (cc_op cc) kv EX LI NS EN MD NE1) as (b1 & b & b2 & EB & T & LI'). rewrite <- TE in LI'.
    set (L := flat b2 ++ b) in *. set (M := flat b1).
    assert (F0 : flat bs = L ++ M). { replace (flat bs) with (flat ([] :: bs)) by (rewrite flat_cons, app_nil_r; reflexivity). rewrite EB, flat_app, flat_cons. reflexivity. }
    assert (F1 : flat (b1 ++ (b ++ [(i, cc_op cc, kv)]) :: b2) = L ++ (i, cc_op cc, kv) :: M). { rewrite flat_app, flat_cons. unfold L, M. rewrite <- !app_assoc. reflexivity. }
    exists (b1 ++ (b ++ [(i, cc_op cc, kv)]) :: b2). constructor.
    - exact LI'.
    - rewrite F1, map_app. cbn [map who fst]. pose proof (lg_once _ _ _ LG) as ND. rewrite F0, map_app in ND, NI. apply (Permutation_NoDup (l := i :: map who L ++ map who M)); [apply Permutation_middle|]. constructor; assumption.
    - intros j o kv0 HI. rewrite F1 in HI. apply in_app_iff in HI. assert (D : In (j, o, kv0) (flat bs) \/ (i, cc_op cc, kv) = (j, o, kv0)) by (rewrite F0, in_app_iff; destruct HI as [X|[X|X]]; auto).
      destruct D as [D | D]; [apply does_next, LG, D|]. injection D as <- <- <-. exact i_does.
    - intros j cj kj pj NJ. rewrite F1, map_app, in_app_iff. cbn [map who fst In]. destruct (Nat.eq_dec j i) as [->|NE].
      + rewrite own_thread in NJ. injection NJ as <- <- <-. tauto.
      + rewrite (other_thread j NE) in NJ. rewrite <- (lg_in _ _ _ LG _ _ _ _ NJ), F0, map_app, in_app_iff. split; [intros [X|[X|X]]; auto; congruence|tauto].
    - intros l1 j kj l2 a EQ NJ. rewrite F1 in EQ. destruct (split_insert _ _ _ _ _ _ EQ) as [(k & EL & _) | [(EL & EE & _) | (k & EL & EK)]].
      + assert (FE : flat bs = l1 ++ (j, Read, kj) :: (k ++ M)) by (rewrite F0, EL, <- app_assoc; reflexivity).
        assert (NE : j <> i) by (intros ->; apply NI; rewrite FE, map_app; apply in_elt). rewrite (other_call j NE) in NJ. exact (lg_reads _ _ _ LG _ _ _ _ _ FE NJ).
      + injection EE as <- EO <-. rewrite own_call, EC in NJ. injection NJ as NJ. rewrite <- EL, T. assert (NA : nth_error cs i = Some (mkCall Read a)) by (rewrite NC, NJ; reflexivity). eapply (lg_unread _ _ _ LG); cbn [c_calls c_tree st_threads]; eauto.
      + assert (FE : flat bs = (L ++ k) ++ (j, Read, kj) :: l2) by (rewrite F0, EK, <- app_assoc; reflexivity).
        assert (NE : j <> i) by (intros ->; apply NI; rewrite FE, map_app; apply in_elt). rewrite (other_call j NE) in NJ. rewrite EL. etransitivity; [exact (lg_reads _ _ _ LG _ _ _ _ _ FE NJ)|symmetry; exact (total_insert kj L k i (cc_op cc) kv T EN)].
    - intros j o a cj kj pj NJ NT S. destruct (Nat.eq_dec j i) as [->|NE].
      + rewrite own_thread in NT. injection NT as <- <- <-. rewrite own_call, EC in NJ. injection NJ as ->. eapply (lg_unread _ _ _ LG); cbn [c_calls c_tree st_threads]; eauto.
      + rewrite (other_thread j NE) in NT. rewrite (other_call j NE) in NJ. eapply (lg_unread _ _ _ LG); cbn [c_calls c_tree st_threads]; eauto.
  Qed.
End Step.

Theorem ledgers s tr : cexec (s :: tr) -> exists bs, ledger s tr bs.
Proof.
  intros E. remember (s :: tr) as l eqn:EL. revert s tr EL. induction E as [|s s' tr E IH ST]; intros s0 tr0 EL; injection EL as <- <-.
  - exists [[]]. constructor; cbn.
    + constructor; [constructor| |intros e []]. intros kv. cbn. intros x. unfold stored. cbn. discriminate.
    + constructor.
    + intros i o kv [].
    + intros [|i] c kv p N; discriminate.
    + intros [|e l1] i kv l2 a EQ; discriminate.
    + intros [|i] o a c kv p N; discriminate.
  - destruct (IH s tr eq_refl) as (bs & LG). destruct ST as [w ts v cs o kv A | w ts v cs i c kv p w' p' cc v' cc' N NC ST CB].
    + exists ([] :: bs). apply ledger_call; assumption.
    + destruct (hits p p') as [h|] eqn:H.
      * eexists. eapply step_hit; eauto. rewrite H. exact CB.
      * assert (D : p' = PDone RNone \/ p' <> PDone RNone) by (destruct p' as [| | | | | | | | | | | | | | | | | | | |[]]; (left; reflexivity) || (right; discriminate)).
        destruct D as [D | D]; [eapply step_none; eauto; rewrite H; exact CB|]. exists ([] :: bs). eapply step_quiet; eauto. rewrite H. exact CB.
Qed.
Lemma ended_settled s tr i o a c kv r : cexec (s :: tr) -> nth_error (c_calls s) i = Some (mkCall o a) -> answered i c kv r (c_tree s) -> settled (PDone r) = true \/ r = RNone.
Proof.
  intros E N A. pose proof (tree_exec _ E) as X. cbn [map] in X. pose proof (answers _ _ _ _ _ _ _ _ X A) as R.
  pose proof (proj2 (shape _ _ E) _ _ _ N A) as IC. cbn in IC.
  assert (ND : forall st x, In st (c_tree s :: map c_tree tr) -> ~ destroyed_now x st) by (intros st x HI; destruct (exec_in _ _ _ _ X HI) as (t & X'); eapply none_destroyed; eauto).
  assert (K : c = CFindCreate \/ c = CDelete true \/ c = CFind) by (subst c; destruct o as [d|d|m|]; cbn; auto; destruct (m <=? 0); auto).
  destruct K as [-> | [-> | ->]]; destruct r; cbn [right] in R; auto; try contradiction; try discriminate; destruct R as (st & HI & _ & x & _ & D); destruct (ND st x HI D).
Qed.
Theorem explained s tr : cexec (s :: tr) -> exists l, explains s tr l.
Proof.
  intros E. destruct (ledgers s tr E) as (bs & LG). exists (flat bs). destruct (shape _ _ E) as [LEN _].
  assert (ALL : forall i, ended i s -> In i (map who (flat bs))).
  { intros i (c & kv & r & A). assert (LT : (i < length (c_calls s))%nat) by (rewrite LEN; eapply nth_lt, A). apply nth_error_Some in LT. destruct (nth_error (c_calls s) i) as [[o a]|] eqn:NA; [|congruence].
    apply (proj2 (lg_in _ _ _ LG i c kv (PDone r) A)). destruct (ended_settled s tr i o a c kv r E NA A) as [D | ->]; auto. }
  constructor.
  - apply LG.
  - apply LG.
  - exact ALL.
  - intros s1 i j HI HE HU HJ. pose proof (ended_older s tr s1 i E HI HE) as HE'. apply ALL in HE'. apply in_split in HI as (t1 & t2 & TE).
    pose proof (lg_lined _ _ _ LG) as LI. rewrite TE in LI, E. destruct (lined_split t1 s1 t2 bs LI) as (b1 & b & b2 & EB & L1 & NE). rewrite EB, flat_app in *. rewrite map_app in *.
    apply in_app_iff in HE'. apply in_app_iff in HJ. destruct HE' as [HE' | HE'].
    2: { apply in_map_iff in HE' as (e & <- & HE'). destruct (NE e HE' HE). }
    destruct HJ as [HJ | HJ].
    { apply in_map_iff in HJ as (e & <- & HJ). pose proof (lined_made s1 t2 _ e (cexec_back _ _ _ E) L1 HJ) as MD. destruct (MD HU). }
    apply in_split in HE' as (m1 & m2 & ->). apply in_split in HJ as (m3 & m4 & ->). exists m1, (m2 ++ m3), m4. rewrite <- !app_assoc. reflexivity.
  - intros kv. pose proof (lg_lined _ _ _ LG) as LI. inversion LI; subst. auto.
  - intros l1 i kv l2 v EQ [_ NA]. exact (lg_reads _ _ _ LG _ _ _ _ _ EQ NA).
Qed.
