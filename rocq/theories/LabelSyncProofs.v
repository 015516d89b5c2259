(** Invariants of [LabelSync.v]. *)
From Coq Require Import List Bool Arith Lia.
Import ListNotations.
From Verif Require Import AssocSync SpecAssocSync AssocSyncBase AssocSyncInv AssocSyncFrame AssocSyncStep AssocSyncGlobal AssocSyncAnswers AssocSyncChanges LabelSync.

Section Labels.
  Context (nils : bool).
  (** The tree alone is an execution of [AssocSync.v] *)
  Lemma tree_exec s tr : rel_exec nils (s :: tr) -> exists ts, exec nils true (rl_tree s :: ts) /\ forall t, In t (rl_tree s :: ts) -> exists s', In s' (s :: tr) /\ rl_tree s' = t.
  Proof.
    intros E. remember (s :: tr) as l eqn:EL. revert s tr EL. induction E as [|s0 s1 tr0 E IH ST]; intros s tr [= <- <-].
    - exists []. split; [constructor|]. intros t [<- | []]. exists rel0. split; [left; reflexivity|reflexivity].
    - destruct (IH s0 tr0 eq_refl) as (ts & X & H).
      destruct ST as [t t' many back seen ST OF | | |]; cbn [rl_tree] in *.
      { exists (t :: ts). split; [apply (EX_step _ _ _ _ _ X ST)|]. intros u [<- | HI]; [eexists; split; [left; reflexivity|reflexivity]|]. destruct (H u HI) as (s' & HS & E'). exists s'. split; [right; exact HS|exact E']. }
      all: exists ts; split; [exact X|]; intros u HI; destruct (H u HI) as (s' & HS & E'); exists s'; (split; [right; exact HS|exact E']).
  Qed.
  (** A stored item has a creation that answers its id *)
  Definition maker (i x : nat) (kv : kvs) (t : state) : Prop := exists c p, (c = CCreate \/ c = CFindCreate) /\ nth_error (st_threads t) i = Some (mkThread c kv p) /\ pend p = Some (RCreated x).
  Lemma makers t ts : exec nils true (t :: ts) -> forall x kv, stored kv x t -> exists i, maker i x kv t.
  Proof.
    intros E. remember (t :: ts) as l eqn:EL. revert t ts EL. induction E as [|s s' tr E IH ST]; intros t ts [= <- <-] x kv S; [discriminate|].
    destruct (w_items (st_world s) x) as [kv'|] eqn:EI.
    - assert (EK : kv = kv') by (apply (keeps nils true [s'] s tr s' x kv' kv); [apply (EX_step _ _ _ _ _ E ST)|left; reflexivity|exact EI|exact S]). subst kv'.
      destruct (IH s tr eq_refl x kv EI) as (i & c & p & C & N & P). destruct (step_since _ _ _ _ _ E ST) as (_ & _ & _ & _ & F).
      destruct (F i c kv p _ N P ltac:(discriminate)) as (p' & N' & P'). exists i, c, p'. auto.
    - destruct (step_item _ _ _ _ _ _ _ E ST EI S) as (i & c & C & _ & _ & _ & p' & N & P). exists i, c, p'. auto.
  Qed.
  Lemma answered_stays t ts t' i c kv r : exec nils true (t :: ts) -> step nils true t t' -> answered i c kv r t -> answered i c kv r t'.
  Proof.
    intros E ST AN. unfold answered in *. destruct ST as [w th c0 kv0 A | w th j c0 kv0 p w' p' N ST]; cbn [st_threads] in *; [apply nth_snoc_old; exact AN|].
    unfold set_thread. destruct (Nat.eq_dec i j) as [->|NE]; [|rewrite nth_set_other by exact NE; exact AN]. rewrite N in AN. injection AN as -> -> ->. inversion ST.
  Qed.
  Lemma all_offered s tr : rel_exec nils (s :: tr) -> forall th, In th (st_threads (rl_tree s)) -> offered (th_call th).
  Proof.
    intros E. remember (s :: tr) as l eqn:EL. revert s tr EL. induction E as [|s0 s1 tr0 E IH ST]; intros s tr [= <- <-]; [intros th []|].
    specialize (IH s0 tr0 eq_refl). destruct ST; cbn [rl_tree] in *; auto.
  Qed.
  Lemma maker_find s tr i x kv : rel_exec nils (s :: tr) -> maker i x kv (rl_tree s) -> exists p, nth_error (st_threads (rl_tree s)) i = Some (mkThread CFindCreate kv p) /\ pend p = Some (RCreated x).
  Proof.
    intros E (c & p & C & N & P). exists p. split; [|exact P]. destruct (all_offered s tr E _ (nth_error_In _ _ N)) as [O | [[b O] | [y O]]]; cbn in O; destruct C; subst; try discriminate. exact N.
  Qed.

  (** The calls that have returned have an answer; an item has its id once its creation has returned, and before that none *)
  Record labels (s : rel) : Prop := {
    lb_back : forall i, In i (rl_back s) -> exists c kv r, answered i c kv r (rl_tree s);
    lb_known : forall i c kv x, In i (rl_back s) -> answered i c kv (RCreated x) (rl_tree s) -> rl_many s x = Some x;
    lb_none : forall x, rl_many s x = None \/ rl_many s x = Some x /\ exists i kv, In i (rl_back s) /\ answered i CFindCreate kv (RCreated x) (rl_tree s)
  }.
  Lemma exec_labels s tr : rel_exec nils (s :: tr) -> labels s.
  Proof.
    intros E. remember (s :: tr) as l eqn:EL. revert s tr EL. induction E as [|s0 s1 tr0 E IH ST]; intros s tr [= <- <-].
    - split; cbn; intros; (contradiction || auto).
    - destruct (IH s0 tr0 eq_refl) as [B K N]. destruct (tree_exec _ _ E) as (ts & X & _).
      destruct ST as [t t' many back seen ST OF | t many back seen i kv x AN NB | t many back seen i c kv r AN NC | t many back seen x kv PS EI]; cbn [rl_tree rl_many rl_back] in *.
      + assert (F : forall i c kv r, answered i c kv r t -> answered i c kv r t') by (intros; eapply answered_stays; eauto). split; cbn [rl_tree rl_many rl_back].
        * intros i HI. destruct (B i HI) as (c & kv & r & A). eauto.
        * intros i c kv x HI A. destruct (B i HI) as (c' & kv' & r' & A'). pose proof (F _ _ _ _ A') as A2. unfold answered in *. rewrite A in A2. injection A2 as <- <- <-. apply (K i c kv x HI A').
        * intros x. destruct (N x) as [-> | (-> & i & kv & HI & A)]; [auto|right; split; [reflexivity|eauto]].
      + split; cbn [rl_tree rl_many rl_back].
        * intros j [<- | HJ]; [eauto|auto].
        * intros j c kvj y [<- | HJ] A.
          { unfold answered in *. rewrite AN in A. injection A as <- <- <-. apply set_item_same. }
          { destruct (Nat.eq_dec y x) as [->|NE]; [apply set_item_same|]. rewrite set_item_other by exact NE. eapply K; eauto. }
        * intros y. destruct (Nat.eq_dec y x) as [->|NE].
          { right. rewrite set_item_same. split; [reflexivity|]. exists i, kv. split; [left; reflexivity|exact AN]. }
          { rewrite set_item_other by exact NE. destruct (N y) as [-> | (-> & j & kvj & HJ & A)]; [auto|right; split; [reflexivity|]]. exists j, kvj. split; [right; exact HJ|exact A]. }
      + split; cbn [rl_tree rl_many rl_back].
        * intros j [<- | HJ]; [eauto|auto].
        * intros j cj kvj y [<- | HJ] A; [|eapply K; eauto]. unfold answered in *. rewrite AN in A. injection A as _ _ E'. destruct (NC y). exact E'.
        * intros y. destruct (N y) as [-> | (-> & j & kvj & HJ & A)]; [auto|right; split; [reflexivity|]]. exists j, kvj. split; [right; exact HJ|exact A].
      + split; cbn [rl_tree rl_many rl_back]; auto.
  Qed.

  (** What has been shown *)
  Definition fine (tr : list rel) (sh : shown) : Prop := exists s, In s tr /\ stored (sh_kv sh) (sh_item sh) (rl_tree s) /\ rl_many s (sh_item sh) = sh_many sh.
  Lemma shown_fine s tr : rel_exec nils (s :: tr) -> forall sh, In sh (rl_shown s) -> fine (s :: tr) sh.
  Proof.
    intros E. remember (s :: tr) as l eqn:EL. revert s tr EL. induction E as [|s0 s1 tr0 E IH ST]; intros s tr [= <- <-] sh HS; [destruct HS|].
    specialize (IH s0 tr0 eq_refl). assert (G : In sh (rl_shown s0) -> fine (s1 :: s0 :: tr0) sh).
    { intros HI. destruct (IH sh HI) as (s' & HI' & S). exists s'. split; [right; exact HI'|exact S]. }
    destruct ST; cbn [rl_shown] in *; auto. apply in_app_or in HS as [HS | [<- | []]]; [auto|]. eexists. split; [left; reflexivity|]. cbn. auto.
  Qed.
  Lemma exec_tail s s' tr1 tr2 : rel_exec nils (tr1 ++ s :: tr2) -> In s' (tr1 ++ [s]) -> rel_exec nils (s :: tr2).
  Proof. intros E _. induction tr1 as [|a tr1 IH]; [exact E|]. apply IH. cbn in E. inversion E as [|? ? ? E0 ST H]; [destruct tr1; discriminate|]. exact E0. Qed.
  (** An item without id is still being created *)
  Lemma unnamed s tr x kv : rel_exec nils (s :: tr) -> stored kv x (rl_tree s) -> rl_many s x = Some x \/
    rl_many s x = None /\ exists i p, nth_error (st_threads (rl_tree s)) i = Some (mkThread CFindCreate kv p) /\ pend p = Some (RCreated x) /\ ~ In i (rl_back s).
  Proof.
    intros E S. destruct (exec_labels _ _ E) as [B K N]. destruct (N x) as [EN | [EN _]]; [right; split; [exact EN|]|left; exact EN].
    destruct (tree_exec _ _ E) as (ts & X & _). destruct (makers _ _ X x kv S) as (i & MK). destruct (maker_find _ _ _ _ _ E MK) as (p & NI & P). exists i, p. split; [exact NI|]. split; [exact P|].
    intros HI. destruct (B i HI) as (c & kv' & r & A). unfold answered in A. rewrite A in NI. injection NI as -> -> <-. cbn in P. injection P as ->. rewrite (K i _ _ x HI A) in EN. discriminate.
  Qed.
  Lemma steps_since s s' tr : rel_exec nils (s :: tr) -> rel_step nils s s' -> since (rl_tree s) (rl_tree s').
  Proof. intros E ST. destruct (tree_exec _ _ E) as (ts & X & _). destruct ST; cbn [rl_tree] in *; try apply since_refl. eapply step_since; eauto. Qed.
  Lemma rel_later tr1 s tr s' : rel_exec nils (tr1 ++ s :: tr) -> In s' (tr1 ++ [s]) -> since (rl_tree s) (rl_tree s').
  Proof.
    revert s'. induction tr1 as [|s1 tr1 IH]; intros s' E I; cbn in *.
    - destruct I as [-> | []]. apply since_refl.
    - inversion E as [H|s0 s0' tr0 E0 ST H]; subst; [destruct tr1; discriminate|]. match goal with H : _ :: _ = tr1 ++ _ |- _ => rename H into HE end. destruct I as [<- | I]; [|apply IH; [rewrite <- HE; exact E0|exact I]].
      apply (since_trans _ (rl_tree s0)); [|eapply steps_since; eauto]. rewrite HE in E0. apply IH; [exact E0|]. destruct tr1 as [|s2 tr1]; cbn in HE; injection HE as -> _; left; reflexivity.
  Qed.
  Lemma named_stays s s' tr x : rel_exec nils (s :: tr) -> rel_step nils s s' -> rl_many s x = Some x -> rl_many s' x = Some x.
  Proof. intros E ST H. destruct ST; cbn [rl_many] in *; auto. unfold set_item. destruct (Nat.eqb_spec x x0) as [->|NE]; auto. Qed.
  Lemma shows_new s s' tr l : rel_exec nils (s :: tr) -> rel_step nils s s' -> rl_shown s' = rl_shown s ++ l -> forall sh, In sh l -> sh_many sh = rl_many s (sh_item sh).
  Proof.
    intros E ST H sh HI. destruct ST; cbn [rl_shown rl_many] in *; try (rewrite <- (app_nil_r seen) in H at 1; apply app_inv_head in H; subst l; destruct HI).
    apply app_inv_head in H. subst l. destruct HI as [<- | []]. reflexivity.
  Qed.
  Lemma step_shown s s' : rel_step nils s s' -> exists l, rl_shown s' = rl_shown s ++ l.
  Proof. intros ST. destruct ST; cbn; first [exists []; symmetry; apply app_nil_r|eexists; reflexivity]. Qed.
  (** Shown after its creation has returned *)
  Lemma after_named tr1 s tr s' x l : rel_exec nils (tr1 ++ s :: tr) -> In s' (tr1 ++ [s]) -> rl_many s x = Some x -> rl_shown s' = rl_shown s ++ l ->
    rl_many s' x = Some x /\ forall sh, In sh l -> sh_item sh = x -> sh_many sh = Some x.
  Proof.
    revert s' l. induction tr1 as [|s1 tr1 IH]; intros s' l E I M H.
    - destruct I as [<- | []]. split; [exact M|]. rewrite <- (app_nil_r (rl_shown s)) in H at 1. apply app_inv_head in H. subst l. intros sh [].
    - cbn in E. inversion E as [H'|s0 s0' tr0 E0 ST H']; subst; [destruct tr1; discriminate|]. match goal with H : _ :: _ = tr1 ++ _ |- _ => rename H into HE end.
      destruct I as [<- | I]; [|apply IH; [rewrite <- HE; exact E0|exact I|exact M|exact H]].
      assert (I0 : In s0 (tr1 ++ [s])) by (destruct tr1 as [|s2 tr1]; cbn in HE; injection HE as -> _; left; reflexivity).
      assert (X : exists l0, rl_shown s0 = rl_shown s ++ l0).
      { clear -E0 HE I0. rewrite HE in E0. clear HE tr0. revert s0 I0. induction tr1 as [|s2 tr1 IH]; intros s0 I0.
        - destruct I0 as [<- | []]. exists []. symmetry. apply app_nil_r.
        - cbn in E0. inversion E0 as [H'|s3 s0' tr0 E1 ST H']; subst; [destruct tr1; discriminate|]. match goal with H : _ :: _ = tr1 ++ _ |- _ => rename H into HE end. rewrite HE in E1. specialize (IH E1).
          destruct I0 as [<- | I0]; [|apply IH, I0]. assert (I3 : In s3 (tr1 ++ [s])) by (destruct tr1 as [|s4 tr1]; cbn in HE; injection HE as -> _; left; reflexivity).
          destruct (IH s3 I3) as (l1 & H1). destruct (step_shown _ _ ST) as (l2 & H2). exists (l1 ++ l2). rewrite H2, H1. symmetry. apply app_assoc. }
      destruct X as (l0 & H0). destruct (IH s0 l0 ltac:(rewrite <- HE; exact E0) I0 M H0) as [M0 L0]. split; [eapply named_stays; eauto|].
      destruct (step_shown _ _ ST) as (l2 & H2). assert (EL : l = l0 ++ l2) by (rewrite H0, <- app_assoc in H2; rewrite H2 in H; apply app_inv_head in H; auto). subst l.
      intros sh HI EX. apply in_app_or in HI as [HI | HI]; [auto|]. rewrite (shows_new _ _ _ _ E0 ST H2 sh HI), EX. exact M0.
  Qed.
  Lemma returned tr1 s tr s' i kv x l : rel_exec nils (tr1 ++ s :: tr) -> In s' (tr1 ++ [s]) -> In i (rl_back s) -> answered i CFindCreate kv (RCreated x) (rl_tree s) -> rl_shown s' = rl_shown s ++ l ->
    forall sh, In sh l -> sh_item sh = x -> sh_many sh = Some x.
  Proof.
    intros E I B A H. assert (E0 := exec_tail _ _ _ _ E I). destruct (exec_labels _ _ E0) as [_ K _]. apply (after_named _ _ _ _ _ _ E I (K i _ _ x B A) H).
  Qed.
  Lemma shown_right s tr sh : rel_exec nils (s :: tr) -> In sh (rl_shown s) -> (sh_many sh = None \/ sh_many sh = Some (sh_item sh)) /\ exists s', In s' (s :: tr) /\ stored (sh_kv sh) (sh_item sh) (rl_tree s').
  Proof.
    intros E HS. destruct (shown_fine _ _ E sh HS) as (s' & HI & S & M). split; [|eauto]. rewrite <- M.
    apply in_split in HI as (tr1 & tr2 & EQ). rewrite EQ in E. assert (E' : rel_exec nils (s' :: tr2)) by (eapply (exec_tail s' s'); [exact E|apply in_or_app; right; left; reflexivity]).
    destruct (exec_labels _ _ E') as [_ _ N]. destruct (N (sh_item sh)) as [-> | [-> _]]; auto.
  Qed.
End Labels.
