(** The tree of locks holds the locks that the manager knows. *)
From Coq Require Import String List Bool Arith Lia.
From Verif Require Import Datatypes SpecValues Query SpecQuery Assoc SpecAssoc AssocProofs PropLemmasAssoc DestroySync Locker SpecLocker LockerProofs LockerTrace LockerTree SpecApiLocker.
Import ListNotations.
Local Open Scope nat_scope.
Local Open Scope list_scope.

Section Tree.
Variable key_dec : forall a b : KeyValues, {a = b} + {a <> b}.
Variable name : nat -> string.
Hypothesis INJ : forall i j, name i = name j -> i = j.
Hypothesis NE : forall i, name i <> EmptyString.
Notation locker := (locker KeyValues).

(** how a step changes the set of locks *)
Lemma cur_step st e st' : lk_inv st -> lk_step _ key_dec st e st' ->
  match e with
  | Some (LJoin _ _ k) => lm_busy _ st k = None /\ lm_cur _ st' k = (match lm_cur _ st k with Some j => Some j | None => Some (lm_next _ st) end) /\
      forall k', k' <> k -> lm_cur _ st' k' = lm_cur _ st k'
  | Some (LLost _ _ k) | Some (LRelease _ k _ _ true) | Some (LHandOn _ k) =>
      (exists j, lm_cur _ st k = Some j /\ (lm_cur _ st' k = Some j \/ lm_cur _ st' k = None)) /\ forall k', k' <> k -> lm_cur _ st' k' = lm_cur _ st k'
  | _ => forall k', lm_cur _ st' k' = lm_cur _ st k'
  end /\ lm_next _ st <= lm_next _ st' /\ (forall i k, e = Some (LJoin _ i k) -> lm_cur _ st k = None -> lm_next _ st' = S (lm_next _ st)).
Proof.
  clear INJ NE. intros H HS. destruct HS; unfold drop_client, with_time, with_lock, with_client, with_busy, with_cur, with_beats, with_session, with_new, upd_key;
  cbn [lm_cur lm_next]; repeat match goal with |- context [match ?x with 0 => _ | S _ => _ end] => destruct x end; cbn [lm_cur lm_next lm_busy];
  try (split; [|split; [lia|intros ? ? [=]]]).
  all: try (intros; reflexivity).
  all: try (match goal with B : lm_busy _ _ _ = Some _ |- _ => destruct (i_busy _ H _ _ B) as [_ BC] end).
  all: try (destruct BC as [BC _]).
  all: try (split; [exists j; split; [exact BC|]|intros k' N]; try (destruct (key_dec _ _)); auto; congruence).
  - split; [assumption|]. rewrite H2. split; [destruct (key_dec k k); congruence|]. intros k' N. destruct (key_dec k' k); congruence.
  - split; [assumption|]. rewrite H2. auto.
  - congruence.
Qed.

Record tree_inv (st : locker) (tree : atree nat) (used : list string) : Prop := {
  n_reach : areach tree used;
  n_used : forall s, In s used -> exists j, j < lm_next _ st /\ s = name j;
  n_items : forall it, In it (a_items tree) <-> lm_cur _ st (it_kv it) = Some (it_val it) /\ it_id it = name (it_val it);
  n_keys : forall k j, lm_cur _ st k = Some j -> kv_arg k /\ kv_valid k;
  n_spelled : forall k k' j j', lm_cur _ st k = Some j -> lm_cur _ st k' = Some j' -> kv_same k k' -> k = k' }.

Lemma fresh_name st tree used : tree_inv st tree used -> ~ In (name (lm_next _ st)) used.
Proof. intros H X. apply (n_used _ _ _ H) in X as (x & L & E). apply INJ in E. lia. Qed.
Lemma found st tree used k j i : tree_inv st tree used -> lm_cur _ st k = Some j ->
  CreateOrFind tree k (name (lm_next _ st)) i = (tree, RFound (mkItem (name j) k j)).
Proof.
  intros H C. destruct (n_keys _ _ _ H _ _ C) as [KA KV].
  destruct (c20_create_or_find tree used k (name (lm_next _ st)) i (n_reach _ _ _ H) KA (fresh_name _ _ _ H)) as (_ & C1 & _). apply C1; [exact KV| |apply kv_same_refl].
  apply (n_items _ _ _ H). cbn. auto.
Qed.
Lemma created st tree used k : tree_inv st tree used -> kv_arg k -> kv_valid k -> (forall k', lm_cur _ st k' <> None -> kv_same k' k -> k' = k) -> lm_cur _ st k = None ->
  snd (CreateOrFind tree k (name (lm_next _ st)) (Some (lm_next _ st))) = RId (name (lm_next _ st)) /\
  a_items (fst (CreateOrFind tree k (name (lm_next _ st)) (Some (lm_next _ st)))) = a_items tree ++ [mkItem (name (lm_next _ st)) k (lm_next _ st)].
Proof.
  intros H KA KV SP C. destruct (c20_create_or_find tree used k (name (lm_next _ st)) (Some (lm_next _ st)) (n_reach _ _ _ H) KA (fresh_name _ _ _ H)) as (_ & _ & C2 & _).
  apply C2; [exact KV| |reflexivity]. intros (it & HI & HS). apply (n_items _ _ _ H) in HI as [HC _]. assert (E : it_kv it = k) by (apply SP; [congruence|exact HS]). congruence.
Qed.
Lemma inv_same st st' tree used : tree_inv st tree used -> (forall k, lm_cur _ st' k = lm_cur _ st k) -> lm_next _ st <= lm_next _ st' -> tree_inv st' tree used.
Proof.
  intros [H1 H2 H3 H4 H5] E L. constructor; [exact H1| | | |].
  - intros s HI. apply H2 in HI as (j & LT & EN). exists j. split; [lia|exact EN].
  - intros it. rewrite E. apply H3.
  - intros k j C. rewrite E in C. eauto.
  - intros k k' j j' C C'. rewrite E in C, C'. eauto.
Qed.
Lemma inv_delete st st' tree used k j : tree_inv st tree used -> lm_cur _ st k = Some j -> (lm_cur _ st' k = Some j \/ lm_cur _ st' k = None) ->
  (forall k', k' <> k -> lm_cur _ st' k' = lm_cur _ st k') -> lm_next _ st <= lm_next _ st' -> tree_inv st' (fst (Delete tree k (fun _ => says st' k))) used.
Proof.
  intros H C C' O L. destruct (n_keys _ _ _ H _ _ C) as [KA KV]. destruct (c21_delete tree used k (fun _ => says st' k) (n_reach _ _ _ H) KA KV) as [_ D].
  assert (SUB : forall k1 j1, lm_cur _ st' k1 = Some j1 -> lm_cur _ st k1 = Some j1).
  { intros k1 j1 E. destruct (key_dec k1 k) as [-> | N]; [destruct C' as [C' | C']; congruence|]. rewrite <- (O _ N). exact E. }
  destruct H as [H1 H2 H3 H4 H5]. constructor.
  - exact (AR_step tree used (ADelete k (fun _ => says st' k)) H1 KA ltac:(discriminate)).
  - intros s HI. apply H2 in HI as (x & LT & EN). exists x. split; [lia|exact EN].
  - intros it. rewrite D, H3. split.
    + intros [[E1 E2] N]. split; [|exact E2]. destruct (key_dec (it_kv it) k) as [EK | NK]; [|rewrite (O _ NK); exact E1].
      rewrite EK in *. destruct C' as [C' | C']; [congruence|]. exfalso. apply N. split; [apply kv_same_refl|]. unfold says. rewrite C'. reflexivity.
    + intros [E1 E2]. split; [auto|]. intros [KS SY]. unfold says in SY. destruct (lm_cur _ st' k) eqn:E; [discriminate|].
      assert (EK : it_kv it = k) by (eapply H5; [apply SUB; exact E1|exact C|exact KS]). congruence.
  - intros k1 j1 E. apply SUB in E. eauto.
  - intros k1 k2 j1 j2 E1 E2. apply SUB in E1, E2. eauto.
Qed.
Lemma inv_join st st' tree used k : tree_inv st tree used -> kv_arg k -> kv_valid k -> (forall k', lm_cur _ st k' <> None -> kv_same k' k -> k' = k) -> lm_cur _ st k = None ->
  lm_cur _ st' k = Some (lm_next _ st) -> (forall k', k' <> k -> lm_cur _ st' k' = lm_cur _ st k') -> lm_next _ st' = S (lm_next _ st) ->
  (forall k1 j1, lm_cur _ st k1 = Some j1 -> j1 < lm_next _ st) ->
  tree_inv st' (fst (CreateOrFind tree k (name (lm_next _ st)) (Some (lm_next _ st)))) (name (lm_next _ st) :: used).
Proof.
  intros H KA KV SP C C' O L LT. destruct (created st tree used k H KA KV SP C) as [_ IT]. pose proof (fresh_name _ _ _ H) as F. destruct H as [H1 H2 H3 H4 H5]. constructor.
  - refine (AR_step tree used (ACreateOrFind k (name (lm_next _ st)) (Some (lm_next _ st))) H1 KA _). cbn. intros id [= <-]. auto.
  - intros s [<- | HI]; [exists (lm_next _ st); split; [lia|reflexivity]|]. apply H2 in HI as (x & LX & EN). exists x. split; [lia|exact EN].
  - intros it. rewrite IT, in_app_iff, H3. split.
    + intros [[E1 E2] | [<- | []]]; [|cbn; auto]. split; [|exact E2]. rewrite O; [exact E1|congruence].
    + intros [E1 E2]. destruct (key_dec (it_kv it) k) as [EK | NK].
      * right. left. rewrite EK, C' in E1. injection E1 as E1. destruct it as [a b c]; cbn in *. subst. reflexivity.
      * left. rewrite <- (O _ NK). auto.
  - intros k1 j1 E. destruct (key_dec k1 k) as [-> | N]; [auto|]. rewrite (O _ N) in E. eauto.
  - intros k1 k2 j1 j2 E1 E2 KS. destruct (key_dec k1 k) as [-> | N1], (key_dec k2 k) as [-> | N2]; try rewrite (O _ N1) in E1; try rewrite (O _ N2) in E2; eauto.
    + symmetry. apply SP; [congruence|apply kv_same_sym, KS].
    + apply SP; [congruence|exact KS].
Qed.
Lemma tree_step st tree used e st' : lk_inv st -> tree_inv st tree used -> spelled st e -> lk_step _ key_dec st e st' -> exists used', tree_inv st' (tree_after name st tree e st') used'.
Proof.
  intros HI H SP HS. destruct (cur_step st e st' HI HS) as (HC & HN & HJ).
  destruct e as [[i k|i k j s d|k j s ok|k r s ok|k s|k|i k]|]; cbn [tree_after]; try (exists used; eapply inv_same; eassumption).
  - destruct HC as (_ & C & O). destruct (SP i k eq_refl) as (KA & KV & SK). destruct (lm_cur _ st k) as [j|] eqn:E.
    + rewrite (found st tree used k j _ H E). exists used. eapply inv_same; [exact H| |exact HN]. intros k'. destruct (key_dec k' k) as [-> | N]; [congruence|auto].
    + eexists. eapply inv_join; eauto. intros k1 j1 E1. apply (i_cur _ HI _ _ E1).
  - destruct ok; [|exists used; eapply inv_same; eassumption]. destruct HC as ((j & C & C') & O). exists used. eapply inv_delete; eassumption.
  - destruct HC as ((j & C & C') & O). exists used. eapply inv_delete; eassumption.
  - destruct HC as ((j & C & C') & O). exists used. eapply inv_delete; eassumption.
Qed.
Lemma tree_lk k0 tr st tree : tree_exec key_dec name k0 tr st tree -> lk_exec _ key_dec k0 tr st.
Proof. clear INJ NE. induction 1 as [|tr st tree e st' HX IH SP HS]; [constructor|]. exact (KR_step _ _ _ _ _ _ _ IH HS). Qed.
Lemma tree_keeps k0 tr st tree : tree_exec key_dec name k0 tr st tree -> exists used, tree_inv st tree used.
Proof.
  induction 1 as [|tr st tree e st' HX (used & IH) SP HS].
  - exists []. constructor; cbn; try discriminate; [constructor|intros ? []|]. intros it. split; [intros []|intros [C _]; discriminate].
  - eapply tree_step; eauto. exact (exec_inv _ _ _ _ (tree_lk _ _ _ _ HX)).
Qed.
Lemma c83_tree k0 tr st tree : tree_exec key_dec name k0 tr st tree -> lk_exec _ key_dec k0 tr st /\ lock_tree st tree name.
Proof.
  intros H. split; [exact (tree_lk _ _ _ _ H)|]. destruct (tree_keeps _ _ _ _ H) as (used & I). split; [exists used; exact (n_reach _ _ _ I)|exact (n_items _ _ _ I)].
Qed.
(** the lock that the tree returns to ObtainLock is the one that the client waits for *)
Lemma c83_joined k0 tr st tree i k st' : tree_exec key_dec name k0 tr st tree -> spelled st (Some (LJoin _ i k)) -> lk_step _ key_dec st (Some (LJoin _ i k)) st' ->
  exists j d, lm_client _ st' i = CWait j d /\ lm_cur _ st' k = Some j /\
    match snd (CreateOrFind tree k (name (lm_next _ st)) (Some (lm_next _ st))) with
    | RFound it => it_val it = j /\ it_id it = name j
    | RId id => j = lm_next _ st /\ id = name j
    | _ => False
    end.
Proof.
  intros HX SP HS. destruct (tree_keeps _ _ _ _ HX) as (used & H). destruct (SP i k eq_refl) as (KA & KV & SK). inversion HS; subst.
  - exists (lm_next _ st), d. destruct (created st tree used k H KA KV SK ltac:(assumption)) as [E _]. rewrite E. cbn. unfold upd_nat, upd_key. rewrite Nat.eqb_refl.
    destruct (key_dec k k); [auto|congruence].
  - exists j, d. rewrite (found st tree used k j _ H ltac:(assumption)). cbn. unfold upd_nat. rewrite Nat.eqb_refl. auto.
Qed.
(** every history whose clients spell key-values alike has its tree *)
Lemma cur_joined k0 tr st : lk_exec _ key_dec k0 tr st -> forall k j, lm_cur _ st k = Some j -> joined tr k.
Proof.
  clear INJ NE. unfold lk_exec. induction 1 as [|tr st e st' HX IH HS]; [discriminate|]. intros k j C. destruct (cur_step st e st' (exec_inv _ _ _ _ HX) HS) as (HC & _).
  assert (M : forall c, lm_cur _ st k = Some c -> joined (push (match e with Some e => Some (lm_now _ st, e) | None => None end) tr) k).
  { intros c E. destruct (IH _ _ E) as (t & i & HI). exists t, i. destruct e; cbn; auto. }
  assert (D : forall k', k <> k' -> (forall k0, k0 <> k' -> lm_cur _ st' k0 = lm_cur _ st k0) -> joined (push (match e with Some e => Some (lm_now _ st, e) | None => None end) tr) k).
  { intros k' N O. apply (M j). rewrite <- O by exact N. exact C. }
  destruct e as [[i k1|i k1 j1 s d|k1 j1 s ok|k1 r s ok|k1 s|k1|i k1]|]; try (apply (M j); rewrite <- HC; exact C).
  - destruct HC as (_ & _ & O). destruct (key_dec k k1) as [-> | N]; [|exact (D _ N O)]. eexists _, i. left. reflexivity.
  - destruct ok; [|apply (M j); rewrite <- HC; exact C]. destruct HC as ((x & E & _) & O). destruct (key_dec k k1) as [-> | N]; [exact (M _ E)|exact (D _ N O)].
  - destruct HC as ((x & E & _) & O). destruct (key_dec k k1) as [-> | N]; [exact (M _ E)|exact (D _ N O)].
  - destruct HC as ((x & E & _) & O). destruct (key_dec k k1) as [-> | N]; [exact (M _ E)|exact (D _ N O)].
Qed.
Lemma c83_has_tree k0 tr st : lk_exec _ key_dec k0 tr st -> (forall k, joined tr k -> kv_arg k /\ kv_valid k) ->
  (forall k k', joined tr k -> joined tr k' -> kv_same k k' -> k = k') -> exists tree, tree_exec key_dec name k0 tr st tree.
Proof.
  clear INJ NE. unfold lk_exec. induction 1 as [|tr st e st' HX IH HS]; [eexists; constructor|]. intros V SA.
  assert (M : forall k, joined tr k -> joined (push (match e with Some e => Some (lm_now _ st, e) | None => None end) tr) k) by (intros k (t & i & HI); exists t, i; destruct e; cbn; auto).
  destruct IH as (tree & IH); [auto|eauto|]. eexists. eapply TE_step; [exact IH| |exact HS]. intros i k ->.
  assert (J : joined (push (Some (lm_now _ st, LJoin _ i k)) tr) k) by (eexists _, i; left; reflexivity). destruct (V _ J) as [KA KV]. split; [exact KA|]. split; [exact KV|].
  intros k' C KS. destruct (lm_cur _ st k') as [j|] eqn:E; [|congruence]. apply SA; [|exact J|exact KS]. apply M. eapply cur_joined; eassumption.
Qed.
End Tree.
