(** The counters' key-values made by willow. *)
From Coq Require Import String List Bool Arith NArith ZArith Lia.
Import ListNotations.
From Verif Require Import Datatypes SpecValues DatatypesProofs PropLemmasValues Collections Query SpecQuery Assoc SpecAssoc AssocMaps AssocProofs AssocOps OneToMany SpecOneToMany
  Limiter SpecLimiter LimiterProofs Channel SpecChannel Willow SpecWillow.
Local Open Scope Z_scope.

Lemma kv_get_aset (k : string) (x : EV) (m : KeyValues) (k' : string) : kv_get (aset String.eqb k x m) k' = if String.eqb k k' then Some x else kv_get m k'.
Proof.
  induction m as [|[k0 x0] m IH]; cbn [aset kv_get]; [reflexivity|]. destruct (String.eqb_spec k k0) as [-> | N]; cbn [kv_get].
  - destruct (String.eqb_spec k0 k'); reflexivity.
  - rewrite IH. destruct (String.eqb_spec k0 k') as [-> | N']; [|reflexivity]. destruct (String.eqb_spec k k'); [contradiction|reflexivity].
Qed.
Lemma keys_aset (k : string) (x : EV) (m : KeyValues) (k' : string) : In k' (kv_keys (aset String.eqb k x m)) <-> (k' = k) \/ In k' (kv_keys m).
Proof.
  induction m as [|[k0 x0] m IH]; cbn [aset]; [cbn; intuition|]. destruct (String.eqb_spec k k0) as [-> | N]; cbn; [intuition|].
  unfold kv_keys in IH. rewrite IH. intuition.
Qed.
Lemma nodup_aset (k : string) (x : EV) (m : KeyValues) : NoDup (kv_keys m) -> NoDup (kv_keys (aset String.eqb k x m)).
Proof.
  induction m as [|[k0 x0] m IH]; cbn [aset]; intros ND; [repeat constructor; intros []|]. cbn in ND. apply NoDup_cons_iff in ND as [NI ND].
  destruct (String.eqb_spec k k0) as [-> | N]; cbn; constructor; auto. intros C. apply keys_aset in C as [C | C]; [congruence|contradiction].
Qed.
Lemma in_aset (k : string) (x : EV) (m : KeyValues) (k' : string) (x' : EV) : In (k', x') (aset String.eqb k x m) -> (k' = k /\ x' = x) \/ In (k', x') m.
Proof.
  induction m as [|[k0 x0] m IH]; cbn [aset]; [intros [[= <- <-]|[]]; auto|]. destruct (String.eqb_spec k k0) as [-> | N].
  - intros [[= <- <-] | H]; [auto|right; right; exact H].
  - intros [[= <- <-] | H]; [right; left; reflexivity|]. apply IH in H as [H | H]; [auto|right; right; exact H].
Qed.

Lemma assign_cons base r p kv : assign base r (p :: kv) = assign (aset String.eqb (r (fst p)) (snd p) base) r kv.
Proof. reflexivity. Qed.
Lemma assign_nodup kv r : forall base, NoDup (kv_keys base) -> NoDup (kv_keys (assign base r kv)).
Proof. induction kv as [|p kv IH]; intros base ND; [exact ND|]. rewrite assign_cons. apply IH, nodup_aset, ND. Qed.
Lemma assign_in kv r : forall base k x, In (k, x) (assign base r kv) -> In (k, x) base \/ exists k', In (k', x) kv /\ k = r k'.
Proof.
  induction kv as [|[k0 x0] kv IH]; intros base k x H; [auto|]. rewrite assign_cons in H. apply IH in H as [H | (k' & H & ->)].
  - apply in_aset in H as [[-> ->] | H]; [right; exists k0; split; [left; reflexivity|reflexivity]|auto].
  - right. exists k'. split; [right; exact H|reflexivity].
Qed.
Lemma assign_out kv r : forall base k, (forall k' v, In (k', v) kv -> r k' <> k) -> kv_get (assign base r kv) k = kv_get base k.
Proof.
  induction kv as [|[k0 x0] kv IH]; intros base k H; [reflexivity|]. rewrite assign_cons, IH by (intros; eapply H; right; eauto).
  cbn [fst snd]. rewrite kv_get_aset. destruct (String.eqb_spec (r k0) k) as [E|]; [|reflexivity]. exfalso. eapply H; [left; reflexivity|exact E].
Qed.
Lemma assign_get kv r : (forall a b, r a = r b -> a = b) -> NoDup (kv_keys kv) -> forall base k v, In (k, v) kv -> kv_get (assign base r kv) (r k) = Some v.
Proof.
  intros INJ. induction kv as [|[k0 x0] kv IH]; intros ND base k v []; rewrite assign_cons; cbn in ND; apply NoDup_cons_iff in ND as [NI ND].
  - injection H as <- <-. rewrite assign_out.
    + cbn [fst snd]. rewrite kv_get_aset, String.eqb_refl. reflexivity.
    + intros k' v H E. apply NI. apply INJ in E. subst k'. apply (in_map fst) in H. exact H.
  - apply IH; auto.
Qed.
(** The names chosen for the keys do not collide *)
Lemma prefix_inj a b : append "_willow_" a = append "_willow_" b -> a = b.
Proof. cbn. congruence. Qed.
Lemma enqueued_get q kv k : NoDup (kv_keys kv) ->
  kv_get (enqueued_kv q kv) (append "_willow_" k) = match kv_get kv k with Some v => Some v | None => kv_get (queue_kv q) (append "_willow_" k) end.
Proof.
  intros ND. destruct (kv_get kv k) as [v|] eqn:E.
  - apply assign_get; [apply prefix_inj|exact ND|apply kv_get_In; exact E].
  - apply assign_out. intros k' v HI E'. apply prefix_inj in E'. subst k'. apply kv_get_none in E. apply E. apply (in_map fst) in HI. exact HI.
Qed.
Definition prefixed (x : string) : option string :=
  match x with
  | String "_" (String "w" (String "i" (String "l" (String "l" (String "o" (String "w" (String "_" k))))))) => Some k
  | _ => None
  end.
Lemma prefixed_some x k : prefixed x = Some k -> x = append "_willow_" k.
Proof.
  unfold prefixed.
  repeat match goal with |- context [match ?z with _ => _ end] => destruct z; try discriminate end.
  intros [= ->]. reflexivity.
Qed.
Lemma prefixed_none x : prefixed x = None -> forall k, append "_willow_" k <> x.
Proof. intros E k <-. cbn in E. discriminate. Qed.
Lemma enqueued_other q kv x : prefixed x = None -> kv_get (enqueued_kv q kv) x = None.
Proof.
  intros E. unfold enqueued_kv. rewrite assign_out by (intros; apply prefixed_none; exact E).
  cbn [queue_kv kv_get]. destruct (String.eqb_spec QueueKey x) as [<-|]; [discriminate|]. destruct (String.eqb_spec EnqueuedKey x) as [<-|]; [discriminate|]. reflexivity.
Qed.
Lemma queue_kv_get q k : kv_get (queue_kv q) (append "_willow_" k) = if String.eqb k "queue_name" then Some (Str q) else if String.eqb k "enqueued" then Some (Str "true") else None.
Proof.
  cbn [queue_kv kv_get]. change QueueKey with (append "_willow_" "queue_name"). change EnqueuedKey with (append "_willow_" "enqueued").
  destruct (String.eqb_spec k "queue_name") as [->|N]; [rewrite String.eqb_refl; reflexivity|].
  destruct (String.eqb_spec (append "_willow_" "queue_name") (append "_willow_" k)) as [E|_]; [apply prefix_inj in E; congruence|].
  destruct (String.eqb_spec k "enqueued") as [->|N']; [rewrite String.eqb_refl; reflexivity|].
  destruct (String.eqb_spec (append "_willow_" "enqueued") (append "_willow_" k)) as [E|_]; [apply prefix_inj in E; congruence|reflexivity].
Qed.

Lemma plain_get kv : plain kv -> kv_get kv "queue_name" = None /\ kv_get kv "enqueued" = None /\ kv_get kv EnqueuedKey = None.
Proof.
  intros P. repeat split; apply kv_get_none; intros C; apply in_map_iff in C as ([k v] & E & HI); cbn in E; subst k; destruct (P _ _ HI) as (A & B & C); unfold EnqueuedKey in *; congruence.
Qed.
Lemma enqueued_queue q kv : NoDup (kv_keys kv) -> plain kv -> kv_get (enqueued_kv q kv) QueueKey = Some (Str q) /\ kv_get (enqueued_kv q kv) EnqueuedKey = Some (Str "true").
Proof.
  intros ND P. destruct (plain_get kv P) as (A & B & _). split.
  - change QueueKey with (append "_willow_" "queue_name"). rewrite enqueued_get, A by exact ND. reflexivity.
  - change EnqueuedKey with (append "_willow_" "enqueued"). rewrite enqueued_get, B by exact ND. reflexivity.
Qed.
Lemma running_enqueued q kv : plain kv -> kv_get (running_kv q kv) EnqueuedKey = None.
Proof.
  intros P. unfold running_kv. rewrite assign_out; [reflexivity|]. intros k v HI. destruct (P _ _ HI) as (_ & _ & N). exact N.
Qed.
Lemma enqueued_inj q kv q' kv' : NoDup (kv_keys kv) -> NoDup (kv_keys kv') -> plain kv -> plain kv' ->
  kv_same (enqueued_kv q kv) (enqueued_kv q' kv') -> q = q' /\ kv_same kv kv'.
Proof.
  intros ND ND' P P' H. destruct (enqueued_queue q kv ND P) as [Q1 _]. destruct (enqueued_queue q' kv' ND' P') as [Q2 _]. split.
  - specialize (H QueueKey). rewrite Q1, Q2 in H. destruct H as [_ H]. inversion H. reflexivity.
  - intros k. specialize (H (append "_willow_" k)). rewrite !enqueued_get, !queue_kv_get in H by assumption.
    destruct (String.eqb k "queue_name") eqn:E1; [apply String.eqb_eq in E1; subst k; rewrite (proj1 (plain_get kv P)), (proj1 (plain_get kv' P')); exact I|].
    destruct (String.eqb k "enqueued") eqn:E2; [apply String.eqb_eq in E2; subst k; rewrite (proj1 (proj2 (plain_get kv P))), (proj1 (proj2 (plain_get kv' P'))); exact I|].
    destruct (kv_get kv k), (kv_get kv' k); exact H.
Qed.
Lemma str_ok s : well_typed (ev_type (Str s)) (ev_data (Str s)) /\ ~ is_nan (ev_data (Str s)) /\ Str s <> Any.
Proof. split; [constructor|]. split; [intros [C | C]; discriminate|discriminate]. Qed.
Lemma assign_counter base r kv : base <> [] -> NoDup (kv_keys base) -> (forall k v, In (k, v) base -> exists s, v = Str s) -> counter_kv kv -> counter_kv (assign base r kv).
Proof.
  intros NE ND HB ((ND' & NN) & (_ & WT) & NA).
  assert (A : forall k v, In (k, v) (assign base r kv) -> well_typed (ev_type v) (ev_data v) /\ ~ is_nan (ev_data v) /\ v <> Any).
  { intros k v HI. apply assign_in in HI as [HI | (k' & HI & ->)]; [destruct (HB k v HI) as (s & ->); apply str_ok|]. split; [eauto|]. split; eauto. }
  split; [split; [apply assign_nodup; exact ND|intros k v HI; apply (A k v HI)]|].
  split; [split; [|intros k v HI; apply (A k v HI)]|intros k v HI; apply (A k v HI)].
  destruct base as [|[k0 x0] b]; [contradiction|]. intros E. assert (C : In k0 (kv_keys (assign ((k0, x0) :: b) r kv))).
  { assert (K : forall l m, In k0 (kv_keys m) -> In k0 (kv_keys (assign m r l))).
    { induction l as [|p l IH]; intros m H; [exact H|]. rewrite assign_cons. apply IH, keys_aset. right. exact H. }
    apply K. left. reflexivity. }
  rewrite E in C. exact C.
Qed.
Lemma enqueued_counter q kv : counter_kv kv -> counter_kv (enqueued_kv q kv).
Proof.
  apply assign_counter; [discriminate| |].
  - cbn. repeat constructor; cbn; intuition discriminate.
  - intros k v [[= <- <-] | [[= <- <-] | []]]; eauto.
Qed.
Lemma running_counter q kv : counter_kv kv -> counter_kv (running_kv q kv).
Proof.
  apply assign_counter; [discriminate| |].
  - cbn. repeat constructor; cbn; intuition discriminate.
  - intros k v [[= <- <-] | [[= <- <-] | []]]; eauto.
Qed.
Lemma queue_counter q : counter_kv (queue_kv q).
Proof.
  split; [split|split].
  - cbn. repeat constructor; cbn; intuition discriminate.
  - intros k v [[= <- <-] | [[= <- <-] | []]]; apply str_ok.
  - split; [discriminate|]. intros k v [[= <- <-] | [[= <- <-] | []]]; apply str_ok.
  - intros k v [[= <- <-] | [[= <- <-] | []]]; apply str_ok.
Qed.
