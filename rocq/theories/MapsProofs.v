(** Proofs about Json.v: a map decoded from an object in which a name occurs more than once. *)
From Coq Require Import String Ascii List Bool NArith ZArith SpecFloat.
Import ListNotations.
From Verif Require Import Datatypes SpecValues Query Json Models.
Local Open Scope list_scope.

Lemma put_in : forall A k (v : A) l k' v', NoDup (map fst l) ->
  (In (k', v') (put k v l) <-> (k' = k /\ v' = v) \/ (k' <> k /\ In (k', v') l)).
Proof.
  intros A k v l. induction l as [|[k2 v2] l IH]; intros k' v' ND; cbn [put].
  - cbn. split; [intros [E|[]]; injection E as <- <-; auto|intros [[-> ->]|[_ []]]; auto].
  - cbn [map fst] in ND. inversion ND as [|? ? NI ND']; subst. destruct (String.eqb_spec k2 k) as [->|NE]; cbn [In].
    + split.
      * intros [E|J]; [injection E as <- <-; auto|]. right. split; [|auto]. intros ->. apply NI. apply (in_map fst _ _ J).
      * intros [[-> ->]|[N [E|J]]]; auto. injection E as -> ->. congruence.
    + rewrite (IH k' v' ND'). split.
      * intros [E|[H|[N J]]]; auto. injection E as <- <-. auto.
      * intros [H|[N [E|J]]]; auto.
Qed.

Lemma put_names : forall A k (v : A) l x, In x (map fst (put k v l)) <-> x = k \/ In x (map fst l).
Proof.
  intros A k v l x. induction l as [|[k2 v2] l IH]; cbn [put].
  - cbn. intuition congruence.
  - destruct (String.eqb_spec k2 k) as [->|NE]; cbn [map fst In]; [|rewrite IH]; intuition congruence.
Qed.

Lemma put_nodup : forall A k (v : A) l, NoDup (map fst l) -> NoDup (map fst (put k v l)).
Proof.
  intros A k v l. induction l as [|[k2 v2] l IH]; intros ND; cbn [put].
  - cbn. repeat constructor. intros [].
  - cbn [map fst] in ND. inversion ND as [|? ? NI ND']; subst. destruct (String.eqb_spec k2 k) as [->|NE]; cbn [map fst]; constructor; auto.
    rewrite put_names. intros [E|J]; auto.
Qed.

Lemma put_all_spec : forall A (l acc : list (string * A)), NoDup (map fst acc) ->
  NoDup (map fst (put_all l acc)) /\
  forall k v, In (k, v) (put_all l acc) <->
    (exists l1 l2, l = l1 ++ (k, v) :: l2 /\ ~ In k (map fst l2)) \/ (In (k, v) acc /\ ~ In k (map fst l)).
Proof.
  intros A l. induction l as [|[k0 v0] l IH]; intros acc ND; cbn [put_all].
  - split; [exact ND|]. intros k v. split; [intros J; right; split; [exact J|intros []]|].
    intros [(l1 & l2 & E & _)|[J _]]; [destruct l1; discriminate|exact J].
  - destruct (IH (put k0 v0 acc) (put_nodup _ _ _ _ ND)) as [N2 IN]. split; [exact N2|]. intros k v. rewrite IN, put_in by exact ND.
    cbn [map fst In]. split.
    + intros [(l1 & l2 & -> & NI)|[[[-> ->]|[NE J]] NI]].
      * left. exists ((k0, v0) :: l1), l2. auto.
      * left. exists [], l. auto.
      * right. split; [exact J|]. intros [E|E]; [congruence|auto].
    + intros [(l1 & l2 & E & NI)|[J NI]].
      * destruct l1 as [|p l1]; cbn [app] in E.
        -- injection E as -> -> ->. right. split; [now left|exact NI].
        -- injection E as _ ->. left. exists l1, l2. auto.
      * right. split; [right|]; [split; [|exact J]|]; intros X; apply NI; [left; congruence|right; exact X].
Qed.

(** [option_map (pair _)] over all members *)
Lemma all_some_pairs : forall A B (d : A -> option B) (l : list (string * A)) r,
  all_some (map (fun p => option_map (pair (fst p)) (d (snd p))) l) = Some r ->
  map fst r = map fst l /\
  (forall l1 k a l2, l = l1 ++ (k, a) :: l2 -> exists b r1 r2, r = r1 ++ (k, b) :: r2 /\ d a = Some b /\ map fst r2 = map fst l2) /\
  (forall r1 k b r2, r = r1 ++ (k, b) :: r2 -> exists a l1 l2, l = l1 ++ (k, a) :: l2 /\ d a = Some b /\ map fst r2 = map fst l2).
Proof.
  intros A B d l. induction l as [|[k0 a0] l IH]; intros r E; cbn in E.
  - injection E as <-. split; [reflexivity|]. split; intros [|? ?] ? ? ? E; discriminate.
  - destruct (d a0) as [b0|] eqn:D; [|discriminate]. cbn in E.
    destruct (all_some (map (fun p => option_map (pair (fst p)) (d (snd p))) l)) as [r0|] eqn:AS; [|discriminate]. cbn in E.
    injection E as <-. destruct (IH r0 eq_refl) as (F & L & R). split; [cbn; now rewrite F|]. split.
    + intros [|p l1] k a l2 E; cbn [app] in E.
      * injection E as -> -> <-. exists b0, [], r0. repeat split; auto.
      * injection E as _ E. destruct (L _ _ _ _ E) as (b & r1 & r2 & -> & D2 & F2). exists b, ((fst (k0, a0), b0) :: r1), r2. auto.
    + intros [|p r1] k b r2 E; cbn [app fst] in E.
      * injection E as -> -> <-. exists a0, [], l. auto.
      * injection E as _ E2. destruct (R _ _ _ _ E2) as (a & l1 & l2 & -> & D2 & F2). exists a, ((k0, a0) :: l1), l2. auto.
Qed.

Lemma kv_last : forall parse_float l kv, dec_kv parse_float (JObj l) = Some kv ->
  NoDup (map fst kv) /\
  forall k x, In (k, x) kv <-> exists l1 j l2, l = l1 ++ (k, j) :: l2 /\ ~ In k (map fst l2) /\ dec_ev parse_float j = Some x.
Proof.
  intros parse_float l kv E. unfold dec_kv, obj, bind in E.
  destruct (all_some (map (fun p => option_map (pair (fst p)) (raw_value (snd p))) l)) as [raws|] eqn:E1; [|discriminate].
  destruct (all_some_pairs _ _ _ _ _ E1) as (F1 & L1 & R1).
  destruct (put_all_spec _ raws [] (NoDup_nil _)) as [ND IN].
  destruct (all_some_pairs _ _ _ _ _ E) as (F2 & L2 & R2). split; [rewrite F2; exact ND|]. intros k x. split.
  - intros J. apply in_split in J. destruct J as (r1 & r2 & ->). destruct (R2 _ _ _ _ eq_refl) as (a & m1 & m2 & EA & D & _).
    assert (J : In (k, a) (put_all raws [])) by (rewrite EA; apply in_or_app; right; left; reflexivity).
    apply IN in J. destruct J as [(q1 & q2 & -> & NI)|[[] _]].
    destruct (R1 _ _ _ _ eq_refl) as (j & l1 & l2 & -> & DJ & F3). exists l1, j, l2. split; [reflexivity|].
    split; [rewrite <- F3; exact NI|]. unfold dec_ev, bind. rewrite DJ. exact D.
  - intros (l1 & j & l2 & -> & NI & D). destruct (L1 _ _ _ _ eq_refl) as (a & q1 & q2 & -> & DJ & F3).
    unfold dec_ev, bind in D. rewrite DJ in D.
    assert (J : In (k, a) (put_all (q1 ++ (k, a) :: q2) [])).
    { apply IN. left. exists q1, q2. split; [reflexivity|]. rewrite F3. exact NI. }
    apply in_split in J. destruct J as (m1 & m2 & EM). destruct (L2 _ _ _ _ EM) as (b & r1 & r2 & -> & D2 & _).
    rewrite D in D2. injection D2 as <-. apply in_or_app. right. left. reflexivity.
Qed.

(** A field of a struct: the last member of that name, up to the case of ASCII letters *)
Lemma member_last : forall name l v, member name l = Some v <->
  exists l1 k l2, l = l1 ++ (k, v) :: l2 /\ fold_name k = fold_name name /\ forall k', In k' (map fst l2) -> fold_name k' <> fold_name name.
Proof.
  intros name. unfold member.
  assert (G : forall (l : list (string * json)) (r : option json) v, fold_left (fun r p => if String.eqb (fold_name (fst p)) (fold_name name) then Some (snd p) else r) l r = Some v <->
    (exists l1 k l2, l = l1 ++ (k, v) :: l2 /\ fold_name k = fold_name name /\ forall k', In k' (map fst l2) -> fold_name k' <> fold_name name) \/
    (r = Some v /\ forall k', In k' (map fst l) -> fold_name k' <> fold_name name)).
  { induction l as [|[k0 v0] l IH]; intros r v; cbn [fold_left fst snd].
    - split; [intros ->; right; split; [reflexivity|intros ? []]|]. intros [(l1 & k & l2 & E & _)|[-> _]]; [destruct l1; discriminate|reflexivity].
    - rewrite IH. cbn [map fst In]. destruct (String.eqb_spec (fold_name k0) (fold_name name)) as [EQ|NE]; split.
      + intros [(l1 & k & l2 & -> & H)|[E H]].
        * left. exists ((k0, v0) :: l1), k, l2. split; [reflexivity|exact H].
        * left. injection E as ->. exists [], k0, l. auto.
      + intros [(l1 & k & l2 & E & H1 & H2)|[_ H]]; [|destruct (H k0 (or_introl eq_refl) EQ)].
        destruct l1 as [|p l1]; cbn [app] in E.
        * injection E as -> -> ->. right. auto.
        * injection E as _ ->. left. exists l1, k, l2. auto.
      + intros [(l1 & k & l2 & -> & H)|[E H]].
        * left. exists ((k0, v0) :: l1), k, l2. split; [reflexivity|exact H].
        * right. split; [exact E|]. intros k' [<-|J]; auto.
      + intros [(l1 & k & l2 & E & H1 & H2)|[E H]].
        * destruct l1 as [|p l1]; cbn [app] in E.
          -- injection E as -> -> ->. congruence.
          -- injection E as _ ->. left. exists l1, k, l2. auto.
        * right. split; [exact E|]. intros k' J. apply H. now right. }
  intros l v. rewrite G. split; [intros [H|[E _]]; [exact H|discriminate]|auto].
Qed.
