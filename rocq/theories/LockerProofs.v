(** The invariant of the locker model. *)
From Coq Require Import String List Bool Arith Lia.
From Verif Require Import DestroySync Locker.
Import ListNotations.
Local Open Scope nat_scope.
Local Open Scope list_scope.

(** ** Counting *)
Definition counts (P : nat -> Prop) (n : nat) : Prop := exists L, NoDup L /\ length L = n /\ forall j, In j L <-> P j.
Lemma counts_ext (P Q : nat -> Prop) n : counts P n -> (forall i, Q i <-> P i) -> counts Q n.
Proof. intros (L & H1 & H2 & H3) H. exists L. split; [exact H1|]. split; [exact H2|]. intros j. rewrite H3, H. reflexivity. Qed.
Lemma counts_add (P Q : nat -> Prop) n i : counts P n -> ~ P i -> Q i -> (forall j, j <> i -> (Q j <-> P j)) -> counts Q (S n).
Proof.
  intros (L & H1 & H2 & H3) NP HQ H. exists (i :: L). split; [constructor; [rewrite H3; exact NP|exact H1]|]. split; [cbn; congruence|].
  intros j. cbn. destruct (Nat.eq_dec j i) as [-> | NE]; [tauto|]. rewrite H, H3 by exact NE. split; [intros [C|C]; [congruence|exact C]|auto].
Qed.
Lemma nodup_remove i L : NoDup L -> NoDup (remove Nat.eq_dec i L).
Proof.
  induction 1 as [|x l Hx ND IH]; cbn; [constructor|]. destruct (Nat.eq_dec i x); [exact IH|]. constructor; [|exact IH].
  intros C. apply in_remove in C as [C _]. contradiction.
Qed.
Lemma length_remove i L : NoDup L -> In i L -> S (length (remove Nat.eq_dec i L)) = length L.
Proof.
  induction 1 as [|x l Hx ND IH]; cbn; [intros []|]. intros HI. destruct (Nat.eq_dec i x) as [-> | NE].
  - rewrite notin_remove by exact Hx. reflexivity.
  - destruct HI as [-> | HI]; [congruence|]. cbn. rewrite IH by exact HI. reflexivity.
Qed.
Lemma counts_remove (P Q : nat -> Prop) n i : counts P n -> P i -> ~ Q i -> (forall j, j <> i -> (Q j <-> P j)) -> exists m, n = S m /\ counts Q m.
Proof.
  intros (L & H1 & H2 & H3) HP NQ H. exists (length (remove Nat.eq_dec i L)). assert (HI : In i L) by (apply H3; exact HP). split.
  - rewrite length_remove; auto.
  - exists (remove Nat.eq_dec i L). split; [apply nodup_remove; exact H1|]. split; [reflexivity|].
    intros j. destruct (Nat.eq_dec j i) as [-> | NE].
    + split; [intros C; exfalso; revert C; apply remove_In|tauto].
    + rewrite H, <- H3 by exact NE. split; [intros C; apply in_remove in C; tauto|intros C; apply in_in_remove; auto].
Qed.
Lemma counts_none P : (forall i, ~ P i) -> counts P 0.
Proof. intros H. exists []. split; [constructor|]. split; [reflexivity|]. intros j. split; [intros []|]. intros C. destruct (H j C). Qed.
Lemma counts_zero P i : counts P 0 -> ~ P i.
Proof. intros (L & _ & H2 & H3) HP. apply H3 in HP. destruct L; [destruct HP|discriminate]. Qed.

Section Proofs.
Context {key : Type}.
Variable key_dec : forall a b : key, {a = b} + {a <> b}.
Notation locker := (locker key).
Implicit Type st : locker.

Definition waits (c : client) (j : nat) : Prop :=
  match c with CWait j' _ | CClaim j' | CGone j' | CLeaving j' => j' = j | _ => False end.
Definition holds (p : phase) : nat := match p with LHeld _ _ _ _ | LFired _ _ _ _ | LTimingOut _ _ | LStuck => 1 | _ => 0 end.
Definition ph st j := l_ph _ (lm_lock _ st j).
Definition cnt st j := l_cnt _ (lm_lock _ st j).
Definition keyof st j := l_key _ (lm_lock _ st j).

Record lk_inv st : Prop := {
  i_cur : forall k j, lm_cur _ st k = Some j -> keyof st j = k /\ ph st j <> LDone /\ j < lm_next _ st;
  i_live : forall j, ph st j <> LDone -> lm_cur _ st (keyof st j) = Some j;
  i_count : forall j, exists n, counts (fun i => waits (lm_client _ st i) j) n /\
     (ph st j <> LDone -> cnt st j = n + holds (ph st j) /\ 0 < cnt st j) /\ (ph st j = LDone -> n = 0);
  i_claim : forall i j, (forall d, ph st j = LClaimed i d -> lm_client _ st i = CClaim j) /\
     (lm_client _ st i = CClaim j -> exists d, ph st j = LClaimed i d);
  i_busy : forall k b, lm_busy _ st k = Some b -> lm_beats _ st k = [] /\
     match b with
     | DLost i j => lm_cur _ st k = Some j /\ lm_client _ st i = CLeaving j
     | DRel j _ s => lm_cur _ st k = Some j /\ s <> EmptyString
     | DTime j => lm_cur _ st k = Some j /\ exists t, ph st j = LTimingOut t true \/ ph st j = LStuck
     end;
  i_begun : forall j t, ph st j = LTimingOut t true -> lm_busy _ st (keyof st j) = Some (DTime j);
  i_beats : forall k j s, In (j, s) (lm_beats _ st k) -> lm_cur _ st k = Some j /\ s <> EmptyString;
  i_sess : forall j s d nx t, ph st j = LHeld s d nx t \/ ph st j = LFired s d nx t -> In s (lm_sess _ st) /\ s <> EmptyString;
  i_panic : forall j, ph st j <> LPanic }.

Lemma i_waits st i j : lk_inv st -> waits (lm_client _ st i) j -> ph st j <> LDone.
Proof.
  intros H HW E. destruct (i_count st H j) as (n & H1 & _ & H3). rewrite (H3 E) in H1. apply (counts_zero _ i) in H1. contradiction.
Qed.

Ltac upds := unfold with_time, with_lock, with_client, with_busy, with_cur, with_beats, with_session, with_new, drop_client, set_ph, set_cnt, ph, cnt, keyof, upd_nat, upd_key in *;
  cbn [lm_now lm_next lm_lock lm_cur lm_busy lm_beats lm_client lm_sess l_key l_ph l_cnt] in *.
Ltac eqs := repeat (match goal with
  | H : context [Nat.eqb ?a ?b] |- _ => destruct (Nat.eqb_spec a b); [try subst a|]
  | |- context [Nat.eqb ?a ?b] => destruct (Nat.eqb_spec a b); [try subst a|]
  | H : context [key_dec ?a ?b] |- _ => destruct (key_dec a b); [try subst a|]
  | |- context [key_dec ?a ?b] => destruct (key_dec a b); [try subst a|]
  end; cbn [lm_now lm_next lm_lock lm_cur lm_busy lm_beats lm_client lm_sess l_key l_ph l_cnt] in * ).


Ltac cases0 := unfold drop_client in *; repeat match goal with
  | H : context [match ?x with 0 => _ | S _ => _ end] |- _ => destruct x eqn:?
  | |- context [match ?x with 0 => _ | S _ => _ end] => destruct x eqn:?
  end.
Lemma fresh_done st : lk_inv st -> ph st (lm_next _ st) = LDone.
Proof.
  intros H. destruct (ph st (lm_next _ st)) eqn:E; try reflexivity; exfalso;
    (assert (N : ph st (lm_next _ st) <> LDone) by congruence); apply (i_live st H) in N; apply (i_cur st H) in N; lia.
Qed.
Lemma lost_cnt st k i j p : lk_inv st -> lm_busy _ st k = Some (DLost i j) -> l_ph _ (lm_lock _ st j) = p ->
  match p with LHeld _ _ _ _ | LTimingOut _ _ => True | _ => False end -> l_cnt _ (lm_lock _ st j) - 1 <> 0.
Proof.
  intros H HB E HP. destruct (i_busy st H _ _ HB) as [_ [HC HL]]. destruct (i_cur st H _ _ HC) as (_ & D & _).
  destruct (i_count st H j) as (n & H1 & H2 & _). destruct (H2 D) as [H3 _]. unfold ph, cnt in *.
  destruct n; [exfalso; apply (counts_zero _ i) in H1; apply H1; rewrite HL; reflexivity|].
  rewrite E in H3. destruct p; try contradiction; cbn in H3; lia.
Qed.
Ltac start H HS := pose proof (fresh_done _ H) as NXT; pose proof (i_cur _ H) as HC; pose proof (i_live _ H) as HL; pose proof (i_busy _ H) as HB;
  pose proof (i_claim _ H) as HM; pose proof (i_begun _ H) as HG; pose proof (i_beats _ H) as HT; pose proof (i_sess _ H) as HE;
  pose proof (i_panic _ H) as HP; destruct HS;
  try match goal with X : lm_busy _ _ _ = Some (DLost _ _), Y : l_ph _ _ = ?p, Z : match ?p with _ => _ end |- _ => pose proof (lost_cnt _ _ _ _ _ H X Y Z) as CN end;
  try match goal with X : l_ph _ (lm_lock _ _ ?j) = LClaimed ?i ?d |- _ => pose proof (proj1 (HM i j) d X) as CL end;
  try match goal with X : lm_busy _ _ _ = Some _ |- _ => pose proof (HB _ _ X) as [BE [BC BX]]; pose proof (HC _ _ BC) as (BK & BD & BN) end;
  try match goal with X : lm_cur _ _ _ = Some _, Y : lm_client _ _ _ = CNew |- _ => pose proof (HC _ _ X) as (JK & JD & JN) end;
  try match goal with X : lm_client _ ?st ?i = CGone ?j |- _ =>
    let W := fresh "GD" in assert (W : ph st j <> LDone) by (apply (i_waits st i j H); rewrite X; reflexivity); pose proof (HL _ W) as GC end.

Lemma step_cur st e st' : lk_inv st -> lk_step _ key_dec st e st' ->
  forall k j, lm_cur _ st' k = Some j -> keyof st' j = k /\ ph st' j <> LDone /\ j < lm_next _ st'.
Proof.
  intros H HS. start H HS; intros kk jj EE; cases0; upds; eqs; try discriminate; try (injection EE as <-);
   try (destruct (HC _ _ EE) as (C1 & C2 & C3); repeat split; auto; try congruence; try discriminate; try lia); auto.
  all: repeat split; auto; try discriminate; lia.
Qed.

Lemma step_live st e st' : lk_inv st -> lk_step _ key_dec st e st' ->
  forall j, ph st' j <> LDone -> lm_cur _ st' (keyof st' j) = Some j.
Proof.
  intros H HS. start H HS; intros jj EE; cases0; upds; eqs; auto; try congruence.
  all: try (apply HL; congruence).
  all: try (apply HL in EE; congruence).
Qed.

Lemma step_claim st e st' : lk_inv st -> lk_step _ key_dec st e st' ->
  forall i j, (forall d, ph st' j = LClaimed i d -> lm_client _ st' i = CClaim j) /\
     (lm_client _ st' i = CClaim j -> exists d, ph st' j = LClaimed i d).
Proof.
  intros H HS. start H HS; intros ii jj; destruct (HM ii jj) as [M1 M2]; cases0; upds; eqs; auto; (split; [intros dd ED|intros ED]); try congruence; eauto.
  all: try (destruct (M2 ED) as [dd M]; congruence).
  all: try (apply M1 in ED; congruence).
Qed.

Ltac other EE := match goal with HB : (forall k b, lm_busy _ _ k = Some b -> _), HC : (forall k j, lm_cur _ _ k = Some j -> _), HL : (forall j, l_ph _ _ <> LDone -> _) |- _ =>
  let B1 := fresh in let B2 := fresh "B2" in let B3 := fresh "B3" in
  destruct (HB _ _ EE) as [B1 B2]; split; [exact B1|]; match type of EE with _ = Some ?bb => destruct bb end; destruct B2 as [B2 B3]; (split; [congruence|]); eqs; auto;
  try (exfalso; try (match goal with X : lm_client _ _ ?i = CLeaving ?a, Y : lm_client _ _ ?i = CLeaving ?b |- _ => assert (a = b) by congruence; subst a end);
       destruct (HC _ _ B2) as (? & _); congruence) end.
Lemma step_busy st e st' : lk_inv st -> lk_step _ key_dec st e st' ->
  forall k b, lm_busy _ st' k = Some b -> lm_beats _ st' k = [] /\
     match b with
     | DLost i j => lm_cur _ st' k = Some j /\ lm_client _ st' i = CLeaving j
     | DRel j _ s => lm_cur _ st' k = Some j /\ s <> EmptyString
     | DTime j => lm_cur _ st' k = Some j /\ exists t, ph st' j = LTimingOut t true \/ ph st' j = LStuck
     end.
Proof.
  intros H HS. start H HS; intros kk bb EE; cases0; upds; eqs; try congruence; auto.
  all: try solve [destruct (HB _ _ EE) as [B1 B2]; split; [first [exact B1|congruence]|];
     destruct bb; destruct B2 as [B2 B3]; (split; [congruence|]); auto;
     solve [ eqs; congruence | eqs; destruct B3 as [tt B3]; exists tt; destruct B3 as [B3|B3]; solve [left; congruence | right; congruence | auto] ]].
  - injection EE as <-. split; [exact H3|]. split; [exact H4|]. rewrite Nat.eqb_refl. congruence.
  - other EE.
  - other EE.
  - other EE.
  - injection EE as <-. auto.
  - exfalso. destruct (HB _ _ EE) as [B1 _]. rewrite B1 in H0. destruct b1; discriminate.
  - exfalso. destruct (HB _ _ EE) as [B1 _]. rewrite B1 in H0. destruct b1; discriminate.
  - injection EE as <-. split; [exact H3|]. split; [exact H4|]. assert (j' = j) as -> by (assert (X : l_ph key (lm_lock key st j) <> LDone) by congruence; apply HL in X; congruence).
    rewrite Nat.eqb_refl. exists tick. left. reflexivity.
  - other EE.
  - other EE.
Qed.

Lemma step_begun st e st' : lk_inv st -> lk_step _ key_dec st e st' ->
  forall j t, ph st' j = LTimingOut t true -> lm_busy _ st' (keyof st' j) = Some (DTime j).
Proof.
  intros H HS. start H HS; intros jj tt EE; cases0; upds; eqs; try congruence; auto.
  all: try (apply HG in EE; congruence).
  assert (X : l_ph key (lm_lock key st j) <> LDone) by congruence. apply HL in X. congruence.
Qed.
Lemma step_beats st e st' : lk_inv st -> lk_step _ key_dec st e st' ->
  forall k j s, In (j, s) (lm_beats _ st' k) -> lm_cur _ st' k = Some j /\ s <> EmptyString.
Proof.
  intros H HS. start H HS; intros kk jj ss EE; cases0; upds; eqs; try congruence; auto.
  all: try (rewrite BE in EE; destruct EE).
  - apply HT in EE as [EE _]. congruence.
  - apply in_app_iff in EE as [EE | [EE | []]]; [apply HT; exact EE|]. injection EE as <- <-. auto.
  - apply HT. rewrite H0. apply in_app_iff in EE as [EE | EE]; apply in_app_iff; [left|right; right]; exact EE.
  - apply HT. rewrite H0. apply in_app_iff in EE as [EE | EE]; apply in_app_iff; [left|right; right]; exact EE.
Qed.
Lemma step_sess st e st' : lk_inv st -> lk_step _ key_dec st e st' ->
  forall j s d nx t, ph st' j = LHeld s d nx t \/ ph st' j = LFired s d nx t -> In s (lm_sess _ st') /\ s <> EmptyString.
Proof.
  intros H HS. start H HS; intros jj ss dd nn tt EE; cases0; upds; eqs; eauto.
  all: try (destruct EE; congruence).
  - destruct EE as [EE|EE]; [injection EE as <- _ _ _|discriminate]. eauto.
  - destruct EE as [EE|EE]; [discriminate|injection EE as <- _ _ _]. eauto.
  - destruct EE as [EE|EE]; [injection EE as <- _ _ _|discriminate]. split; [left; reflexivity|assumption].
  - destruct (HE _ _ _ _ _ EE) as [X Y]. split; [right; exact X|exact Y].
  - destruct EE as [EE|EE]; [injection EE as <- _ _ _|discriminate]. eauto.
  - destruct EE as [EE|EE]; [discriminate|injection EE as <- _ _ _]. eauto.
Qed.
Lemma step_panic st e st' : lk_inv st -> lk_step _ key_dec st e st' -> forall j, ph st' j <> LPanic.
Proof. intros H HS. start H HS; intros jj; cases0; upds; eqs; auto; try discriminate; try congruence. Qed.

Lemma waits_dec c j : waits c j \/ ~ waits c j.
Proof. destruct c; cbn; auto; lia. Qed.

Lemma cw_same (cl : nat -> client) i c j n : counts (fun x => waits (cl x) j) n -> (waits c j <-> waits (cl i) j) ->
  counts (fun x => waits (if Nat.eqb x i then c else cl x) j) n.
Proof. intros C H. apply (counts_ext _ _ _ C). intros x. destruct (Nat.eqb_spec x i) as [-> |]; [exact H|reflexivity]. Qed.
Lemma cw_add (cl : nat -> client) i c j n : counts (fun x => waits (cl x) j) n -> ~ waits (cl i) j -> waits c j ->
  counts (fun x => waits (if Nat.eqb x i then c else cl x) j) (S n).
Proof.
  intros C H1 H2. apply (counts_add _ _ _ i C H1); [rewrite Nat.eqb_refl; exact H2|].
  intros x NE. apply Nat.eqb_neq in NE. rewrite NE. reflexivity.
Qed.
Lemma cw_rem (cl : nat -> client) i c j n : counts (fun x => waits (cl x) j) n -> waits (cl i) j -> ~ waits c j ->
  exists m, n = S m /\ counts (fun x => waits (if Nat.eqb x i then c else cl x) j) m.
Proof.
  intros C H1 H2. apply (counts_remove _ _ _ i C H1); [rewrite Nat.eqb_refl; exact H2|].
  intros x NE. apply Nat.eqb_neq in NE. rewrite NE. reflexivity.
Qed.

Lemma step_count st e st' : lk_inv st -> lk_step _ key_dec st e st' ->
  forall j, exists n, counts (fun i => waits (lm_client _ st' i) j) n /\
     (ph st' j <> LDone -> cnt st' j = n + holds (ph st' j) /\ 0 < cnt st' j) /\ (ph st' j = LDone -> n = 0).
Proof.
  intros H HS. pose proof (i_count st H) as HN. start H HS; intros jj; destruct (HN jj) as (n & C1 & C2 & C3); cases0; upds.
  (* steps that change neither clients nor counters *)
  all: try solve [exists n; auto].
  all: try solve [exists n; split; [exact C1|]; eqs; auto; (split; [intros _|discriminate]); destruct C2 as [C2 C2']; [congruence|];
     split; [|assumption]; rewrite C2; match goal with X : l_ph _ _ = _ |- _ => rewrite X end; reflexivity].
  (* clients that go on waiting *)
  all: try solve [exists n; split; [apply cw_same; [exact C1|match goal with X : lm_client _ _ _ = _ |- _ => rewrite X end; reflexivity]|];
     eqs; auto; (split; [intros _|discriminate]); destruct C2 as [C2 C2']; [congruence|];
     split; [|assumption]; rewrite C2; match goal with X : l_ph _ _ = _ |- _ => rewrite X end; reflexivity].
  - (* join_new *) destruct (Nat.eqb_spec jj (lm_next _ st)) as [-> | NE].
    + exists (S n). split; [apply cw_add; [exact C1|rewrite H0; cbn; tauto|reflexivity]|]. cbn. rewrite (C3 NXT).
      split; [lia|discriminate].
    + exists n. split; [apply cw_same; [exact C1|rewrite H0; cbn; intuition congruence]|]. auto.
  - (* join *) destruct (Nat.eqb_spec jj j) as [-> | NE].
    + exists (S n). split; [apply cw_add; [exact C1|rewrite H0; cbn; tauto|reflexivity]|]. cbn. destruct (C2 JD) as [C2' C2'']. split; [lia|contradiction].
    + exists n. split; [apply cw_same; [exact C1|rewrite H0; cbn; intuition congruence]|]. auto.
  - (* grant *) destruct (Nat.eqb_spec jj j) as [-> | NE].
    + destruct (cw_rem (lm_client key st) i (CGot s) j n C1) as (m & E & C); [rewrite CL; reflexivity|cbn; tauto|].
      exists m. split; [exact C|]. cbn [l_ph l_cnt]. split; [|discriminate]. intros _. destruct C2 as [C2 C2']; [congruence|].
      rewrite C2, E, H0. cbn. lia.
    + exists n. split; [apply cw_same; [exact C1|rewrite CL; cbn; intuition congruence]|]. auto.
  - exists n. split; [apply cw_same; [exact C1|rewrite H0; reflexivity]|]. auto.
  - exists n. split; [apply cw_same; [exact C1|rewrite H0; reflexivity]|]. auto.
  - congruence.
  - (* lost_idle, last *) destruct (Nat.eqb_spec jj j) as [-> | NE].
    + destruct (cw_rem (lm_client key st) i CEnd j n C1) as (m & E & C); [rewrite BX; reflexivity|cbn; tauto|].
      exists m. split; [exact C|]. cbn [l_ph l_cnt]. split; [congruence|]. intros _. destruct (C2 BD) as [C2' _]. rewrite H1 in C2'. cbn in C2'. lia.
    + exists n. split; [apply cw_same; [exact C1|rewrite BX; cbn; intuition congruence]|]. auto.
  - (* lost_idle *) destruct (Nat.eqb_spec jj j) as [-> | NE].
    + destruct (cw_rem (lm_client key st) i CEnd j n C1) as (m & E & C); [rewrite BX; reflexivity|cbn; tauto|].
      exists m. split; [exact C|]. cbn [l_ph l_cnt]. split; [|discriminate]. intros _. destruct (C2 BD) as [C2' _]. rewrite H1 in C2'. cbn in C2' |- *. lia.
    + exists n. split; [apply cw_same; [exact C1|rewrite BX; cbn; intuition congruence]|]. auto.
  - congruence.
  - (* lost_held *) destruct (Nat.eqb_spec jj j) as [-> | NE].
    + destruct (cw_rem (lm_client key st) i CEnd j n C1) as (m & E & C); [rewrite BX; reflexivity|cbn; tauto|].
      exists m. split; [exact C|]. cbn [l_ph l_cnt]. split; [|congruence]. intros _. destruct (C2 BD) as [C2' _]. lia.
    + exists n. split; [apply cw_same; [exact C1|rewrite BX; cbn; intuition congruence]|]. auto.
  - congruence.
  - (* rel_ok, last *) exists n. split; [exact C1|]. destruct (Nat.eqb_spec jj j) as [-> | NE]; [|auto]. cbn [l_ph l_cnt].
    split; [congruence|]. intros _. destruct (C2 BD) as [C2' _]. rewrite H1 in C2'. cbn in C2'. lia.
  - exists n. split; [exact C1|]. destruct (Nat.eqb_spec jj j) as [-> | NE]; [|auto]. cbn [l_ph l_cnt].
    split; [|discriminate]. intros _. destruct (C2 BD) as [C2' _]. rewrite H1 in C2'. cbn in C2' |- *. lia.
  - (* time_done, last *) exists n. split; [exact C1|]. destruct (Nat.eqb_spec jj j) as [-> | NE]; [|auto]. cbn [l_ph l_cnt].
    split; [congruence|]. intros _. destruct (C2 BD) as [C2' _]. rewrite H1 in C2'. cbn in C2'. lia.
  - exists n. split; [exact C1|]. destruct (Nat.eqb_spec jj j) as [-> | NE]; [|auto]. cbn [l_ph l_cnt].
    split; [|discriminate]. intros _. destruct (C2 BD) as [C2' _]. rewrite H1 in C2'. cbn in C2' |- *. lia.
Qed.

Lemma step_inv st e st' : lk_inv st -> lk_step _ key_dec st e st' -> lk_inv st'.
Proof.
  intros H HS. split.
  - exact (step_cur _ _ _ H HS).
  - exact (step_live _ _ _ H HS).
  - exact (step_count _ _ _ H HS).
  - exact (step_claim _ _ _ H HS).
  - exact (step_busy _ _ _ H HS).
  - exact (step_begun _ _ _ H HS).
  - exact (step_beats _ _ _ H HS).
  - exact (step_sess _ _ _ H HS).
  - exact (step_panic _ _ _ H HS).
Qed.
Lemma init_inv k0 : lk_inv (lm_init _ k0).
Proof.
  split; cbn; try discriminate; try congruence; try tauto.
  - intros j. exists 0. split; [apply counts_none; cbn; tauto|]. split; [intros C; destruct C; reflexivity|reflexivity].
  - intros i j. split; discriminate.
  - intros j s d nx t [C|C]; discriminate.
Qed.
Lemma exec_inv k0 tr st : lk_exec _ key_dec k0 tr st -> lk_inv st.
Proof. unfold lk_exec. induction 1; [apply init_inv|eapply step_inv; eassumption]. Qed.
End Proofs.
