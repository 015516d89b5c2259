(** Invariants of [AssocSync.v]: what each call relies on, and what a step of another goroutine leaves alone. *)
From Coq Require Import List Bool Arith Lia Permutation.
Import ListNotations.
From Verif Require Import AssocSync AssocSyncBase AssocSyncInv.

(** The nodes on which a call has counted itself as creating *)
Definition pins (p : pc) : list nat :=
  match p with PPin _ nodes => nodes | PLock todo locked _ => locked ++ todo | PFound l _ => l | PCall l _ => l | PUnlock todo _ => todo | _ => [] end.
Definition creat (w : world) (a : nat) : nat := match nth_error (w_heap w) a with Some nd => nd_creating nd | None => 0 end.
Definition cnt (l : list nat) (a : nat) : nat := count_occ Nat.eq_dec l a.
(** The nodes a call has locked *)
Definition locks (p : pc) : list nat :=
  match p with PLock _ l _ => l | PFound l _ => l | PCall l _ => l | PUnlock l _ => l | DLock _ l _ => l | DItem l _ => l | DUnlock l _ _ => l | _ => [] end.
Definition destroying (p : pc) : Prop := match p with YFind | YAsk _ | YDel _ _ | YClear _ => True | _ => False end.
Definition mine (c : call) (p : pc) (x : nat) : Prop := (exists l, p = PCall l x) \/ (c = CDestroy x /\ destroying p).

Definition acc_ok (w : world) (n : nat) (locked : list nat) (acc : option (list nat)) : Prop :=
  match acc with None => locked = [] | Some l => locked <> [] /\ NoDup l /\ forall x, In x l <-> (forall a, In a locked -> has w a n x) end.
Definition wide (w : world) (n : nat) (l : list nat) : Prop := forall a nd, In a l -> node_at w a nd -> n <= length (nd_ids nd).
Definition carg (w : world) (c : call) (kv : kvs) : Prop :=
  match c with CDeleteId _ x => In x (w_known w) /\ nth_error (w_made w) x = Some kv | CDestroy x => In x (w_known w) | _ => True end.
Definition query_ok (w : world) (kv done : kvs) (acc : option (list nat)) : Prop :=
  match acc with None => done = [] | Some l => forall x, In x l -> exists kv', nth_error (w_made w) x = Some kv' /\ length kv' = length kv /\ incl done kv' end.
Definition for_all (w : world) (kv : kvs) (x : nat) : Prop := nth_error (w_made w) x = Some kv.

Definition tinv (w : world) (i : nat) (c : call) (kv : kvs) (p : pc) : Prop :=
  match p with
  | PQuery todo acc => exists don, kv = don ++ todo /\ query_ok w kv don acc
  | PLook xs => forall x, In x xs -> for_all w kv x
  | PLookUp x xs => forall y, In y (x :: xs) -> for_all w kv y
  | PPin todo nodes => exists don, kv = don ++ todo /\ Forall2 (cur w) don nodes
  | PLock todo locked acc => Forall2 (cur w) kv (locked ++ todo) /\ Forall (owned w i) locked /\ acc_ok w (length kv) locked acc /\ wide w (length kv) locked
  | PFound locked x => Forall2 (cur w) kv locked /\ Forall (owned w i) locked /\ for_all w kv x /\ (forall a, In a locked -> has w a (length kv) x)
  | PCall locked x => Forall2 (cur w) kv locked /\ Forall (owned w i) locked /\ for_all w kv x /\ (forall a, In a locked -> has w a (length kv) x) /\
      w_items w x = None /\ ~ In x (w_known w)
  | PUnlock todo r => exists don, exists ps, kv = don ++ ps /\ Forall2 (cur w) ps todo /\ Forall (owned w i) todo
  | DStart | DLookUp => exists b x, c = CDeleteId b x
  | DFind todo nodes => exists don, kv = don ++ todo /\ length nodes <= length don /\ (length nodes = length don -> Forall2 (for_ w) don nodes)
  | DLock todo locked acc => Forall2 (for_ w) kv (locked ++ todo) /\ Forall (owned w i) locked /\ acc_ok w (length kv) locked acc /\ wide w (length kv) locked
  | DItem locked x => Forall2 (for_ w) kv locked /\ Forall (owned w i) locked /\ for_all w kv x /\ (forall a, In a locked -> has w a (length kv) x)
  | DUnlock todo r clean => NoDup todo /\ Forall (owned w i) todo
  | DClean _ _ => True
  | YMark => exists x, c = CDestroy x
  | YFind => exists x, c = CDestroy x /\ w_dying w x = true /\ ~ In x (w_held w)
  | YAsk kv' => exists x, c = CDestroy x /\ w_dying w x = true /\ In x (w_held w) /\ w_items w x = Some kv' /\ (forall q, In q kv' -> reg w q x)
  | YDel kv' todo => exists x don, c = CDestroy x /\ w_dying w x = true /\ In x (w_held w) /\ w_items w x = Some kv' /\ Permutation kv' (don ++ todo) /\
      (forall q, In q todo -> reg w q x) /\ (forall q, In q don -> ~ reg w q x)
  | YClear r => exists x, c = CDestroy x /\ w_dying w x = true /\ ~ In x (w_held w)
  | PDone _ => True
  end.

(** What a step of goroutine j leaves to the others, except for the ids that are its own *)
Record frame (j : nat) (own : nat -> Prop) (w w' : world) : Prop := {
  f_made : forall x kv, nth_error (w_made w) x = Some kv -> nth_error (w_made w') x = Some kv;
  f_node : forall i a nd, i <> j -> nd_lock nd = Some i -> (node_at w a nd <-> node_at w' a nd);
  f_for : forall p a, for_ w p a -> for_ w' p a;
  f_index : forall p a, w_index w p = Some a -> creat w a <> 0 -> w_index w' p = Some a;
  f_known : forall x, In x (w_known w) -> In x (w_known w');
  f_none : forall x, x < length (w_made w) -> ~ own x -> ~ In x (w_known w) -> w_items w x = None -> ~ In x (w_known w') /\ w_items w' x = None;
  f_dying : forall x, ~ own x -> w_dying w x = true -> w_dying w' x = true;
  f_held : forall x, ~ own x -> w_dying w x = true -> (In x (w_held w) <-> In x (w_held w'));
  f_items : forall x, ~ own x -> In x (w_held w) -> w_items w' x = w_items w x;
  f_reg : forall x q, ~ own x -> In x (w_held w) -> (reg w q x <-> reg w' q x) }.

Lemma frame_refl j own w : frame j own w w.
Proof. constructor; tauto. Qed.

(** The part of a frame that is about the nodes *)
Lemma for_touch w a nd nd' p b : node_at w a nd -> nd_pair nd' = nd_pair nd -> for_ w p b -> for_ (with_node w a nd') p b.
Proof.
  intros N P (n & Nb & <-). destruct (Nat.eq_dec b a) as [->|NE].
  - exists nd'. split; [apply (with_node_at w a nd nd' a nd' N); auto|]. rewrite (node_fun _ _ _ _ Nb N). exact P.
  - exists n. split; [apply (with_node_at w a nd nd' b n N); auto|reflexivity].
Qed.
Lemma frame_touch j own w a nd nd' : node_at w a nd -> nd_lock nd = None \/ nd_lock nd = Some j -> nd_lock nd' = None \/ nd_lock nd' = Some j ->
  nd_pair nd' = nd_pair nd -> (forall k, nth k (nd_ids nd') [] = nth k (nd_ids nd) []) -> frame j own w (with_node w a nd').
Proof.
  intros N L L' P I. constructor; cbn [with_node w_index w_items w_dying w_made w_held w_known]; auto.
  - intros i b n Ni Lk. rewrite (with_node_at w a nd nd' b n N). split.
    + intros Nb. right. split; [|exact Nb]. intros ->. rewrite (node_fun _ _ _ _ N Nb) in L. destruct L; congruence.
    + intros [[-> ->] | [_ Nb]]; [destruct L'; congruence|exact Nb].
  - intros p b. apply (for_touch w a nd nd' p b N P).
  - tauto.
  - intros x q _ _. symmetry. apply (touch_reg w a nd nd' q x N I).
Qed.
Lemma frame_pin_new j own w p : w_index w p = None -> frame j own w (with_index (with_heap w (w_heap w ++ [mkNode p [] 1 None])) p (Some (length (w_heap w)))).
Proof.
  intros E. constructor; cbn [with_index with_heap w_index w_items w_dying w_made w_held w_known]; auto.
  - intros i b n Ni Lk. rewrite (pin_new_at w p b n E). split; [auto|]. intros [H | [_ ->]]; [exact H|discriminate].
  - intros q b (n & Nb & <-). exists n. split; [apply pin_new_at; auto|reflexivity].
  - intros q b E' _. rewrite set_index_other; [exact E'|congruence].
  - tauto.
  - intros x q _ _. symmetry. apply pin_new_reg. exact E.
Qed.
Lemma owned_lock w j a l : Forall (owned w j) l -> In a l -> exists nd, node_at w a nd /\ nd_lock nd = Some j.
Proof. intros F I. rewrite Forall_forall in F. exact (F a I). Qed.
Lemma frame_add j own w kv l : ginv w -> kv_ok kv -> Forall2 (cur w) kv l -> wide w (length kv) l -> Forall (owned w j) l ->
  frame j own w (add_world w kv l).
Proof.
  intros G KV C W O. constructor; try (cbn [add_world with_heap with_id w_index w_items w_dying w_held w_known]; tauto).
  - intros x kv' M. apply made_add. exact M.
  - intros i b n Ni Lk. split.
    + intros Nb. pose proof (at_add w G kv l KV C b n Nb) as H. destruct (in_dec Nat.eq_dec b l) as [I|_]; [|exact H]. destruct (owned_lock w j b l O I) as (n' & N' & L'). rewrite (node_fun _ _ _ _ Nb N') in Lk. congruence.
    + intros Nb. destruct (add_at w G kv l KV C b n Nb) as (n0 & N0 & _ & _ & LK & [[-> _] | [I ->]]); [exact N0|]. destruct (owned_lock w j b l O I) as (n' & N' & L'). rewrite (node_fun _ _ _ _ N0 N') in *. congruence.
  - intros p a (n & Nb & <-). eexists. split; [apply (at_add w G kv l KV C a n Nb)|]. destruct (in_dec Nat.eq_dec a l); reflexivity.
  - intros x q _ H. destruct (g_held w G x H) as [_ NI]. destruct (w_items w x) as [kv'|] eqn:E; [|congruence]. destruct (g_items w G x kv' E) as [M _]. apply nth_lt in M. split.
    + apply reg_add; assumption.
    + intros R. apply (add_reg w G kv l KV C W q x R M).
Qed.
Lemma frame_created j (own : nat -> Prop) w x kv : own x -> frame j own w (with_known (with_item w x (Some kv)) x).
Proof.
  intros O. constructor; cbn [with_known with_item w_index w_items w_dying w_made w_held w_known]; auto; try (unfold reg, has, hask, node_at, for_; cbn; tauto).
  - intros y _ NO K E. assert (y <> x) by congruence. rewrite set_item_other by assumption. split; [|exact E]. intros [<- | H']; congruence.
  - intros y NO H. apply set_item_other. congruence.
Qed.
Lemma frame_gone j own w x : ~ In x (w_held w) -> frame j own w (with_item w x None).
Proof.
  intros O. constructor; cbn [with_item w_index w_items w_dying w_made w_held w_known]; auto; try (unfold reg, has, hask, node_at, for_; cbn; tauto).
  - intros y _ NO K E. split; [exact K|]. destruct (Nat.eq_dec y x) as [->|N]; [apply set_item_same|rewrite set_item_other by exact N; exact E].
  - intros y NO H. apply set_item_other. congruence.
Qed.
Lemma frame_cut j (own : nat -> Prop) w n x l : NoDup l -> (forall a nd, In a l -> node_at w a nd -> nd_lock nd = None \/ nd_lock nd = Some j) -> own x \/ ~ In x (w_held w) -> frame j own w (cut_world w n x l).
Proof.
  intros ND O OW. constructor; try (cbn [cut_world with_heap w_index w_items w_dying w_made w_held w_known]; tauto).
  - intros i b nd Ni Lk. split.
    + intros Nb. pose proof (at_cut w n x l b nd ND Nb) as H. destruct (in_dec Nat.eq_dec b l) as [I|_]; [|exact H]. destruct (O b nd I Nb); congruence.
    + intros Nb. destruct (cut_at w n x l b nd ND Nb) as (n0 & N0 & _ & _ & LK & [-> | [I ->]]); [exact N0|]. destruct (O b n0 I N0); congruence.
  - intros p a (nd & Nb & <-). eexists. split; [apply (at_cut w n x l a nd ND Nb)|]. destruct (in_dec Nat.eq_dec a l); reflexivity.
  - intros y q NO H. split; [|apply (cut_reg w n x l q y ND)]. intros R. apply (reg_cut w n x l q y ND R). destruct OW; congruence.
Qed.
Lemma frame_drop j own w p a nd : w_index w p = Some a -> node_at w a nd -> nd_ids nd = [] -> nd_creating nd = 0 -> frame j own w (with_index w p None).
Proof.
  intros E N EI EC. constructor; cbn [with_index w_index w_items w_dying w_made w_held w_known]; auto; try tauto.
  - intros q b E' NC. destruct (pair_eqb_spec q p) as [->|NE]; [|rewrite set_index_other by exact NE; exact E'].
    exfalso. apply NC. unfold creat. rewrite E in E'. injection E' as <-. unfold node_at in N. rewrite N. exact EC.
  - intros x q _ _. symmetry. apply (drop_reg w p a nd q x E N EI).
Qed.
Lemma frame_mark j own w x : frame j own w (with_dying w x true).
Proof.
  constructor; cbn [with_dying w_index w_items w_dying w_made w_held w_known]; auto; try (unfold reg, has, hask, node_at, for_; cbn; tauto); try tauto.
  intros y _ D. destruct (Nat.eq_dec y x) as [->|N]; [apply set_item_same|rewrite set_item_other by exact N; exact D].
Qed.
Lemma frame_unmark j (own : nat -> Prop) w x : own x -> frame j own w (with_dying w x false).
Proof.
  intros O. constructor; cbn [with_dying w_index w_items w_dying w_made w_held w_known]; auto; try (unfold reg, has, hask, node_at, for_; cbn; tauto); try tauto.
  intros y NO D. rewrite set_item_other; [exact D|congruence].
Qed.
Lemma frame_hold j (own : nat -> Prop) w x : own x -> frame j own w (with_held w (x :: w_held w)).
Proof.
  intros O. constructor; cbn [with_held w_index w_items w_dying w_made w_held w_known]; auto; try (unfold reg, has, hask, node_at, for_; cbn; tauto).
  intros y NO _. split; [right; assumption|]. intros [<- | H]; [contradiction|exact H].
Qed.
Lemma frame_release j (own : nat -> Prop) w x : own x -> frame j own w (release w x).
Proof.
  intros O. constructor; cbn [release with_held w_index w_items w_dying w_made w_known]; auto; try (unfold reg, has, hask, node_at, for_; cbn; tauto).
  intros y NO _. change (In y (w_held w) <-> In y (w_held (release w x))). rewrite In_release. split; [|tauto]. intros H. split; [exact H|congruence].
Qed.
Lemma frame_end j (own : nat -> Prop) w x : own x -> frame j own w (release (with_item w x None) x).
Proof.
  intros O. constructor; cbn [release with_held with_item w_index w_items w_dying w_made w_known]; auto; try (unfold reg, has, hask, node_at, for_; cbn; tauto).
  - intros y _ NO K E. split; [exact K|]. rewrite set_item_other by congruence. exact E.
  - intros y NO _. change (In y (w_held w) <-> In y (w_held (release w x))). rewrite In_release. split; [|tauto]. intros H. split; [exact H|congruence].
  - intros y NO H. apply set_item_other. congruence.
Qed.
Lemma frame_trans j own w w1 w2 : (forall x, In x (w_held w) -> w_dying w x = true) -> (forall a, creat w1 a = creat w a) -> length (w_made w) <= length (w_made w1) ->
  frame j own w w1 -> frame j own w1 w2 -> frame j own w w2.
Proof.
  intros HD C L F F'. destruct F as [a1 a2 a3 a4 a5 a6 a7 a8 a9 a10], F' as [b1 b2 b3 b4 b5 b6 b7 b8 b9 b10]. constructor.
  - intros x kv H. apply b1, a1, H.
  - intros i a nd Ni Lk. rewrite (a2 i a nd Ni Lk). apply (b2 i a nd Ni Lk).
  - intros p a H. apply b3, a3, H.
  - intros p a E NC. apply b4; [apply (a4 p a E NC)|rewrite C; exact NC].
  - auto.
  - intros x Lx NO K E. destruct (a6 x Lx NO K E) as [K' E']. apply b6; auto. lia.
  - auto.
  - intros x NO D. rewrite (a8 x NO D). apply (b8 x NO (a7 x NO D)).
  - intros x NO H. rewrite <- (a9 x NO H). apply b9; [exact NO|]. apply (a8 x NO (HD x H)). exact H.
  - intros x q NO H. rewrite (a10 x q NO H). apply (b10 x q NO). apply (a8 x NO (HD x H)). exact H.
Qed.

(** *** The others' invariants *)
Lemma Forall2_impl {A B} (P Q : A -> B -> Prop) l m : (forall a b, In b m -> P a b -> Q a b) -> Forall2 P l m -> Forall2 Q l m.
Proof. intros H F. induction F; constructor; [apply H; cbn; auto|apply IHF; intros; apply H; cbn; auto]. Qed.
Section Other.
  Variables (j i : nat) (own : nat -> Prop) (w w' : world).
  Hypothesis F : frame j own w w'.
  Hypothesis NE : i <> j.
  Lemma owned_frame a : owned w i a -> owned w' i a.
  Proof. intros (nd & N & L). exists nd. split; [apply (f_node _ _ _ _ F i a nd NE L), N|exact L]. Qed.
  Lemma Owned_frame l : Forall (owned w i) l -> Forall (owned w' i) l.
  Proof. intros H. eapply Forall_impl; [|exact H]. intros a. apply owned_frame. Qed.
  Lemma hask_frame a k x : owned w i a -> (hask w a k x <-> hask w' a k x).
  Proof.
    intros (nd & N & L). pose proof (proj1 (f_node _ _ _ _ F i a nd NE L) N) as N'. unfold hask. split; intros (nd0 & N0 & I); [exists nd; rewrite (node_fun _ _ _ _ N N0)|exists nd; rewrite (node_fun _ _ _ _ N' N0)]; (split; [|exact I]).
    - rewrite <- (node_fun _ _ _ _ N N0). exact N'.
    - rewrite <- (node_fun _ _ _ _ N' N0). exact N.
  Qed.
  Lemma has_all_frame n x l : Forall (owned w i) l -> ((forall a, In a l -> has w a n x) <-> (forall a, In a l -> has w' a n x)).
  Proof. intros O. rewrite Forall_forall in O. split; intros H a I; [apply (proj1 (hask_frame a (n - 1) x (O a I)))|apply (proj2 (hask_frame a (n - 1) x (O a I)))]; apply H, I. Qed.
  Lemma acc_frame n l acc : Forall (owned w i) l -> acc_ok w n l acc -> acc_ok w' n l acc.
  Proof. intros O. destruct acc as [s|]; cbn; [|auto]. intros (NN & ND & H). split; [exact NN|split; [exact ND|]]. intros x. rewrite H. apply has_all_frame, O. Qed.
  Lemma wide_frame n l : Forall (owned w i) l -> wide w n l -> wide w' n l.
  Proof.
    intros O W a nd I N. rewrite Forall_forall in O. destruct (O a I) as (nd0 & N0 & L). pose proof (proj1 (f_node _ _ _ _ F i a nd0 NE L) N0) as N'. rewrite (node_fun _ _ _ _ N N'). apply (W a nd0 I N0).
  Qed.
  Lemma cur_frame l m : (forall a, In a m -> creat w a <> 0) -> Forall2 (cur w) l m -> Forall2 (cur w') l m.
  Proof. intros C. apply Forall2_impl. intros p a I E. apply (f_index _ _ _ _ F p a E). auto. Qed.
  Lemma for_frame l m : Forall2 (for_ w) l m -> Forall2 (for_ w') l m.
  Proof. apply Forall2_impl. intros p a _. apply (f_for _ _ _ _ F). Qed.
  Lemma all_frame kv x : for_all w kv x -> for_all w' kv x.
  Proof. apply (f_made _ _ _ _ F). Qed.
  Lemma tinv_frame c kv p : (forall a, In a (pins p) -> creat w a <> 0) -> (forall x, mine c p x -> ~ own x) -> tinv w i c kv p -> tinv w' i c kv p.
  Proof.
    intros P M. destruct p; cbn [tinv pins] in *.
    - intros (don & E & Q). exists don. split; [exact E|]. destruct acc as [l|]; cbn in *; [|exact Q]. intros x I. destruct (Q x I) as (kv' & H & L & S). exists kv'. split; [apply (f_made _ _ _ _ F), H|auto].
    - intros H x I. apply all_frame; auto.
    - intros H y I. apply all_frame; auto.
    - intros (don & E & C). exists don. split; [exact E|]. apply cur_frame; assumption.
    - intros (C & O & A & W). split; [apply cur_frame; assumption|]. split; [apply Owned_frame, O|]. split; [apply acc_frame; assumption|apply wide_frame; assumption].
    - intros (C & O & A & H). split; [apply cur_frame; assumption|]. split; [apply Owned_frame, O|]. split; [apply all_frame, A|]. apply (has_all_frame _ x locked O), H.
    - intros (C & O & A & H & E & K). split; [apply cur_frame; assumption|]. split; [apply Owned_frame, O|]. split; [apply all_frame, A|]. split; [apply (has_all_frame _ x locked O), H|].
      destruct (f_none _ _ _ _ F x) as [K' E']; auto; [eapply nth_lt; exact A|]. apply M. left. eauto.
    - intros (don & ps & E & C & O). exists don, ps. split; [exact E|]. split; [apply cur_frame; assumption|apply Owned_frame, O].
    - auto.
    - auto.
    - intros (don & E & L & H). exists don. split; [exact E|]. split; [exact L|]. intros X. apply for_frame; auto.
    - intros (C & O & A & W). split; [apply for_frame; assumption|]. split; [apply Owned_frame, O|]. split; [apply acc_frame; assumption|apply wide_frame; assumption].
    - intros (C & O & A & H). split; [apply for_frame; assumption|]. split; [apply Owned_frame, O|]. split; [apply all_frame, A|]. apply (has_all_frame _ x locked O), H.
    - intros (ND & O). split; [exact ND|apply Owned_frame, O].
    - auto.
    - auto.
    - intros (x & E & D & H). assert (NO : ~ own x) by (apply M; right; cbn; auto). exists x. split; [exact E|]. split; [apply (f_dying _ _ _ _ F); assumption|]. rewrite <- (f_held _ _ _ _ F x NO D). exact H.
    - intros (x & E & D & H & I & R). assert (NO : ~ own x) by (apply M; right; cbn; auto). exists x. split; [exact E|]. split; [apply (f_dying _ _ _ _ F); assumption|]. rewrite <- (f_held _ _ _ _ F x NO D). split; [exact H|].
      rewrite (f_items _ _ _ _ F x NO H). split; [exact I|]. intros q Q. apply (f_reg _ _ _ _ F x q NO H), R, Q.
    - intros (x & don & E & D & H & I & PE & R & R'). assert (NO : ~ own x) by (apply M; right; cbn; auto). exists x, don. split; [exact E|]. split; [apply (f_dying _ _ _ _ F); assumption|]. rewrite <- (f_held _ _ _ _ F x NO D). split; [exact H|].
      rewrite (f_items _ _ _ _ F x NO H). split; [exact I|]. split; [exact PE|]. split; intros q Q; [apply (f_reg _ _ _ _ F x q NO H), R, Q|]. rewrite <- (f_reg _ _ _ _ F x q NO H). apply R', Q.
    - intros (x & E & D & H). assert (NO : ~ own x) by (apply M; right; cbn; auto). exists x. split; [exact E|]. split; [apply (f_dying _ _ _ _ F); assumption|]. rewrite <- (f_held _ _ _ _ F x NO D). exact H.
    - auto.
  Qed.
  Lemma carg_frame c kv : carg w c kv -> carg w' c kv.
  Proof. destruct c; cbn; auto; [intros [H1 H2]; split; [apply (f_known _ _ _ _ F), H1|apply (f_made _ _ _ _ F), H2]|apply (f_known _ _ _ _ F)]. Qed.
End Other.
