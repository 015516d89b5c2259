(** What a tree with unfinished calls inside stands for: the tree it becomes when those calls finish without
    interference ([fl]); the invariant of every node. *)
From Coq Require Import Sorted Permutation ZifyBool ZifyNat.
From Verif Require Import Datatypes SpecValues DatatypesProofs BTree SpecBTree BTreeProofs BTreeFind BTreeSync BTreeSyncSeq.
Local Open Scope nat_scope.

(** A subtree after its unfinished calls: a subtree; a split of call [c] for the parent; an underfull subtree that
    call [c] reports to the parent; a panic *)
Inductive res (V : Type) :=
| RPlain (t : node V)
| RSplit (c : nat) (p : node V)
| RUnder (c : nat) (t : node V)
| RBad.
Arguments RPlain {V}. Arguments RSplit {V}. Arguments RUnder {V}. Arguments RBad {V}.

Section Inv.
  Context {V : Type}.
  Variable n : nat.
  Variable ops : nat -> cop V.
  Notation node := (node V).
  Notation entry := (entry V).
  Notation atree := (atree V).
  Notation res := (res V).

  Definition pl (r : res) : node := match r with RPlain t => t | RSplit _ p => p | RUnder _ t => t | RBad => Node [] [] end.
  Definition tag (r : res) : option nat := match r with RPlain _ => None | RSplit c _ => Some c | RUnder c _ => Some c | RBad => Some 0 end.
  Definition plain (r : res) : Prop := match r with RPlain _ => True | _ => False end.

  Definition over (c : nat) (vs : list entry) (ks : list node) : res :=
    if Nat.ltb (maxValues n) (length vs) then
      match (match ks with [] => splitLeaf n vs | _ => splitNode n vs ks end) with Some p => RSplit c p | None => RBad end
    else RPlain (Node vs ks).
  Definition under (c : nat) (r : option (node * bool)) : res :=
    match r with Some (t, true) => RUnder c t | Some (t, false) => RPlain t | None => RBad end.
  (** The whole operation of call [c] on a subtree *)
  Definition flop (c : nat) (t : node) : res :=
    match ops c with
    | KCreate k v | KCreateOrFind k v =>
        match create n t k (Some v) with CExists _ => RPlain t | CPanic => RBad | CSame t' => RPlain t' | CSplit p => RSplit c p end
    | KDelete k can => match remove n t k can with DPanic => RBad | DRes t' u _ => under c (Some (t', u)) end
    | KFind _ => RBad
    end.
  Definition answer (c : nat) (t : node) : out V :=
    match ops c with
    | KCreate k v | KCreateOrFind k v => match create n t k (Some v) with CExists v0 => OExists v0 | _ => OCreated end
    | KDelete k can => match remove n t k can with DRes _ _ a => OAsked a | DPanic => OAsked None end
    | KFind _ => ORead None
    end.

  Definition flm (m : mark) (vs : list entry) (Rs : list res) : res :=
    match m with
    | MFree => RPlain (Node vs (map pl Rs))
    | MAt c => flop c (Node vs (map pl Rs))
    | MIn c i b =>
        match nth_error Rs i with
        | Some (RPlain _) => RPlain (Node vs (map pl Rs))
        | Some (RSplit _ p) =>
            match insertNode vs (map pl Rs) p with Some (vs', ks') => over c vs' ks' | None => RBad end
        | Some (RUnder _ _) => under c (rebalance n vs (map pl Rs) b)
        | _ => RBad
        end
    | MOver c => over c vs (map pl Rs)
    | MUnder c => RUnder c (Node vs (map pl Rs))
    end.
  Fixpoint fl (t : atree) : res := match t with ANode m _ vs ks => flm m vs (map fl ks) end.
  Definition P (t : atree) : node := pl (fl t).

  (** The lookup of one key *)
  Fixpoint get (t : node) (k : EV) : option V :=
    match t with
    | Node vs [] => option_map snd (leaf_match vs k)
    | Node vs ks =>
        match found_at vs (search vs k) k with
        | Some (_, v) => Some v
        | None => match on_nth (fun c => get c k) ks (search vs k) with Some r => r | None => None end
        end
    end.

  (** A good subtree; [rt]: it is the root *)
  Definition okn (rt : bool) (h : nat) (t : node) : Prop :=
    balanced n h t /\ length (vals_of t) <= n /\
    (if rt then 0 < h -> 1 <= length (vals_of t) else n / 2 <= length (vals_of t)) /\
    sorted (flat t) /\ goods (flat t).
  Definition okres (rt : bool) (h : nat) (r : res) : Prop :=
    match r with
    | RPlain t => okn rt h t
    | RSplit _ p => split_ok n h p /\ sorted (flat p) /\ goods (flat p)
    | RUnder _ t => balanced n h t /\ length (vals_of t) <= n /\ (rt = false -> S (length (vals_of t)) = n / 2) /\
                    sorted (flat t) /\ goods (flat t)
    | RBad => False
    end.

  Variable log : nat -> out V -> Prop.   (* what has been decided *)

  Definition nok (rt : bool) (h : nat) (m : mark) (rs : list nat) (vs : list entry) (Rs : list res) : Prop :=
    match m with
    | MFree => Forall plain Rs /\
               (forall c, In c rs -> exists k, rkey ops c = Some k /\ log c (ORead (get (Node vs (map pl Rs)) k)))
    | MAt c => rs = [] /\ Forall plain Rs /\ okn rt h (Node vs (map pl Rs)) /\ wkey ops c <> None /\
               log c (answer c (Node vs (map pl Rs)))
    | MIn c i b =>
        rs = [] /\ i < length Rs /\
        (forall j r, nth_error Rs j = Some r -> plain r \/ (j = i /\ tag r = Some c)) /\
        (forall d x xs ks, nth_error Rs i = Some (RSplit d (Node (x :: xs) ks)) -> insert_index vs (fst x) = i /\ stores ops c <> None) /\
        (forall d t, nth_error Rs i = Some (RUnder d t) -> b = i /\ stores ops c = None) /\
        wkey ops c <> None /\ length vs <= n
    | MOver c => rs = [] /\ Forall plain Rs /\ length vs = S n
    | MUnder c => rs = [] /\ Forall plain Rs
    end.

  Fixpoint inv (rt : bool) (h : nat) (t : atree) : Prop :=
    match t with
    | ANode m rs vs ks =>
        okres rt h (fl (ANode m rs vs ks)) /\ nok rt h m rs vs (map fl ks) /\
        match h with O => ks = [] | S h' => Forall (inv false h') ks end
    end.

  Lemma fl_eq m rs vs ks : fl (ANode m rs vs ks) = flm m vs (map fl ks).
  Proof. reflexivity. Qed.
  Lemma pl_fl ks : map pl (map fl ks) = map P ks.
  Proof. rewrite map_map. reflexivity. Qed.
  Lemma P_free rs vs ks : P (ANode MFree rs vs ks) = Node vs (map P ks).
  Proof. unfold P at 1. rewrite fl_eq. cbn [flm pl]. rewrite pl_fl. reflexivity. Qed.

  Lemma inv_eq rt h m rs vs ks : inv rt h (ANode m rs vs ks) <->
    okres rt h (flm m vs (map fl ks)) /\ nok rt h m rs vs (map fl ks) /\
    match h with O => ks = [] | S h' => Forall (inv false h') ks end.
  Proof. destruct h; reflexivity. Qed.

  Lemma inv_elim rt h m rs vs ks : inv rt h (ANode m rs vs ks) ->
    okres rt h (flm m vs (map fl ks)) /\ nok rt h m rs vs (map fl ks) /\
    match h with O => ks = [] | S h' => Forall (inv false h') ks end.
  Proof. apply inv_eq. Qed.
  Lemma inv_intro rt h m rs vs ks :
    okres rt h (flm m vs (map fl ks)) -> nok rt h m rs vs (map fl ks) ->
    match h with O => ks = [] | S h' => Forall (inv false h') ks end -> inv rt h (ANode m rs vs ks).
  Proof. intros H1 H2 H3. apply inv_eq. auto. Qed.

  Lemma plain_inv r : plain r -> r = RPlain (pl r).
  Proof. destruct r; cbn; tauto. Qed.
  Lemma afree_inv (t : atree) : afree t = true -> exists vs ks, t = ANode MFree [] vs ks.
  Proof. destruct t as [m rs vs ks]. destruct m; try discriminate. destruct rs; [|discriminate]. eauto. Qed.

  (** ** Splitting *)
  Lemma asplit_over c cv ck p L R :
    length cv = S n -> asplit n cv ck = Some (p, L, R) ->
    over c cv (map P ck) = RSplit c (Node [p] [P L; P R]).
  Proof.
    unfold asplit, over. intros L1 H. replace (Nat.ltb (maxValues n) (length cv)) with true by (symmetry; apply Nat.ltb_lt; unfold maxValues; lia).
    destruct (nth_error cv (maxValues n / 2)) as [q|] eqn:E; [|discriminate]. injection H as <- <- <-.
    rewrite !P_free. destruct ck as [|c0 ck].
    - cbn [map]. unfold splitLeaf. rewrite E. rewrite firstn_nil, skipn_nil. reflexivity.
    - cbn [map]. unfold splitNode. rewrite E. change (P c0 :: map P ck) with (map P (c0 :: ck)). rewrite firstn_map, skipn_map. reflexivity.
  Qed.

  (** ** Rebalancing *)
  Definition shape (t : atree) : Prop := P t = Node (avals t) (map P (akids t)).
  Lemma shape_free rs vs ks : shape (ANode MFree rs vs ks).
  Proof. apply P_free. Qed.
  Lemma shape_under c rs vs ks : shape (ANode (MUnder c) rs vs ks).
  Proof. unfold shape, P at 1. rewrite fl_eq. cbn [flm pl avals akids]. rewrite pl_fl. reflexivity. Qed.
  Lemma map_set_nth {A B} (f : A -> B) i x l : map f (set_nth i x l) = set_nth i (f x) (map f l).
  Proof.
    unfold set_nth. rewrite map_app, firstn_map, skipn_map. f_equal. destruct (skipn i l); reflexivity.
  Qed.
  Lemma map_del_nth {A B} (f : A -> B) i l : map f (del_nth i l) = del_nth i (map f l).
  Proof. unfold del_nth. rewrite map_app, firstn_map, skipn_map. reflexivity. Qed.
  Lemma map_removelast {A B} (f : A -> B) l : map f (removelast l) = removelast (map f l).
  Proof. induction l as [|x [|y l] IH]; [reflexivity|reflexivity|]. cbn [removelast map] in *. rewrite IH. reflexivity. Qed.
  Lemma nth_error_map' {A B} (f : A -> B) l i : nth_error (map f l) i = option_map f (nth_error l i).
  Proof. revert i. induction l as [|x l IH]; intros [|i]; cbn; auto. Qed.

  Lemma rotateLeft_P vs ks i vs' ks' :
    (forall t, nth_error ks i = Some t -> shape t) -> (forall t, nth_error ks (S i) = Some t -> shape t) ->
    arotateLeft vs ks i = Some (vs', ks') -> rotateLeft vs (map P ks) i = Some (vs', map P ks').
  Proof.
    unfold arotateLeft, rotateLeft, guard. intros S1 S2 H. rewrite !nth_error_map'.
    destruct (nth_error ks i) as [[m1 r1 cv ck]|]; [|discriminate].
    destruct (nth_error ks (S i)) as [[m2 r2 [|r0 rv] rk]|]; try discriminate.
    destruct (nth_error vs i) as [v|]; [|discriminate].
    destruct (forallb (fun t => afree t) rk); [|discriminate]. injection H as <- <-.
    specialize (S1 _ eq_refl). specialize (S2 _ eq_refl). unfold shape in S1, S2. cbn [avals akids] in S1, S2.
    cbn [option_map]. rewrite S1, S2. rewrite !map_set_nth, !P_free. f_equal. f_equal. f_equal.
    - destruct rk; reflexivity.
    - f_equal. f_equal. destruct rk as [|rk0 rk]; [reflexivity|]. destruct ck as [|ck0 ck]; [reflexivity|].
      rewrite map_app. reflexivity.
  Qed.
  Lemma rotateRight_P vs ks i vs' ks' :
    (forall t, nth_error ks i = Some t -> shape t) -> (forall t, nth_error ks (i - 1) = Some t -> shape t) ->
    arotateRight vs ks i = Some (vs', ks') -> rotateRight vs (map P ks) i = Some (vs', map P ks').
  Proof.
    unfold arotateRight, rotateRight, guard. intros S1 S2 H. destruct i as [|j]; [discriminate|].
    replace (S j - 1) with j in S2 by lia. rewrite !nth_error_map'.
    destruct (nth_error ks (S j)) as [[m1 r1 cv ck]|]; [|discriminate].
    destruct (nth_error ks j) as [[m2 r2 lv lk]|]; try discriminate.
    destruct (nth_error vs j) as [v|]; [|discriminate].
    specialize (S1 _ eq_refl). specialize (S2 _ eq_refl). unfold shape in S1, S2. cbn [avals akids] in S1, S2.
    cbn [option_map]. rewrite S1, S2. destruct (rev lv) as [|g gs]; [discriminate|]. rewrite <- map_rev.
    destruct (rev lk) as [|gk gks]; [|destruct (afree gk); [|discriminate]]; injection H as <- <-;
      rewrite !map_set_nth, !P_free, map_removelast; reflexivity.
  Qed.
  Lemma mergeDown_P vs ks i vs' ks' :
    (forall t, nth_error ks i = Some t -> shape t) ->
    (forall t, nth_error ks (match i with O => 1 | S j => j end) = Some t -> shape t) ->
    amergeDown vs ks i = Some (vs', ks') -> mergeDown vs (map P ks) i = Some (vs', map P ks').
  Proof.
    unfold amergeDown, mergeDown, guard. intros S1 S2 H. set (j := match i with O => O | S j => j end) in *.
    assert (T1 : forall t, nth_error ks j = Some t -> shape t) by (unfold j; destruct i; auto).
    assert (T2 : forall t, nth_error ks (S j) = Some t -> shape t) by (unfold j; destruct i; auto).
    rewrite !nth_error_map'.
    destruct (nth_error ks j) as [[m1 r1 cv ck]|]; [|discriminate].
    destruct (nth_error ks (S j)) as [[m2 r2 rv rk]|]; try discriminate.
    destruct (nth_error vs j) as [v|]; [|discriminate].
    specialize (T1 _ eq_refl). specialize (T2 _ eq_refl). unfold shape in T1, T2. cbn [avals akids] in T1, T2.
    cbn [option_map]. rewrite T1, T2. destruct (forallb _ rk && _); [|discriminate]. injection H as <- <-.
    rewrite map_del_nth, map_set_nth, P_free, map_app. reflexivity.
  Qed.

  Lemma rebalance_P vs ks i vs' ks' u :
    (forall t, nth_error ks i = Some t -> shape t) ->
    arebalance n vs ks i = Some (vs', ks', u) -> rebalance n vs (map P ks) i = Some (Node vs' (map P ks'), u).
  Proof.
    intros Si H. unfold arebalance in H. unfold rebalance. rewrite !nth_error_map', map_length.
    assert (G : forall (t : atree) x, guard (afree t) (Some (Nat.ltb (minValues n) (length (avals t)))) = Some x ->
                  shape t /\ Nat.ltb (minValues n) (nvals (P t)) = x).
    { intros t x E. unfold guard in E. destruct (afree t) eqn:F; [|discriminate]. apply afree_inv in F as (a & b & ->).
      split; [apply shape_free|]. injection E as <-. rewrite P_free. reflexivity. }
    assert (ML : (forall t, nth_error ks (match i with O => 1 | S j => j end) = Some t -> shape t) ->
      match amergeDown vs ks i with Some (vs', ks') => Some (vs', ks', Nat.ltb (length vs') (minValues n)) | None => None end = Some (vs', ks', u) ->
      match mergeDown vs (map P ks) i with Some (vs', ks') => Some (Node vs' ks', Nat.ltb (length vs') (minValues n)) | None => None end = Some (Node vs' (map P ks'), u)).
    { intros S2 E. destruct (amergeDown vs ks i) as [[a b]|] eqn:M; [|discriminate]. injection E as <- <- <-.
      apply mergeDown_P in M; auto. rewrite M. reflexivity. }
    assert (RL : (forall t, nth_error ks (S i) = Some t -> shape t) ->
      match arotateLeft vs ks i with Some (vs', ks') => Some (vs', ks', false) | None => None end = Some (vs', ks', u) ->
      match rotateLeft vs (map P ks) i with Some (vs', ks') => Some (Node vs' ks', false) | None => None end = Some (Node vs' (map P ks'), u)).
    { intros S2 E. destruct (arotateLeft vs ks i) as [[a b]|] eqn:M; [|discriminate]. injection E as <- <- <-.
      apply rotateLeft_P in M; auto. rewrite M. reflexivity. }
    assert (RR : (forall t, nth_error ks (i - 1) = Some t -> shape t) ->
      match arotateRight vs ks i with Some (vs', ks') => Some (vs', ks', false) | None => None end = Some (vs', ks', u) ->
      match rotateRight vs (map P ks) i with Some (vs', ks') => Some (Node vs' ks', false) | None => None end = Some (Node vs' (map P ks'), u)).
    { intros S2 E. destruct (arotateRight vs ks i) as [[a b]|] eqn:M; [|discriminate]. injection E as <- <- <-.
      apply rotateRight_P in M; auto. rewrite M. reflexivity. }
    destruct (Nat.eqb_spec i 0) as [->|N0].
    - destruct (nth_error ks 1) as [s|] eqn:E1; [|discriminate]. cbn [option_map].
      destruct (guard (afree s) _) as [x|] eqn:Gs; [|discriminate]. destruct (G _ _ Gs) as [Ss ->].
      destruct x; [apply RL|apply ML]; auto; intros t Ht; congruence.
    - assert (Ej : match i with O => 1 | S j => j end = i - 1) by (destruct i; lia). rewrite Ej in ML.
      destruct (Nat.eqb i (length ks - 1)).
      + destruct (nth_error ks (i - 1)) as [s|] eqn:E1; [|discriminate]. cbn [option_map].
        destruct (guard (afree s) _) as [x|] eqn:Gs; [|discriminate]. destruct (G _ _ Gs) as [Ss ->].
        destruct x; [apply RR|apply ML]; auto; intros t Ht; congruence.
      + replace (S i) with (i + 1) in RL by lia.
        destruct (nth_error ks (i + 1)) as [s|] eqn:E1; [|discriminate]. cbn [option_map].
        destruct (guard (afree s) _) as [x|] eqn:Gs; [|discriminate]. destruct (G _ _ Gs) as [Ss ->].
        destruct (nth_error ks (i - 1)) as [s2|] eqn:E2; [|destruct x; discriminate]. cbn [option_map].
        destruct (guard (afree s2) _) as [x2|] eqn:Gs2; [|destruct x; discriminate]. destruct (G _ _ Gs2) as [Ss2 ->].
        destruct x; [apply RL; auto; intros t Ht; congruence|].
        destruct x2; [apply RR|apply ML]; auto; intros t Ht; congruence.
  Qed.
End Inv.
