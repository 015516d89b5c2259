From Coq Require Import Sorted Permutation ZifyBool ZifyNat.
From Verif Require Import Datatypes DatatypesProofs Collections SpecCollections.
Local Open Scope nat_scope.

(** ** Combinations *)
Fixpoint nes {A} (s : list A) : list (list A) :=
  match s with [] => [] | x :: r => map (cons x) ([] :: nes r) ++ nes r end.

Definition okb (mn mx : Z) (c : list string) : bool :=
  Z.leb mn (Z.of_nat (length c)) && (Z.leb (Z.of_nat (length c)) mx || Z.eqb mx (-1)).

Lemma filter_none {A} (f : A -> bool) l : (forall x, In x l -> f x = false) -> filter f l = [].
Proof. induction l as [|x l IH]; cbn; intros H; [reflexivity|]. rewrite (H x) by auto. apply IH. auto. Qed.

Lemma groups_eq mn mx : forall suffix prefix,
  generateStringGroups mn mx suffix prefix = filter (okb mn mx) (map (app prefix) ([] :: nes suffix)).
Proof.
  assert (N : forall suffix, (forall r, length r < length suffix -> forall prefix,
      generateStringGroups mn mx r prefix = filter (okb mn mx) (map (app prefix) ([] :: nes r))) ->
    forall prefix, generateStringGroups mn mx suffix prefix = filter (okb mn mx) (map (app prefix) ([] :: nes suffix))).
  { intros suffix IH prefix.
    assert (L : forall s, length s <= length suffix ->
       (fix loop (s : list string) : list (list string) :=
         match s with
         | [] => []
         | x :: r => generateStringGroups mn mx r (prefix ++ [x]) ++ loop r
         end) s = filter (okb mn mx) (map (app prefix) (nes s))).
    { induction s as [|x r IHs]; intros Hl; [reflexivity|]. rewrite IH by (cbn in Hl; lia).
      rewrite IHs by (cbn in Hl; lia). cbn [nes]. rewrite map_app, filter_app. f_equal.
      rewrite map_map. f_equal. cbn [map]. rewrite app_nil_r. f_equal. apply map_ext. intros a. rewrite <- app_assoc. reflexivity. }
    specialize (L suffix (le_n _)).
    cbn [map filter]. rewrite app_nil_r. unfold okb at 1.
    destruct suffix as [|s0 suffix]; cbn [generateStringGroups] in *; rewrite ?L; cbv zeta.
    all: destruct (Z.ltb_spec (Z.of_nat (length prefix)) mn) as [H|H].
    all: destruct (Z.leb_spec mn (Z.of_nat (length prefix))) as [H1|H1]; try lia; cbn [andb]; try reflexivity.
    all: destruct (Z.leb_spec (Z.of_nat (length prefix)) mx) as [H2|H2]; cbn [orb]; try reflexivity.
    all: destruct (Z.eqb_spec mx (-1)) as [H3|H3]; try reflexivity.
    all: destruct (Z.ltb_spec mx (Z.of_nat (length prefix))) as [H4|H4]; try lia; cbn [andb negb]; try reflexivity.
    symmetry. apply filter_none. intros c Hc. apply in_map_iff in Hc as (d & <- & _). unfold okb.
    destruct (Z.eqb_spec mx (-1)) as [?|_]; [contradiction|]. rewrite orb_false_r. apply andb_false_iff. right. apply Z.leb_gt.
    rewrite app_length. lia. }
  intros suffix. remember (length suffix) as m eqn:E. assert (Hm : length suffix <= m) by lia. clear E. revert suffix Hm.
  induction m as [|m IH]; intros suffix Hm; apply N; intros r Hr; [lia|apply IH; lia].
Qed.

Lemma pairs_loop_eq mn mx k0 rest : pairs_loop mn mx k0 rest = filter (okb mn mx) (map (cons k0) (nes rest)).
Proof.
  induction rest as [|x r IH]; [reflexivity|]. cbn [pairs_loop nes]. rewrite groups_eq, IH, map_app, filter_app. f_equal.
  rewrite map_map. reflexivity.
Qed.

Lemma pairs_perm mn mx keys : Permutation (generateStringPairs mn mx keys) (filter (okb mn mx) (nes keys)).
Proof.
  induction keys as [|k0 rest IH]; [constructor|].
  assert (E1 : (if Z.leb mn 1 && (Z.leb 1 mx || Z.eqb mx (-1)) then [[k0]] else []) = filter (okb mn mx) [[k0]]).
  { unfold okb. cbn [filter length]. reflexivity. }
  destruct rest as [|x r].
  - cbn [generateStringPairs nes map app]. rewrite <- E1.
    destruct (Z.ltb_spec 1 mn), (Z.leb_spec mn 1), (Z.ltb_spec mx 1), (Z.leb_spec 1 mx), (Z.eqb_spec mx (-1)); cbn; try lia; constructor; constructor.
  - remember (x :: r) as rest.
    replace (generateStringPairs mn mx (k0 :: rest)) with
      ((if Z.leb mn 1 && (Z.leb 1 mx || Z.eqb mx (-1)) then [[k0]] else []) ++ generateStringPairs mn mx rest ++ pairs_loop mn mx k0 rest)
      by (rewrite Heqrest; reflexivity).
    rewrite E1, pairs_loop_eq, IH. cbn [nes]. rewrite filter_app. cbn [map]. change ([k0] :: map (cons k0) (nes rest)) with ([[k0]] ++ map (cons k0) (nes rest)).
    rewrite filter_app, <- app_assoc. apply Permutation_app_head, Permutation_app_comm.
Qed.

Lemma in_nes {A} (l c : list A) : In c (nes l) <-> c <> [] /\ subseq c l.
Proof.
  revert c. induction l as [|x l IH]; intros c.
  - cbn. split; [intros []|]. intros [H S]. inversion S; subst; contradiction.
  - cbn [nes]. rewrite in_app_iff, IH, in_map_iff. split.
    + intros [(d & <- & H)|[H1 H2]]; [split; [discriminate|]|split; [exact H1|constructor; exact H2]]. apply Sub_take.
      destruct H as [<-|H]; [constructor|]. apply IH in H. apply H.
    + intros [H S]. inversion S; subst; [contradiction| |auto]. left. exists c0. split; [reflexivity|].
      destruct c0 as [|y c0]; [left; reflexivity|right]. apply IH. split; [discriminate|assumption].
Qed.
Lemma subseq_incl {A} (c l : list A) x : subseq c l -> In x c -> In x l.
Proof. induction 1; cbn; intros; auto; [contradiction|]. destruct H0; auto. Qed.
Lemma nodup_app {A} (l1 l2 : list A) : NoDup l1 -> NoDup l2 -> (forall x, In x l1 -> ~ In x l2) -> NoDup (l1 ++ l2).
Proof.
  induction 1 as [|x l1 N ND IH]; cbn; auto. intros N2 H. constructor; [|apply IH; auto].
  rewrite in_app_iff. intros [C|C]; [auto|]. apply (H x); auto.
Qed.
Lemma nodup_nes {A} (l : list A) : NoDup l -> NoDup (nes l).
Proof.
  induction 1 as [|x l N ND IH]; [constructor|]. cbn [nes]. apply nodup_app.
  - apply FinFun.Injective_map_NoDup; [intros a b E; congruence|]. constructor; [|exact IH]. rewrite in_nes. intros [C _]. contradiction.
  - exact IH.
  - intros c Hc Hd. apply in_map_iff in Hc as (d & <- & _). apply in_nes in Hd as [_ S]. apply N. apply (subseq_incl _ _ x S). left. reflexivity.
Qed.
Lemma nodup_filter {A} (f : A -> bool) l : NoDup l -> NoDup (filter f l).
Proof. induction 1 as [|x l N ND IH]; cbn; [constructor|]. destruct (f x); auto. constructor; auto. rewrite filter_In. tauto. Qed.

(** ** Sorting *)
Definition ssort (l : list string) := StronglySorted (fun a b => str_ltb a b = true) l.
Lemma subseq_sorted c l : subseq c l -> ssort l -> ssort c.
Proof.
  induction 1 as [l|x c l S IH|x c l S IH]; intros H; [constructor| |].
  - inversion H as [|? ? S' F]; subst. constructor; [apply IH, S'|]. rewrite Forall_forall in *. intros y Hy. apply F. apply (subseq_incl c l); auto.
  - apply IH. inversion H; assumption.
Qed.
Lemma sort_strings_id l : ssort l -> sort_strings l = l.
Proof.
  induction 1 as [|x l S IH F]; [reflexivity|]. cbn [sort_strings fold_right]. fold (sort_strings l). rewrite IH.
  destruct l as [|y l]; [reflexivity|]. cbn. inversion F; subst. rewrite (str_ltb_asym x y); auto.
Qed.

Lemma lex_less_iff a : forall b, length a = length b -> lex_less a b = true <-> a = b \/ lex_before a b.
Proof.
  induction a as [|x a IH]; intros [|y b] L; try discriminate; cbn [lex_less].
  - split; auto.
  - destruct (str_ltb x y) eqn:E1; [split; [right; constructor; exact E1|reflexivity]|].
    destruct (str_ltb y x) eqn:E2.
    + split; [discriminate|]. intros [H|H]; [injection H as -> ->; rewrite str_ltb_irrefl in E2; discriminate|].
      inversion H; subst; [congruence|]. rewrite str_ltb_irrefl in E2. discriminate.
    + pose proof (str_ltb_total _ _ E1 E2) as ->. rewrite IH by (cbn in L; lia). split.
      * intros [->|H]; [auto|right; constructor 2; exact H].
      * intros [H|H]; [injection H as ->; auto|]. inversion H; subst; [congruence|auto].
Qed.
Lemma lex_total a : forall b, length a = length b -> a = b \/ lex_before a b \/ lex_before b a.
Proof.
  induction a as [|x a IH]; intros [|y b] L; try discriminate; auto.
  destruct (str_ltb x y) eqn:E1; [right; left; constructor; exact E1|].
  destruct (str_ltb y x) eqn:E2; [right; right; constructor; exact E2|].
  pose proof (str_ltb_total _ _ E1 E2) as ->. destruct (IH b ltac:(cbn in L; lia)) as [->|[H|H]]; [auto|right; left|right; right]; constructor 2; exact H.
Qed.
Lemma lex_trans a b c : lex_before a b -> lex_before b c -> lex_before a c.
Proof.
  intros H. revert c. induction H as [x y a b E|x a b H IH]; intros c H2; inversion H2; subst.
  - constructor. eapply str_ltb_trans; eauto.
  - constructor. exact E.
  - constructor. assumption.
  - constructor 2. apply IH. assumption.
Qed.
Lemma lex_irrefl a : ~ lex_before a a.
Proof. induction a as [|x a IH]; intros H; inversion H; subst; [rewrite str_ltb_irrefl in *; discriminate|contradiction]. Qed.
Lemma before_trans a b c : comes_before a b -> comes_before b c -> comes_before a c.
Proof. unfold comes_before. intros [H|[E H]] [H'|[E' H']]; [left; lia|left; lia|left; lia|right; split; [lia|eapply lex_trans; eauto]]. Qed.

Lemma perm_less_iff a b : ssort a -> ssort b -> perm_less a b = true <-> a = b \/ comes_before a b.
Proof.
  intros Sa Sb. unfold perm_less, comes_before. rewrite !sort_strings_id by assumption.
  destruct (Nat.ltb_spec (length a) (length b)); [split; auto|].
  destruct (Nat.eqb_spec (length a) (length b)) as [E|E].
  - rewrite lex_less_iff by exact E. split; [intros [H1|H1]; auto|]. intros [H1|[H1|[_ H1]]]; auto. lia.
  - split; [discriminate|]. intros [->|[H1|[H1 _]]]; lia.
Qed.
Lemma perm_less_false a b : ssort a -> ssort b -> perm_less a b = false -> comes_before b a.
Proof.
  intros Sa Sb H. unfold perm_less in H. unfold comes_before. rewrite !sort_strings_id in H by assumption.
  destruct (Nat.ltb_spec (length a) (length b)); [discriminate|].
  destruct (Nat.eqb_spec (length a) (length b)) as [E|E]; [|lia].
  right. split; [auto|]. destruct (lex_total a b E) as [->|[H1|H1]]; [| |exact H1].
  - exfalso. assert (lex_less b b = true) by (apply lex_less_iff; auto). congruence.
  - exfalso. assert (lex_less a b = true) by (apply lex_less_iff; auto). congruence.
Qed.

Lemma perm_insert_perm c l : Permutation (perm_insert c l) (c :: l).
Proof.
  induction l as [|d l IH]; cbn; [reflexivity|]. destruct (perm_less c d); [reflexivity|]. rewrite IH. apply perm_swap.
Qed.
Lemma perm_sort_perm l : Permutation (perm_sort l) l.
Proof. induction l as [|c l IH]; cbn; [reflexivity|]. rewrite perm_insert_perm. apply perm_skip, IH. Qed.
Lemma perm_insert_sorted c l : ssort c -> Forall ssort l -> ~ In c l -> StronglySorted comes_before l -> StronglySorted comes_before (perm_insert c l).
Proof.
  intros Sc F N S. induction S as [|d l S IH FD]; cbn; [repeat constructor|].
  apply Forall_cons_iff in F as [Sd F]. destruct (perm_less c d) eqn:E.
  - apply perm_less_iff in E; auto. destruct E as [->|E]; [exfalso; apply N; left; reflexivity|].
    constructor; [constructor; auto|]. constructor; [exact E|]. eapply Forall_impl; [|exact FD]. intros x Hx. eapply before_trans; eauto.
  - apply perm_less_false in E; auto. constructor; [apply IH; auto; intros C; apply N; right; exact C|].
    apply (Permutation_Forall (Permutation_sym (perm_insert_perm c l))). constructor; auto.
Qed.
Lemma perm_sort_sorted l : Forall ssort l -> NoDup l -> StronglySorted comes_before (perm_sort l).
Proof.
  induction l as [|c l IH]; cbn; intros F N; [constructor|]. apply Forall_cons_iff in F as [Sc F]. apply NoDup_cons_iff in N as [N1 N2].
  apply perm_insert_sorted; auto.
  - apply (Permutation_Forall (Permutation_sym (perm_sort_perm l))). exact F.
  - intros C. apply N1. apply (Permutation_in _ (perm_sort_perm l)). exact C.
Qed.

Lemma okb_size mn mx c : c <> [] -> okb mn mx c = true <-> size_within mn mx c.
Proof.
  intros Hc. unfold okb, size_within. rewrite andb_true_iff, orb_true_iff, !Z.leb_le, Z.eqb_eq. tauto.
Qed.

Lemma permutations_lemma keys mn mx :
  (GenerateStringPermutations keys mn mx = None <-> (mx <> -1 /\ mx < mn)%Z) /\
  (forall l, GenerateStringPermutations keys mn mx = Some l -> forall c, In c l <-> subseq c keys /\ size_within mn mx c) /\
  (forall l, GenerateStringPermutations keys mn mx = Some l -> NoDup keys -> NoDup l) /\
  (forall l, GenerateStringPermutations keys mn mx = Some l -> StronglySorted (fun a b => str_ltb a b = true) keys -> StronglySorted comes_before l).
Proof.
  unfold GenerateStringPermutations. split; [|split; [|split]].
  - destruct (Z.ltb_spec mx mn), (Z.eqb_spec mx (-1)); cbn; split; intros; try discriminate; try lia; try reflexivity.
  - intros l H c. destruct (Z.ltb mx mn && negb (Z.eqb mx (-1))); [discriminate|]. injection H as <-.
    assert (E : In c (perm_sort (generateStringPairs mn mx keys)) <-> In c (filter (okb mn mx) (nes keys))).
    { split; apply Permutation_in; [|symmetry]; (rewrite perm_sort_perm; apply pairs_perm). }
    rewrite E, filter_In, in_nes. split.
    + intros [[H1 H2] H3]. split; [exact H2|]. apply okb_size; auto.
    + intros [H1 H2]. split; [split; [apply H2|exact H1]|]. apply okb_size; [apply H2|exact H2].
  - intros l H N. destruct (Z.ltb mx mn && negb (Z.eqb mx (-1))); [discriminate|]. injection H as <-.
    apply (Permutation_NoDup (Permutation_sym (perm_sort_perm _))), (Permutation_NoDup (Permutation_sym (pairs_perm mn mx keys))), nodup_filter, nodup_nes, N.
  - intros l H S. destruct (Z.ltb mx mn && negb (Z.eqb mx (-1))); [discriminate|]. injection H as <-.
    assert (N : NoDup keys).
    { clear - S. induction S as [|x l S IH F]; constructor; auto. intros C. rewrite Forall_forall in F. specialize (F x C). rewrite str_ltb_irrefl in F. discriminate. }
    apply perm_sort_sorted.
    + apply (Permutation_Forall (Permutation_sym (pairs_perm mn mx keys))). apply Forall_forall. intros c Hc. apply filter_In in Hc as [Hc _].
      apply in_nes in Hc as [_ Hc]. exact (subseq_sorted c keys Hc S).
    + apply (Permutation_NoDup (Permutation_sym (pairs_perm mn mx keys))), nodup_filter, nodup_nes, N.
Qed.

(** *** The order for keys given in any order: by the sorted forms *)
Lemma str_insert_perm x l : Permutation (str_insert x l) (x :: l).
Proof. induction l as [|y l IH]; cbn; [reflexivity|]. destruct (str_ltb y x); [rewrite IH; apply perm_swap|reflexivity]. Qed.
Lemma sort_strings_perm l : Permutation (sort_strings l) l.
Proof. induction l as [|x l IH]; cbn; [reflexivity|]. fold (sort_strings l). rewrite str_insert_perm. apply perm_skip, IH. Qed.
Lemma str_insert_sorted x l : ~ In x l -> ssort l -> ssort (str_insert x l).
Proof.
  intros N S. induction S as [|y l S IH F]; cbn; [repeat constructor|]. destruct (str_ltb y x) eqn:E.
  - constructor; [apply IH; intros C; apply N; right; exact C|].
    apply (Permutation_Forall (Permutation_sym (str_insert_perm x l))). constructor; auto.
  - assert (str_ltb x y = true).
    { destruct (str_ltb x y) eqn:E'; [reflexivity|]. exfalso. apply N. left. symmetry. apply str_ltb_total; auto. }
    constructor; [constructor; auto|]. constructor; [assumption|]. eapply Forall_impl; [|exact F]. intros z Hz. eapply str_ltb_trans; eauto.
Qed.
Lemma sort_strings_sorted l : NoDup l -> ssort (sort_strings l).
Proof.
  induction 1 as [|x l N ND IH]; cbn; [constructor|]. fold (sort_strings l). apply str_insert_sorted; auto.
  intros C. apply N. apply (Permutation_in _ (sort_strings_perm l)). exact C.
Qed.
Lemma ssort_perm_eq a : forall b, Permutation a b -> ssort a -> ssort b -> a = b.
Proof.
  induction a as [|x a IH]; intros [|y b] P Sa Sb; [reflexivity|apply Permutation_nil in P; discriminate|symmetry in P; apply Permutation_nil in P; discriminate|].
  inversion Sa as [|? ? Sa' Fa]; inversion Sb as [|? ? Sb' Fb]; subst. rewrite Forall_forall in Fa, Fb.
  assert (x = y) as ->.
  { assert (Hx : In x (y :: b)) by (apply (Permutation_in _ P); left; reflexivity).
    assert (Hy : In y (x :: a)) by (apply (Permutation_in _ (Permutation_sym P)); left; reflexivity).
    destruct Hx as [Hx|Hx]; [auto|]. destruct Hy as [Hy|Hy]; [auto|].
    specialize (Fa _ Hy). specialize (Fb _ Hx). rewrite (str_ltb_asym _ _ Fa) in Fb. discriminate. }
  f_equal. apply IH; auto. eapply Permutation_cons_inv; eauto.
Qed.
Lemma subseq_perm_eq (l : list string) : NoDup l -> forall a b, subseq a l -> subseq b l -> Permutation a b -> a = b.
Proof.
  induction 1 as [|x l N ND IH]; intros a b Ha Hb P.
  - inversion Ha; inversion Hb; subst; reflexivity.
  - assert (NA : forall c, subseq c l -> ~ In x c) by (intros c Hc C; apply N; eapply subseq_incl; eauto).
    inversion Ha; inversion Hb; subst; try reflexivity.
    + apply Permutation_nil in P. discriminate.
    + apply Permutation_nil in P. exact (eq_sym P).
    + symmetry in P. apply Permutation_nil in P. discriminate.
    + f_equal. apply IH; auto. eapply Permutation_cons_inv; eauto.
    + exfalso. apply (NA b); auto. apply (Permutation_in _ P). left; reflexivity.
    + symmetry in P. apply Permutation_nil in P. exact P.
    + exfalso. apply (NA a); auto. apply (Permutation_in _ (Permutation_sym P)). left; reflexivity.
    + apply IH; auto.
Qed.
Definition cb (a b : list string) := comes_before (sort_strings a) (sort_strings b).
Lemma sort_length a : length (sort_strings a) = length a.
Proof. apply Permutation_length, sort_strings_perm. Qed.
Lemma perm_less_iff' a b : perm_less a b = true <-> sort_strings a = sort_strings b \/ cb a b.
Proof.
  unfold perm_less, cb, comes_before. rewrite !sort_length.
  destruct (Nat.ltb_spec (length a) (length b)); [split; auto|].
  destruct (Nat.eqb_spec (length a) (length b)) as [E|E].
  - rewrite lex_less_iff by (rewrite !sort_length; exact E). split; [intros [H1|H1]; auto|]. intros [H1|[H1|[_ H1]]]; auto. lia.
  - split; [discriminate|]. intros [H1|[H1|[H1 _]]]; [|lia|lia]. apply (f_equal (@length _)) in H1. rewrite !sort_length in H1. lia.
Qed.
Lemma perm_less_false' a b : perm_less a b = false -> cb b a.
Proof.
  intros H. unfold perm_less in H. unfold cb, comes_before. rewrite !sort_length.
  destruct (Nat.ltb_spec (length a) (length b)); [discriminate|].
  destruct (Nat.eqb_spec (length a) (length b)) as [E|E]; [|lia].
  right. split; [auto|]. assert (E' : length (sort_strings a) = length (sort_strings b)) by (rewrite !sort_length; exact E).
  destruct (lex_total _ _ E') as [H1|[H1|H1]]; [| |exact H1].
  - exfalso. assert (lex_less (sort_strings a) (sort_strings b) = true) by (apply lex_less_iff; auto). congruence.
  - exfalso. assert (lex_less (sort_strings a) (sort_strings b) = true) by (apply lex_less_iff; auto). congruence.
Qed.
Lemma perm_insert_sorted' c l : (forall d, In d l -> sort_strings c <> sort_strings d) -> StronglySorted cb l -> StronglySorted cb (perm_insert c l).
Proof.
  intros N S. induction S as [|d l S IH FD]; cbn; [repeat constructor|]. destruct (perm_less c d) eqn:E.
  - apply perm_less_iff' in E. destruct E as [E|E]; [exfalso; apply (N d); auto; left; reflexivity|].
    constructor; [constructor; auto|]. constructor; [exact E|]. eapply Forall_impl; [|exact FD]. intros x Hx. eapply before_trans; eauto.
  - apply perm_less_false' in E. constructor; [apply IH; intros x Hx; apply N; right; exact Hx|].
    apply (Permutation_Forall (Permutation_sym (perm_insert_perm c l))). constructor; auto.
Qed.
Lemma perm_sort_sorted' l : NoDup l -> (forall a b, In a l -> In b l -> sort_strings a = sort_strings b -> a = b) -> StronglySorted cb (perm_sort l).
Proof.
  induction l as [|c l IH]; cbn; intros N I; [constructor|]. apply NoDup_cons_iff in N as [N1 N2].
  apply perm_insert_sorted'.
  - intros d Hd E. apply N1. apply (Permutation_in _ (perm_sort_perm l)) in Hd.
    rewrite (I c d (or_introl eq_refl) (or_intror Hd) E). exact Hd.
  - apply IH; auto.
Qed.
Lemma strongly_sorted_impl {A} (P P' : A -> A -> Prop) l : (forall a b, In a l -> In b l -> P a b -> P' a b) -> StronglySorted P l -> StronglySorted P' l.
Proof.
  intros H S. induction S as [|x l S IH F]; constructor.
  - apply IH. intros a b Ha Hb. apply H; right; auto.
  - rewrite Forall_forall in *. intros y Hy. apply H; [left; reflexivity|right; exact Hy|auto].
Qed.
Lemma permutations_any_order keys mn mx l :
  GenerateStringPermutations keys mn mx = Some l -> NoDup keys -> StronglySorted comes_before_when_sorted l.
Proof.
  unfold GenerateStringPermutations. intros H N. destruct (Z.ltb mx mn && negb (Z.eqb mx (-1))); [discriminate|]. injection H as <-.
  assert (IN : forall c, In c (generateStringPairs mn mx keys) -> subseq c keys).
  { intros c Hc. apply (Permutation_in _ (pairs_perm mn mx keys)) in Hc. apply filter_In in Hc as [Hc _]. apply in_nes in Hc. apply Hc. }
  assert (SND : forall c, subseq c keys -> NoDup c).
  { intros c Hc. clear -Hc N. revert N. induction Hc; intros N; [constructor| |inversion N; auto].
    inversion N; subst. constructor; auto. intros C. apply H1. eapply subseq_incl; eauto. }
  eapply strongly_sorted_impl; [|apply perm_sort_sorted'].
  - intros a b Ha Hb C a' b' [Pa Sa] [Pb Sb].
    apply (Permutation_in _ (perm_sort_perm _)) in Ha, Hb. apply IN, SND, sort_strings_sorted in Ha. apply IN, SND, sort_strings_sorted in Hb.
    rewrite <- (ssort_perm_eq (sort_strings a) a'), <- (ssort_perm_eq (sort_strings b) b'); auto; rewrite sort_strings_perm; auto.
  - apply (Permutation_NoDup (Permutation_sym (pairs_perm mn mx keys))), nodup_filter, nodup_nes, N.
  - intros a b Ha Hb E. apply (subseq_perm_eq keys N); auto. rewrite <- (sort_strings_perm a), <- (sort_strings_perm b), E. reflexivity.
Qed.

(** ** Sets *)
Lemma mem_iff v s : mem v s = true <-> In v s.
Proof.
  unfold mem. rewrite existsb_exists. split; [intros (x & H & E); apply String.eqb_eq in E; subst; exact H|].
  intros H. exists v. split; [exact H|apply String.eqb_refl].
Qed.
Lemma mem_false v s : mem v s = false <-> ~ In v s.
Proof. rewrite <- mem_iff. destruct (mem v s); split; intros; try discriminate; auto. contradiction. Qed.
Lemma set_add_spec s v : NoDup s -> NoDup (set_add s v) /\ forall x, In x (set_add s v) <-> In x s \/ x = v.
Proof.
  intros N. unfold set_add. destruct (mem v s) eqn:E.
  - apply mem_iff in E. split; [exact N|]. intros x. split; [auto|]. intros [H| ->]; auto.
  - apply mem_false in E. split.
    + apply nodup_app; [exact N|repeat constructor; intros []|]. intros x Hx [<-|[]]. contradiction.
    + intros x. rewrite in_app_iff. cbn. split; intros [H|H]; auto. destruct H; auto. contradiction.
Qed.
Lemma set_add_bulk_spec vs : forall s, NoDup s -> NoDup (set_add_bulk s vs) /\ forall x, In x (set_add_bulk s vs) <-> In x s \/ In x vs.
Proof.
  unfold set_add_bulk. induction vs as [|v vs IH]; intros s N; cbn; [split; [exact N|]; intros; tauto|].
  destruct (set_add_spec s v N) as [N' H]. destruct (IH _ N') as [N2 H2]. split; [exact N2|].
  intros x. rewrite H2, H. intuition.
Qed.
Lemma set_intersection_spec s vs : NoDup (set_intersection s vs) /\ forall x, In x (set_intersection s vs) <-> In x s /\ In x vs.
Proof.
  assert (G : forall vs acc, NoDup acc -> NoDup (fold_left (fun acc v => if mem v s then set_add acc v else acc) vs acc) /\
            forall x, In x (fold_left (fun acc v => if mem v s then set_add acc v else acc) vs acc) <-> In x acc \/ (In x s /\ In x vs)).
  { clear vs. induction vs as [|v vs IH]; intros acc N; cbn; [split; [exact N|]; intros; tauto|].
    destruct (mem v s) eqn:E.
    - apply mem_iff in E. destruct (set_add_spec acc v N) as [N' H]. destruct (IH _ N') as [N2 H2]. split; [exact N2|].
      intros x. rewrite H2, H. split; [intros [[H1| ->]|H1]; intuition|]. intros [H1|[H1 [<-|H3]]]; auto.
    - apply mem_false in E. destruct (IH _ N) as [N2 H2]. split; [exact N2|]. intros x. rewrite H2. split; [intuition|].
      intros [H1|[H1 [<-|H3]]]; auto. contradiction. }
  unfold set_intersection. destruct vs as [|v vs]; [split; [constructor|]; cbn; tauto|].
  destruct (G (v :: vs) [] (NoDup_nil _)) as [N H]. split; [exact N|]. intros x. rewrite H. cbn [In]. tauto.
Qed.
Lemma set_remove_spec s v : NoDup s -> NoDup (set_remove s v) /\ forall x, In x (set_remove s v) <-> In x s /\ x <> v.
Proof.
  intros N. unfold set_remove. split; [apply nodup_filter, N|]. intros x. rewrite filter_In, negb_true_iff, String.eqb_neq. tauto.
Qed.

Lemma set_history_lemma init ops :
  NoDup (set_values (set_run init ops)) /\
  set_size (set_run init ops) = length (set_values (set_run init ops)) /\
  forall x, In x (set_values (set_run init ops)) <-> denote init ops x.
Proof.
  unfold set_values, set_size. assert (X : NoDup (set_run init ops) /\ forall x, In x (set_run init ops) <-> denote init ops x).
  { unfold set_run, denote.
    assert (G : forall ops s (P : string -> Prop), NoDup s -> (forall x, In x s <-> P x) ->
      NoDup (fold_left set_step ops s) /\ forall x, In x (fold_left set_step ops s) <-> fold_left denote_op ops P x).
    { clear. induction ops as [|o ops IH]; intros s P N H; cbn; [auto|].
      apply IH; destruct o as [v|vs|v|vs|]; cbn [set_step denote_op].
      - apply set_add_spec, N.
      - apply set_add_bulk_spec, N.
      - apply set_remove_spec, N.
      - apply set_intersection_spec.
      - constructor.
      - intros x. rewrite (proj2 (set_add_spec s v N)), H. reflexivity.
      - intros x. rewrite (proj2 (set_add_bulk_spec vs s N)), H. reflexivity.
      - intros x. rewrite (proj2 (set_remove_spec s v N)), H. reflexivity.
      - intros x. rewrite (proj2 (set_intersection_spec s vs)), H. reflexivity.
      - intros x. cbn. tauto. }
    apply G; unfold set_new.
    - apply set_add_bulk_spec. constructor.
    - intros x. rewrite (proj2 (set_add_bulk_spec init [] (NoDup_nil _))). cbn. tauto. }
  split; [apply X|]. split; [reflexivity|apply X].
Qed.
