(** Entering the tree is where a call takes effect: what it means for the contents. *)
From Coq Require Import Sorted Permutation ZifyBool ZifyNat.
From Verif Require Import Datatypes SpecValues DatatypesProofs BTree SpecBTree BTreeProofs BTreeFind BTreeFindProofs BTreeLockProofs PropLemmasTree
  BTreeSync BTreeSyncSeq BTreeSyncSeq2 BTreeSyncInv SpecBTreeSync BTreeSyncStep BTreeSyncStep2 BTreeSyncStep3.
Local Open Scope nat_scope.

Section Sem.
  Context {V : Type}.
  Variable n : nat.
  Variable ops : nat -> cop V.
  Hypothesis Hn : 2 <= n.
  Hypothesis Hg : good_calls ops.
  Notation node := (node V).
  Notation entry := (entry V).
  Notation atree := (atree V).

  Lemma stored_perm (l l' : list entry) k v : Permutation l l' -> stored l' k v -> stored l k v.
  Proof using. intros Pm (k' & E & I). exists k'. split; [exact E|]. eapply Permutation_in; [symmetry; exact Pm|exact I]. Qed.
  Lemma not_stored_perm (l l' : list entry) k : Permutation l l' -> not_stored l' k -> not_stored l k.
  Proof using. intros Pm N k' v I. apply (N k' v). eapply Permutation_in; [exact Pm|exact I]. Qed.

  Lemma okn_well rt h (t : node) : okn n rt h t -> balanced n h t /\ length (vals_of t) <= n /\ (0 < h -> 1 <= length (vals_of t)) /\ sorted (flat t) /\ goods (flat t).
  Proof. intros (B & L & Lo & S & G). split; [exact B|]. split; [exact L|]. split; [|auto]. destruct rt; [exact Lo|]. intros _. lia. Qed.

  (** A write takes effect *)
  Lemma enter_write rt h c (X : node) M : okn n rt h X -> wkey ops c <> None -> Permutation M (flat X) ->
    exists a M', fin ops c (answer n ops c X) = Some a /\ (forall r, answer n ops c X <> ORead r) /\
      call_step M (ops c) a M' /\ Permutation M' (flat (pl (flop n ops c X))).
  Proof.
    intros O W Pm. apply okn_well in O as (B & L & Lo & S & G).
    destruct (wkey ops c) as [k|] eqn:Wk; [|congruence]. pose proof (wkey_good ops Hg c k Wk) as Gk.
    destruct (wkey_cases ops c k Wk) as [[v St]|(can & Op & _)].
    - rewrite (stores_flop n ops c k v _ St), (stores_answer n ops c k v _ St).
      pose proof (create_spec n h X k (Some v) Hn B L G Gk S) as C.
      assert (CSc : forall M', not_stored M k -> Permutation M' ((k, v) :: M) -> call_step M (ops c) ACreated M').
      { unfold stores in St. destruct (ops c); try discriminate; injection St as <- <-; intros; constructor; auto. }
      assert (CSe : forall v0, stored M k v0 -> call_step M (ops c) (AExists v0) M).
      { unfold stores in St. destruct (ops c); try discriminate; injection St as <- <-; intros; constructor; auto. }
      destruct (create n X k (Some v)) as [v0| |t'|p]; cbn [create_post] in C; cbn [fin pl].
      + destruct C as (k' & I & E1 & E2). exists (AExists v0), M. split; [reflexivity|]. split; [discriminate|]. split; [|exact Pm].
        apply CSe. apply (stored_perm _ _ _ _ Pm). exists k'. split; [apply (equiv_same (flat X) k k' v0); auto|exact I].
      + destruct C.
      + destruct C as (A & _ & _ & F). exists ACreated, (flat t'). split; [reflexivity|]. split; [discriminate|]. split; [|reflexivity].
        apply CSc; [apply (not_stored_perm _ _ _ Pm), absent_not_stored; auto|]. rewrite F, ins_perm. apply perm_skip. symmetry. exact Pm.
      + destruct C as (A & _ & v1 & E & F). injection E as <-. exists ACreated, (flat p). split; [reflexivity|]. split; [discriminate|]. split; [|reflexivity].
        apply CSc; [apply (not_stored_perm _ _ _ Pm), absent_not_stored; auto|]. rewrite F, ins_perm. apply perm_skip. symmetry. exact Pm.
    - rewrite (delete_flop n ops c k can _ Op), (delete_answer n ops c k can _ Op).
      pose proof (remove_spec n h Hn X k can B Lo L G Gk S) as R.
      destruct (remove n X k can) as [|t' u a]; cbn [remove_post] in R; [destruct R|]. destruct R as (_ & _ & R).
      assert (Ep : pl (under c (Some (t', u))) = t') by (destruct u; reflexivity). rewrite Ep. cbn [fin]. rewrite Op.
      destruct a as [[k' v]|].
      + destruct R as (I & E1 & E2 & R). assert (Sm : same_value k k') by (apply (equiv_same (flat X) k k' v); auto).
        destruct (can k' v) eqn:Ec.
        * exists (AAsked (Some (k', v))), (flat t'). split; [reflexivity|]. split; [discriminate|]. split; [|reflexivity].
          apply CS_delete; auto. rewrite Pm, R. apply del_equiv_perm; auto.
        * subst t'. exists (AAsked (Some (k', v))), M. split; [reflexivity|]. split; [discriminate|]. split; [|exact Pm].
          apply CS_veto; auto. eapply Permutation_in; [symmetry; exact Pm|exact I].
      + destruct R as [A ->]. exists (AAsked None), M. split; [reflexivity|]. split; [discriminate|]. split; [|exact Pm].
        apply CS_absent. apply (not_stored_perm _ _ _ Pm), absent_not_stored; auto.
  Qed.

  Lemma get_find : forall h (t : node) p k, balanced n h t -> goods (flat t) -> good k -> sorted (flat t) ->
    match findMatchType t p k with Some (r, _) => get t k = option_map snd r | None => False end.
  Proof.
    induction h as [|h IH]; intros [vs ks] p k B G Gk S.
    - apply (proj1 (balanced_0 _ _ _)) in B. subst ks. cbn [findMatchType get]. reflexivity.
    - destruct ks as [|k0 ks]; [apply (proj1 (balanced_S _ _ _ _)) in B as [LK _]; discriminate LK|].
      destruct (findMatchType_spec n (Datatypes.S h) _ p k B G Gk S) as (r & ev & E & _). rewrite E.
      change (findMatchType (Node vs (k0 :: ks)) p k) with
        (match found_at vs (search vs k) k with
        | Some e => Some (Some e, [RUn (LNode p)])
        | None =>
            match on_nth (fun c => findMatchType c (p ++ [search vs k]) k) (k0 :: ks) (search vs k) with
            | Some (Some (r, ev)) => Some (r, [RLk (LNode (p ++ [search vs k])); RUn (LNode p)] ++ ev)
            | _ => None
            end
        end) in E.
      change (get (Node vs (k0 :: ks)) k) with
        (match found_at vs (search vs k) k with
        | Some (_, v) => Some v
        | None => match on_nth (fun c => get c k) (k0 :: ks) (search vs k) with Some r => r | None => None end
        end).
      destruct (found_at vs (search vs k) k) as [[a b]|].
      + injection E as <- <-. reflexivity.
      +
        rewrite on_nth_spec in E. rewrite on_nth_spec. destruct (nth_error (k0 :: ks) (search vs k)) as [c|] eqn:Ec; [|cbn in E; discriminate E].
        cbn [option_map] in *. apply nth_error_In in Ec. apply in_split in Ec as (K1 & K2 & EK). rewrite EK in B, S, G.
        destruct (kid_sorted n h vs K1 c K2 B S G) as ((Bc & _) & Sc & Gc).
        specialize (IH c (p ++ [search vs k]) k Bc Gc Gk Sc).
        destruct (findMatchType c (p ++ [search vs k]) k) as [[r' ev']|]; [|discriminate]. injection E as <- <-. exact IH.
  Qed.
  Lemma get_spec h (t : node) k : balanced n h t -> goods (flat t) -> good k -> sorted (flat t) ->
    match get t k with Some v => stored (flat t) k v | None => not_stored (flat t) k end.
  Proof.
    intros B G Gk S. pose proof (get_find h t [] k B G Gk S) as F.
    destruct (findMatchType_spec n h t [] k B G Gk S) as (r & ev & E & R & _). rewrite E in F. rewrite F.
    destruct r as [[k' v]|]; cbn [option_map snd].
    - destruct R as (I & E1 & E2). exists k'. split; [apply (equiv_same (flat t) k k' v); auto|exact I].
    - apply absent_not_stored; auto.
  Qed.

  (** A lookup takes effect *)
  Lemma enter_read M c k r : rkey ops c = Some k -> (match r with Some v => stored M k v | None => not_stored M k end) ->
    match fin ops c (ORead r) with Some a => call_step M (ops c) a M | None => r = None /\ wkey ops c <> None end.
  Proof using.
    intros Rk H. unfold rkey, wkey in *. cbn [fin].
    destruct (ops c); try discriminate; injection Rk as <-; destruct r; try (constructor; exact H). split; [reflexivity|discriminate].
  Qed.

  (** ** The invariant in a larger history; a child that becomes the root *)
  Lemma nok_mono (log log' : nat -> out V -> Prop) rt h m rs vs Rs :
    (forall c o, log c o -> log' c o) -> nok n ops log rt h m rs vs Rs -> nok n ops log' rt h m rs vs Rs.
  Proof using.
    intros L. destruct m; cbn [nok]; try (intros X; exact X).
    - intros [H1 H2]. split; [exact H1|]. intros c Hc. destruct (H2 c Hc) as (k & E & X). exists k. auto.
    - intros (H1 & H2 & H3 & H4 & H5). auto 8.
  Qed.
  Lemma inv_mono (log log' : nat -> out V -> Prop) : (forall c o, log c o -> log' c o) ->
    forall h rt t, inv n ops log rt h t -> inv n ops log' rt h t.
  Proof using.
    intros L. induction h as [|h IH]; intros rt [m rs vs ks] I; apply inv_elim in I as (O & N & K);
      (apply inv_intro; [exact O|eapply nok_mono; eauto|]); [exact K|]. rewrite Forall_forall in *. intros t Ht. apply IH, K, Ht.
  Qed.
  Lemma okn_root h (t : node) : okn n false h t -> okn n true h t.
  Proof. intros (B & L & Lo & S & G). split; [exact B|]. split; [exact L|]. split; [intros _; lia|auto]. Qed.
  Lemma inv_root (log : nat -> out V -> Prop) h t : inv n ops log false h t -> inv n ops log true h t.
  Proof.
    destruct t as [m rs vs ks]. intros I. apply inv_elim in I as (O & N & K). apply inv_intro; [| |exact K].
    - destruct (flm n ops m vs (map (fl n ops) ks)); cbn [okres] in *; [apply okn_root, O|exact O| |exact O].
      destruct O as (B & L & Lo & S & G). split; [exact B|]. split; [exact L|]. split; [discriminate|auto].
    - destruct m; cbn [nok] in *; auto. destruct N as (H1 & H2 & H3 & H4). split; [exact H1|]. split; [exact H2|]. split; [apply okn_root, H3|exact H4].
  Qed.
End Sem.
