(** Where the read locks of lookups are: steps of the other calls move no lookup's lock, a visit moves its own. *)
From Coq Require Import Sorted Permutation ZifyBool ZifyNat.
From Verif Require Import Datatypes SpecValues DatatypesProofs BTree SpecBTree BTreeProofs BTreeFind SpecFind BTreeFindProofs
  BTreeSync SpecBTreeSync BTreeSyncSeq BTreeSyncInv BTreeSyncStep BTreeSyncStep3 BTreeSyncCount BTreeSyncCount2 BTreeSyncSem BTreeSyncTop BTreeSyncTop2 BTreeSyncLin BTreeSyncLive BTreeSyncEnd
  BTreeIter SpecBTreeIter BTreeIterEr BTreeIterTk BTreeIterVisit BTreeIterSees BTreeIterInv BTreeIterStep.
Local Open Scope nat_scope.

(** How often the name [z] stands in a tree *)
Definition tc {V} (z : nat) (t : atree V) : nat := tsum (fun _ => readers z) 0 t.
Definition tcs {V} (z : nat) (r : option (atree V)) : nat := match r with Some t => tc z t | None => 0 end.

Lemma tc_node {V} z m rs vs (ks : list (atree V)) : tc z (ANode m rs vs ks) = count_occ Nat.eq_dec rs z + lsum (map (tc z) ks).
Proof. unfold tc. cbn [tsum pred]. reflexivity. Qed.
Lemma tc_in {V} z (t : atree V) : In z (tokens t) <-> 0 < tc z t.
Proof.
  induction t as [m rs vs ks IH] using atree_all. rewrite tc_node. cbn [tokens]. rewrite in_app_iff, (count_occ_In Nat.eq_dec), in_flat_map.
  rewrite Forall_forall in IH. split.
  - intros [H|(u & Hu & H)]; [lia|]. apply (IH u Hu) in H. pose proof (lsum_in (tc z) ks u Hu). lia.
  - intros H. destruct (count_occ Nat.eq_dec rs z) eqn:E; [|left; lia]. right.
    clear E. induction ks as [|k ks IHk]; [cbn in H; lia|]. cbn [map lsum] in H. destruct (Nat.eq_dec (tc z k) 0) as [E|N].
    + destruct IHk as (u & Hu & Z); [intros x Hx; apply IH; right; exact Hx|lia|]. exists u. split; [right; exact Hu|exact Z].
    + exists k. split; [left; reflexivity|]. apply IH; [left; reflexivity|lia].
Qed.

Section Base.
  Context {V : Type}.
  Variable n : nat.
  Variable ops : nat -> cop V.
  Notation atree := (atree V).
  Notation bops := (bops ops).

  Lemma take_sum W c sk : W MFree [] = 0 -> (forall i b, W (MIn c i b) [] = 0) -> W (MUnder c) [] = 0 ->
    forall (t t' : atree) e h, atake n c sk t = Some (t', e) -> tsum (fun _ => W) h t' = tsum (fun _ => W) h t.
  Proof.
    intros W0 W1 W2 t. induction t as [m rs vs ks IH] using atree_all. intros t' e h T. cbn [atake] in T. destruct vs as [|e0 vs]; [discriminate|].
    unfold guard in T at 1. destruct (afree _) eqn:Fr; [|discriminate]. rewrite (free_sum (fun _ => W) (fun _ => W0) h _ Fr). cbn [akids].
    destruct ks as [|k0 ks].
    - destruct (nth_error (e0 :: vs) _); [|discriminate]. injection T as <- <-. cbn [tsum map lsum].
      destruct (Nat.ltb _ _); rewrite ?W2, ?W0; reflexivity.
    - set (K0 := k0 :: ks) in *. rewrite on_nth_spec in T. set (i := if negb _ then 0 else _) in T.
      destruct (nth_error K0 i) as [ch|] eqn:Ei; [|discriminate]. cbn [option_map] in T.
      destruct (atake n c sk ch) as [[ch' e1]|] eqn:Tc; [|discriminate]. injection T as <- <-.
      cbn [tsum]. rewrite W1. rewrite Forall_forall in IH.
      pose proof (IH ch (nth_error_In _ _ Ei) ch' e1 (pred h) Tc) as E.
      pose proof (lsum_set (tsum (fun _ => W) (pred h)) i ch' ch K0 Ei). lia.
  Qed.

  Lemma lstep_sum log W dr da t o t' : ok_weight W dr da -> lstep n bops t o t' ->
    forall rt h, inv n bops log rt h (er t) -> forall g, tsum (fun _ => W) g t = tsum (fun _ => W) g t' + gone dr da o.
  Proof.
    intros (W0 & W1 & W2) St.
    assert (WF : forall h : nat, W MFree [] = 0) by (intros _; apply W0; discriminate).
    assert (WZ : W MFree [] = 0) by (apply W0; discriminate).
    induction St; intros rt h I g; cbn [tsum gone].
    - rewrite W1, WZ. lia.
    - rewrite W1. destruct (Nat.ltb _ _); rewrite W0 by discriminate; cbn [map lsum]; lia.
    - rewrite !lsum_mid. cbn [tsum]. rewrite !W1, WZ, W0 by discriminate. lia.
    - subst i. cbn [er filter] in I. subst ks. rewrite map_app in I. cbn [map er filter] in I. rewrite <- (map_length er l1) in I.
      pose proof (split_place n bops log rt h c b vs _ cv _ _ p _ _ I (er_split n _ _ _ _ _ H0)) as Ei. rewrite map_length in Ei. subst index. rewrite Ei in *.
      rewrite firstn_app_len, skipn_app_len_S by reflexivity. rewrite W0 by discriminate.
      pose proof (asplit_sum (fun _ => W) WF n (pred g) cv ck p L R H0) as E. rewrite lsum_mid. cbn [tsum]. rewrite W0 by discriminate.
      rewrite map_app, lsum_app. cbn [map lsum]. destruct (Nat.ltb _ _); rewrite W0 by discriminate; lia.
    - rewrite W1, WZ. lia.
    - rewrite W1, WZ. lia.
    - rewrite W1. destruct (Nat.ltb _ _); rewrite W0 by discriminate; cbn [map lsum]; lia.
    - rewrite W1, W0 by discriminate.
      pose proof (take_sum W c k0 WZ ltac:(intros; apply W0; discriminate) ltac:(intros; apply W0; discriminate) child t' e (pred g) H7) as E.
      pose proof (lsum_set (tsum (fun _ => W) (pred g)) ch t' child ks H6). lia.
    - cbn [er filter] in I. assert (H' : nth_error (map er ks) i = Some (ANode (MUnder c) [] cv (map er ck))) by (rewrite nth_error_map', H; reflexivity).
      destruct (rebalance_kids n bops log rt h c i b vs _ cv _ I H') as [-> Em].
      assert (Em' : forall r, nth_error ks (S i) = Some r -> afree r = true -> akids (ANode (MUnder c) [] cv ck) = [] -> akids r = []).
      { intros r Er Fr Ek. cbn [akids] in Ek. subst ck. specialize (Em (er r)). rewrite nth_error_map', Er in Em. specialize (Em eq_refl (er_afree r Fr) eq_refl).
        destruct r as [mr rr vr kr]. cbn [er akids] in *. destruct kr; [reflexivity|discriminate]. }
      pose proof (rebalance_sum (fun _ => W) WF (pred g) n vs ks i vs' ks' u _ H Em' H0) as E. cbn [nw] in E.
      rewrite !W0 in * by discriminate. destruct u; rewrite W0 by discriminate; lia.
    - rewrite !W0 by discriminate. lia.
    - rewrite W2. lia.
    - rewrite W2. lia.
    - rewrite W2, !lsum_mid. cbn [tsum]. change (c :: rs) with ([] ++ c :: rs). rewrite W2. cbn [app]. lia.
    - rewrite !lsum_mid. cbn [er] in I. rewrite map_app in I. cbn [map] in I. apply inv_elim in I as (_ & _ & K).
      destruct h as [|h]; [destruct (map er l1); discriminate|].
      apply forall_mid in K as (_ & Kc & _). rewrite (IHSt false h Kc (pred g)). lia.
  Qed.

  (** A report of a lookup comes from a call, which has an even number *)
  Lemma out_even (t : atree) o t' : lstep n bops t o t' -> match o with Some (c, ORead _) => Nat.odd c = false | _ => True end.
  Proof. induction 1; cbn; auto; eapply rkey_even; eauto. Qed.

  Lemma lstep_tc log z t o t' : Nat.odd z = true -> lstep n bops t o t' ->
    forall rt h, inv n bops log rt h (er t) -> tc z t' = tc z t.
  Proof.
    intros Oz St rt h I. pose proof (lstep_sum log _ _ _ t o t' (readers_ok z) St rt h I 0) as E. unfold tc. rewrite E.
    apply out_even in St. destruct o as [[c [| | |]]|]; cbn [gone]; try lia. unfold one. destruct (Nat.eqb_spec c z) as [->|]; [congruence|lia].
  Qed.

  Lemma step_tc tr s e s' L M z : Nat.odd z = true -> step n bops s e s' -> ginv n bops tr (er_state s) L M ->
    (forall c, In c (trs s) -> Nat.odd c = false) -> tcs z (root s') = tcs z (root s).
  Proof.
    intros Oz St G Te. pose proof (g_tree _ _ _ _ _ _ G) as T. unfold er_state in T. cbn [root] in T. destruct St; cbn [root tcs]; try reflexivity; try congruence.
    - rewrite H0. reflexivity.
    - rewrite H0. cbn [tcs]. rewrite tc_node. reflexivity.
    - rewrite H0. reflexivity.
    - rewrite H0. reflexivity.
    - rewrite H0. cbn [tcs]. pose proof (asplit_sum (fun _ => readers z) ltac:(reflexivity) n 0 vs ks p L0 R H1) as X.
      change (tc z L0 + tc z R = lsum (map (tc z) ks)) in X. rewrite !tc_node. cbn [count_occ map lsum]. lia.
    - rewrite H0 in *. cbn [option_map] in T. destruct T as [h T]. cbn [tcs]. destruct vs as [|v vs]; [destruct ks as [|t ks]; [reflexivity|]|rewrite !tc_node; reflexivity].
      cbn [er filter map] in T. apply inv_elim in T as (O & _ & K). cbn [flm okres] in O. rewrite pl_fl in O. destruct O as (B & _).
      destruct h as [|h]; [discriminate K|]. apply (proj1 (balanced_S _ _ _ _)) in B as [LK _]. cbn [map length] in LK. rewrite !map_length in LK.
      destruct ks as [|t2 ks]; [|discriminate LK]. cbn [tcs]. rewrite tc_node. cbn [map lsum count_occ]. lia.
    - rewrite H0. reflexivity.
    - rewrite H0. cbn [tcs]. rewrite !tc_node. cbn [count_occ]. destruct (Nat.eq_dec c z) as [->|]; [|reflexivity].
      rewrite (Te z) in Oz; [discriminate|]. rewrite H. apply in_or_app. right. left. reflexivity.
    - rewrite H in *. cbn [option_map] in T. destruct T as [h T]. eapply lstep_tc; eauto.
  Qed.

  (** ** Visits *)
  Lemma lock_tc z js : forall ys (ks : list atree) ks', lock_kids js ys ks = Some ks' -> lsum (map (tc z) ks') = lsum (map (tc z) ks) + count_occ Nat.eq_dec ys z.
  Proof.
    induction js as [|j js IH]; intros [|y ys] ks ks' H; cbn [lock_kids] in H; try discriminate.
    - injection H as <-. cbn [count_occ]. lia.
    - destruct (nth_error ks j) as [[m rs cv ck]|] eqn:E; [|discriminate]. destruct m; try discriminate.
      apply IH in H. rewrite H. pose proof (lsum_set (tc z) j (ANode MFree (y :: rs) cv ck) _ ks E) as X. rewrite !tc_node in X. cbn [count_occ] in *.
      destruct (Nat.eq_dec y z); lia.
  Qed.
  Lemma vstep_tc z d x ys (t : atree) vis t' : vstep d x ys t vis t' -> tc z t' + one z x = tc z t + count_occ Nat.eq_dec ys z.
  Proof.
    induction 1 as [r1 r2 vs ks vis js ks' Pl Lk|m rs vs l1 t vis t' l2 St IH]; rewrite !tc_node.
    - rewrite (lock_tc z _ _ _ _ Lk), !count_occ_app. cbn [count_occ]. unfold one. destruct (Nat.eq_dec x z) as [->|N]; [rewrite Nat.eqb_refl; lia|].
      apply Nat.eqb_neq in N. rewrite N. lia.
    - rewrite !lsum_mid. lia.
  Qed.

  Lemma plan_len d vs leaf vis js : node_plan (V := V) d vs leaf = (vis, js) ->
    length js <= S (length vs) /\ (leaf = true -> js = []) /\ forall j, In j js -> j <= length vs.
  Proof.
    assert (SC : forall cls r i s js0 s2 e js2 ev, scan_vals (V := V) record_all cls [] leaf r i s js0 = (s2, e, js2, ev) ->
      length js2 <= length js0 + length r /\ (leaf = true -> js2 = js0) /\ (forall j, In j js2 -> In j js0 \/ j < i + length r) /\
      (forall k, e = EndedAt k -> k <= i + length r)).
    { intros cls r. induction r as [|[k v] r IH]; intros i s js0 s2 e js2 ev E; cbn [scan_vals] in E.
      - injection E as <- <- <- <-. cbn [length]. split; [lia|]. split; [auto|]. split; [auto|]. intros k X. injection X as <-. lia.
      - change (record_all s k v) with (s ++ [(k, v)], true) in E. cbv beta iota in E. destruct (cls k).
        + apply IH in E as (A1 & A2 & A3 & A4). cbn [length]. split; [lia|]. split; [exact A2|]. split; [|intros q X; specialize (A4 q X); lia].
          intros j Hj. destruct (A3 j Hj); [auto|right; lia].
        + injection E as <- <- <- <-. cbn [length]. split; [lia|]. split; [auto|]. split; [auto|]. intros q X. injection X as <-. lia.
        + destruct (scan_vals record_all cls [] leaf r (i + 1) _ _) as [[[s3 e3] js3] ev3] eqn:E3. injection E as <- <- <- <-.
          apply IH in E3 as (A1 & A2 & A3 & A4). cbn [length]. assert (length (if leaf then js0 else js0 ++ [i]) <= S (length js0)) by (destruct leaf; rewrite ?app_length; cbn [length]; lia).
          split; [lia|]. split; [intros X; rewrite X in *; apply A2, eq_refl|]. split; [|intros q X; specialize (A4 q X); lia].
          intros j Hj. destruct (A3 j Hj) as [X|X]; [|right; lia]. destruct leaf; [auto|]. apply in_app_iff in X as [X|[<-|[]]]; [auto|right; lia].
        + apply IH in E as (A1 & A2 & A3 & A4). cbn [length]. split; [lia|]. split; [exact A2|]. split; [|intros q X; specialize (A4 q X); lia].
          intros j Hj. destruct (A3 j Hj); [auto|right; lia].
        + injection E as <- <- <- <-. cbn [length]. split; [lia|]. split; [auto|]. split; [auto|]. intros q X. injection X as <-. lia. }
    intros H. destruct d as [cls keep|key]; cbn [node_plan] in H.
    - destruct (scan_vals record_all cls [] leaf vs 0 [] []) as [[[s2 e] js2] ev] eqn:E. apply SC in E as (A1 & A2 & A3 & A4). injection H as _ <-.
      rewrite app_length. cbn [length] in A1.
      assert (LE : forall k, e = EndedAt k -> k <= length vs) by (intros k X; specialize (A4 k X); lia).
      split; [destruct leaf; [cbn [length]; lia|]; destruct e; cbn [length]; lia|]. split.
      + intros ->. rewrite A2 by reflexivity. reflexivity.
      + intros j Hj. apply in_app_iff in Hj as [Hj|Hj]; [destruct (A3 j Hj) as [[]|]; lia|]. destruct leaf; [destruct Hj|].
        destruct e as [|k]; try (destruct Hj; fail); destruct Hj as [<-|[]]; apply LE; reflexivity.
    - destruct (if leaf then leaf_match vs key else found_at vs (search vs key) key) as [[a b]|]; injection H as <- <-.
      + cbn [length]. split; [lia|]. split; [auto|]. intros j [].
      + destruct leaf; [cbn [length]; split; [lia|]; split; [auto|]; intros j []|]. cbn [length]. split; [lia|]. split; [discriminate|].
        intros j [<-|[]]. apply search_le.
  Qed.
  Lemma lock_len js : forall ys (ks ks' : list atree), lock_kids js ys ks = Some ks' -> length js = length ys.
  Proof.
    induction js as [|j js IH]; intros [|y ys] ks ks' H; cbn [lock_kids] in H; try discriminate; [reflexivity|].
    destruct (nth_error ks j) as [[[] rs cv ck]|]; try discriminate. cbn [length]. f_equal. eapply IH; eauto.
  Qed.

  (** The node of a lookup's lock *)
  Lemma vstep_node G log d x ys t vis t' : vstep d x ys t vis t' -> Nat.odd x = true -> forall rt h, inv n bops log rt h (er t) -> tk n ops G t ->
    length ys <= S n /\ exists k, balanced n k (G x).
  Proof.
    intros St Ox. induction St as [r1 r2 vs ks vis js ks' Pl Lk|m rs vs l1 t vis t' l2 St IH]; intros rt h I T; apply tk_inv in T as (_ & T2 & T3).
    - cbn [er] in I. apply inv_plain in I. assert (EP : map (P n bops) (map er ks) = map (P n bops) ks) by (rewrite map_map; apply map_ext; intros; apply er_P). rewrite EP in I.
      assert (Gx : G x = Node vs (map (P n bops) ks)).
      { rewrite <- (T2 x ltac:(apply in_or_app; right; left; reflexivity) Ox), P_free. reflexivity. }
      destruct I as (B & Ln & _). cbn [vals_of] in Ln. rewrite Gx. split; [|eauto]. apply plan_len in Pl as (Lj & _ & _). rewrite <- (lock_len _ _ _ _ Lk). lia.
    - cbn [er] in I. rewrite map_app in I. cbn [map] in I. apply inv_elim in I as (_ & _ & K).
      destruct h as [|h]; [destruct (map er l1); discriminate K|]. apply forall_mid in K as (_ & Kc & _).
      eapply IH; [exact Kc|]. apply T3, in_or_app. right. left. reflexivity.
  Qed.
End Base.

(** ** Heights *)
Fixpoint hgt {V} (t : node V) : nat := match t with Node _ ks => match ks with [] => 0 | k :: _ => S (hgt k) end end.
Lemma hgt_balanced {V} n h : forall t : node V, balanced n h t -> hgt t = h.
Proof.
  induction h as [|h IH]; intros [vs ks] B.
  - apply (proj1 (balanced_0 _ _ _)) in B. subst ks. reflexivity.
  - apply (proj1 (balanced_S _ _ _ _)) in B as [L F]. destruct ks as [|k ks]; [discriminate|]. cbn [hgt]. f_equal. inversion F as [|? ? [B _] _]; subst. apply IH, B.
Qed.
Lemma hgt_kid {V} n h (t k : node V) : balanced n h t -> In k (kids_of t) -> exists h', h = S h' /\ hgt k = h'.
Proof.
  intros B H. destruct t as [vs ks]. cbn [kids_of] in H. destruct h as [|h].
  - apply (proj1 (balanced_0 _ _ _)) in B. subst ks. destruct H.
  - apply (proj1 (balanced_S _ _ _ _)) in B as [_ F]. rewrite Forall_forall in F. destruct (F k H) as [B _]. exists h. split; [reflexivity|]. eapply hgt_balanced; eauto.
Qed.
