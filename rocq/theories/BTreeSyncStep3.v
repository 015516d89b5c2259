(** Rebalancing, swaps and lookups keep what the tree stands for and the invariant of its nodes; so does every
    step inside the tree. *)
From Coq Require Import Sorted Permutation ZifyBool ZifyNat.
From Verif Require Import Datatypes SpecValues DatatypesProofs BTree SpecBTree BTreeProofs BTreeFind BTreeSync BTreeSyncSeq
  BTreeSyncSeq2 BTreeSyncInv SpecBTreeSync BTreeSyncStep BTreeSyncStep2.
Local Open Scope nat_scope.

(** Where the children come from *)
Section Kids.
  Context {V : Type}.
  Notation atree := (atree V).
  Definition from (ks : list atree) (i : nat) (g : atree) : Prop :=
    exists t j, nth_error ks j = Some t /\ (j = i \/ afree t = true) /\ In g (akids t).
  Definition origin (ks : list atree) (i : nat) (x : atree) : Prop :=
    (exists j, j <> i /\ nth_error ks j = Some x) \/
    (exists nv nk, x = ANode MFree [] nv nk /\ forall g, In g nk -> from ks i g).

  Lemma removelast_in {A} (x : A) l : In x (removelast l) -> In x l.
  Proof. induction l as [|y [|z l] IH]; cbn [removelast]; [tauto|intros []|]. intros [->|H]; [left; reflexivity|right; apply IH, H]. Qed.

  Lemma rotateLeft_origin vs (ks : list atree) i vs' ks' r :
    nth_error ks (S i) = Some r -> afree r = true ->
    arotateLeft vs ks i = Some (vs', ks') -> forall x, In x ks' -> origin ks i x.
  Proof.
    unfold arotateLeft, guard. intros Er Fr H x Hx. rewrite Er in H.
    destruct (nth_error ks i) as [[m1 s1 cv ck]|] eqn:Ei; [|discriminate].
    destruct r as [m2 s2 [|r0 rv] rk]; [discriminate|]. destruct (nth_error vs i) as [v|]; [|discriminate].
    destruct (forallb _ rk); [|discriminate]. injection H as <- <-.
    apply In_nth_error in Hx as [q Hx]. apply set_nth_cases in Hx as [[-> ->]|[N Hx]].
    - right. eexists _, _. split; [reflexivity|]. intros g Hg. exists (ANode m2 s2 (r0 :: rv) rk), (S i). split; [exact Er|].
      split; [right; exact Fr|]. cbn [akids]. destruct rk; [destruct Hg|right; exact Hg].
    - apply set_nth_cases in Hx as [[-> ->]|[N' Hx]]; [right|left; eauto].
      eexists _, _. split; [reflexivity|]. intros g Hg.
      assert (Hc : In g ck \/ In g rk).
      { destruct rk as [|rk0 rk]; [left; exact Hg|]. destruct ck as [|ck0 ck]; [destruct Hg|].
        apply in_app_iff in Hg as [Hg|[->|[]]]; [left; exact Hg|right; left; reflexivity]. }
      destruct Hc as [Hc|Hc]; [exists (ANode m1 s1 cv ck), i|exists (ANode m2 s2 (r0 :: rv) rk), (S i)]; auto.
  Qed.
  Lemma rotateRight_origin vs (ks : list atree) i vs' ks' l :
    nth_error ks (i - 1) = Some l -> afree l = true ->
    arotateRight vs ks i = Some (vs', ks') -> forall x, In x ks' -> origin ks i x.
  Proof.
    unfold arotateRight, guard. intros El Fl H x Hx. destruct i as [|j]; [discriminate|]. replace (S j - 1) with j in El by lia. rewrite El in H.
    destruct (nth_error ks (S j)) as [[m1 s1 cv ck]|] eqn:Ei; [|discriminate].
    destruct l as [m2 s2 lv lk]. destruct (nth_error vs j) as [v|]; [|discriminate].
    destruct (rev lv) as [|g0 gs]; [discriminate|].
    assert (Hlk : forall g gks, rev lk = g :: gks -> In g lk) by (intros g gks E; apply in_rev; rewrite E; left; reflexivity).
    assert (E' : ks' = set_nth (S j) (ANode MFree [] (v :: cv) match rev lk with [] => ck | gk :: _ => gk :: ck end)
                         (set_nth j (ANode MFree [] (removelast lv) (removelast lk)) ks)).
    { destruct (rev lk) as [|gk gks]; [|destruct (afree gk); [|discriminate]]; injection H as <- <-; reflexivity. }
    subst ks'. apply In_nth_error in Hx as [q Hx]. apply set_nth_cases in Hx as [[-> ->]|[N Hx]].
    - right. eexists _, _. split; [reflexivity|]. intros g Hg.
      assert (Hc : In g ck \/ In g lk).
      { destruct (rev lk) as [|gk gks] eqn:R; [left; exact Hg|]. destruct Hg as [<-|Hg]; [right; eapply Hlk; eauto|left; exact Hg]. }
      destruct Hc as [Hc|Hc]; [exists (ANode m1 s1 cv ck), (S j)|exists (ANode m2 s2 lv lk), j]; auto.
    - apply set_nth_cases in Hx as [[-> ->]|[N' Hx]]; [right|left; eauto].
      eexists _, _. split; [reflexivity|]. intros g Hg. exists (ANode m2 s2 lv lk), j. split; [exact El|]. split; [right; exact Fl|].
      apply removelast_in, Hg.
  Qed.
  Lemma mergeDown_origin vs (ks : list atree) i vs' ks' l :
    nth_error ks (match i with O => 1 | S j => j end) = Some l -> afree l = true ->
    amergeDown vs ks i = Some (vs', ks') -> forall x, In x ks' -> origin ks i x.
  Proof.
    unfold amergeDown, guard. intros El Fl H x Hx. set (j := match i with O => O | S j => j end) in *.
    assert (Pr : forall q, q = j \/ q = S j -> forall t, nth_error ks q = Some t -> q = i \/ afree t = true).
    { intros q Hq t Ht. unfold j in Hq. destruct i as [|i'].
      - destruct Hq as [->| ->]; [left; reflexivity|right; congruence].
      - destruct Hq as [->| ->]; [right; congruence|left; reflexivity]. }
    destruct (nth_error ks j) as [[m1 s1 cv ck]|] eqn:Ej; [|discriminate].
    destruct (nth_error ks (S j)) as [[m2 s2 rv rk]|] eqn:Es; [|discriminate].
    destruct (nth_error vs j) as [v|]; [|discriminate]. destruct (_ && _); [|discriminate]. injection H as <- <-.
    apply del_nth_cases in Hx as (q & Nq & Hx). apply set_nth_cases in Hx as [[-> ->]|[N Hx]].
    - right. eexists _, _. split; [reflexivity|]. intros g Hg. apply in_app_iff in Hg as [Hg|Hg].
      + exists (ANode m1 s1 cv ck), j. split; [exact Ej|]. split; [|exact Hg]. eapply Pr; eauto.
      + exists (ANode m2 s2 rv rk), (S j). split; [exact Es|]. split; [|exact Hg]. eapply Pr; eauto.
    - left. exists q. split; [|exact Hx]. unfold j in *. destruct i; lia.
  Qed.
  Lemma rebalance_origin n vs (ks : list atree) i vs' ks' u :
    arebalance n vs ks i = Some (vs', ks', u) -> forall x, In x ks' -> origin ks i x.
  Proof.
    unfold arebalance. intros H.
    assert (G : forall (t : atree) x, guard (afree t) (Some (Nat.ltb (minValues n) (length (avals t)))) = Some x -> afree t = true).
    { intros t x E. unfold guard in E. destruct (afree t) eqn:F; [reflexivity|discriminate]. }
    assert (ML : forall l, nth_error ks (match i with O => 1 | S j => j end) = Some l -> afree l = true ->
      match amergeDown vs ks i with Some (vs', ks') => Some (vs', ks', Nat.ltb (length vs') (minValues n)) | None => None end = Some (vs', ks', u) ->
      forall x, In x ks' -> origin ks i x).
    { intros l E F X. destruct (amergeDown vs ks i) as [[a b]|] eqn:M; [|discriminate]. injection X as <- <- <-. eapply mergeDown_origin; eauto. }
    assert (RL : forall l, nth_error ks (S i) = Some l -> afree l = true ->
      match arotateLeft vs ks i with Some (vs', ks') => Some (vs', ks', false) | None => None end = Some (vs', ks', u) ->
      forall x, In x ks' -> origin ks i x).
    { intros l E F X. destruct (arotateLeft vs ks i) as [[a b]|] eqn:M; [|discriminate]. injection X as <- <- <-. eapply rotateLeft_origin; eauto. }
    assert (RR : forall l, nth_error ks (i - 1) = Some l -> afree l = true ->
      match arotateRight vs ks i with Some (vs', ks') => Some (vs', ks', false) | None => None end = Some (vs', ks', u) ->
      forall x, In x ks' -> origin ks i x).
    { intros l E F X. destruct (arotateRight vs ks i) as [[a b]|] eqn:M; [|discriminate]. injection X as <- <- <-. eapply rotateRight_origin; eauto. }
    destruct (Nat.eqb_spec i 0) as [->|N0].
    - destruct (nth_error ks 1) as [s|] eqn:E1; [|discriminate].
      destruct (guard (afree s) _) as [x|] eqn:Gs; [|discriminate]. destruct x; [eapply RL|eapply ML]; eauto.
    - assert (Ej : match i with O => 1 | S j => j end = i - 1) by (destruct i; lia). rewrite Ej in ML.
      destruct (Nat.eqb i (length ks - 1)).
      + destruct (nth_error ks (i - 1)) as [s|] eqn:E1; [|discriminate].
        destruct (guard (afree s) _) as [x|] eqn:Gs; [|discriminate]. destruct x; [eapply RR|eapply ML]; eauto.
      + replace (S i) with (i + 1) in RL by lia.
        destruct (nth_error ks (i + 1)) as [s|] eqn:E1; [|discriminate].
        destruct (guard (afree s) _) as [x|] eqn:Gs; [|discriminate].
        destruct (nth_error ks (i - 1)) as [s2|] eqn:E2; [|destruct x; discriminate].
        destruct (guard (afree s2) _) as [x2|] eqn:Gs2; [|destruct x; discriminate].
        destruct x; [eapply RL; eauto|]. destruct x2; [eapply RR|eapply ML]; eauto.
  Qed.
End Kids.

Section Step.
  Context {V : Type}.
  Variable n : nat.
  Variable ops : nat -> cop V.
  Variable log : nat -> out V -> Prop.
  Hypothesis Hn : 2 <= n.
  Hypothesis Hg : good_calls ops.
  Notation node := (node V).
  Notation entry := (entry V).
  Notation atree := (atree V).
  Notation res := (res V).
  Notation fl := (fl n ops).
  Notation flm := (flm n ops).
  Notation flop := (flop n ops).
  Notation P := (P n ops).
  Notation inv := (inv n ops log).
  Notation nok := (nok n ops log).
  Notation okn := (okn n).
  Notation okres := (okres n).
  Notation over := (over n).
  Notation kept := (kept n ops log).
  Notation kidsok := (kidsok n ops log).

  Lemma okn_kid' rt h vs (K : list node) c : okn rt (S h) (Node vs K) -> In c K -> okn false h c.
  Proof.
    intros O H. apply in_split in H as (K1 & K2 & ->). destruct O as (B & L & Lo & S & G).
    destruct (kid_sorted n h vs K1 c K2 B S G) as ((Bc & Lc) & Sc & Gc). split; [exact Bc|]. split; [apply Lc|]. split; [apply Lc|]. auto.
  Qed.

  Lemma kept_rebalance c i b vs ks cv ck vs' ks' u :
    nth_error ks i = Some (ANode (MUnder c) [] cv ck) -> arebalance n vs ks b = Some (vs', ks', u) ->
    kept (ANode (MIn c i b) [] vs ks) None (ANode (if u then MUnder c else MFree) [] vs' ks').
  Proof.
    intros Ei Rb. apply kept_intro. intros rt h I. apply inv_elim in I as (O & (_ & Li & Oth & _ & Un & W & Lv) & K).
    assert (Fi : nth_error (map fl ks) i = Some (RUnder c (Node cv (map P ck)))).
    { rewrite (map_nth_error fl i ks Ei), fl_eq. cbn [BTreeSyncInv.flm]. rewrite pl_fl. reflexivity. }
    destruct (Un _ _ Fi) as [-> St]. destruct h as [|h]; [subst ks; destruct i; discriminate|].
    assert (RP : rebalance n vs (map P ks) i = Some (Node vs' (map P ks'), u)).
    { apply (rebalance_P' n ops log vs ks i vs' ks' u); [|exact Rb]. intros t Ht. rewrite Ei in Ht. injection Ht as <-. apply shape_under. }
    assert (FF : flm (MIn c i i) vs (map fl ks) = under c (Some (Node vs' (map P ks'), u))).
    { cbn [BTreeSyncInv.flm]. rewrite Fi, pl_fl, RP. reflexivity. }
    rewrite FF in O |- *.
    assert (Org := rebalance_origin n vs ks i vs' ks' u Rb). rewrite Forall_forall in K.
    assert (Kok : forall g, from ks i g -> match h with O => False | S h' => inv false h' g end /\ plain (fl g)).
    { intros g (t & j & Hj & Ht & Hg'). assert (It := K _ (nth_error_In _ _ Hj)). destruct t as [m rs tv tk]. cbn [akids] in Hg'.
      apply inv_elim in It as (_ & Nt & Kt).
      assert (Pt : Forall plain (map fl tk)).
      { destruct Ht as [->|Ht]; [rewrite Ei in Hj; injection Hj as <- <- <- <-; apply Nt|].
        apply afree_inv in Ht as (a & b & E). injection E as -> -> -> ->. apply Nt. }
      split.
      - destruct h as [|h']; [subst tk; destruct Hg'|]. rewrite Forall_forall in Kt. apply Kt, Hg'.
      - rewrite Forall_forall in Pt. apply Pt, in_map, Hg'. }
    assert (Okk : forall x, In x ks' -> okn false h (P x)).
    { intros x Hx. assert (Hx' : In (P x) (map P ks')) by (apply in_map, Hx).
      destruct u; cbn [under BTreeSyncInv.okres] in O.
      - destruct O as (B & L & _ & S & G). apply in_split in Hx' as (K1 & K2 & EK). rewrite EK in B, S, G.
        destruct (kid_sorted n h vs' K1 _ K2 B S G) as ((Bc & Lc) & Sc & Gc). split; [exact Bc|]. split; [apply Lc|]. split; [apply Lc|]. auto.
      - eapply okn_kid'; [exact O|exact Hx']. }
    assert (Inv : forall x, In x ks' -> inv false h x /\ plain (fl x)).
    { intros x Hx. destruct (Org x Hx) as [(j & Nj & Hj)|(nv & nk & -> & Hk)].
      - split; [apply K, (nth_error_In _ _ Hj)|]. destruct (Oth j (fl x)) as [H|[H _]]; [apply map_nth_error, Hj|exact H|congruence].
      - split; [|exact Logic.I]. apply new_node.
        + split.
          * destruct h as [|h']; [destruct nk as [|g nk]; [reflexivity|destruct (Kok g); [apply Hk; left; reflexivity|tauto]]|].
            apply Forall_forall. intros g Hg'. apply Kok, Hk, Hg'.
          * apply Forall_forall. intros r Hr. apply in_map_iff in Hr as (g & <- & Hg'). apply Kok, Hk, Hg'.
        + rewrite <- (P_free n ops []). apply Okk, Hx. }
    split; [|split; [|split; [|exact Logic.I]]].
    - destruct u; cbn [BTreeSyncInv.flm under]; rewrite pl_fl; reflexivity.
    - assert (Pl : Forall plain (map fl ks')).
      { apply Forall_forall. intros r Hr. apply in_map_iff in Hr as (x & <- & Hx). apply Inv, Hx. }
      destruct u; cbn [BTreeSyncInv.nok].
      + split; [reflexivity|exact Pl].
      + split; [exact Pl|intros d []].
    - apply Forall_forall. intros x Hx. apply Inv, Hx.
  Qed.

  (** ** Taking an entry out of the children *)
  Lemma under_ok h c (t t' : node) u :
    okn false h t -> balanced n h t' -> shrunk n t t' u -> sorted (flat t') -> goods (flat t') ->
    okres false h (under c (Some (t', u))).
  Proof.
    intros (B & L & Lo & _) B' (S1 & S2 & S3) So Go.
    destruct (Nat.eq_dec (length (vals_of t')) (length (vals_of t))) as [E|E].
    - rewrite (S2 E). cbn [under BTreeSyncInv.okres]. split; [exact B'|]. split; [lia|]. split; [lia|]. auto.
    - assert (Lt : length (vals_of t') < length (vals_of t)) by lia. specialize (S3 Lt). destruct u; symmetry in S3; cbn [under BTreeSyncInv.okres].
      + apply Nat.ltb_lt in S3. split; [exact B'|]. split; [lia|]. split; [lia|]. auto.
      + apply Nat.ltb_ge in S3. split; [exact B'|]. split; [lia|]. split; [lia|]. auto.
  Qed.

  Lemma atake_ok c sk : stores ops c = None -> wkey ops c <> None -> forall h t t' e,
    inv false h t -> side sk (P t) -> atake n c sk t = Some (t', e) ->
    exists tt u, swap n (P t) sk = Some (tt, e, u) /\ shrunk n (P t) tt u /\ fl t' = under c (Some (tt, u)) /\ inv false h t'.
  Proof.
    intros St W. induction h as [|h IH]; intros [m rs vs ks] t' e I Sd T; cbn [atake] in T; destruct vs as [|e0 vs]; try discriminate;
      unfold guard in T; destruct (afree _) eqn:Fr; try discriminate; apply afree_inv in Fr as (a & b & E); injection E as -> -> <- <-;
      apply inv_elim in I as (O & (Pl & _) & K); cbn [BTreeSyncInv.flm BTreeSyncInv.okres] in O; rewrite pl_fl in O;
      rewrite P_free in *;
      destruct (swap_any n sk _ _ Hn (proj1 O) ltac:(cbn [vals_of length]; lia) ltac:(apply O) ltac:(apply O) Sd) as (tt & e' & u & SW & B' & Sh & So & Go);
      pose proof (under_ok _ c _ _ u O B' Sh So Go) as OU; exists tt, u; rewrite SW.
    - subst ks. cbn [map swap] in SW. set (i := if negb (less (fst e0) sk) then 0 else _) in *.
      destruct (nth_error (e0 :: vs) i) as [e1|]; [|discriminate]. unfold removeLeafItem in SW. injection SW as <- <- <-. injection T as <- <-.
      assert (FT : fl (ANode (if Nat.ltb (length (del_nth i (e0 :: vs))) (minValues n) then MUnder c else MFree) [] (del_nth i (e0 :: vs)) []) =
                under c (Some (Node (del_nth i (e0 :: vs)) [], Nat.ltb (length (del_nth i (e0 :: vs))) (minValues n)))).
      { destruct (Nat.ltb _ _); reflexivity. }
      split; [reflexivity|]. split; [exact Sh|]. split; [exact FT|]. apply inv_intro.
      + rewrite fl_eq in FT. rewrite FT. exact OU.
      + destruct (Nat.ltb _ _); cbn [BTreeSyncInv.nok].
        * split; [reflexivity|constructor].
        * split; [constructor|intros d []].
      + reflexivity.
    - destruct ks as [|k0 ks]; [exfalso; destruct O as ([LK _] & _); discriminate|].
      set (K0 := k0 :: ks) in *. rewrite swap_inner in SW by discriminate. cbv zeta in SW.
      rewrite map_length in SW. change (match K0 with [] => _ | _ => _ end) with
        (match on_nth (atake n c sk) K0 (if negb (less (fst e0) sk) then 0 else length K0 - 1) with
                  | Some (Some (t', e)) => Some (ANode (MIn c (if negb (less (fst e0) sk) then 0 else length K0 - 1) (if negb (less (fst e0) sk) then 0 else length K0 - 1)) [] (e0 :: vs) (set_nth (if negb (less (fst e0) sk) then 0 else length K0 - 1) t' K0), e)
                  | _ => None end) in T.
      set (i := if negb (less (fst e0) sk) then 0 else length K0 - 1) in *.
      rewrite on_nth_spec in T. destruct (nth_error K0 i) as [ch|] eqn:Ei; [|discriminate]. cbn [option_map] in T.
      destruct (atake n c sk ch) as [[ch' e1]|] eqn:Tc; [|discriminate]. injection T as <- <-.
      rewrite (map_nth_error P i K0 Ei) in SW.
      assert (Lt : i < length K0) by (apply nth_error_Some; congruence).
      assert (Ic : inv false h ch) by (rewrite Forall_forall in K; apply K, (nth_error_In _ _ Ei)).
      assert (Sc : side sk (P ch)).
      { assert (Hin : In (P ch) (map P K0)) by (apply in_map, (nth_error_In _ _ Ei)). apply in_split in Hin as (X1 & X2 & EX).
        destruct O as (B & _). rewrite EX in B, Sd. pose proof (kid_flat n h _ _ _ _ B) as Inc.
        destruct Sd as [Sd|Sd]; [left|right]; rewrite Forall_forall in Sd |- *; intros x Hx; apply Sd, Inc, Hx. }
      destruct (IH ch ch' e1 Ic Sc Tc) as (ct & cu & Sw & _ & Fc & Ic'). rewrite Sw in SW.
      assert (Pc : P ch' = ct) by (unfold BTreeSyncInv.P; rewrite Fc; destruct cu; reflexivity).
      assert (Ek : map P (set_nth i ch' K0) = set_nth i ct (map P K0)) by (rewrite map_set_nth, Pc; reflexivity).
      assert (Nc : nth_error (map fl (set_nth i ch' K0)) i = Some (under c (Some (ct, cu)))).
      { rewrite <- Fc. apply map_nth_error, set_nth_at, Lt. }
      assert (FT : fl (ANode (MIn c i i) [] (e0 :: vs) (set_nth i ch' K0)) = under c (Some (tt, u)) /\ e1 = e').
      { rewrite fl_eq. cbn [BTreeSyncInv.flm]. rewrite Nc, pl_fl, Ek. destruct cu; cbn [under].
        - destruct (rebalance n (e0 :: vs) (set_nth i ct (map P K0)) i) as [[t1 u1]|]; [|discriminate].
          injection SW as <- <- <-. auto.
        - injection SW as <- <- <-. auto. }
      destruct FT as [FT ->]. split; [reflexivity|]. split; [exact Sh|]. split; [exact FT|]. apply inv_intro.
      + rewrite fl_eq in FT. rewrite FT. exact OU.
      + cbn [BTreeSyncInv.nok]. split; [reflexivity|]. split; [rewrite map_length, set_nth_length; exact Lt|].
        split; [|split; [|split; [|split; [exact W|apply O]]]].
        * intros j r Hj. rewrite map_set_nth in Hj. apply set_nth_cases in Hj as [[-> ->]|[N Hj]].
          -- rewrite Fc. destruct cu; [right; split; reflexivity|left; exact Logic.I].
          -- left. rewrite Forall_forall in Pl. apply Pl. apply nth_error_In in Hj. exact Hj.
        * intros d x xs kk Hx. rewrite Nc in Hx. destruct cu; discriminate.
        * intros d t Ht. auto.
      + apply Forall_forall. intros x Hx. apply In_nth_error in Hx as [j Hj]. apply set_nth_cases in Hj as [[-> ->]|[N Hj]].
        * exact Ic'.
        * rewrite Forall_forall in K. apply K, (nth_error_In _ _ Hj).
  Qed.

  Lemma found_nth vs i k (x : entry) : found_at vs i k = Some x -> nth_error vs i = Some x.
  Proof using. unfold found_at. destruct (nth_error vs i) as [[a b]|]; [|discriminate]. destruct (negb _); [auto|discriminate]. Qed.
  Lemma nvals_free rs vs ks : nvals (P (ANode MFree rs vs ks)) = length vs.
  Proof using. rewrite P_free. reflexivity. Qed.

  Lemma kept_swap c vs ks k can k0 v0 l r child t' e :
    ops c = KDelete k can -> found_at vs (search vs k) k = Some (k0, v0) -> can k0 v0 = true ->
    nth_error ks (search vs k) = Some l -> nth_error ks (S (search vs k)) = Some r -> afree l = true -> afree r = true ->
    nth_error ks (if Nat.ltb (length (avals l)) (length (avals r)) then S (search vs k) else search vs k) = Some child ->
    atake n c k0 child = Some (t', e) ->
    kept (ANode (MAt c) [] vs ks) (Some (c, OAsked (Some (k0, v0))))
         (ANode (MIn c (if Nat.ltb (length (avals l)) (length (avals r)) then S (search vs k) else search vs k) (search vs k)) []
                (set_nth (search vs k) e vs) (set_nth (if Nat.ltb (length (avals l)) (length (avals r)) then S (search vs k) else search vs k) t' ks)).
  Proof.
    intros Op Fo Ca El Er Fl Fr Ec Tk. apply kept_intro. intros rt h I. apply inv_elim in I as (O & (_ & Pl & On & W & Lg) & K).
    cbn [BTreeSyncInv.flm] in O |- *. rewrite pl_fl in *.
    assert (St : stores ops c = None) by (unfold stores; rewrite Op; reflexivity).
    destruct h as [|h]; [subst ks; destruct (search vs k); discriminate|].
    set (i := search vs k) in *. set (ch := if Nat.ltb _ _ then S i else i) in *.
    assert (Nk : nth_error (map P ks) i = Some (P l)) by (apply map_nth_error, El).
    assert (Nr : nth_error (map P ks) (S i) = Some (P r)) by (apply map_nth_error, Er).
    destruct (swap_sides n h vs (map P ks) i k0 v0 (P l) (P r) Hn (proj1 On)) as [Sl Sr]; try apply On; auto.
    { exact (found_nth _ _ _ _ Fo). }
    assert (Sd : side k0 (P child)).
    { unfold ch in Ec. destruct (Nat.ltb _ _); [right|left]; [rewrite Er in Ec|rewrite El in Ec]; injection Ec as <-; assumption. }
    assert (Ic : inv false h child) by (rewrite Forall_forall in K; apply K, (nth_error_In _ _ Ec)).
    destruct (atake_ok c k0 St W h child t' e Ic Sd Tk) as (tt & u & Sw & Sh & Ft & It).
    assert (Lt : ch < length ks) by (apply nth_error_Some; congruence).
    assert (Nv : nvals (P l) = length (avals l) /\ nvals (P r) = length (avals r)).
    { apply afree_inv in Fl as (a & b & ->). apply afree_inv in Fr as (a' & b' & ->). split; apply nvals_free. }
    destruct Nv as [Nvl Nvr].
    assert (RI : removeNodeItem n vs (map P ks) i = Some (set_nth i e vs, set_nth ch tt (map P ks), u)).
    { unfold removeNodeItem. rewrite Nk, Nr, (found_nth _ _ _ _ Fo), Nvl, Nvr. fold ch.
      rewrite (map_nth_error P ch ks Ec), Sw. reflexivity. }
    assert (Hu : u = true -> ch = i).
    { intros ->. unfold ch in *. destruct (Nat.ltb_spec (length (avals l)) (length (avals r))) as [L|L]; [exfalso|reflexivity].
      rewrite Er in Ec. injection Ec as <-.
      assert (Ol : okn false h (P l)) by (eapply okn_kid'; [exact On|exact (nth_error_In _ _ Nk)]).
      destruct Ol as (_ & _ & Ll & _). unfold nvals in *. destruct Sh as (S1 & S2 & S3).
      destruct (Nat.eq_dec (length (vals_of tt)) (length (vals_of (P r)))) as [E|E]; [specialize (S2 E); discriminate|].
      specialize (S3 ltac:(lia)). symmetry in S3. apply Nat.ltb_lt in S3. lia. }
    assert (Nt : nth_error (map fl (set_nth ch t' ks)) ch = Some (under c (Some (tt, u)))).
    { rewrite <- Ft. apply map_nth_error, set_nth_at, Lt. }
    assert (Pt : P t' = tt) by (unfold BTreeSyncInv.P; rewrite Ft; destruct u; reflexivity).
    assert (Ek : map P (set_nth ch t' ks) = set_nth ch tt (map P ks)) by (rewrite map_set_nth, Pt; reflexivity).
    assert (NK : map P ks <> []) by (intros E; apply map_eq_nil in E; subst ks; destruct i; discriminate).
    assert (RE : remove n (Node vs (map P ks)) k can =
      if u then match rebalance n (set_nth i e vs) (set_nth ch tt (map P ks)) i with Some (t', u) => DRes t' u (Some (k0, v0)) | None => DPanic end
      else DRes (Node (set_nth i e vs) (set_nth ch tt (map P ks))) false (Some (k0, v0))).
    { rewrite remove_inner by exact NK. fold i. rewrite Fo, Ca, RI. destruct u; reflexivity. }
    rewrite (delete_flop n ops c k can _ Op), RE in O. rewrite (delete_answer n ops c k can _ Op), RE in Lg.
    rewrite !pl_fl. rewrite (delete_flop n ops c k can _ Op), RE.
    split; [|split; [|split]].
    - rewrite Nt, Ek. destruct u; cbn [under].
      + destruct (rebalance n _ _ i) as [[? ?]|]; reflexivity.
      + reflexivity.
    - cbn [BTreeSyncInv.nok]. split; [reflexivity|]. split; [rewrite map_length, set_nth_length; exact Lt|].
      split; [|split; [|split; [|split; [exact W|rewrite set_nth_length; apply On]]]].
      + intros j x Hj. rewrite map_set_nth in Hj. apply set_nth_cases in Hj as [[-> ->]|[N Hj]].
        * rewrite Ft. destruct u; [right; split; reflexivity|left; exact Logic.I].
        * left. rewrite Forall_forall in Pl. apply Pl. apply nth_error_In in Hj. exact Hj.
      + intros d x xs kk Hx. rewrite Nt in Hx. destruct u; discriminate.
      + intros d t Ht. rewrite Nt in Ht. destruct u; [|discriminate]. split; [symmetry; apply Hu; reflexivity|exact St].
    - apply Forall_forall. intros x Hx. apply In_nth_error in Hx as [j Hj]. apply set_nth_cases in Hj as [[-> ->]|[N Hj]].
      + exact It.
      + rewrite Forall_forall in K. apply K, (nth_error_In _ _ Hj).
    - destruct u; [|exact Lg]. destruct (rebalance n _ _ i) as [[? ?]|]; [exact Lg|destruct O].
  Qed.

  (** ** Readers *)
  Lemma kept_leave c r1 r2 vs ks x :
    (forall k, rkey ops c = Some k -> get (Node vs (map P ks)) k = x) ->
    kept (ANode MFree (r1 ++ c :: r2) vs ks) (Some (c, ORead x)) (ANode MFree (r1 ++ r2) vs ks).
  Proof.
    intros Gx. apply kept_intro. intros rt h I. apply inv_elim in I as (O & (Pl & Rd) & K).
    split; [reflexivity|]. split; [split; [exact Pl|]|split; [exact K|]].
    - intros d Hd. apply Rd. apply in_app_iff in Hd. apply in_or_app. destruct Hd; [left|right; right]; assumption.
    - destruct (Rd c) as (k & Rk & Lg); [apply in_elt|]. rewrite pl_fl, (Gx k Rk) in Lg. exact Lg.
  Qed.
  Lemma kept_hit c r1 r2 vs ks k k0 v0 :
    rkey ops c = Some k ->
    (match ks with [] => leaf_match vs k | _ => found_at vs (search vs k) k end) = Some (k0, v0) ->
    kept (ANode MFree (r1 ++ c :: r2) vs ks) (Some (c, ORead (Some v0))) (ANode MFree (r1 ++ r2) vs ks).
  Proof.
    intros Rk Fo. apply kept_leave. intros k' Rk'. assert (k' = k) by congruence. subst k'.
    destruct ks; cbn [map get]; rewrite Fo; reflexivity.
  Qed.
  Lemma kept_miss c r1 r2 vs k :
    rkey ops c = Some k -> leaf_match vs k = None ->
    kept (ANode MFree (r1 ++ c :: r2) vs []) (Some (c, ORead None)) (ANode MFree (r1 ++ r2) vs []).
  Proof.
    intros Rk Fo. apply kept_leave. intros k' Rk'. assert (k' = k) by congruence. subst k'. cbn [map get]. rewrite Fo. reflexivity.
  Qed.
  Lemma get_down vs (K : list node) k c :
    found_at vs (search vs k) k = None -> nth_error K (search vs k) = Some c -> get (Node vs K) k = get c k.
  Proof using.
    intros Fo Nt. destruct K as [|k0 K]; [destruct (search vs k); discriminate|]. cbn [get]. rewrite Fo, on_nth_spec, Nt. reflexivity.
  Qed.
  Lemma kept_rdown c r1 r2 vs k l1 rs cv ck l2 :
    rkey ops c = Some k -> found_at vs (search vs k) k = None -> length l1 = search vs k ->
    kept (ANode MFree (r1 ++ c :: r2) vs (l1 ++ ANode MFree rs cv ck :: l2)) None
         (ANode MFree (r1 ++ r2) vs (l1 ++ ANode MFree (c :: rs) cv ck :: l2)).
  Proof.
    intros Rk Fo Li. apply kept_intro. intros rt h I. apply inv_elim in I as (O & (Pl & Rd) & K).
    assert (Em : map fl (l1 ++ ANode MFree (c :: rs) cv ck :: l2) = map fl (l1 ++ ANode MFree rs cv ck :: l2))
      by (rewrite !map_app; reflexivity).
    rewrite Em. split; [reflexivity|]. split; [split; [exact Pl|]|split; [|exact Logic.I]].
    - intros d Hd. apply Rd. apply in_app_iff in Hd. apply in_or_app. destruct Hd; [left|right; right]; assumption.
    - destruct h as [|h]; [destruct l1; discriminate|]. apply forall_mid in K as (K1 & Kc & K2). apply forall_mid.
      split; [exact K1|]. split; [|exact K2]. apply inv_elim in Kc as (Oc & (Plc & Rc) & Kc). apply inv_intro; [exact Oc| |exact Kc].
      split; [exact Plc|]. intros d [<-|Hd]; [|apply Rc, Hd].
      destruct (Rd c) as (k' & Rk' & Lg); [apply in_elt|]. assert (k' = k) by congruence. subst k'. exists k. split; [exact Rk|].
      rewrite pl_fl in *. rewrite (get_down vs _ k (P (ANode MFree rs cv ck)) Fo) in Lg.
      + rewrite P_free in Lg. exact Lg.
      + rewrite map_app. apply nth_error_app_len. rewrite map_length. exact Li.
  Qed.

  Lemma kept_kid m rs vs l1 t t' l2 o :
    kept t o t' -> kept (ANode m rs vs (l1 ++ t :: l2)) o (ANode m rs vs (l1 ++ t' :: l2)).
  Proof.
    intros Kt. apply kept_intro. intros rt h I. apply inv_elim in I as (O & N & K).
    destruct h as [|h]; [destruct l1; discriminate|]. apply forall_mid in K as (K1 & Kc & K2).
    destruct (Kt false h Kc) as (F & I' & L).
    assert (Em : map fl (l1 ++ t' :: l2) = map fl (l1 ++ t :: l2)) by (rewrite !map_app; cbn [map]; rewrite F; reflexivity).
    rewrite Em. split; [reflexivity|]. split; [exact N|]. split; [|exact L]. apply forall_mid. auto.
  Qed.
End Step.

Theorem lstep_kept {V} n (ops : nat -> cop V) log t o t' :
  2 <= n -> good_calls ops -> lstep n ops t o t' -> kept n ops log t o t'.
Proof.
  intros Hn Hg St. induction St.
  - eapply kept_exists; eauto.
  - eapply kept_insert; eauto.
  - eapply kept_down; eauto.
  - eapply kept_split; eauto.
  - eapply kept_absent; eauto.
  - eapply kept_veto; eauto.
  - eapply kept_remove; eauto.
  - eapply kept_swap; eauto.
  - eapply kept_rebalance; eauto.
  - eapply kept_release; eauto.
  - eapply kept_hit; eauto.
  - eapply kept_miss; eauto.
  - eapply kept_rdown; eauto.
  - eapply kept_kid; eauto.
Qed.
