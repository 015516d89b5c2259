(** Every step inside the tree keeps what the tree stands for and the invariant of its nodes. *)
From Coq Require Import Sorted Permutation ZifyBool ZifyNat.
From Verif Require Import Datatypes SpecValues DatatypesProofs BTree SpecBTree BTreeProofs BTreeFind BTreeSync BTreeSyncSeq
  BTreeSyncInv SpecBTreeSync.
Local Open Scope nat_scope.

Section Step.
  Context {V : Type}.
  Variable n : nat.
  Variable ops : nat -> cop V.
  Variable log : nat -> out V -> Prop.
  Hypothesis Hn : 2 <= n.
  Hypothesis Hg : good_calls ops.
  Notation node := (node V).
  Notation entry := (entry V).
  Notation atree := (atree V).
  Notation res := (res V).
  Notation fl := (fl n ops).
  Notation flm := (flm n ops).
  Notation flop := (flop n ops).
  Notation P := (P n ops).
  Notation inv := (inv n ops log).
  Notation nok := (nok n ops log).
  Notation okn := (okn n).
  Notation okres := (okres n).
  Notation over := (over n).

  Lemma wkey_good c k : wkey ops c = Some k -> good k.
  Proof. pose proof (Hg c) as G. unfold wkey. destruct (ops c); intros E; try discriminate; injection E as <-; exact G. Qed.
  Lemma rkey_good c k : rkey ops c = Some k -> good k.
  Proof. pose proof (Hg c) as G. unfold rkey. destruct (ops c); intros E; try discriminate; injection E as <-; exact G. Qed.
  Lemma stores_wkey c k v : stores ops c = Some (k, v) -> wkey ops c = Some k.
  Proof. unfold stores, wkey. destruct (ops c); intros E; try discriminate; injection E as <- <-; reflexivity. Qed.
  Lemma stores_flop c k v t : stores ops c = Some (k, v) ->
    flop c t = match create n t k (Some v) with CExists _ => RPlain t | CPanic => RBad | CSame t' => RPlain t' | CSplit p => RSplit c p end.
  Proof. unfold stores, BTreeSyncInv.flop. destruct (ops c); intros E; try discriminate; injection E as <- <-; reflexivity. Qed.
  Lemma stores_answer c k v t : stores ops c = Some (k, v) ->
    answer n ops c t = match create n t k (Some v) with CExists v0 => OExists v0 | _ => OCreated end.
  Proof. unfold stores, answer. destruct (ops c); intros E; try discriminate; injection E as <- <-; reflexivity. Qed.
  Lemma delete_flop c k can t : ops c = KDelete k can ->
    flop c t = match remove n t k can with DPanic => RBad | DRes t' u _ => under c (Some (t', u)) end.
  Proof. unfold BTreeSyncInv.flop. intros ->. reflexivity. Qed.
  Lemma delete_answer c k can t : ops c = KDelete k can ->
    answer n ops c t = match remove n t k can with DRes _ _ a => OAsked a | DPanic => OAsked None end.
  Proof. unfold answer. intros ->. reflexivity. Qed.
  Lemma wkey_cases c k : wkey ops c = Some k -> (exists v, stores ops c = Some (k, v)) \/ (exists can, ops c = KDelete k can /\ stores ops c = None).
  Proof. unfold wkey, stores. destruct (ops c); intros E; try discriminate; injection E as <-; eauto. Qed.

  (** ** A whole operation on a good subtree *)
  Lemma flop_ok rt h c t : okn rt h t -> wkey ops c <> None -> okres rt h (flop c t).
  Proof.
    intros (B & L & Lo & S & G) W. destruct (wkey ops c) as [k|] eqn:Wk; [|congruence].
    pose proof (wkey_good c k Wk) as Gk. destruct (wkey_cases c k Wk) as [[v St]|(can & Op & _)].
    - rewrite (stores_flop c k v t St). pose proof (create_spec n h t k (Some v) Hn B L G Gk S) as C.
      destruct (create n t k (Some v)) as [v0| |t'|p]; cbn [create_post] in C; cbn [BTreeSyncInv.okres].
      + repeat split; auto.
      + exact C.
      + destruct C as (A & B' & L' & F). repeat split; auto; try lia.
        * destruct rt; [intros H; specialize (Lo H); lia|lia].
        * rewrite F. apply ins_sorted; auto.
        * rewrite F. apply ins_goods; auto.
      + destruct C as (A & Sp & v1 & _ & F). split; [exact Sp|]. rewrite F. split; [apply ins_sorted; auto|apply ins_goods; auto].
    - rewrite (delete_flop c k can t Op).
      assert (L1 : 0 < h -> 1 <= length (vals_of t)).
      { destruct rt; [exact Lo|]. intros _. lia. }
      pose proof (remove_spec n h Hn t k can B L1 L G Gk S) as R.
      destruct (remove n t k can) as [|t' u a]; cbn [remove_post] in R; [exact R|].
      destruct R as (B' & (S1 & S2 & S3) & F).
      assert (SG : sorted (flat t') /\ goods (flat t')).
      { destruct a as [[k' v']|].
        - destruct F as (_ & _ & _ & F). destruct (can k' v').
          + rewrite F. split; [apply del_sorted; auto|apply del_goods; auto].
          + subst t'. auto.
        - destruct F as [_ ->]. auto. }
      destruct SG as [S' G']. cbn [under].
      destruct (Nat.eq_dec (length (vals_of t')) (length (vals_of t))) as [E|E].
      + rewrite (S2 E). cbn [BTreeSyncInv.okres]. repeat split; auto; try lia. destruct rt; [intros H; specialize (Lo H); lia|lia].
      + assert (Lt : length (vals_of t') < length (vals_of t)) by lia. specialize (S3 Lt).
        destruct u; symmetry in S3; cbn [BTreeSyncInv.okres].
        * apply Nat.ltb_lt in S3. repeat split; auto; try lia. intros ->. lia.
        * apply Nat.ltb_ge in S3. repeat split; auto; try lia. destruct rt; [intros H; lia|lia].
  Qed.

  (** ** Released ancestors *)

  Lemma flop_tag c t d : tag (flop c t) = Some d -> flop c t <> RBad -> d = c.
  Proof.
    unfold BTreeSyncInv.flop. intros H N.
    destruct (ops c); try congruence;
      [destruct (create n t k (Some v))|destruct (remove n t k can) as [|? [] ?]|destruct (create n t k (Some v))]; cbn in H; congruence.
  Qed.
  Lemma over_tag c vs (ks : list node) d : tag (over c vs ks) = Some d -> over c vs ks <> RBad -> d = c.
  Proof.
    unfold BTreeSyncInv.over. intros H N. destruct (Nat.ltb _ _); [|discriminate].
    destruct (match ks with [] => _ | _ => _ end); cbn in H; congruence.
  Qed.
  Lemma under_tag (c : nat) (r : option (node * bool)) d : tag (under c r) = Some d -> under c r <> RBad -> d = c.
  Proof. destruct r as [[t []]|]; cbn; congruence. Qed.
  (** What a subtree hands up is handed up by the call in its top node. *)
  Lemma fl_tag rt h t d : inv rt h t -> tag (fl t) = Some d -> exists rs vs ks m, t = ANode m rs vs ks /\ mark_of m d = true.
  Proof.
    intros I H. destruct t as [m rs vs ks]. apply inv_elim in I as (O & N & K). exists rs, vs, ks, m. split; [reflexivity|].
    rewrite fl_eq in H. assert (NB : flm m vs (map fl ks) <> RBad) by (intros E; rewrite E in O; exact O).
    destruct m; cbn [BTreeSyncInv.flm] in *.
    - discriminate.
    - apply flop_tag in H; [|exact NB]. subst. apply Nat.eqb_refl.
    - destruct (nth_error (map fl ks) i) as [[]|]; try congruence; [discriminate| |].
      + destruct (insertNode vs (map pl (map fl ks)) p) as [[? ?]|]; [|congruence].
        apply over_tag in H; [|exact NB]. subst. apply Nat.eqb_refl.
      + apply under_tag in H; [|exact NB]. subst. apply Nat.eqb_refl.
    - apply over_tag in H; [|exact NB]. subst. apply Nat.eqb_refl.
    - injection H as <-. apply Nat.eqb_refl.
  Qed.

  Lemma room_flop c vs ks : room n ops c vs = true -> wkey ops c <> None -> flop c (Node vs ks) <> RBad -> plain (flop c (Node vs ks)).
  Proof.
    intros R W B. destruct (wkey ops c) as [k|] eqn:Wk; [|congruence].
    destruct (wkey_cases c k Wk) as [[v St]|(can & Op & _)].
    - rewrite (stores_flop c k v _ St) in *. destruct (create n (Node vs ks) k (Some v)) as [| | |p] eqn:E; cbn; auto.
      assert (L : length vs + 1 <= n).
      { unfold room, stores in *. destruct (ops c); try discriminate; apply Nat.leb_le in R; exact R. }
      exact (create_room n vs ks k v p L E).
    - rewrite (delete_flop c k can _ Op) in *. destruct (remove n (Node vs ks) k can) as [|t u a] eqn:E; [congruence|].
      assert (L : minValues n + 1 <= length vs).
      { unfold room in *. rewrite Op in R. apply Nat.leb_le in R. exact R. }
      apply remove_room in E; [|exact L]. subst u. cbn. exact I.
  Qed.

  Lemma plain_tag (r : res) : tag r = None -> plain r.
  Proof. destruct r; cbn; try discriminate; auto. Qed.

  Lemma settled_tag c : forall h rt t, inv rt h t -> settled n ops c t = true -> tag (fl t) <> Some c.
  Proof.
    induction h as [|h IH]; intros rt [m rs vs ks] I H Ht; pose proof I as I0; apply inv_elim in I as (O & N & K);
      destruct (fl_tag rt _ _ c I0 Ht) as (rs0 & vs0 & ks0 & m0 & E0 & M); injection E0 as <- <- <- <-;
      rewrite fl_eq in Ht; assert (NB : flm m vs (map fl ks) <> RBad) by (intros E; rewrite E in O; exact O);
      destruct m; cbn [mark_of] in M; try discriminate; apply Nat.eqb_eq in M; subst c0;
      cbn [settled] in H; rewrite Nat.eqb_refl in H; cbn [negb orb] in H; try discriminate.
    - cbn [BTreeSyncInv.flm] in Ht, NB. destruct N as (_ & _ & _ & W & _). pose proof (room_flop _ _ _ H W NB) as Pl.
      destruct (flop c _); cbn in Pl, Ht; tauto || discriminate.
    - subst ks. destruct N as (_ & L & _). cbn in L. lia.
    - cbn [BTreeSyncInv.flm] in Ht, NB. destruct N as (_ & _ & _ & W & _). pose proof (room_flop _ _ _ H W NB) as Pl.
      destruct (flop c _); cbn in Pl, Ht; tauto || discriminate.
    - cbn [BTreeSyncInv.flm] in Ht, NB. destruct N as (_ & L & Oth & Sp & Un & W & _).
      apply Bool.orb_true_iff in H as [H|H].
      + destruct (nth_error (map fl ks) i) as [[t|d p|d t|]|] eqn:E; try discriminate; try congruence.
        * destruct (insertNode vs (map pl (map fl ks)) p) as [[vs' ks']|] eqn:EI; [|congruence].
          unfold BTreeSyncInv.over in Ht. pose proof (insertNode_length _ _ _ _ _ EI) as Lv.
          destruct p as [[|x xs] pk]; [discriminate|]. destruct (Sp _ _ _ _ eq_refl) as [_ St].
          replace (Nat.ltb (maxValues n) (length vs')) with false in Ht; [discriminate|].
          symmetry. apply Nat.ltb_ge. unfold room, stores in *. destruct (ops c); try congruence; apply Nat.leb_le in H; unfold maxValues in *; lia.
        * destruct (Un _ _ eq_refl) as [_ St]. destruct (rebalance n vs (map pl (map fl ks)) b) as [[t' u]|] eqn:R; [|exfalso; apply NB; reflexivity].
          apply rebalance_room in R; [subst u; discriminate|].
          unfold room, stores, wkey in *. destruct (ops c); try congruence. apply Nat.leb_le in H. exact H.
      + rewrite on_nth_spec in H. destruct (nth_error ks i) as [ch|] eqn:E; [|discriminate]. cbn [option_map] in H.
        rewrite (map_nth_error fl i ks E) in Ht, NB.
        rewrite Forall_forall in K. apply nth_error_In in E as Hin. specialize (IH false ch (K _ Hin) H).
        destruct (Oth i (fl ch) (map_nth_error fl i ks E)) as [Pl|[_ T]]; [|congruence].
        destruct (fl ch); cbn in Pl, Ht; tauto || discriminate.
  Qed.

  (** ** The steps one by one *)
  Definition kept (t : atree) (o : option (nat * out V)) (t' : atree) : Prop :=
    forall rt h, inv rt h t ->
      fl t' = fl t /\ inv rt h t' /\ match o with Some (c, x) => log c x | None => True end.

  Definition kidsok (h : nat) (ks : list atree) : Prop :=
    match h with O => ks = [] | S h' => Forall (inv false h') ks end /\ Forall plain (map fl ks).
  Lemma kidsok_incl h l l' : kidsok h l -> incl l' l -> kidsok h l'.
  Proof.
    intros [H1 H2] I. split.
    - destruct h as [|h].
      + subst l. destruct l' as [|x l']; [reflexivity|]. destruct (I x). left. reflexivity.
      + rewrite Forall_forall in *. auto.
    - rewrite Forall_forall in *. intros r Hr. apply in_map_iff in Hr as (t & <- & Ht). apply H2, in_map, I, Ht.
  Qed.
  Lemma kidsok_app h l1 l2 : kidsok h l1 -> kidsok h l2 -> kidsok h (l1 ++ l2).
  Proof.
    intros [H1 H2] [H3 H4]. split.
    - destruct h as [|h]; [subst; reflexivity|]. apply Forall_app. auto.
    - rewrite map_app. apply Forall_app. auto.
  Qed.
  Lemma new_node h vs ks : kidsok h ks -> okn false h (Node vs (map P ks)) -> inv false h (ANode MFree [] vs ks).
  Proof.
    intros [K1 K2] O. apply inv_intro.
    - cbn [BTreeSyncInv.flm BTreeSyncInv.okres]. rewrite pl_fl. exact O.
    - split; [exact K2|]. intros c [].
    - exact K1.
  Qed.

  Lemma kept_intro m rs vs ks o m' rs' vs' ks' :
    (forall rt h, inv rt h (ANode m rs vs ks) ->
       flm m' vs' (map fl ks') = flm m vs (map fl ks) /\
       nok rt h m' rs' vs' (map fl ks') /\ match h with O => ks' = [] | S h' => Forall (inv false h') ks' end /\
       match o with Some (c, x) => log c x | None => True end) ->
    kept (ANode m rs vs ks) o (ANode m' rs' vs' ks').
  Proof.
    intros H rt h I. destruct (H rt h I) as (F & N & K & L). rewrite !fl_eq. split; [exact F|]. split; [|exact L].
    apply inv_intro; auto. rewrite F. apply inv_elim in I. apply I.
  Qed.

  Lemma create_found n' vs (K : list node) k v k0 v0 :
    found_at vs (search vs k) k = Some (k0, v0) -> create n' (Node vs K) k (Some v) = CExists v0.
  Proof.
    intros F. destruct K as [|c K].
    - cbn [create]. unfold createTreeItem. rewrite F. reflexivity.
    - rewrite create_inner by discriminate. rewrite F. reflexivity.
  Qed.
  Lemma remove_veto n' vs (K : list node) k can k0 v0 :
    found_at vs (search vs k) k = Some (k0, v0) -> can k0 v0 = false ->
    remove n' (Node vs K) k can = DRes (Node vs K) false (Some (k0, v0)).
  Proof.
    intros F C. destruct K as [|c K].
    - cbn [remove]. rewrite F, C. reflexivity.
    - rewrite remove_inner by discriminate. rewrite F, C. reflexivity.
  Qed.

  Lemma leave c vs ks o :
    flop c (Node vs (map P ks)) = RPlain (Node vs (map P ks)) -> answer n ops c (Node vs (map P ks)) = o ->
    kept (ANode (MAt c) [] vs ks) (Some (c, o)) (ANode MFree [] vs ks).
  Proof.
    intros F A. apply kept_intro. intros rt h I. apply inv_elim in I as (O & (_ & Pl & _ & _ & Lg) & K).
    cbn [BTreeSyncInv.flm]. rewrite pl_fl in *. split; [symmetry; exact F|]. split; [split; [exact Pl|intros d []]|].
    split; [exact K|]. rewrite <- A. exact Lg.
  Qed.

  Lemma kept_exists c vs ks k v k0 v0 :
    stores ops c = Some (k, v) -> found_at vs (search vs k) k = Some (k0, v0) ->
    kept (ANode (MAt c) [] vs ks) (Some (c, OExists v0)) (ANode MFree [] vs ks).
  Proof.
    intros St Fo. apply leave.
    - rewrite (stores_flop c k v _ St), (create_found _ _ _ _ v _ _ Fo). reflexivity.
    - rewrite (stores_answer c k v _ St), (create_found _ _ _ _ v _ _ Fo). reflexivity.
  Qed.
  Lemma kept_veto c vs ks k can k0 v0 :
    ops c = KDelete k can -> found_at vs (search vs k) k = Some (k0, v0) -> can k0 v0 = false ->
    kept (ANode (MAt c) [] vs ks) (Some (c, OAsked (Some (k0, v0)))) (ANode MFree [] vs ks).
  Proof.
    intros St Fo Ca. apply leave.
    - rewrite (delete_flop c k can _ St), (remove_veto _ _ _ _ _ _ _ Fo Ca). reflexivity.
    - rewrite (delete_answer c k can _ St), (remove_veto _ _ _ _ _ _ _ Fo Ca). reflexivity.
  Qed.
  Lemma kept_absent c vs k can :
    ops c = KDelete k can -> found_at vs (search vs k) k = None ->
    kept (ANode (MAt c) [] vs []) (Some (c, OAsked None)) (ANode MFree [] vs []).
  Proof.
    intros St Fo. apply leave; cbn [map].
    - rewrite (delete_flop c k can _ St). cbn [remove]. rewrite Fo. reflexivity.
    - rewrite (delete_answer c k can _ St). cbn [remove]. rewrite Fo. reflexivity.
  Qed.

  Lemma kept_insert c vs k v vs' :
    stores ops c = Some (k, v) -> createTreeItem vs k (Some v) = inr vs' ->
    kept (ANode (MAt c) [] vs []) (Some (c, OCreated))
         (ANode (if Nat.ltb (maxValues n) (length vs') then MOver c else MFree) [] vs' []).
  Proof.
    intros St C. apply kept_intro. intros rt h I. apply inv_elim in I as (O & (_ & Pl & (_ & Ln & _) & _ & Lg) & K).
    cbn [map vals_of BTreeSyncInv.flm] in *.
    rewrite (stores_flop c k v _ St) in *. rewrite (stores_answer c k v _ St) in Lg. cbn [create] in *. rewrite C in *.
    pose proof (createTreeItem_length _ _ _ _ C) as Lv.
    split; [|split; [|split; [exact K|]]].
    - destruct (Nat.ltb (maxValues n) (length vs')) eqn:E; cbn [BTreeSyncInv.flm map]; [|reflexivity].
      unfold BTreeSyncInv.over. rewrite E. destruct (splitLeaf n vs'); reflexivity.
    - destruct (Nat.ltb_spec (maxValues n) (length vs')) as [Lt|Ge]; cbn [BTreeSyncInv.nok].
      + unfold maxValues in Lt. split; [reflexivity|]. split; [constructor|]. lia.
      + split; [constructor|]. intros d [].
    - destruct (Nat.ltb (maxValues n) (length vs')); [destruct (splitLeaf n vs')|]; exact Lg.
  Qed.

  Lemma kept_remove c vs k can k0 v0 :
    ops c = KDelete k can -> found_at vs (search vs k) k = Some (k0, v0) -> can k0 v0 = true ->
    kept (ANode (MAt c) [] vs []) (Some (c, OAsked (Some (k0, v0))))
         (ANode (if Nat.ltb (length (del_nth (search vs k) vs)) (minValues n) then MUnder c else MFree) [] (del_nth (search vs k) vs) []).
  Proof.
    intros St Fo Ca. apply kept_intro. intros rt h I. apply inv_elim in I as (O & (_ & Pl & (_ & Ln & _) & _ & Lg) & K).
    cbn [map vals_of BTreeSyncInv.flm] in *.
    rewrite (delete_flop c k can _ St) in *. rewrite (delete_answer c k can _ St) in Lg. cbn [remove] in *. rewrite Fo, Ca in *.
    unfold removeLeafItem in *. cbn [under] in *.
    split; [|split; [|split; [exact K|exact Lg]]].
    - destruct (Nat.ltb _ (minValues n)); reflexivity.
    - destruct (Nat.ltb _ (minValues n)); cbn [BTreeSyncInv.nok].
      + split; [reflexivity|constructor].
      + split; [constructor|intros d []].
  Qed.

  Lemma kept_release c i b vs ks ch :
    nth_error ks i = Some ch -> settled n ops c ch = true ->
    kept (ANode (MIn c i b) [] vs ks) None (ANode MFree [] vs ks).
  Proof.
    intros E Se. apply kept_intro. intros rt h I. apply inv_elim in I as (O & (_ & L & Oth & _) & K).
    assert (Pl : plain (fl ch)).
    { destruct (Oth i (fl ch) (map_nth_error fl i ks E)) as [Pl|[_ T]]; [exact Pl|exfalso].
      destruct h as [|h]; [subst ks; destruct i; discriminate|]. rewrite Forall_forall in K.
      exact (settled_tag c h false ch (K _ (nth_error_In _ _ E)) Se T). }
    cbn [BTreeSyncInv.flm]. rewrite (map_nth_error fl i ks E). split; [destruct (fl ch); cbn in Pl; tauto|].
    split; [|split; [exact K|exact Logic.I]]. cbn [BTreeSyncInv.nok]. split; [|intros d []].
    apply Forall_forall. intros r Hr. apply In_nth_error in Hr as [j Hj]. destruct (Oth j r Hj) as [H|[-> _]]; [exact H|].
    rewrite (map_nth_error fl i ks E) in Hj. injection Hj as <-. exact Pl.
  Qed.

  (** ** Going down *)
  Lemma plain_mid (l1 : list atree) t l2 : Forall plain (map fl (l1 ++ t :: l2)) -> plain (fl t).
  Proof. rewrite Forall_forall. intros H. apply H, in_map, in_elt. Qed.
  Lemma map_mid (f : atree -> res) (l1 : list atree) t l2 : nth_error (map f (l1 ++ t :: l2)) (length l1) = Some (f t).
  Proof using. rewrite map_app. cbn [map]. apply nth_error_app_len, map_length. Qed.
  Lemma mid_cases (f : atree -> res) (l1 : list atree) t l2 j r :
    nth_error (map f (l1 ++ t :: l2)) j = Some r -> (j = length l1 /\ r = f t) \/ (j <> length l1 /\ exists x, (In x l1 \/ In x l2) /\ r = f x).
  Proof.
    intros H. destruct (Nat.eq_dec j (length l1)) as [->|N].
    - left. rewrite map_mid in H. injection H as <-. auto.
    - right. split; [exact N|]. rewrite nth_error_map' in H. destruct (nth_error (l1 ++ t :: l2) j) as [x|] eqn:E; [|discriminate].
      injection H as <-. exists x. split; [|reflexivity].
      destruct (Nat.lt_ge_cases j (length l1)) as [Lt|Ge].
      + left. rewrite nth_error_app1 in E by exact Lt. exact (nth_error_In _ _ E).
      + right. rewrite nth_error_app2 in E by exact Ge. destruct (j - length l1) as [|q] eqn:Q; [lia|]. exact (nth_error_In l2 q E).
  Qed.
  Lemma plain_in (l : list atree) t : Forall plain (map fl l) -> In t l -> plain (fl t).
  Proof. rewrite Forall_forall. intros H I. apply H, in_map, I. Qed.

  Lemma okn_kid rt h vs K1 (c : node) K2 : okn rt (S h) (Node vs (K1 ++ c :: K2)) -> okn false h c.
  Proof.
    intros (B & L & Lo & S & G). destruct (kid_sorted n h vs K1 c K2 B S G) as ((Bc & Lc) & Sc & Gc). repeat split; auto; lia.
  Qed.

  Lemma kept_down c vs k l1 cv ck l2 :
    wkey ops c = Some k -> found_at vs (search vs k) k = None -> length l1 = search vs k ->
    kept (ANode (MAt c) [] vs (l1 ++ ANode MFree [] cv ck :: l2)) None
         (ANode (MIn c (length l1) (length l1)) [] vs (l1 ++ ANode (MAt c) [] cv ck :: l2)).
  Proof.
    intros Wk Fo Li. apply kept_intro. intros rt h I. apply inv_elim in I as (O & (_ & Pl & On & W & Lg) & K).
    destruct h as [|h]; [destruct l1; discriminate|]. rewrite pl_fl in *.
    pose proof (wkey_good c k Wk) as Gk.
    apply forall_mid in K as (K1 & Kc & K2). apply inv_elim in Kc as (Oc & (Plc & _) & Kc).
    set (K := map P (l1 ++ ANode MFree [] cv ck :: l2)) in *.
    assert (EK : K = map P l1 ++ Node cv (map P ck) :: map P l2) by (unfold K; rewrite map_app; cbn [map]; rewrite P_free; reflexivity).
    assert (Oc' : okn false h (Node cv (map P ck))) by (rewrite EK in On; exact (okn_kid _ _ _ _ _ _ On)).
    pose proof (flop_ok false h c _ Oc' W) as Of.
    assert (Fc : fl (ANode (MAt c) [] cv ck) = flop c (Node cv (map P ck))) by (rewrite fl_eq; cbn [BTreeSyncInv.flm]; rewrite pl_fl; reflexivity).
    assert (NK : K <> []) by (rewrite EK; destruct (map P l1); discriminate).
    assert (NT : nth_error K (search vs k) = Some (Node cv (map P ck))) by (rewrite EK; apply nth_error_app_len; rewrite map_length; exact Li).
    assert (SetK : forall x, set_nth (search vs k) x K = map P l1 ++ x :: map P l2)
      by (intros x; rewrite EK; apply set_nth_app; rewrite map_length; exact Li).
    assert (Ix : forall v x xs ks', stores ops c = Some (k, v) -> create n (Node cv (map P ck)) k (Some v) = CSplit (Node (x :: xs) ks') ->
              insert_index vs (fst x) = length l1).
    { intros v x xs ks' St C. rewrite Li. destruct On as (B & _ & _ & So & Go). rewrite EK in B, So, Go.
      eapply (split_index n h vs (map P l1)); eauto. rewrite map_length. exact Li. }
    assert (After : flm (MIn c (length l1) (length l1)) vs (map fl (l1 ++ ANode (MAt c) [] cv ck :: l2)) =
      match flop c (Node cv (map P ck)) with
      | RPlain t => RPlain (Node vs (map P l1 ++ t :: map P l2))
      | RSplit _ p => match insertNode vs (map P l1 ++ p :: map P l2) p with Some (vs', ks') => over c vs' ks' | None => RBad end
      | RUnder _ t => under c (rebalance n vs (map P l1 ++ t :: map P l2) (length l1))
      | RBad => RBad
      end).
    { cbn [BTreeSyncInv.flm]. rewrite map_mid. rewrite pl_fl, map_app. cbn [map]. unfold P at 2 5 8. rewrite Fc.
      destruct (flop c (Node cv (map P ck))); reflexivity. }
    split; [|split; [|split; [|exact Logic.I]]].
    - rewrite After. cbn [BTreeSyncInv.flm]. rewrite pl_fl. fold K.
      destruct (wkey_cases c k Wk) as [[v St]|(can & Op & _)].
      + rewrite !(stores_flop c k v _ St). rewrite (create_inner n vs K k (Some v) NK), Fo, NT.
        specialize (Ix v). destruct (create n (Node cv (map P ck)) k (Some v)) as [v0| |t'|p] eqn:C.
        * rewrite EK. reflexivity.
        * reflexivity.
        * rewrite SetK. reflexivity.
        * destruct p as [[|x xs] [|pl0 [|pr0 pk]]]; try reflexivity. specialize (Ix _ _ _ St eq_refl).
          cbn [insertNode]. rewrite Ix. rewrite EK.
          rewrite !firstn_app_len by apply map_length. rewrite !skipn_app_len_S by apply map_length.
          unfold BTreeSyncInv.over. destruct (Nat.ltb _ _); [|reflexivity].
          destruct (map P l1 ++ pl0 :: pr0 :: map P l2) eqn:EE; [destruct (map P l1); discriminate|]. destruct (splitNode _ _ _); reflexivity.
      + rewrite !(delete_flop c k can _ Op). rewrite (remove_inner n vs K k can NK), Fo, NT.
        destruct (remove n (Node cv (map P ck)) k can) as [|t' [] a]; cbn [under]; [reflexivity| |].
        * rewrite SetK, <- Li. destruct (rebalance n vs _ (length l1)) as [[? []]|]; reflexivity.
        * rewrite SetK. reflexivity.
    - cbn [BTreeSyncInv.nok]. split; [reflexivity|]. split; [rewrite map_length, app_length; cbn [length]; lia|].
      split; [|split; [|split; [|split; [congruence|apply On]]]].
      + intros j r Hj. apply mid_cases in Hj as [[-> ->]|(_ & x & Hx & ->)].
        * rewrite Fc. destruct (flop c (Node cv (map P ck))) eqn:E; cbn [BTreeSyncInv.okres] in Of; [left; exact Logic.I|right|right|destruct Of].
          -- split; [reflexivity|]. cbn [tag]. f_equal. apply (flop_tag c (Node cv (map P ck))); rewrite E; [reflexivity|discriminate].
          -- split; [reflexivity|]. cbn [tag]. f_equal. apply (flop_tag c (Node cv (map P ck))); rewrite E; [reflexivity|discriminate].
        * left. apply (plain_in _ _ Pl). apply in_or_app. destruct Hx; [left|right; right]; assumption.
      + intros d x xs ks' Hx. rewrite map_mid, Fc in Hx. injection Hx as Hx.
        destruct (wkey_cases c k Wk) as [[v St]|(can & Op & _)].
        * split; [|congruence]. rewrite (stores_flop c k v _ St) in Hx.
          destruct (create n (Node cv (map P ck)) k (Some v)) as [| |t'|p] eqn:C; try discriminate. injection Hx as _ ->.
          exact (Ix v _ _ _ St C).
        * rewrite (delete_flop c k can _ Op) in Hx. destruct (remove n _ k can) as [|? [] ?]; discriminate.
      + intros d t Hx. rewrite map_mid, Fc in Hx. injection Hx as Hx. split; [reflexivity|].
        destruct (wkey_cases c k Wk) as [[v St]|(can & Op & ?)]; [|assumption].
        rewrite (stores_flop c k v _ St) in Hx. destruct (create n _ k (Some v)); discriminate.
    - apply forall_mid. split; [exact K1|]. split; [|exact K2]. apply inv_intro.
      + change (flm (MAt c) cv (map fl ck)) with (fl (ANode (MAt c) [] cv ck)). rewrite Fc. exact Of.
      + cbn [BTreeSyncInv.nok]. rewrite pl_fl. split; [reflexivity|]. split; [exact Plc|]. split; [exact Oc'|]. split; [exact W|].
        replace (answer n ops c (Node cv (map P ck))) with (answer n ops c (Node vs K)); [exact Lg|].
        destruct (wkey_cases c k Wk) as [[v St]|(can & Op & _)].
        * rewrite !(stores_answer c k v _ St). rewrite (create_inner n vs K k (Some v) NK), Fo, NT.
          destruct (create n (Node cv (map P ck)) k (Some v)); try reflexivity.
          destruct (insertNode vs K p) as [[? ?]|]; [|reflexivity]. destruct (Nat.ltb _ _); [|reflexivity]. destruct (splitNode _ _ _); reflexivity.
        * rewrite !(delete_answer c k can _ Op). cbn [BTreeSyncInv.flm] in O. rewrite pl_fl in O. fold K in O.
          rewrite (delete_flop c k can _ Op) in O. rewrite (remove_inner n vs K k can NK), Fo, NT in *.
          destruct (remove n (Node cv (map P ck)) k can) as [|t' [] a]; [reflexivity| |reflexivity].
          destruct (rebalance n vs _ (search vs k)) as [[? ?]|]; [reflexivity|destruct O].
      + exact Kc.
  Qed.
End Step.
