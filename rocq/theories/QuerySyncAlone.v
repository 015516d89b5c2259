(** A query during which nothing else happens is one of the runs of [QuerySync]. *)
From Verif Require Import Datatypes SpecValues DatatypesProofs Collections SpecCollections CollectionsProofs Query SpecQuery QueryProofs
  Assoc SpecAssoc AssocMaps AssocProofs AssocQueryProofs AssocOps QuerySync SpecQuerySync QuerySyncProofs.
Local Open Scope nat_scope.

Section Alone.
  Context {A : Type} (h : nat -> atree A) (readable : nat -> string -> EV -> Prop) (n : nat).
  Hypothesis INV : ainv (h n).
  Hypothesis RD : forall k v, readable n k v.
  Notation t := (h n).

  Lemma alone_key s k q : good (vq_value q) -> key_read h readable n n s k q (key_ids (a_index t) s (lookup_for (vq_cmp q)) k q).
  Proof.
    intros Gq. destruct (INV) as [OK I]. exists (fun _ => n). split; [intros; split; [lia|apply RD]|]. intros x. rewrite (in_key_ids _ (ents_of (a_items t))) by auto.
    split.
    - intros (kv & m & HI & HG & HV & HS). assert (Gm : good m) by (eapply ents_good; eauto). exists m. split; [exact Gm|]. split; [exact HV|].
      apply node_ids_spec; auto. exists kv, m. split; [exact HI|]. split; [exact HG|]. split; [apply veq_refl; exact Gm|exact HS].
    - intros (v & Gv & HV & H). apply node_ids_spec in H as (kv & m & HI & HG & HE & HS); auto. exists kv, m. split; [exact HI|]. split; [exact HG|]. split; [|exact HS].
      rewrite (visitb_congr _ _ _ m v); auto. eapply ents_good; eauto.
  Qed.
  Lemma alone_all s : all_read h readable n n s (all_ids (a_index t) s).
  Proof.
    destruct (INV) as [OK I]. exists (fun _ _ => n). split; [intros; split; [lia|apply RD]|]. intros x. rewrite (in_all_ids _ (ents_of (a_items t))) by auto. split.
    - intros (kv & HI & HS). assert (O := OK). destruct O as (_ & O & _). destruct (O _ _ HI) as [R NE].
      destruct kv as [|[k m] r] eqn:EKV; [contradiction|]. rewrite <- EKV in *.
      assert (HG : kv_get kv k = Some m) by (rewrite EKV; cbn; rewrite String.eqb_refl; reflexivity).
      assert (Gm : good m) by (eapply ents_good; eauto). exists k, m. split; [exact Gm|]. apply node_ids_spec; auto. exists kv, m.
      split; [exact HI|]. split; [exact HG|]. split; [apply veq_refl; exact Gm|exact HS].
    - intros (k & v & Gv & H). apply node_ids_spec in H as (kv & m & HI & HG & HE & HS); auto. eauto.
  Qed.
  Lemma alone_sel s keys : keys_ok keys -> forall va ia valid invalid res, sel_loop (a_index t) s keys va ia valid invalid = res -> res <> SPanic ->
    sel_run h readable s n keys va ia valid invalid n res.
  Proof.
    intros KO. induction keys as [|[k q] r IH]; intros va ia valid invalid res E NP; cbn [sel_loop] in E; [subst; constructor|].
    assert (Gq : good (vq_value q)) by (eapply KO; left; reflexivity). pose proof (alone_key s k q Gq) as KR.
    assert (IH' : forall va ia valid invalid res, sel_loop (a_index t) s r va ia valid invalid = res -> res <> SPanic -> sel_run h readable s n r va ia valid invalid n res).
    { apply IH. intros k' q' HI. apply (KO k'). right. exact HI. }
    assert (PS : forall w, lookup_for (vq_cmp q) = w -> vq_cmp q <> CNotEquals -> vq_cmp q <> CUnknown ->
      (if Nat.eqb (set_size (combine_ids va valid (key_ids (a_index t) s w k q))) 0 then SEarly (combine_ids va valid (key_ids (a_index t) s w k q))
       else sel_loop (a_index t) s r true ia (combine_ids va valid (key_ids (a_index t) s w k q)) invalid) = res ->
      sel_run h readable s n ((k, q) :: r) va ia valid invalid n res).
    { intros w EW N1 N2 ER. rewrite EW in KR. destruct (Nat.eqb_spec (set_size (combine_ids va valid (key_ids (a_index t) s w k q))) 0) as [E0|E0].
      - rewrite <- ER. eapply SR_none; eauto.
      - eapply SR_some; eauto. }
    destruct (vq_cmp q) eqn:EC; try (eapply PS; eauto; discriminate).
    - destruct (va && Nat.eqb (set_size valid) 0) eqn:E0.
      + rewrite <- E. eapply SR_not_none; eauto.
      + eapply SR_not; eauto.
    - congruence.
  Qed.
  Lemma alone_by_ids s ids : forall acc, by_ids_at h (fun _ => n) s ids acc = by_ids (a_items t) s ids acc.
  Proof.
    induction ids as [|id ids IH]; intros acc; cbn [by_ids_at by_ids]; [reflexivity|]. destruct (find_item (a_items t) id) as [it|]; [|apply IH].
    destruct (MatchKeyValues s (it_kv it)); [apply IH|reflexivity].
  Qed.
  Lemma alone_find s r : selection_ok s -> sel_no_nan s -> findIDs t s = Some r -> find_run h readable s n n r.
  Proof.
    intros SO SN. assert (KO : keys_ok (sorted_sel (s_kvs s))).
    { intros k q HI. apply sorted_in in HI. destruct SO as (_ & SO & _). specialize (SO k q HI). destruct SO as (_ & WT & _). split; [exact WT|]. exact (SN k q HI). }
    unfold findIDs. destruct (s_ids s) as [|id0 ids0] eqn:EI.
    - pose proof (alone_sel s _ KO false false [] []) as AS. destruct (sel_loop (a_index t) s (sorted_sel (s_kvs s)) false false [] []) as [va valid invalid|v|].
      + specialize (AS _ eq_refl ltac:(discriminate)). intros [= <-]. destruct va.
        * apply FR_keys; auto.
        * eapply FR_all; eauto. apply alone_all.
      + specialize (AS _ eq_refl ltac:(discriminate)). intros [= <-]. apply FR_early; auto.
      + discriminate.
    - intros HR. apply FR_ids with (moment := fun _ => n); auto; [congruence|]. rewrite EI, alone_by_ids. exact HR.
  Qed.
  Lemma alone_query q : every_node node_ok q -> forall r, query t q = Some r -> query_run h readable n q n r.
  Proof.
    induction q as [|sel ors ands IO IA] using query_ind'; [intros []|]. intros HE r. apply every_node_Q in HE as (HS & HA & HO). rewrite query_Q.
    assert (FA : Forall (fun c => forall r, query t c = Some r -> query_run h readable n c n r) (elems ands)). { rewrite Forall_forall in *. auto. }
    assert (FO : Forall (fun c => forall r, query t c = Some r -> query_run h readable n c n r) (elems ors)). { rewrite Forall_forall in *. auto. }
    assert (AN : forall cur out, q_and (query t) (elems ands) cur = Some out -> and_run h readable n (elems ands) cur n out).
    { clear - FA. induction FA as [|c l Hc F IH]; intros cur out; cbn [q_and]; [intros [= ->]; constructor|]. destruct cur as [[s|]|].
      - destruct (Nat.eqb_spec (set_size s) 0) as [E|NE]; [intros [= <-]; apply AN_stop; exact E|].
        destruct (query t c) as [[s'|]|] eqn:EQ; try discriminate. intros H. eapply AN_next; eauto.
      - discriminate.
      - destruct (query t c) as [s|] eqn:EQ; [|discriminate]. intros H. eapply AN_first; eauto. }
    assert (OR : forall cur out, q_or (query t) (elems ors) cur = Some out -> or_run h readable n (elems ors) cur n out).
    { clear - FO. induction FO as [|c l Hc F IH]; intros cur out; cbn [q_or]; [intros [= ->]; constructor|].
      destruct (query t c) as [s'|] eqn:EQ; [|discriminate]. destruct cur as [[s|]|].
      - destruct s' as [s'|]; [|discriminate]. intros H. eapply OR_next; eauto.
      - discriminate.
      - intros H. eapply OR_first; eauto. }
    assert (ST : forall cur, (match sel with Some s => match findIDs t s with Some v => Some (Some (Some v)) | None => None end | None => Some None end) = Some cur ->
      start_run h readable n sel n cur).
    { intros cur. destruct sel as [s|]; [|intros [= <-]; constructor]. destruct (HS s eq_refl) as [SO SN]. destruct (findIDs t s) as [v|] eqn:EF; [|discriminate].
      intros [= <-]. apply ST_some. apply alone_find; auto. }
    destruct (match sel with Some s => match findIDs t s with Some v => Some (Some (Some v)) | None => None end | None => Some None end) as [cur|]; [|discriminate].
    destruct (q_and (query t) (elems ands) cur) as [cur1|] eqn:E1; [|discriminate].
    destruct (q_or (query t) (elems ors) cur1) as [cur2|] eqn:E2; [|discriminate]. intros E.
    assert (ER : r = match cur2 with Some s => s | None => None end) by (destruct cur2; congruence). subst r.
    eapply QR; eauto.
  Qed.
  Lemma alone q l : q_validate q = true -> query_no_nan q -> query_items t q = Some (Some l) -> action_run h readable n q n l.
  Proof.
    intros V NN. unfold query_items. rewrite V. cbn [negb].
    assert (NQ : q <> QNil) by (intros ->; exact NN).
    assert (NOK : every_node node_ok q).
    { apply q_validate_nonnil in V; auto. eapply every_node_impl; [|exact (every_node_and _ _ _ V NN)].
      intros sel ors ands [H1 H2] s Hs. split; [auto|]. intros k v HI. eapply H2; eauto. }
    assert (DC : q = Q None None None \/ q <> Q None None None /\
      (query_items t q = match query t q with Some (Some s) => Some (Some (items_of t s)) | _ => None end)).
    { unfold query_items. rewrite V. destruct q as [|[se|] [ors|] [ands|]]; [contradiction|..]; try (left; reflexivity); right; (split; [discriminate|]); reflexivity. }
    unfold query_items in DC. rewrite V in DC. cbn [negb] in DC. destruct DC as [-> | [ND E]].
    - intros [= <-]. apply AR_all with (moment := fun _ => n); auto.
      + apply ainv_nodup; exact INV.
      + intros it. reflexivity.
    - rewrite E. destruct (query t q) as [[s|]|] eqn:EQ; try discriminate. intros [= <-].
      pose proof (AR_some h readable n q n n s (fun _ => n) ND (alone_query q NOK _ EQ) (le_n _) (fun _ => conj (le_n _) (le_n _))) as R. exact R.
  Qed.
End Alone.
