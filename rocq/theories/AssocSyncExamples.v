(** Executions of [AssocSync.v]. *)
From Coq Require Import List Bool Arith Lia Permutation.
Import ListNotations.
From Verif Require Import AssocSync SpecAssocSync AssocSyncBase AssocSyncInv AssocSyncFrame AssocSyncStep AssocSyncGlobal AssocSyncAnswers AssocSyncChanges AssocSyncLive.

Ltac side := first [reflexivity | (split; reflexivity) | discriminate | congruence | (cbn; lia) | (split; [cbn; intuition discriminate|left; reflexivity]) | (left; discriminate) | (right; discriminate) | (cbn; discriminate) | (intros; discriminate) | apply Permutation_refl | (split; [cbn; intuition discriminate|right; exists [0; 1; 2]; split; [repeat constructor; cbn; intuition discriminate|]; split; [cbn; lia|]; let X := fresh in let HX := fresh in intros X HX; cbn in HX; intuition (subst; discriminate)])].
(** Call i takes the given step; a call begins *)
Ltac go E i rule := lazymatch type of E with exec ?n ?d (mkState ?w ?ts :: ?tr) =>
  let o := eval vm_compute in (nth_error ts i) in
  lazymatch o with Some (mkThread ?c ?kv ?p) =>
    let T := fresh "T" in eassert (T : tstep n i c kv w p _ _); [eapply rule; side|];
    lazymatch type of T with tstep _ _ _ _ _ _ ?w' ?p' =>
      let ts' := eval vm_compute in (set_thread ts i (mkThread c kv p')) in
      let w1 := eval cbv -[set_index set_item] in w' in
      let E' := fresh "E" in assert (E' : exec n d (mkState w1 ts' :: mkState w ts :: tr)); [exact (EX_step _ _ _ _ _ E (ST_step n d w ts i c kv p w' p' eq_refl T))|]; clear T E; rename E' into E
    end end end.
Ltac call E c kv := lazymatch type of E with exec ?n ?d (mkState ?w ?ts :: ?tr) =>
    let ts' := eval vm_compute in (ts ++ [mkThread c kv (start c kv)]) in
    let A := fresh "A" in assert (A : allowed d w c kv); [split; [split; [discriminate|cbn; intuition lia]|cbn; auto]|];
    let E' := fresh "E" in assert (E' : exec n d (mkState w ts' :: mkState w ts :: tr)); [exact (EX_step _ _ _ _ _ E (ST_call n d w ts c kv A))|]; clear A E; rename E' into E end.
Ltac create1 E i := go E i S_pin_new; go E i S_pin_end; go E i S_lock; go E i S_new; go E i S_created; go E i S_unlock; go E i S_unlock_end.

(** A call by id deletes another item: x is deleted and its key-values are created again meanwhile *)
Lemma delete_other : exists s tr, exec false false (s :: tr) /\ answered 0 CCreate [(1, 1)] (RCreated 0) s /\ answered 2 (CDelete false) [(1, 1)] (RDeleted 0) s /\ answered 3 CCreate [(1, 1)] (RCreated 1) s /\
  answered 1 (CDeleteId false 0) [(1, 1)] (RDeleted 1) s.
Proof.
  pose proof (EX_new false false) as E. unfold empty_world in E. call E CCreate [(1, 1)]. create1 E 0. call E (CDeleteId false 0) [(1, 1)]. go E 1 D_id. go E 1 D_id_found.
  call E (CDelete false) [(1, 1)]. go E 2 D_find. go E 2 D_all. go E 2 D_lock. go E 2 D_check. go E 2 D_delete. go E 2 D_unlock. go E 2 D_unlock_end. go E 2 D_clean_drop. go E 2 D_clean_end.
  call E CCreate [(1, 1)]. create1 E 3. go E 1 D_find. go E 1 D_all. go E 1 D_lock. go E 1 D_check. go E 1 D_delete. go E 1 D_unlock. go E 1 D_unlock_end. go E 1 D_clean_drop. go E 1 D_clean_end.
  eexists _, _. split; [exact E|]. repeat split.
Qed.
(** onCreate returns nil: until the creation has cleaned up, Create finds that the key-values exist, and CreateOrFind neither creates nor finds anything *)
Lemma nil_exists : exists s tr, exec true false (s :: tr) /\ answered 1 CCreate [(1, 1)] RExists s /\ forall s' x, In s' (s :: tr) -> absent x s'.
Proof.
  pose proof (EX_new true false) as E. unfold empty_world in E. call E CCreate [(1, 1)]. go E 0 S_pin_new. go E 0 S_pin_end. go E 0 S_lock. go E 0 S_new. go E 0 S_nil. go E 0 S_unlock.
  call E CCreate [(1, 1)]. go E 1 S_pin. go E 1 S_pin_end. go E 1 S_lock. go E 1 S_exists. go E 1 S_unlock. go E 1 S_unlock_end.
  eexists _, _. split; [exact E|]. split; [reflexivity|]. intros s' x I. cbn in I. repeat (destruct I as [<- | I]; [reflexivity|]). destruct I.
Qed.
Lemma nil_neither : exists s tr, exec true false (s :: tr) /\ answered 1 CFindCreate [(1, 1)] RNeither s /\ forall s' x, In s' (s :: tr) -> absent x s'.
Proof.
  pose proof (EX_new true false) as E. unfold empty_world in E. call E CFindCreate [(1, 1)]. go E 0 S_query_none. go E 0 S_pin_new. go E 0 S_pin_end. go E 0 S_lock. go E 0 S_new. go E 0 S_nil. go E 0 S_unlock.
  call E CFindCreate [(1, 1)]. go E 1 S_query. go E 1 S_query_end. go E 1 S_look. go E 1 S_look_not. go E 1 S_look_end. go E 1 S_pin. go E 1 S_pin_end. go E 1 S_lock. go E 1 S_check. go E 1 S_neither. go E 1 S_unlock. go E 1 S_unlock_end.
  eexists _, _. split; [exact E|]. split; [reflexivity|]. intros s' x I. cbn in I. repeat (destruct I as [<- | I]; [reflexivity|]). destruct I.
Qed.
(** The cleaning up deletes an item that another call has created: nobody was told *)
Lemma nil_deletes : exists s tr, exec true false (s :: tr) /\ answered 0 CCreate [(1, 1)] RNil s /\ answered 1 (CDelete false) [(1, 1)] RNone s /\ answered 2 CCreate [(1, 1)] (RCreated 1) s /\
  length (st_threads s) = 3 /\ absent 1 s.
Proof.
  pose proof (EX_new true false) as E. unfold empty_world in E. call E CCreate [(1, 1)]. go E 0 S_pin_new. go E 0 S_pin_end. go E 0 S_lock. go E 0 S_new. go E 0 S_nil. go E 0 S_unlock. go E 0 S_unlock_end.
  call E (CDelete false) [(1, 1)]. go E 1 D_find. go E 1 D_all. go E 1 D_lock. go E 1 D_check. go E 1 D_ghost. go E 1 D_unlock. go E 1 D_unlock_end. go E 1 D_clean_drop. go E 1 D_clean_end.
  call E CCreate [(1, 1)]. create1 E 2. go E 0 D_find. go E 0 D_all. go E 0 D_lock. go E 0 D_check. go E 0 D_delete. go E 0 D_unlock. go E 0 D_unlock_end. go E 0 D_clean_drop. go E 0 D_clean_end.
  eexists _, _. split; [exact E|]. repeat split.
Qed.

Lemma small_one w x : (forall y, w_items w y <> None -> y = x) -> ~ large w.
Proof.
  intros H (l & ND & L & IN). destruct l as [|a [|b l]]; cbn in L; try lia. inversion ND as [|? ? NI _]; subst. apply NI. left. rewrite (H a), (H b); auto; apply IN; cbn; auto.
Qed.
(** A deletion meets a destruction of the same item: it returns with the lock, and the destruction waits for ever *)
Lemma busy_hangs : exists s tr, exec false true (s :: tr) /\ length (st_threads s) = 3 /\ answered 0 CCreate [(1, 1)] (RCreated 0) s /\ answered 2 (CDelete false) [(1, 1)] RBusy s /\
  call_is 1 (CDestroy 0) [(1, 1)] s /\ stuck false true 1 s /\ frozen false true s.
Proof.
  pose proof (EX_new false true) as E. unfold empty_world in E. call E CCreate [(1, 1)]. create1 E 0. call E (CDestroy 0) [(1, 1)]. go E 1 Y_mark.
  call E (CDelete false) [(1, 1)]. go E 2 D_find. go E 2 D_all. go E 2 D_lock. go E 2 D_busy. go E 1 Y_hold. go E 1 Y_agree.
  match type of E with exec _ _ (?s :: _) => assert (H : hung false 1 2 0 s) end.
  { constructor; cbn [st_world].
    - reflexivity.
    - apply (small_one _ 0). intros y. cbn [w_items]. unfold set_item. destruct (Nat.eqb_spec y 0); [auto|intros HH; exfalso; apply HH; reflexivity].
    - eexists _, _, _, _, _, _. repeat split; reflexivity.
    - eexists _, _, _. split; [reflexivity|]. left. eauto. }
  destruct (hung_stuck false true 1 2 0 _ H) as (H1 & _ & H2). eexists _, _. split; [exact E|]. split; [reflexivity|]. split; [reflexivity|]. split; [reflexivity|]. split; [eexists; reflexivity|]. split; [exact H1|exact H2].
Qed.
(** A creation and a destruction of an item with one of the pairs wait for each other: the destruction holds the tree of items, the creation the ids of the pair *)
Lemma destroy_hangs : exists s tr, exec false true (s :: tr) /\ length (st_threads s) = 3 /\ answered 0 CCreate [(1, 1)] (RCreated 0) s /\ call_is 1 (CDestroy 0) [(1, 1)] s /\ call_is 2 CCreate [(1, 1); (2, 2)] s /\
  stuck false true 1 s /\ stuck false true 2 s /\ frozen false true s.
Proof.
  pose proof (EX_new false true) as E. unfold empty_world in E. call E CCreate [(1, 1)]. create1 E 0. call E (CDestroy 0) [(1, 1)]. go E 1 Y_mark. go E 1 Y_hold. go E 1 Y_agree.
  call E CCreate [(1, 1); (2, 2)]. go E 2 S_pin. go E 2 S_pin_new. go E 2 S_pin_end. go E 2 S_lock. go E 2 S_lock. go E 2 S_new.
  match type of E with exec _ _ (?s :: _) => assert (H : hung false 1 2 0 s) end.
  { constructor; cbn [st_world].
    - reflexivity.
    - apply (small_one _ 0). intros y. cbn [w_items]. unfold set_item. destruct (Nat.eqb_spec y 0); [auto|intros HH; exfalso; apply HH; reflexivity].
    - eexists _, _, _, _, _, _. repeat split; reflexivity.
    - eexists _, _, _. split; [reflexivity|]. right. eauto. }
  destruct (hung_stuck false true 1 2 0 _ H) as (H1 & H3 & H2). eexists _, _. split; [exact E|]. split; [reflexivity|]. split; [reflexivity|]. split; [eexists; reflexivity|]. split; [eexists; reflexivity|]. split; [exact H1|]. split; [|exact H2].
  apply H3. eapply running_at; [reflexivity|discriminate].
Qed.

(** Calls that overlap: two creations of the same key-values, a search and a deletion *)
Lemma overlapping : exists s tr, exec false false (s :: tr) /\ answered 0 CCreate [(1, 1); (2, 5)] (RCreated 0) s /\ answered 1 CFindCreate [(1, 1); (2, 5)] (RFound 0) s /\ answered 2 CFind [(1, 1)] RNone s /\
  answered 3 CFind [(1, 1); (2, 5)] RNone s /\ answered 4 (CDelete true) [(1, 1); (2, 5)] (RRefused 0) s /\ stored [(1, 1); (2, 5)] 0 s.
Proof.
  pose proof (EX_new false false) as E. unfold empty_world in E. call E CCreate [(1, 1); (2, 5)]. call E CFindCreate [(1, 1); (2, 5)]. call E CFind [(1, 1)]. call E CFind [(1, 1); (2, 5)]. go E 1 S_query_none. go E 0 S_pin_new. go E 3 S_query. go E 1 S_pin. go E 1 S_pin_new. go E 0 S_pin. go E 0 S_pin_end.
  go E 0 S_lock. go E 1 S_pin_end. go E 0 S_lock. go E 0 S_new. go E 0 S_created. go E 0 S_unlock. go E 1 S_lock. go E 0 S_unlock. go E 1 S_lock. go E 1 S_check. go E 0 S_unlock_end. go E 1 S_found. go E 1 S_unlock. go E 2 S_query. go E 1 S_unlock. go E 1 S_unlock_end.
  call E (CDelete true) [(1, 1); (2, 5)]. go E 4 D_find. go E 4 D_find. go E 4 D_all. go E 4 D_lock. go E 4 D_lock. go E 4 D_check. go E 4 D_refuse. go E 4 D_unlock. go E 4 D_unlock. go E 4 D_unlock_end. go E 4 D_clean_keep. go E 4 D_clean_keep. go E 4 D_clean_end.
  eexists _, _. split; [exact E|]. repeat split.
Qed.
(** A destruction, while the key-values are created anew *)
Lemma destroying_now : exists s tr, exec false true (s :: tr) /\ answered 4 (CDestroy 3) [(1, 1); (2, 5)] (RDeleted 3) s /\ answered 5 CFindCreate [(1, 1); (2, 5)] RBusy s /\ answered 6 CCreate [(1, 1); (2, 5)] (RCreated 4) s /\
  (exists s', In s' tr /\ stored [(1, 1); (2, 5)] 3 s' /\ stored [(1, 1); (2, 5)] 4 s').
Proof.
  pose proof (EX_new false true) as E. unfold empty_world in E. call E CCreate [(3, 1)]. create1 E 0. call E CCreate [(3, 2)]. create1 E 1. call E CCreate [(3, 3)]. create1 E 2.
  call E CCreate [(1, 1); (2, 5)]. go E 3 S_pin_new. go E 3 S_pin_new. go E 3 S_pin_end. go E 3 S_lock. go E 3 S_lock. go E 3 S_new. go E 3 S_created. go E 3 S_unlock. go E 3 S_unlock. go E 3 S_unlock_end.
  call E (CDestroy 3) [(1, 1); (2, 5)]. go E 4 Y_mark. call E CFindCreate [(1, 1); (2, 5)]. go E 5 S_query. go E 5 S_query. go E 5 S_query_end. go E 5 S_look_dying. go E 5 S_look_end.
  go E 5 S_pin. go E 5 S_pin. go E 5 S_pin_end. go E 5 S_lock. go E 5 S_lock. go E 5 S_busy. go E 5 S_unlock. go E 5 S_unlock. go E 5 S_unlock_end.
  go E 4 Y_hold. go E 4 Y_agree. go E 4 Y_del. call E CCreate [(1, 1); (2, 5)]. go E 6 S_pin_new. go E 6 S_pin. go E 6 S_pin_end. go E 6 S_lock. go E 6 S_lock. go E 6 S_new. go E 6 S_created.
  go E 6 S_unlock. go E 6 S_unlock. go E 6 S_unlock_end. go E 4 Y_del. go E 4 Y_end. go E 4 Y_clear.
  eexists _, _. split; [exact E|]. split; [reflexivity|]. split; [reflexivity|]. split; [reflexivity|].
  match type of E with exec _ _ (_ :: _ :: _ :: ?s :: _) => exists s end. split; [right; right; left; reflexivity|]. split; reflexivity.
Qed.
