(** Concrete queries that overlap a creation. *)
From Coq Require Import String List.
From Verif Require Import Datatypes SpecValues DatatypesProofs Collections SpecCollections CollectionsProofs Query SpecQuery QueryProofs
  Assoc SpecAssoc AssocMaps AssocProofs AssocQueryProofs AssocOps QuerySync SpecQuerySync QuerySyncProofs QuerySyncTheorems QuerySyncAlone.
Local Open Scope nat_scope.

Definition sync_kv : KeyValues := [("k1", Int 1); ("k2", Int 2)]%string.
Definition sync_old : KeyValues := [("k2", Int 2)]%string.
Definition sync0 : atree nat := fst (arun (mkTree [] []) (ACreate sync_old "old"%string (Some 5))).
Definition sync1 : atree nat := fst (arun sync0 (ACreate sync_kv "new"%string (Some 7))).
(** the old item is there all the time, the new one from moment 1 on *)
Definition sync_h (n : nat) : atree nat := match n with 0 => sync0 | _ => sync1 end.
Definition sync_types : TypeRestrictions := mkTR MinDataType MaxDataType.
(** k1 != 1 and k2 = 2 *)
Definition sync_sel : Selection := mkSel [] [("k1", mkVQ (Int 1) CNotEquals sync_types); ("k2", mkVQ (Int 2) CEquals sync_types)]%string None None.
Definition sync_q : Query := Q (Some sync_sel) None None.
Definition any_time : nat -> string -> EV -> Prop := fun _ _ _ => True.

Lemma sync_arg kv : kv = sync_kv \/ kv = sync_old -> kv_arg kv.
Proof.
  intros [-> | ->]; (split; [repeat constructor; cbn; intuition discriminate|]).
  - intros k v [[= <- <-] | [[= <- <-] | []]]; cbn; intros [|]; discriminate.
  - intros k v [[= <- <-] | []]; cbn; intros [|]; discriminate.
Qed.
Lemma sync_history : history sync_h.
Proof.
  exists (fun n => match n with 0 => ["old"] | _ => ["new"; "old"] end%string). split.
  - exact (AR_step (mkTree [] []) [] (ACreate sync_old "old"%string (Some 5)) (@AR_new nat) (sync_arg _ (or_intror eq_refl))
      ltac:(intros id [= <-]; split; [intros []|discriminate])).
  - intros [|n]; [right|left; auto]. exists (ACreate sync_kv "new"%string (Some 7)). split; [apply sync_arg; auto|].
    split; [intros id [= <-]; split; [intros [C | []]; discriminate|discriminate]|]. split; reflexivity.
Qed.
Lemma sync_inv n : ainv (sync_h n).
Proof. apply (history_ents sync_h sync_history). Qed.
Lemma good_int z : good (Int z).
Proof. split; [constructor|intros [|]; discriminate]. Qed.
Lemma sync_valid : q_validate sync_q = true /\ query_no_nan sync_q /\ every_node node_simple sync_q.
Proof.
  split; [reflexivity|]. split.
  - cbn. split; [|auto]. intros s k v [= <-] [[= <- <-] | [[= <- <-] | []]]; cbn; intros [|]; discriminate.
  - cbn. split; [|auto]. split; [left; discriminate|]. intros s [= <-]. right. split.
    + intros p p' [<- | [<- | []]] [<- | [<- | []]]; cbn; congruence.
    + intros k q [[= <- <-] | [[= <- <-] | []]]; exact I.
Qed.

(** The nodes of a moment. *)
Lemma sync_node1 s x v : good v -> visitb LFind (Int 2) sync_types v = true ->
  In x (node_ids sync1 s "k2"%string v) -> In x ["old"; "new"]%string.
Proof.
  intros Gv _ H. apply (node_ids_spec sync1) in H as (kv & m & HI & _ & _ & _); [|apply (sync_inv 1)|exact Gv]. cbn in HI. destruct HI as [[= <- <-] | [[= <- <-] | []]]; cbn; auto.
Qed.
Lemma sync_run : action_run sync_h any_time 0 sync_q 1 [mkItem "old"%string sync_old 5; mkItem "new"%string sync_kv 7].
Proof.
  pose proof (AR_some sync_h any_time 0 sync_q 1 1 ["old"; "new"]%string (fun _ => 1)) as R. apply R; clear R; [discriminate| |lia|intros; lia].
  apply (QR sync_h any_time (Some sync_sel) None None 0 1 1 1 (Some (Some ["old"; "new"]%string)) (Some (Some ["old"; "new"]%string)) (Some (Some ["old"; "new"]%string)));
    [constructor|constructor|constructor].
  apply (FR_keys sync_h any_time sync_sel 0 1 ["old"; "new"]%string [] eq_refl).
  change (sorted_sel (s_kvs sync_sel)) with (s_kvs sync_sel). cbn [s_kvs sync_sel].
  eapply SR_not with (m := 0) (ids := []); [reflexivity| |lia|reflexivity|].
  - exists (fun _ => 0). split; [intros; split; [lia|exact I]|]. intros x. split; [intros []|]. intros (v & Gv & _ & H).
    apply (node_ids_spec (sync_h 0)) in H as (kv & m & HI & HG & _); [|apply (sync_inv 0)|exact Gv]. cbn in HI. destruct HI as [[= <- <-] | []]. cbn in HG. discriminate.
  - eapply SR_some with (m := 1) (ids := ["old"; "new"]%string); [discriminate|discriminate| |lia|discriminate|].
    + exists (fun _ => 1). split; [intros; split; [lia|exact I]|]. intros x. split.
      * intros H. exists (Int 2). split; [apply good_int|]. split; [reflexivity|]. cbn in H. destruct H as [<- | [<- | []]]; vm_compute; auto.
      * intros (v & Gv & HV & H). eapply sync_node1; eauto.
    + apply SR_end.
Qed.

(** k2 = 2 only, the same moments *)
Definition sync_sel2 : Selection := mkSel [] [("k2", mkVQ (Int 2) CEquals sync_types)]%string None None.
Definition sync_q2 : Query := Q (Some sync_sel2) None None.
Lemma sync_valid2 : q_validate sync_q2 = true /\ query_no_nan sync_q2 /\ every_node node_simple sync_q2 /\ no_not_equals sync_q2.
Proof.
  split; [reflexivity|]. split; [|split].
  - cbn. split; [|auto]. intros s k v [= <-] [[= <- <-] | []]; cbn; intros [|]; discriminate.
  - cbn. split; [|auto]. split; [left; discriminate|]. intros s [= <-]. right. split.
    + intros p p' [<- | []] [<- | []]; cbn; congruence.
    + intros k q [[= <- <-] | []]; exact I.
  - cbn. split; [|auto]. intros s k v [= <-] _ [[= <- <-] | []]; discriminate.
Qed.
Lemma sync_run2 : action_run sync_h any_time 0 sync_q2 1 [mkItem "old"%string sync_old 5; mkItem "new"%string sync_kv 7].
Proof.
  pose proof (AR_some sync_h any_time 0 sync_q2 1 1 ["old"; "new"]%string (fun _ => 1)) as R. apply R; clear R; [discriminate| |lia|intros; lia].
  apply (QR sync_h any_time (Some sync_sel2) None None 0 1 1 1 (Some (Some ["old"; "new"]%string)) (Some (Some ["old"; "new"]%string)) (Some (Some ["old"; "new"]%string)));
    [constructor|constructor|constructor].
  apply (FR_keys sync_h any_time sync_sel2 0 1 ["old"; "new"]%string [] eq_refl).
  change (sorted_sel (s_kvs sync_sel2)) with (s_kvs sync_sel2). cbn [s_kvs sync_sel2].
  eapply SR_some with (m := 1) (ids := ["old"; "new"]%string); [discriminate|discriminate| |lia|discriminate|].
  - exists (fun _ => 1). split; [intros; split; [lia|exact I]|]. intros x. split.
    + intros H. exists (Int 2). split; [apply good_int|]. split; [reflexivity|]. cbn in H. destruct H as [<- | [<- | []]]; vm_compute; auto.
    + intros (v & Gv & HV & H). eapply sync_node1; eauto.
  - apply SR_end.
Qed.
