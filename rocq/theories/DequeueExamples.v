(** Concrete executions of waiting dequeues. *)
From Coq Require Import String List.
From Verif Require Import Datatypes SpecValues DatatypesProofs Collections SpecCollections CollectionsProofs Query SpecQuery QueryProofs
  Assoc SpecAssoc AssocMaps AssocProofs AssocQueryProofs AssocOps QuerySync SpecQuerySync QuerySyncProofs QuerySyncTheorems QuerySyncAlone QuerySyncExamples
  Dequeue SpecDequeue DequeueProofs.
Local Open Scope nat_scope.
Local Notation SS := Datatypes.S.

Definition wq : string := "work"%string.
Definition do_begin (d : dstate) (x : string) (kv : KeyValues) : dstate := mkD (d_tree d) (d_used d) (mkMaking wq x kv false :: d_new d) (d_clients d).
Definition do_tell (d : dstate) (x : string) (kv : KeyValues) : dstate := mkD (d_tree d) (d_used d) [mkMaking wq x kv true] (map (tell wq x kv) (d_clients d)).
Definition do_store (d : dstate) (x : string) (kv : KeyValues) : dstate :=
  mkD (upd (d_tree d) wq (fst (arun (d_tree d wq) (ACreate kv x (Some tt))))) (upd (d_used d) wq (x :: d_used d wq)) [] (d_clients d).
Definition do_wait (d : dstate) (n : nat) (query : Query) : dstate :=
  mkD (d_tree d) (d_used d) (d_new d) (d_clients d ++ [mkClient 7 wq query (SS n) false []]).
Definition do_scan (d : dstate) (query : Query) (since : nat) (got ids : list string) : dstate :=
  mkD (d_tree d) (d_used d) (d_new d) [mkClient 7 wq query since true (got ++ ids)].

Lemma step_begin ex n d x kv : kv = sync_kv \/ kv = sync_old -> d_new d = [] -> x <> EmptyString -> ~ In x (d_used d wq) ->
  ~ holds_kv (d_tree d wq) kv -> dstep ex n d (do_begin d x kv).
Proof.
  intros K N NE NU NH. apply D_begin; auto.
  - apply sync_arg; exact K.
  - destruct K as [-> | ->]; (split; [discriminate|]); intros k v HI; cbn in HI; repeat destruct HI as [[= <- <-] | HI]; try destruct HI; constructor.
  - rewrite N. intros m [].
  - intros k v _ (m & mv & HI & _). rewrite N in HI. destruct HI.
Qed.
Lemma step_tell ex n d x kv : d_new d = [mkMaking wq x kv false] -> dstep ex n d (do_tell d x kv).
Proof. intros E. exact (D_tell ex n d [] wq x kv [] E). Qed.
Lemma step_store ex n d x kv : d_new d = [mkMaking wq x kv true] -> dstep ex n d (do_store d x kv).
Proof. intros E. exact (D_store ex n d [] wq x kv [] E). Qed.
Lemma step_wait ex n d query : d_clients d = [] -> q_validate query = true -> dstep ex n d (do_wait d n query).
Proof. intros E V. apply D_wait; [rewrite E; intros c []|exact V]. Qed.
Lemma step_scan ex n d query since got ids from its : d_clients d = [mkClient 7 wq query since false got] -> since <= from ->
  action_run (fun i => d_tree (ex i) wq) (fun i k v => ~ locked (ex i) wq k v) from query n its -> ids = map it_id its ->
  dstep ex n d (do_scan d query since got ids).
Proof.
  intros E L R ->. pose proof (D_scan ex n d [] 7 wq query since got [] from its (length its) E L R) as D. rewrite firstn_all, Nat.leb_refl in D. exact D.
Qed.

(** ** The old channel is stored, then a dequeue waits, then a new channel is created *)
Definition k2is2 : Query := sync_q2.
Definition e0 := empty_service.
Definition e1 := do_begin e0 "old"%string sync_old.
Definition e2 := do_tell e1 "old"%string sync_old.
Definition e3 := do_store e2 "old"%string sync_old.
Definition e4 := do_wait e3 3 k2is2.
Definition e5 := do_scan e4 k2is2 4 [] ["old"%string].
Definition e6 := do_begin e5 "new"%string sync_kv.
Definition e7 := do_tell e6 "new"%string sync_kv.
Definition e8 := do_store e7 "new"%string sync_kv.
Definition run_found (n : nat) : dstate :=
  match n with 0 => e0 | 1 => e1 | 2 => e2 | 3 => e3 | 4 => e4 | 5 => e5 | 6 => e6 | 7 => e7 | _ => e8 end.

(** the trees *)
Definition t_old : atree unit := fst (arun (mkTree [] []) (ACreate sync_old "old"%string (Some tt))).
Definition t_new : atree unit := fst (arun t_old (ACreate sync_kv "new"%string (Some tt))).
Lemma t_old_reach : areach t_old ["old"%string].
Proof.
  exact (AR_step (mkTree [] []) [] (ACreate sync_old "old"%string (Some tt)) (@AR_new unit) (sync_arg _ (or_intror eq_refl))
      ltac:(intros id [= <-]; split; [intros []|discriminate])).
Qed.
Lemma t_new_reach : areach t_new ["new"; "old"]%string.
Proof.
  exact (AR_step t_old ["old"%string] (ACreate sync_kv "new"%string (Some tt)) t_old_reach (sync_arg _ (or_introl eq_refl))
      ltac:(intros id [= <-]; split; [intros [C | []]; discriminate|discriminate])).
Qed.
Lemma t_old_inv : ainv t_old.
Proof. apply (areach_inv _ _ t_old_reach). Qed.
Lemma t_new_inv : ainv t_new.
Proof. apply (areach_inv _ _ t_new_reach). Qed.
Lemma new_not_there : ~ holds_kv t_old sync_kv.
Proof. intros (it & [<- | []] & H). specialize (H "k1"%string). cbn in H. exact H. Qed.
Lemma old_not_there : ~ holds_kv (mkTree (A := unit) [] []) sync_old.
Proof. intros (it & [] & _). Qed.
Lemma unlocked_now d k v : d_new d = [] -> ~ locked d wq k v.
Proof. intros E (m & mv & HI & _). rewrite E in HI. destruct HI. Qed.

Lemma run_found_exec : execution run_found.
Proof.
  split; [reflexivity|]. intros n.
  destruct n as [|[|[|[|[|[|[|[|n]]]]]]]]; cbn [run_found].
  - apply step_begin; [right; reflexivity|reflexivity|discriminate|intros []|exact old_not_there].
  - apply step_tell; reflexivity.
  - apply step_store; reflexivity.
  - apply step_wait; reflexivity.
  - apply step_scan with (from := 4) (its := [mkItem "old"%string sync_old tt]); [reflexivity|lia| |reflexivity].
    apply alone; [exact t_old_inv|intros; apply unlocked_now; reflexivity|reflexivity|apply sync_valid2|vm_compute; reflexivity].
  - apply step_begin; [left; reflexivity|reflexivity|discriminate|intros [C | []]; discriminate|exact new_not_there].
  - apply step_tell; reflexivity.
  - apply step_store; reflexivity.
  - apply D_nothing.
Qed.
Lemma k2is2_plain : plain_query k2is2 /\ no_not_equals k2is2.
Proof.
  destruct sync_valid2 as (V1 & V2 & V3 & V4). split; [|exact V4]. split; [exact V1|]. split; [exact V2|]. cbn in *. split; [|auto]. split; [apply V3|].
  split; [intros s [= <-]; reflexivity|left; discriminate].
Qed.

(** ** Select all: the new channel is announced before the dequeue waits, and stored after its background query *)
Definition everything : Query := Q None None None.
Definition a4 := do_begin e3 "new"%string sync_kv.
Definition a5 := do_tell a4 "new"%string sync_kv.
Definition a6 := do_wait a5 5 everything.
Definition a7 := do_scan a6 everything 6 [] ["old"%string].
Definition a8 := do_store a7 "new"%string sync_kv.
Definition run_missed (n : nat) : dstate :=
  match n with 0 => e0 | 1 => e1 | 2 => e2 | 3 => e3 | 4 => a4 | 5 => a5 | 6 => a6 | 7 => a7 | _ => a8 end.
Lemma run_missed_exec : execution run_missed.
Proof.
  split; [reflexivity|]. intros n.
  destruct n as [|[|[|[|[|[|[|[|n]]]]]]]]; cbn [run_missed].
  - apply step_begin; [right; reflexivity|reflexivity|discriminate|intros []|exact old_not_there].
  - apply step_tell; reflexivity.
  - apply step_store; reflexivity.
  - apply step_begin; [left; reflexivity|reflexivity|discriminate|intros [C | []]; discriminate|exact new_not_there].
  - apply step_tell; reflexivity.
  - apply step_wait; reflexivity.
  - apply step_scan with (from := 6) (its := [mkItem "old"%string sync_old tt]); [reflexivity|lia| |reflexivity].
    apply AR_all with (moment := fun _ => 6); [reflexivity|lia|intros; lia|repeat constructor; intros []|]. intros it. cbn. reflexivity.
  - apply step_store; reflexivity.
  - apply D_nothing.
Qed.

(** ** k1 != 1 and k2 = 2, read while a channel with k1 = 1 and k2 = 2 is created *)
Definition b4 := do_wait e3 3 sync_q.
Definition b5 := do_begin b4 "new"%string sync_kv.
Definition b6 := do_tell b5 "new"%string sync_kv.
Definition b7 := do_store b6 "new"%string sync_kv.
Definition b8 := do_scan b7 sync_q 4 [] ["old"; "new"]%string.
Definition run_between (n : nat) : dstate :=
  match n with 0 => e0 | 1 => e1 | 2 => e2 | 3 => e3 | 4 => b4 | 5 => b5 | 6 => b6 | 7 => b7 | _ => b8 end.
Lemma between_scan : action_run (fun i => d_tree (run_between i) wq) (fun i k v => ~ locked (run_between i) wq k v) 4 sync_q 7
  [mkItem "old"%string sync_old tt; mkItem "new"%string sync_kv tt].
Proof.
  set (h := fun i => d_tree (run_between i) wq). set (R := fun i k v => ~ locked (run_between i) wq k v).
  pose proof (AR_some h R 4 sync_q 7 7 ["old"; "new"]%string (fun _ => 7)) as A. apply A; clear A; [discriminate| |lia|intros; lia].
  apply (QR h R (Some sync_sel) None None 4 7 7 7 (Some (Some ["old"; "new"]%string)) (Some (Some ["old"; "new"]%string)) (Some (Some ["old"; "new"]%string)));
    [constructor|constructor|constructor].
  apply (FR_keys h R sync_sel 4 7 ["old"; "new"]%string [] eq_refl).
  change (sorted_sel (s_kvs sync_sel)) with (s_kvs sync_sel). cbn [s_kvs sync_sel].
  eapply SR_not with (m := 4) (ids := []); [reflexivity| |lia|reflexivity|].
  - exists (fun _ => 4). split; [intros; split; [lia|apply unlocked_now; reflexivity]|]. intros x. split; [intros []|]. intros (v & Gv & _ & H).
    apply (node_ids_spec t_old) in H as (kv & m & HI & HG & _); [|exact t_old_inv|exact Gv]. cbn in HI. destruct HI as [[= <- <-] | []]. cbn in HG. discriminate.
  - eapply SR_some with (m := 7) (ids := ["old"; "new"]%string); [discriminate|discriminate| |lia|discriminate|].
    + exists (fun _ => 7). split; [intros; split; [lia|apply unlocked_now; reflexivity]|]. intros x. split.
      * intros H. exists (Int 2). split; [apply good_int|]. split; [reflexivity|]. cbn in H. destruct H as [<- | [<- | []]]; vm_compute; auto.
      * intros (v & Gv & HV & H). apply (node_ids_spec t_new) in H as (kv & m & HI & _ & _ & _); [|exact t_new_inv|exact Gv].
        cbn in HI. destruct HI as [[= <- <-] | [[= <- <-] | []]]; cbn; auto.
    + apply SR_end.
Qed.
Lemma run_between_exec : execution run_between.
Proof.
  split; [reflexivity|]. intros n.
  destruct n as [|[|[|[|[|[|[|[|n]]]]]]]]; cbn [run_between].
  - apply step_begin; [right; reflexivity|reflexivity|discriminate|intros []|exact old_not_there].
  - apply step_tell; reflexivity.
  - apply step_store; reflexivity.
  - apply step_wait; reflexivity.
  - apply step_begin; [left; reflexivity|reflexivity|discriminate|intros [C | []]; discriminate|exact new_not_there].
  - apply step_tell; reflexivity.
  - apply step_store; reflexivity.
  - eapply step_scan; [reflexivity| |exact between_scan|reflexivity]. lia.
  - apply D_nothing.
Qed.
Lemma sync_q_plain : plain_query sync_q.
Proof.
  destruct sync_valid as (V1 & V2 & V3). split; [exact V1|]. split; [exact V2|]. cbn in *. split; [|auto]. split; [apply V3|].
  split; [intros s [= <-]; reflexivity|left; discriminate].
Qed.
Lemma sync_q_not : ~ query_holds_tags sync_q sync_kv.
Proof.
  cbn. intros [([_ H] & _) | []]. specialize (H _ _ (or_introl eq_refl)). cbn in H. apply (H (Int 1) eq_refl).
  - split; vm_compute; discriminate.
  - right; right. split; [reflexivity|constructor].
Qed.

(** ** Only an Or part: a new channel is offered whatever it holds *)
Definition k1or : Query := Q None (Some [Q (Some (mkSel [] [("k1"%string, mkVQ (Int 1) CEquals sync_types)] None None)) None None]) None.
Definition ids_q : Query := Q (Some (mkSel ["other"%string] [] None None)) None None.
Definition run_told (query : Query) (n : nat) : dstate :=
  match n with 0 => e0 | 1 => do_wait e0 0 query | 2 => do_begin (do_wait e0 0 query) "old"%string sync_old
  | _ => do_tell (do_begin (do_wait e0 0 query) "old"%string sync_old) "old"%string sync_old end.
Lemma run_told_exec query : q_validate query = true -> execution (run_told query).
Proof.
  intros V. split; [reflexivity|]. intros n. destruct n as [|[|[|n]]]; cbn [run_told].
  - apply step_wait; [reflexivity|exact V].
  - apply step_begin; [right; reflexivity|reflexivity|discriminate|intros []|exact old_not_there].
  - apply step_tell; reflexivity.
  - apply D_nothing.
Qed.
