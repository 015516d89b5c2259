(** A match during which nothing else happens is one of the runs of [MatchSync]; concrete matches that overlap other calls. *)
From Coq Require Import String List Permutation.
From Verif Require Import Datatypes SpecValues DatatypesProofs Collections SpecCollections CollectionsProofs Query SpecQuery QueryProofs
  Assoc SpecAssoc AssocMaps AssocProofs AssocQueryProofs AssocOps AssocMatchProofs QuerySync SpecQuerySync QuerySyncProofs QuerySyncExamples MatchSync SpecMatchSync MatchSyncProofs.
Local Open Scope nat_scope.

Section Alone.
  Context {A : Type} (h : nat -> atree A) (readable : nat -> string -> EV -> Prop) (n : nat) (mq : MatchQuery).
  Hypothesis INV : ainv (h n).
  Hypothesis RD : forall k v, readable n k v.
  Hypothesis VAL : mq_validate mq = true.
  Hypothesis ARG : match_arg mq.
  Notation ix := (a_index (h n)).

  Definition all_reads (k : string) (v : MatchValue) : list (EV * nat) :=
    match aget String.eqb k ix with Some vs => map (fun p => (fst p, n)) (filter (fun p => looks_at v (fst p)) vs) | None => [] end.
  Lemma all_reads_ok from k v : from <= n -> In (k, v) (mq_kvs mq) -> reads_of h readable from n k v (all_reads k v).
  Proof.
    intros LE HQ. destruct (proj2 (mq_valid mq VAL ARG) k v HQ) as [VQ Gv]. destruct INV as [OK (W & _)]. unfold all_reads. split.
    - intros w j HI. destruct (aget String.eqb k ix) as [vs|] eqn:EK; [|destruct HI]. apply in_map_iff in HI as ([w' lv] & [= <- <-] & HF). cbn [fst]. apply filter_In in HF as [HF HV].
      destruct (node_in ix k vs w' lv W EK HF) as [Gw EN]. cbn [fst] in HV. split; [exact Gw|]. split; [exact HV|]. split; [lia|]. split; [apply RD|congruence].
    - intros w Gw HV HN. specialize (HN n ltac:(lia)). unfold node_of in HN. destruct (aget String.eqb k ix) as [vs|] eqn:EK; [|congruence].
      destruct (aget veq w vs) as [lv|] eqn:EW; [|congruence]. apply aget_In in EW as (w' & HI & EV). destruct (node_in ix k vs w' lv W EK HI) as [Gw' _].
      exists w', n. split; [|exact EV]. apply in_map_iff. exists (w', lv). split; [reflexivity|]. apply filter_In. split; [exact HI|]. cbn [fst]. unfold looks_at in *. rewrite <- (visitb_congr LFind (mv_value v) (mv_tr v) w w'); auto.
  Qed.
  Lemma all_reads_levels k v : levels_of h mq k (all_reads k v) =
    match aget String.eqb k ix with Some vs => fold_left (merge_levels (mq_min mq) (mq_max mq) 0) (lookup_values LFind (mv_value v) (mv_tr v) vs) [] | None => [] end.
  Proof.
    destruct INV as [OK (W & _)]. unfold levels_of, all_reads. destruct (aget String.eqb k ix) as [vs|] eqn:EK; [|reflexivity]. f_equal. unfold lookup_values, looks_at.
    assert (H : forall p, In p vs -> node_of ix k (fst p) = Some (snd p)) by (intros [w lv] HI; apply (node_in ix k vs w lv W EK HI)).
    induction vs as [|[w lv] vs IH] in H |- *; [reflexivity|]. cbn [filter]. destruct (visitb LFind (mv_value v) (mv_tr v) (fst (w, lv))).
    - cbn [map flat_map fst snd]. pose proof (H (w, lv) (or_introl eq_refl)) as E. cbn [fst snd] in E. rewrite E. cbn. f_equal. apply IH. intros p Hp. apply H. right. exact Hp.
    - apply IH. intros p Hp. apply H. right. exact Hp.
  Qed.
  Lemma alone_keys keys : (forall p, In p keys -> In p (mq_kvs mq)) -> forall from, from <= n -> keys <> [] \/ from = n ->
    keys_run h readable mq from keys n (flat_map (fun p => match match_key ix mq (fst p) (snd p) with Some lv => [(fst p, lv)] | None => [] end) keys).
  Proof.
    induction keys as [|[k v] r IH]; intros INC from LE NE; [destruct NE as [NE | ->]; [contradiction|constructor]|].
    pose proof (KR_key h readable mq from n k v r (all_reads k v) n _ LE (all_reads_ok from k v LE (INC _ (or_introl eq_refl))) (IH (fun p Hp => INC p (or_intror Hp)) n (le_n n) (or_intror eq_refl))) as K.
    cbn [flat_map fst snd]. rewrite all_reads_levels in K. unfold match_key. destruct (aget String.eqb k ix) as [vs|]; [|exact K].
    destruct (fold_left (merge_levels (mq_min mq) (mq_max mq) 0) (lookup_values LFind (mv_value v) (mv_tr v) vs) []); exact K.
  Qed.
  Lemma alone_visits ids : (forall x, In x ids -> exists kv, In (x, kv) (ents_of (a_items (h n)))) -> visits h n ids n (items_of (h n) ids).
  Proof.
    induction ids as [|x ids IH]; intros H; [constructor|]. destruct (H x (or_introl eq_refl)) as (kv & HI). apply in_ents_of in HI as (it & HI & <- & _).
    pose proof (in_find_item _ it (ainv_nodup _ INV) HI) as E. unfold items_of. cbn [flat_map]. rewrite E. cbn [app]. eapply (VI_found h n n); [apply le_n|exact E|]. apply IH. intros y Hy. apply H. right. exact Hy.
  Qed.
  Lemma concat_map {B C} (f : B -> list C) l : flat_map f l = concat (map f l).
  Proof. apply flat_map_concat_map. Qed.
  (** A match that reads everything at one moment [n], and visits later *)
  Lemma read_at from ids to its : from <= n -> match_ids ix mq = Some (Some ids) -> visits h n ids to its -> match_run h readable mq from to its.
  Proof.
    intros LE E V. unfold match_ids in E. rewrite VAL in E. cbn [negb] in E.
    destruct (GenerateStringPermutations (map fst (key_levels ix mq)) (match mq_min mq with Some m => m | None => 0%Z end) (match mq_max mq with Some m => m | None => (-1)%Z end)) as [groups|] eqn:EP; [|discriminate].
    injection E as <-. rewrite concat_map in V.
    apply (MR h readable mq from to its (mq_kvs mq) n (key_levels ix mq) (key_levels ix mq) groups (map (fun g => set_values (group_ids (key_levels ix mq) (Datatypes.length g) g true [])) groups)).
    - apply Permutation_refl.
    - apply alone_keys; [auto|exact LE|left; apply (mq_valid mq VAL ARG)].
    - apply Permutation_refl.
    - exact EP.
    - clear. induction groups as [|g gs IH]; constructor; [apply Permutation_refl|exact IH].
    - exact V.
  Qed.
  Lemma at_rest : ~ (exists b, mq_max mq = Some b /\ b <> -1 /\ b < match mq_min mq with Some a => a | None => 0 end)%Z ->
    exists its, match_run h readable mq n n its /\ forall S (cb : S -> item A -> S * bool) s, MatchAction (h n) mq cb s = Some (Some (iterate cb s its)).
  Proof.
    intros NC. destruct (match_ids_spec (h n) INV mq VAL ARG NC) as (ids & E & _ & H). exists (items_of (h n) ids).
    assert (P : forall x, In x ids -> exists kv, In (x, kv) (ents_of (a_items (h n)))) by (intros x Hx; apply H in Hx as (kv & HI & _); eauto). split.
    - apply (read_at n ids n); [lia|exact E|apply alone_visits, P].
    - intros S cb s. unfold MatchAction. rewrite E. rewrite (match_loop_iterate (h n) INV cb ids P). reflexivity.
  Qed.
End Alone.

(** An item is deleted: it is looked up before the other *)
Definition gone0 : atree nat := fst (arun sync0 (ACreate sync_kv "new"%string (Some 7))).
Definition gone1 : atree nat := fst (arun gone0 (ADelete sync_old (fun _ => true))).
Definition gone_h (n : nat) : atree nat := match n with 0 => gone0 | _ => gone1 end.
Lemma gone_history : history gone_h.
Proof.
  exists (fun _ => ["new"; "old"]%string). split.
  - apply (AR_step sync0 ["old"]%string (ACreate sync_kv "new"%string (Some 7))); [|apply sync_arg; auto|intros id [= <-]; split; [intros [C | []]; discriminate|discriminate]].
    exact (AR_step (mkTree [] []) [] (ACreate sync_old "old"%string (Some 5)) (@AR_new nat) (sync_arg _ (or_intror eq_refl)) ltac:(intros id [= <-]; split; [intros []|discriminate])).
  - intros [|n]; [right|left; auto]. exists (ADelete sync_old (fun _ => true)). split; [apply sync_arg; auto|]. split; [discriminate|]. split; reflexivity.
Qed.
Definition both : MatchQuery := mkMQ [("k1", mkMV (Int 1) sync_types); ("k2", mkMV (Int 2) sync_types)]%string None None.
Lemma both_ok : mq_validate both = true /\ match_arg both.
Proof.
  split; [reflexivity|]. split; [repeat constructor; cbn; intuition discriminate|]. intros k v [[= <- <-] | [[= <- <-] | []]]; cbn; intros [|]; discriminate.
Qed.
Lemma both_holds : match_holds both sync_kv /\ match_holds both sync_old.
Proof.
  assert (E : forall z, equal_values (Int z) (Int z)) by (intros z; right; right; split; [reflexivity|constructor]).
  assert (T : forall z, type_permitted sync_types (Int z)) by (intros z; vm_compute; split; discriminate).
  split; split; try (split; discriminate); intros k m H; apply kv_get_In in H.
  - destruct H as [[= <- <-] | [[= <- <-] | []]]; eexists; (split; [cbn; eauto|]); (split; [apply T|apply E]).
  - destruct H as [[= <- <-] | []]; eexists; (split; [cbn; eauto|]); (split; [apply T|apply E]).
Qed.
Lemma both_ids : match_ids (a_index gone0) both = Some (Some ["old"; "new"]%string).
Proof. vm_compute. reflexivity. Qed.
Lemma gone_inv n : ainv (gone_h n).
Proof. apply (history_ents gone_h gone_history). Qed.
Lemma cut : match_run gone_h any_time both 0 1 [].
Proof.
  apply (read_at gone_h any_time 0 both (gone_inv 0) (fun _ _ => Logic.I) (proj1 both_ok) (proj2 both_ok) 0 ["old"; "new"]%string 1); [lia|exact both_ids|].
  eapply VI_gone; [lia|reflexivity].
Qed.
Lemma grows : match_run sync_h any_time both 0 1 [mkItem "old"%string sync_old 5; mkItem "new"%string sync_kv 7].
Proof.
  apply (read_at sync_h any_time 1 both (sync_inv 1) (fun _ _ => Logic.I) (proj1 both_ok) (proj2 both_ok) 0 ["old"; "new"]%string 1); [lia|exact both_ids|].
  eapply (VI_found sync_h 1 1); [lia|reflexivity|]. eapply (VI_found sync_h 1 1); [lia|reflexivity|]. constructor.
Qed.
Lemma grows_only : none_leaves sync_h 0 1 both.
Proof.
  intros [|n] [|m] x kv _ L1 L2 (it & HI & E) _; try lia; [exists it; auto| |exists it; auto]. exists it. split; [|exact E]. cbn in HI. destruct HI as [<- | []]. left. reflexivity.
Qed.
