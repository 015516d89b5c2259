(** Queries that overlap other calls: what is read of one id. *)
From Coq Require Import Permutation.
From Verif Require Import Datatypes SpecValues DatatypesProofs Collections SpecCollections CollectionsProofs Query SpecQuery QueryProofs
  Assoc SpecAssoc AssocMaps AssocProofs AssocQueryProofs AssocOps QuerySync SpecQuerySync.
Local Open Scope nat_scope.

Lemma lookup_of_for c : lookup_of c = lookup_for c.
Proof. destruct c; reflexivity. Qed.

Lemma node_ids_spec {A} (t : atree A) s k v x : ainv t -> good v ->
  In x (node_ids t s k v) <-> exists kv m, In (x, kv) (ents_of (a_items t)) /\ kv_get kv k = Some m /\ veq m v = true /\ size_holds (s_min s) (s_max s) (length kv).
Proof.
  intros [OK I] Gv. pose proof I as (W & H1 & H2). unfold node_ids. destruct (node_of (a_index t) k v) as [lv|] eqn:EN.
  - destruct (H1 k v lv Gv EN) as [[HR _] _]. rewrite in_level_ids. cbn [Nat.add]. split.
    + intros (L & HI & B1 & B2). apply HR in HI as (kv & m & HI & HL & HG & HE). exists kv, m. repeat split; auto.
      * rewrite <- HL in B1. apply under_min_iff. exact B1.
      * rewrite <- HL in B2. apply over_max_iff. exact B2.
    + intros (kv & m & HI & HG & HE & HS1 & HS2). destruct OK as (_ & O & _). destruct (O _ _ HI) as [_ NE].
      exists (length kv - 1). assert (EL : Datatypes.S (length kv - 1) = length kv) by (destruct kv; [contradiction|cbn; lia]).
      rewrite EL. split; [apply HR; exists kv, m; auto|]. split; [apply under_min_iff|apply over_max_iff]; auto.
  - split; [intros []|]. intros (kv & m & HI & HG & HE & _). exfalso. apply (H2 _ _ _ _ HI HG).
    unfold node_of in *. destruct (aget String.eqb k (a_index t)) as [vs|] eqn:EK; [|reflexivity].
    destruct (iwf_get _ _ _ W EK) as [VW _]. assert (Gm : good m) by (eapply ents_good; eauto).
    rewrite (aget_congr veq good) with (b := v); auto with amap.
Qed.

(** ** Histories *)
Section Hist.
  Context {A : Type}.
  Lemma arun_ents (t : atree A) o x kv : ainv t -> op_arg o -> (forall id, op_id o = Some id -> ~ In id (map it_id (a_items t))) ->
    In (x, kv) (ents_of (a_items (fst (arun t o)))) -> In (x, kv) (ents_of (a_items t)) \/ op_id o = Some x.
  Proof.
    intros AI HA FR HI. apply in_ents_of in HI as (it & Hit & <- & <-).
    assert (G : In it (a_items t) \/ op_id o = Some (it_id it) -> In (it_id it, it_kv it) (ents_of (a_items t)) \/ op_id o = Some (it_id it)).
    { intros [H | H]; [left; apply in_ents_of; eauto|auto]. }
    destruct o as [kv id mk|kv id mk|kv can|id can|id can|can|id f]; cbn [arun op_id op_arg] in *.
    - apply G. destruct (Create_spec t kv id mk AI HA (FR id eq_refl)) as (S1 & S2 & S3 & S4).
      destruct (kv_validate kv MinDataType MaxDataType) eqn:V.
      + destruct (validate_rep kv HA V) as [R NE]. destruct (holds_dec t kv AI R NE) as [P|NP].
        * destruct (S3 eq_refl P) as [_ E]. rewrite E in Hit. auto.
        * specialize (S4 eq_refl NP). destruct mk; destruct S4 as [_ E]; rewrite E in Hit; [|auto]. apply in_app_iff in Hit as [Hit | [<- | []]]; auto.
      + rewrite (S2 eq_refl) in Hit. auto.
    - apply G. destruct (CreateOrFind_spec t kv id mk AI HA (FR id eq_refl)) as (S1 & S2 & S3 & S4).
      destruct (kv_validate kv MinDataType MaxDataType) eqn:V.
      + destruct (validate_rep kv HA V) as [R NE]. destruct (holds_dec t kv AI R NE) as [(it0 & P1 & P2)|NP].
        * rewrite (S3 eq_refl it0 P1 P2) in Hit. auto.
        * specialize (S4 eq_refl NP). destruct mk; destruct S4 as [_ E]; rewrite E in Hit; [|auto]. apply in_app_iff in Hit as [Hit | [<- | []]]; auto.
      + rewrite (S2 eq_refl) in Hit. auto.
    - apply G. left. destruct (Delete_spec t kv can AI HA) as (S1 & S2 & S3).
      destruct (kv_validate kv MinDataType MaxDataType) eqn:V; [|rewrite (S2 eq_refl) in Hit; auto].
      destruct (S3 eq_refl) as (_ & S4 & S5).
      destruct (validate_rep kv HA V) as [R NE]. destruct (holds_dec t kv AI R NE) as [(it0 & P1 & P2)|NP].
      + destruct (can it0) eqn:EC; [rewrite (S4 it0 P1 P2 EC) in Hit; apply in_remove_item in Hit; apply Hit|].
        rewrite S5 in Hit; [exact Hit|]. intros it1 H1 H2. rewrite (item_unique t it1 it0 kv AI); auto.
      + rewrite S5 in Hit; [exact Hit|]. intros it1 H1 H2. exfalso. apply NP. exists it1; auto.
    - apply G. left. destruct (DeleteByID_spec t id can AI) as (S1 & S2 & S3).
      destruct (String.eqb_spec id EmptyString) as [E|NE]; [rewrite (S2 E) in Hit; auto|].
      destruct (S3 NE) as (_ & S4 & S5). destruct (find_item (a_items t) id) as [it0|] eqn:EF.
      + apply find_item_some in EF as [P1 P2]. destruct (can it0) eqn:EC; [rewrite (S4 it0 P1 P2 EC) in Hit; apply in_remove_item in Hit; apply Hit|].
        rewrite S5 in Hit; [exact Hit|]. intros it1 H1 H2. rewrite (item_eq t it1 it0 AI); auto; congruence.
      + rewrite S5 in Hit; [exact Hit|]. intros it1 H1 H2. exfalso. apply find_item_none in EF. apply EF. apply in_map_iff. eauto.
    - apply G. left. destruct (DestroyByID_spec t id can AI) as (S1 & S2 & S3).
      destruct (String.eqb_spec id EmptyString) as [E|NE]; [rewrite (S2 E) in Hit; auto|].
      destruct (S3 NE) as (_ & S4 & S5). destruct (find_item (a_items t) id) as [it0|] eqn:EF.
      + apply find_item_some in EF as [P1 P2]. destruct (can it0) eqn:EC; [rewrite (S4 it0 P1 P2 EC) in Hit; apply in_remove_item in Hit; apply Hit|].
        rewrite S5 in Hit; [exact Hit|]. intros it1 H1 H2. rewrite (item_eq t it1 it0 AI); auto; congruence.
      + rewrite S5 in Hit; [exact Hit|]. intros it1 H1 H2. exfalso. apply find_item_none in EF. apply EF. apply in_map_iff. eauto.
    - apply G. left. destruct (destroy_items_spec (a_items t) t can AI (ainv_nodup t AI) (fun _ H => H)) as (S1 & S2 & gone & rest & _ & _ & _ & S3).
      apply S3 in Hit. apply Hit.
    - left. assert (E := update_value_ents t id f). cbn [fst] in Hit. rewrite <- E. apply in_ents_of. eauto.
  Qed.

  Lemma history_reach (h : nat -> atree A) used : areach (h 0) (used 0) ->
    (forall n, (h (Datatypes.S n) = h n /\ used (Datatypes.S n) = used n) \/
      exists o, op_arg o /\ (forall id, op_id o = Some id -> ~ In id (used n) /\ id <> EmptyString) /\
        h (Datatypes.S n) = fst (arun (h n) o) /\ used (Datatypes.S n) = match op_id o with Some id => id :: used n | None => used n end) ->
    forall n, areach (h n) (used n).
  Proof.
    intros H0 HS. induction n as [|n IH]; [exact H0|]. destruct (HS n) as [[-> ->] | (o & HA & HF & -> & ->)]; [exact IH|]. constructor; auto.
  Qed.
  (** the key-values of an id never change, and an id that is gone does not come back *)
  Lemma history_ents (h : nat -> atree A) : history h -> (forall n, ainv (h n)) /\
    (forall n m x kv kv', stored_at h n x kv -> stored_at h m x kv' -> kv = kv') /\
    (forall n m k x kv, n <= k -> k <= m -> stored_at h n x kv -> stored_at h m x kv -> stored_at h k x kv).
  Proof.
    intros (used & H0 & HS). pose proof (history_reach h used H0 HS) as R.
    assert (EQ : forall n x kv, stored_at h n x kv <-> In (x, kv) (ents_of (a_items (h n)))) by (intros; unfold stored_at; rewrite in_ents_of; reflexivity).
    assert (US : forall n x kv, stored_at h n x kv -> In x (used n)).
    { intros n x kv (it & HI & <- & _). apply (proj2 (areach_inv _ _ (R n)) it HI). }
    assert (UM : forall n d x, In x (used n) -> In x (used (n + d))).
    { intros n d x HI. induction d as [|d IH]; [rewrite Nat.add_0_r; exact HI|]. rewrite Nat.add_succ_r.
      destruct (HS (n + d)) as [[_ ->] | (o & _ & _ & _ & ->)]; [exact IH|]. destruct (op_id o); [right|]; exact IH. }
    assert (BK : forall d n x kv, In x (used n) -> stored_at h (n + d) x kv -> stored_at h n x kv).
    { induction d as [|d IH]; intros n x kv HU H; [rewrite Nat.add_0_r in H; exact H|]. apply IH; [exact HU|]. rewrite Nat.add_succ_r in H.
      destruct (HS (n + d)) as [[E _] | (o & HA & HF & E & _)]; [unfold stored_at in *; rewrite E in H; exact H|].
      apply EQ. apply EQ in H. rewrite E in H. destruct (arun_ents (h (n + d)) o x kv) as [HE | HE]; auto.
      - apply (areach_inv _ _ (R (n + d))).
      - intros id EI C. apply (proj1 (HF id EI)). apply in_map_iff in C as (it & <- & HI). apply (proj2 (areach_inv _ _ (R (n + d))) it HI).
      - exfalso. apply (proj1 (HF x HE)). apply UM. exact HU. }
    assert (FN : forall n x kv kv', stored_at h n x kv -> stored_at h n x kv' -> kv = kv').
    { intros n x kv kv' H1 H2. apply EQ in H1, H2. eapply ents_fun; eauto. apply (areach_inv _ _ (R n)). }
    split; [intros n; apply (areach_inv _ _ (R n))|]. split.
    - intros n m x kv kv' H1 H2. destruct (Nat.le_ge_cases n m) as [L|L].
      + apply (FN n x); auto. apply (BK (m - n)); [eauto|]. replace (n + (m - n)) with m by lia. exact H2.
      + apply (FN m x); auto. apply (BK (n - m)); [eauto|]. replace (m + (n - m)) with n by lia. exact H1.
    - intros n m k x kv L1 L2 H1 H2. apply (BK (m - k)).
      + replace k with (n + (k - n)) by lia. apply UM. eauto.
      + replace (k + (m - k)) with m by lia. exact H2.
  Qed.
End Hist.

(** ** One key of a selection *)
Definition visited (kv : KeyValues) (p : string * ValueQuery) : Prop :=
  exists m, kv_get kv (fst p) = Some m /\ visitb (lookup_of (vq_cmp (snd p))) (vq_value (snd p)) (vq_tr (snd p)) m = true.
Lemma visited_holds kv k q : kvs_good kv -> value_query_ok q -> good (vq_value q) -> range_covered q ->
  (visited kv (k, q) <-> if negative q then ~ key_holds q (kv_get kv k) else key_holds q (kv_get kv k)).
Proof.
  intros KG SO Gq RC. unfold visited. cbn [fst snd]. unfold negative, key_holds. rewrite lookup_of_for.
  destruct (kv_get kv k) as [m|] eqn:EG.
  - assert (Gm : good m) by (eapply KG; eauto).
    assert (V : (exists m0, Some m = Some m0 /\ visitb (lookup_for (vq_cmp q)) (vq_value q) (vq_tr q) m0 = true) <-> visitb (lookup_for (vq_cmp q)) (vq_value q) (vq_tr q) m = true).
    { split; [intros (m0 & [= <-] & H); exact H|eauto]. }
    rewrite V. clear V. pose proof (range_visits q m SO Gq Gm RC) as RV. pose proof (find_visits q m SO Gq Gm) as FV.
    destruct (vq_cmp q) eqn:EC; cbn [lookup_for] in *.
    + rewrite FV. split; [intros [? ?]; eauto|intros (m0 & [= <-] & ?); auto].
    + rewrite FV. split.
      * intros [H1 H2] C. exact (C m eq_refl H1 H2).
      * intros H. destruct (tr_within (vq_tr q) (ev_type m)) eqn:EW.
        -- apply tr_within_iff in EW. split; [exact EW|]. destruct (visitb LFind (vq_value q) (vq_tr q) m) eqn:EB; [apply FV; reflexivity|].
           exfalso. apply H. intros m0 [= <-] _ C. assert (false = true) by (apply FV; split; auto). discriminate.
        -- exfalso. apply H. intros m0 [= <-] HT. exfalso. apply tr_within_iff in HT. congruence.
    + rewrite RV by discriminate. split; [intros [? ?]; eauto|intros (m0 & [= <-] & ?); auto].
    + rewrite RV by discriminate. split; [intros [? ?]; eauto|intros (m0 & [= <-] & ?); auto].
    + rewrite RV by discriminate. split; [intros [? ?]; eauto|intros (m0 & [= <-] & ?); auto].
    + rewrite RV by discriminate. split; [intros [? ?]; eauto|intros (m0 & [= <-] & ?); auto].
    + destruct SO as [SO _]. congruence.
  - assert (F : ~ exists m, None = Some m /\ visitb (lookup_for (vq_cmp q)) (vq_value q) (vq_tr q) m = true) by (intros (? & ? & _); discriminate).
    destruct (vq_cmp q); (split; [intros H; contradiction|]); try (intros (? & ? & _); discriminate).
    intros H. exfalso. apply H. discriminate.
Qed.

(** ** Time only goes forward *)
Section Mono.
  Context {A : Type} (h : nat -> atree A) (readable : nat -> string -> EV -> Prop).
  Lemma sel_mono s n keys va ia valid invalid m res : sel_run h readable s n keys va ia valid invalid m res -> n <= m.
  Proof. induction 1; lia. Qed.
  Lemma find_mono s n m r : find_run h readable s n m r -> n <= m.
  Proof. destruct 1 as [n m mo r ? L _ _|n m r _ H|n m v i _ H|n m m' v i ids _ H L _]; [exact L|..]; apply sel_mono in H; lia. Qed.
  Lemma start_mono n sel m c : start_run h readable n sel m c -> n <= m.
  Proof. destruct 1 as [n|n m s r F]; [lia|eapply find_mono; eauto]. Qed.
  Lemma and_mono l : Forall (fun c => forall n m r, query_run h readable n c m r -> n <= m) l ->
    forall n cur m out, and_run h readable n l cur m out -> n <= m.
  Proof.
    induction 1 as [|c l Hc F IH]; intros n cur m out H; inversion H; subst; auto.
    - match goal with HQ : query_run _ _ _ _ _ _, HR : and_run _ _ _ _ _ _ _ |- _ => apply Hc in HQ; apply IH in HR; lia end.
    - match goal with HQ : query_run _ _ _ _ _ _, HR : and_run _ _ _ _ _ _ _ |- _ => apply Hc in HQ; apply IH in HR; lia end.
  Qed.
  Lemma or_mono l : Forall (fun c => forall n m r, query_run h readable n c m r -> n <= m) l ->
    forall n cur m out, or_run h readable n l cur m out -> n <= m.
  Proof.
    induction 1 as [|c l Hc F IH]; intros n cur m out H; inversion H; subst; auto.
    - match goal with HQ : query_run _ _ _ _ _ _, HR : or_run _ _ _ _ _ _ _ |- _ => apply Hc in HQ; apply IH in HR; lia end.
    - match goal with HQ : query_run _ _ _ _ _ _, HR : or_run _ _ _ _ _ _ _ |- _ => apply Hc in HQ; apply IH in HR; lia end.
  Qed.
  Lemma query_mono q : forall n m r, query_run h readable n q m r -> n <= m.
  Proof.
    induction q as [|sel ors ands IO IA] using query_ind'; intros n m r H; inversion H as [? ? ? ? n1 n2 ? cur0 cur1 cur2 HS HA HO]; subst.
    apply start_mono in HS. apply (and_mono _ IA) in HA. apply (or_mono _ IO) in HO. lia.
  Qed.
End Mono.

(** ** Sets of ids, as far as one id is concerned: exactly ([true]) or only those ([false]) *)
Definition lk (b : bool) (P Q : Prop) : Prop := if b then (P <-> Q) else (P -> Q).
Lemma lk_congr b P Q Q' : (Q <-> Q') -> lk b P Q -> lk b P Q'.
Proof. destruct b; cbn; tauto. Qed.

Section Whole.
  Context {A : Type} (h : nat -> atree A) (readable : nat -> string -> EV -> Prop).
  Variables (b : bool) (lo hi : nat) (x : string) (kv : KeyValues) (GS : Selection -> Prop).
  Definition about_x (r : sset) (P : Prop) : Prop := NoDup r /\ lk b (In x r) P.
  Definition reads (c : Query) : Prop := forall n m r, query_run h readable n c m r -> lo <= n -> m <= hi ->
    exists s, r = Some s /\ about_x s (query_holds c x kv).

  Lemma and_x l : Forall reads l -> forall n cur m out P, and_run h readable n l cur m out -> lo <= n -> m <= hi ->
    match cur with None => P /\ l <> [] | Some None => False | Some (Some s) => about_x s P end ->
    exists s, out = Some (Some s) /\ about_x s (P /\ Forall (fun c => query_holds c x kv) l).
  Proof using.
    intros F. assert (MO : forall l, Forall (fun c => forall n m r, query_run h readable n c m r -> n <= m) l).
    { intros l0. apply Forall_forall. intros c _. apply query_mono. }
    induction F as [|c l Hc F IH]; intros n cur m out P HR L1 L2 HC.
    - inversion HR; subst. destruct out as [[s|]|]; [|destruct HC|destruct HC as [_ C]; contradiction]. exists s. split; [reflexivity|].
      destruct HC as [N HC]. split; [exact N|]. eapply lk_congr; [|exact HC]. split; [intros H; split; [exact H|constructor]|intros [H _]; exact H].
    - inversion HR as [|? m1 ? ? ? s ? HQ HN|? ? ? s S0|? m1 ? ? ? s s' ? NS HQ HN]; subst.
      + pose proof (and_mono _ _ _ (MO l) _ _ _ _ HN) as M1. destruct (Hc _ _ _ HQ L1) as (s0 & -> & HS); [lia|].
        pose proof (query_mono _ _ _ _ _ _ HQ) as M2.
        destruct (IH _ _ _ _ (query_holds c x kv) HN) as (s' & -> & N & HS'); [lia|lia|exact HS|]. exists s'. split; [reflexivity|]. split; [exact N|].
        eapply lk_congr; [|exact HS']. rewrite Forall_cons_iff. tauto.
      + exists s. split; [reflexivity|]. unfold set_size in S0. destruct s; [|discriminate]. destruct HC as [N HC]. split; [exact N|].
        destruct b; cbn in *; tauto.
      + pose proof (and_mono _ _ _ (MO l) _ _ _ _ HN) as M1. destruct (Hc _ _ _ HQ L1) as (s0 & [= <-] & N0 & HS); [lia|].
        pose proof (query_mono _ _ _ _ _ _ HQ) as M2. destruct (set_intersection_spec s (set_values s')) as [N1 E].
        destruct (IH _ _ _ _ (P /\ query_holds c x kv) HN) as (r & -> & N & HS'); [lia|lia| |].
        { split; [exact N1|]. destruct HC as [_ HC]. specialize (E x). unfold set_values in *. destruct b; cbn in *; tauto. }
        exists r. split; [reflexivity|]. split; [exact N|]. eapply lk_congr; [|exact HS']. rewrite Forall_cons_iff. tauto.
  Qed.
  Lemma or_x l : Forall reads l -> forall n cur m out P, or_run h readable n l cur m out -> lo <= n -> m <= hi ->
    match cur with None => ~ P /\ l <> [] | Some None => False | Some (Some s) => about_x s P end ->
    exists s, out = Some (Some s) /\ about_x s (P \/ Exists (fun c => query_holds c x kv) l).
  Proof using.
    intros F. assert (MO : forall l, Forall (fun c => forall n m r, query_run h readable n c m r -> n <= m) l).
    { intros l0. apply Forall_forall. intros c _. apply query_mono. }
    induction F as [|c l Hc F IH]; intros n cur m out P HR L1 L2 HC.
    - inversion HR; subst. destruct out as [[s|]|]; [|destruct HC|destruct HC as [_ C]; contradiction]. exists s. split; [reflexivity|].
      destruct HC as [N HC]. split; [exact N|]. eapply lk_congr; [|exact HC]. rewrite Exists_nil. tauto.
    - inversion HR as [|? m1 ? ? ? s ? HQ HN|? m1 ? ? ? s s' ? HQ HN]; subst.
      + pose proof (or_mono _ _ _ (MO l) _ _ _ _ HN) as M1. destruct (Hc _ _ _ HQ L1) as (s0 & -> & HS); [lia|].
        pose proof (query_mono _ _ _ _ _ _ HQ) as M2.
        destruct (IH _ _ _ _ (query_holds c x kv) HN) as (s' & -> & N & HS'); [lia|lia|exact HS|]. exists s'. split; [reflexivity|]. split; [exact N|].
        eapply lk_congr; [|exact HS']. rewrite Exists_cons. tauto.
      + pose proof (or_mono _ _ _ (MO l) _ _ _ _ HN) as M1. destruct (Hc _ _ _ HQ L1) as (s0 & [= <-] & N0 & HS); [lia|].
        pose proof (query_mono _ _ _ _ _ _ HQ) as M2. destruct HC as [NS HC]. destruct (set_add_bulk_spec (set_values s') s NS) as [N1 E].
        destruct (IH _ _ _ _ (P \/ query_holds c x kv) HN) as (r & -> & N & HS'); [lia|lia| |].
        { split; [exact N1|]. specialize (E x). unfold set_values in *. destruct b; cbn in *; tauto. }
        exists r. split; [reflexivity|]. split; [exact N|]. eapply lk_congr; [|exact HS']. rewrite Exists_cons. tauto.
  Qed.
  Hypothesis FIND : forall s n m r, GS s -> find_run h readable s n m r -> lo <= n -> m <= hi -> about_x r (sel_holds s x kv).
  Lemma query_x q : every_node (fun sel ors ands => (sel <> None \/ ors <> [] \/ ands <> []) /\ forall s, sel = Some s -> GS s) q -> reads q.
  Proof using FIND.
    unfold reads, query_holds. induction q as [|sel ors ands IO IA] using query_ind'; [intros []|].
    intros HE. apply every_node_Q in HE as ((HN & HS) & HA & HO).
    assert (FA : Forall reads (elems ands)). { rewrite Forall_forall in *. intros c Hc. unfold reads. apply IA; auto. }
    assert (FO : Forall reads (elems ors)). { rewrite Forall_forall in *. intros c Hc. unfold reads. apply IO; auto. }
    intros n m r H L1 L2. inversion H as [? ? ? ? n1 n2 ? cur0 cur1 cur2 RS RA RO]; subst.
    assert (MO : forall l, Forall (fun c => forall n m r, query_run h readable n c m r -> n <= m) l).
    { intros l0. apply Forall_forall. intros c _. apply query_mono. }
    pose proof (start_mono _ _ _ _ _ _ RS) as M1. pose proof (and_mono _ _ _ (MO _) _ _ _ _ RA) as M2. pose proof (or_mono _ _ _ (MO _) _ _ _ _ RO) as M3.
    set (Psel := match sel with Some s => sel_holds s x kv | None => True end).
    assert (STEP : match cur1 with
              | None => sel = None /\ elems ands = []
              | Some None => False
              | Some (Some s) => (sel <> None \/ elems ands <> []) /\ about_x s (Psel /\ Forall (fun c => query_holds c x kv) (elems ands))
              end).
    { destruct sel as [s|]; inversion RS; subst.
      - match goal with HF : find_run _ _ _ _ _ _ |- _ => pose proof (FIND _ _ _ _ (HS s eq_refl) HF) as HR end.
        destruct (and_x _ FA _ _ _ _ Psel RA) as (s' & -> & HS'); [lia|lia|apply HR; lia|]. split; [left; discriminate|exact HS'].
      - destruct (elems ands) as [|c l] eqn:EA.
        + inversion RA; subst. auto.
        + destruct (and_x _ FA _ _ _ _ True RA) as (s' & -> & HS'); [lia|lia|split; [constructor|discriminate]|]. split; [right; discriminate|exact HS']. }
    destruct cur1 as [[s|]|]; [|destruct STEP|].
    - destruct STEP as [HNE HC]. destruct (or_x _ FO _ _ _ _ (Psel /\ Forall (fun c => query_holds c x kv) (elems ands)) RO) as (s' & -> & N & HS'); [lia|lia|exact HC|]. exists s'. split; [reflexivity|]. split; [exact N|].
      eapply lk_congr; [|exact HS']. rewrite q_holds_Q. fold Psel. unfold query_holds. tauto.
    - destruct STEP as [-> EA]. assert (NO : elems ors <> []) by (rewrite EA in HN; tauto).
      destruct (or_x _ FO _ _ _ _ False RO) as (s' & -> & N & HS'); [lia|lia|tauto|]. exists s'. split; [reflexivity|]. split; [exact N|].
      eapply lk_congr; [|exact HS']. rewrite q_holds_Q, EA. unfold query_holds. split; [tauto|]. intros [(_ & _ & [C | [C | C]]) | C]; try congruence. auto.
  Qed.
End Whole.

(** ** Selections *)
Lemma sorted_in p kvs : In p (sorted_sel kvs) -> In p kvs.
Proof. apply in_sorted_sel. Qed.
Lemma in_sorted p kvs : In p kvs -> In p (sorted_sel kvs).
Proof. apply in_sorted_sel. Qed.
Section Sel.
  Context {A : Type} (h : nat -> atree A) (readable : nat -> string -> EV -> Prop).
  Variables (lo hi : nat) (x : string) (kv : KeyValues).
  Hypothesis INV : forall n, ainv (h n).
  Hypothesis KG : kvs_good kv.
  Hypothesis UQ : forall n kv', lo <= n -> n <= hi -> stored_at h n x kv' -> kv' = kv.
  Definition steady : Prop := forall n k v m, lo <= n -> n <= hi -> readable n k v -> good v -> kv_get kv k = Some m -> veq m v = true -> stored_at h n x kv.

  Lemma in_node n s k v : lo <= n -> n <= hi -> good v ->
    In x (node_ids (h n) s k v) -> exists m, kv_get kv k = Some m /\ veq m v = true /\ size_holds (s_min s) (s_max s) (length kv) /\ stored_at h n x kv.
  Proof.
    intros L1 L2 Gv H. apply node_ids_spec in H as (kv' & m & HI & HG & HE & HS); auto.
    assert (SA : stored_at h n x kv') by (unfold stored_at; apply in_ents_of in HI; exact HI).
    assert (kv' = kv) as -> by (eapply UQ; eauto). eauto.
  Qed.
  Lemma in_node_back n s k v m : good v -> stored_at h n x kv -> kv_get kv k = Some m -> veq m v = true -> size_holds (s_min s) (s_max s) (length kv) ->
    In x (node_ids (h n) s k v).
  Proof. intros Gv SA HG HE HS. apply node_ids_spec; auto. exists kv, m. split; [apply in_ents_of; exact SA|]. auto. Qed.

  Definition key_has (s : Selection) (p : string * ValueQuery) : Prop := visited kv p /\ size_holds (s_min s) (s_max s) (length kv).
  Lemma key_found n m s k q ids : good (vq_value q) -> lo <= n -> m <= hi -> key_read h readable n m s k q ids -> In x ids -> key_has s (k, q).
  Proof.
    intros Gq L1 L2 (mo & HM & HI) H. apply HI in H as (v & Gv & HV & H). destruct (HM v Gv HV) as [HW _].
    apply in_node in H as (mm & HG & HE & HS & _); [|lia|lia|exact Gv]. split; [|exact HS]. exists mm. cbn [fst snd]. split; [exact HG|].
    rewrite (visitb_congr _ _ _ mm v); auto. eapply KG; eauto.
  Qed.
  Lemma key_steady n m s k q ids : steady -> good (vq_value q) -> lo <= n -> m <= hi -> key_read h readable n m s k q ids -> In x ids <-> key_has s (k, q).
  Proof.
    intros ST Gq L1 L2 HR. split; [eapply key_found; eauto|]. destruct HR as (mo & HM & HI). intros [(mm & HG & HV) HS]. cbn [fst snd] in *.
    apply HI. assert (Gm : good mm) by (eapply KG; eauto). exists mm. split; [exact Gm|]. split; [exact HV|]. destruct (HM mm Gm HV) as [HW HB].
    assert (RF : veq mm mm = true) by (apply veq_refl; exact Gm).
    eapply in_node_back; eauto. eapply ST; eauto; lia.
  Qed.

  Lemma all_found n m s ids : lo <= n -> m <= hi -> all_read h readable n m s ids -> In x ids -> size_holds (s_min s) (s_max s) (length kv).
  Proof.
    intros L1 L2 (mo & HM & HI) H. apply HI in H as (k & v & Gv & H). destruct (HM k v Gv) as [HW _].
    apply in_node in H as (mm & HG & HE & HS & _); [exact HS|lia|lia|exact Gv].
  Qed.
  Lemma all_steady n m s ids : steady -> kv <> [] -> lo <= n -> m <= hi -> all_read h readable n m s ids -> In x ids <-> size_holds (s_min s) (s_max s) (length kv).
  Proof.
    intros ST NE L1 L2 HR. split; [eapply all_found; eauto|]. destruct HR as (mo & HM & HI). intros HS. apply HI.
    destruct kv as [|[k v] l] eqn:EK; [contradiction|]. assert (HG : kv_get ((k, v) :: l) k = Some v) by (cbn; rewrite String.eqb_refl; reflexivity).
    assert (Gv : good v) by (eapply KG; eauto). exists k, v. split; [exact Gv|]. destruct (HM k v Gv) as [HW HB].
    assert (RF : veq v v = true) by (apply veq_refl; exact Gv).
    rewrite <- EK in *. eapply in_node_back; eauto. eapply ST; eauto; lia.
  Qed.

  Lemma neg_iff q : negative q = true <-> vq_cmp q = CNotEquals.
  Proof using. unfold negative. destruct (vq_cmp q); split; congruence. Qed.
  Definition keys_ok (keys : list (string * ValueQuery)) : Prop := forall k q, In (k, q) keys -> good (vq_value q).

  Lemma sel_steady s n keys va ia valid invalid m res : steady -> sel_run h readable s n keys va ia valid invalid m res -> lo <= n -> m <= hi ->
    keys_ok keys -> NoDup valid -> NoDup invalid -> (va = false -> valid = []) -> (ia = false -> invalid = []) ->
    let pos := (va = true -> In x valid) /\ forall p, In p keys -> negative (snd p) = false -> key_has s p in
    let neg := (ia = true -> In x invalid) /\ forall p, In p keys -> negative (snd p) = true -> key_has s p in
    match res with
    | SPanic => False
    | SEarly v => v = [] /\ ~ pos
    | SDone va' valid' invalid' =>
        NoDup valid' /\ NoDup invalid' /\ (va' = false -> valid' = []) /\
        (va' = true <-> va = true \/ exists p, In p keys /\ negative (snd p) = false) /\
        (va' = true -> (In x valid' <-> pos)) /\
        (In x invalid' <-> (ia = true \/ exists p, In p keys /\ negative (snd p) = true) /\ neg)
    end.
  Proof.
    intros ST R. induction R as [n va ia valid invalid
      |n m k q r va ia valid invalid ids NE NU KR L E0
      |n m k q r va ia valid invalid ids to res NE NU KR L E0 R IH
      |n m k q r va ia valid invalid ids to res EQ KR L E0 R IH
      |n m k q r va ia valid invalid ids EQ KR L E0]; intros L1 L2 KO NV NI HV HI; cbv zeta in *.
    - split; [auto|]. split; [auto|]. split; [auto|]. split; [split; [auto|intros [? | (? & [] & _)]; auto]|]. split.
      + intros E. split; [intros H; split; [auto|intros ? []]|intros [H _]; auto].
      + split.
        * intros H. split; [left; destruct ia; auto; rewrite HI in H by reflexivity; destruct H|]. split; [auto|intros ? []].
        * intros [[E | (? & [] & _)] [H _]]; auto.
    - assert (Gq : good (vq_value q)) by (eapply KO; left; reflexivity). pose proof (key_steady n m s k q ids ST Gq L1 L2 KR) as KS.
      destruct (combine_ids_spec va valid ids NV HV) as [NV' HV']. unfold set_size in E0. destruct (combine_ids va valid ids); [|discriminate].
      split; [reflexivity|]. intros [H1 H2]. apply (HV' x). split; [exact H1|]. apply KS. apply H2; [left; reflexivity|]. cbn [snd].
      destruct (negative q) eqn:EN; [apply neg_iff in EN; contradiction|reflexivity].
    - pose proof (sel_mono _ _ _ _ _ _ _ _ _ _ _ R) as M.
      assert (Gq : good (vq_value q)) by (eapply KO; left; reflexivity). pose proof (key_steady n m s k q ids ST Gq L1 ltac:(lia) KR) as KS.
      destruct (combine_ids_spec va valid ids NV HV) as [NV' HV']. specialize (HV' x).
      assert (NQ : negative q = false) by (destruct (negative q) eqn:EN; [apply neg_iff in EN; contradiction|reflexivity]).
      assert (EP : exists p, In p ((k, q) :: r) /\ negative (snd p) = false) by (exists (k, q); cbn; auto).
      specialize (IH ltac:(lia) L2 (fun k q H => KO k q (or_intror H)) NV' NI (fun H => ltac:(discriminate)) HI).
      destruct res as [va' valid' invalid'|v|]; [| |exact IH].
      + destruct IH as (A1 & A2 & A3 & A4 & A5 & A6). split; [exact A1|]. split; [exact A2|]. split; [exact A3|].
        split; [split; [auto|intros _; apply A4; auto]|]. split.
        * intros E. rewrite (A5 E). split.
          -- intros [H1 H2]. specialize (H1 eq_refl). apply HV' in H1 as [H1 H3]. split; [exact H1|]. intros p [<- | Hp]; auto. intros _. apply KS. exact H3.
          -- intros [H1 H2]. split; [|intros p Hp; apply H2; right; exact Hp]. intros _. apply HV'. split; [exact H1|]. apply KS. apply H2; cbn; auto.
        * rewrite A6. split.
          -- intros [H1 [H2 H3]]. split; [destruct H1 as [H1 | (p & H1 & H4)]; [auto|right; exists p; cbn; auto]|]. split; [exact H2|].
             intros p [<- | Hp] Np; [cbn in Np; congruence|auto].
          -- intros [H1 [H2 H3]]. split; [|split; [exact H2|intros p Hp; apply H3; right; exact Hp]].
             destruct H1 as [H1 | (p & [<- | H1] & H4)]; [auto|cbn in H4; congruence|right; eauto].
      + destruct IH as [-> A3]. split; [reflexivity|].
        intros [H1 H2]. apply A3. split; [|intros p Hp; apply H2; right; exact Hp]. intros _. apply HV'. split; [exact H1|]. apply KS. apply H2; cbn; auto.
    - pose proof (sel_mono _ _ _ _ _ _ _ _ _ _ _ R) as M.
      assert (Gq : good (vq_value q)) by (eapply KO; left; reflexivity). pose proof (key_steady n m s k q ids ST Gq L1 ltac:(lia) KR) as KS.
      destruct (combine_ids_spec ia invalid ids NI HI) as [NI' HI']. specialize (HI' x).
      assert (NQ : negative q = true) by (apply neg_iff; exact EQ).
      specialize (IH ltac:(lia) L2 (fun k q H => KO k q (or_intror H)) NV NI' HV (fun H => ltac:(discriminate))).
      destruct res as [va' valid' invalid'|v|]; [| |exact IH].
      + destruct IH as (A1 & A2 & A3 & A4 & A5 & A6). split; [exact A1|]. split; [exact A2|]. split; [exact A3|].
        assert (PP : forall p, In p ((k, q) :: r) /\ negative (snd p) = false <-> In p r /\ negative (snd p) = false).
        { intros p. cbn. split; [intros [[<- | H] N]; [cbn in N; congruence|auto]|intros [H N]; auto]. }
        split; [rewrite A4; setoid_rewrite PP; reflexivity|]. split.
        * intros E. rewrite (A5 E). split; intros [H1 H2]; (split; [exact H1|]); intros p Hp Np; apply H2; auto.
          -- destruct (proj1 (PP p) (conj Hp Np)); auto.
          -- right; exact Hp.
        * rewrite A6. split.
          -- intros [_ [H2 H3]]. specialize (H2 eq_refl). apply HI' in H2 as [H2 H4]. split; [right; exists (k, q); cbn; auto|].
             split; [exact H2|]. intros p [<- | Hp]; auto. intros _. apply KS. exact H4.
          -- intros [H1 [H2 H3]]. split; [left; reflexivity|]. split; [|intros p Hp; apply H3; right; exact Hp].
             intros _. apply HI'. split; [exact H2|]. apply KS. apply H3; cbn; auto.
      + destruct IH as [-> A2]. split; [reflexivity|]. intros [H1 H2]. apply A2. split; [exact H1|]. intros p Hp. apply H2. right; exact Hp.
    - apply andb_true_iff in E0 as [-> E0]. apply Nat.eqb_eq in E0. unfold set_size in E0. destruct valid; [|discriminate].
      split; [reflexivity|]. intros [H _]. destruct (H eq_refl).
  Qed.

  Lemma sel_found s n keys va ia valid invalid m res : sel_run h readable s n keys va ia valid invalid m res -> lo <= n -> m <= hi ->
    keys_ok keys -> (forall p, In p keys -> negative (snd p) = false) -> NoDup valid -> (va = false -> valid = []) ->
    match res with
    | SPanic => False
    | SEarly v => v = []
    | SDone va' valid' invalid' =>
        NoDup valid' /\ invalid' = invalid /\ (va' = false -> valid' = []) /\
        (va' = true <-> va = true \/ keys <> []) /\
        (va' = true -> In x valid' -> (va = true -> In x valid) /\ forall p, In p keys -> key_has s p)
    end.
  Proof.
    intros R. induction R as [n va ia valid invalid
      |n m k q r va ia valid invalid ids NE NU KR L E0
      |n m k q r va ia valid invalid ids to res NE NU KR L E0 R IH
      |n m k q r va ia valid invalid ids to res EQ KR L E0 R IH
      |n m k q r va ia valid invalid ids EQ KR L E0]; intros L1 L2 KO NN NV HV.
    - split; [auto|]. split; [auto|]. split; [auto|]. split; [tauto|]. intros E H. split; [auto|intros ? []].
    - unfold set_size in E0. destruct (combine_ids va valid ids); [reflexivity|discriminate].
    - pose proof (sel_mono _ _ _ _ _ _ _ _ _ _ _ R) as M.
      assert (Gq : good (vq_value q)) by (eapply KO; left; reflexivity). pose proof (key_found n m s k q ids Gq L1 ltac:(lia) KR) as KS.
      destruct (combine_ids_spec va valid ids NV HV) as [NV' HV']. specialize (HV' x).
      specialize (IH ltac:(lia) L2 (fun k q H => KO k q (or_intror H)) (fun p H => NN p (or_intror H)) NV' (fun H => ltac:(discriminate))).
      destruct res as [va' valid' invalid'|v|]; [| |exact IH]; [|exact IH].
      destruct IH as (A1 & A2 & A3 & A4 & A5). split; [exact A1|]. split; [exact A2|]. split; [exact A3|].
      split; [split; [right; discriminate|intros _; apply A4; auto]|].
      intros E H. destruct (A5 E H) as [H1 H2]. specialize (H1 eq_refl). apply HV' in H1 as [H1 H3]. split; [exact H1|].
      intros p [<- | Hp]; auto.
    - specialize (NN (k, q) (or_introl eq_refl)). cbn [snd] in NN. apply neg_iff in EQ. congruence.
    - specialize (NN (k, q) (or_introl eq_refl)). cbn [snd] in NN. apply neg_iff in EQ. congruence.
  Qed.

  Lemma by_ids_found mo s ids : selection_ok s -> sel_no_nan s -> (forall y, lo <= mo y /\ mo y <= hi) -> forall acc r, NoDup acc -> by_ids_at h mo s ids acc = Some r ->
    NoDup r /\ (In x r -> In x acc \/ (In x ids /\ tags_hold s kv)) /\ (In x acc -> In x r).
  Proof.
    intros SO SN HM. induction ids as [|id ids IH]; intros acc r N; cbn [by_ids_at].
    - intros [= <-]. auto.
    - destruct (find_item (a_items (h (mo id))) id) as [it|] eqn:EF.
      + apply find_item_some in EF as [HI EI]. destruct (INV (mo id)) as [OK _].
        assert (HE : In (id, it_kv it) (ents_of (a_items (h (mo id))))) by (apply in_ents_of; eauto).
        destruct (MatchKeyValues_iff s (it_kv it)) as (b & -> & Hb); auto.
        { intros k v HG. eapply ents_good; eauto. }
        destruct b.
        * destruct (set_add_spec acc id N) as [N' E]. intros HB. destruct (IH _ _ N' HB) as (N2 & E2 & E3). split; [exact N2|]. split.
          -- intros H. apply E2 in H as [H | [H1 H2]]; [|right; split; [right; exact H1|exact H2]]. apply E in H as [H | ->]; [auto|].
             right. split; [left; reflexivity|]. assert (it_kv it = kv) as <-; [|apply Hb; reflexivity].
             destruct (HM id) as [M1 M2]. eapply UQ; eauto. exists it; auto.
          -- intros H. apply E3, E. auto.
        * intros HB. destruct (IH _ _ N HB) as (N2 & E2 & E3). split; [exact N2|]. split; [|exact E3].
          intros H. apply E2 in H as [H | [H1 H2]]; auto. right. split; [right; exact H1|exact H2].
      + intros HB. destruct (IH _ _ N HB) as (N2 & E2 & E3). split; [exact N2|]. split; [|exact E3].
        intros H. apply E2 in H as [H | [H1 H2]]; auto. right. split; [right; exact H1|exact H2].
  Qed.
  Lemma by_ids_steady mo s ids : selection_ok s -> sel_no_nan s -> (forall y, lo <= mo y /\ mo y <= hi) -> stored_at h (mo x) x kv -> tags_hold s kv -> In x ids ->
    forall acc r, NoDup acc -> by_ids_at h mo s ids acc = Some r -> In x r.
  Proof.
    intros SO SN HM ST TH. induction ids as [|id ids IH]; intros HI acc r N; cbn [by_ids_at]; [destruct HI|]. cbn in HI.
    destruct (find_item (a_items (h (mo id))) id) as [it|] eqn:EF.
    - apply find_item_some in EF as [HF EI]. destruct (INV (mo id)) as [OK _].
      assert (HE : In (id, it_kv it) (ents_of (a_items (h (mo id))))) by (apply in_ents_of; eauto).
      destruct (MatchKeyValues_iff s (it_kv it)) as (b & -> & Hb); auto.
      { intros k v HG. eapply ents_good; eauto. }
      destruct HI as [-> | HI].
      + assert (it_kv it = kv) as EK. { destruct (HM x) as [M1 M2]. eapply UQ; eauto. exists it; auto. }
        rewrite EK in Hb. assert (b = true) as -> by (apply Hb; exact TH).
        destruct (set_add_spec acc x N) as [N' E]. intros HB. destruct (by_ids_found mo s ids SO SN HM _ _ N' HB) as (_ & _ & E3). apply E3, E. auto.
      + destruct (set_add_spec acc id N) as [N' E]. destruct b; apply IH; auto.
    - destruct HI as [-> | HI]; [|apply IH; auto]. exfalso. destruct ST as (it & H1 & H2 & _). apply find_item_none in EF. apply EF. apply in_map_iff. eauto.
  Qed.

  Definition gs (b : bool) (s : Selection) : Prop := selection_ok s /\ sel_no_nan s /\ sel_simple s /\
    if b then steady /\ kv <> [] /\ (s_ids s <> [] -> forall n, lo <= n -> n <= hi -> stored_at h n x kv)
    else s_ids s = [] -> forall k v, In (k, v) (s_kvs s) -> vq_cmp v <> CNotEquals.

  Lemma find_x b s n m r : gs b s -> find_run h readable s n m r -> lo <= n -> m <= hi -> about_x b x r (sel_holds s x kv).
  Proof.
    intros (SO & SN & SS & HB) F L1 L2. unfold about_x.
    assert (KO : keys_ok (sorted_sel (s_kvs s))).
    { intros k q HI. apply sorted_in in HI. destruct SO as (_ & SO & _). specialize (SO k q HI). destruct SO as (_ & WT & _). split; [exact WT|]. exact (SN k q HI). }
    assert (VH : s_ids s = [] -> forall k q, In (k, q) (s_kvs s) -> (visited kv (k, q) <-> if negative q then ~ key_holds q (kv_get kv k) else key_holds q (kv_get kv k))).
    { intros EI k q HI. apply visited_holds; auto.
      - apply (proj1 (proj2 SO) k q HI).
      - apply (KO k). apply in_sorted_sel. exact HI.
      - destruct SS as [C | [_ RC]]; [congruence|eauto]. }
    assert (KD : forall k q, In (k, q) (s_kvs s) -> key_holds q (kv_get kv k) \/ ~ key_holds q (kv_get kv k)).
    { intros k q HI. destruct (key_matches_iff q (kv_get kv k)) as (c & _ & Hc).
      - apply (proj1 (proj2 SO) k q HI).
      - exact (SN k q HI).
      - intros m0 EG. eapply KG; eauto.
      - destruct c; [left; apply Hc; reflexivity|right; intros C; apply Hc in C; discriminate]. }
    destruct F as [n m mo r EI L HM HR|n m r EI R|n m valid invalid EI R|n m m' valid invalid ids EI R L AR].
    - assert (HM' : forall y, lo <= mo y /\ mo y <= hi) by (intros y; specialize (HM y); lia).
      destruct (by_ids_found mo s (s_ids s) SO SN HM' [] r (NoDup_nil _) HR) as (N & H1 & _). split; [exact N|].
      assert (I1 : In x r -> sel_holds s x kv) by (intros H; apply H1 in H as [[] | [H2 H3]]; split; auto).
      destruct b; [|exact I1]. split; [exact I1|]. intros [[C | H2] H3]; [congruence|]. destruct HB as (ST & NE & BI).
      apply (by_ids_steady mo s (s_ids s) SO SN HM') with (acc := []); auto; [|constructor]. destruct (HM' x). apply BI; auto.
    - destruct b.
      + destruct HB as (ST & NE & _). destruct (sel_steady _ _ _ _ _ _ _ _ _ ST R L1 L2 KO (NoDup_nil _) (NoDup_nil _) (fun _ => eq_refl) (fun _ => eq_refl)) as [-> NP].
        split; [constructor|]. cbn [lk]. split; [intros []|]. intros [_ [H2 H3]]. apply NP. split; [discriminate|]. intros [k q] HP NQ. apply sorted_in in HP.
        split; [|exact H2]. apply VH; auto. cbn [snd] in NQ. rewrite NQ. exact (H3 k q HP).
      + pose proof (sel_found _ _ _ _ _ _ _ _ _ R L1 L2 KO) as SF. cbn beta iota in SF. rewrite SF.
        * split; [constructor|]. intros [].
        * intros [k q] HI. cbn [snd]. destruct (negative q) eqn:EN; [|reflexivity]. apply neg_iff in EN. apply sorted_in in HI. exfalso. exact (HB EI k q HI EN).
        * constructor.
        * reflexivity.
    - destruct b.
      + destruct HB as (ST & NE & _). destruct (sel_steady _ _ _ _ _ _ _ _ _ ST R L1 L2 KO (NoDup_nil _) (NoDup_nil _) (fun _ => eq_refl) (fun _ => eq_refl)) as (N1 & N2 & _ & EV & PS & NG).
        destruct (remove_all_spec (set_values invalid) valid N1) as [NR ER]. split; [exact NR|]. cbn [lk]. rewrite ER, (PS eq_refl). unfold set_values. rewrite NG. clear ER PS NG.
        setoid_rewrite in_sorted_sel. destruct SS as [C | [FN RC]]; [congruence|]. destruct EV as [EV _]. destruct (EV eq_refl) as [C | ([k0 q0] & P0 & NP0)]; [discriminate|]. rewrite in_sorted_sel in P0.
        split.
        * intros [[_ HP] HN]. split; [left; exact EI|]. split; [apply (HP _ P0 NP0)|]. intros k q HI. destruct (negative q) eqn:EN.
          -- destruct (KD k q HI) as [H|H]; [exact H|exfalso]. apply HN. split; [right; exists (k, q); auto|]. split; [discriminate|].
             intros [k' q'] HI' EN'. cbn [snd] in EN'. assert (E : (k', q') = (k, q)) by (apply FN; auto; cbn [snd]; apply neg_iff; auto). injection E as -> ->.
             split; [|apply (HP _ P0 NP0)]. apply VH; auto. rewrite EN. exact H.
          -- destruct (HP (k, q) HI EN) as [H _]. apply VH in H; auto. rewrite EN in H. exact H.
        * intros [_ [H2 H3]]. split.
          -- split; [discriminate|]. intros [k q] HI EN. split; [|exact H2]. apply VH; auto. cbn [snd] in EN. rewrite EN. exact (H3 k q HI).
          -- intros [[C | ([k q] & HI & EN)] [_ HN]]; [discriminate|]. cbn [snd] in EN. destruct (HN (k, q) HI EN) as [H _]. apply VH in H; auto. rewrite EN in H. exact (H (H3 k q HI)).
      + pose proof (sel_found _ _ _ _ _ _ _ _ _ R L1 L2 KO) as SF. cbn beta iota in SF.
        assert (NN : forall p, In p (sorted_sel (s_kvs s)) -> negative (snd p) = false).
        { intros [k q] HI. cbn [snd]. destruct (negative q) eqn:EN; [|reflexivity]. apply neg_iff in EN. apply sorted_in in HI. exfalso. exact (HB EI k q HI EN). }
        destruct (SF NN (NoDup_nil _) (fun _ => eq_refl)) as (N1 & -> & _ & EV & PS). cbn [set_values fold_left]. split; [exact N1|].
        intros HI. destruct (PS eq_refl HI) as [_ HP]. split; [left; exact EI|]. destruct EV as [EV _]. destruct (EV eq_refl) as [C|C]; [discriminate|].
        destruct (sorted_sel (s_kvs s)) as [|p0 l0] eqn:ES; [contradiction|]. split; [apply (HP p0 (or_introl eq_refl))|]. rewrite <- ES in *.
        intros k q HK. apply in_sorted in HK. destruct (HP _ HK) as [H _]. specialize (NN _ HK). cbn [snd] in NN. apply sorted_in in HK. apply VH in H; auto. rewrite NN in H. exact H.
    - assert (M1 : n <= m) by (eapply sel_mono; eauto). destruct b.
      + destruct HB as (ST & NE & _). destruct (sel_steady _ _ _ _ _ _ _ _ _ ST R L1 ltac:(lia) KO (NoDup_nil _) (NoDup_nil _) (fun _ => eq_refl) (fun _ => eq_refl)) as (N1 & N2 & EV0 & EV & _ & NG).
        rewrite (EV0 eq_refl). destruct (set_add_bulk_spec ids [] (NoDup_nil _)) as [NB EB]. destruct (remove_all_spec (set_values invalid) _ NB) as [NR ER]. split; [exact NR|]. cbn [lk]. rewrite ER, EB. unfold set_values. rewrite NG. clear ER EB NG.
        rewrite (all_steady m m' s ids ST NE ltac:(lia) L2 AR). setoid_rewrite in_sorted_sel. destruct SS as [C | [FN RC]]; [congruence|].
        assert (AN : forall k q, In (k, q) (s_kvs s) -> negative q = true).
        { intros k q HI. destruct (negative q) eqn:EN; [reflexivity|]. assert (false = true); [|discriminate]. apply EV. right. exists (k, q). rewrite in_sorted_sel. auto. }
        split.
        * intros [[[] | HS] HN]. split; [left; exact EI|]. split; [exact HS|]. intros k q HI. pose proof (AN k q HI) as EN.
          destruct (KD k q HI) as [H|H]; [exact H|exfalso]. apply HN. split; [right; exists (k, q); auto|]. split; [discriminate|].
          intros [k' q'] HI' EN'. cbn [snd] in EN'. assert (E : (k', q') = (k, q)) by (apply FN; auto; cbn [snd]; apply neg_iff; auto). injection E as -> ->.
          split; [|exact HS]. apply VH; auto. rewrite EN. exact H.
        * intros [_ [H2 H3]]. split; [right; exact H2|].
          intros [[C | ([k q] & HI & EN)] [_ HN]]; [discriminate|]. cbn [snd] in EN. destruct (HN (k, q) HI EN) as [H _]. apply VH in H; auto. rewrite EN in H. exact (H (H3 k q HI)).
      + pose proof (sel_found _ _ _ _ _ _ _ _ _ R L1 ltac:(lia) KO) as SF. cbn beta iota in SF.
        assert (NN : forall p, In p (sorted_sel (s_kvs s)) -> negative (snd p) = false).
        { intros [k q] HI. cbn [snd]. destruct (negative q) eqn:EN; [|reflexivity]. apply neg_iff in EN. apply sorted_in in HI. exfalso. exact (HB EI k q HI EN). }
        destruct (SF NN (NoDup_nil _) (fun _ => eq_refl)) as (N1 & -> & EV0 & EV & _). rewrite (EV0 eq_refl). cbn [set_values fold_left].
        destruct (set_add_bulk_spec ids [] (NoDup_nil _)) as [NB EB]. split; [exact NB|]. intros HI. apply EB in HI as [[] | HI].
        split; [left; exact EI|]. split; [eapply (all_found m m'); eauto; lia|]. intros k q HK. exfalso. assert (false = true); [|discriminate]. apply EV. right.
        intros C. apply in_sorted in HK. rewrite C in HK. destruct HK.
  Qed.
End Sel.
