(** Waiting dequeues: invariants of the executions of [Dequeue]. *)
From Verif Require Import Datatypes SpecValues DatatypesProofs Collections Query SpecQuery QueryProofs Assoc SpecAssoc AssocMaps AssocProofs AssocQueryProofs AssocOps PropLemmasAssoc
  QuerySync SpecQuerySync QuerySyncProofs QuerySyncTheorems Dequeue SpecDequeue.
Local Open Scope nat_scope.

Lemma in_split_one {X} (a : X) l r : In a (l ++ a :: r).
Proof. apply in_app_iff. right. left. reflexivity. Qed.
Lemma in_mid {X} (a b : X) l r : In a (l ++ b :: r) <-> a = b \/ In a (l ++ r).
Proof. rewrite !in_app_iff. cbn. split; [intros [H | [H | H]]|intros [H | [H | H]]]; auto. Qed.

Section Exec.
  Variable ex : nat -> dstate.
  Hypothesis EX : execution ex.
  Notation tree q := (fun i => d_tree (ex i) q).

  (** ids under way are new and distinct *)
  Definition ids_ok (d : dstate) : Prop :=
    (forall m, In m (d_new d) -> ~ In (m_id m) (d_used d (m_queue m)) /\ m_id m <> EmptyString /\ kv_arg (m_kv m) /\ kv_valid (m_kv m)) /\
    NoDup (map (fun m => (m_queue m, m_id m)) (d_new d)).
  Lemma ids_step n d d' : dstep ex n d d' -> ids_ok d -> ids_ok d'.
  Proof.
    intros S [H1 H2]. destruct S as [d|d q x kv KA KV NE NU NM NH NL|d l q x kv r E|d l q x kv r E|d l q x kv r E|d q o OA OI|d no q query NC V|d l no q query since got r from its cut E L R|d l c r E]; try (split; assumption).
    - split; cbn [d_new d_used].
      + intros m [<- | HI]; [cbn; auto|apply H1; exact HI].
      + cbn. constructor; [|exact H2]. intros C. apply in_map_iff in C as (m & [= E1 E2] & HI). exact (NM m HI E1 E2).
    - rewrite E in *. split; cbn [d_new d_used].
      + intros m HI. apply in_mid in HI as [-> | HI].
        * apply (H1 (mkMaking q x kv false)). apply in_split_one.
        * apply H1. apply in_mid. auto.
      + rewrite map_app in *. cbn in *. exact H2.
    - rewrite E in *. rewrite map_app in H2. cbn in H2. pose proof (NoDup_remove _ _ _ H2) as [N1 N2]. rewrite <- map_app in N1, N2. split; cbn [d_new d_used]; [|exact N1].
      intros m HI. destruct (H1 m) as (G1 & G2); [apply in_mid; auto|]. split; [|exact G2]. unfold upd. destruct (String.eqb_spec (m_queue m) q) as [EQ|NQ]; [|exact G1].
      intros [C | C]; [|rewrite EQ in G1; contradiction]. apply N2. apply in_map_iff. exists m. split; [rewrite EQ, C; reflexivity|exact HI].
    - rewrite E in *. rewrite map_app in H2. cbn in H2. pose proof (NoDup_remove _ _ _ H2) as [N1 N2]. rewrite <- map_app in N1. split; cbn [d_new d_used]; [|exact N1].
      intros m HI. apply H1. apply in_mid. auto.
  Qed.
  Lemma ids_all n : ids_ok (ex n).
  Proof.
    destruct EX as [E0 ES]. induction n as [|n IH]; [rewrite E0; split; [intros m []|constructor]|]. eapply ids_step; eauto.
  Qed.

  (** the trees are histories *)
  Lemma tree_history q : history (tree q).
  Proof.
    exists (fun n => d_used (ex n) q). destruct EX as [E0 ES]. split; [rewrite E0; constructor|]. intros n.
    pose proof (ids_all n) as [H1 _]. specialize (ES n). remember (ex n) as d0 eqn:ED. remember (ex (Datatypes.S n)) as d1 eqn:ED'. clear ED ED'.
    destruct ES as [d|d q0 x kv KA KV NE NU NM NH NL|d l q0 x kv r E|d l q0 x kv r E|d l q0 x kv r E|d q0 o OA OI|d no q0 query NC V|d l no q0 query since got r from its cut E L R|d l c r E];
      cbn [d_tree d_used]; try (left; split; reflexivity).
    - unfold upd. destruct (String.eqb_spec q q0) as [->|NQ]; [|left; split; reflexivity]. right.
      destruct (H1 (mkMaking q0 x kv true)) as (G1 & G2 & G3 & G4); [rewrite E; apply in_split_one|]. cbn in G1, G2, G3, G4.
      exists (ACreate kv x (Some tt)). split; [exact G3|]. split; [intros id [= <-]; auto|]. split; reflexivity.
    - unfold upd. destruct (String.eqb_spec q q0) as [->|NQ]; [|left; split; reflexivity]. right.
      exists o. split; [exact OA|]. split; [intros id EI; congruence|]. rewrite OI. split; reflexivity.
  Qed.
  Lemma used_mono q x n m : n <= m -> In x (d_used (ex n) q) -> In x (d_used (ex m) q).
  Proof.
    intros L HI. induction L as [|m L IH]; [exact HI|]. pose proof (proj2 EX m) as S. remember (ex m) as d0 eqn:ED. remember (ex (Datatypes.S m)) as d1 eqn:ED'. clear ED ED'.
    destruct S; cbn [d_used]; auto. unfold upd. destruct (String.eqb_spec q q0) as [->|NQ]; [right|]; exact IH.
  Qed.
  Lemma stored_used q x kv n : stored_at (tree q) n x kv -> In x (d_used (ex n) q).
  Proof.
    (* the ids of a history are drawn before *)
    intros H. revert x kv H. induction n as [|n IH]; intros x kv H.
    - destruct EX as [E0 _]. unfold stored_at in H. rewrite E0 in H. cbn in H. destruct H as (it & [] & _).
    - destruct (history_ents _ (tree_history q)) as (INV & _ & _). pose proof (ids_all n) as [H1 _]. pose proof (proj2 EX n) as S. unfold stored_at in H, IH.
      specialize (INV n). cbv beta in INV. remember (ex n) as d0 eqn:ED. remember (ex (Datatypes.S n)) as d1 eqn:ED'. clear ED ED'.
      destruct S as [d|d q0 x0 kv0 KA KV NE NU NM NH NL|d l q0 x0 kv0 r E|d l q0 x0 kv0 r E|d l q0 x0 kv0 r E|d q0 o OA OI|d no q0 query NC V|d l no q0 query since got r from its cut E L R|d l c r E];
        cbn [d_tree d_used] in *; eauto.
      + unfold upd in *. destruct (String.eqb_spec q q0) as [->|NQ]; [|eauto].
        destruct (H1 (mkMaking q0 x0 kv0 true)) as (G1 & G2 & G3 & G4); [rewrite E; apply in_split_one|]. cbn in G1, G2, G3, G4.
        assert (HE : In (x, kv) (ents_of (a_items (fst (arun (d_tree d q0) (ACreate kv0 x0 (Some tt))))))) by (apply in_ents_of; exact H).
        apply arun_ents in HE as [HE | HE]; auto.
        * right. apply (IH x kv). apply in_ents_of in HE. exact HE.
        * injection HE as ->. left; reflexivity.
        * intros id [= <-] C. apply G1. apply in_map_iff in C as (it & <- & HI). apply (IH _ (it_kv it)). exists it; auto.
      + unfold upd in *. destruct (String.eqb_spec q q0) as [->|NQ]; [|eauto].
        assert (HE : In (x, kv) (ents_of (a_items (fst (arun (d_tree d q0) o))))) by (apply in_ents_of; exact H).
        apply arun_ents in HE as [HE | HE]; auto; [|congruence|intros id C; congruence].
        apply (IH x kv). apply in_ents_of in HE. exact HE.
  Qed.

  (** a channel that is announced or stored *)
  Definition there (n : nat) (q x : string) (kv : KeyValues) : Prop :=
    In (mkMaking q x kv true) (d_new (ex n)) \/ stored_at (tree q) n x kv.
  (** what is there was there before or has just been announced *)
  Lemma there_before n q x kv : there (Datatypes.S n) q x kv -> there n q x kv \/
    (d_clients (ex (Datatypes.S n)) = map (tell q x kv) (d_clients (ex n)) /\ In (mkMaking q x kv true) (d_new (ex (Datatypes.S n))) /\ In (mkMaking q x kv false) (d_new (ex n))).
  Proof.
    destruct (history_ents _ (tree_history q)) as (INV & _ & _). pose proof (ids_all n) as [H1 _]. pose proof (proj2 EX n) as S.
    assert (SU : forall x kv, stored_at (tree q) n x kv -> In x (d_used (ex n) q)) by (intros; eapply stored_used; eauto).
    unfold there, stored_at in *. specialize (INV n). cbv beta in *. remember (ex n) as d0 eqn:ED. remember (ex (Datatypes.S n)) as d1 eqn:ED'. clear ED ED'.
    destruct S as [d|d q0 x0 kv0 KA KV NE NU NM NH NL|d l q0 x0 kv0 r E|d l q0 x0 kv0 r E|d l q0 x0 kv0 r E|d q0 o OA OI|d no q0 query NC V|d l no q0 query since got r from its cut E L R|d l c r E];
      cbn [d_tree d_used d_new d_clients] in *; auto.
    - intros [[C | H] | H]; auto. discriminate.
    - rewrite E. intros [H | H]; [|auto]. apply in_mid in H as [H | H].
      + injection H as -> -> ->. right. split; [reflexivity|]. split; apply in_split_one.
      + left. left. apply in_mid. auto.
    - rewrite E. intros [H | H]; [left; left; apply in_mid; auto|]. left. unfold upd in H. destruct (String.eqb_spec q q0) as [->|NQ]; [|auto].
      destruct (H1 (mkMaking q0 x0 kv0 true)) as (G1 & G2 & G3 & G4); [rewrite E; apply in_split_one|]. cbn in G1, G2, G3, G4.
      destruct H as (it & HI & EI & EK).
      assert (FR : ~ In x0 (map it_id (a_items (d_tree d q0)))).
      { intros C. apply G1. apply in_map_iff in C as (it' & <- & HI'). apply (SU _ (it_kv it')). exists it'; auto. }
      destruct (Create_spec (d_tree d q0) kv0 x0 (Some tt) INV G3 FR) as (S1 & S2 & S3 & S4).
      cbn [arun] in HI. destruct (kv_validate kv0 MinDataType MaxDataType) eqn:V.
      + destruct (validate_rep kv0 G3 V) as [RP NE]. destruct (holds_dec (d_tree d q0) kv0 INV RP NE) as [P|NP].
        * destruct (S3 eq_refl P) as [_ ES]. rewrite ES in HI. right. exists it; auto.
        * destruct (S4 eq_refl NP) as [_ ES]. rewrite ES in HI. apply in_app_iff in HI as [HI | [<- | []]]; [right; exists it; auto|].
          cbn in EI, EK. subst. left. apply in_split_one.
      + rewrite (S2 eq_refl) in HI. right. exists it; auto.
    - rewrite E. intros [H | H]; [left; left; apply in_mid; auto|auto].
    - unfold upd. destruct (String.eqb_spec q q0) as [->|NQ]; [|auto]. intros [H | H]; [auto|]. left. right.
      assert (HE : In (x, kv) (ents_of (a_items (fst (arun (d_tree d q0) o))))) by (apply in_ents_of; exact H).
      apply arun_ents in HE as [HE | HE]; auto; [|congruence|intros id C; congruence]. apply in_ents_of in HE. exact HE.
  Qed.

  (** ** Clients *)
  Definition unlocked (q : string) : nat -> string -> EV -> Prop := fun i k v => ~ locked (ex i) q k v.
  Definition scanned_by (c : client) (n from : nat) (its : list (item unit)) : Prop :=
    c_since c <= from /\ action_run (tree (c_queue c)) (unlocked (c_queue c)) from (c_query c) n its.
  Lemma client_step n c : In c (d_clients (ex (Datatypes.S n))) ->
    (c_since c = Datatypes.S n /\ c_got c = [] /\ c_scanned c = false) \/
    exists c0, In c0 (d_clients (ex n)) /\ c_queue c = c_queue c0 /\ c_query c = c_query c0 /\ c_since c = c_since c0 /\ incl (c_got c0) (c_got c) /\
      (c_scanned c = c_scanned c0 \/ exists from its, scanned_by c n from its /\ incl (map it_id its) (c_got c)) /\
      (forall x, In x (c_got c) -> In x (c_got c0) \/
        (exists kv, In (mkMaking (c_queue c) x kv false) (d_new (ex n)) /\ MatchTags (c_query c) kv = Some true) \/
        (exists from its it, scanned_by c n from its /\ In it its /\ it_id it = x)).
  Proof.
    pose proof (proj2 EX n) as S. unfold scanned_by, unlocked.
    assert (SAME : forall c, In c (d_clients (ex n)) -> exists c0, In c0 (d_clients (ex n)) /\ c_queue c = c_queue c0 /\ c_query c = c_query c0 /\ c_since c = c_since c0 /\ incl (c_got c0) (c_got c) /\
      (c_scanned c = c_scanned c0 \/ exists from its, (c_since c <= from /\ action_run (tree (c_queue c)) (fun i k v => ~ locked (ex i) (c_queue c) k v) from (c_query c) n its) /\ incl (map it_id its) (c_got c)) /\
      (forall x, In x (c_got c) -> In x (c_got c0) \/
        (exists kv, In (mkMaking (c_queue c) x kv false) (d_new (ex n)) /\ MatchTags (c_query c) kv = Some true) \/
        (exists from its it, (c_since c <= from /\ action_run (tree (c_queue c)) (fun i k v => ~ locked (ex i) (c_queue c) k v) from (c_query c) n its) /\ In it its /\ it_id it = x))).
    { intros c1 HI. exists c1. repeat (split; [auto using incl_refl|]). intros x Hx. auto. }
    remember (ex n) as d0 eqn:ED. remember (ex (Datatypes.S n)) as d1 eqn:ED'. clear ED'.
    destruct S as [d|d q0 x0 kv0 KA KV NE NU NM NH NL|d l q0 x0 kv0 r E|d l q0 x0 kv0 r E|d l q0 x0 kv0 r E|d q0 o OA OI|d no q0 query NC V|d l no q0 query since got r from its cut E L R|d l c0 r E];
      cbn [d_tree d_used d_new d_clients] in *; auto.
    - intros HI. right. apply in_map_iff in HI as (c0 & <- & HI). exists c0. split; [exact HI|]. unfold tell.
      destruct (String.eqb_spec (c_queue c0) q0) as [EQ|NQ]; [|repeat (split; [auto using incl_refl|]); auto].
      destruct (MatchTags (c_query c0) kv0) as [[|]|] eqn:EM; try (repeat (split; [auto using incl_refl|]); auto; fail). cbn.
      repeat (split; [auto using incl_appl, incl_refl|]). intros x Hx. apply in_app_iff in Hx as [Hx | [<- | []]]; [auto|]. right. left. exists kv0. split; [|exact EM].
      rewrite EQ, E. apply in_split_one.
    - intros HI. apply in_app_iff in HI as [HI | [<- | []]]; [right; auto|left; auto].
    - intros HI. right. apply in_mid in HI as [-> | HI]; [|apply SAME; rewrite E; apply in_mid; auto].
      exists (mkClient no q0 query since false got). rewrite E. split; [apply in_split_one|]. cbn. split; [reflexivity|]. split; [reflexivity|]. split; [reflexivity|]. split; [apply incl_appl, incl_refl|]. split.
      + destruct (Nat.leb_spec (length its) cut) as [LE|GT]; [right|left; reflexivity]. exists from, its. split; [split; [exact L|exact R]|].
        rewrite firstn_all2 by exact LE. apply incl_appr, incl_refl.
      + intros x Hx. apply in_app_iff in Hx as [Hx | Hx]; [auto|]. right. right. apply in_map_iff in Hx as (it & EI & Hx). exists from, its, it.
        split; [split; [exact L|exact R]|]. split; [|exact EI]. rewrite <- (firstn_skipn cut its). apply in_app_iff. auto.
    - intros HI. right. apply SAME. rewrite E. apply in_mid. auto.
  Qed.

  Lemma there_good n q x kv : there n q x kv -> kvs_good kv /\ kv <> [].
  Proof.
    intros [H | H]; [|eapply stored_good; eauto using tree_history].
    destruct (proj1 (ids_all n) _ H) as (_ & _ & [_ G] & [NE W]). cbn in *. split; [|exact NE]. intros k v HG. apply kv_get_In in HG. split; [apply (W k v HG)|apply (G k v HG)].
  Qed.
  Lemma plain_holds q x kv : plain_query q -> kvs_good kv -> exists b, MatchTags q kv = Some b /\ (b = true <-> query_holds q x kv) /\ (query_holds q x kv <-> query_holds_tags q kv).
  Proof.
    intros (V & NN & HS) KG.
    assert (H2 : every_node (fun sel _ _ => forall s, sel = Some s -> s_ids s = []) q) by (eapply every_node_impl; [|exact HS]; intros ? ? ? H; apply H).
    assert (H3 : every_node node_not_or_only q) by (eapply every_node_impl; [|exact HS]; unfold node_not_or_only; intros ? ? ? (_ & _ & H); tauto).
    assert (NQ : q <> QNil) by (intros ->; exact HS).
    assert (NOK : every_node node_ok q).
    { apply q_validate_nonnil in V; auto. eapply every_node_impl; [|exact (every_node_and _ _ _ V NN)].
      intros sel ors ands [A1 A2] s Hs. split; [auto|]. intros k v Hk. eapply A2; eauto. }
    destruct (MatchTags_computes q kv NOK KG) as (b & EB & HB). exists b. split; [exact EB|]. pose proof (no_ids_holds q x kv H2) as NI. split; [|exact NI].
    rewrite NI, HB. apply mt_holds_meaning. exact H3.
  Qed.
  Lemma once_stored n m q x kv kv' : n <= m -> stored_at (tree q) n x kv -> ~ In (mkMaking q x kv' true) (d_new (ex m)).
  Proof.
    intros L H C. apply stored_used in H. apply (used_mono _ _ _ _ L) in H. destruct (proj1 (ids_all m) _ C) as [G _]. exact (G H).
  Qed.
  Lemma scan_finds c n from its x kv : plain_query (c_query c) -> scanned_by c n from its -> from <= n ->
    (forall i, from <= i -> i <= n -> there i (c_queue c) x kv) -> MatchTags (c_query c) kv = Some true -> In x (map it_id its).
  Proof.
    intros PQ [_ R] LE TH EM. pose proof (there_good _ _ _ _ (TH from (le_n _) LE)) as [KG KN].
    destruct (plain_holds (c_query c) x kv PQ KG) as (b & EB & HB & _). rewrite EM in EB. injection EB as <-. destruct PQ as (V & NN & HS).
    destruct (c67_steady (tree (c_queue c)) (unlocked (c_queue c)) (tree_history (c_queue c)) from (c_query c) n its x kv) as (mid & ids & mo & L1 & L2 & HM & -> & HX & SN); auto.
    - eapply every_node_impl; [|exact HS]. intros sel ors ands H. apply H.
    - intros i k v m I1 I2 UL _ HG HE. destruct (TH i I1 I2) as [H | H]; [|exact H]. exfalso. apply UL. exists (mkMaking (c_queue c) x kv true), m. auto.
    - intros i kv' I1 I2 SI. destruct (TH n LE (le_n _)) as [H | H].
      + exfalso. eapply once_stored; [exact I2|exact SI|exact H].
      + destruct (history_ents _ (tree_history (c_queue c))) as (_ & UQ & _). eapply UQ; eauto.
    - eapply every_node_impl; [|exact HS]. intros sel ors ands (_ & H & _) s Hs C. exfalso. apply C. auto.
    - assert (HI : In x ids) by (apply HX, HB; reflexivity). destruct (SN x HI) as (i & kv' & I1 & I2 & SI). destruct (HM x) as [M1 M2].
      assert (TM : there (mo x) (c_queue c) x kv) by (apply TH; lia). destruct TM as [H | H].
      + exfalso. eapply once_stored; [|exact SI|exact H]. lia.
      + destruct H as (it & G1 & G2 & G3). apply in_map_iff. exists it. split; [exact G2|]. apply (in_fetched (tree (c_queue c)) (tree_history (c_queue c)) mo ids it). rewrite G2. auto.
  Qed.

  Lemma action_le c n from its : scanned_by c n from its -> from <= n.
  Proof. intros [_ R]. destruct R as [? ? ? ? ? ? ?|? ? ? ? R ? ?]; [assumption|]. apply query_mono in R. lia. Qed.

  Lemma waiting n : forall c, In c (d_clients (ex n)) -> c_since c <= n /\
    (forall x kv, there n (c_queue c) x kv -> MatchTags (c_query c) kv = Some true ->
      In x (c_got c) \/ ((c_scanned c = true -> ~ plain_query (c_query c)) /\ forall i, c_since c <= i -> i <= n -> there i (c_queue c) x kv)).
  Proof.
    induction n as [|n IH]; intros c HC.
    - rewrite (proj1 EX) in HC. destruct HC.
    - destruct (client_step n c HC) as [(E1 & E2 & E3) | (c0 & H0 & EQ & EU & ES & IG & SC & _)].
      + split; [lia|]. intros x kv TH _. right. split; [congruence|]. intros i I1 I2. assert (i = Datatypes.S n) as -> by lia. exact TH.
      + destruct (IH c0 H0) as [L0 P0]. rewrite <- EQ, <- EU, <- ES in *. split; [lia|]. intros x kv TH EM.
        destruct (there_before n (c_queue c) x kv TH) as [TB | (EC & _ & _)].
        * destruct (P0 x kv TB EM) as [HG | [NS AL]]; [left; apply IG; exact HG|].
          assert (AL' : forall i, c_since c <= i -> i <= Datatypes.S n -> there i (c_queue c) x kv).
          { intros i I1 I2. destruct (Nat.eq_dec i (Datatypes.S n)) as [->|NI]; [exact TH|]. apply AL; lia. }
          destruct SC as [SC | (from & its & SB & INC)]; [right; split; [rewrite SC; exact NS|exact AL']|].
          destruct (in_dec string_dec x (c_got c)) as [HI|NI]; [auto|]. right. split; [|exact AL']. intros _ PQ. apply NI. apply INC.
          pose proof SB as [F1 _]. pose proof (action_le _ _ _ _ SB) as F2. eapply scan_finds; eauto. intros i I1 I2. apply AL; lia.
        * left. rewrite EC in HC. apply in_map_iff in HC as (c1 & E1 & _).
          assert (F : c_queue c1 = c_queue c /\ c_query c1 = c_query c).
          { rewrite <- E1. unfold tell. destruct (String.eqb (c_queue c1) (c_queue c)); [|auto]. destruct (MatchTags (c_query c1) kv) as [[|]|]; auto. }
          destruct F as [F1 F2]. rewrite <- E1. unfold tell. rewrite F1, String.eqb_refl, F2, EM. cbn. apply in_app_iff. right. left. reflexivity.
  Qed.

  Lemma c68 n c it : In c (d_clients (ex n)) -> c_scanned c = true -> plain_query (c_query c) -> In it (a_items (d_tree (ex n) (c_queue c))) ->
    query_holds_tags (c_query c) (it_kv it) -> In (it_id it) (c_got c).
  Proof.
    intros HC SC PQ HI HQ. assert (TH : there n (c_queue c) (it_id it) (it_kv it)) by (right; exists it; auto).
    destruct (there_good _ _ _ _ TH) as [KG _]. destruct (plain_holds (c_query c) (it_id it) (it_kv it) PQ KG) as (b & EB & HB & HT).
    assert (b = true) as -> by (apply HB, HT; exact HQ). destruct (waiting n c HC) as [_ W]. destruct (W _ _ TH EB) as [H | [C _]]; [exact H|]. exfalso. exact (C SC PQ).
  Qed.

  Lemma c69 n : forall c x, In c (d_clients (ex n)) -> plain_query (c_query c) -> no_not_equals (c_query c) -> In x (c_got c) ->
    exists i kv, i <= n /\ channel_at ex i (c_queue c) x kv /\ query_holds_tags (c_query c) kv.
  Proof.
    induction n as [|n IH]; intros c x HC PQ NN HX.
    - rewrite (proj1 EX) in HC. destruct HC.
    - destruct (client_step n c HC) as [(_ & E2 & _) | (c0 & H0 & EQ & EU & ES & _ & _ & GOT)]; [rewrite E2 in HX; destruct HX|].
      destruct (GOT x HX) as [HG | [(kv & HM & EM) | (from & its & it & SB & HI & EI)]].
      + rewrite EQ, EU in *. destruct (IH c0 x H0 PQ NN HG) as (i & kv & L & H1 & H2). exists i, kv. split; [lia|auto].
      + exists n, kv. split; [lia|]. split; [right; eauto|].
        destruct (proj1 (ids_all n) _ HM) as (_ & _ & [_ G] & [NE W]). cbn in *.
        assert (KG : kvs_good kv) by (intros k v HV; apply kv_get_In in HV; split; [apply (W k v HV)|apply (G k v HV)]).
        destruct (plain_holds (c_query c) x kv PQ KG) as (b & EB & HB & HT). apply HT, HB. congruence.
      + pose proof SB as [F1 R]. destruct (c67_once _ _ (tree_history _) _ _ _ _ R) as [_ ON]. destruct (ON it HI) as (i & I1 & I2 & HS).
        exists i, (it_kv it). split; [lia|]. split; [left; exists it; auto|]. subst x.
        assert (KG : kvs_good (it_kv it)) by (apply (there_good i (c_queue c) (it_id it)); right; exists it; auto).
        destruct (plain_holds (c_query c) (it_id it) (it_kv it) PQ KG) as (b & EB & HB & HT). apply HT.
        destruct PQ as (V & NNA & HS0). eapply c67_found; eauto using tree_history.
        right. eapply every_node_impl; [|exact HS0]. intros sel ors ands H. apply H.
  Qed.
End Exec.
