(** Invariants of [AssocSync.v]: one step of a call. *)
From Coq Require Import List Bool Arith Lia Permutation.
Import ListNotations.
From Verif Require Import AssocSync AssocSyncBase AssocSyncInv AssocSyncFrame.

Lemma creat_at w a nd : node_at w a nd -> creat w a = nd_creating nd.
Proof. intros N. unfold creat, node_at in *. rewrite N. reflexivity. Qed.
Lemma creat_touch w a nd nd' b : node_at w a nd -> creat (with_node w a nd') b = if Nat.eqb b a then nd_creating nd' else creat w b.
Proof. intros N. unfold creat, with_node. cbn [w_heap]. rewrite (nth_set _ _ _ _ _ N). destruct (Nat.eqb b a); reflexivity. Qed.
Lemma cnt_app l m a : cnt (l ++ m) a = cnt l a + cnt m a.
Proof. apply count_occ_app. Qed.
Lemma cnt_one b a : cnt [b] a = if Nat.eqb a b then 1 else 0.
Proof. unfold cnt. cbn. destruct (Nat.eq_dec b a), (Nat.eqb_spec a b); congruence. Qed.
Lemma cnt_cons b l a : cnt (b :: l) a = (if Nat.eqb a b then 1 else 0) + cnt l a.
Proof. change (b :: l) with ([b] ++ l). rewrite cnt_app, cnt_one. reflexivity. Qed.
Lemma creat_map w f l : (forall nd, nd_creating (f nd) = nd_creating nd) -> forall a, creat (with_heap w (map_nodes f (w_heap w) l)) a = creat w a.
Proof.
  intros H a. unfold creat. cbn [with_heap w_heap]. revert w. assert (X : forall h, match nth_error (map_nodes f h l) a with Some nd => nd_creating nd | None => 0 end = match nth_error h a with Some nd => nd_creating nd | None => 0 end); [|intros w; apply X].
  induction l as [|b l IH]; intros h; [reflexivity|]. cbn [map_nodes]. rewrite IH. destruct (nth_error h b) as [nd|] eqn:E; [|reflexivity]. rewrite (nth_set _ _ _ _ _ E). destruct (Nat.eqb_spec a b) as [->|]; [rewrite E; apply H|reflexivity].
Qed.
Lemma creat_same w w' : w_heap w' = w_heap w -> forall a, creat w' a = creat w a.
Proof. intros E a. unfold creat. rewrite E. reflexivity. Qed.
Lemma creat_new w n : nd_creating n = 1 -> forall a, creat (with_heap w (w_heap w ++ [n])) a = creat w a + (if Nat.eqb a (length (w_heap w)) then 1 else 0).
Proof.
  intros E a. unfold creat. cbn [with_heap w_heap]. destruct (Nat.eqb_spec a (length (w_heap w))) as [->|NE].
  - rewrite nth_error_app2, Nat.sub_diag by lia. cbn. rewrite (proj2 (nth_error_None _ _)) by lia. exact E.
  - destruct (Nat.lt_ge_cases a (length (w_heap w))) as [L | L]; [rewrite nth_error_app1 by exact L; lia|]. rewrite (proj2 (nth_error_None _ _)) by (rewrite app_length; cbn; lia). rewrite (proj2 (nth_error_None _ _)) by lia. reflexivity.
Qed.

Section Own.
  Variables (nils : bool) (j : nat) (c : call) (kv : kvs) (w : world).
  Hypothesis G : ginv w.
  Hypothesis KV : kv_ok kv.
  Definition good (p : pc) (w' : world) (p' : pc) : Prop :=
    ginv w' /\ tinv w' j c kv p' /\ frame j (mine c p) w w' /\ (forall a, creat w' a + cnt (pins p) a = creat w a + cnt (pins p') a).
  Lemma good_same p p' : tinv w j c kv p' -> (forall a, cnt (pins p) a = cnt (pins p') a) -> good p w p'.
  Proof. intros T C. split; [exact G|split; [exact T|split; [apply frame_refl|intros a; rewrite C; reflexivity]]]. Qed.
  Lemma kv_len : 0 < length kv.
  Proof. destruct KV as [N _]. destruct kv; [congruence|cbn; lia]. Qed.
  Lemma missed_ok p : pins p = [] -> good p w (missed c kv).
  Proof. intros P. apply good_same; [|rewrite P]; destruct c; cbn; auto; exists []; split; auto; constructor. Qed.
  Lemma level_ids a nd q x : w_index w q = Some a -> node_at w a nd -> In x (level (length kv) (nd_ids nd)) -> exists kv', nth_error (w_made w) x = Some kv' /\ length kv' = length kv /\ In q kv'.
  Proof.
    intros E N I. destruct (g_index w G q a E) as (nd' & N' & <-). rewrite (node_fun _ _ _ _ N' N) in *. destruct (g_ids w G a nd _ x N I) as (kv' & M & L & IP). exists kv'. split; [exact M|]. pose proof kv_len. split; [lia|exact IP].
  Qed.
  (** Ids that all the nodes have *)
  Lemma all_of_for l x : Forall2 (for_ w) kv l -> (forall a, In a l -> has w a (length kv) x) -> for_all w kv x.
  Proof.
    intros F H. assert (P : forall q, In q kv -> exists kv', nth_error (w_made w) x = Some kv' /\ length kv' = length kv /\ In q kv').
    { intros q Q. assert (A : exists a, In a l /\ for_ w q a). { clear - F Q. induction F as [|p b kv' l' H F IH]; [destruct Q|]. destruct Q as [-> | Q]; [exists b; cbn; auto|]. destruct IH as (a & ? & ?); auto. exists a. cbn. auto. }
      destruct A as (a & IA & nd & N & EP). destruct (H a IA) as (nd' & N' & I). rewrite (node_fun _ _ _ _ N' N) in I. destruct (g_ids w G a nd _ x N I) as (kv' & M & L & IP). exists kv'. pose proof kv_len. rewrite <- EP. split; [exact M|split; [lia|exact IP]]. }
    destruct kv as [|q0 r] eqn:EK; [destruct KV; congruence|]. destruct (P q0) as (kv' & M & L & _); [left; reflexivity|]. unfold for_all. rewrite M. f_equal. symmetry. apply kv_same; [exact KV|apply (g_made w G x), M|auto|].
    intros q Q. destruct (P q Q) as (kv'' & M' & _ & I). rewrite M in M'. injection M' as <-. exact I.
  Qed.
  Lemma has_cur a k x q : for_ w q a -> hask w a k x -> cur w q a.
  Proof.
    intros (nd & N & <-) (nd' & N' & I). rewrite (node_fun _ _ _ _ N' N) in I. unfold cur. destruct (w_index w (nd_pair nd)) as [b|] eqn:E; [destruct (Nat.eq_dec b a) as [->|NE]; [reflexivity|]|].
    - destruct (g_stale w G a nd N) as [X _]; [congruence|]. rewrite X, nth_nil in I. destruct I.
    - destruct (g_stale w G a nd N) as [X _]; [congruence|]. rewrite X, nth_nil in I. destruct I.
  Qed.
  Lemma for_cur l x n : (forall a, In a l -> has w a n x) -> forall kv', Forall2 (for_ w) kv' l -> Forall2 (cur w) kv' l.
  Proof. intros H kv' F. eapply Forall2_impl; [|exact F]. intros p a I FA. apply (has_cur a (n - 1) x); [exact FA|apply H, I]. Qed.
  Lemma acc_one locked x : acc_ok w (length kv) locked (Some [x]) -> forall a, In a locked -> has w a (length kv) x.
  Proof. intros (_ & _ & H). apply H. left. reflexivity. Qed.

  (** Locking one more node *)
  Lemma acc_lock a nd nd' locked acc : node_at w a nd -> (forall k, nth k (nd_ids nd') [] = nth k (nd_ids nd) []) -> acc_ok w (length kv) locked acc ->
    acc_ok (with_node w a nd') (length kv) (locked ++ [a]) (Some (meet acc (level (length kv) (nd_ids nd')))).
  Proof.
    intros N L A. assert (HS : forall b x, has (with_node w a nd') b (length kv) x <-> has w b (length kv) x) by (intros b x; apply (touch_has w a nd nd' b _ x N L)).
    assert (HA : forall x, In x (level (length kv) (nd_ids nd')) <-> has w a (length kv) x).
    { intros x. unfold level. rewrite L. split; [intros I; exists nd; auto|]. intros (n & Nn & I). rewrite (node_fun _ _ _ _ N Nn). exact I. }
    cbn [acc_ok]. split; [destruct locked; discriminate|]. split.
    - apply NoDup_meet; [destruct acc as [s|]; [apply A|exact I]|]. unfold level. rewrite L. apply (g_nodup w G a nd _ N).
    - intros x. rewrite In_meet, HA. split.
      + intros [H1 H2] b IB. rewrite HS. apply in_app_iff in IB. destruct IB as [IB | [<- | []]]; [|exact H2]. destruct acc as [s|]; [apply A; assumption|]. cbn in A. subst locked. destruct IB.
      + intros H. split; [|apply HS, H, in_or_app; right; left; reflexivity]. destruct acc as [s|]; [|exact I]. apply A. intros b IB. apply HS, H, in_or_app. left. exact IB.
  Qed.
  Lemma owned_touch a nd nd' l : node_at w a nd -> nd_lock nd' = Some j -> Forall (owned w j) l -> Forall (owned (with_node w a nd') j) l.
  Proof.
    intros N L H. eapply Forall_impl; [|exact H]. intros b (n & Nb & Lb). destruct (Nat.eq_dec b a) as [->|NE]; [exists nd'|exists n]; (split; [apply (with_node_at w a nd nd' _ _ N); auto|assumption]).
  Qed.
  Lemma owned_here a nd nd' : node_at w a nd -> nd_lock nd' = Some j -> owned (with_node w a nd') j a.
  Proof. intros N L. exists nd'. split; [apply (with_node_at w a nd nd' a nd' N); auto|exact L]. Qed.
  Lemma owned_unlock a nd nd' l : node_at w a nd -> ~ In a l -> Forall (owned w j) l -> Forall (owned (with_node w a nd') j) l.
  Proof.
    intros N NI H. rewrite Forall_forall in *. intros b IB. destruct (H b IB) as (n & Nb & Lb). exists n. split; [|exact Lb]. apply (with_node_at w a nd nd' b n N). right. split; [congruence|exact Nb].
  Qed.
  Lemma for_touch_all a nd nd' l m : node_at w a nd -> nd_pair nd' = nd_pair nd -> Forall2 (for_ w) l m -> Forall2 (for_ (with_node w a nd')) l m.
  Proof. intros N P. apply Forall2_impl. intros q b _. apply (for_touch w a nd nd' q b N P). Qed.
  Lemma wide_lock a nd nd' locked : node_at w a nd -> length kv <= length (nd_ids nd') -> wide w (length kv) locked -> wide (with_node w a nd') (length kv) (locked ++ [a]).
  Proof.
    intros N L W b n IB Nb. apply (with_node_at w a nd nd' b n N) in Nb. destruct Nb as [[-> ->] | [NE Nb]]; [exact L|]. apply in_app_iff in IB. destruct IB as [IB | [<- | []]]; [apply (W b n IB Nb)|congruence].
  Qed.

  Lemma touch_ok p p' a nd nd' : node_at w a nd -> nd_lock nd = None \/ nd_lock nd = Some j -> nd_lock nd' = None \/ nd_lock nd' = Some j ->
    nd_pair nd' = nd_pair nd -> (forall k, nth k (nd_ids nd') [] = nth k (nd_ids nd) []) ->
    w_index w (nd_pair nd) = Some a \/ nd_ids nd' = nd_ids nd /\ nd_creating nd' = nd_creating nd ->
    tinv (with_node w a nd') j c kv p' -> (forall b, (if Nat.eqb b a then nd_creating nd' else creat w b) + cnt (pins p) b = creat w b + cnt (pins p') b) -> good p (with_node w a nd') p'.
  Proof.
    intros N L L' P I S T C. split; [eapply ginv_touch; eauto|]. split; [exact T|]. split; [eapply frame_touch; eauto|]. intros b. rewrite (creat_touch w a nd nd' b N). apply C.
  Qed.
  Lemma same_touch (a : nat) nd nd' p p' : node_at w a nd -> nd_creating nd' = nd_creating nd -> (forall b, cnt (pins p) b = cnt (pins p') b) ->
    forall b, (if Nat.eqb b a then nd_creating nd' else creat w b) + cnt (pins p) b = creat w b + cnt (pins p') b.
  Proof. intros N E C b. rewrite C. destruct (Nat.eqb_spec b a) as [->|]; [rewrite (creat_at _ _ _ N)|]; lia. Qed.
  Lemma cut_del n x a nd : node_at w a nd -> nd_lock nd = None -> with_node w a (mkNode (nd_pair nd) (truncate (del_id n x (nd_ids nd))) (nd_creating nd) None) = cut_world w n x [a].
  Proof. intros N L. unfold with_node, cut_world, with_heap, cut, on_ids. cbn [map_nodes]. unfold node_at in N. rewrite N, L. reflexivity. Qed.
  Lemma Forall_app_l {A} (P : A -> Prop) l m : Forall P (l ++ m) -> Forall P l.
  Proof. intros H. apply Forall_app in H. apply H. Qed.
  Lemma Forall2_app_r {A B} (P : A -> B -> Prop) l m1 m2 : Forall2 P l (m1 ++ m2) -> exists l1 l2, l = l1 ++ l2 /\ Forall2 P l1 m1 /\ Forall2 P l2 m2.
  Proof. intros F. apply Forall2_app_inv_r in F. destruct F as (l1 & l2 & F1 & F2 & E). eauto. Qed.

End Own.
Theorem own_step nils j c kv w p w' p' : ginv w -> kv_ok kv -> tinv w j c kv p -> carg w c kv -> (forall a, cnt (pins p) a <= creat w a) ->
  tstep nils j c kv w p w' p' -> good j c kv w p w' p'.
  Proof.
    intros G KV T A PIN ST. destruct ST; cbn [tinv pins] in T;
      pose proof (good_same j c kv w G) as good_same; pose proof (missed_ok j c kv w G) as missed_ok; pose proof (level_ids kv w G KV) as level_ids;
      pose proof (all_of_for kv w G KV) as all_of_for; pose proof (acc_lock kv w G) as acc_lock; pose proof (touch_ok j c kv w G) as touch_ok.
    - apply missed_ok. reflexivity.
    - destruct T as (don & E & Q). destruct H0 as [N _]. destruct (meet acc (level (length kv) (nd_ids nd))) as [|y l] eqn:EM; [apply missed_ok; reflexivity|]. apply good_same; [|reflexivity].
      exists (don ++ [p]). split; [rewrite <- app_assoc; exact E|]. cbn [query_ok]. intros x I. rewrite <- EM in I. apply In_meet in I. destruct I as [I1 I2].
      destruct (level_ids a nd p x H N I2) as (kv' & M & L & IP). exists kv'. split; [exact M|split; [exact L|]]. intros q Q'. apply in_app_iff in Q'. destruct Q' as [Q' | [<- | []]]; [|exact IP].
      destruct acc as [s|]; cbn in Q; [|subst don; destruct Q']. destruct (Q x I1) as (kv'' & M' & _ & IC). rewrite M in M'. injection M' as <-. apply IC, Q'.
    - destruct T as (don & E & Q). rewrite app_nil_r in E. subst don. apply good_same; [|reflexivity]. cbn [tinv]. intros x I. destruct (Q x I) as (kv' & M & L & IC). unfold for_all. rewrite M. f_equal. symmetry.
      apply kv_same; auto. apply (g_made w G x), M.
    - apply good_same; [exact T|reflexivity].
    - apply good_same; [|reflexivity]. intros y I. apply T. right. exact I.
    - apply missed_ok. reflexivity.
    - apply good_same; [exact Logic.I|reflexivity].
    - apply good_same; [|reflexivity]. intros y I. apply T. right. exact I.
    - (* pin *) destruct T as (don & E & C). destruct H0 as [N L]. apply touch_ok with (nd := nd); auto.
      + left. destruct (g_index w G p a H) as (n & Nn & EP). rewrite (node_fun _ _ _ _ Nn N) in EP. rewrite EP. exact H.
      + exists (don ++ [p]). split; [rewrite <- app_assoc; exact E|]. apply Forall2_app; [exact C|]. constructor; [exact H|constructor].
      + intros b. cbn [nd_creating pins]. rewrite cnt_app, cnt_one. destruct (Nat.eqb_spec b a) as [->|]; [rewrite (creat_at _ _ _ N)|]; lia.
    - (* pin new *) destruct T as (don & E & C). split; [apply ginv_pin_new; assumption|]. split; [|split; [apply frame_pin_new; assumption|]].
      + exists (don ++ [p]). split; [rewrite <- app_assoc; exact E|]. apply Forall2_app.
        * eapply Forall2_impl; [|exact C]. intros q b _ EQ. unfold cur in *. cbn [with_index w_index]. rewrite set_index_other; [exact EQ|]. intros ->. cbn [with_heap w_index] in *. congruence.
        * constructor; [|constructor]. unfold cur. cbn [with_index w_index]. apply set_index_same.
      + intros b. cbn [pins]. rewrite cnt_app, cnt_one. rewrite (creat_same (with_heap w (w_heap w ++ [mkNode p [] 1 None]))) by reflexivity. rewrite creat_new by reflexivity. lia.
    - destruct T as (don & E & C). rewrite app_nil_r in E. subst don. apply good_same; [|reflexivity]. cbn [tinv]. split; [exact C|]. split; [constructor|]. split; [reflexivity|]. intros a nd [].
    - (* lock *) destruct T as (C & O & AC & W). destruct H as [N L]. apply touch_ok with (nd := nd); auto.
      + intros k. cbn [nd_ids]. apply nth_grow.
      + left. destruct (Forall2_app_r _ _ _ _ C) as (l1 & l2 & _ & _ & C2). inversion C2 as [|q b ? ? CQ]; subst. destruct (g_index w G q a CQ) as (n & Nn & EP). rewrite (node_fun _ _ _ _ Nn N) in EP. rewrite EP. exact CQ.
      + cbn [tinv]. split; [rewrite <- app_assoc; exact C|]. split.
        { apply Forall_app. split; [apply owned_touch with (nd := nd); auto|constructor; [|constructor]; apply owned_here with (nd := nd); auto]. }
        split; [apply (acc_lock a nd (mkNode (nd_pair nd) (grow (length kv) (nd_ids nd)) (nd_creating nd) (Some j))); [exact N|intros k; apply nth_grow|exact AC]|].
        apply wide_lock with (nd := nd); [exact N|cbn [nd_ids]; apply length_grow|exact W].
      + apply same_touch with (nd := nd); [exact N|reflexivity|]. intros b. cbn [pins]. rewrite <- app_assoc. reflexivity.
    - (* exists *) destruct T as (C & O & AC & W). rewrite app_nil_r in C. apply good_same; [|intros b; cbn [pins]; rewrite app_nil_r; reflexivity]. exists [], kv. auto.
    - destruct T as (C & O & AC & W). rewrite app_nil_r in C. apply good_same; [|intros b; cbn [pins]; rewrite app_nil_r; reflexivity]. cbn [tinv]. split; [exact C|]. split; [exact O|]. split.
      + apply (all_of_for locked); [apply cur_for; assumption|apply acc_one; assumption].
      + apply acc_one. exact AC.
    - destruct T as (C & O & AC & W). rewrite app_nil_r in C. apply good_same; [|intros b; cbn [pins]; rewrite app_nil_r; reflexivity]. exists [], kv. auto.
    - destruct T as (C & O & _). apply good_same; [|reflexivity]. exists [], kv. auto.
    - destruct T as (C & O & _). apply good_same; [|reflexivity]. exists [], kv. auto.
    - (* new *) destruct T as (C & O & AC & W). rewrite app_nil_r in C. fold (add_world w kv locked). split; [|split; [|split]].
      + apply ginv_add; auto. intros x HX. destruct acc as [s|]; cbn [acc_ok] in AC; [|subst locked; inversion C; subst; destruct KV; congruence].
        destruct AC as (_ & ND & AC). apply AC in HX as IX. destruct s as [|y [|z s]]; [destruct IX|destruct IX as [<- | []]; exact (H y eq_refl)|].
        assert (IY : In y (y :: z :: s)) by (left; reflexivity). assert (IZ : In z (y :: z :: s)) by (right; left; reflexivity). rewrite (AC y) in IY. rewrite (AC z) in IZ.
        assert (y = z); [|subst z; inversion ND as [|? ? NI _]; apply NI; left; reflexivity].
        assert (FK : Forall2 (for_ w) kv locked) by (apply cur_for; assumption).
        pose proof (all_of_for locked y FK IY) as MY. pose proof (all_of_for locked z FK IZ) as MZ. apply (g_one w G y z kv MY MZ). intros q Q.
        destruct (cur_find' w kv locked C q Q) as (a & IA & CA). split; exists a, kv; auto.
      + cbn [tinv]. assert (CC : Forall2 (cur (add_world w kv locked)) kv locked) by exact C. split; [exact CC|]. split; [|split; [apply made_new|]].
        * rewrite Forall_forall in *. intros a IA. destruct (O a IA) as (nd & N & L). eexists. split; [apply (at_add w G kv locked KV C a nd N)|]. destruct (in_dec Nat.eq_dec a locked); cbn; exact L.
        * split; [intros a IA; apply has_new; auto|]. split.
          -- change (w_items w (length (w_made w)) = None). destruct (w_items w (length (w_made w))) as [kv'|] eqn:E; [|reflexivity]. destruct (g_items w G _ _ E) as [M _]. apply nth_lt in M. lia.
          -- intros K. change (In (length (w_made w)) (w_known w)) in K. apply (g_known w G) in K. lia.
      + apply frame_add; auto.
      + intros a. cbn [pins]. rewrite app_nil_r. unfold add_world. f_equal. rewrite (creat_map (with_id w kv)) by reflexivity. reflexivity.
    - (* created *) destruct T as (C & O & M & H' & E & K). split; [|split; [|split]].
      + apply ginv_created; auto. intros q Q. destruct (cur_find' w kv locked C q Q) as (a & IA & CA). exists a, kv. auto.
      + exists [], kv. auto.
      + apply frame_created. left. eauto.
      + intros a. reflexivity.
    - destruct T as (C & O & _). apply good_same; [|reflexivity]. exists [], kv. auto.
    - (* unlock *) destruct T as (don & ps & E & C & O). inversion C as [|q b ps' ? CQ CS]; subst. inversion O as [|? ? OA OS]; subst. destruct OA as (n & Nn & L). rewrite (node_fun _ _ _ _ Nn H) in *.
      assert (NI : ~ In a todo). { assert (ND : NoDup (a :: todo)); [|inversion ND; assumption]. eapply cur_nodup; [exact G| |exact C]. apply kv_nodup in KV.
        clear - KV. induction don as [|d don IH]; [exact KV|]. cbn in KV. inversion KV; auto. }
      apply touch_ok with (nd := nd); auto.
      + left. destruct (g_index w G q a CQ) as (n' & Nn' & EP). rewrite (node_fun _ _ _ _ Nn' H) in EP. rewrite EP. exact CQ.
      + exists (don ++ [q]), ps'. split; [rewrite <- app_assoc; reflexivity|]. split; [exact CS|]. apply owned_unlock with (nd := nd); auto.
      + intros b. cbn [nd_creating pins]. rewrite cnt_cons. destruct (Nat.eqb_spec b a) as [->|]; [|lia]. specialize (PIN a). cbn [pins] in PIN. rewrite cnt_cons, Nat.eqb_refl in PIN. rewrite (creat_at _ _ _ H) in *. lia.
    - apply good_same; [|destruct r; reflexivity]. destruct r; cbn; auto. exists []. split; [reflexivity|]. split; [cbn; lia|]. intros _. constructor.
    - apply good_same; [|reflexivity]. cbn. eauto.
    - apply good_same; [exact Logic.I|reflexivity].
    - apply good_same; [|reflexivity]. exists []. split; [reflexivity|]. split; [cbn; lia|]. intros _. constructor.
    - apply good_same; [exact Logic.I|reflexivity].
    - destruct T as (don & E & L & F). apply good_same; [|reflexivity]. exists (don ++ [p]). split; [rewrite <- app_assoc; exact E|]. rewrite !app_length. cbn. split; [lia|]. intros X. apply Forall2_app; [apply F; lia|]. constructor; [|constructor]. apply (g_index w G), H.
    - destruct T as (don & E & L & F). apply good_same; [|reflexivity]. exists (don ++ [p]). split; [rewrite <- app_assoc; exact E|]. rewrite app_length. cbn. split; [lia|]. intros X. lia.
    - destruct T as (don & E & L & F). rewrite app_nil_r in E. subst don. apply good_same; [|reflexivity]. cbn [tinv app]. split; [auto|]. split; [constructor|]. split; [reflexivity|]. intros a nd [].
    - apply good_same; [exact Logic.I|reflexivity].
    - (* lock *) destruct T as (C & O & AC & W). destruct H as [N L]. apply touch_ok with (nd := nd); auto.
      + cbn [tinv]. split; [rewrite <- app_assoc; apply for_touch_all with (nd := nd); auto|]. split.
        { apply Forall_app. split; [apply owned_touch with (nd := nd); auto|constructor; [|constructor]; apply owned_here with (nd := nd); auto]. }
        split; [apply (acc_lock a nd (mkNode (nd_pair nd) (nd_ids nd) (nd_creating nd) (Some j))); [exact N|reflexivity|exact AC]|].
        apply wide_lock with (nd := nd); [exact N|exact H0|exact W].
      + apply same_touch with (nd := nd); [exact N|reflexivity|]. intros b. reflexivity.
    - (* short *) destruct T as (C & O & AC & W). destruct H as [N L]. apply touch_ok with (nd := nd); auto.
      + cbn [tinv]. split.
        { destruct (Forall2_app_r _ _ _ _ C) as (l1 & l2 & EK & C1 & C2). inversion C2 as [|q b l2' ? CQ]; subst. apply (for_nodup w (l1 ++ [q])).
          - apply kv_nodup in KV. change (q :: l2') with ([q] ++ l2') in KV. rewrite app_assoc in KV. clear - KV. induction (l1 ++ [q]) as [|d don IH]; [constructor|]. cbn in KV. inversion KV; subst. constructor; [|auto]. intros I. apply H1, in_or_app. auto.
          - apply Forall2_app; [exact C1|]. constructor; [exact CQ|constructor]. }
        apply Forall_app. split; [apply owned_touch with (nd := nd); auto|constructor; [|constructor]; apply owned_here with (nd := nd); auto].
      + apply same_touch with (nd := nd); [exact N|reflexivity|]. intros b. reflexivity.
    - destruct T as (C & O & AC & W). rewrite app_nil_r in C. apply good_same; [|reflexivity]. cbn [tinv]. split; [exact C|]. split; [exact O|]. split; [apply (all_of_for locked); [assumption|]|]; apply acc_one; exact AC.
    - apply good_same; [exact Logic.I|reflexivity].
    - (* delete *) destruct T as (C & O & M & H'). destruct H as [NH _].
      assert (ND : NoDup locked) by (eapply for_nodup; [apply kv_nodup, KV|exact C]).
      change (good j c kv w (DItem locked x) (cut_world (with_item w x None) (length kv) x locked) (DUnlock locked (verdict c (RDeleted x)) true)).
      assert (G' : ginv (with_item w x None)) by (apply ginv_gone; assumption). split; [|split; [|split]].
      + apply ginv_cut; auto. left. cbn [with_item w_items]. apply set_item_same.
      + cbn [tinv]. split; [exact ND|]. rewrite Forall_forall in *. intros a IA. destruct (O a IA) as (nd & N & L). eexists. split; [apply (at_cut (with_item w x None) (length kv) x locked a nd ND N)|]. destruct (in_dec Nat.eq_dec a locked); exact L.
      + apply frame_trans with (w1 := with_item w x None); [intros y HY; apply (g_held w G y HY)|reflexivity|apply le_n|apply frame_gone; exact NH|]. apply frame_cut; [exact ND| |right; exact NH].
        intros a nd IA N. rewrite Forall_forall in O. destruct (O a IA) as (nd' & N' & L). change (node_at w a nd) in N. rewrite (node_fun _ _ _ _ N N'). auto.
      + intros a. cbn [pins]. f_equal. unfold cut_world. rewrite (creat_map (with_item w x None)) by reflexivity. reflexivity.
    - destruct T as (C & O & _). apply good_same; [|reflexivity]. split; [|exact O]. eapply for_nodup; [apply kv_nodup, KV|exact C].
    - (* ghost *) destruct T as (C & O & M & H'). destruct H as [NH _].
      assert (ND : NoDup locked) by (eapply for_nodup; [apply kv_nodup, KV|exact C]).
      change (good j c kv w (DItem locked x) (cut_world w (length kv) x locked) (DUnlock locked (verdict c RNone) true)). split; [|split; [|split]].
      + apply ginv_cut; auto.
      + cbn [tinv]. split; [exact ND|]. rewrite Forall_forall in *. intros a IA. destruct (O a IA) as (nd & N & L). eexists. split; [apply (at_cut w (length kv) x locked a nd ND N)|]. destruct (in_dec Nat.eq_dec a locked); exact L.
      + apply frame_cut; [exact ND| |right; exact NH]. intros a nd IA N. rewrite Forall_forall in O. destruct (O a IA) as (nd' & N' & L). rewrite (node_fun _ _ _ _ N N'). auto.
      + intros a. cbn [pins]. f_equal. unfold cut_world. rewrite (creat_map w) by reflexivity. reflexivity.
    - destruct T as (C & O & _). rewrite app_nil_r in C. apply good_same; [|reflexivity]. split; [|exact O]. eapply for_nodup; [apply kv_nodup, KV|exact C].
    - (* unlock *) destruct T as (ND & O). inversion ND; subst. inversion O as [|? ? OA OS]; subst. destruct OA as (n & Nn & L). rewrite (node_fun _ _ _ _ Nn H) in *. apply touch_ok with (nd := nd); auto.
      + split; [assumption|]. apply owned_unlock with (nd := nd); auto.
      + apply same_touch with (nd := nd); [exact H|reflexivity|]. intros b. reflexivity.
    - apply good_same; destruct clean; cbn; auto.
    - apply good_same; [exact Logic.I|reflexivity].
    - apply good_same; [exact Logic.I|reflexivity].
    - (* drop *) destruct H0 as [N _]. split; [eapply ginv_drop; eauto|]. split; [exact Logic.I|]. split; [eapply frame_drop; eauto|]. intros b. reflexivity.
    - apply good_same; [exact Logic.I|reflexivity].
    - apply good_same; [exact Logic.I|reflexivity].
    - (* mark *) subst c. split; [apply ginv_mark; [exact G|exact A]|]. split; [|split; [apply frame_mark|intros b; reflexivity]]. exists x. split; [reflexivity|]. cbn [with_dying w_dying w_held]. split; [apply set_item_same|].
      intros X. apply (g_held w G) in X. destruct X. congruence.
    - destruct T as (x' & E & D & NH). apply good_same; [|reflexivity]. exists x'. auto.
    - (* hold *) destruct T as (x' & E & D & NH). rewrite H in E. injection E as <-. split; [apply ginv_hold; congruence|]. split; [|split; [apply frame_hold; right; cbn; auto|intros b; reflexivity]]. exists x. cbn [with_held w_dying w_held w_items]. split; [exact H|]. split; [exact D|]. split; [left; reflexivity|].
      split; [assumption|]. intros q Q. change (reg w q x). eapply g_reg; eauto.
    - (* refuse *) destruct T as (x' & E & D & IH & I & R). rewrite H in E. injection E as <-. split; [eapply ginv_release; eauto|]. split; [|split; [apply frame_release; right; cbn; auto|intros b; reflexivity]]. exists x. split; [exact H|]. split; [exact D|]. rewrite In_release. tauto.
    - destruct T as (x & E & D & IH & I & R). apply good_same; [|reflexivity]. exists x, []. cbn [app]. split; [exact E|]. split; [exact D|]. split; [exact IH|]. split; [exact I|]. split; [assumption|]. split; [|intros q []]. intros q Q. apply R. eapply Permutation_in; [apply Permutation_sym; eassumption|exact Q].
    - (* del none *) destruct T as (x & don & E & D & IH & I & PE & R & R'). exfalso. destruct (R p) as (a & kv0 & EI & _); [left; reflexivity|]. congruence.
    - (* del *) destruct T as (x' & don & E & D & IH & I & PE & R & R'). rewrite H in E. injection E as <-. destruct H1 as [N L].
      assert (OW : mine c (YDel kv' (p :: todo)) x) by (right; cbn; auto).
      set (w1 := with_node w a (mkNode (nd_pair nd) (truncate (del_id (length kv') x (nd_ids nd))) (nd_creating nd) None)).
      assert (E1 : w1 = cut_world w (length kv') x [a]) by (apply cut_del; assumption).
      assert (ND1 : NoDup [a]) by (repeat constructor; intros []).
      assert (G1 : ginv w1) by (rewrite E1; apply ginv_cut; auto).
      assert (F1 : frame j (mine c (YDel kv' (p :: todo))) w w1).
      { rewrite E1. apply frame_cut; [exact ND1| |left; exact OW]. intros b n [<- | []] Nb. rewrite (node_fun _ _ _ _ Nb N). auto. }
      assert (C1 : forall b, creat w1 b = creat w b).
      { intros b. unfold w1. rewrite (creat_touch w a nd _ b N). cbn [nd_creating]. destruct (Nat.eqb_spec b a) as [->|]; [symmetry; apply creat_at; exact N|reflexivity]. }
      assert (MK : nth_error (w_made w) x = Some kv') by (apply (g_items w G), I).
      assert (RG : forall q, reg w1 q x <-> reg w q x /\ q <> p).
      { intros q. rewrite E1. split.
        - intros RQ. split; [eapply cut_reg; [|exact RQ]; exact ND1|]. intros ->. destruct RQ as (b & kv0 & EB & M0 & HB). change (w_index w p = Some b) in EB. rewrite H0 in EB. injection EB as <-. change (nth_error (w_made w) x = Some kv0) in M0. rewrite MK in M0. injection M0 as <-.
          apply (cut_gone w (length kv') x [a] a ND1 (or_introl eq_refl)). exact HB.
        - intros [(b & kv0 & EB & M0 & HB) NQ]. exists b, kv0. split; [exact EB|split; [exact M0|]]. apply has_cut; [exact ND1|exact HB|]. right. intros [<- | []]. apply NQ.
          destruct (g_index w G q a EB) as (n1 & N1 & <-). destruct (g_index w G p a H0) as (n2 & N2 & <-). rewrite (node_fun _ _ _ _ N1 N2). reflexivity. }
      assert (KV' : NoDup kv') by (apply kv_nodup, (g_made w G x), MK).
      assert (ND' : NoDup (don ++ p :: todo)) by (eapply Permutation_NoDup; eauto).
      assert (TI : forall w2, w_dying w2 = w_dying w -> w_held w2 = w_held w -> w_items w2 = w_items w -> (forall q, reg w2 q x <-> reg w1 q x) -> tinv w2 j c kv (YDel kv' todo)).
      { intros w2 e1 e2 e3 RR. exists x, (don ++ [p]). rewrite e1, e2, e3. split; [exact H|]. split; [exact D|]. split; [exact IH|]. split; [exact I|]. split; [rewrite <- app_assoc; exact PE|]. split.
        - intros q Q. apply RR, RG. split; [apply R; right; exact Q|]. intros ->. apply NoDup_remove_2 in ND'. apply ND', in_or_app. right. exact Q.
        - intros q Q. rewrite RR, RG. apply in_app_iff in Q. destruct Q as [Q | [<- | []]]; [|tauto]. intros [RQ _]. apply (R' q Q RQ). }
      cbv zeta. fold w1. assert (S1 : good j c kv w (YDel kv' (p :: todo)) w1 (YDel kv' todo)).
      { split; [exact G1|]. split; [apply TI; reflexivity|]. split; [exact F1|]. intros b. rewrite C1. reflexivity. }
      destruct (truncate (del_id (length kv') x (nd_ids nd))) as [|t ts] eqn:ET; [|exact S1]. destruct (nd_creating nd) as [|k] eqn:EC; [|exact S1].
      assert (N1 : node_at w1 a (mkNode (nd_pair nd) [] 0 None)) by (apply (with_node_at w a nd _ a _ N); auto).
      assert (H1 : w_index w1 p = Some a) by exact H0.
      split; [eapply ginv_drop; eauto|]. split; [|split].
      + apply TI; try reflexivity. intros q. apply (drop_reg w1 p a (mkNode (nd_pair nd) [] 0 None) q x H1 N1 eq_refl).
      + apply frame_trans with (w1 := w1); [intros y HY; apply (g_held w G y HY)|exact C1|apply le_n|exact F1|]. eapply frame_drop; eauto.
      + intros b. change (creat w1 b + 0 = creat w b + 0). rewrite C1. reflexivity.
    - (* end *) destruct T as (x' & don & E & D & IH & I & PE & R & R'). rewrite H in E. injection E as <-. split; [apply ginv_end; exact G|]. split; [|split; [apply frame_end; right; cbn; auto|intros b; reflexivity]].
      exists x. split; [exact H|]. split; [exact D|]. intros X. change (In x (w_held (release w x))) in X. apply In_release in X. tauto.
    - (* clear *) destruct T as (x' & E & D & NH). rewrite H in E. injection E as <-. split; [apply ginv_unmark; assumption|]. split; [exact Logic.I|]. split; [apply frame_unmark; right; cbn; auto|]. intros b. reflexivity.
  Qed.
