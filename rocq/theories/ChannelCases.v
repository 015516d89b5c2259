(** Runs of a channel: witnesses for the refutations and for the hypotheses of the theorems *)
From Coq Require Import String List Bool Arith NArith ZArith Lia.
From Verif Require Import Channel SpecChannel ChannelProofs ChannelContents ChannelOrder ChannelCounts ChannelBlock.
Import ListNotations.

Fixpoint qrun (c : channel) (l : list qop) (tr : list (qop * qans)) : option (channel * list (qop * qans)) :=
  match l with
  | [] => Some (c, tr)
  | o :: l => match qstep c o with Some (c', a) => qrun c' l ((o, a) :: tr) | None => None end
  end.
Lemma qrun_exec c0 l tr c c' tr' : qexec c0 tr c -> qrun c l tr = Some (c', tr') -> qexec c0 tr' c'.
Proof.
  revert c tr. induction l as [|o l IH]; cbn [qrun]; intros c tr E H; [injection H as <- <-; exact E|].
  destruct (qstep c o) as [[c1 a]|] eqn:S; [|discriminate]. eapply IH; [|exact H]. econstructor; eassumption.
Qed.
Lemma qrun_new e r l c tr : qrun (newChannel e r) l [] = Some (c, tr) -> qexec (newChannel e r) tr c.
Proof. apply qrun_exec. constructor. Qed.
Lemma qrun_from c l c' tr : qrun c l [] = Some (c', tr) -> qexec c tr c'.
Proof. apply qrun_exec. constructor. Qed.
Lemma qexec_app c0 tr1 c1 tr2 c2 : qexec c0 tr1 c1 -> qexec c1 tr2 c2 -> qexec c0 (tr2 ++ tr1) c2.
Proof. intros E1 E2. induction E2; cbn [app]; [exact E1|]. econstructor; eassumption. Qed.
Lemma reach_new e r tr c : qexec (newChannel e r) tr c -> reach tr c.
Proof. intros E. exists e, r. exact E. Qed.

(** items: kept at the front, kept at the back, updateable *)
Definition pr (s : string) (u : bool) (m : N) (f : position) (t : Z) : props := mkProps s u m f t.
Definition p_plain := pr "a" false 1 Front 5.
Definition p_back := pr "b" false 2 Back 5.
Definition p_new := pr "u" true 3 Front 5.
Definition p_newb := pr "v" true 3 Back 5.
(** hand the next item out, and start its heartbeater *)
Definition fetch : list qop := [OReady; OAsk; ORun true; OTake; OCreate true].
Definition deliver : list qop := fetch ++ [OSuccess].

(** *** C40: without the restriction on the number of retries *)
Definition p_always := pr "a" false max64 Front 5.
Definition round40 (n : N) (r : nat) : channel :=
  mkChan [(0, mkItem p_always n HbNone)] [0] 1 FIdle 1 r [] RNo false false [0].
Lemma incr64_bound n : (incr64 n <= max64)%N.
Proof.
  unfold incr64, max64. change (2 ^ 64)%N with 18446744073709551616%N.
  pose proof (N.mod_upper_bound (n + 1) 18446744073709551616). lia.
Qed.
Lemma round40_step n : qrun (round40 n 0) (deliver ++ [ONack 0]) [] =
  Some (round40 (incr64 n) 0,
    [(ONack 0, AFailed Requeued); (OSuccess, AUnit); (OCreate true, AItem 0 p_always); (OTake, AUnit); (ORun true, AUnit);
     (OAsk, AUnit); (OReady, AUnit)]).
Proof.
  assert (L : N.ltb max64 (incr64 n) = false) by (apply N.ltb_ge, incr64_bound).
  cbv -[incr64 N.ltb max64]. rewrite L. reflexivity.
Qed.
Lemma unbounded_attempts k : exists tr c, reach tr c /\ serving c /\ contents c 0 = Some p_always /\
  since 0 (hands_out 0) tr = k /\ since 0 (undelivered 0) tr = 0.
Proof.
  assert (K : exists tr n, qexec (newChannel 0 0) tr (round40 n 0) /\ since 0 (hands_out 0) tr = k /\ since 0 (undelivered 0) tr = 0).
  { induction k as [|k (tr & n & E & H & U)].
    - exists [(OEnqueue p_always 0 true, AStored 0)], 0%N. split; [|auto]. apply (qrun_new 0 0 [OEnqueue p_always 0 true]). reflexivity.
    - eexists (_ ++ tr), (incr64 n). split; [eapply qexec_app; [exact E|eapply qrun_from, round40_step]|].
      cbn [app since writes hands_out undelivered Nat.eqb andb plus]. auto. }
  destruct K as (tr & n & E & H & U). exists tr, (round40 n 0). split; [eapply reach_new, E|]. split; [split; reflexivity|]. auto.
Qed.

(** *** C42: places that are never given back *)
Fixpoint ids_to (k : nat) : list id := match k with 0 => [0] | S k' => k :: ids_to k' end.
Lemma ids_fresh k m : k < m -> existsb (Nat.eqb m) (ids_to k) = false.
Proof.
  induction k as [|k IH]; cbn [ids_to existsb]; intros L.
  - destruct (Nat.eqb_spec m 0); [lia|reflexivity].
  - destruct (Nat.eqb_spec m (S k)); [lia|]. rewrite IH by lia. reflexivity.
Qed.
Definition round42 (k : nat) : channel :=
  mkChan [(k, newItem p_new)] [k] 1 FIdle (S k) 0 [] RNo false false (ids_to k).
Ltac sim tac := repeat (progress (cbv -[incr64 N.ltb max64 ids_to Nat.eqb existsb negb andb]; rewrite ?Nat.eqb_refl; tac; cbn [existsb negb andb])).
Lemma round42_step k : exists tr, qrun (round42 k) (deliver ++ [OEnqueue p_new (S k) true; ONack k]) [] = Some (round42 (S k), tr).
Proof.
  assert (NE : Nat.eqb (S k) k = false) by (apply Nat.eqb_neq; lia). assert (NE' : Nat.eqb k (S k) = false) by (apply Nat.eqb_neq; lia).
  pose proof (ids_fresh k (S k) (Nat.lt_succ_diag_r k)) as FR.
  eexists. sim ltac:(rewrite ?NE, ?NE', ?FR). change (3 <? incr64 0)%N with false. reflexivity.
Qed.
Lemma lost_places k : exists tr c, qexec (newChannel 0 0) tr c /\ serving c /\ number_stored c = 0 /\ enq c = k.
Proof.
  assert (K : exists tr, qexec (newChannel 0 0) tr (round42 k)).
  { induction k as [|k (tr & E)].
    - exists [(OEnqueue p_new 0 true, AStored 0)]. apply (qrun_new 0 0 [OEnqueue p_new 0 true]). reflexivity.
    - destruct (round42_step k) as (tr' & H). exists (tr' ++ tr). eapply qexec_app; [exact E|eapply qrun_from, H]. }
  destruct K as (tr & E).
  assert (A : exists tr' c, qrun (round42 k) (deliver ++ [OAck k]) [] = Some (c, tr') /\ serving c /\ number_stored c = 0 /\ enq c = k).
  { eexists _, _. split; [sim idtac; reflexivity|]. repeat split; reflexivity. }
  destruct A as (tr' & c & H & S & N & Q). exists (tr' ++ tr), c. split; [eapply qexec_app; [exact E|eapply qrun_from, H]|]. auto.
Qed.

(** ... and slots that are given back twice: any number of items with clients, while the counter says none *)
Definition quiet (l : list (id * item)) (e : nat) (u : list id) : channel := mkChan l [] 0 FIdle e 0 [] RNo false false u.
Definition started (p : props) : item := set_hb (set_hb (newItem p) HbCreated) HbRunning.
Ltac simg tac := repeat (progress (cbv -[incr64 N.ltb max64 Nat.eqb existsb negb andb get put del length];
  rewrite ?Nat.eqb_refl, ?get_put_same; tac; cbn [existsb negb andb])).
Lemma round_free l e u a b : NoDup (map fst l) -> existsb (Nat.eqb a) u = false -> existsb (Nat.eqb b) u = false -> Nat.eqb b a = false ->
  exists tr, qrun (quiet l e u)
    (OEnqueue p_plain a true :: deliver ++ OEnqueue p_plain b true :: fetch ++ [OAck b; OFailRun; OFailBack]) [] =
  Some (quiet (del b (put b (set_hb (newItem p_plain) HbCreated) (put b (newItem p_plain)
          (put a (started p_plain) (put a (set_hb (newItem p_plain) HbCreated) (put a (newItem p_plain) l)))))) (S e) (b :: a :: u), tr).
Proof.
  intros ND A B N. eexists. simg ltac:(rewrite ?A, ?B, ?N).
  rewrite get_del_same by (repeat apply keys_put_nodup; exact ND). reflexivity.
Qed.
Lemma fresh_id u m : existsb (Nat.eqb (S (list_max u + m))) u = false.
Proof.
  destruct (existsb _ u) eqn:E; [|reflexivity]. apply existsb_exists in E. destruct E as (x & I & E). apply Nat.eqb_eq in E. subst x.
  pose proof (proj1 (list_max_le u (list_max u)) (le_n _)) as F. rewrite Forall_forall in F. specialize (F _ I). lia.
Qed.
Lemma lost_slots k : exists tr c, qexec (newChannel 0 0) tr c /\ serving c /\ number_processing c = k /\ run c = 0.
Proof.
  assert (K : exists tr l e u, qexec (newChannel 0 0) tr (quiet l e u) /\ length (filter bz l) = k).
  { induction k as [|k (tr & l & e & u & E & NP)].
    - exists [], [], 0, []. split; [constructor|reflexivity].
    - pose proof (qexec_inv _ _ _ (qinv_new 0 0) E) as Q.
      pose proof (q_keys _ Q) as ND. cbn [quiet items] in ND.
      set (a := S (list_max u + 0)). set (b := S (list_max u + 1)).
      assert (A : existsb (Nat.eqb a) u = false) by apply fresh_id.
      assert (B : existsb (Nat.eqb b) u = false) by apply fresh_id.
      assert (N : Nat.eqb b a = false) by (apply Nat.eqb_neq; unfold a, b; lia).
      assert (NB : b <> a) by (apply Nat.eqb_neq, N).
      assert (G : forall z, existsb (Nat.eqb z) u = false -> get z l = None).
      { intros z F. destruct (get z l) as [x|] eqn:GZ; [|reflexivity]. exfalso.
        assert (existsb (Nat.eqb z) u = true); [|congruence]. apply existsb_exists. exists z. split; [|apply Nat.eqb_refl].
        apply (q_used_i _ Q z x GZ). }
      destruct (round_free l e u a b ND A B N) as (tr' & H).
      eexists (tr' ++ tr), _, _, _. split; [eapply qexec_app; [exact E|eapply qrun_from, H]|].
      set (l1 := put a (newItem p_plain) l). set (l2 := put a (set_hb (newItem p_plain) HbCreated) l1).
      set (l3 := put a (started p_plain) l2). set (l4 := put b (newItem p_plain) l3).
      pose proof (np_put_new a (newItem p_plain) l (G a A)) as L1. fold l1 in L1.
      pose proof (np_put a _ (set_hb (newItem p_plain) HbCreated) l1 (get_put_same a _ l)) as L2. fold l2 in L2.
      pose proof (np_put a _ (started p_plain) l2 (get_put_same a _ l1)) as L3. fold l3 in L3.
      assert (GB : get b l3 = None) by (unfold l3, l2, l1; rewrite !get_put_other by congruence; apply G, B).
      pose proof (np_put_new b (newItem p_plain) l3 GB) as L4. fold l4 in L4.
      pose proof (np_put b _ (set_hb (newItem p_plain) HbCreated) l4 (get_put_same b _ l3)) as L5.
      pose proof (np_del b _ _ (get_put_same b (set_hb (newItem p_plain) HbCreated) l4)) as L6.
      cbn [busy newItem set_hb it_hb started] in *. unfold busy in *. cbn in L1, L2, L3, L4, L5, L6. lia. }
  destruct K as (tr & l & e & u & E & NP). exists tr, (quiet l e u). split; [exact E|]. split; [split; reflexivity|]. split; [exact NP|reflexivity].
Qed.

(** *** Single runs *)
Ltac runs := eexists _, _; split; [eexists _, _; apply qrun_new; vm_compute; reflexivity|].
(** C41: failing an item that nobody processes is answered as a success *)
Lemma nack_waiting : exists tr c, reach tr c /\ serving c /\ waiting c 0 /\ ~ processing c 0 /\
  qstep c (ONack 0) = Some (c, AFailed Untouched).
Proof.
  eexists _, _. split; [exists 0, 0; apply (qrun_new 0 0 [OEnqueue p_plain 0 true]); vm_compute; reflexivity|].
  split; [split; reflexivity|]. split; [left; reflexivity|]. split; [|vm_compute; reflexivity].
  intros (x & G & N). vm_compute in G. injection G as <-. apply N. reflexivity.
Qed.
(** C41: the ack of a client whose time ran out settles the delivery to another client *)
Lemma stale_ack : exists tr c1 c2 tr2 c c', reach tr c1 /\ out 0 tr = true /\ qstep c1 (OTimeout 0) = Some (c2, AFailed Requeued) /\
  qexec c2 tr2 c /\ handed 0 tr2 = true /\ qstep c (OAck 0) = Some (c', AAcked) /\ serving c' /\
  qstep c' (OAck 0) = Some (c', ANotFound).
Proof.
  eexists _, _, _, _, _, _.
  split; [exists 0, 0; apply (qrun_new 0 0 (OEnqueue p_back 0 true :: deliver ++ [OFire 0])); vm_compute; reflexivity|].
  split; [reflexivity|]. split; [vm_compute; reflexivity|]. split; [apply (qrun_from _ deliver); vm_compute; reflexivity|].
  split; [reflexivity|]. split; [vm_compute; reflexivity|]. split; [split; reflexivity|]. vm_compute. reflexivity.
Qed.
(** C47: requests that block *)
Lemma ack_blocks : exists tr c c', reach tr c /\ serving c /\ qstep c (OAck 0) = Some (c', AWait).
Proof.
  eexists _, _, _.
  split; [exists 0, 0; apply (qrun_new 0 0 (OEnqueue p_back 0 true :: deliver ++ [OFire 0])); vm_compute; reflexivity|].
  split; [split; reflexivity|]. vm_compute. reflexivity.
Qed.
Lemma nack_blocks : exists tr c c', reach tr c /\ serving c /\ qstep c (ONack 0) = Some (c', AWait).
Proof.
  eexists _, _, _.
  split; [exists 0, 0; apply (qrun_new 0 0 (OEnqueue p_back 0 true :: deliver ++ [OFire 0])); vm_compute; reflexivity|].
  split; [split; reflexivity|]. vm_compute. reflexivity.
Qed.
Lemma beat_blocks : exists tr c c', reach tr c /\ serving c /\ fl c = FSent 0 /\ waiting c 1 /\ qstep c (OBeat 0) = Some (c', AWait).
Proof.
  eexists _, _, _.
  split; [exists 0, 0; apply (qrun_new 0 0 (OEnqueue p_back 0 true :: OEnqueue p_plain 1 true :: fetch)); vm_compute; reflexivity|].
  split; [split; reflexivity|]. split; [reflexivity|]. split; [left; reflexivity|]. vm_compute. reflexivity.
Qed.
(** C50 *)
Lemma crash_timeout : exists tr c c' p, reach tr c /\ serving c /\ In (OEnqueue p 0 true, AStored 0) tr /\ p_timeout p = 0%Z /\
  qstep c OSuccess = Some (c', ACrash) /\ dead c' = true.
Proof.
  eexists _, _, _, (pr "z" false 1 Front 0).
  split; [exists 0, 0; apply (qrun_new 0 0 (OEnqueue (pr "z" false 1 Front 0) 0 true :: fetch)); vm_compute; reflexivity|].
  split; [split; reflexivity|]. split; [cbn [In]; auto 10|]. split; [reflexivity|]. split; [vm_compute; reflexivity|]. reflexivity.
Qed.
Lemma crash_delete : exists tr c c', reach tr c /\ (forall o a p i ok, In (o, a) tr -> o = OEnqueue p i ok -> (0 < p_timeout p)%Z) /\
  qstep c (OTimeout 0) = Some (c', ACrash) /\ dead c' = true.
Proof.
  eexists _, _, _.
  split; [exists 0, 0; apply (qrun_new 0 0 (OEnqueue p_back 0 true :: deliver ++ [OFire 0; OClose; OZeroEnq; OZeroRun; ODestroy])); vm_compute; reflexivity|].
  split; [|split; [vm_compute; reflexivity|reflexivity]].
  intros o a p i ok I ->. cbn [In] in I. repeat (destruct I as [I|I]; [try discriminate I; injection I; intros; subst; reflexivity|]). destruct I.
Qed.
(** C44: a dequeue that comes while the channel is deleted occupies a slot for ever *)
Definition ghost (c : channel) : Prop := items c = [] /\ fl c = FStopped /\ rem c = RGone /\ run c = 1.
Lemma ghost_step c o c' a : ghost c -> qstep c o = Some (c', a) -> ghost c'.
Proof.
  intros (I & F & R & N) H. unfold qstep in H. destruct (dead c); [discriminate|].
  destruct o; unfold indexed, is_phase in H; rewrite ?I, ?F, ?R in H; cbn [get andb guard] in H; try discriminate H.
  injection H as <- <-. repeat split; assumption.
Qed.
Lemma ghost_exec c0 tr c : ghost c0 -> qexec c0 tr c -> ghost c.
Proof. intros G E. induction E; [exact G|eapply ghost_step; eassumption]. Qed.
Lemma lost_slot : exists tr c, qexec (newChannel 0 0) tr c /\ In (OWipe, AUnit) tr /\ number_stored c = 0 /\
  forall tr' c', qexec c tr' c' -> number_stored c' = 0 /\ run c' = 1.
Proof.
  eexists _, _.
  split; [apply (qrun_new 0 0 ([OEnqueue p_back 0 true; OReady; OAsk; OClose; OZeroEnq; OZeroRun; ORun true; OTake; OCreate true; ODestroy; OWipe; OSuccess; OStop])); vm_compute; reflexivity|].
  split; [cbn [In]; auto 20|]. split; [reflexivity|]. intros tr' c' E. eapply ghost_exec in E; [|repeat split; reflexivity].
  destruct E as (I & _ & _ & N). unfold number_stored. rewrite I. auto.
Qed.
