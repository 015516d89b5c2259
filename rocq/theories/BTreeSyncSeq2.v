(** More facts about the sequential operations of BTree.v: swap. *)
From Coq Require Import Sorted Permutation ZifyBool ZifyNat.
From Verif Require Import Datatypes SpecValues DatatypesProofs BTree SpecBTree BTreeProofs BTreeSyncSeq.
Local Open Scope nat_scope.

Lemma set_nth_cases {A} i (y : A) l j x :
  nth_error (set_nth i y l) j = Some x -> (j = i /\ x = y) \/ (j <> i /\ nth_error l j = Some x).
Proof.
  intros H. destruct (Nat.lt_ge_cases i (length l)) as [Lt|Ge].
  - destruct (split_elem l i Lt) as (l1 & z & l2 & -> & L). rewrite (set_nth_app l1 y z l2 i L) in H.
    destruct (Nat.eq_dec j i) as [->|N].
    + left. rewrite (nth_error_app_len l1 y l2 i L) in H. injection H as <-. auto.
    + right. split; [exact N|]. destruct (Nat.lt_ge_cases j (length l1)).
      * rewrite nth_error_app1 in * by assumption. exact H.
      * rewrite nth_error_app2 in * by assumption. destruct (j - length l1) as [|q] eqn:Q; [lia|]. exact H.
  - unfold set_nth in H. rewrite (firstn_all2 l Ge), (skipn_all2 l Ge), app_nil_r in H.
    right. split; [|exact H]. intros ->. apply nth_error_None in Ge. congruence.
Qed.
Lemma set_nth_at {A} i (y : A) l : i < length l -> nth_error (set_nth i y l) i = Some y.
Proof.
  intros Lt. destruct (split_elem l i Lt) as (l1 & z & l2 & -> & L). rewrite (set_nth_app l1 y z l2 i L). apply nth_error_app_len, L.
Qed.
Lemma del_nth_cases {A} i (l : list A) x : In x (del_nth i l) -> exists j, j <> i /\ nth_error l j = Some x.
Proof.
  intros H. destruct (Nat.lt_ge_cases i (length l)) as [Lt|Ge].
  - destruct (split_elem l i Lt) as (l1 & z & l2 & -> & L). rewrite (del_nth_app l1 z l2 i L) in H.
    apply in_app_iff in H as [H|H]; apply In_nth_error in H as [q Hq].
    + assert (q < length l1) by (apply nth_error_Some; congruence). exists q. split; [lia|]. rewrite nth_error_app1; assumption.
    + exists (length l1 + S q). split; [lia|]. rewrite nth_error_app2 by lia. replace (length l1 + S q - length l1) with (S q) by lia. exact Hq.
  - unfold del_nth in H. rewrite (firstn_all2 l Ge), (skipn_all2 l) in H by lia. rewrite app_nil_r in H.
    apply In_nth_error in H as [q Hq]. exists q. split; [|exact Hq]. assert (q < length l) by (apply nth_error_Some; congruence). lia.
Qed.

Section Seq.
  Context {V : Type}.
  Notation node := (node V).
  Notation entry := (entry V).

  Lemma kid_flat n h vs (K1 : list node) c K2 :
    balanced n (S h) (Node vs (K1 ++ c :: K2)) -> incl (flat c) (flat (Node vs (K1 ++ c :: K2))).
  Proof.
    intros [LK _] x Hx. cbn [vals_of kids_of] in LK.
    destruct (split_at vs (length K1)) as (vs1 & vs2 & -> & L).
    { rewrite app_length in LK. cbn [length] in LK. lia. }
    rewrite flat_split by exact L. apply in_or_app. right. apply in_or_app. left. exact Hx.
  Qed.

  (** The keys of the children beside an entry lie on their side of it. *)
  Lemma swap_sides n h vs (K : list node) i k0 v0 l r :
    2 <= n -> balanced n (S h) (Node vs K) -> sorted (flat (Node vs K)) -> goods (flat (Node vs K)) ->
    nth_error vs i = Some (k0, v0) -> nth_error K i = Some l -> nth_error K (S i) = Some r ->
    Forall (fun e => less (fst e) k0 = true) (flat l) /\ Forall (fun e => less (fst e) k0 = false) (flat r).
  Proof.
    intros Hn [LK FK] S G Ev El Er. cbn [vals_of kids_of] in LK, FK. change (Forall (okc n h) K) in FK.
    assert (Li : i < length vs) by (apply nth_error_Some; congruence).
    destruct (split_elem vs i Li) as (vs1 & e & vs2 & -> & L). rewrite (nth_error_app_len vs1) in Ev by exact L. injection Ev as ->.
    assert (Lk : i < length K) by (apply nth_error_Some; congruence).
    destruct (split_elem K i Lk) as (K1 & l' & K2' & -> & L'). rewrite (nth_error_app_len K1) in El by exact L'. injection El as ->.
    destruct K2' as [|r' K2]; [rewrite !app_length in LK; cbn [length] in LK; lia|].
    rewrite (nth_error_app_len_S K1) in Er by exact L'. injection Er as ->.
    assert (L1 : length vs1 = length K1) by lia.
    rewrite flat_split2 in G, S by exact L1.
    apply Forall_app in FK as [FK1 FK]. apply Forall_cons_iff in FK as [Ol FK].
    apply Forall_cons_iff in FK as [Or FK2].
    assert (GS := G). apply goods_app in GS as [_ GS]. apply goods_app in GS as [Gl GS].
    apply goods_cons in GS as [Gk2 GS]. apply goods_app in GS as [Gr _]. cbn [fst] in Gk2.
    assert (SS := S). apply sorted_app in SS as (_ & SS & _). apply sorted_app in SS as (_ & SS & Slt).
    apply sorted_cons in SS as [_ Sgt].
    assert (NA : ev_type k0 <> T_any).
    { destruct (flat r) as [|y ys] eqn:Er; [exfalso; eapply okc_nonempty; eauto|].
      apply goods_cons in Gr as [Gy _]. eapply (not_any_of_lt k0 (fst y)); auto.
      apply (Sgt y). left. reflexivity. }
    split.
    - apply Forall_forall. intros e He. assert (LL : lmt (fst e) k0 = true) by (apply (Slt e (k0, v0) He); left; reflexivity).
      rewrite less_eq_lmt; [exact LL| |exact NA]. eapply not_any_of_lt; [exact Gk2|exact LL|exact (goods_in _ _ Gl He)].
    - apply Forall_forall. intros e He.
      assert (LL : lmt k0 (fst e) = true) by (apply (Sgt e); apply in_or_app; left; exact He).
      destruct (Z.eq_dec (ev_type (fst e)) T_any) as [EA|EA].
      + unfold less. rewrite less_any_l by exact EA. reflexivity.
      + rewrite less_eq_lmt by assumption. apply lmt_asym; auto. exact (goods_in _ _ Gr He).
  Qed.

  Definition side (sk : EV) (t : node) : Prop :=
    Forall (fun e => less (fst e) sk = true) (flat t) \/ Forall (fun e => less (fst e) sk = false) (flat t).

  Lemma swap_any n sk h (t : node) :
    2 <= n -> balanced n h t -> 1 <= length (vals_of t) -> sorted (flat t) -> goods (flat t) -> side sk t ->
    exists t' e u, swap n t sk = Some (t', e, u) /\ balanced n h t' /\ shrunk n t t' u /\ sorted (flat t') /\ goods (flat t').
  Proof.
    intros Hn B L S G [F|F].
    - destruct (swap_last_spec n sk h Hn t B L F) as (t' & e & u & E & Fl & B' & Sh). exists t', e, u.
      rewrite Fl in S, G. apply sorted_app in S as (S & _ & _). apply goods_app in G as [G _]. auto.
    - destruct (swap_first_spec n sk h Hn t B L F) as (t' & e & u & E & Fl & B' & Sh). exists t', e, u.
      rewrite Fl in S, G. apply sorted_cons in S as (S & _). apply goods_cons in G as [_ G]. auto.
  Qed.
End Seq.
