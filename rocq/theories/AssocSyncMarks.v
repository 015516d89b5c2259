(** Proofs about [AssocSync.v]: nothing is found that is being destroyed all the time. *)
From Coq Require Import List Bool Arith Lia Permutation.
Import ListNotations.
From Verif Require Import AssocSync SpecAssocSync AssocSyncBase AssocSyncInv AssocSyncFrame AssocSyncStep AssocSyncGlobal AssocSyncAnswers.

Definition about (r : result) (x : nat) : Prop := r = RFound x \/ r = RRefused x \/ r = RDeleted x.
(** The call has seen that x was not marked *)
Definition passed (c : call) (p : pc) (x : nat) : Prop :=
  match p with
  | PLookUp y _ | PFound _ y | DItem _ y => y = x
  | YFind | YAsk _ | YDel _ _ => c = CDestroy x
  | PUnlock _ r | DUnlock _ r _ | DClean _ r | YClear r | PDone r => about r x
  | _ => False
  end.
Lemma about_verdict c r x : about (verdict c r) x -> about r x.
Proof. unfold about, verdict. destruct c; auto; intros [H | [H | H]]; discriminate. Qed.
Lemma passed_step nils i c kv w p w' p' x : tstep nils i c kv w p w' p' -> passed c p' x -> passed c p x \/ w_dying w x = false /\ forall r, p <> PDone r.
Proof.
  assert (NO : forall r, r = RNone \/ r = RBusy \/ r = RNil \/ r = RNeither \/ r = RExists -> ~ about r x).
  { unfold about. intros r H [A | [A | A]]; subst; intuition discriminate. }
  assert (NC : forall y, ~ about (RCreated y) x) by (unfold about; intros y [A | [A | A]]; discriminate).
  assert (MS : passed c (missed c kv) x -> False).
  { unfold missed, passed. destruct c; auto; apply NO; auto. }
  intros ST. destruct ST; cbn [passed]; intros P;
    try (left; exact P); try (exfalso; exact (MS P)); try (exfalso; exact P); try (exfalso; eapply NO; [|exact P]; tauto); try (exfalso; exact (NC _ P));
    try (apply about_verdict in P; exfalso; eapply NO; [|exact P]; tauto);
    try (right; split; [congruence|discriminate]).
  - destruct (meet acc (level (length kv) (nd_ids nd))); [exfalso; exact (MS P)|exfalso; exact P].
  - left. destruct P as [P | [P | P]]; congruence.
  - left. destruct P as [P | [P | P]]; congruence.
  - left. destruct r; cbn [passed] in P; auto; destruct P.
  - left. apply about_verdict in P. destruct P as [P | [P | P]]; congruence.
  - left. destruct P as [P | [P | P]]; congruence.
  - left. destruct clean; exact P.
  - left. destruct P as [P | [P | P]]; congruence.
  - left. destruct P as [P | [P | P]]; congruence.
Qed.
Lemma start_passed c kv x : ~ passed c (start c kv) x.
Proof. destruct c; cbn; auto. Qed.
Lemma exec_passed nils destroys s tr : exec nils destroys (s :: tr) -> forall i c kv p x, nth_error (st_threads s) i = Some (mkThread c kv p) -> passed c p x ->
  moment (s :: tr) i (fun s => w_dying (st_world s) x = false).
Proof.
  intros E. remember (s :: tr) as l eqn:EL. revert s tr EL. induction E as [|s s' tr E IH ST]; intros s0 tr0 EL; injection EL as <- <-.
  - intros [|i] c kv p x N; discriminate.
  - specialize (IH s tr eq_refl). destruct ST as [w ts c kv A | w ts i c kv p w' p' N ST]; intros j cj kj pj x NJ PJ; cbn [st_world st_threads] in *.
    + destruct (Nat.lt_ge_cases j (length ts)) as [L|G].
      * rewrite nth_error_app1 in NJ by exact L. apply moment_more. eauto.
      * rewrite nth_error_app2 in NJ by exact G. destruct (j - length ts) as [|k]; cbn in NJ; [|destruct k; discriminate]. injection NJ as <- <- <-. destruct (start_passed _ _ _ PJ).
    + destruct (Nat.eq_dec j i) as [->|NE].
      * unfold set_thread in NJ. rewrite (nth_set_same _ _ _ _ N) in NJ. injection NJ as <- <- <-.
        destruct (passed_step _ _ _ _ _ _ _ _ _ ST PJ) as [Q | [Q NP]]; [apply moment_more; eauto|]. eapply now; eauto.
      * unfold set_thread in NJ. rewrite nth_set_other in NJ by exact NE. apply moment_more. eauto.
Qed.
Lemma not_marked nils destroys s tr i c kv r x : exec nils destroys (s :: tr) -> answered i c kv r s -> r = RFound x \/ r = RRefused x \/ r = RDeleted x ->
  moment (s :: tr) i (fun s => ~ marked_now x s).
Proof.
  intros E A H. destruct (exec_passed _ _ _ _ E i c kv (PDone r) x A H) as (s' & I & R & D). exists s'. split; [exact I|]. split; [exact R|]. unfold marked_now. congruence.
Qed.
