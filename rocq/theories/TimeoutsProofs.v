(** Proofs for C64 *)
From Coq Require Import ZArith Bool Lia.
From Verif Require Import Timeouts.
Local Open Scope Z_scope.

Lemma quot_int64 d : int64 d -> int64 (d - Z.quot d 10) /\ int64 (beat_every d).
Proof.
  unfold int64, beat_every. intros H.
  assert (Q : forall a b, 0 < b -> - Z.abs a <= Z.quot a b <= Z.abs a).
  { intros a b B. destruct (Z_le_gt_dec 0 a) as [P|P].
    - pose proof (Z.quot_pos a b P B). assert (Z.quot a b <= a) by (apply Z.quot_le_upper_bound; nia). lia.
    - replace a with (- (- a)) by lia. rewrite Z.quot_opp_l by lia. pose proof (Z.quot_pos (- a) b ltac:(lia) B).
      assert (Z.quot (- a) b <= - a) by (apply Z.quot_le_upper_bound; nia). lia. }
  assert (S : 0 <= d -> 0 <= d - Z.quot d 10 <= d).
  { intros P. pose proof (Z.quot_pos d 10 P ltac:(lia)). assert (Z.quot d 10 <= d) by (apply Z.quot_le_upper_bound; nia). lia. }
  assert (N : d < 0 -> d <= d - Z.quot d 10 <= 0).
  { intros P. replace (Z.quot d 10) with (- Z.quot (- d) 10) by (rewrite Z.quot_opp_l by lia; lia).
    pose proof (Z.quot_pos (- d) 10 ltac:(lia) ltac:(lia)). assert (Z.quot (- d) 10 <= - d) by (apply Z.quot_le_upper_bound; nia). lia. }
  assert (A : - 2 ^ 63 <= d - Z.quot d 10 < 2 ^ 63) by (destruct (Z_lt_ge_dec d 0); [specialize (N l)|specialize (S ltac:(lia))]; lia).
  split; [exact A|]. remember (d - Z.quot d 10) as x.
  destruct (Z_lt_ge_dec x 0) as [P|P].
  - replace (Z.quot x 3) with (- Z.quot (- x) 3) by (rewrite Z.quot_opp_l by lia; lia).
    pose proof (Z.quot_pos (- x) 3 ltac:(lia) ltac:(lia)). assert (Z.quot (- x) 3 <= - x) by (apply Z.quot_le_upper_bound; nia). lia.
  - pose proof (Z.quot_pos x 3 ltac:(lia) ltac:(lia)). assert (Z.quot x 3 <= x) by (apply Z.quot_le_upper_bound; nia). lia.
Qed.

Lemma beat_pos d : 0 < beat_every d <-> 3 <= d.
Proof.
  unfold beat_every. split; intros H.
  - destruct (Z_le_gt_dec 3 d) as [|G]; [assumption|exfalso].
    destruct (Z_le_gt_dec 0 d) as [P|P].
    + assert (d = 0 \/ d = 1 \/ d = 2) as [-> | [-> | ->]] by lia; cbn in H; lia.
    + assert (d - Z.quot d 10 <= 0).
      { replace (Z.quot d 10) with (- Z.quot (- d) 10) by (rewrite Z.quot_opp_l by lia; lia).
        assert (Z.quot (- d) 10 <= - d) by (apply Z.quot_le_upper_bound; nia). lia. }
      remember (d - Z.quot d 10) as x. replace (Z.quot x 3) with (- Z.quot (- x) 3) in H by (rewrite Z.quot_opp_l by lia; lia).
      pose proof (Z.quot_pos (- x) 3 ltac:(lia) ltac:(lia)). lia.
  - rewrite (Z.quot_div_nonneg d 10) by lia. assert (d / 10 <= d - 3) by (apply Z.lt_succ_r, Z.div_lt_upper_bound; lia).
    rewrite Z.quot_div_nonneg by lia. apply Z.lt_le_trans with 1; [lia|]. apply Z.div_le_lower_bound; lia.
Qed.
Lemma three_beats d : 3 <= d -> 3 * beat_every d <= d - d / 10 /\ d - d / 10 <= d.
Proof.
  intros H. unfold beat_every. rewrite (Z.quot_div_nonneg d 10) by lia. assert (0 <= d / 10 <= d) by (split; [apply Z.div_pos; lia|apply Z.div_le_upper_bound; lia]).
  rewrite Z.quot_div_nonneg by lia. pose proof (Z.mul_div_le (d - d / 10) 3 ltac:(lia)). lia.
Qed.

Lemma locker_survives default t : default_accepted default = true -> lock_accepted t = true -> (locker_ends default t = false <-> forall d, t = Some d -> 0 < d).
Proof.
  unfold default_accepted, locker_ends, ticker_panics. intros D A. rewrite A. cbn [andb]. rewrite Z.leb_gt. destruct t as [d|]; cbn.
  - split; [intros H ? [= <-]; exact H|auto].
  - apply negb_true_iff in D. rewrite Z.leb_gt in D. split; [discriminate|auto].
Qed.
Lemma lock_client_survives default t : lock_accepted t = true -> (lock_client_ends default t = false <-> 3 <= lock_timeout default t).
Proof.
  unfold lock_client_ends, ticker_panics. intros A. rewrite A. cbn [andb]. rewrite orb_false_iff, !Z.leb_gt, beat_pos. lia.
Qed.
Lemma willow_survives d : (willow_ends (Some d) = false <-> 0 < d) /\ (item_client_ends (Some d) = false <-> 3 <= d).
Proof. unfold willow_ends, item_client_ends, ticker_panics. cbn [item_accepted andb]. rewrite !Z.leb_gt, beat_pos. tauto. Qed.
