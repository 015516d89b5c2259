(** Consequences of [CounterSyncProofs.v]: no increment is lost, and every call ends. *)
From Coq Require Import List Bool Arith ZArith Lia Permutation.
Import ListNotations.
From Verif Require Import AssocSync SpecAssocSync AssocSyncBase AssocSyncGlobal AssocSyncAnswers AssocSyncLive CounterSync SpecCounterSync CounterSyncProofs.
Local Open Scope Z_scope.

(** *** Sums *)
Definition adds_of (kv : kvs) (l : list entry) : list Z := flat_map (fun e => match e with (_, Add d, kv') => if same_kvs kv' kv then [d] else [] | _ => [] end) l.
Lemma plus64_small a b : - 9223372036854775808 <= a + b < 9223372036854775808 -> plus64 a b = a + b.
Proof. intros H. unfold plus64. rewrite Z.mod_small by lia. lia. Qed.
Lemma sum_app l m : sum (l ++ m) = sum l + sum m.
Proof. induction l as [|a l IH]; cbn; [reflexivity|]. unfold sum in *. lia. Qed.
Lemma sum_perm l m : Permutation l m -> sum l = sum m.
Proof. unfold sum. induction 1; cbn; lia. Qed.
Lemma total_snoc kv l i o kv' : total kv (l ++ [(i, o, kv')]) = if same_kvs kv' kv then effect o (total kv l) else total kv l.
Proof. unfold total. rewrite fold_left_app. reflexivity. Qed.
Lemma sum_nonneg l : (forall d, In d l -> 0 < d) -> 0 <= sum l.
Proof. unfold sum. induction l as [|a l IH]; intros H; cbn; [lia|]. specialize (IH (fun d X => H d (or_intror X))). specialize (H a (or_introl eq_refl)). lia. Qed.
Lemma total_adds kv l : (forall i o, In (i, o, kv) l -> exists d, o = Add d) -> (forall d, In d (adds_of kv l) -> 0 < d) -> sum (adds_of kv l) < 9223372036854775808 ->
  total kv l = match adds_of kv l with [] => None | _ => Some (sum (adds_of kv l)) end.
Proof.
  induction l as [|[[i o] kv'] l IH] using rev_ind; intros H P S; [reflexivity|]. rewrite total_snoc. unfold adds_of in *. rewrite flat_map_app in *. cbn [flat_map] in *. rewrite app_nil_r in *. rewrite sum_app in *.
  assert (IH' : sum (flat_map (fun e => match e with (_, Add d, kv') => if same_kvs kv' kv then [d] else [] | _ => [] end) l) < 9223372036854775808 -> total kv l = _) by (apply IH; [intros j q HI; apply (H j q); apply in_or_app; auto|intros d HI; apply P, in_or_app; auto]). clear IH.
  set (L := flat_map _ l) in *. assert (PL : 0 <= sum L) by (apply sum_nonneg; intros d HI; apply P, in_or_app; auto).
  destruct (same_kvs kv' kv) as [->|NE].
  - destruct (H i o) as (d & ->); [apply in_or_app; right; left; reflexivity|]. cbn [sum fold_right] in *. assert (D : 0 < d) by (apply P, in_or_app; right; left; reflexivity). rewrite IH' by lia.
    destruct L as [|a L'] eqn:EL; cbn [effect app]; [cbn; f_equal; lia|]. rewrite <- EL in *. rewrite plus64_small by lia. f_equal. lia.
  - assert (E0 : (match o with Add d => [] | _ => [] end : list Z) = []) by (destruct o; reflexivity). destruct o; cbn [sum fold_right] in *; rewrite app_nil_r in *; rewrite IH' by lia; destruct L; rewrite ?Z.add_0_r; reflexivity.
Qed.
Lemma perm_flat {A B} (f : A -> list B) l m : Permutation l m -> Permutation (flat_map f l) (flat_map f m).
Proof. induction 1; cbn; [constructor|apply Permutation_app_head; assumption| |eapply Permutation_trans; eauto]. rewrite !app_assoc. apply Permutation_app_tail, Permutation_app_comm. Qed.
Lemma entries s l : (forall i o kv, In (i, o, kv) l -> does i o kv s) -> l = flat_map (entry_of s) (map who l).
Proof.
  induction l as [|[[i o] kv] l IH]; intros H; [reflexivity|]. cbn [map flat_map who fst]. rewrite <- IH by (intros; apply H; right; assumption).
  destruct (H i o kv (or_introl eq_refl)) as ((p & N) & a & NC). unfold entry_of. rewrite NC, N. reflexivity.
Qed.
Theorem sums s tr kv : cexec (s :: tr) -> all_ended s -> (forall i o, does i o kv s -> exists d, o = Add d /\ 0 < d) -> sum (amounts kv s) < 9223372036854775808 -> amounts kv s <> [] ->
  counter kv (Some (sum (amounts kv s))) s.
Proof.
  intros E AE AD S NE. destruct (explained s tr E) as (l & X). destruct (shape _ _ E) as [LEN _].
  assert (P : Permutation l (flat_map (entry_of s) (seq 0 (length (c_calls s))))).
  { rewrite (entries s l (ex_calls _ _ _ X)) at 1. apply perm_flat, NoDup_Permutation; [apply X|apply seq_NoDup|]. intros i. rewrite in_seq. split.
    - intros HI. apply in_map_iff in HI as ([[j o] kv'] & <- & HI). cbn. destruct (ex_calls _ _ _ X _ _ _ HI) as (_ & a & NC). split; [lia|]. cbn. eapply nth_lt, NC.
    - intros [_ LT]. apply (ex_all _ _ _ X). destruct (AE i) as [U|D]; [|exact D]. unfold unmade in U. apply nth_error_None in U. lia. }
  assert (PA : Permutation (adds_of kv l) (amounts kv s)) by (unfold adds_of, amounts; apply perm_flat, P).
  pose proof (ex_counts _ _ _ X kv) as C. rewrite total_adds in C.
  - rewrite (sum_perm _ _ PA) in C. destruct (adds_of kv l); [|exact C]. apply Permutation_nil in PA. contradiction.
  - intros i o HI. destruct (AD i o (ex_calls _ _ _ X _ _ _ HI)) as (d & -> & _). eauto.
  - intros d HI. unfold adds_of in HI. apply in_flat_map in HI as ([[i o] kv'] & HI & HD). destruct o; try destruct HD. destruct (same_kvs kv' kv) as [->|]; [|destruct HD]. destruct HD as [->|[]]. destruct (AD _ _ (ex_calls _ _ _ X _ _ _ HI)) as (d' & [= ->] & H). exact H.
  - rewrite (sum_perm _ _ PA). exact S.
Qed.

(** *** Every call ends *)
Lemma moves_of s s' : cmoves s s' -> exists i, moves false i (c_tree s) (c_tree s').
Proof.
  intros [ST L]. destruct ST as [w ts v cs o kv A | w ts v cs i c kv p w' p' cc v' cc' N NC ST CB]; cbn [c_calls] in L; [rewrite app_length in L; cbn in L; lia|].
  exists i, c, kv, p, w', p'. auto.
Qed.
Lemma hit_del p p' x : hits p p' = Some (HDelete x) \/ hits p p' = Some (HKeep x) -> exists locked, p = DItem locked x.
Proof.
  intros H. unfold hits in H. destruct p; try (destruct H; discriminate); destruct p'; try (destruct H; discriminate); destruct r; try (destruct H; discriminate);
    (destruct H as [H|H]; try discriminate H; injection H as <-; eauto).
Qed.
Lemma can_move s tr i t' : cexec (s :: tr) -> moves false i (c_tree s) t' -> exists s', cmoves s s'.
Proof.
  intros E (c & kv & p & w' & p' & N & ST & _). destruct s as [[w ts] v cs]. cbn [c_tree st_world st_threads] in *. destruct (shape _ _ E) as [LEN SH]. cbn [c_calls c_tree st_threads] in *.
  assert (LT : (i < length cs)%nat) by (rewrite LEN; eapply nth_lt, N). apply nth_error_Some in LT. destruct (nth_error cs i) as [cc|] eqn:NC; [|congruence]. clear LT.
  pose proof (SH i cc _ NC N) as IC. cbn in IC.
  assert (K : exists w1 p1 v1 cc1, tstep false i c kv w p w1 p1 /\ called (hits p p1) cc v v1 cc1).
  { assert (ASK : forall x, snd (can_delete (cc_op cc) (v x)) = false -> c = CDelete true) by (intros x; destruct (cc_op cc); cbn in *; congruence).
    destruct (hits p p') as [[x|x|x|x]|] eqn:H.
    - eexists w', p', _, _. rewrite H. split; [exact ST|split; reflexivity].
    - eexists w', p', _, _. rewrite H. split; [exact ST|split; reflexivity].
    - destruct (snd (can_delete (cc_op cc) (v x))) eqn:CD; [eexists w', p', _, _; rewrite H; split; [exact ST|split; [exact CD|split; reflexivity]]|].
      destruct (hit_del _ _ _ (or_introl H)) as (locked & ->). pose proof (ASK x CD) as EC. clear IC. subst c. inversion ST; subst; try discriminate H.
      eexists _, _, _, _. split; [eapply D_refuse; eauto|]. split; [exact CD|split; reflexivity].
    - destruct (snd (can_delete (cc_op cc) (v x))) eqn:CD; [|eexists w', p', _, _; rewrite H; split; [exact ST|split; [exact CD|split; reflexivity]]].
      destruct (hit_del _ _ _ (or_intror H)) as (locked & ->). clear IC. inversion ST; subst; try (destruct c; discriminate H).
      eexists _, _, _, _. split; [eapply D_delete; eauto|]. replace (verdict c (RDeleted x)) with (RDeleted x) by (destruct c; try discriminate; reflexivity). split; [exact CD|split; reflexivity].
    - eexists w', p', _, _. rewrite H. split; [exact ST|split; reflexivity]. }
  destruct K as (w1 & p1 & v1 & cc1 & ST' & CB). eexists. split; [eapply CS_step; eauto|]. cbn. apply length_set_nth.
Qed.
Theorem calls_end s tr : cexec (s :: tr) -> cinevitably all_ended s.
Proof.
  remember (ranks (c_tree s)) as l eqn:EL. revert s tr EL. induction (lower_wf l) as [l _ IH]. intros s tr -> E. pose proof (tree_exec _ E) as ET. cbn [map] in ET.
  destruct (running_dec (c_tree s)) as [R | R].
  - apply cinevitably_later.
    + destruct (no_deadlock _ _ _ ET R) as (i & t' & M). eapply can_move; eauto.
    + intros s' M. destruct (moves_of _ _ M) as (i & MM). eapply (IH (ranks (c_tree s'))); [eapply moves_lower; eauto|reflexivity|]. econstructor; [exact E|apply M].
  - apply cinevitably_now. intros i. unfold unmade, ended, answered. destruct (nth_error (st_threads (c_tree s)) i) as [[c kv p]|] eqn:N; [|left; reflexivity]. right. exists c, kv.
    assert (D : exists r, p = PDone r) by (destruct p; try (exfalso; apply (R i); eexists; split; [exact N|]; discriminate); eauto). destruct D as (r & ->). eauto.
Qed.
