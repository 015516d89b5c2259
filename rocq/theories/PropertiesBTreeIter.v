(** Lookups of many keys beside other calls of the same B-tree: C76 and C77 of properties.jsonl.  The statements use
    [SpecBTreeIter.v] and [SpecBTreeSync.v]; the model is [BTreeIter.v]. *)
From Coq Require Import Permutation.
From Verif Require Import Datatypes SpecValues BTree SpecBTree BTreeFind SpecFind BTreeSync SpecBTreeSync PropLemmasTree3
  BTreeIter SpecBTreeIter BTreeIterStep BTreeIterEnd BTreeIterLeak BTreeIterExamples.
Local Open Scope nat_scope.

(** C76: however lookups of every kind (Find, FindNotEqual, FindLessThan, ... on any key and type restrictions) overlap with
    each other and with Create, CreateOrFind, Delete and Find, there is an order of all of them, compatible with who returned
    before whom was called, in which each lookup visits exactly the entries it should of one map; when the other calls have
    returned, the tree is well shaped and contains exactly what this order leaves. *)
Theorem C76_lookups_linearizable : forall V n (ops : nat -> cop V) lks, 2 <= n -> good_calls ops -> good_lookups lks ->
  forall tr s, xexec n ops lks tr s ->
  exists order final, xexplains ops lks tr order final /\
    (calls_back tr -> well_shaped n (tree_of (xs s)) /\ Permutation (contents (tree_of (xs s))) final).
Proof. exact @lookups_linearizable. Qed.
Print Assumptions C76_lookups_linearizable.

(** A lookup that began before a creation visits a key behind it and returns after it without the new key; a lookup that
    began after the creation sees it. *)
Theorem C76_nonvacuous : good_calls iops /\ good_lookups ilks /\
  exists s, xexec 2 iops ilks irun s /\ contents (tree_of (xs s)) = [(Int 1, 10); (Int 2, 20); (Int 4, 40); (Int 6, 60)] /\ calls_back irun.
Proof. exact (conj iops_good (conj ilks_good lookup_overtaken)). Qed.

(** C77, what holds: as long as every lookup that was made has something to look at ([has_way]), somebody can always go on,
    and however they are scheduled all calls and all lookups that were made return. *)
Theorem C77_lookups_end_partial : forall V n (ops : nat -> cop V) lks, 2 <= n -> good_calls ops -> good_lookups lks ->
  forall tr s, (forall j, In (ELCall j) tr -> has_way (lks j)) -> xexec n ops lks tr s -> xinevitably n ops lks xall_back s.
Proof. exact @all_end_x. Qed.
Print Assumptions C77_lookups_end_partial.

(** A call that waits for a lookup's lock, a lookup that waits behind this call *)
Theorem C77_nonvacuous : good_calls iops /\ good_lookups ilks /\ (forall j, In (ELCall j) iwait -> has_way (ilks j)) /\
  exists s, xexec 2 iops ilks iwait s /\ ph (xs s) 6 = PWWait /\ xi s 1 = IWant /\ (exists d rest x acc, xi s 0 = IDown d rest [x] acc).
Proof.
  split; [exact iops_good|]. split; [exact ilks_good|]. split; [|exact calls_wait].
  intros j H. repeat (destruct H as [H|H]; [try discriminate H; injection H as <-; cbn; auto; left; discriminate|]). destruct H.
Qed.

(** C77: a lookup with nothing to look at, in a tree that is not empty, lets no Create and no Delete that is called later
    return. *)
Theorem C77_leak_blocks : forall V n (ops : nat -> cop V) lks, 2 <= n -> good_calls ops -> good_lookups lks ->
  forall tr s j acc, ~ has_way (lks j) -> xexec n ops lks tr s -> xi s j = IHold (descents (lks j)) acc -> root (xs s) <> None ->
  forall tr2 s2, xrun n ops lks s tr2 s2 ->
  forall c, Nat.odd c = false -> writer ops c -> ~ In (EB (ECall c)) tr -> forall a, ~ In (EB (EReturn c a)) tr2.
Proof. exact @leak_blocks. Qed.
Print Assumptions C77_leak_blocks.

(** C77 fails for such lookups: the calls that were made do not come to an end. *)
Theorem C77_lookups_end_refuted : good_calls iops /\ good_lookups ilks /\
  exists tr s, xexec 2 iops ilks tr s /\ In (ELRet 2 []) tr /\ ~ xinevitably 2 iops ilks xall_back s.
Proof.
  split; [exact iops_good|]. split; [exact ilks_good|]. destruct lookup_leaks as (s & s2 & E & H & R & Rn). eexists. exists s2.
  split; [exact (run_exec _ _ _ _ _ _ Rn _ E)|]. split; [cbn; auto 10|].
  refine (leak_no_end 2 iops ilks (le_n 2) iops_good ilks_good _ s 2 [] _ s2 6 _ E H R Rn eq_refl Logic.I _ _).
  - intros X. vm_compute in X. exact (X eq_refl).
  - cbn. intuition discriminate.
  - cbn. auto.
Qed.
Print Assumptions C77_lookups_end_refuted.
