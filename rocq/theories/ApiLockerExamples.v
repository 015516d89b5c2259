(** A router, histories and odd calls for PropertiesApiLocker.v. *)
From Coq Require Import String Ascii List Bool Arith NArith ZArith SpecFloat Lia.
Import ListNotations.
From Verif Require Import Datatypes SpecValues Query SpecQuery Assoc SpecAssoc PropLemmasAssoc DestroySync Locker SpecLocker LockerProofs LockerTrace Json Models SpecModels ModelsProofs ModelsExamples
  Http ApiLimiter SpecApiLimiter ApiLimiterProofs ApiLimiterExamples SpecApiSent ApiSent ApiLocker SpecApiLocker ApiLockerProofs LockerLive LockerTree LockerTreeProofs.
Local Open Scope Z_scope.
Local Open Scope string_scope.

(** ** A router that takes a path apart *)
Definition split_krouter (m : method) (path : string) : option kroute :=
  let l := split path in
  if same_list (firstn 3 l) ["";"v1";"locks"] then
    match m, skipn 3 l with
    | POST, [] => Some RkObtain
    | GET, [] => Some RkLocks
    | DELETE, [x] => Some (RkRelease x)
    | POST, [x; y] => if String.eqb y "heartbeat" then Some (RkHeartbeat x) else None
    | _, _ => None
    end
  else None.
Lemma split_locker : locker_router split_krouter.
Proof.
  split; [reflexivity|]. split; [reflexivity|]. intros lock (_ & _ & _ & N). unfold split_krouter.
  assert (S0 : forall t, split ("/v1/locks/" ++ t) = (["";"v1";"locks"] ++ split t)%list) by reflexivity.
  assert (E0 : split ("/v1/locks/" ++ lock) = ["";"v1";"locks"; lock]) by (rewrite S0, (split_end lock N); reflexivity).
  assert (E1 : split ("/v1/locks/" ++ lock ++ "/heartbeat") = ["";"v1";"locks"; lock; "heartbeat"]).
  { rewrite S0. change "/heartbeat" with (String "/" ("heartbeat" ++ "")) at 1. assert (X : split (lock ++ "/" ++ "heartbeat") = lock :: split "heartbeat") by exact (split_app lock "heartbeat" N). cbn [append] in *. rewrite X. reflexivity. }
  rewrite E0, E1. split; reflexivity.
Qed.

(** ** A call and its answers *)
Lemma proper_lock1 : proper_locker_call ff0 pf0 (CallObtain lock1).
Proof. split; [exact Logic.I|exact lock1_plain]. Qed.
Lemma sound_lock1 : sound_locker_call (CallObtain lock1).
Proof. exists kv1, (Some (Some 3000000000)). split; [reflexivity|]. split; [|discriminate]. apply typed_definite. vm_compute. reflexivity. Qed.
Definition granted1 : kept := mkKept kv1 3000000000 "l0" "s" 3000000000 1.
Definition manager1 (t : ktask) : kans :=
  match t with TObtain kv d => NGranted (mkKept kv d "l0" "s" d 1) | TRelease _ _ => NMissing | THeartbeat _ _ => NConflict | TLocks _ => NListed [] end.
Lemma manager1_answers : forall t, answers t (manager1 t).
Proof.
  intros [kv d|l s|l s|q]; cbn [manager1 answers]; auto. right. eexists. split; [reflexivity|]. cbn [kp_kv kp_timeout kp_expire kp_clients kp_lock kp_session].
  repeat match goal with |- _ /\ _ => split end; try reflexivity; try discriminate; plain_text.
Qed.
Lemma lock1_obtained : exists l, locker_exchange ff0 pf0 5 split_krouter (CallObtain lock1) manager1 Works = (Some (TObtain kv1 3000000000), KEnd (Returned (KLock l))) /\
  al_spec l = al_spec lock1 /\ al_state l = Some (mkLockState "l0" "s" 3000000000 1).
Proof. eexists. split; [vm_compute; reflexivity|]. split; reflexivity. Qed.
(** a lock without a timeout: the service's *)
Definition plain1 : ApiLock := mkApiLock (Some (mkLockSpec (Some kv1) None)) None.
Lemma plain1_obtained : exists l, locker_exchange ff0 pf0 5 split_krouter (CallObtain plain1) manager1 Works = (Some (TObtain kv1 5), KEnd (Returned (KLock l))) /\
  al_spec l = Some (mkLockSpec (Some kv1) (Some (Some 5))).
Proof. eexists. split; [vm_compute; reflexivity|]. reflexivity. Qed.
Lemma l0_addressable : addressable "l0".
Proof. split; [repeat split; try discriminate; cbn; intuition discriminate|]. cbn. intros c [<-|[<-|[]]]; repeat split; discriminate. Qed.
Lemma proper_release : proper_locker_call ff0 pf0 (CallRelease "l0" "s").
Proof. split; [exact l0_addressable|plain_text]. Qed.

(** ** Odd calls *)
Lemma nothing_obtained : forall ff pf default router manager n kv p, kv_validate kv MinDataType MaxDataType = false ->
  locker_exchange ff pf default router (CallObtain (mkApiLock (Some (mkLockSpec (Some kv) p)) None)) manager n = (None, KEnd (Returned KNoLock)).
Proof. intros ff pf default router manager n kv p E. unfold locker_exchange, kask. cbn [al_spec]. rewrite E. reflexivity. Qed.
Lemma bare_lock_panics : forall ff pf default router manager n, locker_exchange ff pf default router (CallObtain (mkApiLock None None)) manager n = (None, KPanics).
Proof. reflexivity. Qed.
(** A release of a lock that another session holds, or that does not exist, returns without an error *)
Lemma released_anyway : forall ff pf default router manager lock s, locker_router router -> proper_locker_call ff pf (CallRelease lock s) -> s <> "" ->
  default <> 0 -> SpecModels.int64 default ->
  manager (TRelease lock s) = NMissing \/ manager (TRelease lock s) = NConflict ->
  locker_exchange ff pf default router (CallRelease lock s) manager Works = (Some (TRelease lock s), KEnd (Returned KNothing)).
Proof.
  intros ff pf default router manager lock s HR P NE D0 D1 M. destruct (c79_locker_sent ff (CallRelease lock s) NE (proj1 P)) as (r & S).
  rewrite (c79_locker ff pf default router HR (CallRelease lock s) manager (TRelease lock s) r D0 D1 P S eq_refl); [reflexivity|]. cbn [answers]. destruct M as [M|M]; rewrite M; auto.
Qed.
(** The heartbeat of a lock that does not exist: the service's message is lost *)
Lemma unheard : forall ff pf default router manager lock s, locker_router router -> proper_locker_call ff pf (CallHeartbeat lock s) -> s <> "" ->
  default <> 0 -> SpecModels.int64 default -> manager (THeartbeat lock s) = NMissing ->
  krespond ff (THeartbeat lock s) (manager (THeartbeat lock s)) = refuse 404 /\
  locker_exchange ff pf default router (CallHeartbeat lock s) manager Works = (Some (THeartbeat lock s), KEnd OtherError).
Proof.
  intros ff pf default router manager lock s HR P NE D0 D1 M. split; [rewrite M; reflexivity|]. destruct (c79_locker_sent ff (CallHeartbeat lock s) NE (proj1 P)) as (r & S).
  rewrite (c79_locker ff pf default router HR (CallHeartbeat lock s) manager (THeartbeat lock s) r D0 D1 P S eq_refl); [rewrite M; reflexivity|]. cbn [answers]. rewrite M; auto.
Qed.

(** ** Histories over key-values *)
Lemma kv_dec : forall a b : KeyValues, {a = b} + {a <> b}.
Proof. repeat decide equality. Defined.
Definition red : KeyValues := [("color", Str umlaut)].
Notation kexec := (lk_exec KeyValues kv_dec []).
Lemma kfun_run tr st e st' : kexec tr st -> lk_step KeyValues kv_dec st e st' ->
  kexec (push (match e with Some e => Some (lm_now _ st, e) | None => None end) tr) st'.
Proof. intros H HS. exact (KR_step _ _ _ _ _ _ _ H HS). Qed.
Lemma kstart_exec : kexec [] (lm_init KeyValues []). Proof. constructor. Qed.
Ltac side := first [reflexivity | discriminate | exact Logic.I | cbn; lia | cbn; intuition discriminate].
Tactic Notation "go" uconstr(c) := match goal with H : kexec ?tr ?st |- _ => let X := fresh in
  eassert (X : lk_step KeyValues kv_dec st _ _) by (eapply c; side); apply (kfun_run _ _ _ _ H) in X; clear H; rename X into H; cbn [push] in H end.
Definition name1 (j : nat) : string := match j with O => "l0" | _ => "l1" end.
Definition since1 (j : nat) : Z := 3.
Definition ev1 : list (nat * lk_event KeyValues) := [(0%nat, LJoin _ 1%nat kv1); (0%nat, LGrant _ 0%nat kv1 0%nat "s" 5%nat); (0%nat, LJoin _ 0%nat kv1)].
Definition ev2 := (0%nat, LJoin KeyValues 2%nat red) :: ev1.
(** client 0 holds kv1 and client 1 waits for it *)
Lemma held_history : exists st, kexec ev1 st /\ forall kv, lm_cur _ st kv = if kv_dec kv kv1 then Some 0%nat else None.
Proof.
  pose proof kstart_exec as H.
  go (K_join_new _ kv_dec _ 0%nat kv1 5%nat).
  go (K_claim _ kv_dec _ 0%nat 0%nat 5%nat).
  go (K_grant _ kv_dec _ 0%nat 0%nat 5%nat "s").
  go (K_join _ kv_dec _ 1%nat kv1 0%nat 9%nat).
  eexists. split; [exact H|]. intros kv. reflexivity.
Qed.
(** ... and the lock of client 2 has just been made *)
Lemma made_history : exists st, kexec ev2 st /\ forall kv, lm_cur _ st kv = if kv_dec kv red then Some 1%nat else if kv_dec kv kv1 then Some 0%nat else None.
Proof.
  pose proof kstart_exec as H.
  go (K_join_new _ kv_dec _ 0%nat kv1 5%nat).
  go (K_claim _ kv_dec _ 0%nat 0%nat 5%nat).
  go (K_grant _ kv_dec _ 0%nat 0%nat 5%nat "s").
  go (K_join _ kv_dec _ 1%nat kv1 0%nat 9%nat).
  go (K_join_new _ kv_dec _ 2%nat red 5%nat).
  eexists. split; [exact H|]. intros kv. reflexivity.
Qed.
Definition tree1 : atree nat := fst (arun (mkTree [] []) (ACreateOrFind kv1 "l0" (Some 0%nat))).
Definition tree2 : atree nat := fst (arun tree1 (ACreateOrFind red "l1" (Some 1%nat))).
Lemma arg2 : kv_arg red. Proof. split; [repeat constructor; cbn; intuition congruence|]. intros k v [E|[]]; inversion E; subst; intros [X|X]; discriminate X. Qed.
Lemma tree1_reached : areach tree1 ["l0"].
Proof. apply (AR_step (mkTree [] []) [] (ACreateOrFind kv1 "l0" (Some 0%nat))); [constructor|exact kv_arg1|]. intros id [= <-]. split; [intros []|discriminate]. Qed.
Lemma tree2_reached : areach tree2 ["l1"; "l0"].
Proof. apply (AR_step tree1 ["l0"] (ACreateOrFind red "l1" (Some 1%nat))); [exact tree1_reached|exact arg2|]. intros id [= <-]. split; [intros [C|[]]; discriminate C|discriminate]. Qed.
Lemma tree1_items : a_items tree1 = [mkItem "l0" kv1 0%nat]. Proof. vm_compute. reflexivity. Qed.
Lemma tree2_items : a_items tree2 = [mkItem "l0" kv1 0%nat; mkItem "l1" red 1%nat]. Proof. vm_compute. reflexivity. Qed.
Definition all_locks : request := mkReq GET "/v1/locks" (Some (JObj [])).
Lemma all_asked : receive q_validate (dec_query pf0) (rq_body all_locks) = Some (Q None None None).
Proof. vm_compute. reflexivity. Qed.
Lemma plain_known : forall st k, (forall kv j, lm_cur _ st kv = Some j -> (kv = kv1 \/ kv = red) /\ 0 <= waiting_for kv_dec k kv + holding kv_dec k kv <= 2) ->
  (forall t i kv j s d, In (t, LGrant _ i kv j s d) k -> s = "s" /\ d = 5%nat) -> plain_locks ff0 pf0 kv_dec st name1 since1 k.
Proof.
  intros st k C G. split; [|split].
  - intros kv j E. destruct (C kv j E) as (K & U). split; [|split; [|split; [|split]]].
    + apply typed_definite. destruct K as [-> | ->]; vm_compute; reflexivity.
    + destruct K as [-> | ->]; [exact kv1_plain|]. destruct kv1_plain as (_ & P). split; [repeat constructor; intros []|]. unfold kv1, red in *. inversion P; subst. constructor; [assumption|constructor].
    + destruct j; plain_text.
    + destruct j; discriminate.
    + unfold uint64. lia.
  - intros j. unfold since1, SpecModels.int64. lia.
  - intros t i kv j s d H. destruct (G _ _ _ _ _ _ H) as (-> & ->). split; [plain_text|lia].
Qed.
Lemma cur_split : forall a b (kv : KeyValues) j, (if kv_dec kv red then b else if kv_dec kv kv1 then a else @None nat) = Some j -> (kv = kv1 /\ a = Some j) \/ (kv = red /\ b = Some j).
Proof. intros a b kv j. destruct (kv_dec kv red); [auto|]. destruct (kv_dec kv kv1); [auto|discriminate]. Qed.
Lemma held_listed : exists st, kexec ev1 st /\ lock_tree st tree1 name1 /\ plain_locks ff0 pf0 kv_dec st name1 since1 ev1 /\
  (forall kv j, lm_cur _ st kv = Some j -> query_holds (Q None None None) (name1 j) kv -> holder kv_dec ev1 kv <> None) /\
  lm_cur _ st kv1 = Some 0%nat.
Proof.
  destruct held_history as (st & H & C). assert (K : forall kv j, lm_cur _ st kv = Some j -> kv = kv1 /\ j = 0%nat).
  { intros kv j. rewrite C. destruct (kv_dec kv kv1); [intros [= <-]; auto|discriminate]. }
  exists st. split; [exact H|]. split; [|split; [|split]].
  - split; [exists ["l0"]; exact tree1_reached|]. rewrite tree1_items. intros [id kv j]. cbn [it_id it_kv it_val]. split.
    + intros [[= <- <- <-]|[]]. rewrite C. destruct (kv_dec kv1 kv1); [auto|contradiction].
    + intros (E & ->). apply K in E as (-> & ->). left. reflexivity.
  - apply plain_known.
    + intros kv j E. apply K in E as (-> & ->). split; [auto|]. vm_compute. split; discriminate.
    + intros t i kv j s d [[=]|[[=]|[[=]|[]]]]; auto.
  - intros kv j E _. apply K in E as (-> & ->). vm_compute. discriminate.
  - rewrite C. destruct (kv_dec kv1 kv1); [reflexivity|contradiction].
Qed.
Lemma made_listed : exists st, kexec ev2 st /\ lock_tree st tree2 name1 /\ plain_locks ff0 pf0 kv_dec st name1 since1 ev2 /\
  holder kv_dec ev2 kv1 = Some (0%nat, "s") /\ lm_cur _ st kv1 = Some 0%nat /\ lm_cur _ st red = Some 1%nat /\ holder kv_dec ev2 red = None.
Proof.
  destruct made_history as (st & H & C). assert (K : forall kv j, lm_cur _ st kv = Some j -> (kv = kv1 /\ j = 0%nat) \/ (kv = red /\ j = 1%nat)).
  { intros kv j. rewrite C. intros E. apply cur_split in E as [(-> & [= <-])|(-> & [= <-])]; auto. }
  assert (C1 : lm_cur _ st kv1 = Some 0%nat) by (rewrite C; vm_compute; reflexivity). assert (C2 : lm_cur _ st red = Some 1%nat) by (rewrite C; vm_compute; reflexivity).
  exists st. split; [exact H|]. split; [|split; [|split; [vm_compute; reflexivity|split; [exact C1|split; [exact C2|vm_compute; reflexivity]]]]].
  - split; [exists ["l1"; "l0"]; exact tree2_reached|]. rewrite tree2_items. intros [id kv j]. cbn [it_id it_kv it_val]. split.
    + intros [[= <- <- <-]|[[= <- <- <-]|[]]]; auto.
    + intros (E & ->). apply K in E as [(-> & ->)|(-> & ->)]; [left|right; left]; reflexivity.
  - apply plain_known.
    + intros kv j E. apply K in E as [(-> & ->)|(-> & ->)]; split; auto; vm_compute; split; discriminate.
    + intros t i kv j s d [[=]|[[=]|[[=]|[[=]|[]]]]]; auto.
Qed.
(** One lock that has just been made makes the list fail *)
Lemma list_fails : forall default router since, locker_router router -> (forall j, SpecModels.int64 (since j)) ->
  exists st, kexec ev2 st /\ lock_tree st tree2 name1 /\ plain_locks ff0 pf0 kv_dec st name1 since ev2 /\ lm_cur _ st kv1 = Some 0%nat /\ holder kv_dec ev2 kv1 = Some (0%nat, "s") /\
    forall manager, manager (TLocks (Q None None None)) = LocksQuery st tree2 name1 since (Q None None None) ->
    kserve ff0 pf0 default router all_locks manager = (Some (TLocks (Q None None None)), refuse 500).
Proof.
  intros default router since HR SI. destruct made_listed as (st & H & T & (P1 & _ & P3) & HD & C1 & C2 & NH). exists st.
  assert (PL : plain_locks ff0 pf0 kv_dec st name1 since ev2) by (split; [exact P1|split; [exact SI|exact P3]]).
  split; [exact H|]. split; [exact T|]. split; [exact PL|]. split; [exact C1|]. split; [exact HD|]. intros manager HM.
  eapply (c83_refused ff0 pf0 default router kv_dec); [exact H|exact T|exact PL|exact (proj1 (proj2 HR))|exact all_asked| |left; reflexivity|exact HM|exact C2| |exact NH].
  - cbn. repeat split; discriminate.
  - left. repeat split. right. right. reflexivity.
Qed.
(** the history of [held_listed] has its tree *)
Definition name2 (j : nat) : string := a_string (S j).
Lemma name2_inj : forall i j, name2 i = name2 j -> i = j.
Proof. intros i j E. apply (f_equal String.length) in E. unfold name2 in E. rewrite !a_length in E. congruence. Qed.
Lemma held_tree : exists st tree, tree_exec kv_dec name2 [] ev1 st tree /\ lm_cur _ st kv1 = Some 0%nat.
Proof.
  destruct held_history as (st & H & C). assert (J : forall k, joined ev1 k -> k = kv1) by (intros k (t & i & [[=]|[[=]|[[=]|[]]]]); congruence).
  destruct (c83_has_tree kv_dec name2 [] ev1 st H) as (tree & T).
  - intros k Hk. rewrite (J k Hk). split; [exact kv_arg1|]. apply kv_valid_iff. vm_compute. reflexivity.
  - intros k k' Hk Hk' _. rewrite (J k Hk), (J k' Hk'). reflexivity.
  - exists st, tree. split; [exact T|]. rewrite C. destruct (kv_dec kv1 kv1); [reflexivity|congruence].
Qed.
