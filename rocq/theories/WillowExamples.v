(** Concrete histories of willow, for the examples and refutations of [PropertiesWillow.v]. *)
From Coq Require Import String List Bool Arith NArith ZArith Lia.
Import ListNotations.
From Verif Require Import Datatypes SpecValues Query SpecQuery Assoc SpecAssoc OneToMany SpecOneToMany Limiter SpecLimiter LimiterSums PropLemmasLimiter Channel SpecChannel Willow SpecWillow WillowPerform.
From Verif Require LimiterExamples LimiterProofs.
Local Open Scope Z_scope.

(** ** Executing histories *)
Fixpoint wrun (w : willow) (l : list (wop * env)) : option willow :=
  match l with
  | [] => Some w
  | (o, e) :: l => match wstep w o e with Some (w', _) => wrun w' l | None => None end
  end.
Definition drew (l : list (wop * env)) (used : list string) : list string := fold_left (fun u x => drawn (fst x) (snd x) ++ u) l used.
Definition total_cost (l : list (wop * env)) : Z := fold_left (fun k x => k + cost (fst x)) l 0.
Definition freshb (used l : list string) : bool :=
  LimiterExamples.nodupb l && forallb (fun x => negb (existsb (String.eqb x) used) && negb (String.eqb x EmptyString)) l.
Definition wargb (o : wop) : bool :=
  match o with
  | WCreateQueue _ (Some m) | WUpdateQueue _ m => LimiterExamples.int64b m
  | WEnqueue _ kv _ _ | WAck _ kv _ _ | WBeat _ kv _ | WDeleteChannel _ kv | WExpire _ kv => LimiterExamples.kv_argb kv
  | WLimiter x => LimiterExamples.argb x
  | _ => true
  end.
Definition plainb (kv : KeyValues) : bool :=
  forallb (fun p => negb (existsb (String.eqb (fst p)) ["queue_name"; "enqueued"; "_willow_enqueued"]%string)) kv.
Definition tameb (rule : string) (o : wop) : bool :=
  match o with
  | WCreateQueue _ (Some m) => -1 <=? m
  | WCreateQueue _ None => false
  | WUpdateQueue _ m => -1 <=? m
  | WEnqueue _ kv _ _ => plainb kv
  | WLimiter (LUpsert kv _ _ _) | WLimiter (LSet kv _ _) => negb (existsb (String.eqb EnqueuedKey) (kv_keys kv))
  | WLimiter _ => false
  | _ => true
  end.
Definition keepsb (w : willow) (o : wop) : bool :=
  match o with
  | WUpdateQueue name m => match fst (GetQueue w name) with Some m0 => (m =? -1) || (negb (m0 =? -1) && (m0 <=? m)) | None => true end
  | _ => true
  end.
Lemma freshb_ok used l : freshb used l = true -> fresh used l.
Proof.
  unfold freshb. rewrite andb_true_iff, forallb_forall. intros [ND H]. split; [apply LimiterExamples.nodupb_ok; exact ND|]. intros x Hx. specialize (H x Hx). apply andb_true_iff in H as [H1 H2].
  apply negb_true_iff in H1, H2. split; [|intros ->; discriminate]. intros HI. assert (X : existsb (String.eqb x) used = true) by (apply existsb_exists; exists x; split; [exact HI|apply String.eqb_refl]). congruence.
Qed.
Lemma wargb_ok o : wargb o = true -> wop_arg o.
Proof. destruct o as [n [m|]| | | | | | | | | | | | ]; cbn; auto using LimiterExamples.int64b_ok, LimiterExamples.kv_argb_ok, LimiterExamples.argb_ok. Qed.
Lemma plainb_ok kv : plainb kv = true -> plain kv.
Proof.
  unfold plainb. rewrite forallb_forall. intros H k v HI. specialize (H _ HI). cbn [fst] in H. apply negb_true_iff in H. cbn in H.
  repeat split; intros ->; discriminate.
Qed.
Lemma tameb_ok rule o : tameb rule o = true -> tame rule o.
Proof.
  assert (U : forall kv, negb (existsb (String.eqb EnqueuedKey) (kv_keys kv)) = true -> ~ In EnqueuedKey (kv_keys kv)).
  { intros kv H HI. apply negb_true_iff in H. assert (X : existsb (String.eqb EnqueuedKey) (kv_keys kv) = true) by (apply existsb_exists; exists EnqueuedKey; split; [exact HI|apply String.eqb_refl]). congruence. }
  destruct o as [n [m|]|n m| | | n kv p i| | | | | | | |[]]; cbn [tameb tame]; rewrite ?Z.leb_le; try discriminate; eauto using plainb_ok.
Qed.
Lemma keepsb_ok w o : keepsb w o = true -> keeps_limits w o.
Proof.
  destruct o; cbn; auto. destruct (fst (GetQueue w name)) as [m0|]; [|discriminate]. intros H m1 [= <-]. apply orb_true_iff in H as [H | H]; [left; apply Z.eqb_eq; exact H|right].
  apply andb_true_iff in H as [H1 H2]. apply negb_true_iff, Z.eqb_neq in H1. apply Z.leb_le in H2. auto.
Qed.
Definition own_requestb (o : wop) : bool := match o with WLimiter _ => false | _ => true end.
Definition world (l : list (wop * env)) : option willow := match start empty_limiter "rule" with Some w => wrun w l | None => None end.
Definition ids (l : list (wop * env)) : list string := drew l ["rule"%string].
(** Every step of the history is as demanded *)
Fixpoint allb (P : willow -> list string -> wop -> env -> bool) (w : willow) (used : list string) (l : list (wop * env)) : bool :=
  match l with
  | [] => true
  | (o, e) :: l => P w used o e && match wstep w o e with Some (w', _) => allb P w' (drawn o e ++ used) l | None => false end
  end.
Definition histb (tamed : bool) (w : willow) (used : list string) (o : wop) (e : env) : bool :=
  wargb o && (if tamed then tameb (w_rule w) o else own_requestb o) && keepsb w o && freshb used (drawn o e).
Definition goodb (tamed : bool) (l : list (wop * env)) : bool := match start empty_limiter "rule" with Some w => allb (histb tamed) w ["rule"%string] l | None => false end.

Lemma run_up l : forall k w used w', allb (histb true) w used l = true -> wreach_up k w used -> wrun w l = Some w' -> wreach_up (fold_left (fun k x => k + cost (fst x)) l k) w' (drew l used).
Proof.
  induction l as [|[o e] l IH]; intros k w used w' H R E; cbn [wrun allb] in *; [injection E as <-; exact R|]. apply andb_true_iff in H as [H1 H2]. destruct (wstep w o e) as [[w1 a]|] eqn:ES; [|discriminate].
  unfold drew. cbn [fold_left fst snd]. apply (IH _ w1); auto. unfold histb in H1. rewrite !andb_true_iff in H1. destruct H1 as (((A & T) & KP) & F).
  eapply (WU_step _ w used o e w1 a); [exact R|apply keepsb_ok; exact KP|]. split; [apply wargb_ok; exact A|]. split; [apply tameb_ok; exact T|]. split; [apply freshb_ok; exact F|exact ES].
Qed.
Lemma up_reach k w used : wreach_up k w used -> wreach k w used.
Proof. induction 1; [eapply WR_start; eauto|eapply WR_step; eauto]. Qed.
Lemma run_hist l : forall w used w', allb (histb false) w used l = true -> whist w used -> wrun w l = Some w' -> whist w' (drew l used).
Proof.
  induction l as [|[o e] l IH]; intros w used w' H R E; cbn [wrun allb] in *; [injection E as <-; exact R|]. apply andb_true_iff in H as [H1 H2]. destruct (wstep w o e) as [[w1 a]|] eqn:ES; [|discriminate].
  unfold drew. cbn [fold_left fst snd]. apply (IH w1); auto. unfold histb in H1. rewrite !andb_true_iff in H1. destruct H1 as (((A & T) & KP) & F).
  eapply (WH_step w used o e w1 a); eauto using keepsb_ok, wargb_ok, freshb_ok. destruct o; try exact Logic.I; discriminate.
Qed.
Lemma world_up l w : goodb true l = true -> world l = Some w -> wreach_up (total_cost l) w (ids l).
Proof.
  unfold goodb, world, total_cost, ids. destruct (start empty_limiter "rule") as [w0|] eqn:S; [|discriminate]. intros H E. eapply run_up; eauto.
  apply (WU_start 0 empty_limiter []); [constructor|intros i []|cbn; lia|apply freshb_ok; reflexivity|exact S].
Qed.
Lemma world_hist l w : goodb false l = true -> world l = Some w -> whist w (ids l).
Proof.
  unfold goodb, world, ids. destruct (start empty_limiter "rule") as [w0|] eqn:S; [|discriminate]. intros H E. eapply run_hist; eauto. apply WH_start; [apply freshb_ok; reflexivity|exact S].
Qed.
(** The ids drawn in step n *)
Definition ev (n : nat) : env := mkEnv (String (Ascii.ascii_of_nat (48 + n)) "a") (String (Ascii.ascii_of_nat (48 + n)) "b") true.
Definition numbered (l : list wop) : list (wop * env) := combine l (map ev (seq 0 (length l))).
