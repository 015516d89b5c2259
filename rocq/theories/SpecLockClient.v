(** What C60-C63 talk about, read off a history of lock clients and the locker service (newest event first). *)
From Coq Require Import List Bool Arith String.
From Verif Require Import Locker LockClient.
Import ListNotations.
Local Open Scope list_scope.

Section Spec.
Context {key : Type}.
Notation history := (list (nat * w_event key)).

(** what happened at the service *)
Fixpoint server_history (h : history) : list (nat * lk_event key) :=
  match h with
  | [] => []
  | (t, EServer _ e) :: r => (t, e) :: server_history r
  | _ :: r => server_history r
  end.
(** [e] has happened *)
Definition happened (e : w_event key) (h : history) : Prop := exists t, In (t, e) h.
(** [e] happened only after [e0] *)
Definition after (e0 e : w_event key) (h : history) : Prop :=
  forall newer t older, h = newer ++ (t, e) :: older -> happened e0 older.
(** [e] did not happen after [e0] *)
Definition never_after (e0 e : w_event key) (h : history) : Prop :=
  forall newer t older, h = newer ++ (t, e0) :: older -> ~ happened e newer.

(** when heartbeat [n] of lock [o] was sent *)
Fixpoint sent_at (h : history) (o n : nat) : option nat :=
  match h with
  | [] => None
  | (t, ESent _ o' n') :: r => if Nat.eqb o' o && Nat.eqb n' n then Some t else sent_at r o n
  | _ :: r => sent_at r o n
  end.
(** Until when lock [o] with session [s] and timeout [d] is certainly held: its timeout counted from the grant, and then
    from the sending of each heartbeat whose confirmation came before that time was over. *)
Fixpoint valid_until (h : history) (o : nat) (s : string) (d : nat) : option nat :=
  match h with
  | [] => None
  | (t, EServer _ (LGrant _ _ _ _ s' _)) :: r => if String.eqb s' s then Some (t + d) else valid_until r o s d
  | (t, EConfirmed _ o' n) :: r =>
      match valid_until r o s d with
      | Some u => if Nat.eqb o' o && Nat.ltb t u then match sent_at r o n with Some t1 => Some (t1 + d) | None => Some u end
                  else Some u
      | None => None
      end
  | _ :: r => valid_until r o s d
  end.
(** the goroutine of lock [o] started, or had a heartbeat confirmed *)
Definition refreshes (o : nat) (e : w_event key) : bool :=
  match e with EStarted _ o' => Nat.eqb o' o | EConfirmed _ o' _ => Nat.eqb o' o | _ => false end.
(** the last time that happened *)
Fixpoint last_word (h : history) (o : nat) : option nat :=
  match h with
  | [] => None
  | (t, e) :: r => if refreshes o e then Some t else last_word r o
  end.
(** lock [o] was without a confirmation for [d] after one of these times *)
Definition unconfirmed (h : history) (o d now : nat) : Prop :=
  exists newer t e older, h = newer ++ (t, e) :: older /\ refreshes o e = true /\ t + d <= now /\
    forall t' e', In (t', e') newer -> refreshes o e' = true -> t + d <= t'.
(** ObtainLock call [i] has returned; Release call [r] has returned *)
Definition obtained (i : nat) (h : history) : Prop := (exists o, happened (EObtained _ i o) h) \/ happened (ENoLock _ i) h.
Definition returned (r : nat) (h : history) : Prop := happened (EReturn _ r true) h \/ happened (EReturn _ r false) h.
End Spec.

(** What can happen from a state on *)
Inductive w_run {key} key_dec shares (w0 : world key) : list (nat * w_event key) -> world key -> Prop :=
| WR_here : w_run key_dec shares w0 [] w0
| WR_step h w e w' : w_run key_dec shares w0 h w -> w_step key key_dec shares w e w' ->
    w_run key_dec shares w0 (DestroySync.push (match e with Some e => Some (lm_now key (w_srv key w), e) | None => None end) h) w'.
