(** Specification vocabulary for the one-to-many tree. *)
From Verif Require Import Datatypes SpecValues Query SpecQuery Assoc SpecAssoc OneToMany.
Local Open Scope nat_scope.

Section Spec.
  Context {A : Type}.
  (** the items stored for owner [o] *)
  Definition belongings (m : otm A) (o : string) : list (many A) :=
    match otm_get m o with Some t => map it_val (a_items t) | None => [] end.

  (** The calls that change the tree; the first argument is the owner. *)
  Inductive oop :=
  | OCreateOrFind (o : string) (kv : KeyValues) (id : string) (mk : option A)
  | ODelete (o : string) (kv : KeyValues) (can : many A -> bool)
  | ODestroyByID (o id : string) (can : many A -> bool)
  | ODestroyOne (o : string) (can : many A -> bool)
  | OUpdate (o id : string) (f : A -> A)  (* a callback changes a value in place *).
  Definition orun (m : otm A) (x : oop) : otm A * result (many A) :=
    match x with
    | OCreateOrFind o kv id mk => OtmCreateOrFind m o kv id mk
    | ODelete o kv can => OtmDelete m o kv can
    | ODestroyByID o id can => OtmDestroyByID m o id can
    | ODestroyOne o can => OtmDestroyOne m o can
    | OUpdate o id f => (otm_update m o id f, ROk)
    end.
  Definition owner (x : oop) : string :=
    match x with OCreateOrFind o _ _ _ | ODelete o _ _ | ODestroyByID o _ _ | ODestroyOne o _ | OUpdate o _ _ => o end.
  Definition oop_id (x : oop) : option string := match x with OCreateOrFind _ _ id _ => Some id | _ => None end.
  Definition oop_arg (x : oop) : Prop := match x with OCreateOrFind _ kv _ _ | ODelete _ kv _ => kv_arg kv | _ => True end.

  (** All histories of calls, the generator never repeating an id ([used]) nor producing "". *)
  Inductive oreach : otm A -> list string -> Prop :=
  | OR_new : oreach [] []
  | OR_step m used x : oreach m used -> oop_arg x ->
      (forall id, oop_id x = Some id -> ~ In id used /\ id <> EmptyString) ->
      oreach (fst (orun m x)) (match oop_id x with Some id => id :: used | None => used end).

  (** Running a sequence of calls, with the answers of those on owner [o]. *)
  Fixpoint otm_run (m : otm A) (xs : list oop) : otm A :=
    match xs with [] => m | x :: r => otm_run (fst (orun m x)) r end.
  Fixpoint answers (o : string) (m : otm A) (xs : list oop) : list (result (many A)) :=
    match xs with
    | [] => []
    | x :: r => (if string_dec (owner x) o then [snd (orun m x)] else []) ++ answers o (fst (orun m x)) r
    end.
  Definition only_owner (o : string) (xs : list oop) : list oop :=
    filter (fun x => if string_dec (owner x) o then true else false) xs.

  (** offering items to a callback until it declines *)
  Fixpoint offer {S} (cb : S -> many A -> S * bool) (s : S) (l : list (many A)) : S :=
    match l with
    | [] => s
    | i :: r => let '(s', go) := cb s i in if go then offer cb s' r else s'
    end.
  (** key-values with the reserved key are refused *)
  Definition reserved (kv : KeyValues) : Prop := exists v, In ("_associated_id"%string, v) kv.
End Spec.
Arguments oop : clear implicits.
