(** Property C25: items grouped under owners.  [belongings m o] are the items of owner [o] after a history. *)
From Verif Require Import Datatypes SpecValues Collections Query SpecQuery Assoc SpecAssoc OneToMany SpecOneToMany OneToManyProofs.
Local Open Scope nat_scope.

(** C25: a call on one owner leaves the items of every other owner as they are. *)
Theorem C25_isolated : forall A (m : otm A) used x o,
  oreach m used -> owner x <> o -> belongings (fst (orun m x)) o = belongings m o.
Proof. exact @c25_isolated. Qed.
Print Assumptions C25_isolated.

(** C25: erasing the calls on all other owners from a history changes nothing an owner can observe: neither its items,
    nor the answers to its calls, nor what its queries offer. *)
Theorem C25_noninterference : forall A (xs : list (oop A)) o,
  let m := otm_run [] xs in let m' := otm_run [] (only_owner o xs) in
  belongings m o = belongings m' o /\ answers o [] xs = answers o [] (only_owner o xs) /\
  (forall q S (cb : S -> many A -> S * bool) s, OtmQueryAction m o q cb s = OtmQueryAction m' o q cb s) /\
  (forall q S (cb : S -> many A -> S * bool) s, OtmMatchAction m o q cb s = OtmMatchAction m' o q cb s).
Proof. exact @c25_noninterference. Qed.
Print Assumptions C25_noninterference.

(** C25: whatever is found or offered belongs to the owner asked for. *)
Theorem C25_found : forall A (m : otm A) used o kv id mk it,
  oreach m used -> kv_arg kv -> ~ In id used -> snd (OtmCreateOrFind m o kv id mk) = RFound it ->
  m_one (it_val it) = o /\ In (it_val it) (belongings m o) /\ kv_same (m_kv (it_val it)) kv.
Proof. exact @c25_found. Qed.
Print Assumptions C25_found.
Theorem C25_query_reveals : forall A (m : otm A) used o q, oreach m used ->
  exists l, (forall i, In i l -> In i (belongings m o) /\ m_one i = o) /\
    forall S (cb : S -> many A -> S * bool) s,
      OtmQueryAction m o q cb s = None \/ OtmQueryAction m o q cb s = Some None \/ OtmQueryAction m o q cb s = Some (Some (offer cb s l)).
Proof. exact @c25_query_reveals. Qed.
Print Assumptions C25_query_reveals.
Theorem C25_match_reveals : forall A (m : otm A) used o q, oreach m used ->
  exists l, (forall i, In i l -> In i (belongings m o) /\ m_one i = o) /\
    forall S (cb : S -> many A -> S * bool) s,
      OtmMatchAction m o q cb s = None \/ OtmMatchAction m o q cb s = Some None \/ OtmMatchAction m o q cb s = Some (Some (offer cb s l)).
Proof. exact @c25_match_reveals. Qed.
Print Assumptions C25_match_reveals.

(** C25: within an owner, ids and sets of key-values are unique. *)
Theorem C25_unique : forall A (m : otm A) used o i j,
  oreach m used -> In i (belongings m o) -> In j (belongings m o) -> m_id i = m_id j \/ kv_same (m_kv i) (m_kv j) -> i = j.
Proof. exact @belongings_unique. Qed.
Print Assumptions C25_unique.

(** C25: creating finds the owner's item with the same key-values or adds one, whatever other owners hold. *)
Theorem C25_create : forall A (m : otm A) used o kv id mk,
  oreach m used -> kv_arg kv -> ~ In id used -> o <> EmptyString -> kv_valid kv -> ~ reserved kv ->
  let m' := fst (OtmCreateOrFind m o kv id mk) in let r := snd (OtmCreateOrFind m o kv id mk) in
  (forall i, In i (belongings m o) -> kv_same (m_kv i) kv -> (exists it, r = RFound it /\ it_val it = i) /\ belongings m' o = belongings m o) /\
  ((forall i, In i (belongings m o) -> ~ kv_same (m_kv i) kv) ->
     match mk with
     | Some a => r = RId id /\ belongings m' o = belongings m o ++ [mkMany a o id kv]
     | None => belongings m' o = belongings m o
     end).
Proof. exact @c25_create. Qed.
Print Assumptions C25_create.
Theorem C25_delete : forall A (m : otm A) used o kv can,
  oreach m used -> kv_arg kv -> o <> EmptyString -> kv_valid kv ->
  snd (OtmDelete m o kv can) = ROk /\
  forall i, In i (belongings (fst (OtmDelete m o kv can)) o) <-> In i (belongings m o) /\ ~ (kv_same (m_kv i) kv /\ can i = true).
Proof. exact @c25_delete. Qed.
Print Assumptions C25_delete.
Theorem C25_destroy_by_id : forall A (m : otm A) used o id can,
  oreach m used -> o <> EmptyString -> id <> EmptyString ->
  snd (OtmDestroyByID m o id can) = ROk /\
  forall i, In i (belongings (fst (OtmDestroyByID m o id can)) o) <-> In i (belongings m o) /\ ~ (m_id i = id /\ can i = true).
Proof. exact @c25_destroy_id. Qed.
Print Assumptions C25_destroy_by_id.
(** C25: destroying an owner removes its items up to the first that refuses: all of them if none does. *)
Theorem C25_destroy_owner : forall A (m : otm A) used o can,
  oreach m used -> o <> EmptyString ->
  snd (OtmDestroyOne m o can) = ROk /\
  exists gone rest, belongings m o = gone ++ rest /\ (forall i, In i gone -> can i = true) /\
    match rest with [] => True | i :: _ => can i = false end /\
    forall i, In i (belongings (fst (OtmDestroyOne m o can)) o) <-> In i rest.
Proof. exact @c25_destroy_one. Qed.
Print Assumptions C25_destroy_owner.
(** C25: a value changed in place by a callback changes nothing else. *)
Theorem C25_update : forall A (m : otm A) used o id f,
  oreach m used -> oreach (otm_update m o id f) used /\
  forall i, In i (belongings (otm_update m o id f) o) <->
    (In i (belongings m o) /\ m_id i <> id) \/ exists j, In j (belongings m o) /\ m_id j = id /\ i = mkMany (f (m_val j)) o id (m_kv j).
Proof. exact @c25_update. Qed.
Print Assumptions C25_update.
(** C25: bad parameters change nothing. *)
Theorem C25_refused : forall A (m : otm A) o kv id mk can,
  (o = EmptyString \/ ~ kv_valid kv \/ reserved kv -> OtmCreateOrFind m o kv id mk = (m, RInvalid)) /\
  (o = EmptyString \/ ~ kv_valid kv -> OtmDelete m o kv can = (m, RInvalid)) /\
  (o = EmptyString \/ id = EmptyString -> OtmDestroyByID m o id can = (m, RInvalid)) /\
  (o = EmptyString -> OtmDestroyOne m o can = (m, RInvalid)).
Proof. exact @c25_refused. Qed.
Print Assumptions C25_refused.

(** C25: queries and matches select among the owner's items (as C22 and C24; the same queries are missing). *)
Theorem C25_query_partial : forall A (m : otm A) used o q,
  oreach m used -> o <> EmptyString -> q_validate q = true -> query_no_nan q -> q = Q None None None \/ every_node node_simple q ->
  exists l, NoDup l /\ (forall i, In i l <-> In i (belongings m o) /\ query_holds q (m_id i) (m_kv i)) /\
    forall S (cb : S -> many A -> S * bool) s, OtmQueryAction m o q cb s = Some (Some (offer cb s l)).
Proof. exact @c25_query. Qed.
Print Assumptions C25_query_partial.
Theorem C25_match_partial : forall A (m : otm A) used o mq,
  oreach m used -> o <> EmptyString -> mq_validate mq = true -> match_arg mq ->
  ~ (exists b, mq_max mq = Some b /\ b <> -1 /\ b < match mq_min mq with Some a => a | None => 0 end)%Z ->
  exists l, NoDup l /\ (forall i, In i l <-> In i (belongings m o) /\ match_holds mq (m_kv i)) /\
    forall S (cb : S -> many A -> S * bool) s, OtmMatchAction m o mq cb s = Some (Some (offer cb s l)).
Proof. exact @c25_match. Qed.
Print Assumptions C25_match_partial.

(** Two owners with the same key-values, a third destroyed. *)
Definition kvA : KeyValues := [("a", Int 1); ("b", Str "x")]%string.
Definition kvB : KeyValues := [("a", Int 2)]%string.
Definition history : list (oop nat) :=
  [OCreateOrFind "r1" kvA "i1" (Some 1); OCreateOrFind "r2" kvA "i2" (Some 2); OCreateOrFind "r2" kvB "i3" (Some 3);
   OCreateOrFind "r1" kvA "i4" (Some 4); OCreateOrFind "r3" kvB "i5" (Some 5); ODestroyOne "r3" (fun _ => true);
   ODelete "r2" kvB (fun _ => true)]%string.
Definition sample : otm nat := otm_run [] history.
Lemma sample_reached : oreach sample ["i5"; "i4"; "i3"; "i2"; "i1"]%string.
Proof.
  assert (KA : forall kv : KeyValues, forallb (fun p => match ev_data (snd p) with PInt _ _ | PString _ | PNil => true | _ => false end) kv = true -> NoDup (kv_keys kv) -> kv_arg kv).
  { intros kv H ND. split; [exact ND|]. intros k v HI [C | C]; rewrite forallb_forall in H; specialize (H _ HI); cbn in H; rewrite C in H; discriminate. }
  unfold sample, history. cbn [otm_run]. 
  repeat match goal with |- oreach (fst (orun ?t ?o)) ?u =>
    first [apply (OR_step t (tl u) o) | apply (OR_step t u o)]; [|cbn [oop_arg]; first [exact I | apply KA; [reflexivity|cbn; repeat (constructor; [cbn; intuition discriminate|]); constructor]]
         |cbn [oop_id]; intros ? E; first [discriminate | injection E as <-; split; [cbn; intuition discriminate|discriminate]]] end.
  constructor.
Qed.
Example C25_nonvacuous :
  map m_val (belongings sample "r1") = [1] /\ map m_val (belongings sample "r2") = [2] /\ belongings sample "r3" = [] /\
  map m_val (belongings (fst (OtmDestroyOne sample "r2" (fun _ => true))) "r2") = [] /\
  map m_val (belongings (fst (OtmDestroyOne sample "r2" (fun _ => true))) "r1") = [1] /\
  (exists it, snd (OtmCreateOrFind sample "r1" kvA "i9" (Some 9)) = RFound it /\ m_val (it_val it) = 1) /\
  OtmQueryAction sample "r2" (ExactQuery kvA) (fun s i => (s ++ [m_val i], true)) [] = Some (Some [2]) /\
  snd (OtmCreateOrFind sample "r1" [("_associated_id", Int 1)]%string "i9" (Some 9)) = RInvalid.
Proof. vm_compute. repeat split; eauto. Qed.
