(** Specification for the encoding of API models: which strings are text, and which models can be told in JSON.
    Nothing here mentions how models are encoded. *)
From Coq Require Import String Ascii List Bool NArith ZArith SpecFloat.
Import ListNotations.
From Verif Require Import Datatypes SpecValues Query Json Models.
Local Open Scope list_scope.

(** ** UTF-8 (RFC 3629) *)
Definition scalar (n : N) : Prop := (n < 55296 \/ 57344 <= n <= 1114111)%N.
Definition bytes (l : list N) : string := fold_right (fun n s => String (ascii_of_N n) s) EmptyString l.
Definition utf8_char (n : N) : list N :=
  (if n <? 128 then [n]
   else if n <? 2048 then [192 + n / 64; 128 + n mod 64]
   else if n <? 65536 then [224 + n / 4096; 128 + n / 64 mod 64; 128 + n mod 64]
   else [240 + n / 262144; 128 + n / 4096 mod 64; 128 + n / 64 mod 64; 128 + n mod 64])%N.
(** s is the encoding of some characters *)
Definition text (s : string) : Prop := exists l, Forall scalar l /\ s = bytes (flat_map utf8_char l).

(** ** Models *)
Definition when {A} (P : A -> Prop) (o : option A) : Prop := match o with Some a => P a | None => True end.
Definition int64 (z : Z) : Prop := (-9223372036854775808 <= z <= 9223372036854775807)%Z.
Definition uint64 (z : Z) : Prop := (0 <= z <= 18446744073709551615)%Z.

Section Floats.
  Variable fmt_float : bool -> spec_float -> string.
  Variable parse_float : bool -> string -> option spec_float.

  (** What a Go program can have in a value, with strings that are text.  A float is one that strconv reads back as it
      prints it. *)
  Definition plain_data (p : payload) : Prop :=
    match p with
    | PString s => text s
    | PFloat32 f => text (fmt_float false f) /\ parse_float false (fmt_float false f) = Some f
    | PFloat64 f => text (fmt_float true f) /\ parse_float true (fmt_float true f) = Some f
    | _ => go_payload p
    end.
  Definition plain_kv (kv : KeyValues) : Prop :=
    NoDup (map fst kv) /\ Forall (fun p => text (fst p) /\ plain_data (ev_data (snd p))) kv.

  Definition plain_queue_props (p : QueueProperties) : Prop := when int64 (qp_max p).
  Definition plain_queue (q : ApiQueue) : Prop :=
    when (fun s => when (when text) (qs_db s) /\ when plain_queue_props (qs_props s)) (aq_spec q).
  Definition plain_channel (c : ApiChannel) : Prop :=
    when (when plain_kv) (ac_spec c) /\ when (fun s => int64 (fst s) /\ int64 (snd s)) (ac_state c).
  Definition plain_item_props (p : ItemProperties) : Prop :=
    when uint64 (ip_retries p) /\ when text (ip_position p) /\ when int64 (ip_timeout p).
  Definition plain_item (i : ApiItem) : Prop :=
    when (fun s => when plain_kv (is_db s) /\ when plain_item_props (is_props s)) (ai_spec i) /\ when text (ai_state i).
  Definition plain_ack (a : ApiAck) : Prop := text (ak_item a) /\ plain_kv (ak_kv a).
  Definition plain_beat (b : ApiBeat) : Prop := text (ab_item b) /\ plain_kv (ab_kv b).
  Definition plain_limit (l : option Z) : Prop := when int64 l.
  Definition plain_limit_spec (s : LimitSpec) : Prop := when plain_kv (ls_db s) /\ when plain_limit (ls_props s).
  Definition plain_override (o : ApiOverride) : Prop := when plain_limit_spec (ao_spec o) /\ when (fun s => text (fst s)) (ao_state o).
  Definition plain_rule (r : ApiRule) : Prop :=
    when plain_limit_spec (ar_spec r) /\ when (fun s => text (fst s) /\ Forall (when plain_override) (snd s)) (ar_state r).
  Definition plain_counter (c : ApiCounter) : Prop :=
    when (fun s => when plain_kv (cs_db s) /\ when (when int64) (cs_props s)) (an_spec c).
  Definition plain_lock (k : ApiLock) : Prop :=
    when (fun s => when plain_kv (lk_db s) /\ when (when int64) (lk_props s)) (al_spec k) /\
    when (fun s => text (lt_id s) /\ text (lt_session s) /\ int64 (lt_expire s) /\ uint64 (lt_clients s)) (al_state k).
  Definition plain_sel (s : Selection) : Prop :=
    Forall text (s_ids s) /\ NoDup (map fst (s_kvs s)) /\
    Forall (fun p => text (fst p) /\ plain_data (ev_data (vq_value (snd p)))) (s_kvs s) /\ when int64 (s_min s) /\ when int64 (s_max s).
  Fixpoint plain_query (q : Query) : Prop :=
    match q with
    | QNil => True
    | Q sel ors ands =>
        when plain_sel sel /\
        match ors with Some l => fold_right (fun x P => plain_query x /\ P) True l | None => True end /\
        match ands with Some l => fold_right (fun x P => plain_query x /\ P) True l | None => True end
    end.
  Definition plain_match (m : MatchQuery) : Prop :=
    NoDup (map fst (mq_kvs m)) /\ Forall (fun p => text (fst p) /\ plain_data (ev_data (mv_value (snd p)))) (mq_kvs m) /\
    when int64 (mq_min m) /\ when int64 (mq_max m).
End Floats.

(** An empty part of a query is no part; no query at all is the empty query *)
Fixpoint tidy (q : Query) : Query :=
  match q with
  | QNil => QNil
  | Q sel ors ands =>
      Q sel (match ors with None | Some [] => None | Some l => Some (map tidy l) end)
            (match ands with None | Some [] => None | Some l => Some (map tidy l) end)
  end.
Definition told (q : Query) : Query := match q with QNil => Q None None None | _ => tidy q end.

(** Whatever the one side sends of a plain model, the other side receives that model *)
Definition arrives {A} (plain : A -> Prop) (valid_out : A -> bool) (enc : A -> json) (valid_in : A -> bool) (dec : json -> option A) : Prop :=
  forall a body, plain a -> send valid_out enc a = Some body -> receive valid_in dec (Some body) = Some a.
