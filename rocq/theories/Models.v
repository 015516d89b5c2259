(** Model of the API models and their encoding: pkg/models/api (model.go, client.go, server.go),
    pkg/models/api/{willow,limiter,locker}/v1, pkg/models/api/common and pkg/models/datatypes.  No proofs in this file.

    A pointer is an option; a Go map is an association list without duplicate keys; a nil map or slice of a model and an
    empty one are not told apart (nor do the Validate functions), except for the parts of a query. *)
From Coq Require Import String Ascii List Bool NArith ZArith SpecFloat.
Import ListNotations.
From Verif Require Import Datatypes Query Json.
Local Open Scope Z_scope.
Local Open Scope list_scope.
Local Open Scope bool_scope.

(** A pointer that must not be nil *)
Definition needed {A} (v : A -> bool) (o : option A) : bool := match o with Some a => v a | None => false end.
(** A pointer that may be nil *)
Definition allowed {A} (v : A -> bool) (o : option A) : bool := match o with Some a => v a | None => true end.
(** The key-values of counters, channels, items and locks, and those of rules and overrides (min and max type) *)
Definition typed_kv (kv : KeyValues) : bool := kv_validate kv MinDataType MaxWithoutAnyDataType.
Definition any_kv (kv : KeyValues) : bool := kv_validate kv MinDataType MaxDataType.

(** ** pkg/models/api/willow/v1 *)
(** queue.go:9-16, :57-65, :85-88, :102-106, :116-118 *)
Record QueueProperties := mkQueueProperties { qp_max : option Z }.
Record QueueSpec := mkQueueSpec { qs_db : option (option string); qs_props : option QueueProperties }.
Record ApiQueue := mkApiQueue { aq_spec : option QueueSpec; aq_state : option bool }.
(** queue.go:108-114 *)
Definition queue_props_ok (p : QueueProperties) : bool := needed (fun _ => true) (qp_max p).
(** queue.go:90-100; [qs_db] is the field Name of DBDefinition *)
Definition queue_db_ok (n : option string) : bool := needed (fun s => negb (String.eqb s EmptyString)) n.
(** queue.go:67-83 *)
Definition queue_spec_ok (s : QueueSpec) : bool := needed queue_db_ok (qs_db s) && allowed queue_props_ok (qs_props s).
(** queue.go:21-39 Validate; :41-55 ValidateSpecOnly; :120-122 *)
Definition queue_ok (q : ApiQueue) : bool := needed queue_spec_ok (aq_spec q) && needed (fun _ => true) (aq_state q).
Definition queue_create_ok (q : ApiQueue) : bool :=
  needed queue_spec_ok (aq_spec q) && match aq_state q with None => true | Some _ => false end.

(** channel.go:10-14, :36-38, :52-54, :64-70 *)
Record ApiChannel := mkApiChannel { ac_spec : option (option KeyValues); ac_state : option (Z * Z) }.
(** int64 addition *)
Definition add64 (a b : Z) : Z := (a + b + 9223372036854775808) mod 18446744073709551616 - 9223372036854775808.
(** channel.go:72-78, :16-34, :40-50, :56-62 *)
Definition channel_ok (c : ApiChannel) : bool :=
  needed (needed typed_kv) (ac_spec c) && needed (fun s => negb (add64 (fst s) (snd s) =? 0)) (ac_state c).

(** item.go:11-18, :59-65, :87-89, :99-114, :147-150 *)
Record ItemProperties := mkItemProperties {
  ip_data : string; ip_updateable : option bool; ip_retries : option Z; ip_position : option string; ip_timeout : option Z }.
Record ItemSpec := mkItemSpec { is_db : option KeyValues; is_props : option ItemProperties }.
Record ApiItem := mkApiItem { ai_spec : option ItemSpec; ai_state : option string }.
(** item.go:116-145 *)
Definition item_props_ok (p : ItemProperties) : bool :=
  negb (String.eqb (ip_data p) EmptyString) && needed (fun _ => true) (ip_updateable p) && needed (fun _ => true) (ip_retries p) &&
  needed (fun s => String.eqb s "front" || String.eqb s "back") (ip_position p) && needed (fun _ => true) (ip_timeout p).
(** item.go:67-85, :91-97 *)
Definition item_spec_ok (s : ItemSpec) : bool := needed typed_kv (is_db s) && needed item_props_ok (is_props s).
(** item.go:23-41 Validate, :152-158; :43-57 ValidateSpecOnly *)
Definition item_ok (i : ApiItem) : bool :=
  needed item_spec_ok (ai_spec i) && needed (fun id => negb (String.eqb id EmptyString)) (ai_state i).
Definition item_create_ok (i : ApiItem) : bool :=
  needed item_spec_ok (ai_spec i) && match ai_state i with None => true | Some _ => false end.

(** item_ack.go:10-19, :25-35; item_heartbeat.go:10-16, :22-32 *)
Record ApiAck := mkApiAck { ak_item : string; ak_kv : KeyValues; ak_passed : bool }.
Record ApiBeat := mkApiBeat { ab_item : string; ab_kv : KeyValues }.
Definition ack_ok (a : ApiAck) : bool := negb (String.eqb (ak_item a) EmptyString) && typed_kv (ak_kv a).
Definition beat_ok (b : ApiBeat) : bool := negb (String.eqb (ab_item b) EmptyString) && typed_kv (ab_kv b).

(** ** pkg/models/api/limiter/v1 *)
(** override.go:13-17, :47-53, :75-78, :88-90, :104-108; a state is (ID, Deleting) *)
Record LimitSpec := mkLimitSpec { ls_db : option KeyValues; ls_props : option (option Z) }.
Record ApiOverride := mkApiOverride { ao_spec : option LimitSpec; ao_state : option (string * bool) }.
(** override.go:92-102, rule.go:110-120: the limit of RuleProperties and OverrideProperties *)
Definition limit_ok (l : option Z) : bool := needed (fun z => negb (z <? -1)) l.
(** override.go:55-73, :80-86; rule.go:64-82, :89-95 *)
Definition limit_spec_ok (s : LimitSpec) : bool := needed any_kv (ls_db s) && needed limit_ok (ls_props s).
(** override.go:19-33 Validate, :110-112; :35-45 ValidateSpecOnly *)
Definition override_ok (o : ApiOverride) : bool := needed limit_spec_ok (ao_spec o) && needed (fun _ => true) (ao_state o).
Definition override_create_ok (o : ApiOverride) : bool := needed limit_spec_ok (ao_spec o).
(** rule.go:11-15, :52-58, :84-87, :98-104, :124-141; overrides.go:10: the elements are pointers *)
Record ApiRule := mkApiRule { ar_spec : option LimitSpec; ar_state : option (string * list (option ApiOverride)) }.
(** rule.go:21-33 Validate, :147-153, overrides.go:16-32; :39-49 ValidateSpecOnly *)
Definition rule_ok (r : ApiRule) : bool :=
  needed limit_spec_ok (ar_spec r) && allowed (fun s => forallb (needed override_ok) (snd s)) (ar_state r).
Definition rule_create_ok (r : ApiRule) : bool := needed limit_spec_ok (ar_spec r).
(** counter.go:11-15, :45-49, :71-73, :83-86, :96-98 *)
Record CounterSpec := mkCounterSpec { cs_db : option KeyValues; cs_props : option (option Z) }.
Record ApiCounter := mkApiCounter { an_spec : option CounterSpec; an_state : option bool }.
(** counter.go:51-69, :75-81, :88-94 *)
Definition counter_spec_ok (s : CounterSpec) : bool := needed typed_kv (cs_db s) && needed (needed (fun _ => true)) (cs_props s).
(** counter.go:17-31 Validate, :100-102; :33-43 ValidateSpecOnly *)
Definition counter_ok (c : ApiCounter) : bool := needed counter_spec_ok (an_spec c) && needed (fun _ => true) (an_state c).
Definition counter_create_ok (c : ApiCounter) : bool := needed counter_spec_ok (an_spec c).

(** ** pkg/models/api/locker/v1 *)
(** lock.go:12-18, :74-80, :100-102, :112-117, :130-142 *)
Record LockSpec := mkLockSpec { lk_db : option KeyValues; lk_props : option (option Z) }.
Record LockState := mkLockState { lt_id : string; lt_session : string; lt_expire : Z; lt_clients : Z }.
Record ApiLock := mkApiLock { al_spec : option LockSpec; al_state : option LockState }.
(** lock.go:82-98, :104-110, :119-127 *)
Definition lock_spec_ok (s : LockSpec) : bool := needed typed_kv (lk_db s) && allowed (allowed (fun t => negb (t =? 0))) (lk_props s).
(** lock.go:144-158 *)
Definition lock_state_ok (s : LockState) : bool :=
  negb (String.eqb (lt_id s) EmptyString) && negb (String.eqb (lt_session s) EmptyString) && negb (lt_clients s =? 0).
(** lock.go:36-55 Validate; :57-72 ValidateSpecOnly *)
Definition lock_ok (l : ApiLock) : bool := needed lock_spec_ok (al_spec l) && needed lock_state_ok (al_state l).
Definition lock_create_ok (l : ApiLock) : bool :=
  needed lock_spec_ok (al_spec l) && match al_state l with None => true | Some _ => false end.
(** claim.go:10-13, :19-25 *)
Definition claim_ok (session : string) : bool := negb (String.eqb session EmptyString).

(** locks.go, rules.go, overrides.go, counters.go, queues.go: lists of pointers, none of which may be nil.  channels.go
    does not look for nil. *)
Definition list_ok {A} (v : A -> bool) (l : list (option A)) : bool := forallb (needed v) l.

(** common/errors/error.go:8-26 *)
Definition error_ok (msg : string) : bool := negb (String.eqb msg EmptyString).

(** ** Encoding *)
Section Encoding.
  (** strconv.FormatFloat and ParseFloat, as in Datatypes.v *)
  Variable fmt_float : bool -> spec_float -> string.
  Variable parse_float : bool -> string -> option spec_float.

  (** encapsulated_value.go:126-137 MarshalJSON.  On data of another type than the tag says, StringEncoding panics; here
      it gives null.  Models are validated before they are encoded. *)
  Definition enc_ev (e : EV) : json :=
    JObj [("Type"%string, JNum (ev_type e));
          ("Data"%string, match stringEncoding fmt_float (ev_type e) (ev_data e) with Some (WString s) => JStr s | _ => JNull end)].
  (** encapsulated_value.go:139-158 UnmarshalJSON and map_string_encapsulated_value.go:54-62; DataType is an int *)
  Definition raw_value : decoder (Z * wire) :=
    struct (0, WNull) (fun l =>
      bind (val 0 is_int64 "Type" l) (fun t =>
        Some (t, match member "Data" l with None | Some JNull => WNull | Some (JStr s) => WString s | Some _ => WOther end))).
  Definition decoded (r : Z * wire) : option EV := option_map (mkEV (fst r)) (stringDecoding parse_float (fst r) (snd r)).
  Definition dec_ev : decoder EV := fun j => bind (raw_value j) decoded.
  (** A field of type EncapsulatedValue: UnmarshalJSON is called for null as well; absent, it stays the zero value *)
  Definition ev_field (name : string) (l : list (string * json)) : option EV :=
    match member name l with None => Some (mkEV 0 PNil) | Some j => dec_ev j end.

  (** json.Marshal of the map KeyValues (map_string_encapsulated_value.go:12) *)
  Definition enc_kv (kv : KeyValues) : json := enc_obj enc_ev kv.
  (** map_string_encapsulated_value.go:53-82 UnmarshalJSON of KeyValues *)
  Definition dec_kv : decoder KeyValues := fun j =>
    bind (obj raw_value j) (fun l => all_some (map (fun p => option_map (pair (fst p)) (decoded (snd p))) l)).
  (** ... and the key-values it leaves behind when it returns an error: those of some of the members (:68-79; the order of
      a Go map is not fixed).  [pick] tells which. *)
  Definition left_behind (j : json) (pick : string -> bool) : KeyValues :=
    match obj raw_value j with
    | Some l => flat_map (fun p => if pick (fst p) then match decoded (snd p) with Some e => [(fst p, e)] | None => [] end else []) l
    | None => []
    end.

  (** *** willow *)
  (** queue.go:102-106 (the tags of the fields) *)
  Definition enc_queue_props (p : QueueProperties) : json := JObj (opt_field "MaxItems" JNum (qp_max p)).
  Definition dec_queue_props : decoder QueueProperties :=
    struct (mkQueueProperties None) (fun l => bind (ptr is_int64 "MaxItems" l) (fun m => Some (mkQueueProperties m))).
  (** queue.go:57-65, :85-88 *)
  Definition enc_queue_spec (s : QueueSpec) : json :=
    JObj (opt_field "DBDefinition" (fun n => JObj [("Name"%string, null_or JStr n)]) (qs_db s) ++
          opt_field "Properties" enc_queue_props (qs_props s)).
  Definition dec_queue_spec : decoder QueueSpec :=
    struct (mkQueueSpec None None) (fun l =>
      bind (ptr (struct None (ptr is_string "Name")) "DBDefinition" l) (fun d =>
      bind (ptr dec_queue_props "Properties" l) (fun p => Some (mkQueueSpec d p)))).
  (** queue.go:9-16, :116-118 *)
  Definition enc_queue (q : ApiQueue) : json :=
    JObj (("Spec"%string, null_or enc_queue_spec (aq_spec q)) ::
          opt_field "State" (fun d => JObj [("Deleting"%string, JBool d)]) (aq_state q)).
  Definition dec_queue : decoder ApiQueue :=
    struct (mkApiQueue None None) (fun l =>
      bind (ptr dec_queue_spec "Spec" l) (fun s =>
      bind (ptr (struct false (val false is_bool "Deleting")) "State" l) (fun t => Some (mkApiQueue s t)))).

  (** channel.go:10-14, :36-38, :52-54, :64-70 *)
  Definition enc_channel (c : ApiChannel) : json :=
    JObj (opt_field "Spec" (fun s => JObj (opt_field "DBDefinition" (fun kv => JObj (list_field "KeyValues" enc_kv kv)) s)) (ac_spec c) ++
          opt_field "State" (fun s => JObj [("EnqueuedItems"%string, JNum (fst s)); ("ProcessingItems"%string, JNum (snd s))]) (ac_state c)).
  (** A field of type KeyValues: UnmarshalJSON is called for null as well; absent, it stays nil *)
  Definition kv_field (name : string) (l : list (string * json)) : option KeyValues :=
    match member name l with None => Some [] | Some j => dec_kv j end.
  Definition dec_channel : decoder ApiChannel :=
    struct (mkApiChannel None None) (fun l =>
      bind (ptr (struct None (ptr (struct [] (kv_field "KeyValues")) "DBDefinition")) "Spec" l) (fun s =>
      bind (ptr (struct (0, 0) (fun l => bind (val 0 is_int64 "EnqueuedItems" l) (fun a => bind (val 0 is_int64 "ProcessingItems" l) (fun b => Some (a, b))))) "State" l)
        (fun t => Some (mkApiChannel s t)))).

  (** item.go:99-114 *)
  Definition enc_item_props (p : ItemProperties) : json :=
    JObj (("Data"%string, JStr (b64_encode (ip_data p))) ::
          opt_field "Updateable" JBool (ip_updateable p) ++ opt_field "RetryAttempts" JNum (ip_retries p) ++
          opt_field "RetryPosition" JStr (ip_position p) ++ opt_field "TimeoutDuration" JNum (ip_timeout p)).
  Definition dec_item_props : decoder ItemProperties :=
    struct (mkItemProperties EmptyString None None None None) (fun l =>
      bind (val EmptyString is_bytes "Data" l) (fun d =>
      bind (ptr is_bool "Updateable" l) (fun u =>
      bind (ptr is_uint64 "RetryAttempts" l) (fun r =>
      bind (ptr is_string "RetryPosition" l) (fun p =>
      bind (ptr is_int64 "TimeoutDuration" l) (fun t => Some (mkItemProperties d u r p t))))))).
  (** item.go:87-89, counter.go:71-73, lock.go:100-102 *)
  Definition enc_kv_db (kv : KeyValues) : json := JObj (list_field "KeyValues" enc_kv kv).
  Definition dec_kv_db : decoder KeyValues := struct [] (kv_field "KeyValues").
  (** item.go:11-18, :59-65, :147-150 *)
  Definition enc_item (i : ApiItem) : json :=
    JObj (opt_field "Spec" (fun s => JObj (opt_field "DBDefinition" enc_kv_db (is_db s) ++ opt_field "Properties" enc_item_props (is_props s))) (ai_spec i) ++
          opt_field "State" (fun id => JObj [("ID"%string, JStr id)]) (ai_state i)).
  Definition dec_item : decoder ApiItem :=
    struct (mkApiItem None None) (fun l =>
      bind (ptr (struct (mkItemSpec None None) (fun l =>
              bind (ptr dec_kv_db "DBDefinition" l) (fun d =>
              bind (ptr dec_item_props "Properties" l) (fun p => Some (mkItemSpec d p))))) "Spec" l) (fun s =>
      bind (ptr (struct EmptyString (val EmptyString is_string "ID")) "State" l) (fun t => Some (mkApiItem s t)))).

  (** item_ack.go:10-19 *)
  Definition enc_ack (a : ApiAck) : json :=
    JObj [("ItemID"%string, JStr (ak_item a)); ("KeyValues"%string, enc_kv (ak_kv a)); ("Passed"%string, JBool (ak_passed a))].
  Definition dec_ack : decoder ApiAck :=
    struct (mkApiAck EmptyString [] false) (fun l =>
      bind (val EmptyString is_string "ItemID" l) (fun i =>
      bind (kv_field "KeyValues" l) (fun kv =>
      bind (val false is_bool "Passed" l) (fun p => Some (mkApiAck i kv p))))).
  (** item_heartbeat.go:10-16 *)
  Definition enc_beat (b : ApiBeat) : json := JObj [("ItemID"%string, JStr (ab_item b)); ("KeyValues"%string, enc_kv (ab_kv b))].
  Definition dec_beat : decoder ApiBeat :=
    struct (mkApiBeat EmptyString []) (fun l =>
      bind (val EmptyString is_string "ItemID" l) (fun i =>
      bind (kv_field "KeyValues" l) (fun kv => Some (mkApiBeat i kv)))).

  (** *** limiter *)
  (** GroupByKeyValues has omitempty in OverrideDBDefinition only *)
  Definition enc_group (kv : KeyValues) : json := JObj [("GroupByKeyValues"%string, enc_kv kv)].
  Definition enc_group_omit (kv : KeyValues) : json := JObj (list_field "GroupByKeyValues" enc_kv kv).
  Definition dec_group : decoder KeyValues := struct [] (kv_field "GroupByKeyValues").
  (** rule.go:98-104, override.go:88-90 *)
  Definition enc_limit (l : option Z) : json := JObj (opt_field "Limit" JNum l).
  Definition dec_limit : decoder (option Z) := struct None (ptr is_int64 "Limit").
  (** rule.go:52-58, override.go:47-53 *)
  Definition enc_limit_spec (group : KeyValues -> json) (s : LimitSpec) : json :=
    JObj (opt_field "DBDefinition" group (ls_db s) ++ opt_field "Properties" enc_limit (ls_props s)).
  Definition dec_limit_spec : decoder LimitSpec :=
    struct (mkLimitSpec None None) (fun l =>
      bind (ptr dec_group "DBDefinition" l) (fun d => bind (ptr dec_limit "Properties" l) (fun p => Some (mkLimitSpec d p)))).
  (** override.go:13-17, :104-108 *)
  Definition enc_override (o : ApiOverride) : json :=
    JObj (("Spec"%string, null_or (enc_limit_spec enc_group_omit) (ao_spec o)) ::
          opt_field "State" (fun s => JObj [("ID"%string, JStr (fst s)); ("Deleting"%string, JBool (snd s))]) (ao_state o)).
  Definition dec_override : decoder ApiOverride :=
    struct (mkApiOverride None None) (fun l =>
      bind (ptr dec_limit_spec "Spec" l) (fun s =>
      bind (ptr (struct (EmptyString, false) (fun l => bind (val EmptyString is_string "ID" l) (fun i => bind (val false is_bool "Deleting" l) (fun d => Some (i, d))))) "State" l)
        (fun t => Some (mkApiOverride s t)))).
  (** An element of a list of pointers *)
  Definition pointee {A} (d : decoder A) : decoder (option A) := fun j => match j with JNull => Some None | _ => option_map Some (d j) end.
  (** rule.go:11-15, :124-128 *)
  Definition enc_rule (r : ApiRule) : json :=
    JObj (("Spec"%string, null_or (enc_limit_spec enc_group) (ar_spec r)) ::
          opt_field "State" (fun s => JObj (("ID"%string, JStr (fst s)) ::
            list_field "Overrides" (fun l => JArr (map (null_or enc_override) l)) (snd s))) (ar_state r)).
  Definition dec_rule : decoder ApiRule :=
    struct (mkApiRule None None) (fun l =>
      bind (ptr dec_limit_spec "Spec" l) (fun s =>
      bind (ptr (struct (EmptyString, []) (fun l => bind (val EmptyString is_string "ID" l) (fun i =>
              bind (val [] (slice (pointee dec_override)) "Overrides" l) (fun o => Some (i, o))))) "State" l)
        (fun t => Some (mkApiRule s t)))).
  (** counter.go:11-15, :45-49, :83-86, :96-98 *)
  Definition enc_counter (c : ApiCounter) : json :=
    JObj (opt_field "Spec" (fun s => JObj [("DBDefinition"%string, null_or (fun kv => JObj [("KeyValues"%string, enc_kv kv)]) (cs_db s));
                                           ("Properties"%string, null_or (fun n => JObj (opt_field "Counters" JNum n)) (cs_props s))]) (an_spec c) ++
          opt_field "State" (fun d => JObj [("Deleting"%string, JBool d)]) (an_state c)).
  Definition dec_counter : decoder ApiCounter :=
    struct (mkApiCounter None None) (fun l =>
      bind (ptr (struct (mkCounterSpec None None) (fun l =>
              bind (ptr dec_kv_db "DBDefinition" l) (fun d =>
              bind (ptr (struct None (ptr is_int64 "Counters")) "Properties" l) (fun p => Some (mkCounterSpec d p))))) "Spec" l) (fun s =>
      bind (ptr (struct false (val false is_bool "Deleting")) "State" l) (fun t => Some (mkApiCounter s t)))).

  (** *** locker *)
  Definition enc_lock (k : ApiLock) : json :=
    JObj (("Spec"%string, null_or (fun s => JObj (opt_field "DBDefinition" enc_kv_db (lk_db s) ++
                                                   opt_field "Properties" (fun t => JObj (opt_field "Timeout" JNum t)) (lk_props s))) (al_spec k)) ::
          opt_field "State" (fun s => JObj [("LockID"%string, JStr (lt_id s)); ("SessionID"%string, JStr (lt_session s));
                                            ("TimeTillExipre"%string, JNum (lt_expire s)); ("LocksHeldOrWaiting"%string, JNum (lt_clients s))]) (al_state k)).
  Definition dec_lock : decoder ApiLock :=
    struct (mkApiLock None None) (fun l =>
      bind (ptr (struct (mkLockSpec None None) (fun l =>
              bind (ptr dec_kv_db "DBDefinition" l) (fun d =>
              bind (ptr (struct None (ptr is_int64 "Timeout")) "Properties" l) (fun p => Some (mkLockSpec d p))))) "Spec" l) (fun s =>
      bind (ptr (struct (mkLockState EmptyString EmptyString 0 0) (fun l =>
              bind (val EmptyString is_string "LockID" l) (fun i =>
              bind (val EmptyString is_string "SessionID" l) (fun e =>
              bind (val 0 is_int64 "TimeTillExipre" l) (fun t =>
              bind (val 0 is_uint64 "LocksHeldOrWaiting" l) (fun n => Some (mkLockState i e t n))))))) "State" l) (fun t => Some (mkApiLock s t)))).
  (** claim.go:10-13 *)
  Definition enc_claim (s : string) : json := JObj [("SessionID"%string, JStr s)].
  Definition dec_claim : decoder string := struct EmptyString (val EmptyString is_string "SessionID").

  (** *** queries *)
  (** data_comparison.go:11-20; a DataComparison is a string.  [CUnknown] stands for all other strings *)
  Definition cmp_string (c : Query.comparison) : string :=
    match c with CEquals => "=" | CNotEquals => "!=" | CLess => "<" | CLessEq => "<=" | CGreater => ">" | CGreaterEq => ">=" | CUnknown => "?" end.
  Definition string_cmp (s : string) : Query.comparison :=
    if String.eqb s "=" then CEquals else if String.eqb s "!=" then CNotEquals else if String.eqb s "<" then CLess
    else if String.eqb s "<=" then CLessEq else if String.eqb s ">" then CGreater else if String.eqb s ">=" then CGreaterEq else CUnknown.
  (** common/v1/type_restrictions.go:10-17 *)
  Definition enc_tr (r : TypeRestrictions) : json := JObj [("MinDataType"%string, JNum (tr_min r)); ("MaxDataType"%string, JNum (tr_max r))].
  Definition dec_tr : decoder TypeRestrictions :=
    struct (mkTR 0 0) (fun l => bind (val 0 is_int64 "MinDataType" l) (fun a => bind (val 0 is_int64 "MaxDataType" l) (fun b => Some (mkTR a b)))).
  (** query_associated_action/value_query.go:9-23 *)
  Definition enc_vq (q : ValueQuery) : json :=
    JObj [("Value"%string, enc_ev (vq_value q)); ("Comparison"%string, JStr (cmp_string (vq_cmp q))); ("TypeRestrictions"%string, enc_tr (vq_tr q))].
  Definition dec_vq : decoder ValueQuery :=
    struct (mkVQ (mkEV 0 PNil) CUnknown (mkTR 0 0)) (fun l =>
      bind (ev_field "Value" l) (fun v =>
      bind (val EmptyString is_string "Comparison" l) (fun c =>
      bind (val (mkTR 0 0) dec_tr "TypeRestrictions" l) (fun r => Some (mkVQ v (string_cmp c) r))))).
  (** query_associated_action/selection.go:31-41 *)
  Definition enc_sel (s : Selection) : json :=
    JObj (list_field "IDs" (fun l => JArr (map JStr l)) (s_ids s) ++ list_field "KeyValues" (enc_obj enc_vq) (s_kvs s) ++
          opt_field "MinNumberOfKeyValues" JNum (s_min s) ++ opt_field "MaxNumberOfKeyValues" JNum (s_max s)).
  Definition dec_sel : decoder Selection :=
    struct (mkSel [] [] None None) (fun l =>
      bind (val [] (slice is_string) "IDs" l) (fun i =>
      bind (val [] (obj dec_vq) "KeyValues" l) (fun k =>
      bind (ptr is_int64 "MinNumberOfKeyValues" l) (fun a =>
      bind (ptr is_int64 "MaxNumberOfKeyValues" l) (fun b => Some (mkSel i k a b)))))).
  (** associated_action_query.go:18-23; a nil pointer is null *)
  Fixpoint enc_query (q : Query) : json :=
    match q with
    | QNil => JNull
    | Q sel ors ands =>
        JObj (opt_field "Selection" enc_sel sel ++
              match ors with None | Some [] => [] | Some l => [("Or"%string, JArr (map enc_query l))] end ++
              match ands with None | Some [] => [] | Some l => [("And"%string, JArr (map enc_query l))] end)
    end.
  (** [n] bounds the depth; [query_depth] suffices *)
  Fixpoint dec_query_depth (n : nat) : decoder Query := fun j =>
    match n with
    | O => None
    | S n =>
        struct (Q None None None) (fun l =>
          let part name := match member name l with
                           | None | Some JNull => Some None
                           | Some j => option_map Some (slice (fun j => match j with JNull => Some QNil | _ => dec_query_depth n j end) j)
                           end in
          bind (ptr dec_sel "Selection" l) (fun s => bind (part "Or"%string) (fun o => bind (part "And"%string) (fun a => Some (Q s o a))))) j
    end.
  Fixpoint json_depth (j : json) : nat :=
    match j with
    | JArr l => S (fold_right (fun x m => Nat.max (json_depth x) m) O l)
    | JObj l => S (fold_right (fun p m => Nat.max (json_depth (snd p)) m) O l)
    | _ => 1%nat
    end.
  (** The body of a request is decoded into a struct, so that null gives the empty query *)
  Definition dec_query : decoder Query := fun j => dec_query_depth (S (json_depth j)) j.
  (** query_match_action/match_query.go:14-22, match_key_values.go:41-45 *)
  Definition enc_match (m : MatchQuery) : json :=
    JObj (("KeyValues"%string, enc_obj (fun v => JObj [("Value"%string, enc_ev (mv_value v)); ("TypeRestrictions"%string, enc_tr (mv_tr v))]) (mq_kvs m)) ::
          opt_field "MinNumberOfPermutationKeyValues" JNum (mq_min m) ++ opt_field "MaxNumberOfPermutationKeyValues" JNum (mq_max m)).
  Definition dec_match : decoder MatchQuery :=
    struct (mkMQ [] None None) (fun l =>
      bind (val [] (obj (struct (mkMV (mkEV 0 PNil) (mkTR 0 0)) (fun l =>
              bind (ev_field "Value" l) (fun v => bind (val (mkTR 0 0) dec_tr "TypeRestrictions" l) (fun r => Some (mkMV v r)))))) "KeyValues" l) (fun k =>
      bind (ptr is_int64 "MinNumberOfPermutationKeyValues" l) (fun a =>
      bind (ptr is_int64 "MaxNumberOfPermutationKeyValues" l) (fun b => Some (mkMQ k a b))))).

  (** common/errors/error.go:8-10 and server_error.go:9-13 *)
  Definition enc_error (msg : string) : json := JObj [("Message"%string, JStr msg)].
  Definition dec_error : decoder string := struct EmptyString (val EmptyString is_string "Message").
End Encoding.

(** client.go:9-23 ObjectEncodeRequest and ModelEncodeRequest, and server.go:88-121 ModelEncodeResponse: what is sent of a
    model that is valid; [None] = an error instead *)
Definition send {A} (valid : A -> bool) (enc : A -> json) (a : A) : option json := if valid a then Some (on_wire (enc a)) else None.
(** server.go:36-68 ModelDecodeRequest and ObjectDecodeRequest, client.go:33-45 ModelDecodeResponse; [None] = an error.  The
    body is [None] when it is no JSON. *)
Definition receive {A} (valid : A -> bool) (dec : decoder A) (body : option json) : option A :=
  bind body (fun j => bind (dec j) (fun a => if valid a then Some a else None)).
