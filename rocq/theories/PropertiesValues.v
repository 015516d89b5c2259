(** Properties C01-C05: typed values. *)
From Coq Require Import SpecFloat.
From Verif Require Import Datatypes SpecValues DatatypesProofs PropLemmasValues.

(** C01: the storage order never panics on legal values and is exactly "tag first, then payload". *)
Theorem C01_order_is_tag_then_payload : forall a b,
  well_typed (ev_type a) (ev_data a) -> well_typed (ev_type b) (ev_data b) ->
  exists r, lmt_go a b = Some r /\ (r = true <-> value_lt a b).
Proof. exact order_is_tag_then_payload. Qed.
Print Assumptions C01_order_is_tag_then_payload.

(** C01: strict total order on legal non-NaN values. *)
Theorem C01_strict_total_order :
  (forall a, lmt a a = false) /\
  (forall a b, good a -> good b -> lmt a b = true -> lmt b a = false) /\
  (forall a b c, good a -> good b -> good c -> lmt a b = true -> lmt b c = true -> lmt a c = true) /\
  (forall a b, good a -> good b -> (lmt a b = false /\ lmt b a = false) <-> same_value a b) /\
  (forall a b, good a -> good b -> ev_type a <> ev_type b -> lmt a b = true \/ lmt b a = true).
Proof. exact strict_total_order. Qed.
Print Assumptions C01_strict_total_order.

(** C01 fails for NaN: two legal, different values of one type that are not ordered, and "not ordered" is
    not transitive. *)
Theorem C01_nan_refuted : exists a b c,
  well_typed (ev_type a) (ev_data a) /\ well_typed (ev_type b) (ev_data b) /\
  well_typed (ev_type c) (ev_data c) /\
  lmt a b = false /\ lmt b a = false /\ ~ same_value a b /\
  lmt b c = false /\ lmt c b = false /\ lmt a c = true.
Proof. exact nan_breaks_order. Qed.
Print Assumptions C01_nan_refuted.

Example C01_nonvacuous :
  good (Int 3) /\ good (Str "a") /\ lmt (Int 3) (Str "a") = true /\ lmt (Int (-4)) (Int 3) = true.
Proof. exact order_nonvacuous. Qed.

(** C02 *)
Theorem C02_any_comparisons :
  (forall a x, ev_type a = T_any -> less_go a x = Some false /\ less_go x a = Some false) /\
  (forall x, good x -> lmt Any x = false) /\
  (forall x, good x -> x <> Any -> lmt x Any = true) /\
  (forall a b, ev_type a <> T_any -> ev_type b <> T_any -> less_go a b = lmt_go a b).
Proof. exact any_comparisons. Qed.
Print Assumptions C02_any_comparisons.

Example C02_nonvacuous : good Any /\ less (Int 3) Any = false /\ lmt (Int 3) Any = true.
Proof. exact any_nonvacuous. Qed.

(** C03 *)
Theorem C03_validate_exact : forall e mn mx,
  ev_validate e mn mx = true <-> well_typed (ev_type e) (ev_data e) /\ mn <= ev_type e <= mx.
Proof. exact validate_iff. Qed.
Print Assumptions C03_validate_exact.

(** C03, key-value sets: accepted iff non-empty and every value is. *)
Theorem C03_key_values_validate_exact : forall (kv : KeyValues) mn mx,
  kv_validate kv mn mx = true <->
  kv <> [] /\ forall k v, In (k, v) kv -> well_typed (ev_type v) (ev_data v) /\ mn <= ev_type v <= mx.
Proof. exact kv_validate_iff. Qed.
Print Assumptions C03_key_values_validate_exact.

Theorem C03_type_validate_exact : forall t mn mx,
  dt_validate t mn mx = true <-> known_tag t /\ mn <= t <= mx.
Proof. exact dt_validate_iff. Qed.
Print Assumptions C03_type_validate_exact.

Example C03_nonvacuous :
  ev_validate (Str "x") 1 13 = true /\ ev_validate (mkEV 13 (PInt KInt 3)) 1 1024 = false /\
  ev_validate (mkEV 14 PNil) 1 1024 = false /\ ev_validate Any 1 13 = false.
Proof. exact validate_nonvacuous. Qed.

(** C04: round trip for every legal Go value; for floats relative to strconv's own float round trip. *)
Theorem C04_decode_encode : forall fmt_float parse_float t p,
  well_typed t p -> go_payload p -> not_float p ->
  exists w, stringEncoding fmt_float t p = Some w /\ stringDecoding parse_float t w = Some p.
Proof. exact decode_encode_nofloat. Qed.
Print Assumptions C04_decode_encode.

(** Floats, partial: assumes strconv.ParseFloat inverts strconv.FormatFloat on the value in question. *)
Theorem C04_decode_encode_float_partial : forall (fmt_float : bool -> spec_float -> string) parse_float wide f,
  parse_float wide (fmt_float wide f) = Some f ->
  let t := if wide then 12 else 11 in
  let p := if wide then PFloat64 f else PFloat32 f in
  exists w, stringEncoding fmt_float t p = Some w /\ stringDecoding parse_float t w = Some p.
Proof. exact decode_encode_float. Qed.
Print Assumptions C04_decode_encode_float_partial.

Theorem C04_encoding_injective : forall fmt_float t p q w,
  well_typed t p -> well_typed t q -> go_payload p -> go_payload q -> not_float p -> not_float q ->
  stringEncoding fmt_float t p = Some w -> stringEncoding fmt_float t q = Some w -> p = q.
Proof. exact encode_inj. Qed.
Print Assumptions C04_encoding_injective.

(** Decoding never yields a value of another type or outside the type's range, and rejects unknown tags. *)
Theorem C04_decode_sound : forall parse_float t w p,
  stringDecoding parse_float t w = Some p -> well_typed t p /\ go_payload p.
Proof. exact decode_sound. Qed.
Print Assumptions C04_decode_sound.

Theorem C04_decode_unknown_tag : forall parse_float t w,
  ~ known_tag t -> stringDecoding parse_float t w = None.
Proof. exact decode_unknown. Qed.
Print Assumptions C04_decode_unknown_tag.

Example C04_nonvacuous :
  stringEncoding (fun _ _ => EmptyString) 6 (PInt KInt8 (-128)) = Some (WString "-128") /\
  stringDecoding (fun _ _ => None) 6 (WString "-128") = Some (PInt KInt8 (-128)) /\
  stringDecoding (fun _ _ => None) 6 (WString "-129") = None /\
  stringDecoding (fun _ _ => None) 4 (WString "18446744073709551615") = Some (PInt KUint64 18446744073709551615) /\
  stringDecoding (fun _ _ => None) 4 (WString "18446744073709551616") = None /\
  stringDecoding (fun _ _ => None) 1 (WString "1x") = None.
Proof. exact wire_nonvacuous. Qed.

(** C05 *)
Theorem C05_type_restrictions :
  (forall r, tr_validate r = true <-> known_tag (tr_min r) /\ known_tag (tr_max r) /\ tr_min r <= tr_max r) /\
  (forall r t, tr_within r t = true <-> tr_min r <= t <= tr_max r) /\
  (forall e, well_typed (ev_type e) (ev_data e) -> tr_within (mkTR 1 1024) (ev_type e) = true).
Proof. exact type_restrictions_exact. Qed.
Print Assumptions C05_type_restrictions.

Example C05_nonvacuous : tr_validate (mkTR 1 13) = true /\ tr_validate (mkTR 13 1) = false /\ tr_validate (mkTR 1 99) = false.
Proof. exact tr_nonvacuous. Qed.
