(** Specification of typed values: which (tag, payload) pairs are legal and how they are ordered.
    Written without any of the model's decision functions. *)
From Coq Require Import SpecFloat.
From Verif Require Import Datatypes.

(** The 14 legal tag/payload combinations. *)
Inductive well_typed : Z -> payload -> Prop :=
| wt_uint8 z : well_typed 1 (PInt KUint8 z)
| wt_uint16 z : well_typed 2 (PInt KUint16 z)
| wt_uint32 z : well_typed 3 (PInt KUint32 z)
| wt_uint64 z : well_typed 4 (PInt KUint64 z)
| wt_uint z : well_typed 5 (PInt KUint z)
| wt_int8 z : well_typed 6 (PInt KInt8 z)
| wt_int16 z : well_typed 7 (PInt KInt16 z)
| wt_int32 z : well_typed 8 (PInt KInt32 z)
| wt_int64 z : well_typed 9 (PInt KInt64 z)
| wt_int z : well_typed 10 (PInt KInt z)
| wt_float32 f : well_typed 11 (PFloat32 f)
| wt_float64 f : well_typed 12 (PFloat64 f)
| wt_string s : well_typed 13 (PString s)
| wt_any : well_typed 1024 PNil.

(** The tags 1..13 and 1024. *)
Definition known_tag (t : Z) : Prop := 1 <= t <= 13 \/ t = 1024.

Definition is_nan (p : payload) : Prop := p = PFloat32 S754_nan \/ p = PFloat64 S754_nan.

(** A value as it can be stored: well typed and not NaN. *)
Definition good (e : EV) : Prop := well_typed (ev_type e) (ev_data e) /\ ~ is_nan (ev_data e).

(** Bytewise lexicographic order on strings. *)
Definition str_lt (a b : string) : Prop :=
  (exists x r, b = (a ++ String x r)%string) \/
  (exists p x y r r', a = (p ++ String x r)%string /\ b = (p ++ String y r')%string
                      /\ (N_of_ascii x < N_of_ascii y)%N).

(** IEEE order on non-NaN floats, by cases. *)
Definition sf_lt (x y : spec_float) : Prop := SFcompare x y = Some Lt.

(** Order of payloads of one type. *)
Inductive payload_lt : payload -> payload -> Prop :=
| plt_int k x y : x < y -> payload_lt (PInt k x) (PInt k y)
| plt_f32 x y : sf_lt x y -> payload_lt (PFloat32 x) (PFloat32 y)
| plt_f64 x y : sf_lt x y -> payload_lt (PFloat64 x) (PFloat64 y)
| plt_str x y : str_lt x y -> payload_lt (PString x) (PString y).

(** Storage order: tag first, then payload; 1024 (Any) is the greatest tag. *)
Definition value_lt (a b : EV) : Prop :=
  ev_type a < ev_type b \/ (ev_type a = ev_type b /\ payload_lt (ev_data a) (ev_data b)).

(** Payload equality up to the two float zeros. *)
Inductive same_payload : payload -> payload -> Prop :=
| sp_eq p : same_payload p p
| sp_z32 s s' : same_payload (PFloat32 (S754_zero s)) (PFloat32 (S754_zero s'))
| sp_z64 s s' : same_payload (PFloat64 (S754_zero s)) (PFloat64 (S754_zero s')).
Definition same_value (a b : EV) : Prop :=
  ev_type a = ev_type b /\ same_payload (ev_data a) (ev_data b).

(** Values representable by each Go integer kind (int/uint are 64 bit). *)
Definition kind_min (k : ikind) : Z :=
  match k with
  | KUint8 | KUint16 | KUint32 | KUint64 | KUint => 0
  | KInt8 => -128 | KInt16 => -32768 | KInt32 => -2147483648
  | KInt64 | KInt => -9223372036854775808
  end.
Definition kind_max (k : ikind) : Z :=
  match k with
  | KUint8 => 255 | KUint16 => 65535 | KUint32 => 4294967295
  | KUint64 | KUint => 18446744073709551615
  | KInt8 => 127 | KInt16 => 32767 | KInt32 => 2147483647
  | KInt64 | KInt => 9223372036854775807
  end.
Definition go_payload (p : payload) : Prop :=
  match p with PInt k z => kind_min k <= z <= kind_max k | _ => True end.
