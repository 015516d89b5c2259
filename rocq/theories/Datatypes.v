(** Model of pkg/models/datatypes: typed ("encapsulated") values, their order, validation and wire
    encoding.  No proofs in this file. *)
From Coq Require Export ZArith String Ascii List Bool Lia.
From Coq Require Import SpecFloat.
Export ListNotations.
Open Scope Z_scope.

(** * Type tags: pkg/models/datatypes/datatypes.go:13-37 *)
Definition T_uint8 : Z := 1.
Definition T_uint16 : Z := 2.
Definition T_uint32 : Z := 3.
Definition T_uint64 : Z := 4.
Definition T_uint : Z := 5.
Definition T_int8 : Z := 6.
Definition T_int16 : Z := 7.
Definition T_int32 : Z := 8.
Definition T_int64 : Z := 9.
Definition T_int : Z := 10.
Definition T_float32 : Z := 11.
Definition T_float64 : Z := 12.
Definition T_string : Z := 13.
Definition T_any : Z := 1024.

(** datatypes.go:34-36 *)
Definition MinDataType : Z := T_uint8.
Definition MaxDataType : Z := T_any.
Definition MaxWithoutAnyDataType : Z := T_string.

(** datatypes.go:31 [AnyDataType] and :32 [GeneralDataTypes] (map lookups, absent = false). *)
Definition AnyDataType (t : Z) : bool := t =? T_any.
Definition GeneralDataTypes (t : Z) : bool :=
  existsb (Z.eqb t)
    [T_uint; T_uint8; T_uint16; T_uint32; T_uint64; T_int; T_int8; T_int16; T_int32; T_int64;
     T_float32; T_float64; T_string].

(** datatypes.go:40-50 [DataType.Less] *)
Definition dt_less (a b : Z) : bool :=
  if (a =? T_any) || (b =? T_any) then false else a <? b.

(** datatypes.go:53-55 [DataType.LessMatchType] *)
Definition dt_lmt (a b : Z) : bool := a <? b.

(** datatypes.go:93-106 [DataType.Validate]; true = nil error *)
Definition dt_validate (t mn mx : Z) : bool :=
  if (t <? mn) || (mx <? t) then false else AnyDataType t || GeneralDataTypes t.

(** * Go dynamic values that can sit in the [Data any] field.
    encapsulated_value.go:14-20.  A Go integer kind with its value, a float32/float64 (IEEE value as
    [spec_float]), a string (bytes), nil, or any other dynamic type ([POther]). *)
Inductive ikind :=
| KUint8 | KUint16 | KUint32 | KUint64 | KUint
| KInt8 | KInt16 | KInt32 | KInt64 | KInt.

Inductive payload :=
| PNil
| PInt (k : ikind) (z : Z)
| PFloat32 (f : spec_float)
| PFloat64 (f : spec_float)
| PString (s : string)
| POther.

Record EV := mkEV { ev_type : Z; ev_data : payload }.

Definition ikind_eqb (a b : ikind) : bool :=
  match a, b with
  | KUint8, KUint8 | KUint16, KUint16 | KUint32, KUint32 | KUint64, KUint64 | KUint, KUint
  | KInt8, KInt8 | KInt16, KInt16 | KInt32, KInt32 | KInt64, KInt64 | KInt, KInt => true
  | _, _ => false
  end.

(** Go's [<] on strings: bytewise lexicographic. *)
Fixpoint str_ltb (a b : string) : bool :=
  match a, b with
  | EmptyString, EmptyString => false
  | EmptyString, String _ _ => true
  | String _ _, EmptyString => false
  | String x a', String y b' =>
      if (N_of_ascii x <? N_of_ascii y)%N then true
      else if (N_of_ascii y <? N_of_ascii x)%N then false
      else str_ltb a' b'
  end.

(** The type assertions [ev.Data.(K) < other.Data.(K)]; [None] = the run-time panic of a failed
    assertion. *)
Definition lt_int (k : ikind) (a b : payload) : option bool :=
  match a, b with
  | PInt ka x, PInt kb y =>
      if ikind_eqb ka k && ikind_eqb kb k then Some (x <? y) else None
  | _, _ => None
  end.
Definition lt_f32 (a b : payload) : option bool :=
  match a, b with PFloat32 x, PFloat32 y => Some (SFltb x y) | _, _ => None end.
Definition lt_f64 (a b : payload) : option bool :=
  match a, b with PFloat64 x, PFloat64 y => Some (SFltb x y) | _, _ => None end.
Definition lt_str (a b : payload) : option bool :=
  match a, b with PString x, PString y => Some (str_ltb x y) | _, _ => None end.

(** The switch shared by encapsulated_value.go:43-72 and :91-117 (cases uint8..string); [None] is a
    panic (unknown tag or failed assertion). *)
Definition lt_by_tag (t : Z) (a b : payload) : option bool :=
  if t =? T_uint8 then lt_int KUint8 a b
  else if t =? T_uint16 then lt_int KUint16 a b
  else if t =? T_uint32 then lt_int KUint32 a b
  else if t =? T_uint64 then lt_int KUint64 a b
  else if t =? T_uint then lt_int KUint a b
  else if t =? T_int8 then lt_int KInt8 a b
  else if t =? T_int16 then lt_int KInt16 a b
  else if t =? T_int32 then lt_int KInt32 a b
  else if t =? T_int64 then lt_int KInt64 a b
  else if t =? T_int then lt_int KInt a b
  else if t =? T_float32 then lt_f32 a b
  else if t =? T_float64 then lt_f64 a b
  else if t =? T_string then lt_str a b
  else None.

(** encapsulated_value.go:38-73 [lessValue] *)
Definition lessValue (a b : EV) : option bool :=
  if (ev_type a =? T_any) || (ev_type b =? T_any) then Some false
  else lt_by_tag (ev_type a) (ev_data a) (ev_data b).

(** encapsulated_value.go:23-36 [Less]; [None] = panic *)
Definition less_go (a b : EV) : option bool :=
  if dt_less (ev_type a) (ev_type b) then Some true
  else if dt_less (ev_type b) (ev_type a) then Some false
  else lessValue a b.

(** encapsulated_value.go:90-123 [lessValueMatchTyoe] *)
Definition lessValueMatchType (a b : EV) : option bool :=
  if ev_type a =? T_any then Some false
  else lt_by_tag (ev_type a) (ev_data a) (ev_data b).

(** encapsulated_value.go:76-88 [LessMatchType]; [None] = panic *)
Definition lmt_go (a b : EV) : option bool :=
  if dt_lmt (ev_type a) (ev_type b) then Some true
  else if dt_lmt (ev_type b) (ev_type a) then Some false
  else lessValueMatchType a b.

(** Total versions used by the data-structure models.  On validated values the Go code never panics here
    ([lmt_go_total], [less_go_total]); the default [false] is only reached outside that guard. *)
Definition oget (o : option bool) : bool := match o with Some b => b | None => false end.
Definition less (a b : EV) : bool := oget (less_go a b).
Definition lmt (a b : EV) : bool := oget (lmt_go a b).

(** * Validation: encapsulated_value.go:160-241 [Validate]/[ValidateTypeAndData]; true = nil error *)
Definition kind_is_int (k : ikind) (p : payload) : bool :=
  match p with PInt k' _ => ikind_eqb k' k | _ => false end.
Definition is_nil (p : payload) : bool := match p with PNil => true | _ => false end.
(** encapsulated_value.go:165-234, the switch on the type *)
Definition typeDataSwitch (t : Z) (p : payload) : bool :=
    if AnyDataType t then is_nil p
    else if GeneralDataTypes t then
      if is_nil p then false
      else if t =? T_uint8 then kind_is_int KUint8 p
      else if t =? T_uint16 then kind_is_int KUint16 p
      else if t =? T_uint32 then kind_is_int KUint32 p
      else if t =? T_uint64 then kind_is_int KUint64 p
      else if t =? T_uint then kind_is_int KUint p
      else if t =? T_int8 then kind_is_int KInt8 p
      else if t =? T_int16 then kind_is_int KInt16 p
      else if t =? T_int32 then kind_is_int KInt32 p
      else if t =? T_int64 then kind_is_int KInt64 p
      else if t =? T_int then kind_is_int KInt p
      else if t =? T_float32 then match p with PFloat32 _ => true | _ => false end
      else if t =? T_float64 then match p with PFloat64 _ => true | _ => false end
      else if t =? T_string then match p with PString _ => true | _ => false end
      else true
    else false.
(** encapsulated_value.go:164-241, the switch and then the range check :236-238 *)
Definition validateTypeAndData (t mn mx : Z) (p : payload) : bool :=
  if typeDataSwitch t p then negb ((t <? mn) || (mx <? t)) else false.

Definition ev_validate (e : EV) (mn mx : Z) : bool := validateTypeAndData (ev_type e) mn mx (ev_data e).

(** encapsulated_value.go:473-478 [Any()] *)
Definition Any : EV := mkEV T_any PNil.
(** encapsulated_value.go:378-470, the constructors used in examples *)
Definition Int (z : Z) : EV := mkEV T_int (PInt KInt z).
Definition Str (s : string) : EV := mkEV T_string (PString s).
Definition Uint8 (z : Z) : EV := mkEV T_uint8 (PInt KUint8 z).
Definition Float64 (f : spec_float) : EV := mkEV T_float64 (PFloat64 f).

(** * Key values: map_string_encapsulated_value.go.  A Go map is modelled by an association list without
    duplicate keys. *)
Definition KeyValues := list (string * EV).

(** map_string_encapsulated_value.go:40-52 *)
Definition kv_validate (kv : KeyValues) (mn mx : Z) : bool :=
  match kv with
  | [] => false
  | _ => forallb (fun p => ev_validate (snd p) mn mx) kv
  end.

Fixpoint kv_get (kv : KeyValues) (k : string) : option EV :=
  match kv with
  | [] => None
  | (k', v) :: r => if String.eqb k' k then Some v else kv_get r k
  end.

Definition kv_keys (kv : KeyValues) : list string := map fst kv.

(** map_string_encapsulated_value.go:29-38 [SortedKeys]: [sort.Strings], modelled by insertion sort *)
Fixpoint str_insert (s : string) (l : list string) : list string :=
  match l with
  | [] => [s]
  | x :: r => if str_ltb x s then x :: str_insert s r else s :: l
  end.
Definition sort_strings (l : list string) : list string := fold_right str_insert [] l.
Definition sorted_keys (kv : KeyValues) : list string := sort_strings (kv_keys kv).

(** * Type restrictions: pkg/models/api/common/v1/type_restrictions.go:10-51 *)
Record TypeRestrictions := mkTR { tr_min : Z; tr_max : Z }.

Definition tr_validate (r : TypeRestrictions) : bool :=
  if GeneralDataTypes (tr_min r) || AnyDataType (tr_min r) then
    if GeneralDataTypes (tr_max r) || AnyDataType (tr_max r) then
      negb (tr_max r <? tr_min r)
    else false
  else false.

Definition tr_within (r : TypeRestrictions) (t : Z) : bool :=
  if t <? tr_min r then false else if tr_max r <? t then false else true.

(** * Wire encoding: encapsulated_value.go:243-375.
    The JSON value in the [Data] field: null, a string, or anything else. *)
Inductive wire := WNull | WString (s : string) | WOther.

Definition digit (d : N) : ascii := ascii_of_N (48 + d).

(** strconv.FormatUint(_, 10).  [fuel] bounds the number of digits; [S (N.size_nat n)] suffices. *)
Fixpoint fmt_uint_fuel (fuel : nat) (n : N) (acc : string) : string :=
  match fuel with
  | O => acc
  | S f =>
      let acc' := String (digit (n mod 10)) acc in
      if (n / 10 =? 0)%N then acc' else fmt_uint_fuel f (n / 10) acc'
  end.
Definition fmt_uint (n : N) : string := fmt_uint_fuel (S (N.size_nat n)) n EmptyString.
(** strconv.FormatInt(_, 10) *)
Definition fmt_int (z : Z) : string :=
  if z <? 0 then String "-" (fmt_uint (Z.to_N (- z))) else fmt_uint (Z.to_N z).

(** strconv.ParseUint(s, 10, bits): the digit loop; [None] is any error (syntax or range).  Go detects
    overflow during the loop with a cutoff; the accepted set is the same: all digits and value <= 2^bits-1. *)
Definition digit_val (c : ascii) : option N :=
  let n := N_of_ascii c in
  if ((48 <=? n) && (n <=? 57))%N then Some (n - 48)%N else None.
Fixpoint parse_digits (s : string) (acc : N) : option N :=
  match s with
  | EmptyString => Some acc
  | String c r => match digit_val c with
                  | Some d => parse_digits r (10 * acc + d)%N
                  | None => None
                  end
  end.
Definition parse_uint (s : string) (bits : N) : option N :=
  match s with
  | EmptyString => None
  | _ => match parse_digits s 0 with
         | Some n => if (n <? 2 ^ bits)%N then Some n else None
         | None => None
         end
  end.
(** strconv.ParseInt(s, 10, bits) *)
Definition parse_int (s : string) (bits : N) : option Z :=
  let go (neg : bool) (r : string) :=
    match r with
    | EmptyString => None
    | _ => match parse_digits r 0 with
           | Some n =>
               let cutoff := (2 ^ (bits - 1))%N in
               if neg then if (cutoff <? n)%N then None else Some (- Z.of_N n)
               else if (cutoff <=? n)%N then None else Some (Z.of_N n)
           | None => None
           end
    end in
  match s with
  | EmptyString => None
  | String c r =>
      if Ascii.eqb c "+" then go false r
      else if Ascii.eqb c "-" then go true r
      else go false s
  end.

Section Wire.
  (** strconv.FormatFloat(_, 'E', -1, 32|64) and strconv.ParseFloat(_, 32|64) are external; the flag is
      true for float64. *)
  Variable fmt_float : bool -> spec_float -> string.
  Variable parse_float : bool -> string -> option spec_float.

  (** encapsulated_value.go:244-275 [StringEncoding]; [None] = panic (failed type assertion) *)
  Definition enc_uint (k : ikind) (p : payload) : option wire :=
    match p with PInt k' z => if ikind_eqb k' k then Some (WString (fmt_uint (Z.to_N z))) else None | _ => None end.
  Definition enc_int (k : ikind) (p : payload) : option wire :=
    match p with PInt k' z => if ikind_eqb k' k then Some (WString (fmt_int z)) else None | _ => None end.
  Definition stringEncoding (t : Z) (p : payload) : option wire :=
    if t =? T_any then Some WNull
    else if t =? T_string then match p with PString s => Some (WString s) | _ => None end
    else if t =? T_uint then enc_uint KUint p
    else if t =? T_uint8 then enc_uint KUint8 p
    else if t =? T_uint16 then enc_uint KUint16 p
    else if t =? T_uint32 then enc_uint KUint32 p
    else if t =? T_uint64 then enc_uint KUint64 p
    else if t =? T_int then enc_int KInt p
    else if t =? T_int8 then enc_int KInt8 p
    else if t =? T_int16 then enc_int KInt16 p
    else if t =? T_int32 then enc_int KInt32 p
    else if t =? T_int64 then enc_int KInt64 p
    else if t =? T_float32 then match p with PFloat32 f => Some (WString (fmt_float false f)) | _ => None end
    else match p with PFloat64 f => Some (WString (fmt_float true f)) | _ => None end.

  (** encapsulated_value.go:278-375 [StringDecoding]; [None] = error *)
  Definition dec_uint (k : ikind) (s : string) (bits : N) : option payload :=
    match parse_uint s bits with Some n => Some (PInt k (Z.of_N n)) | None => None end.
  Definition dec_int (k : ikind) (s : string) (bits : N) : option payload :=
    match parse_int s bits with Some z => Some (PInt k z) | None => None end.
  Definition stringDecoding (t : Z) (w : wire) : option payload :=
    if AnyDataType t then match w with WNull => Some PNil | _ => None end
    else if GeneralDataTypes t then
      match w with
      | WString s =>
          if t =? T_uint then dec_uint KUint s 64
          else if t =? T_uint8 then dec_uint KUint8 s 8
          else if t =? T_uint16 then dec_uint KUint16 s 16
          else if t =? T_uint32 then dec_uint KUint32 s 32
          else if t =? T_uint64 then dec_uint KUint64 s 64
          else if t =? T_int then dec_int KInt s 64
          else if t =? T_int8 then dec_int KInt8 s 8
          else if t =? T_int16 then dec_int KInt16 s 16
          else if t =? T_int32 then dec_int KInt32 s 32
          else if t =? T_int64 then dec_int KInt64 s 64
          else if t =? T_float32 then
            match parse_float false s with Some f => Some (PFloat32 f) | None => None end
          else if t =? T_float64 then
            match parse_float true s with Some f => Some (PFloat64 f) | None => None end
          else if t =? T_string then Some (PString s)
          else None
      | _ => None
      end
    else None.
End Wire.
