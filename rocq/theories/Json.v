(** Model of Go's encoding/json (go 1.22) as far as the API models of willow use it.  No proofs in this file.

    A body is the tree that a parser makes of it.  What is not modelled: the text (escapes, spaces, the order of the
    members of a map), numbers that are no integers (all are [JFrac]), the depth limit of the decoder. *)
From Coq Require Import String Ascii List Bool NArith ZArith.
Import ListNotations.
Local Open Scope bool_scope.
Local Open Scope list_scope.

Inductive json :=
| JNull | JBool (b : bool) | JNum (z : Z) | JFrac | JStr (s : string) | JArr (l : list json) | JObj (l : list (string * json)).

(** ** Strings *)
(** The first bytes and the second bytes that unicode/utf8 DecodeRuneInString accepts (tables first and acceptRanges).
    The result: how many bytes follow, and the range of the first of them; those after it are 0x80..0xBF. *)
Definition utf8_lead (b : N) : option (nat * N * N) :=
  (if b <? 194 then None
   else if b <? 224 then Some (1%nat, 128, 191)
   else if b =? 224 then Some (2%nat, 160, 191)
   else if b =? 237 then Some (2%nat, 128, 159)
   else if b <? 240 then Some (2%nat, 128, 191)
   else if b =? 240 then Some (3%nat, 144, 191)
   else if b <? 244 then Some (3%nat, 128, 191)
   else if b =? 244 then Some (3%nat, 128, 143)
   else None)%N.
Definition between (lo hi : N) (c : ascii) : bool := ((lo <=? N_of_ascii c) && (N_of_ascii c <=? hi))%N.
(** U+FFFD *)
Definition replacement (r : string) : string := String "239" (String "191" (String "189" r)).
(** encode.go appendString: a byte that is not part of a well formed character becomes U+FFFD *)
Fixpoint utf8_fix (s : string) : string :=
  match s with
  | EmptyString => EmptyString
  | String c r =>
      if (N_of_ascii c <? 128)%N then String c (utf8_fix r)
      else match utf8_lead (N_of_ascii c) with
           | None => replacement (utf8_fix r)
           | Some (n, lo, hi) =>
               match r with
               | EmptyString => replacement EmptyString
               | String c1 r1 =>
                   if negb (between lo hi c1) then replacement (utf8_fix r)
                   else match n, r1 with
                        | 1%nat, _ => String c (String c1 (utf8_fix r1))
                        | _, EmptyString => replacement (utf8_fix r)
                        | _, String c2 r2 =>
                            if negb (between 128 191 c2) then replacement (utf8_fix r)
                            else match n, r2 with
                                 | 2%nat, _ => String c (String c1 (String c2 (utf8_fix r2)))
                                 | _, EmptyString => replacement (utf8_fix r)
                                 | _, String c3 r3 =>
                                     if negb (between 128 191 c3) then replacement (utf8_fix r)
                                     else String c (String c1 (String c2 (String c3 (utf8_fix r3))))
                                 end
                        end
               end
           end
  end.

(** What a value becomes on its way through json.Marshal and a decoder: its strings are repaired *)
Fixpoint on_wire (j : json) : json :=
  match j with
  | JStr s => JStr (utf8_fix s)
  | JArr l => JArr (map on_wire l)
  | JObj l => JObj (map (fun p => (utf8_fix (fst p), on_wire (snd p))) l)
  | _ => j
  end.

(** ** Objects *)
(** fold.go, for ASCII *)
Definition lower (c : ascii) : ascii :=
  let n := N_of_ascii c in if ((65 <=? n) && (n <=? 90))%N then ascii_of_N (n + 32) else c.
Fixpoint fold_name (s : string) : string :=
  match s with EmptyString => EmptyString | String c r => String (lower c) (fold_name r) end.
(** decode.go object: the last member whose name is the field's, up to case; a pointer that occurs twice would be
    decoded into the same struct, which is not modelled *)
Definition member (name : string) (l : list (string * json)) : option json :=
  fold_left (fun r p => if String.eqb (fold_name (fst p)) (fold_name name) then Some (snd p) else r) l None.

(** Results of decoding: [None] is an error *)
Definition bind {A B} (o : option A) (f : A -> option B) : option B := match o with Some a => f a | None => None end.
Definition decoder A := json -> option A.
(** The fields of a struct; null leaves a struct alone *)
Definition struct {A} (zero : A) (f : list (string * json) -> option A) : decoder A :=
  fun j => match j with JObj l => f l | JNull => Some zero | _ => None end.
(** A field that is a pointer: absent and null are nil *)
Definition ptr {A} (d : decoder A) (name : string) (l : list (string * json)) : option (option A) :=
  match member name l with
  | None | Some JNull => Some None
  | Some j => option_map Some (d j)
  end.
(** A field that is no pointer: absent and null leave its zero value *)
Definition val {A} (zero : A) (d : decoder A) (name : string) (l : list (string * json)) : option A :=
  match member name l with
  | None | Some JNull => Some zero
  | Some j => d j
  end.
Definition is_bool : decoder bool := fun j => match j with JBool b => Some b | _ => None end.
Definition is_string : decoder string := fun j => match j with JStr s => Some s | _ => None end.
(** Integers of 64 bits *)
Definition is_int64 : decoder Z := fun j =>
  match j with JNum z => if ((-9223372036854775808 <=? z) && (z <=? 9223372036854775807))%Z then Some z else None | _ => None end.
Definition is_uint64 : decoder Z := fun j =>
  match j with JNum z => if ((0 <=? z) && (z <=? 18446744073709551615))%Z then Some z else None | _ => None end.
Fixpoint all_some {A} (l : list (option A)) : option (list A) :=
  match l with
  | [] => Some []
  | x :: r => bind x (fun a => bind (all_some r) (fun l => Some (a :: l)))
  end.
(** A slice, of pointers or of values *)
Definition slice {A} (d : decoder A) : decoder (list A) := fun j =>
  match j with JArr l => all_some (map d l) | _ => None end.
(** A map: a later member replaces an earlier one of the same name *)
Fixpoint put {A} (k : string) (v : A) (l : list (string * A)) : list (string * A) :=
  match l with
  | [] => [(k, v)]
  | (k', v') :: r => if String.eqb k' k then (k', v) :: r else (k', v') :: put k v r
  end.
Fixpoint put_all {A} (l acc : list (string * A)) : list (string * A) :=
  match l with [] => acc | (k, v) :: r => put_all r (put k v acc) end.
Definition obj {A} (d : decoder A) : decoder (list (string * A)) := fun j =>
  match j with
  | JObj l => bind (all_some (map (fun p => option_map (pair (fst p)) (d (snd p))) l)) (fun l => Some (put_all l []))
  | JNull => Some []
  | _ => None
  end.

(** Encoding: a pointer field with omitempty, and one without *)
Definition opt_field {A} (name : string) (e : A -> json) (o : option A) : list (string * json) :=
  match o with Some a => [(name, e a)] | None => [] end.
Definition null_or {A} (e : A -> json) (o : option A) : json := match o with Some a => e a | None => JNull end.
(** A slice or map with omitempty *)
Definition list_field {A} (name : string) (e : list A -> json) (l : list A) : list (string * json) :=
  match l with [] => [] | _ => [(name, e l)] end.
Definition enc_obj {A} (e : A -> json) (l : list (string * A)) : json := JObj (map (fun p => (fst p, e (snd p))) l).

(** ** []byte: a string in base64 (encoding/base64 StdEncoding; the decoder also skips line breaks, which is not
    modelled) *)
Local Open Scope N_scope.
Definition b64_char (n : N) : ascii :=
  ascii_of_N (if n <? 26 then n + 65 else if n <? 52 then n + 71 else if n <? 62 then n - 4 else if n =? 62 then 43 else 47).
Definition b64_value (c : ascii) : option N :=
  let n := N_of_ascii c in
  if between 65 90 c then Some (n - 65)
  else if between 97 122 c then Some (n - 71)
  else if between 48 57 c then Some (n + 4)
  else if n =? 43 then Some 62
  else if n =? 47 then Some 63
  else None.
Definition pad : ascii := "="%char.
Fixpoint b64_encode (s : string) : string :=
  match s with
  | EmptyString => EmptyString
  | String a EmptyString =>
      let x := N_of_ascii a * 65536 in
      String (b64_char (x / 262144)) (String (b64_char (x / 4096 mod 64)) (String pad (String pad EmptyString)))
  | String a (String b EmptyString) =>
      let x := N_of_ascii a * 65536 + N_of_ascii b * 256 in
      String (b64_char (x / 262144)) (String (b64_char (x / 4096 mod 64)) (String (b64_char (x / 64 mod 64)) (String pad EmptyString)))
  | String a (String b (String c r)) =>
      let x := N_of_ascii a * 65536 + N_of_ascii b * 256 + N_of_ascii c in
      String (b64_char (x / 262144)) (String (b64_char (x / 4096 mod 64)) (String (b64_char (x / 64 mod 64)) (String (b64_char (x mod 64)) (b64_encode r))))
  end.
Fixpoint b64_decode (s : string) : option string :=
  match s with
  | EmptyString => Some EmptyString
  | String a (String b (String c (String d r))) =>
      bind (b64_value a) (fun a => bind (b64_value b) (fun b =>
        if Ascii.eqb c pad then
          if Ascii.eqb d pad && match r with EmptyString => true | _ => false end
          then Some (String (ascii_of_N (a * 4 + b / 16)) EmptyString)
          else None
        else bind (b64_value c) (fun c =>
          if Ascii.eqb d pad then
            match r with
            | EmptyString => Some (String (ascii_of_N (a * 4 + b / 16)) (String (ascii_of_N (b mod 16 * 16 + c / 4)) EmptyString))
            | _ => None
            end
          else bind (b64_value d) (fun d => bind (b64_decode r) (fun r =>
            Some (String (ascii_of_N (a * 4 + b / 16)) (String (ascii_of_N (b mod 16 * 16 + c / 4)) (String (ascii_of_N (c mod 4 * 64 + d)) r))))))))
  | _ => None
  end.
Definition is_bytes : decoder string := fun j => match j with JStr s => b64_decode s | _ => None end.
