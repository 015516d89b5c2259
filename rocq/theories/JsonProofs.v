(** Proofs about Json.v and the encoding of values: bytes, maps, fields. *)
From Coq Require Import String Ascii List Bool NArith ZArith Lia SpecFloat.
Import ListNotations.
From Verif Require Import Datatypes SpecValues DatatypesProofs Query Json Models SpecModels TextProofs.
Local Open Scope list_scope.

(** ** ASCII strings *)
Fixpoint plain_ascii (s : string) : Prop :=
  match s with EmptyString => True | String c r => (N_of_ascii c < 128)%N /\ plain_ascii r end.
Lemma ascii_fix : forall s, plain_ascii s -> utf8_fix s = s.
Proof. induction s as [|c s IH]; [reflexivity|]. intros [H H0]. rewrite fix1 by exact H. f_equal. apply IH, H0. Qed.
Lemma digits_ascii : forall s acc n, parse_digits s acc = Some n -> plain_ascii s.
Proof.
  induction s as [|c s IH]; intros acc n H; [exact I|]. cbn [parse_digits] in H.
  destruct (digit_val c) as [d|] eqn:D; [|discriminate]. split; [|eapply IH; exact H].
  unfold digit_val in D. destruct (N.leb_spec 48 (N_of_ascii c)); [|discriminate].
  destruct (N.leb_spec (N_of_ascii c) 57); [|discriminate]. lia.
Qed.
Lemma fmt_uint_ascii : forall n, plain_ascii (fmt_uint n).
Proof. intros n. eapply digits_ascii. apply (fmt_uint_parse n). Qed.
Lemma fmt_int_ascii : forall z, plain_ascii (fmt_int z).
Proof. intros z. unfold fmt_int. destruct (z <? 0)%Z; [split; [cbn; lia|]|]; apply fmt_uint_ascii. Qed.

(** ** base64 *)
Lemma b64_digit : forall n, (n < 64)%N -> b64_value (b64_char n) = Some n /\ Ascii.eqb (b64_char n) pad = false /\ (N_of_ascii (b64_char n) < 128)%N.
Proof.
  assert (H : forallb (fun k => match b64_value (b64_char (N.of_nat k)) with Some m => N.eqb m (N.of_nat k) | None => false end &&
                                 negb (Ascii.eqb (b64_char (N.of_nat k)) pad) && (N_of_ascii (b64_char (N.of_nat k)) <? 128)%N) (seq 0 64) = true)
    by (vm_compute; reflexivity).
  intros n Hn. rewrite forallb_forall in H. specialize (H (N.to_nat n)).
  rewrite N2Nat.id in H. rewrite !andb_true_iff in H.
  destruct H as [[H H0] H1]; [apply in_seq; lia|].
  split; [|split].
  - destruct (b64_value (b64_char n)) as [m|]; [|discriminate]. apply N.eqb_eq in H. subst m. reflexivity.
  - destruct (Ascii.eqb (b64_char n) pad); [discriminate|reflexivity].
  - apply N.ltb_lt. exact H1.
Qed.
Ltac Zify.zify_post_hook ::= Z.to_euclidean_division_equations.
Lemma sextets : forall a b c, (a < 256)%N -> (b < 256)%N -> (c < 256)%N -> forall x, (x = a * 65536 + b * 256 + c)%N ->
  ((x / 262144 < 64)%N /\ (x / 4096 mod 64 < 64)%N /\ (x / 64 mod 64 < 64)%N /\ (x mod 64 < 64)%N) /\
  (x / 262144 * 4 + x / 4096 mod 64 / 16 = a)%N /\ (x / 4096 mod 64 mod 16 * 16 + x / 64 mod 64 / 4 = b)%N /\
  (x / 64 mod 64 mod 4 * 64 + x mod 64 = c)%N.
Proof.
  intros a b c Ha Hb Hc x Hx.
  assert (E0 : (x / 262144 = a / 4)%N) by (subst x; symmetry; apply N.div_unique with (r := ((a mod 4) * 65536 + b * 256 + c)%N); lia).
  assert (E1 : (x / 4096 = a * 16 + b / 16)%N) by (subst x; symmetry; apply N.div_unique with (r := ((b mod 16) * 256 + c)%N); lia).
  assert (E2 : (x / 64 = a * 1024 + b * 4 + c / 64)%N) by (subst x; symmetry; apply N.div_unique with (r := (c mod 64)%N); lia).
  assert (E3 : (x mod 64 = c mod 64)%N) by (subst x; symmetry; apply N.mod_unique with (q := (a * 1024 + b * 4 + c / 64)%N); lia).
  assert (E4 : ((a * 16 + b / 16) mod 64 = a mod 4 * 16 + b / 16)%N) by (symmetry; apply N.mod_unique with (q := (a / 4)%N); lia).
  assert (E5 : ((a * 1024 + b * 4 + c / 64) mod 64 = b mod 16 * 4 + c / 64)%N) by (symmetry; apply N.mod_unique with (q := (a * 16 + b / 16)%N); lia).
  rewrite E0, E1, E2, E3, E4, E5. clear E0 E1 E2 E3 E4 E5 Hx x.
  repeat split; try lia.
Qed.
Ltac Zify.zify_post_hook ::= idtac.
Lemma b64_roundtrip_ascii : forall n s, (String.length s <= n)%nat ->
  b64_decode (b64_encode s) = Some s /\ plain_ascii (b64_encode s).
Proof.
  induction n as [|n IH]; intros s Hs.
  { destruct s; [split; [reflexivity|exact I]|cbn in Hs; lia]. }
  destruct s as [|a [|b [|c r]]].
  - split; [reflexivity|exact I].
  - destruct (sextets (N_of_ascii a) 0 0 (ascii_small a) ltac:(lia) ltac:(lia) (N_of_ascii a * 65536) ltac:(lia)) as [[H0 [H1 [H2 H3]]] [Ea [Eb Ec]]].
    destruct (b64_digit _ H0) as [V0 [P0 A0]], (b64_digit _ H1) as [V1 [P1 A1]].
    cbn [b64_encode b64_decode]. rewrite V0, V1. cbn [bind]. rewrite Ascii.eqb_refl. cbn [andb].
    split; [rewrite Ea, ascii_N_embedding; reflexivity|]. cbn [plain_ascii]. repeat split; auto; vm_compute; reflexivity.
  - destruct (sextets (N_of_ascii a) (N_of_ascii b) 0 (ascii_small a) (ascii_small b) ltac:(lia) (N_of_ascii a * 65536 + N_of_ascii b * 256) ltac:(lia)) as [[H0 [H1 [H2 H3]]] [Ea [Eb Ec]]].
    destruct (b64_digit _ H0) as [V0 [P0 A0]], (b64_digit _ H1) as [V1 [P1 A1]], (b64_digit _ H2) as [V2 [P2 A2]].
    cbn [b64_encode b64_decode]. rewrite V0, V1, P2, V2. cbn [bind]. rewrite Ascii.eqb_refl.
    split; [rewrite Ea, Eb, !ascii_N_embedding; reflexivity|]. cbn [plain_ascii]. repeat split; auto; vm_compute; reflexivity.
  - destruct (sextets (N_of_ascii a) (N_of_ascii b) (N_of_ascii c) (ascii_small a) (ascii_small b) (ascii_small c)
                (N_of_ascii a * 65536 + N_of_ascii b * 256 + N_of_ascii c) ltac:(lia)) as [[H0 [H1 [H2 H3]]] [Ea [Eb Ec]]].
    destruct (b64_digit _ H0) as [V0 [P0 A0]], (b64_digit _ H1) as [V1 [P1 A1]], (b64_digit _ H2) as [V2 [P2 A2]], (b64_digit _ H3) as [V3 [P3 A3]].
    destruct (IH r) as [D A]; [cbn in Hs; lia|].
    cbn [b64_encode b64_decode]. rewrite V0, V1, P2, V2, P3, V3, D. cbn [bind].
    split; [rewrite Ea, Eb, Ec, !ascii_N_embedding; reflexivity|]. cbn [plain_ascii]. repeat split; auto.
Qed.
Lemma b64_roundtrip : forall s, b64_decode (utf8_fix (b64_encode s)) = Some s.
Proof. intros s. destruct (b64_roundtrip_ascii (String.length s) s) as [H H0]; [lia|]. rewrite ascii_fix; assumption. Qed.

(** ** Maps *)
Lemma put_new : forall A k (v : A) l, ~ In k (map fst l) -> put k v l = l ++ [(k, v)].
Proof.
  induction l as [|[k' v'] l IH]; intros H; [reflexivity|]. cbn [put map fst app] in *.
  destruct (String.eqb_spec k' k); [exfalso; apply H; left; assumption|]. f_equal. apply IH. intros Hi. apply H. right. exact Hi.
Qed.
Lemma put_all_new : forall A (l acc : list (string * A)), NoDup (map fst (acc ++ l)) -> put_all l acc = acc ++ l.
Proof.
  induction l as [|[k v] l IH]; intros acc H; [rewrite app_nil_r; reflexivity|]. cbn [put_all].
  assert (Hk : ~ In k (map fst acc)).
  { intros Hi. rewrite map_app in H. cbn [map fst] in H. apply NoDup_remove_2 in H. apply H. apply in_or_app. left. exact Hi. }
  rewrite put_new by exact Hk. rewrite IH; rewrite <- app_assoc; [reflexivity|exact H].
Qed.
Lemma all_some_map : forall A B (f : A -> option B) (g : A -> B) l, (forall a, In a l -> f a = Some (g a)) -> all_some (map f l) = Some (map g l).
Proof.
  induction l as [|a l IH]; intros H; [reflexivity|]. cbn [map all_some]. rewrite (H a) by (left; reflexivity). cbn [bind].
  rewrite IH by (intros; apply H; right; assumption). reflexivity.
Qed.
Lemma obj_roundtrip : forall A B (d : decoder B) (e : A -> json) (g : A -> B) (l : list (string * A)), NoDup (map fst l) ->
  (forall p, In p l -> text (fst p) /\ d (on_wire (e (snd p))) = Some (g (snd p))) ->
  obj d (on_wire (enc_obj e l)) = Some (map (fun p => (fst p, g (snd p))) l).
Proof.
  intros A B d e g l Hn H. unfold enc_obj, obj. cbn [on_wire]. rewrite !map_map.
  rewrite (all_some_map _ _ _ (fun p => (fst p, g (snd p)))).
  - cbn [bind]. f_equal. rewrite put_all_new; [reflexivity|]. cbn [app]. rewrite map_map. cbn [fst]. exact Hn.
  - intros p Hp. destruct (H p Hp) as [Ht Hd]. cbn [fst snd]. rewrite text_fix, Hd by exact Ht. reflexivity.
Qed.
Lemma map_id_in : forall A (f : A -> A) l, (forall a, In a l -> f a = a) -> map f l = l.
Proof. induction l as [|a l IH]; intros H; [reflexivity|]. cbn [map]. rewrite (H a) by (left; reflexivity). f_equal. apply IH. intros; apply H; right; assumption. Qed.

(** ** Values *)
Lemma int64_ok : forall z, int64 z -> is_int64 (JNum z) = Some z.
Proof.
  intros z [H H0]. unfold is_int64.
  replace (_ <=? z)%Z with true by (symmetry; apply Z.leb_le; exact H). replace (z <=? _)%Z with true by (symmetry; apply Z.leb_le; exact H0). reflexivity.
Qed.
Lemma uint64_ok : forall z, uint64 z -> is_uint64 (JNum z) = Some z.
Proof.
  intros z [H H0]. unfold is_uint64.
  replace (0 <=? z)%Z with true by (symmetry; apply Z.leb_le; exact H). replace (z <=? _)%Z with true by (symmetry; apply Z.leb_le; exact H0). reflexivity.
Qed.
Lemma tag_int64 : forall t, known_tag t -> int64 t.
Proof. unfold known_tag, int64. intros t H. lia. Qed.

(** Computing with fields whose names are known *)
Ltac ground_string s :=
  match s with
  | EmptyString => idtac
  | String ?c ?r => match c with Ascii _ _ _ _ _ _ _ _ => ground_string r end
  end.
Ltac fields :=
  repeat (
    cbv beta delta [val ptr struct member slice];
    cbn [on_wire map app fst snd opt_field list_field null_or bind option_map fold_left all_some];
    repeat match goal with
    | |- context [utf8_fix ?s] => ground_string s; let x := eval vm_compute in (utf8_fix s) in change (utf8_fix s) with x
    | |- context [String.eqb (fold_name ?a) (fold_name ?b)] =>
        ground_string a; ground_string b;
        let x := eval vm_compute in (String.eqb (fold_name a) (fold_name b)) in change (String.eqb (fold_name a) (fold_name b)) with x
    end;
    cbn match).

Section Values.
  Variable fmt_float : bool -> spec_float -> string.
  Variable parse_float : bool -> string -> option spec_float.
  Notation plain_data := (plain_data fmt_float parse_float).
  Notation plain_kv := (plain_kv fmt_float parse_float).

  Lemma wire_text : forall t p s, well_typed t p -> plain_data p -> stringEncoding fmt_float t p = Some (WString s) -> utf8_fix s = s.
  Proof.
    intros t p s W P H. inversion W; subst; cbn -[fmt_uint fmt_int Z.to_N] in H; inversion H; subst; cbn in P;
      try (apply ascii_fix; first [apply fmt_uint_ascii|apply fmt_int_ascii]); apply text_fix; tauto.
  Qed.
  Lemma plain_go : forall p, plain_data p -> go_payload p /\
    match p with PFloat32 f => parse_float false (fmt_float false f) = Some f | PFloat64 f => parse_float true (fmt_float true f) = Some f | _ => True end.
  Proof. intros p H. destruct p; cbn in H |- *; tauto. Qed.
  Lemma raw_roundtrip : forall e, well_typed (ev_type e) (ev_data e) -> plain_data (ev_data e) ->
    exists w, raw_value (on_wire (enc_ev fmt_float e)) = Some (ev_type e, w) /\ stringDecoding parse_float (ev_type e) w = Some (ev_data e).
  Proof.
    intros e W P. destruct (plain_go _ P) as [G F].
    destruct (decode_encode fmt_float parse_float _ _ W G F) as [w [E D]].
    exists w. split; [|exact D]. unfold raw_value, enc_ev. rewrite E.
    assert (T : int64 (ev_type e)) by (apply tag_int64; eapply well_typed_tag; exact W).
    destruct w as [|s|].
    - fields. rewrite int64_ok by exact T. reflexivity.
    - fields. rewrite int64_ok by exact T. fields. rewrite (wire_text _ _ _ W P E). reflexivity.
    - exfalso. inversion W as [z Ha Hb|z Ha Hb|z Ha Hb|z Ha Hb|z Ha Hb|z Ha Hb|z Ha Hb|z Ha Hb|z Ha Hb|z Ha Hb|f Ha Hb|f Ha Hb|s Ha Hb|Ha Hb];
        rewrite <- Ha, <- Hb in E; cbn -[fmt_uint fmt_int Z.to_N] in E; discriminate.
  Qed.
  Lemma decoded_intro : forall e w, stringDecoding parse_float (ev_type e) w = Some (ev_data e) -> decoded parse_float (ev_type e, w) = Some e.
  Proof. intros e w H. unfold decoded. cbn [fst snd]. rewrite H. destruct e. reflexivity. Qed.
  Lemma ev_roundtrip : forall e, well_typed (ev_type e) (ev_data e) -> plain_data (ev_data e) -> dec_ev parse_float (on_wire (enc_ev fmt_float e)) = Some e.
  Proof. intros e W P. destruct (raw_roundtrip e W P) as [w [H H0]]. unfold dec_ev. rewrite H. cbn [bind]. apply decoded_intro, H0. Qed.

  Lemma kv_roundtrip : forall kv lo hi, kv_validate kv lo hi = true -> plain_kv kv -> dec_kv parse_float (on_wire (enc_kv fmt_float kv)) = Some kv.
  Proof.
    intros kv lo hi V [Hn Hp]. rewrite Forall_forall in Hp.
    assert (Hw : forall p, In p kv -> well_typed (ev_type (snd p)) (ev_data (snd p))).
    { intros p Hi. unfold kv_validate in V. destruct kv as [|q kv]; [destruct Hi|]. rewrite forallb_forall in V. specialize (V p Hi). apply validate_iff in V. apply V. }
    unfold dec_kv, enc_kv.
    assert (H : exists g : EV -> Z * wire, forall p, In p kv -> raw_value (on_wire (enc_ev fmt_float (snd p))) = Some (g (snd p)) /\ decoded parse_float (g (snd p)) = Some (snd p)).
    { exists (fun e => match raw_value (on_wire (enc_ev fmt_float e)) with Some r => r | None => (0%Z, WNull) end).
      intros p Hi. destruct (raw_roundtrip (snd p) (Hw p Hi)) as [w [H H0]]; [apply Hp, Hi|]. rewrite H. split; [reflexivity|]. apply decoded_intro, H0. }
    destruct H as [g Hg].
    rewrite (obj_roundtrip _ _ raw_value (enc_ev fmt_float) g).
    - cbn [bind]. rewrite map_map. cbn [fst snd]. rewrite (all_some_map _ _ _ (fun p => p)).
      + rewrite map_id. reflexivity.
      + intros p Hi. destruct (Hg p Hi) as [_ Hd]. rewrite Hd. destruct p. reflexivity.
    - exact Hn.
    - intros p Hi. split; [apply Hp, Hi|apply Hg, Hi].
  Qed.
End Values.
