(** Assembled statements for PropertiesValues.v *)
From Coq Require Import SpecFloat.
From Verif Require Import Datatypes SpecValues DatatypesProofs.

Lemma order_is_tag_then_payload a b :
  well_typed (ev_type a) (ev_data a) -> well_typed (ev_type b) (ev_data b) ->
  exists r, lmt_go a b = Some r /\ (r = true <-> value_lt a b).
Proof.
  intros Ha Hb. destruct (lmt_go_total a b Ha Hb) as [r E]. exists r. split; [exact E|].
  rewrite <- (lmt_spec a b Ha Hb). unfold lmt. rewrite E. reflexivity.
Qed.

Lemma payload_lt_irrefl p : ~ payload_lt p p.
Proof. apply same_payload_irrel. constructor. Qed.

Lemma strict_total_order :
  (forall a, lmt a a = false) /\
  (forall a b, good a -> good b -> lmt a b = true -> lmt b a = false) /\
  (forall a b c, good a -> good b -> good c -> lmt a b = true -> lmt b c = true -> lmt a c = true) /\
  (forall a b, good a -> good b -> (lmt a b = false /\ lmt b a = false) <-> same_value a b) /\
  (forall a b, good a -> good b -> ev_type a <> ev_type b -> lmt a b = true \/ lmt b a = true).
Proof.
  split; [|split; [exact lmt_asym|split; [exact lmt_trans|split]]].
  - exact lmt_irrefl.
  - intros a b Ga Gb. split.
    + intros [H1 H2]. apply lmt_total; assumption.
    + apply same_value_incomparable; assumption.
  - intros a b Ga Gb N. destruct (Z.lt_trichotomy (ev_type a) (ev_type b)) as [H|[H|H]]; [|congruence|].
    + left. apply type_lt_lmt, H.
    + right. apply type_lt_lmt, H.
Qed.

Lemma nan_breaks_order : exists a b c,
  well_typed (ev_type a) (ev_data a) /\ well_typed (ev_type b) (ev_data b) /\
  well_typed (ev_type c) (ev_data c) /\
  lmt a b = false /\ lmt b a = false /\ ~ same_value a b /\
  lmt b c = false /\ lmt c b = false /\ lmt a c = true.
Proof.
  exists (Float64 (S754_zero false)), (Float64 S754_nan), (Float64 (S754_infinity false)).
  repeat split; try constructor. intros [_ H]. inversion H.
Qed.

Lemma order_nonvacuous :
  good (Int 3) /\ good (Str "a") /\ lmt (Int 3) (Str "a") = true /\ lmt (Int (-4)) (Int 3) = true.
Proof. repeat split; try constructor; intros [H|H]; discriminate. Qed.

Lemma any_comparisons :
  (forall a x, ev_type a = T_any -> less_go a x = Some false /\ less_go x a = Some false) /\
  (forall x, good x -> lmt Any x = false) /\
  (forall x, good x -> x <> Any -> lmt x Any = true) /\
  (forall a b, ev_type a <> T_any -> ev_type b <> T_any -> less_go a b = lmt_go a b).
Proof.
  split; [|split; [exact lmt_any_greatest|split; [|exact less_lmt_concrete]]].
  - intros a x H. split; [apply less_any_l|apply less_any_r]; exact H.
  - intros x G N. apply lmt_below_any; [exact G|]. intros E. apply N. apply wt_any_nil; [apply G|exact E].
Qed.

Lemma any_nonvacuous : good Any /\ less (Int 3) Any = false /\ lmt (Int 3) Any = true.
Proof. split; [exact good_any|]. split; reflexivity. Qed.

Lemma kv_validate_iff (kv : KeyValues) mn mx :
  kv_validate kv mn mx = true <->
  kv <> [] /\ forall k v, In (k, v) kv -> well_typed (ev_type v) (ev_data v) /\ mn <= ev_type v <= mx.
Proof.
  unfold kv_validate. destruct kv as [|p kv]; [split; [discriminate|intros [H _]; congruence]|].
  rewrite forallb_forall. split.
  - intros H. split; [discriminate|]. intros k v Hin. apply validate_iff. apply (H (k, v) Hin).
  - intros [_ H] [k v] Hin. apply validate_iff. apply (H k v Hin).
Qed.

Lemma validate_nonvacuous :
  ev_validate (Str "x") 1 13 = true /\ ev_validate (mkEV 13 (PInt KInt 3)) 1 1024 = false /\
  ev_validate (mkEV 14 PNil) 1 1024 = false /\ ev_validate Any 1 13 = false.
Proof. repeat split. Qed.

Lemma decode_encode_nofloat fmt_float parse_float t p :
  well_typed t p -> go_payload p -> not_float p ->
  exists w, stringEncoding fmt_float t p = Some w /\ stringDecoding parse_float t w = Some p.
Proof. intros W G N. apply decode_encode; auto. destruct p; auto; destruct N. Qed.

Lemma decode_encode_float (fmt_float : bool -> spec_float -> string) parse_float (wide : bool) f :
  parse_float wide (fmt_float wide f) = Some f ->
  let t := if wide then 12 else 11 in
  let p := if wide then PFloat64 f else PFloat32 f in
  exists w, stringEncoding fmt_float t p = Some w /\ stringDecoding parse_float t w = Some p.
Proof. intros H. destruct wide; apply decode_encode; try constructor; exact H. Qed.

Lemma wire_nonvacuous :
  stringEncoding (fun _ _ => EmptyString) 6 (PInt KInt8 (-128)) = Some (WString "-128") /\
  stringDecoding (fun _ _ => None) 6 (WString "-128") = Some (PInt KInt8 (-128)) /\
  stringDecoding (fun _ _ => None) 6 (WString "-129") = None /\
  stringDecoding (fun _ _ => None) 4 (WString "18446744073709551615") = Some (PInt KUint64 18446744073709551615) /\
  stringDecoding (fun _ _ => None) 4 (WString "18446744073709551616") = None /\
  stringDecoding (fun _ _ => None) 1 (WString "1x") = None.
Proof. vm_compute. repeat split. Qed.

Lemma type_restrictions_exact :
  (forall r, tr_validate r = true <-> known_tag (tr_min r) /\ known_tag (tr_max r) /\ tr_min r <= tr_max r) /\
  (forall r t, tr_within r t = true <-> tr_min r <= t <= tr_max r) /\
  (forall e, well_typed (ev_type e) (ev_data e) -> tr_within (mkTR 1 1024) (ev_type e) = true).
Proof.
  split; [exact tr_validate_iff|split; [exact tr_within_iff|]].
  intros e H. apply well_typed_tag in H. apply tr_within_iff. unfold known_tag in H. simpl. lia.
Qed.

Lemma tr_nonvacuous : tr_validate (mkTR 1 13) = true /\ tr_validate (mkTR 13 1) = false /\ tr_validate (mkTR 1 99) = false.
Proof. repeat split. Qed.
