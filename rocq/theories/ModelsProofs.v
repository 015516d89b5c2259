(** Proofs about Models.v: what is sent is what is received. *)
From Coq Require Import String Ascii List Bool NArith ZArith Lia SpecFloat.
Import ListNotations.
From Verif Require Import Datatypes SpecValues DatatypesProofs Query SpecQuery QueryProofs Json Models SpecModels TextProofs JsonProofs.
Local Open Scope list_scope.

Section Models.
  Variable fmt_float : bool -> spec_float -> string.
  Variable parse_float : bool -> string -> option spec_float.
  Notation plain_kv := (plain_kv fmt_float parse_float).
  Notation plain_data := (plain_data fmt_float parse_float).

  (** A map in a field with omitempty *)
  Lemma kv_list_field : forall kv lo hi name, kv_validate kv lo hi = true -> list_field name (enc_kv fmt_float) kv = [(name, enc_kv fmt_float kv)].
  Proof. intros kv lo hi name H. destruct kv; [discriminate|reflexivity]. Qed.

  Ltac known :=
    repeat first
      [ match goal with H : kv_validate ?kv _ _ = true |- context [list_field ?n (enc_kv fmt_float) ?kv] => rewrite (kv_list_field kv _ _ n H) end
      | progress fields
      | rewrite int64_ok by assumption
      | rewrite uint64_ok by assumption
      | rewrite text_fix by assumption
      | rewrite b64_roundtrip
      | match goal with H : kv_validate ?kv _ _ = true |- context [dec_kv parse_float (on_wire (enc_kv fmt_float ?kv))] =>
          rewrite (kv_roundtrip fmt_float parse_float kv _ _ H) by assumption end
      | progress cbv beta delta [is_string is_bool is_bytes kv_field dec_kv_db enc_kv_db dec_group enc_group enc_group_omit
                                 typed_kv any_kv needed allowed when] in *
      | progress cbn [qp_max qs_db qs_props aq_spec aq_state ac_spec ac_state ip_data ip_updateable ip_retries ip_position ip_timeout
                      is_db is_props ai_spec ai_state ls_db ls_props ao_spec ao_state ar_spec ar_state cs_db cs_props an_spec an_state
                      lk_db lk_props al_spec al_state lt_id lt_session lt_expire lt_clients] in *
      | progress cbn match ].
  Ltac case_opt :=
    match goal with
    | o : option _ |- _ => destruct o
    | H : _ /\ _ |- _ => destruct H
    | H : (_ && _)%bool = true |- _ => apply andb_true_iff in H
    | H : false = true |- _ => discriminate H
    end.
  Ltac open_all :=
    repeat match goal with
    | H : when _ (Some _) |- _ => cbn [when] in H
    | H : needed _ (Some _) = true |- _ => cbn [needed] in H
    | H : allowed _ (Some _) = true |- _ => cbn [allowed] in H
    | H : needed _ None = true |- _ => discriminate H
    | H : _ /\ _ |- _ => destruct H
    | H : (_ && _)%bool = true |- _ => apply andb_true_iff in H
    | H : false = true |- _ => discriminate H
    | H : needed _ ?o = true |- _ => is_var o; destruct o as [?|]
    | H : allowed _ ?o = true |- _ => is_var o; destruct o as [?|]
    | H : when _ ?o |- _ => is_var o; destruct o as [?|]
    | o : option _ |- _ => destruct o as [?|]
    end.

  Lemma queue_props_roundtrip : forall p, plain_queue_props p -> queue_props_ok p = true -> dec_queue_props (on_wire (enc_queue_props p)) = Some p.
  Proof.
    intros [m] P V. unfold plain_queue_props, queue_props_ok in *. cbn [qp_max] in *. unfold dec_queue_props, enc_queue_props. cbn [qp_max].
    open_all. known. reflexivity.
  Qed.
  Lemma queue_roundtrip : forall q, plain_queue q -> needed queue_spec_ok (aq_spec q) = true -> dec_queue (on_wire (enc_queue q)) = Some q.
  Proof.
    intros [s st] P V. unfold plain_queue in P. cbn [aq_spec aq_state] in *. destruct s as [[db pr]|]; [|discriminate V].
    cbn [when needed qs_db qs_props] in *. unfold queue_spec_ok in V. cbn [qs_db qs_props] in V.
    unfold dec_queue, enc_queue, enc_queue_spec, dec_queue_spec, dec_queue_props, enc_queue_props.
    destruct pr as [[m]|]; unfold plain_queue_props, queue_props_ok, queue_db_ok in *; cbn [qp_max aq_spec aq_state qs_db qs_props] in *; open_all; known; reflexivity.
  Qed.
  Lemma channel_roundtrip : forall c, plain_channel fmt_float parse_float c -> channel_ok c = true -> dec_channel parse_float (on_wire (enc_channel fmt_float c)) = Some c.
  Proof.
    intros [s st] P V. unfold plain_channel, channel_ok in *. cbn [ac_spec ac_state] in *.
    unfold dec_channel, enc_channel. cbn [ac_spec ac_state]. open_all. destruct p as [a b]. cbn [fst snd] in *. unfold typed_kv in *.
     known. reflexivity.
  Qed.
  Lemma item_props_roundtrip : forall p, plain_item_props p -> item_props_ok p = true -> dec_item_props (on_wire (enc_item_props p)) = Some p.
  Proof.
    intros [d u r p t] P V. unfold plain_item_props, item_props_ok in *. cbn [ip_data ip_updateable ip_retries ip_position ip_timeout] in *.
    unfold dec_item_props, enc_item_props. cbn [ip_data ip_updateable ip_retries ip_position ip_timeout].
    open_all. known. reflexivity.
  Qed.
  Lemma item_roundtrip : forall i, plain_item fmt_float parse_float i -> needed item_spec_ok (ai_spec i) = true -> dec_item parse_float (on_wire (enc_item fmt_float i)) = Some i.
  Proof.
    intros [s st] P V. unfold plain_item in *. cbn [ai_spec ai_state] in *. destruct s as [[db pr]|]; [|discriminate V].
    cbn [when needed is_db is_props] in *. unfold item_spec_ok in V. cbn [is_db is_props] in V.
    destruct pr as [[d u r p t]|]; [|cbn [needed] in V; rewrite andb_false_r in V; discriminate V].
    unfold plain_item_props, item_props_ok, typed_kv in *. cbn [ip_data ip_updateable ip_retries ip_position ip_timeout when needed] in *.
    unfold dec_item, enc_item, dec_item_props, enc_item_props, enc_kv_db. cbn [ai_spec ai_state is_db is_props ip_data ip_updateable ip_retries ip_position ip_timeout].
    open_all; known; reflexivity.
  Qed.
  Lemma ack_roundtrip : forall a, plain_ack fmt_float parse_float a -> ack_ok a = true -> dec_ack parse_float (on_wire (enc_ack fmt_float a)) = Some a.
  Proof.
    intros [i kv p] P V. unfold plain_ack, ack_ok, typed_kv in *. cbn [ak_item ak_kv ak_passed] in *. unfold dec_ack, enc_ack. cbn [ak_item ak_kv ak_passed].
    open_all. known. reflexivity.
  Qed.
  Lemma beat_roundtrip : forall b, plain_beat fmt_float parse_float b -> beat_ok b = true -> dec_beat parse_float (on_wire (enc_beat fmt_float b)) = Some b.
  Proof.
    intros [i kv] P V. unfold plain_beat, beat_ok, typed_kv in *. cbn [ab_item ab_kv] in *. unfold dec_beat, enc_beat. cbn [ab_item ab_kv].
    open_all. known. reflexivity.
  Qed.
  Lemma limit_roundtrip : forall l, plain_limit l -> limit_ok l = true -> dec_limit (on_wire (enc_limit l)) = Some l.
  Proof. intros l P V. unfold plain_limit, limit_ok, dec_limit, enc_limit in *. open_all. known. reflexivity. Qed.
  Lemma override_roundtrip : forall o, plain_override fmt_float parse_float o -> needed limit_spec_ok (ao_spec o) = true ->
    dec_override parse_float (on_wire (enc_override fmt_float o)) = Some o.
  Proof.
    intros [s st] P V. unfold plain_override in *. cbn [ao_spec ao_state] in *. destruct s as [[db pr]|]; [|discriminate V].
    cbn [when needed] in *. unfold plain_limit_spec, limit_spec_ok, plain_limit, limit_ok, any_kv in *. cbn [ls_db ls_props] in *.
    unfold dec_override, enc_override, enc_limit_spec, dec_limit_spec, enc_group_omit, enc_limit, dec_limit. cbn [ao_spec ao_state ls_db ls_props].
    open_all; try match goal with p : (string * bool)%type |- _ => destruct p end; cbn [fst snd] in *; known; reflexivity.
  Qed.
  (** Lists of pointers, none of which is nil *)
  Lemma pointers_roundtrip : forall A (d : decoder A) (e : A -> json) (ok : A -> bool) (plain : A -> Prop) l,
    (forall a, plain a -> ok a = true -> d (on_wire (e a)) = Some a /\ on_wire (e a) <> JNull) ->
    Forall (when plain) l -> forallb (needed ok) l = true ->
    slice (pointee d) (on_wire (JArr (map (null_or e) l))) = Some l.
  Proof.
    intros A d e ok plain l H P V. rewrite Forall_forall in P. rewrite forallb_forall in V.
    cbn [on_wire slice]. rewrite !map_map. rewrite (all_some_map _ _ _ (fun x => x)); [rewrite map_id; reflexivity|].
    intros o Hi. specialize (P o Hi). specialize (V o Hi). destruct o as [a|]; [|discriminate V].
    cbn [null_or when needed] in *. destruct (H a P V) as [Hd Hn]. unfold pointee. rewrite Hd. destruct (on_wire (e a)); try reflexivity. congruence.
  Qed.
  Lemma override_wire : forall o, on_wire (enc_override fmt_float o) <> JNull.
  Proof. intros o E. unfold enc_override in E. cbn [on_wire] in E. discriminate E. Qed.
  Lemma rule_roundtrip : forall r, plain_rule fmt_float parse_float r -> rule_ok r = true ->
    dec_rule parse_float (on_wire (enc_rule fmt_float r)) = Some r.
  Proof.
    intros [s st] P V. unfold plain_rule, rule_ok in *. cbn [ar_spec ar_state] in *. destruct s as [[db pr]|]; [|discriminate V].
    cbn [when needed] in *. unfold plain_limit_spec, limit_spec_ok, plain_limit, limit_ok, any_kv in *. cbn [ls_db ls_props] in *.
    unfold dec_rule, enc_rule, enc_limit_spec, dec_limit_spec, enc_group, enc_limit, dec_limit. cbn [ar_spec ar_state ls_db ls_props].
    destruct st as [[i l]|].
    - cbn [when allowed fst snd] in *. assert (R : forallb (needed override_ok) l = true) by (apply andb_true_iff in V; apply V).
      assert (L : Forall (when (plain_override fmt_float parse_float)) l) by apply P.
      assert (S := pointers_roundtrip _ (dec_override parse_float) (enc_override fmt_float) override_ok _ l
               (fun a Pa Va => conj (override_roundtrip a Pa (proj1 (andb_prop _ _ Va))) (override_wire a)) L R).
      assert (Ti : text i) by apply P.
      open_all. destruct l as [|o l].
      + known. reflexivity.
      + known. cbn [on_wire map slice all_some] in S. rewrite S. known. reflexivity.
    - open_all. known. reflexivity.
  Qed.
  Lemma counter_roundtrip : forall c, plain_counter fmt_float parse_float c -> needed counter_spec_ok (an_spec c) = true ->
    dec_counter parse_float (on_wire (enc_counter fmt_float c)) = Some c.
  Proof.
    intros [s st] P V. unfold plain_counter in *. cbn [an_spec an_state] in *. destruct s as [[db pr]|]; [|discriminate V].
    cbn [when needed cs_db cs_props] in *. unfold counter_spec_ok, typed_kv in V. cbn [cs_db cs_props] in V.
    unfold dec_counter, enc_counter. cbn [an_spec an_state cs_db cs_props]. open_all; known; reflexivity.
  Qed.
  Lemma lock_roundtrip : forall k, plain_lock fmt_float parse_float k -> needed lock_spec_ok (al_spec k) = true ->
    dec_lock parse_float (on_wire (enc_lock fmt_float k)) = Some k.
  Proof.
    intros [s st] P V. unfold plain_lock in *. cbn [al_spec al_state] in *. destruct s as [[db pr]|]; [|discriminate V].
    cbn [when needed lk_db lk_props] in *. unfold lock_spec_ok, typed_kv in V. cbn [lk_db lk_props] in V.
    unfold dec_lock, enc_lock, enc_kv_db.
    destruct st as [[i e t n]|]; cbn [al_spec al_state lk_db lk_props lt_id lt_session lt_expire lt_clients when] in *.
    - open_all; known; reflexivity.
    - open_all; known; reflexivity.
  Qed.
  Lemma claim_roundtrip : forall c, text c -> dec_claim (on_wire (enc_claim c)) = Some c.
  Proof. intros c P. unfold dec_claim, enc_claim. known. reflexivity. Qed.
  Lemma error_roundtrip : forall c, text c -> dec_error (on_wire (enc_error c)) = Some c.
  Proof. intros c P. unfold dec_error, enc_error. known. reflexivity. Qed.

  (** *** Queries *)
  Lemma tr_roundtrip : forall r, tr_validate r = true -> dec_tr (on_wire (enc_tr r)) = Some r.
  Proof.
    intros [a b] V. apply tr_validate_iff in V. cbn [tr_min tr_max] in V. destruct V as [H [H0 _]]. apply tag_int64 in H, H0.
    unfold dec_tr, enc_tr. cbn [tr_min tr_max]. known. reflexivity.
  Qed.
  Lemma valid_typed : forall e lo hi, ev_validate e lo hi = true -> well_typed (ev_type e) (ev_data e).
  Proof. intros e lo hi H. apply validate_iff in H. apply H. Qed.
  Lemma ev_wire : forall e, exists l, on_wire (enc_ev fmt_float e) = JObj l.
  Proof. intros e. eexists. reflexivity. Qed.
  Lemma tr_wire : forall r, exists l, on_wire (enc_tr r) = JObj l.
  Proof. intros r. eexists. reflexivity. Qed.
  Lemma bind_some : forall A B (o : option A) (f : A -> option B) a r, o = Some a -> f a = r -> bind o f = r.
  Proof. intros A B o f a r -> H. exact H. Qed.
  Lemma vq_roundtrip : forall q, vq_validate q = true -> plain_data (ev_data (vq_value q)) -> dec_vq parse_float (on_wire (enc_vq fmt_float q)) = Some q.
  Proof.
    intros [v c r] V P. unfold vq_validate in V. cbn [vq_value vq_cmp vq_tr] in *.
    assert (W : well_typed (ev_type v) (ev_data v) /\ tr_validate r = true).
    { destruct c; try discriminate V; apply andb_true_iff in V; destruct V as [V V0]; split; try exact V0; eapply valid_typed; exact V. }
    destruct W as [W R]. unfold dec_vq, enc_vq. cbn [vq_value vq_cmp vq_tr].
    assert (C : utf8_fix (cmp_string c) = cmp_string c) by (destruct c; vm_compute; reflexivity).
    assert (D : string_cmp (cmp_string c) = c) by (destruct c; try discriminate V; vm_compute; reflexivity).
    assert (T := tr_roundtrip r R). destruct (tr_wire r) as [lr Er]. rewrite Er in T.
    assert (VR := ev_roundtrip fmt_float parse_float v W P).
    set (jv := enc_ev fmt_float v) in *. set (jr := enc_tr r) in *. set (cs := cmp_string c) in *. clearbody jv jr cs. clear V W P R.
    assert (E : on_wire (JObj [("Value"%string, jv); ("Comparison"%string, JStr cs); ("TypeRestrictions"%string, jr)]) =
                JObj [("Value"%string, on_wire jv); ("Comparison"%string, JStr cs); ("TypeRestrictions"%string, JObj lr)]).
    { cbn [on_wire map fst snd]. rewrite C, Er. fields. reflexivity. }
    rewrite E. unfold struct.
    apply (bind_some _ _ _ _ v); [unfold ev_field; fields; exact VR|].
    apply (bind_some _ _ _ _ cs); [fields; reflexivity|].
    apply (bind_some _ _ _ _ r); [fields; exact T|].
    rewrite D. reflexivity.
  Qed.
  Lemma strings_roundtrip : forall l, Forall text l -> slice is_string (on_wire (JArr (map JStr l))) = Some l.
  Proof.
    intros l H. rewrite Forall_forall in H. cbn [on_wire slice]. rewrite !map_map.
    rewrite (all_some_map _ _ _ (fun x => x)); [rewrite map_id; reflexivity|].
    intros s Hi. cbn [on_wire is_string]. rewrite text_fix by (apply H, Hi). reflexivity.
  Qed.
  Lemma sel_roundtrip : forall s, plain_sel fmt_float parse_float s -> sel_validate s = true -> dec_sel parse_float (on_wire (enc_sel fmt_float s)) = Some s.
  Proof.
    intros [ids kvs mn mx] P V. unfold plain_sel, sel_validate in *. cbn [s_ids s_kvs s_min s_max] in *.
    destruct P as [Pi [Pn [Pk [P0 P1]]]].
    assert (K : forallb (fun p => vq_validate (snd p)) kvs = true).
    { destruct kvs as [|k kvs]; [reflexivity|]. destruct ids; apply andb_true_iff in V; apply V. }
    clear V. rewrite forallb_forall in K. rewrite Forall_forall in Pk.
    assert (S0 := strings_roundtrip ids Pi).
    assert (S1 : obj (dec_vq parse_float) (on_wire (enc_obj (enc_vq fmt_float) kvs)) = Some kvs).
    { rewrite (obj_roundtrip _ _ _ _ (fun q => q)).
      - rewrite map_id_in; [reflexivity|]. intros [k q] _. reflexivity.
      - exact Pn.
      - intros p Hi. destruct (Pk p Hi) as [H H0]. split; [exact H|]. apply vq_roundtrip; [apply K, Hi|exact H0]. }
    unfold dec_sel, enc_sel. cbn [s_ids s_kvs s_min s_max].
    assert (L0 : list_field "IDs" (fun l => JArr (map JStr l)) ids = match ids with [] => [] | _ => [("IDs"%string, JArr (map JStr ids))] end) by reflexivity.
    assert (L1 : list_field "KeyValues" (enc_obj (enc_vq fmt_float)) kvs = match kvs with [] => [] | _ => [("KeyValues"%string, enc_obj (enc_vq fmt_float) kvs)] end) by reflexivity.
    rewrite L0, L1. clear L0 L1.
    assert (E0 : exists l, on_wire (JArr (map JStr ids)) = JArr l) by (eexists; reflexivity). destruct E0 as [l0 E0]. rewrite E0 in S0.
    assert (E1 : exists l, on_wire (enc_obj (enc_vq fmt_float) kvs) = JObj l) by (eexists; reflexivity). destruct E1 as [l1 E1]. rewrite E1 in S1.
    set (j0 := JArr (map JStr ids)) in *. set (j1 := enc_obj (enc_vq fmt_float) kvs) in *. clearbody j0 j1.
    cbn [slice] in S0.
    destruct ids, kvs, mn, mx; cbn [when] in P0, P1; fields; rewrite ?E0, ?E1; fields; rewrite ?S0, ?S1; fields; rewrite ?int64_ok by assumption; reflexivity.
  Qed.
  Lemma match_roundtrip : forall m, plain_match fmt_float parse_float m -> mq_validate m = true -> dec_match parse_float (on_wire (enc_match fmt_float m)) = Some m.
  Proof.
    intros [kvs mn mx] P V. unfold plain_match, mq_validate in *. cbn [mq_kvs mq_min mq_max] in *. destruct P as [Pn [Pk [P0 P1]]].
    rewrite Forall_forall in Pk.
    assert (K : forallb (fun p => tr_validate (mv_tr (snd p)) && ev_validate (mv_value (snd p)) MinDataType MaxDataType)%bool kvs = true).
    { destruct kvs; [reflexivity|exact V]. }
    rewrite forallb_forall in K. clear V.
    unfold dec_match, enc_match. cbn [mq_kvs mq_min mq_max].
    set (d := struct (mkMV (mkEV 0 PNil) (mkTR 0 0)) _).
    set (e := fun v => JObj [("Value"%string, enc_ev fmt_float (mv_value v)); ("TypeRestrictions"%string, enc_tr (mv_tr v))]).
    assert (S : obj d (on_wire (enc_obj e kvs)) = Some kvs).
    { rewrite (obj_roundtrip _ _ _ _ (fun q => q)).
      - rewrite map_id_in; [reflexivity|]. intros [k q] _. reflexivity.
      - exact Pn.
      - intros p Hi. destruct (Pk p Hi) as [H H0]. split; [exact H|]. specialize (K p Hi). apply andb_true_iff in K. destruct K as [K K0].
        apply valid_typed in K0. destruct p as [k [v r]]. cbn [snd mv_value mv_tr] in *. unfold d, e. cbn [mv_value mv_tr].
        assert (T := tr_roundtrip r K). destruct (tr_wire r) as [lr Er]. rewrite Er in T.
        assert (VR := ev_roundtrip fmt_float parse_float v K0 H0).
        set (jv := enc_ev fmt_float v) in *. set (jr := enc_tr r) in *. clearbody jv jr. clear K K0 H0 H Hi d e.
        assert (E : on_wire (JObj [("Value"%string, jv); ("TypeRestrictions"%string, jr)]) = JObj [("Value"%string, on_wire jv); ("TypeRestrictions"%string, JObj lr)]).
        { cbn [on_wire map fst snd]. rewrite Er. fields. reflexivity. }
        rewrite E. unfold struct.
        apply (bind_some _ _ _ _ v); [unfold ev_field; fields; exact VR|].
        apply (bind_some _ _ _ _ r); [fields; exact T|]. reflexivity. }
    assert (E : exists l, on_wire (enc_obj e kvs) = JObj l) by (eexists; reflexivity). destruct E as [l E]. rewrite E in S.
    set (j := enc_obj e kvs) in *. clearbody j. clear e. clearbody d.
    destruct mn, mx; cbn [when] in P0, P1; fields; rewrite E; fields; rewrite S; fields; rewrite ?int64_ok by assumption; reflexivity.
  Qed.

  Lemma depth_arr : forall l j, In j l -> (json_depth j < json_depth (JArr l))%nat.
  Proof.
    intros l j H. cbn [json_depth]. apply -> Nat.lt_succ_r. induction l as [|x l IH]; [destruct H|]. cbn [fold_right].
    destruct H as [->|H]; [lia|]. specialize (IH H). lia.
  Qed.
  Lemma depth_obj : forall l k j, In (k, j) l -> (json_depth j < json_depth (JObj l))%nat.
  Proof.
    intros l k j H. cbn [json_depth]. apply -> Nat.lt_succ_r. induction l as [|x l IH]; [destruct H|]. cbn [fold_right].
    destruct H as [->|H]; [cbn [snd]; lia|]. specialize (IH H). lia.
  Qed.
  Lemma enc_query_Q : forall sel ors ands, enc_query fmt_float (Q sel ors ands) =
    JObj (opt_field "Selection" (enc_sel fmt_float) sel ++
          match ors with None | Some [] => [] | Some l => [("Or"%string, JArr (map (enc_query fmt_float) l))] end ++
          match ands with None | Some [] => [] | Some l => [("And"%string, JArr (map (enc_query fmt_float) l))] end).
  Proof. reflexivity. Qed.
  Definition good_query (q : Query) : Prop := q <> QNil /\ plain_query fmt_float parse_float q /\ q_validate q = true.
  Lemma query_parts : forall sel ors ands, plain_query fmt_float parse_float (Q sel ors ands) -> q_validate (Q sel ors ands) = true ->
    when (fun s => plain_sel fmt_float parse_float s /\ sel_validate s = true) sel /\
    (forall l, ors = Some l -> Forall good_query l) /\ (forall l, ands = Some l -> Forall good_query l).
  Proof.
    intros sel ors ands P V. cbn [plain_query] in P. destruct P as [P0 [P1 P2]].
    cbn [q_validate] in V. apply andb_true_iff in V. destruct V as [V V2]. apply andb_true_iff in V. destruct V as [V0 V1].
    assert (L : forall l, fold_right (fun x P => plain_query fmt_float parse_float x /\ P) True l ->
                forallb (fun c => match c with QNil => false | _ => q_validate c end) l = true -> Forall good_query l).
    { induction l as [|x l IH]; intros Hp Hv; constructor; cbn [fold_right forallb] in *; apply andb_true_iff in Hv; destruct Hv as [Hv Hv0].
      - destruct x; [discriminate|]. split; [discriminate|split; [apply Hp|exact Hv]].
      - apply IH; [apply Hp|exact Hv0]. }
    split; [destruct sel; [split; assumption|exact I]|]. split; intros l ->; apply L; assumption.
  Qed.
  Lemma sel_wire : forall s, exists l, on_wire (enc_sel fmt_float s) = JObj l.
  Proof. intros s. unfold enc_sel. eexists. reflexivity. Qed.
  Lemma query_wire : forall q, q <> QNil -> exists l, on_wire (enc_query fmt_float q) = JObj l.
  Proof. intros [|sel ors ands] H; [congruence|]. rewrite enc_query_Q. eexists. reflexivity. Qed.
  Definition wired_part (name : string) (o : option (list Query)) : list (string * json) :=
    match o with None | Some [] => [] | Some l => [(name, JArr (map on_wire (map (enc_query fmt_float) l)))] end.
  Lemma member_part : forall name other j0 j1, String.eqb (fold_name other) (fold_name name) = false ->
    forall sel, String.eqb (fold_name sel) (fold_name name) = false -> forall l0 l1 l2,
    In l0 [[]; [(sel, j0)]] -> In l2 [[]; [(other, j1)]] -> (forall k j, In (k, j) l1 -> k = name) -> (length l1 <= 1)%nat ->
    member name (l0 ++ l1 ++ l2) = match l1 with [] => None | (_, j) :: _ => Some j end /\
    member name (l0 ++ l2 ++ l1) = match l1 with [] => None | (_, j) :: _ => Some j end.
  Proof.
    intros name other j0 j1 Ho sel Hs l0 l1 l2 H0 H2 H1 Hl. unfold member. rewrite !fold_left_app.
    assert (F0 : forall r, fold_left (fun (r : option json) p => if String.eqb (fold_name (fst p)) (fold_name name) then Some (snd p) else r) l0 r = r).
    { intros r. destruct H0 as [<-|[<-|[]]]; [reflexivity|]. cbn [fold_left fst]. rewrite Hs. reflexivity. }
    assert (F2 : forall r, fold_left (fun (r : option json) p => if String.eqb (fold_name (fst p)) (fold_name name) then Some (snd p) else r) l2 r = r).
    { intros r. destruct H2 as [<-|[<-|[]]]; [reflexivity|]. cbn [fold_left fst]. rewrite Ho. reflexivity. }
    rewrite F0, !F2. destruct l1 as [|[k j] [|x l1]]; [split; reflexivity| |cbn in Hl; lia].
    rewrite (H1 k j) by (left; reflexivity). cbn [fold_left fst snd]. rewrite String.eqb_refl. split; reflexivity.
  Qed.
  Lemma wired_part_in : forall name o k j, In (k, j) (wired_part name o) -> k = name.
  Proof. intros name o k j H. destruct o as [[|x l]|]; cbn in H; try tauto. destruct H as [H|[]]. congruence. Qed.
  Lemma wired_part_length : forall name o, (length (wired_part name o) <= 1)%nat.
  Proof. intros name o. destruct o as [[|x l]|]; cbn; lia. Qed.
  Definition tidy_part (o : option (list Query)) : option (list Query) := match o with None | Some [] => None | Some l => Some (map tidy l) end.
  Lemma tidy_Q : forall sel ors ands, tidy (Q sel ors ands) = Q sel (tidy_part ors) (tidy_part ands).
  Proof. reflexivity. Qed.

  Lemma query_depth_roundtrip : forall n q, good_query q -> (json_depth (on_wire (enc_query fmt_float q)) <= n)%nat ->
    dec_query_depth parse_float n (on_wire (enc_query fmt_float q)) = Some (tidy q).
  Proof.
    induction n as [|n IH]; intros q [Hq [P V]] Hd.
    { destruct (query_wire q Hq) as [l E]. rewrite E in Hd. cbn in Hd. lia. }
    destruct q as [|sel ors ands]; [congruence|]. clear Hq.
    destruct (query_parts _ _ _ P V) as [Hs [Ho Ha]]. clear P V.
    assert (E : exists l0, In l0 [[]; [("Selection"%string, null_or (fun s => on_wire (enc_sel fmt_float s)) sel)]] /\
      ptr (dec_sel parse_float) "Selection" (l0 ++ wired_part "Or" ors ++ wired_part "And" ands) = Some sel /\
      on_wire (enc_query fmt_float (Q sel ors ands)) = JObj (l0 ++ wired_part "Or" ors ++ wired_part "And" ands)).
    { rewrite enc_query_Q. destruct sel as [s|].
      - exists [("Selection"%string, on_wire (enc_sel fmt_float s))]. cbn [null_or]. split; [right; left; reflexivity|]. split.
        + unfold ptr. replace (member _ _) with (Some (on_wire (enc_sel fmt_float s))).
          * cbn [when] in Hs. rewrite sel_roundtrip by apply Hs. destruct (sel_wire s) as [l El]. rewrite El. reflexivity.
          * destruct ors as [[|]|], ands as [[|]|]; reflexivity.
        + cbn [on_wire opt_field app map fst snd]. f_equal. f_equal. destruct ors as [[|]|], ands as [[|]|]; reflexivity.
      - exists []. split; [left; reflexivity|]. split; destruct ors as [[|]|], ands as [[|]|]; reflexivity. }
    destruct E as [l0 [Hl0 [Es E]]].
    destruct (member_part "Or" "And" (null_or (fun s => on_wire (enc_sel fmt_float s)) sel) (JArr (map on_wire (map (enc_query fmt_float) (elems ands)))) eq_refl "Selection" eq_refl l0
                (wired_part "Or" ors) (wired_part "And" ands)) as [Mo _]; try assumption.
    { destruct ands as [[|]|]; cbn; auto. } { apply wired_part_in. } { apply wired_part_length. }
    destruct (member_part "And" "Or" (null_or (fun s => on_wire (enc_sel fmt_float s)) sel) (JArr (map on_wire (map (enc_query fmt_float) (elems ors)))) eq_refl "Selection" eq_refl l0
                (wired_part "And" ands) (wired_part "Or" ors)) as [_ Ma]; try assumption.
    { destruct ors as [[|]|]; cbn; auto. } { apply wired_part_in. } { apply wired_part_length. }
    rewrite E in Hd |- *. cbn [dec_query_depth struct].
    assert (Part : forall name o, (forall l, o = Some l -> Forall good_query l) ->
              (forall k j, In (k, j) (wired_part name o) -> (json_depth j <= n)%nat) ->
              match match wired_part name o with [] => None | (_, j) :: _ => Some j end with
              | None | Some JNull => Some None
              | Some j => option_map Some (slice (fun j => match j with JNull => Some QNil | _ => dec_query_depth parse_float n j end) j)
              end = Some (tidy_part o)).
    { intros name o Hg Hj. destruct o as [[|x l]|]; [reflexivity| |reflexivity].
      cbn [wired_part] in *. specialize (Hj name _ (or_introl eq_refl)). specialize (Hg _ eq_refl). cbn [tidy_part].
      cbv iota beta. rewrite Forall_forall in Hg. cbn [slice]. rewrite map_map.
      rewrite map_map. rewrite (all_some_map _ _ _ tidy); [reflexivity|].
      intros q Hi. destruct (query_wire q) as [w Ew]; [apply (Hg q Hi)|].
      assert (Q0 : dec_query_depth parse_float n (on_wire (enc_query fmt_float q)) = Some (tidy q)).
      { apply IH; [apply Hg, Hi|]. 
        assert (In (on_wire (enc_query fmt_float q)) (map on_wire (map (enc_query fmt_float) (x :: l)))) as Hin by (rewrite map_map; apply in_map_iff; exists q; auto).
        apply depth_arr in Hin. lia. }
      rewrite Ew in Q0 |- *. exact Q0. }
    assert (Dp : forall k j, In (k, j) (l0 ++ wired_part "Or" ors ++ wired_part "And" ands) -> (json_depth j <= n)%nat).
    { intros k j Hi. apply depth_obj in Hi. lia. }
    rewrite Es. cbn [bind]. rewrite Mo, Ma.
    rewrite (Part "Or"%string ors Ho), (Part "And"%string ands Ha).
    - cbn [bind]. rewrite tidy_Q. reflexivity.
    - intros k j Hi. eapply Dp. apply in_or_app. right. apply in_or_app. right. exact Hi.
    - intros k j Hi. eapply Dp. apply in_or_app. right. apply in_or_app. left. exact Hi.
  Qed.
  Lemma query_roundtrip : forall q, plain_query fmt_float parse_float q -> q_validate q = true ->
    dec_query parse_float (on_wire (enc_query fmt_float q)) = Some (told q).
  Proof.
    intros q P V. destruct q as [|sel ors ands]; [reflexivity|]. unfold dec_query. change (told (Q sel ors ands)) with (tidy (Q sel ors ands)).
    apply query_depth_roundtrip; [split; [discriminate|split; assumption]|]. apply Nat.le_succ_diag_r.
  Qed.
  Lemma tidy_valid : forall n q, (json_depth (enc_query fmt_float q) <= n)%nat -> q_validate q = true -> q_validate (tidy q) = true.
  Proof.
    induction n as [|n IH]; intros q Hd V.
    { destruct q; cbn in Hd; lia. }
    destruct q as [|sel ors ands]; [reflexivity|]. rewrite tidy_Q. rewrite enc_query_Q in Hd.
    cbn [q_validate] in V |- *. apply andb_true_iff in V. destruct V as [V V2]. apply andb_true_iff in V. destruct V as [V0 V1]. rewrite V0. cbn [andb].
    set (child := fun c => match c with QNil => false | _ => q_validate c end) in *.
    assert (L : forall l, (forall q, In q l -> (json_depth (enc_query fmt_float q) <= n)%nat) -> forallb child l = true -> forallb child (map tidy l) = true).
    { intros l Hl Hv. rewrite forallb_forall in *. intros c Hc. apply in_map_iff in Hc. destruct Hc as [x [<- Hx]]. specialize (Hv x Hx).
      destruct x as [|s o a]; [discriminate|]. rewrite tidy_Q. cbn [child] in *. rewrite <- tidy_Q. apply IH; [apply Hl, Hx|exact Hv]. }
    apply andb_true_intro. split.
    - destruct ors as [[|x l]|]; try reflexivity. cbn [tidy_part]. apply L; [|exact V1]. intros q Hi.
      assert (A := depth_arr (map (enc_query fmt_float) (x :: l)) _ (in_map (enc_query fmt_float) _ _ Hi)).
      assert (B : (json_depth (JArr (map (enc_query fmt_float) (x :: l))) < Datatypes.S n)%nat).
      { eapply Nat.lt_le_trans; [|exact Hd]. eapply depth_obj with (k := "Or"%string). apply in_or_app. right. apply in_or_app. left. left. reflexivity. }
      lia.
    - destruct ands as [[|x l]|]; try reflexivity. cbn [tidy_part]. apply L; [|exact V2]. intros q Hi.
      assert (A := depth_arr (map (enc_query fmt_float) (x :: l)) _ (in_map (enc_query fmt_float) _ _ Hi)).
      assert (B : (json_depth (JArr (map (enc_query fmt_float) (x :: l))) < Datatypes.S n)%nat).
      { eapply Nat.lt_le_trans; [|exact Hd]. eapply depth_obj with (k := "And"%string). apply in_or_app. right. apply in_or_app. right. left. reflexivity. }
      lia.
  Qed.
  Lemma told_valid : forall q, q_validate q = true -> q_validate (told q) = true.
  Proof. intros [|s o a] V; [reflexivity|]. apply (tidy_valid _ _ (le_n _) V). Qed.
End Models.

(** ** C78 *)
Lemma arrives_intro : forall A (plain : A -> Prop) (vo : A -> bool) enc (vi : A -> bool) dec,
  (forall a, vo a = true -> vi a = true) -> (forall a, plain a -> vo a = true -> dec (on_wire (enc a)) = Some a) -> arrives plain vo enc vi dec.
Proof.
  intros A plain vo enc vi dec H H0 a body P S. unfold send in S. destruct (vo a) eqn:V; [|discriminate]. inversion S; subst body.
  unfold receive. cbn [bind]. rewrite (H0 a P V). cbn [bind]. rewrite (H a V). reflexivity.
Qed.
Lemma spec_part : forall (a b : bool), (a && b)%bool = true -> a = true.
Proof. intros [|] b H; [reflexivity|discriminate]. Qed.

Section Routes.
  Variable fmt_float : bool -> spec_float -> string.
  Variable parse_float : bool -> string -> option spec_float.
  Notation plain_kv := (plain_kv fmt_float parse_float).

  Lemma c78_willow :
    arrives plain_queue queue_create_ok enc_queue queue_create_ok dec_queue /\
    arrives plain_queue_props queue_props_ok enc_queue_props queue_props_ok dec_queue_props /\
    arrives (plain_item fmt_float parse_float) item_create_ok (enc_item fmt_float) item_create_ok (dec_item parse_float) /\
    arrives (plain_ack fmt_float parse_float) ack_ok (enc_ack fmt_float) ack_ok (dec_ack parse_float) /\
    arrives (plain_beat fmt_float parse_float) beat_ok (enc_beat fmt_float) beat_ok (dec_beat parse_float) /\
    arrives plain_kv typed_kv (enc_kv fmt_float) typed_kv (dec_kv parse_float).
  Proof.
    repeat match goal with |- _ /\ _ => split end; apply arrives_intro; auto.
    - intros q P V. apply queue_roundtrip; [exact P|eapply spec_part; exact V].
    - apply queue_props_roundtrip.
    - intros q P V. apply item_roundtrip; [exact P|eapply spec_part; exact V].
    - apply ack_roundtrip.
    - apply beat_roundtrip.
    - intros kv P V. eapply kv_roundtrip; eassumption.
  Qed.
  Lemma rule_create_valid : forall r, rule_ok r = true -> rule_create_ok r = true.
  Proof. intros r H. eapply spec_part. exact H. Qed.
  Lemma c78_limiter :
    arrives (plain_rule fmt_float parse_float) rule_ok (enc_rule fmt_float) rule_create_ok (dec_rule parse_float) /\
    arrives plain_limit limit_ok enc_limit limit_ok dec_limit /\
    arrives (plain_override fmt_float parse_float) override_create_ok (enc_override fmt_float) override_create_ok (dec_override parse_float) /\
    arrives (plain_counter fmt_float parse_float) counter_create_ok (enc_counter fmt_float) counter_create_ok (dec_counter parse_float) /\
    arrives (plain_match fmt_float parse_float) mq_validate (enc_match fmt_float) mq_validate (dec_match parse_float).
  Proof.
    repeat match goal with |- _ /\ _ => split end; apply arrives_intro; auto.
    - apply rule_create_valid.
    - apply rule_roundtrip.
    - apply limit_roundtrip.
    - apply override_roundtrip.
    - apply counter_roundtrip.
    - apply match_roundtrip.
  Qed.
  Lemma c78_locker :
    arrives (plain_lock fmt_float parse_float) lock_create_ok (enc_lock fmt_float) lock_create_ok (dec_lock parse_float) /\
    arrives text claim_ok enc_claim claim_ok dec_claim.
  Proof.
    split; apply arrives_intro; auto.
    - intros k P V. apply lock_roundtrip; [exact P|eapply spec_part; exact V].
    - intros c P _. apply claim_roundtrip, P.
  Qed.
  Lemma list_arrives : forall A (plain : A -> Prop) (ok : A -> bool) (enc : A -> json) (dec : json -> option A),
    (forall a, plain a -> ok a = true -> dec (on_wire (enc a)) = Some a) -> (forall a, on_wire (enc a) <> JNull) ->
    arrives (Forall (when plain)) (list_ok ok) (fun l => JArr (map (null_or enc) l)) (list_ok ok) (slice (pointee dec)).
  Proof.
    intros A plain ok enc dec H H0. apply arrives_intro; [auto|]. intros l P V.
    apply pointers_roundtrip with (ok := ok) (plain := plain); [|exact P|exact V]. intros a Pa Va. split; [apply H; assumption|apply H0].
  Qed.
  Lemma c78_answers :
    arrives plain_queue queue_ok enc_queue queue_ok dec_queue /\
    arrives (Forall (when plain_queue)) (list_ok queue_ok) (fun l => JArr (map (null_or enc_queue) l)) (list_ok queue_ok) (slice (pointee dec_queue)) /\
    arrives (plain_item fmt_float parse_float) item_ok (enc_item fmt_float) item_ok (dec_item parse_float) /\
    arrives (Forall (when (plain_channel fmt_float parse_float))) (list_ok channel_ok) (fun l => JArr (map (null_or (enc_channel fmt_float)) l))
            (list_ok channel_ok) (slice (pointee (dec_channel parse_float))) /\
    arrives (plain_rule fmt_float parse_float) rule_ok (enc_rule fmt_float) rule_ok (dec_rule parse_float) /\
    arrives (Forall (when (plain_rule fmt_float parse_float))) (list_ok rule_ok) (fun l => JArr (map (null_or (enc_rule fmt_float)) l))
            (list_ok rule_ok) (slice (pointee (dec_rule parse_float))) /\
    arrives (plain_override fmt_float parse_float) override_ok (enc_override fmt_float) override_ok (dec_override parse_float) /\
    arrives (Forall (when (plain_override fmt_float parse_float))) (list_ok override_ok) (fun l => JArr (map (null_or (enc_override fmt_float)) l))
            (list_ok override_ok) (slice (pointee (dec_override parse_float))) /\
    arrives (Forall (when (plain_counter fmt_float parse_float))) (list_ok counter_ok) (fun l => JArr (map (null_or (enc_counter fmt_float)) l))
            (list_ok counter_ok) (slice (pointee (dec_counter parse_float))) /\
    arrives (plain_lock fmt_float parse_float) lock_ok (enc_lock fmt_float) lock_ok (dec_lock parse_float) /\
    arrives (Forall (when (plain_lock fmt_float parse_float))) (list_ok lock_ok) (fun l => JArr (map (null_or (enc_lock fmt_float)) l))
            (list_ok lock_ok) (slice (pointee (dec_lock parse_float))) /\
    arrives text error_ok enc_error error_ok dec_error.
  Proof.
    assert (Q : forall q, plain_queue q -> queue_ok q = true -> dec_queue (on_wire (enc_queue q)) = Some q)
      by (intros q P V; apply queue_roundtrip; [exact P|eapply spec_part; exact V]).
    assert (O : forall o, plain_override fmt_float parse_float o -> override_ok o = true -> dec_override parse_float (on_wire (enc_override fmt_float o)) = Some o)
      by (intros q P V; apply override_roundtrip; [exact P|eapply spec_part; exact V]).
    assert (N : forall c, plain_counter fmt_float parse_float c -> counter_ok c = true -> dec_counter parse_float (on_wire (enc_counter fmt_float c)) = Some c)
      by (intros q P V; apply counter_roundtrip; [exact P|eapply spec_part; exact V]).
    assert (K : forall k, plain_lock fmt_float parse_float k -> lock_ok k = true -> dec_lock parse_float (on_wire (enc_lock fmt_float k)) = Some k)
      by (intros q P V; apply lock_roundtrip; [exact P|eapply spec_part; exact V]).
    repeat match goal with |- _ /\ _ => split end.
    - apply arrives_intro; auto.
    - apply list_arrives; [exact Q|]. intros a E. unfold enc_queue in E. cbn [on_wire] in E. discriminate E.
    - apply arrives_intro; auto. intros q P V; apply item_roundtrip; [exact P|eapply spec_part; exact V].
    - apply list_arrives; [apply channel_roundtrip|]. intros a E. unfold enc_channel in E. cbn [on_wire] in E. discriminate E.
    - apply arrives_intro; auto. apply rule_roundtrip.
    - apply list_arrives; [apply rule_roundtrip|]. intros a E. unfold enc_rule in E. cbn [on_wire] in E. discriminate E.
    - apply arrives_intro; auto.
    - apply list_arrives; [exact O|]. apply override_wire.
    - apply list_arrives; [exact N|]. intros a E. unfold enc_counter in E. cbn [on_wire] in E. discriminate E.
    - apply arrives_intro; auto.
    - apply list_arrives; [exact K|]. intros a E. unfold enc_lock in E. cbn [on_wire] in E. discriminate E.
    - apply arrives_intro; auto. intros c P _. apply error_roundtrip, P.
  Qed.
  Lemma c78_query : forall q body, plain_query fmt_float parse_float q -> send q_validate (enc_query fmt_float) q = Some body ->
    receive q_validate (dec_query parse_float) (Some body) = Some (told q).
  Proof.
    intros q body P S. unfold send in S. destruct (q_validate q) eqn:V; [|discriminate]. inversion S; subst body.
    unfold receive. cbn [bind]. rewrite query_roundtrip by assumption. cbn [bind]. rewrite told_valid by assumption. reflexivity.
  Qed.
End Routes.

(** Empty parts make no difference to what a query selects *)
Lemma tidy_holds : forall holds q, q_holds holds (tidy q) <-> q_holds holds q.
Proof.
  intros holds q. induction q as [|sel ors ands IO IA] using query_ind'; [reflexivity|].
  rewrite tidy_Q. cbn [q_holds].
  set (all := fix all (l : list Query) : Prop := match l with [] => True | c :: r => q_holds holds c /\ all r end).
  set (any := fix any (l : list Query) : Prop := match l with [] => False | c :: r => q_holds holds c \/ any r end).
  assert (A : forall l, Forall (fun q => q_holds holds (tidy q) <-> q_holds holds q) l -> (all (map tidy l) <-> all l)).
  { induction l as [|c l IH]; intros H; [reflexivity|]. inversion H; subst. cbn [map all]. rewrite IH by assumption. tauto. }
  assert (O : forall l, Forall (fun q => q_holds holds (tidy q) <-> q_holds holds q) l -> (any (map tidy l) <-> any l)).
  { induction l as [|c l IH]; intros H; [reflexivity|]. inversion H; subst. cbn [map any]. rewrite IH by assumption. tauto. }
  assert (A0 : match tidy_part ands with Some l => all l | None => True end <-> match ands with Some l => all l | None => True end).
  { destruct ands as [[|c l]|]; try reflexivity. apply (A (c :: l)). exact IA. }
  assert (O0 : match tidy_part ors with Some l => any l | None => False end <-> match ors with Some l => any l | None => False end).
  { destruct ors as [[|c l]|]; try reflexivity. apply (O (c :: l)). exact IO. }
  assert (EA : elems (tidy_part ands) <> [] <-> elems ands <> []) by (destruct ands as [[|c l]|]; cbn; split; intros; congruence).
  assert (EO : elems (tidy_part ors) = [] <-> elems ors = []) by (destruct ors as [[|c l]|]; cbn; split; intros; congruence).
  rewrite A0, O0, EA, EO. reflexivity.
Qed.
Lemma told_holds : forall holds q, q_holds holds (told q) <-> q_holds holds q.
Proof.
  intros holds [|s o a]; [|apply tidy_holds]. cbn. split; [tauto|]. intros _. left. repeat split. right. right. reflexivity.
Qed.
Lemma c78_query_meaning : forall fmt_float parse_float q body, plain_query fmt_float parse_float q ->
  send q_validate (enc_query fmt_float) q = Some body ->
  exists q', receive q_validate (dec_query parse_float) (Some body) = Some q' /\ forall id tags, query_holds q' id tags <-> query_holds q id tags.
Proof.
  intros ff pf q body P S. exists (told q). split; [apply (c78_query ff pf); assumption|]. intros id tags. apply told_holds.
Qed.
