(** Concrete models for PropertiesModels.v. *)
From Coq Require Import String Ascii List Bool NArith ZArith SpecFloat.
Import ListNotations.
From Verif Require Import Datatypes SpecValues Query SpecQuery Json Models SpecModels TextProofs JsonProofs ModelsProofs.
Local Open Scope list_scope.
Local Open Scope Z_scope.

Definition ff0 (b : bool) (f : spec_float) : string := "0"%string.
Definition pf0 (b : bool) (s : string) : option spec_float := None.

(** "é€😀": characters of two, three and four bytes *)
Definition umlaut : string := String "195" (String "169" (String "226" (String "130" (String "172" (String "240" (String "159" (String "152" (String "128" EmptyString)))))))).
Lemma umlaut_text : text umlaut.
Proof.
  exists [233; 8364; 128512]%N. split; [repeat constructor; unfold scalar; Lia.lia|vm_compute; reflexivity].
Qed.
Fixpoint codes (s : string) : list N := match s with EmptyString => [] | String c r => N_of_ascii c :: codes r end.
Lemma ascii_text : forall s, plain_ascii s -> text s.
Proof.
  intros s H. exists (codes s). induction s as [|c s IH]; [split; [constructor|reflexivity]|]. destruct H as [H H0].
  destruct (IH H0) as [A B]. split.
  - cbn [codes]. constructor; [unfold scalar; Lia.lia|exact A].
  - cbn [codes flat_map]. unfold utf8_char at 1. apply N.ltb_lt in H. rewrite H. cbn [app bytes fold_right]. rewrite ascii_N_embedding. f_equal. exact B.
Qed.
Ltac plain_text := first [apply umlaut_text | apply ascii_text; cbn; repeat split; reflexivity].
Definition kv1 : KeyValues := [("color"%string, Str umlaut); ("size"%string, Int (-3))].
Lemma kv1_plain : plain_kv ff0 pf0 kv1.
Proof.
  split; [repeat constructor; cbn; intuition congruence|]. repeat constructor; cbn; try plain_text; try Lia.lia.
Qed.
Definition item1 : ApiItem :=
  mkApiItem (Some (mkItemSpec (Some kv1) (Some (mkItemProperties umlaut (Some true) (Some 2) (Some "front"%string) (Some 5000000000))))) None.
Lemma item1_plain : plain_item ff0 pf0 item1.
Proof.
  split; [|exact I]. split; [exact kv1_plain|]. repeat split; cbn; try Lia.lia. plain_text.
Qed.
Lemma item1_sent : send item_create_ok (enc_item ff0) item1 = Some (on_wire (enc_item ff0 item1)).
Proof. vm_compute. reflexivity. Qed.
Definition rule1 : ApiRule :=
  mkApiRule (Some (mkLimitSpec (Some [("color"%string, Str umlaut); ("size"%string, Any)]) (Some (Some 5))))
            (Some ("r1"%string, [Some (mkApiOverride (Some (mkLimitSpec (Some kv1) (Some (Some (-1))))) (Some ("o1"%string, false)))])).
Lemma kv2_plain : plain_kv ff0 pf0 [("color"%string, Str umlaut); ("size"%string, Any)].
Proof. split; [repeat constructor; cbn; intuition congruence|]. repeat constructor; cbn; try plain_text. Qed.
Lemma rule1_plain : plain_rule ff0 pf0 rule1.
Proof.
  split; [split; [exact kv2_plain|split; cbn; Lia.lia]|]. split; [plain_text|]. constructor; [|constructor].
  split; [split; [exact kv1_plain|split; cbn; Lia.lia]|]. plain_text.
Qed.
Lemma rule1_sent : send rule_ok (enc_rule ff0) rule1 = Some (on_wire (enc_rule ff0 rule1)).
Proof. vm_compute. reflexivity. Qed.
Definition lock1 : ApiLock := mkApiLock (Some (mkLockSpec (Some kv1) (Some (Some 3000000000)))) None.
Lemma lock1_plain : plain_lock ff0 pf0 lock1.
Proof. split; [|exact I]. split; [exact kv1_plain|split; cbn; Lia.lia]. Qed.
Lemma lock1_sent : send lock_create_ok (enc_lock ff0) lock1 = Some (on_wire (enc_lock ff0 lock1)).
Proof. vm_compute. reflexivity. Qed.
(** A query with an empty Or, as a program that filters a list would make *)
Definition query1 : Query :=
  Q (Some (mkSel ["id"%string] [("size"%string, mkVQ (Int 4) CLessEq (mkTR T_int T_any))] None (Some 3))) (Some [])
    (Some [Q (Some (mkSel [] [("color"%string, mkVQ (Str umlaut) CNotEquals (mkTR T_string T_string))] None None)) None None]).
Lemma query1_plain : plain_query ff0 pf0 query1.
Proof.
  cbn. unfold plain_sel. cbn. repeat split; repeat constructor; cbn; try plain_text; try Lia.lia; intuition congruence.
Qed.
Lemma query1_sent : send q_validate (enc_query ff0) query1 = Some (on_wire (enc_query ff0 query1)).
Proof. vm_compute. reflexivity. Qed.
(** Strings that are no text: the bytes 0xFE and 0xFF *)
Definition kv_fe : KeyValues := [("a"%string, Str (String "254" EmptyString))].
Definition kv_ff : KeyValues := [("a"%string, Str (String "255" EmptyString))].
Lemma collapsed : forall ff pf, exists body, kv_fe <> kv_ff /\ send typed_kv (enc_kv ff) kv_fe = Some body /\ send typed_kv (enc_kv ff) kv_ff = Some body /\
  exists kv, receive typed_kv (dec_kv pf) (Some body) = Some kv /\ kv <> kv_fe /\ kv <> kv_ff.
Proof.
  intros ff pf. eexists. split; [discriminate|]. split; [vm_compute; reflexivity|]. split; [vm_compute; reflexivity|].
  eexists. split; [vm_compute; reflexivity|]. split; discriminate.
Qed.
