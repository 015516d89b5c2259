(** Proofs about Json.v: text survives the repair of strings. *)
From Coq Require Import String Ascii List Bool NArith ZArith Lia.
Import ListNotations.
From Verif Require Import Datatypes SpecValues Query Json Models SpecModels.
Local Open Scope list_scope.

Lemma N_ascii : forall n, (n < 256)%N -> N_of_ascii (ascii_of_N n) = n.
Proof. exact N_ascii_embedding. Qed.
Lemma ascii_small : forall c, (N_of_ascii c < 256)%N.
Proof. exact N_ascii_bounded. Qed.

(** ** Text *)
Ltac Zify.zify_post_hook ::= Z.to_euclidean_division_equations.
Lemma fix1 : forall c r, (N_of_ascii c < 128)%N -> utf8_fix (String c r) = String c (utf8_fix r).
Proof. intros c r H. apply N.ltb_lt in H. cbn [utf8_fix]. rewrite H. reflexivity. Qed.
Lemma fix2 : forall c c1 r lo hi, ~ (N_of_ascii c < 128)%N -> utf8_lead (N_of_ascii c) = Some (1%nat, lo, hi) ->
  between lo hi c1 = true -> utf8_fix (String c (String c1 r)) = String c (String c1 (utf8_fix r)).
Proof.
  intros c c1 r lo hi H H0 H1. apply N.ltb_nlt in H.
  change (utf8_fix (String c (String c1 r))) with
    (if (N_of_ascii c <? 128)%N then String c (utf8_fix (String c1 r))
     else match utf8_lead (N_of_ascii c) with
          | None => replacement (utf8_fix (String c1 r))
          | Some (n, lo, hi) =>
              if negb (between lo hi c1) then replacement (utf8_fix (String c1 r))
              else match n, r with
                   | 1%nat, _ => String c (String c1 (utf8_fix r))
                   | _, EmptyString => replacement (utf8_fix (String c1 r))
                   | _, String c2 r2 =>
                       if negb (between 128 191 c2) then replacement (utf8_fix (String c1 r))
                       else match n, r2 with
                            | 2%nat, _ => String c (String c1 (String c2 (utf8_fix r2)))
                            | _, EmptyString => replacement (utf8_fix (String c1 r))
                            | _, String c3 r3 =>
                                if negb (between 128 191 c3) then replacement (utf8_fix (String c1 r))
                                else String c (String c1 (String c2 (String c3 (utf8_fix r3))))
                            end
                   end
          end).
  rewrite H, H0, H1. reflexivity.
Qed.
Lemma fix3 : forall c c1 c2 r lo hi, ~ (N_of_ascii c < 128)%N -> utf8_lead (N_of_ascii c) = Some (2%nat, lo, hi) ->
  between lo hi c1 = true -> between 128 191 c2 = true ->
  utf8_fix (String c (String c1 (String c2 r))) = String c (String c1 (String c2 (utf8_fix r))).
Proof.
  intros c c1 c2 r lo hi H H0 H1 H2. apply N.ltb_nlt in H.
  set (s := String c1 (String c2 r)).
  change (utf8_fix (String c s)) with
    (if (N_of_ascii c <? 128)%N then String c (utf8_fix s)
     else match utf8_lead (N_of_ascii c) with
          | None => replacement (utf8_fix s)
          | Some (n, lo, hi) =>
              if negb (between lo hi c1) then replacement (utf8_fix s)
              else match n with
                   | 1%nat => String c (String c1 (utf8_fix (String c2 r)))
                   | _ =>
                       if negb (between 128 191 c2) then replacement (utf8_fix s)
                       else match n, r with
                            | 2%nat, _ => String c (String c1 (String c2 (utf8_fix r)))
                            | _, EmptyString => replacement (utf8_fix s)
                            | _, String c3 r3 =>
                                if negb (between 128 191 c3) then replacement (utf8_fix s)
                                else String c (String c1 (String c2 (String c3 (utf8_fix r3))))
                            end
                   end
          end).
  rewrite H, H0, H1, H2. reflexivity.
Qed.
Lemma fix4 : forall c c1 c2 c3 r lo hi, ~ (N_of_ascii c < 128)%N -> utf8_lead (N_of_ascii c) = Some (3%nat, lo, hi) ->
  between lo hi c1 = true -> between 128 191 c2 = true -> between 128 191 c3 = true ->
  utf8_fix (String c (String c1 (String c2 (String c3 r)))) = String c (String c1 (String c2 (String c3 (utf8_fix r)))).
Proof.
  intros c c1 c2 c3 r lo hi H H0 H1 H2 H3. apply N.ltb_nlt in H.
  set (s := String c1 (String c2 (String c3 r))).
  change (utf8_fix (String c s)) with
    (if (N_of_ascii c <? 128)%N then String c (utf8_fix s)
     else match utf8_lead (N_of_ascii c) with
          | None => replacement (utf8_fix s)
          | Some (n, lo, hi) =>
              if negb (between lo hi c1) then replacement (utf8_fix s)
              else match n with
                   | 1%nat => String c (String c1 (utf8_fix (String c2 (String c3 r))))
                   | _ =>
                       if negb (between 128 191 c2) then replacement (utf8_fix s)
                       else match n with
                            | 2%nat => String c (String c1 (String c2 (utf8_fix (String c3 r))))
                            | _ =>
                                if negb (between 128 191 c3) then replacement (utf8_fix s)
                                else String c (String c1 (String c2 (String c3 (utf8_fix r))))
                            end
                   end
          end).
  rewrite H, H0, H1, H2, H3. reflexivity.
Qed.
Lemma between_intro : forall lo hi n, (lo <= n <= hi)%N -> (n < 256)%N -> between lo hi (ascii_of_N n) = true.
Proof. intros lo hi n H Hn. unfold between. rewrite N_ascii by exact Hn. apply andb_true_intro; split; apply N.leb_le; apply H. Qed.
Ltac lead_cases :=
  unfold utf8_lead;
  repeat match goal with
  | |- context [N.ltb ?a ?b] => destruct (N.ltb_spec a b); [try lia|try lia]
  | |- context [N.eqb ?a ?b] => destruct (N.eqb_spec a b); [try lia|try lia]
  end; try reflexivity.
Lemma char_shape : forall n, scalar n -> forall s,
  (n < 1114112)%N -> utf8_fix (bytes (utf8_char n) ++ s)%string = (bytes (utf8_char n) ++ utf8_fix s)%string.
Proof.
  intros n Hs s Hn. unfold scalar in Hs. unfold utf8_char.
  destruct (N.ltb_spec n 128).
  { cbn [bytes fold_right append]. apply fix1. rewrite N_ascii by lia. exact H. }
  destruct (N.ltb_spec n 2048).
  { cbn [bytes fold_right append].
    set (a := (n / 64)%N). set (b := (n mod 64)%N).
    assert (n = a * 64 + b)%N by (unfold a, b; lia).
    assert (b < 64)%N by (unfold b; lia). clearbody a b. subst n.
    apply (fix2 _ _ _ 128%N 191%N).
    - rewrite N_ascii by lia. lia.
    - rewrite N_ascii by lia. lead_cases.
    - apply between_intro; lia. }
  destruct (N.ltb_spec n 65536).
  { cbn [bytes fold_right append].
    set (a := (n / 4096)%N). set (b := (n / 64 mod 64)%N). set (c := (n mod 64)%N).
    assert (n = a * 4096 + b * 64 + c)%N by (unfold a, b, c; lia).
    assert (Ha16 : (a < 16)%N) by (unfold a; lia). assert (b < 64)%N by (unfold b; lia). assert (c < 64)%N by (unfold c; lia).
    clearbody a b c. subst n.
    assert (a = 0 \/ a = 13 \/ (0 < a /\ a <> 13))%N as [Ha|[Ha|Ha]] by lia.
    - subst a. apply (fix3 _ _ _ _ 160%N 191%N); [rewrite N_ascii by lia; lia|rewrite N_ascii by lia; reflexivity| |]; apply between_intro; lia.
    - subst a. apply (fix3 _ _ _ _ 128%N 159%N); [rewrite N_ascii by lia; lia|rewrite N_ascii by lia; reflexivity| |]; apply between_intro; lia.
    - apply (fix3 _ _ _ _ 128%N 191%N); [rewrite N_ascii by lia; lia| | |].
      + rewrite N_ascii by lia. clear - Ha16 Ha. lead_cases.
      + apply between_intro; lia.
      + apply between_intro; lia. }
  cbn [bytes fold_right append].
  set (a := (n / 262144)%N). set (d := (n / 4096 mod 64)%N). set (b := (n / 64 mod 64)%N). set (c := (n mod 64)%N).
  assert (n = a * 262144 + d * 4096 + b * 64 + c)%N by (unfold a, b, c, d; lia).
  assert (Ha5 : (a < 5)%N) by (unfold a; lia). assert (b < 64)%N by (unfold b; lia). assert (c < 64)%N by (unfold c; lia).
  assert (d < 64)%N by (unfold d; lia).
  clearbody a b c d. subst n.
  assert (a = 0 \/ a = 4 \/ (0 < a /\ a <> 4))%N as [Ha|[Ha|Ha]] by lia.
  - subst a. apply (fix4 _ _ _ _ _ 144%N 191%N); [rewrite N_ascii by lia; lia|rewrite N_ascii by lia; reflexivity| | |]; apply between_intro; lia.
  - subst a. apply (fix4 _ _ _ _ _ 128%N 143%N); [rewrite N_ascii by lia; lia|rewrite N_ascii by lia; reflexivity| | |]; apply between_intro; lia.
  - apply (fix4 _ _ _ _ _ 128%N 191%N); [rewrite N_ascii by lia; lia| | | |].
    + rewrite N_ascii by lia. clear - Ha5 Ha. lead_cases.
    + apply between_intro; lia.
    + apply between_intro; lia.
    + apply between_intro; lia.
Qed.

Lemma bytes_app : forall a b, bytes (a ++ b) = (bytes a ++ bytes b)%string.
Proof. induction a as [|x a IH]; intros b; [reflexivity|]. cbn [app bytes fold_right append]. f_equal. apply IH. Qed.
Lemma text_fix : forall s, text s -> utf8_fix s = s.
Proof.
  intros s [l [Hl ->]]. induction Hl as [|n l Hn Hl IH]; [reflexivity|].
  cbn [flat_map]. rewrite bytes_app, char_shape by (auto; unfold scalar in Hn; lia). f_equal. exact IH.
Qed.
