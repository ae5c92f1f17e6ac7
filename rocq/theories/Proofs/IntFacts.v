(** Decimal text of integers. *)
From Coq Require Import Decimal DecimalN DecimalFacts DecimalPos.
From Verif.Model Require Import Bytes Utf8 IntText.
From Verif.Proofs Require Import BytesFacts.

Lemma text_uint_text : forall d, text_uint (uint_text d) = Some d.
Proof. induction d; simpl; rewrite ?IHd; reflexivity. Qed.

Lemma uint_text_digits : forall d c, In c (uint_text d) -> is_digit c = true.
Proof. induction d; simpl; intros c H; try tauto; destruct H as [<-|H]; auto. Qed.

Lemma N_text_digits : forall n c, In c (N_text n) -> is_digit c = true.
Proof. intros n c. apply uint_text_digits. Qed.

Lemma to_uint_nonnil : forall n, N.to_uint n <> Nil.
Proof.
  intros [|p]; simpl; try discriminate. apply DecimalPos.Unsigned.to_uint_nonnil.
Qed.

Lemma N_text_nonempty : forall n, N_text n <> [].
Proof.
  intro n. unfold N_text. pose proof (to_uint_nonnil n). destruct (N.to_uint n); simpl; congruence.
Qed.

Lemma text_N_text : forall n, text_N (N_text n) = Some n.
Proof.
  intro n. unfold text_N. destruct (N_text n) eqn:E. destruct (N_text_nonempty n E). rewrite <- E.
  unfold N_text. rewrite text_uint_text. simpl. now rewrite DecimalN.Unsigned.of_to.
Qed.

(** Leading zeros do not change the number. *)
Lemma text_uint_zeros : forall k s d, text_uint s = Some d -> text_uint (repeat "0"%byte k ++ s) = Some (Nat.iter k D0 d).
Proof.
  induction k as [|k IH]; intros s d H; simpl; auto. now rewrite (IH s d H).
Qed.

Lemma of_uint_zeros : forall k d, N.of_uint (Nat.iter k D0 d) = N.of_uint d.
Proof. induction k as [|k IH]; intro d; simpl; auto. Qed.

Lemma is_digit_cases : forall c, is_digit c = true ->
  In c ["0"; "1"; "2"; "3"; "4"; "5"; "6"; "7"; "8"; "9"]%byte.
Proof. intros c H. destruct c; try discriminate H; simpl; tauto. Qed.

Lemma digit_not : forall c d, is_digit c = true -> is_digit d = false -> beqb c d = false.
Proof. intros c d Hc Hd. apply beqb_neq. intro E. congruence. Qed.

Lemma text_uint_digits : forall s, (forall c, In c s -> is_digit c = true) -> exists d, text_uint s = Some d.
Proof.
  induction s as [|c s IH]; intros H.
  - now exists Nil.
  - destruct IH as [d E]. { intros x Hx. apply H. now right. }
    simpl. rewrite E. assert (is_digit c = true) by (apply H; now left). apply is_digit_cases in H0.
    simpl in H0. repeat (destruct H0 as [<-|H0]; [eexists; reflexivity|]). destruct H0.
Qed.

Lemma parse_int_text_gen : forall z, parse_i64 (int_text z) = if in_i64 z then Some z else None.
Proof.
  intros z. unfold parse_i64.
  assert (match int_text z with
    | [] => None
    | c :: s' =>
        if beqb c "-" then option_map (fun n => (- Z.of_N n)%Z) (text_N s')
        else if beqb c "+" then option_map Z.of_N (text_N s')
        else option_map Z.of_N (text_N (int_text z))
    end = Some z) as E.
  { destruct z as [|p|p]; simpl int_text.
    - reflexivity.
    - pose proof (text_N_text (Npos p)) as T. pose proof (N_text_digits (Npos p)) as D.
      destruct (N_text (Npos p)) as [|c s] eqn:E. { destruct (N_text_nonempty _ E). }
      rewrite (digit_not c "-"), (digit_not c "+") by (try reflexivity; apply D; now left).
      now rewrite T.
    - change (option_map (fun n => (- Z.of_N n)%Z) (text_N (N_text (Npos p))) = Some (Zneg p)). now rewrite text_N_text. }
  destruct (int_text z) as [|c s] eqn:I; try discriminate.
  now rewrite E.
Qed.

Lemma parse_int_text : forall z, in_i64 z = true -> parse_i64 (int_text z) = Some z.
Proof. intros z H. now rewrite parse_int_text_gen, H. Qed.

Lemma parse_int_text_out : forall z, in_i64 z = false -> parse_i64 (int_text z) = None.
Proof. intros z H. now rewrite parse_int_text_gen, H. Qed.

Lemma parse_i64_range : forall s z, parse_i64 s = Some z -> in_i64 z = true.
Proof.
  intros s z. unfold parse_i64.
  match goal with |- context [match ?x with Some _ => _ | None => None end] => destruct x end; try discriminate.
  destruct (in_i64 z0) eqn:E; intro H; inversion H; subst; auto.
Qed.

(** ASCII text is valid UTF-8. *)
Definition ascii (c : byte) : bool := in_range x00 x7f c.

Lemma utf8_ascii : forall s, (forall c, In c s -> ascii c = true) -> utf8_valid s = true.
Proof.
  induction s as [|c s IH]; intros H; auto.
  cbn [utf8_valid]. change (in_range x00 x7f c) with (ascii c). rewrite (H c (or_introl eq_refl)).
  apply IH. intros x Hx. apply H. now right.
Qed.

Lemma digit_ascii : forall c, is_digit c = true -> ascii c = true.
Proof. intros c H. destruct c; try discriminate H; reflexivity. Qed.

Lemma int_text_ascii : forall z c, In c (int_text z) -> ascii c = true.
Proof.
  intros [|p|p] c H; unfold int_text in H.
  - destruct H as [<-|[]]. reflexivity.
  - apply N_text_digits in H. now apply digit_ascii.
  - destruct H as [<-|H]. reflexivity. apply N_text_digits in H. now apply digit_ascii.
Qed.

Lemma int_text_utf8 : forall z, utf8_valid (int_text z) = true.
Proof. intro z. apply utf8_ascii. apply int_text_ascii. Qed.

Lemma int_text_injective : forall a b, in_i64 a = true -> in_i64 b = true -> int_text a = int_text b -> a = b.
Proof.
  intros a b Ha Hb H. apply (f_equal parse_i64) in H. rewrite !parse_int_text in H by auto. congruence.
Qed.
