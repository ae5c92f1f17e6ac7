(** Base64 and hex are lossless and canonical. *)
From Verif.Model Require Import Bytes Base64 Hex.
From Verif.Proofs Require Import BytesFacts.

Lemma b64_val_char : forall s, b64_val (b64_char s) = Some s.
Proof. intros (a,(b,(c,(d,(e,f))))). destruct a, b, c, d, e, f; vm_compute; reflexivity. Qed.

Lemma b64_char_val : forall c s, b64_val c = Some s -> b64_char s = c.
Proof. intros c s. destruct c; vm_compute; intro H; inversion H; reflexivity. Qed.

Lemma b64_char_not : forall s c, b64_val c = None -> b64_char s <> c.
Proof. intros s c H E. subst. rewrite b64_val_char in H. discriminate. Qed.

Ltac split_bits :=
  repeat match goal with
  | |- context [Byte.to_bits ?x] =>
      let E := fresh "E" in
      destruct (Byte.to_bits x) as (?b,(?b,(?b,(?b,(?b,(?b,(?b,?b))))))) eqn:E
  end.

Lemma of_bits_eq : forall x v, Byte.to_bits x = v -> Byte.of_bits v = x.
Proof. intros x v <-. apply Byte.of_bits_to_bits. Qed.

Lemma byte1_sext : forall x y, byte1 (sext1 x) (sext2 x y) = x.
Proof. intros. unfold byte1, sext1, sext2. split_bits. now apply of_bits_eq. Qed.
Lemma byte2_sext : forall x y z, byte2 (sext2 x y) (sext3 y z) = y.
Proof. intros. unfold byte2, sext2, sext3. split_bits. now apply of_bits_eq. Qed.
Lemma byte3_sext : forall y z, byte3 (sext3 y z) (sext4 z) = z.
Proof. intros. unfold byte3, sext3, sext4. split_bits. now apply of_bits_eq. Qed.

Ltac split_sext :=
  repeat match goal with s : sextet |- _ => destruct s as (?b,(?b,(?b,(?b,(?b,?b))))) end.

Lemma sext1_byte : forall a b, sext1 (byte1 a b) = a.
Proof. intros. split_sext. unfold sext1, byte1. rewrite Byte.to_bits_of_bits. reflexivity. Qed.
Lemma sext2_byte : forall a b c, sext2 (byte1 a b) (byte2 b c) = b.
Proof. intros. split_sext. unfold sext2, byte1, byte2. rewrite !Byte.to_bits_of_bits. reflexivity. Qed.
Lemma sext3_byte : forall b c d, sext3 (byte2 b c) (byte3 c d) = c.
Proof. intros. split_sext. unfold sext3, byte2, byte3. rewrite !Byte.to_bits_of_bits. reflexivity. Qed.
Lemma sext4_byte : forall c d, sext4 (byte3 c d) = d.
Proof. intros. split_sext. unfold sext4, byte3. rewrite Byte.to_bits_of_bits. reflexivity. Qed.
Lemma sext2_last : forall a b, low4_zero b = true -> sext2 (byte1 a b) x00 = b.
Proof.
  intros. split_sext. unfold sext2, byte1. rewrite Byte.to_bits_of_bits. simpl in *.
  apply negb_true_iff in H. repeat (apply orb_false_iff in H; destruct H as [H ?]). subst. reflexivity.
Qed.
Lemma sext3_last : forall b c, low2_zero c = true -> sext3 (byte2 b c) x00 = c.
Proof.
  intros. split_sext. unfold sext3, byte2. rewrite Byte.to_bits_of_bits. simpl in *.
  apply negb_true_iff in H. repeat (apply orb_false_iff in H; destruct H as [H ?]). subst. reflexivity.
Qed.
Lemma low4_sext2 : forall x, low4_zero (sext2 x x00) = true.
Proof. intros. unfold sext2. split_bits. vm_compute in E0. inversion E0. reflexivity. Qed.
Lemma low2_sext3 : forall y, low2_zero (sext3 y x00) = true.
Proof. intros. unfold sext3. split_bits. vm_compute in E0. inversion E0. reflexivity. Qed.

(** Induction over groups of three bytes and of four symbols. *)
Lemma ind3 : forall (P : bytes -> Prop),
  P [] -> (forall x, P [x]) -> (forall x y, P [x; y]) -> (forall x y z s, P s -> P (x :: y :: z :: s)) -> forall s, P s.
Proof.
  intros P H0 H1 H2 H3 s.
  assert (H : forall n s, length s <= n -> P s).
  { induction n as [|n IH]; intros t L.
    - destruct t; auto. simpl in L. lia.
    - destruct t as [|x [|y [|z t]]]; auto. apply H3. apply IH. simpl in L. lia. }
  apply (H (length s)). lia.
Qed.

Lemma ind4 : forall (P : bytes -> Prop),
  P [] -> (forall x, P [x]) -> (forall x y, P [x; y]) -> (forall x y z, P [x; y; z]) ->
  (forall x y z w s, P s -> P (x :: y :: z :: w :: s)) -> forall s, P s.
Proof.
  intros P H0 H1 H2 H3 H4 s.
  assert (H : forall n s, length s <= n -> P s).
  { induction n as [|n IH]; intros t L.
    - destruct t; auto. simpl in L. lia.
    - destruct t as [|x [|y [|z [|w t]]]]; auto. apply H4. apply IH. simpl in L. lia. }
  apply (H (length s)). lia.
Qed.

Lemma b64_decode_encode_nopad : forall s, b64_decode_nopad (b64_encode_nopad s) = Some s.
Proof.
  apply ind3; intros.
  - reflexivity.
  - simpl. rewrite !b64_val_char, low4_sext2, byte1_sext. reflexivity.
  - simpl. rewrite !b64_val_char, low2_sext3, byte1_sext, byte2_sext. reflexivity.
  - simpl. rewrite !b64_val_char, H, byte1_sext, byte2_sext, byte3_sext. reflexivity.
Qed.

Lemma b64_encode_decode_nopad : forall t s, b64_decode_nopad t = Some s -> b64_encode_nopad s = t.
Proof.
  intros t. pattern t. apply ind4; clear t.
  - intros s H. inversion H. reflexivity.
  - intros x s H. discriminate.
  - intros x y s H. simpl in H.
    destruct (b64_val x) eqn:Ex; try discriminate. destruct (b64_val y) eqn:Ey; try discriminate.
    destruct (low4_zero s1) eqn:L; inversion H; subst. simpl.
    rewrite sext1_byte, sext2_last by auto. now rewrite (b64_char_val _ _ Ex), (b64_char_val _ _ Ey).
  - intros x y z s H. simpl in H.
    destruct (b64_val x) eqn:Ex; try discriminate. destruct (b64_val y) eqn:Ey; try discriminate.
    destruct (b64_val z) eqn:Ez; try discriminate.
    destruct (low2_zero s2) eqn:L; inversion H; subst. simpl.
    rewrite sext1_byte, sext2_byte, sext3_last by auto.
    now rewrite (b64_char_val _ _ Ex), (b64_char_val _ _ Ey), (b64_char_val _ _ Ez).
  - intros x y z w t IH s H. simpl in H.
    destruct (b64_val x) eqn:Ex; try discriminate. destruct (b64_val y) eqn:Ey; try discriminate.
    destruct (b64_val z) eqn:Ez; try discriminate. destruct (b64_val w) eqn:Ew; try discriminate.
    destruct (b64_decode_nopad t) as [r|] eqn:Er; inversion H; subst. simpl.
    rewrite sext1_byte, sext2_byte, sext3_byte, sext4_byte, (IH r eq_refl).
    now rewrite (b64_char_val _ _ Ex), (b64_char_val _ _ Ey), (b64_char_val _ _ Ez), (b64_char_val _ _ Ew).
Qed.

Lemma b64_encode_nopad_foreign : forall c s, b64_val c = None -> ~ In c (b64_encode_nopad s).
Proof.
  intros c s Hc. revert s.
  apply ind3; intros; simpl; intro K; intuition (try (eapply b64_char_not; eassumption)); auto.
Qed.

Lemma b64_pad_repeat : forall n, exists k, b64_pad n = repeat "="%byte k.
Proof.
  intro n. unfold b64_pad. destruct (n mod 3) as [|[|[|k]]]; [exists 0|exists 2|exists 1|exists 0]; reflexivity.
Qed.

Lemma trim_encode : forall s, trim_end_c "=" (encode_base64 s) = b64_encode_nopad s.
Proof.
  intro s. unfold encode_base64. destruct (b64_pad_repeat (length s)) as [k ->].
  rewrite trim_end_c_repeat. apply trim_end_c_notin. now apply b64_encode_nopad_foreign.
Qed.

Lemma decode_encode_vec : forall s, decode_base64_vec (encode_base64 s) = Ok s.
Proof. intro s. unfold decode_base64_vec. rewrite trim_encode, b64_decode_encode_nopad. reflexivity. Qed.

Lemma decode_encode_slice : forall n s, length s = n -> decode_base64_slice n (encode_base64 s) = Ok s.
Proof.
  intros n s <-. unfold decode_base64_slice. rewrite trim_encode, b64_decode_encode_nopad.
  rewrite Nat.ltb_irrefl, Nat.sub_diag. simpl. now rewrite app_nil_r.
Qed.

Lemma encode_base64_foreign : forall c s, b64_val c = None -> c <> "="%byte -> ~ In c (encode_base64 s).
Proof.
  intros c s H K. unfold encode_base64. apply not_in_app.
  - now apply b64_encode_nopad_foreign.
  - destruct (b64_pad_repeat (length s)) as [k ->]. intro L. apply repeat_spec in L. contradiction.
Qed.

Lemma decode_vec_canonical : forall t s, decode_base64_vec t = Ok s -> trim_end_c "=" t = b64_encode_nopad s.
Proof.
  intros t s. unfold decode_base64_vec, ok_or. destruct (b64_decode_nopad (trim_end_c "=" t)) eqn:E; intro H; inversion H; subst.
  symmetry. now apply b64_encode_decode_nopad.
Qed.

(** A decoded text contains only alphabet symbols, then padding symbols. *)
Lemma decode_vec_iff : forall t s,
  decode_base64_vec t = Ok s <-> exists k, t = b64_encode_nopad s ++ repeat "="%byte k.
Proof.
  intros t s. split.
  - intro H. apply decode_vec_canonical in H. destruct (trim_end_c_shape "=" t) as [k E]. exists k. now rewrite <- H.
  - intros [k ->]. unfold decode_base64_vec. rewrite trim_end_c_repeat, trim_end_c_notin by now apply b64_encode_nopad_foreign.
    now rewrite b64_decode_encode_nopad.
Qed.

Lemma decode_slice_iff : forall n t s,
  decode_base64_slice n t = Ok s
  <-> exists d, decode_base64_vec t = Ok d /\ (length d <= n)%nat /\ s = d ++ repeat x00 (n - length d).
Proof.
  intros n t s. unfold decode_base64_slice, decode_base64_vec, ok_or.
  destruct (b64_decode_nopad (trim_end_c "=" t)) as [d|].
  - destruct (Nat.ltb n (length d)) eqn:L.
    + apply Nat.ltb_lt in L. split; try discriminate. intros (d' & E & K & _). inversion E; subst. lia.
    + apply Nat.ltb_ge in L. split.
      * intro H. inversion H; subst. exists d. auto.
      * intros (d' & E & K & ->). inversion E; subst. reflexivity.
  - split; try discriminate. intros (d' & E & _). discriminate.
Qed.

Lemma decode_slice_panic_iff : forall n t,
  decode_base64_slice n t = Panic <-> exists d, decode_base64_vec t = Ok d /\ (n < length d)%nat.
Proof.
  intros n t. unfold decode_base64_slice, decode_base64_vec, ok_or.
  destruct (b64_decode_nopad (trim_end_c "=" t)) as [d|].
  - destruct (Nat.ltb n (length d)) eqn:L.
    + apply Nat.ltb_lt in L. split; auto. intros _. exists d. auto.
    + apply Nat.ltb_ge in L. split; try discriminate. intros (d' & E & K). inversion E; subst. lia.
  - split; try discriminate. intros (d' & E & _). discriminate.
Qed.

Lemma decode_slice_length : forall n t s, decode_base64_slice n t = Ok s -> length s = n.
Proof.
  intros n t s H. apply decode_slice_iff in H. destruct H as (d & _ & L & ->).
  rewrite app_length, repeat_length. lia.
Qed.

Lemma b64_encode_nopad_length : forall s,
  length (b64_encode_nopad s) = (length s / 3 * 4 + match length s mod 3 with 0 => 0 | n => n + 1 end)%nat.
Proof.
  apply ind3; intros; try reflexivity.
  cbn [b64_encode_nopad length]. rewrite H.
  replace (S (S (S (length s)))) with (length s + 1 * 3)%nat by lia.
  rewrite Nat.div_add, Nat.mod_add by lia. lia.
Qed.

(** ** Hex *)

Lemma hex_val_char : forall n, (n < 16)%N -> hex_val (hex_char n) = Some n.
Proof.
  intros n H.
  assert (In n (map N.of_nat (seq 0 16))).
  { apply in_map_iff. exists (N.to_nat n). split. lia. apply in_seq. lia. }
  simpl in H0. repeat (destruct H0 as [<-|H0]; [reflexivity|]). destruct H0.
Qed.

Lemma hex_decode_encode : forall s, hex_decode (hex_encode_upper s) = Some s.
Proof.
  induction s as [|x s IH]; auto.
  cbn [hex_encode_upper hex_decode].
  pose proof (byte_to_N_bound x).
  rewrite !hex_val_char, IH.
  - repeat f_equal. rewrite <- N.div_mod by lia. apply byte_of_N_to_N.
  - apply N.mod_lt. lia.
  - apply N.div_lt_upper_bound; lia.
Qed.

Lemma hex_encode_injective : forall a b, hex_encode_upper a = hex_encode_upper b -> a = b.
Proof. intros a b H. apply (f_equal hex_decode) in H. rewrite !hex_decode_encode in H. congruence. Qed.

Lemma hex_encode_length : forall s, length (hex_encode_upper s) = (2 * length s)%nat.
Proof. induction s as [|x s IH]; simpl; auto. rewrite IH. lia. Qed.

Lemma hex_char_digit : forall n, In (hex_char n) hex_digits.
Proof.
  intro n. unfold hex_char. destruct (Nat.lt_ge_cases (N.to_nat n) (length hex_digits)).
  - now apply nth_In.
  - rewrite nth_overflow by auto. now left.
Qed.

Lemma hex_encode_digits : forall s c, In c (hex_encode_upper s) -> In c hex_digits.
Proof.
  induction s as [|x s IH]; intros c H.
  - destruct H.
  - cbn [hex_encode_upper In] in H. destruct H as [<-|[<-|H]]; auto using hex_char_digit.
Qed.

(** Upper-case hex text is canonical: among upper-case texts decoding is injective. *)
Lemma hex_char_val : forall c n, hex_val c = Some n -> In c hex_digits -> hex_char n = c.
Proof.
  intros c n H I. simpl in I.
  repeat (destruct I as [<-|I]; [vm_compute in H; inversion H; reflexivity|]). destruct I.
Qed.

Lemma hex_val_bound : forall c n, hex_val c = Some n -> (n < 16)%N.
Proof.
  intros c n. destruct c; vm_compute; intro H; inversion H; reflexivity.
Qed.

Lemma ind2 : forall (P : bytes -> Prop), P [] -> (forall x, P [x]) -> (forall x y s, P s -> P (x :: y :: s)) -> forall s, P s.
Proof.
  intros P H0 H1 H2 s.
  assert (H : forall n s, length s <= n -> P s).
  { induction n as [|n IH]; intros t L.
    - destruct t; auto. simpl in L. lia.
    - destruct t as [|x [|y t]]; auto. apply H2. apply IH. simpl in L. lia. }
  apply (H (length s)). lia.
Qed.

Lemma hex_encode_decode : forall t s, (forall c, In c t -> In c hex_digits) -> hex_decode t = Some s -> hex_encode_upper s = t.
Proof.
  intros t. pattern t. apply ind2; clear t.
  - intros s _ H. inversion H. reflexivity.
  - intros x s _ H. discriminate.
  - intros a b t IH s D H. cbn [hex_decode] in H.
    destruct (hex_val a) as [x|] eqn:Ea; try discriminate.
    destruct (hex_val b) as [y|] eqn:Eb; try discriminate.
    destruct (hex_decode t) as [r|] eqn:Er; try discriminate. apply (f_equal (fun o => match o with Some v => v | None => s end)) in H.
    rewrite <- H. clear H. cbn [hex_encode_upper].
    pose proof (hex_val_bound _ _ Ea). pose proof (hex_val_bound _ _ Eb).
    assert (Byte.to_N (byte_of_N (16 * x + y)) = 16 * x + y)%N as E.
    { unfold byte_of_N. rewrite N.mod_small by lia. destruct (Byte.of_N (16 * x + y)) eqn:O.
      - now apply Byte.to_of_N in O.
      - apply Byte.of_N_None_iff in O. lia. }
    rewrite E. replace ((16 * x + y) / 16)%N with x by (apply N.div_unique with y; lia).
    replace ((16 * x + y) mod 16)%N with y by (apply N.mod_unique with x; lia).
    rewrite (hex_char_val a x Ea), (hex_char_val b y Eb), IH; auto; try (apply D; simpl; tauto).
    intros c I. apply D. simpl. tauto.
Qed.

(** A character has a hex value exactly when it is one of the 22 digits. *)
Lemma hex_val_some : forall c, (exists n, hex_val c = Some n) <-> In c (lit "0123456789ABCDEFabcdef").
Proof.
  intro c. split.
  - destruct c; vm_compute; intro H; try (exfalso; destruct H as [n H]; discriminate H); auto 30.
  - intro H. destruct c; vm_compute in H; repeat (destruct H as [H|H]; try discriminate H); try contradiction; vm_compute; eexists; reflexivity.
Qed.

Lemma hex_decode_some : forall s, (exists r, hex_decode s = Some r) <-> Nat.Even (length s) /\ Forall (fun c => In c (lit "0123456789ABCDEFabcdef")) s.
Proof.
  fix IH 1. intros [|a [|b s]].
  - split; intros _; [|now exists []]. split; [now exists 0|constructor].
  - split; [intros [r H]; discriminate H|]. intros [[k E] _]. cbn in E. lia.
  - specialize (IH s). cbn [hex_decode length]. split.
    + intros [r H]. destruct (hex_val a) as [x|] eqn:Ea; [|discriminate H].
      destruct (hex_val b) as [y|] eqn:Eb; [|discriminate H].
      destruct (hex_decode s) as [t|] eqn:Es; [|discriminate H].
      destruct (proj1 IH (ex_intro _ t eq_refl)) as [[k E] F]. split; [exists (S k); lia|].
      constructor; [apply hex_val_some; now exists x|]. constructor; [apply hex_val_some; now exists y|exact F].
    + intros [[k E] F]. inversion F as [|? ? Fa F']; subst. inversion F' as [|? ? Fb Fs]; subst.
      apply hex_val_some in Fa, Fb. destruct Fa as [x ->], Fb as [y ->].
      destruct (proj2 IH) as [t ->]; [split; [exists (k - 1); lia|exact Fs]|]. eexists; reflexivity.
Qed.
