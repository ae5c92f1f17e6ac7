(** The base64 encoder computes the specification's bit regrouping. *)
From Verif.Model Require Import Bytes Base64.
From Verif.Proofs Require Import BytesFacts Base64Facts.
From Verif.Spec Require Import SpecValue.

Definition sbits (s : sextet) : list bool := let '(a, (b, (c, (d, (e, f))))) := s in [f; e; d; c; b; a].

Lemma sextet_symbol : forall s, exists i, nth_error alphabet i = Some (b64_char s) /\ six_bits i = sbits s.
Proof.
  intro s. exists (N.to_nat (sextet_val s)).
  destruct s as (a & b & c & d & e & f). destruct a, b, c, d, e, f; split; reflexivity.
Qed.

Lemma symbols_cons_char : forall s t bits, symbols t bits -> symbols (b64_char s :: t) (sbits s ++ bits).
Proof. intros s t bits H. destruct (sextet_symbol s) as (i & A & <-). now constructor. Qed.

Definition bits8 (x : byte) : list bool :=
  let '(x0, (x1, (x2, (x3, (x4, (x5, (x6, x7))))))) := Byte.to_bits x in [x7; x6; x5; x4; x3; x2; x1; x0].
Lemma eight_bits_eq : forall x, eight_bits x = bits8 x.
Proof. intro x. destruct x; reflexivity. Qed.

Lemma symbols_chars : forall l bits, bits = flat_map sbits l -> symbols (map b64_char l) bits.
Proof. induction l as [|s l IH]; intros bits ->; simpl. constructor. apply symbols_cons_char. now apply IH. Qed.

Lemma symbols_app : forall t1 b1 t2 b2, symbols t1 b1 -> symbols t2 b2 -> symbols (t1 ++ t2) (b1 ++ b2).
Proof. induction 1; intro H2; [exact H2|]. rewrite <- app_assoc, <- app_comm_cons. constructor; auto. Qed.

Lemma encode_base64_of : forall d, base64_of d (b64_encode_nopad d).
Proof.
  apply ind3.
  - exists 0%nat. split; [lia|constructor].
  - intro x. exists 4%nat. split; [lia|]. cbn [flat_map]. rewrite !eight_bits_eq.
    apply (symbols_chars [sext1 x; sext2 x x00]). unfold bits8, sext1, sext2. change (Byte.to_bits x00) with (false, (false, (false, (false, (false, (false, (false, false))))))).
    destruct (Byte.to_bits x) as (x0 & x1 & x2 & x3 & x4 & x5 & x6 & x7). reflexivity.
  - intros x y. exists 2%nat. split; [lia|]. cbn [flat_map]. rewrite !eight_bits_eq.
    apply (symbols_chars [sext1 x; sext2 x y; sext3 y x00]). unfold bits8, sext1, sext2, sext3. change (Byte.to_bits x00) with (false, (false, (false, (false, (false, (false, (false, false))))))).
    destruct (Byte.to_bits x) as (x0 & x1 & x2 & x3 & x4 & x5 & x6 & x7).
    destruct (Byte.to_bits y) as (y0 & y1 & y2 & y3 & y4 & y5 & y6 & y7). reflexivity.
  - intros x y z s (k & K & H). exists k. split; auto.
    change (flat_map eight_bits (x :: y :: z :: s)) with (eight_bits x ++ eight_bits y ++ eight_bits z ++ flat_map eight_bits s).
    replace ((eight_bits x ++ eight_bits y ++ eight_bits z ++ flat_map eight_bits s) ++ repeat false k)
      with ((eight_bits x ++ eight_bits y ++ eight_bits z) ++ flat_map eight_bits s ++ repeat false k) by now rewrite !app_assoc.
    change (b64_encode_nopad (x :: y :: z :: s)) with (map b64_char [sext1 x; sext2 x y; sext3 y z; sext4 z] ++ b64_encode_nopad s).
    apply symbols_app; auto. apply symbols_chars. rewrite !eight_bits_eq. unfold bits8, sext1, sext2, sext3, sext4.
    destruct (Byte.to_bits x) as (x0 & x1 & x2 & x3 & x4 & x5 & x6 & x7).
    destruct (Byte.to_bits y) as (y0 & y1 & y2 & y3 & y4 & y5 & y6 & y7).
    destruct (Byte.to_bits z) as (z0 & z1 & z2 & z3 & z4 & z5 & z6 & z7). reflexivity.
Qed.

Lemma symbols_length : forall t bits, symbols t bits -> length bits = (6 * length t)%nat.
Proof. induction 1; auto. rewrite app_length. simpl length in *. lia. Qed.

Lemma six_bits_inj : forall i j, (i < 64)%nat -> (j < 64)%nat -> six_bits i = six_bits j -> i = j.
Proof.
  assert (F : forall i, (i < 64)%nat -> nth_error (map six_bits (seq 0 64)) i = Some (six_bits i)).
  { intros i H. rewrite nth_error_map. rewrite (nth_error_nth' _ 0%nat) by now rewrite seq_length. now rewrite seq_nth. }
  assert (D : NoDup (map six_bits (seq 0 64))).
  { assert (forall l : list (list bool), (fix nd l := match l with [] => true | x :: r => negb (existsb (fun y => if list_eq_dec bool_dec x y then true else false) r) && nd r end) l = true -> NoDup l).
    { induction l as [|x r IH]; intro H; constructor; apply andb_true_iff in H; destruct H as [A B]; auto.
      intro K. apply negb_true_iff in A. assert (existsb (fun y => if list_eq_dec bool_dec x y then true else false) r = true).
      { apply existsb_exists. exists x. split; auto. destruct (list_eq_dec bool_dec x x); congruence. } congruence. }
    apply H. vm_compute. reflexivity. }
  intros i j Hi Hj E. rewrite NoDup_nth_error in D. apply D. now rewrite map_length, seq_length.
  rewrite !F by auto. now f_equal.
Qed.

Lemma alphabet_bound : forall i c, nth_error alphabet i = Some c -> (i < 64)%nat.
Proof. intros i c H. change 64%nat with (length alphabet). apply nth_error_Some. congruence. Qed.

Lemma six_bits_split : forall i j a b, six_bits i ++ a = six_bits j ++ b -> six_bits i = six_bits j /\ a = b.
Proof.
  intros i j a b H. unfold six_bits in *. cbn [map app] in H.
  injection H as H0 H1 H2 H3 H4 H5 H6. cbn [map]. split; congruence.
Qed.

Lemma symbols_functional : forall t bits, symbols t bits -> forall t' bits', symbols t' bits' -> bits = bits' -> t = t'.
Proof.
  induction 1 as [|i c t bits A S IH]; intros t' bits' S' E.
  - apply symbols_length in S'. subst. destruct t'; auto. discriminate.
  - destruct S' as [|j c' t'' bits'' A' S''].
    + apply (f_equal (@length _)) in E. rewrite app_length in E. discriminate.
    + apply six_bits_split in E. destruct E as [X Y].
      apply six_bits_inj in X; try (eapply alphabet_bound; eassumption). subst j. f_equal; [congruence|eauto].
Qed.

Lemma base64_of_unique : forall d t, base64_of d t <-> t = b64_encode_nopad d.
Proof.
  intros d t. split.
  - intros (z & Hz & S). destruct (encode_base64_of d) as (z' & Hz' & S').
    assert (z = z').
    { apply symbols_length in S. apply symbols_length in S'. rewrite app_length, repeat_length in *. lia. }
    subst. eapply symbols_functional; eauto.
  - intros ->. apply encode_base64_of.
Qed.

Lemma is_base64_text_iff : forall t d, is_base64_text t d <-> decode_base64_vec t = Ok d.
Proof.
  intros t d. rewrite decode_vec_iff. split.
  - intros (t' & k & B & ->). apply base64_of_unique in B. subst. now exists k.
  - intros (k & ->). exists (b64_encode_nopad d), k. split; auto. now apply base64_of_unique.
Qed.
