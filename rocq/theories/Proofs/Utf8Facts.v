(** The UTF-8 validator accepts exactly the encodings of sequences of scalar values. *)
From Verif.Model Require Import Bytes Utf8.
From Verif.Proofs Require Import BytesFacts.
From Verif.Spec Require Import SpecValue.

Lemma bN_to_N : forall n, (n < 256)%N -> Byte.to_N (bN n) = n.
Proof.
  intros n H. unfold bN. destruct (Byte.of_N n) as [b|] eqn:E.
  - now apply Byte.to_of_N_iff.
  - apply Byte.of_N_None_iff in E. lia.
Qed.

Lemma bN_of_to : forall b, bN (Byte.to_N b) = b.
Proof. intro b. unfold bN. now rewrite Byte.of_to_N. Qed.

Lemma in_range_bN : forall lo hi n, (n < 256)%N -> in_range lo hi (bN n) = ((Byte.to_N lo <=? n) && (n <=? Byte.to_N hi))%N.
Proof. intros lo hi n H. unfold in_range. now rewrite bN_to_N. Qed.

Lemma in_range_iff : forall lo hi b, in_range lo hi b = true <-> (Byte.to_N lo <= Byte.to_N b <= Byte.to_N hi)%N.
Proof. intros. unfold in_range. rewrite andb_true_iff, !N.leb_le. tauto. Qed.

Lemma beqb_iff : forall a b, beqb a b = true <-> Byte.to_N a = Byte.to_N b.
Proof.
  intros. rewrite beqb_eq. split. now intros ->. intro H. apply (f_equal bN) in H. now rewrite !bN_of_to in H.
Qed.

Ltac to_nums :=
  unfold ok2, ok3, ok4, cont in *;
  repeat (rewrite ?orb_true_iff, ?andb_true_iff, ?in_range_iff, ?beqb_iff in *);
  change (Byte.to_N x00) with 0%N in *; change (Byte.to_N x7f) with 127%N in *;
  change (Byte.to_N x80) with 128%N in *; change (Byte.to_N xbf) with 191%N in *;
  change (Byte.to_N xc2) with 194%N in *; change (Byte.to_N xdf) with 223%N in *;
  change (Byte.to_N xe0) with 224%N in *; change (Byte.to_N xa0) with 160%N in *;
  change (Byte.to_N xe1) with 225%N in *; change (Byte.to_N xec) with 236%N in *;
  change (Byte.to_N xed) with 237%N in *; change (Byte.to_N x9f) with 159%N in *;
  change (Byte.to_N xee) with 238%N in *; change (Byte.to_N xef) with 239%N in *;
  change (Byte.to_N xf0) with 240%N in *; change (Byte.to_N x90) with 144%N in *;
  change (Byte.to_N xf1) with 241%N in *; change (Byte.to_N xf3) with 243%N in *;
  change (Byte.to_N xf4) with 244%N in *; change (Byte.to_N x8f) with 143%N in *.

Lemma not_true : forall b, b <> true -> b = false.
Proof. now intros []. Qed.

Lemma valid_encode : forall c s, scalar c -> utf8_valid (utf8_encode c ++ s) = utf8_valid s.
Proof.
  intros c s H. unfold scalar in H. unfold utf8_encode.
  destruct (N.ltb_spec c 0x80).
  { cbn [app utf8_valid].
    assert (R : in_range x00 x7f (bN c) = true) by (rewrite in_range_iff, bN_to_N by lia; simpl; lia). now rewrite R. }
  assert (M1 : (c mod 64 < 64)%N) by (apply N.mod_lt; lia).
  assert (D1 : (c = 64 * (c / 64) + c mod 64)%N) by (apply N.div_mod; lia).
  assert (M2 : (c / 64 mod 64 < 64)%N) by (apply N.mod_lt; lia).
  assert (D2 : (c / 64 = 64 * (c / 4096) + c / 64 mod 64)%N).
  { replace 4096%N with (64 * 64)%N by lia. rewrite <- N.div_div by lia. apply N.div_mod. lia. }
  assert (M3 : (c / 4096 mod 64 < 64)%N) by (apply N.mod_lt; lia).
  assert (D3 : (c / 4096 = 64 * (c / 262144) + c / 4096 mod 64)%N).
  { replace 262144%N with (4096 * 64)%N by lia. rewrite <- N.div_div by lia. apply N.div_mod. lia. }
  set (r1 := (c mod 64)%N) in *. set (r2 := (c / 64 mod 64)%N) in *. set (r3 := (c / 4096 mod 64)%N) in *.
  set (q1 := (c / 64)%N) in *. set (q2 := (c / 4096)%N) in *. set (q3 := (c / 262144)%N) in *.
  clearbody r1 r2 r3 q1 q2 q3.
  destruct (N.ltb_spec c 0x800).
  { cbn [app utf8_valid].
    assert (q1 < 32)%N by lia. assert (2 <= q1)%N by lia.
    assert (in_range x00 x7f (bN (0xC0 + q1)) = false) as ->.
    { apply not_true. to_nums. rewrite bN_to_N by lia. lia. }
    assert (ok2 (bN (0xC0 + q1)) (bN (0x80 + r1)) = true) as ->; auto.
    to_nums. rewrite !bN_to_N by lia. lia. }
  destruct (N.ltb_spec c 0x10000).
  { cbn [app utf8_valid].
    assert (q2 < 16)%N by lia.
    assert (in_range x00 x7f (bN (0xE0 + q2)) = false) as ->.
    { apply not_true. to_nums. rewrite bN_to_N by lia. lia. }
    assert (ok2 (bN (0xE0 + q2)) (bN (0x80 + r2)) = false) as ->.
    { apply not_true. to_nums. rewrite !bN_to_N by lia. lia. }
    assert (ok3 (bN (0xE0 + q2)) (bN (0x80 + r2)) && cont (bN (0x80 + r1)) = true) as ->; auto.
    to_nums. rewrite !bN_to_N by lia. lia. }
  cbn [app utf8_valid].
  assert (q3 < 5)%N by lia.
  assert (in_range x00 x7f (bN (0xF0 + q3)) = false) as ->.
  { apply not_true. to_nums. rewrite bN_to_N by lia. lia. }
  assert (ok2 (bN (0xF0 + q3)) (bN (0x80 + r3)) = false) as ->.
  { apply not_true. to_nums. rewrite !bN_to_N by lia. lia. }
  assert (ok3 (bN (0xF0 + q3)) (bN (0x80 + r3)) && cont (bN (0x80 + r2)) = false) as ->.
  { apply not_true. to_nums. rewrite !bN_to_N by lia. lia. }
  assert (ok4 (bN (0xF0 + q3)) (bN (0x80 + r3)) && cont (bN (0x80 + r2)) && cont (bN (0x80 + r1)) = true) as ->; auto.
  to_nums. rewrite !bN_to_N by lia. lia.
Qed.

Lemma flat_valid : forall cs, Forall scalar cs -> utf8_valid (flat_map utf8_encode cs) = true.
Proof. induction 1 as [|c cs H _ IH]; auto. simpl. now rewrite valid_encode. Qed.

Lemma encode2 : forall b1 b2, ok2 b1 b2 = true -> exists c, scalar c /\ utf8_encode c = [b1; b2].
Proof.
  intros b1 b2 H. to_nums. set (x := Byte.to_N b1) in *. set (y := Byte.to_N b2) in *.
  exists ((x - 192) * 64 + (y - 128))%N.
  assert (Q : (((x - 192) * 64 + (y - 128)) / 64 = x - 192)%N) by (rewrite N.div_add_l, (N.div_small (y - 128)) by lia; lia).
  assert (R : (((x - 192) * 64 + (y - 128)) mod 64 = y - 128)%N) by (rewrite N.add_comm, N.mod_add, N.mod_small by lia; lia).
  split. unfold scalar. lia. unfold utf8_encode.
  destruct (N.ltb_spec ((x - 192) * 64 + (y - 128)) 0x80); [lia|].
  destruct (N.ltb_spec ((x - 192) * 64 + (y - 128)) 0x800); [|lia].
  rewrite Q, R. replace (0xC0 + (x - 192))%N with x by lia. replace (0x80 + (y - 128))%N with y by lia.
  unfold x, y. now rewrite !bN_of_to.
Qed.

Lemma encode3 : forall b1 b2 b3, ok3 b1 b2 && cont b3 = true -> exists c, scalar c /\ utf8_encode c = [b1; b2; b3].
Proof.
  intros b1 b2 b3 H. to_nums. set (x := Byte.to_N b1) in *. set (y := Byte.to_N b2) in *. set (z := Byte.to_N b3) in *.
  set (c := ((x - 224) * 4096 + (y - 128) * 64 + (z - 128))%N).
  assert (Q : (c / 64 = (x - 224) * 64 + (y - 128))%N).
  { unfold c. replace ((x - 224) * 4096 + (y - 128) * 64 + (z - 128))%N with (((x - 224) * 64 + (y - 128)) * 64 + (z - 128))%N by lia.
    rewrite N.div_add_l, (N.div_small (z - 128)) by lia. lia. }
  assert (R : (c mod 64 = z - 128)%N).
  { unfold c. replace ((x - 224) * 4096 + (y - 128) * 64 + (z - 128))%N with ((z - 128) + ((x - 224) * 64 + (y - 128)) * 64)%N by lia.
    rewrite N.mod_add, N.mod_small by lia. lia. }
  assert (Q2 : (c / 4096 = x - 224)%N).
  { replace 4096%N with (64 * 64)%N by lia. rewrite <- N.div_div by lia. rewrite Q. rewrite N.div_add_l, (N.div_small (y - 128)) by lia. lia. }
  assert (R2 : (c / 64 mod 64 = y - 128)%N). { rewrite Q. rewrite N.add_comm, N.mod_add, N.mod_small by lia. lia. }
  exists c. split. unfold scalar, c. lia. unfold utf8_encode.
  destruct (N.ltb_spec c 0x80); [unfold c in *; lia|]. destruct (N.ltb_spec c 0x800); [unfold c in *; lia|].
  destruct (N.ltb_spec c 0x10000); [|unfold c in *; lia].
  rewrite Q2, R2, R. replace (0xE0 + (x - 224))%N with x by lia. replace (0x80 + (y - 128))%N with y by lia. replace (0x80 + (z - 128))%N with z by lia.
  unfold x, y, z. now rewrite !bN_of_to.
Qed.

Lemma encode4 : forall b1 b2 b3 b4, ok4 b1 b2 && cont b3 && cont b4 = true -> exists c, scalar c /\ utf8_encode c = [b1; b2; b3; b4].
Proof.
  intros b1 b2 b3 b4 H. to_nums. set (x := Byte.to_N b1) in *. set (y := Byte.to_N b2) in *. set (z := Byte.to_N b3) in *. set (w := Byte.to_N b4) in *.
  set (c := ((x - 240) * 262144 + (y - 128) * 4096 + (z - 128) * 64 + (w - 128))%N).
  assert (Q : (c / 64 = ((x - 240) * 64 + (y - 128)) * 64 + (z - 128))%N).
  { unfold c. replace ((x - 240) * 262144 + (y - 128) * 4096 + (z - 128) * 64 + (w - 128))%N with ((((x - 240) * 64 + (y - 128)) * 64 + (z - 128)) * 64 + (w - 128))%N by lia.
    rewrite N.div_add_l, (N.div_small (w - 128)) by lia. lia. }
  assert (R : (c mod 64 = w - 128)%N).
  { unfold c. replace ((x - 240) * 262144 + (y - 128) * 4096 + (z - 128) * 64 + (w - 128))%N with ((w - 128) + (((x - 240) * 64 + (y - 128)) * 64 + (z - 128)) * 64)%N by lia.
    rewrite N.mod_add, N.mod_small by lia. lia. }
  assert (R2 : (c / 64 mod 64 = z - 128)%N). { rewrite Q. rewrite N.add_comm, N.mod_add, N.mod_small by lia. lia. }
  assert (Q2 : (c / 4096 = (x - 240) * 64 + (y - 128))%N).
  { replace 4096%N with (64 * 64)%N by lia. rewrite <- N.div_div by lia. rewrite Q. rewrite N.div_add_l, (N.div_small (z - 128)) by lia. lia. }
  assert (R3 : (c / 4096 mod 64 = y - 128)%N). { rewrite Q2. rewrite N.add_comm, N.mod_add, N.mod_small by lia. lia. }
  assert (Q3 : (c / 262144 = x - 240)%N).
  { replace 262144%N with (4096 * 64)%N by lia. rewrite <- N.div_div by lia. rewrite Q2. rewrite N.div_add_l, (N.div_small (y - 128)) by lia. lia. }
  exists c. split. unfold scalar, c. lia. unfold utf8_encode.
  destruct (N.ltb_spec c 0x80); [unfold c in *; lia|]. destruct (N.ltb_spec c 0x800); [unfold c in *; lia|].
  destruct (N.ltb_spec c 0x10000); [unfold c in *; lia|].
  rewrite Q3, R3, R2, R. replace (0xF0 + (x - 240))%N with x by lia. replace (0x80 + (y - 128))%N with y by lia.
  replace (0x80 + (z - 128))%N with z by lia. replace (0x80 + (w - 128))%N with w by lia.
  unfold x, y, z, w. now rewrite !bN_of_to.
Qed.

Lemma valid_decode : forall n s, (length s <= n)%nat -> utf8_valid s = true -> utf8_text s.
Proof.
  assert (E : forall c h s, scalar c -> utf8_encode c = h -> utf8_text s -> utf8_text (h ++ s)).
  { intros c h s Hc <- (cs & F & ->). exists (c :: cs). split; auto. }
  induction n as [|n IH]; intros s L V.
  - destruct s; [|simpl in L; lia]. exists []. auto.
  - destruct s as [|b1 s1]. { exists []. auto. }
    cbn [utf8_valid] in V. destruct (in_range x00 x7f b1) eqn:R1.
    { apply (E (Byte.to_N b1) [b1]).
      - to_nums. unfold scalar. lia.
      - to_nums. unfold utf8_encode. destruct (N.ltb_spec (Byte.to_N b1) 0x80); [|lia]. now rewrite bN_of_to.
      - apply IH; auto. simpl in L. lia. }
    destruct s1 as [|b2 s2]; try discriminate.
    destruct (ok2 b1 b2) eqn:O2.
    { destruct (encode2 b1 b2 O2) as (c & Hc & Ec). apply (E c [b1; b2]); auto. apply IH; auto. simpl in L. lia. }
    destruct s2 as [|b3 s3]; try discriminate.
    destruct (ok3 b1 b2 && cont b3) eqn:O3.
    { destruct (encode3 b1 b2 b3 O3) as (c & Hc & Ec). apply (E c [b1; b2; b3]); auto. apply IH; auto. simpl in L. lia. }
    destruct s3 as [|b4 s4]; try discriminate.
    destruct (ok4 b1 b2 && cont b3 && cont b4) eqn:O4; try discriminate.
    destruct (encode4 b1 b2 b3 b4 O4) as (c & Hc & Ec). apply (E c [b1; b2; b3; b4]); auto. apply IH; auto. simpl in L. lia.
Qed.

Lemma utf8_valid_iff : forall s, utf8_valid s = true <-> utf8_text s.
Proof.
  intro s. split.
  - now apply (valid_decode (length s)).
  - intros (cs & F & ->). now apply flat_valid.
Qed.
