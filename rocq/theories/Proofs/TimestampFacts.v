(** The text of a timestamp determines it up to fractions of a second. *)
From Verif.Model Require Import File.
From Verif.Spec Require Import SpecFile.
From Verif.Proofs Require Import BytesFacts IntFacts.

Local Open Scope N_scope.

Definition below (k : nat) : list N := map N.of_nat (seq 0 k).
Lemma below_in : forall k n, n < N.of_nat k -> In n (below k).
Proof. intros k n H. unfold below. apply in_map_iff. exists (N.to_nat n). rewrite N2Nat.id. split; auto. apply in_seq. lia. Qed.
Lemma below_all : forall k (P : N -> bool), forallb P (below k) = true -> forall n, n < N.of_nat k -> P n = true.
Proof. intros k P H n L. rewrite forallb_forall in H. apply H. now apply below_in. Qed.

Definition N_opt_eqb (a b : option N) : bool := match a, b with Some x, Some y => x =? y | _, _ => false end.
Lemma N_opt_eqb_eq : forall a b, N_opt_eqb a b = true -> a = b.
Proof. intros [a|] [b|] H; try discriminate. apply N.eqb_eq in H. now subst. Qed.

Lemma pad2_value : forall n, n < 100 -> text_N (pad2 n) = Some n.
Proof. intros n H. apply N_opt_eqb_eq. revert n H. apply (below_all 100 (fun n => N_opt_eqb (text_N (pad2 n)) (Some n))). vm_compute. reflexivity. Qed.
Lemma pad2_inj : forall a b, a < 100 -> b < 100 -> pad2 a = pad2 b -> a = b.
Proof. intros a b A B H. apply pad2_value in A. apply pad2_value in B. rewrite H in A. congruence. Qed.
Lemma pad2_first : forall n, n < 100 -> exists c d, pad2 n = [c; d] /\ is_digit c = true.
Proof.
  intros n H. assert (Q : match pad2 n with [c; _] => is_digit c | _ => false end = true).
  { revert n H. apply (below_all 100 (fun n => match pad2 n with [c; _] => is_digit c | _ => false end)). vm_compute. reflexivity. }
  unfold pad2 in *. eauto.
Qed.

Definition pad4 (n : N) : bytes := pad2 (n / 100) ++ pad2 (n mod 100).
Lemma pad4_inj : forall a b, a < 10000 -> b < 10000 -> pad4 a = pad4 b -> a = b.
Proof.
  intros a b A B H. unfold pad4 in H.
  assert (H1 : pad2 (a / 100) = pad2 (b / 100) /\ pad2 (a mod 100) = pad2 (b mod 100)).
  { unfold pad2 in *. cbn [app] in H. injection H as H1 H2 H3 H4. rewrite H1, H2, H3, H4. split; reflexivity. }
  destruct H1 as [H1 H2]. apply pad2_inj in H1; [|apply N.div_lt_upper_bound; lia|apply N.div_lt_upper_bound; lia].
  apply pad2_inj in H2; [|apply N.mod_lt; lia|apply N.mod_lt; lia]. rewrite (N.div_mod a 100), (N.div_mod b 100) by lia. now rewrite H1, H2.
Qed.
Lemma pad4_first : forall n, n < 10000 -> exists c r, pad4 n = c :: r /\ is_digit c = true.
Proof.
  intros n H. destruct (pad2_first (n / 100)) as (c & d & E & D). { apply N.div_lt_upper_bound; lia. }
  unfold pad4. rewrite E. cbn [app]. eauto.
Qed.

(** A number has at least as many digits as its size requires. *)
Lemma of_uint_acc_bound : forall d acc, N.pos (Pos.of_uint_acc d acc) < (N.pos acc + 1) * 10 ^ N.of_nat (length (uint_text d)).
Proof.
  induction d; intro acc; cbn [Pos.of_uint_acc uint_text length]; try (rewrite N.pow_0_r; lia);
    rewrite Nat2N.inj_succ, N.pow_succ_r'; (eapply N.lt_le_trans; [apply IHd|]);
    rewrite N.mul_assoc; apply N.mul_le_mono_r; lia.
Qed.
Lemma of_uint_bound : forall d, N.of_uint d < 10 ^ N.of_nat (length (uint_text d)).
Proof.
  unfold N.of_uint. induction d; cbn [Pos.of_uint uint_text length]; try reflexivity;
    rewrite Nat2N.inj_succ, N.pow_succ_r'; try (eapply N.lt_le_trans; [apply of_uint_acc_bound|apply N.mul_le_mono_r; lia]). lia.
Qed.
Lemma N_text_bound : forall n, n < 10 ^ N.of_nat (length (N_text n)).
Proof. intro n. pose proof (of_uint_bound (N.to_uint n)) as H. now rewrite DecimalN.Unsigned.of_to in H. Qed.

Definition year_digits (a : N) : bytes := if a <=? 9999 then pad4 a else N_text a.
Lemma year_digits_inj : forall a b, year_digits a = year_digits b -> a = b.
Proof.
  assert (X : forall a b, a <= 9999 -> 9999 < b -> pad4 a <> N_text b).
  { intros a b A B H. pose proof (N_text_bound b) as Q. rewrite <- H in Q. cbn in Q. lia. }
  intros a b H. unfold year_digits in H. destruct (N.leb_spec a 9999) as [A|A], (N.leb_spec b 9999) as [B|B].
  - apply pad4_inj; auto; lia.
  - exfalso. exact (X _ _ A B H).
  - exfalso. exact (X _ _ B A (eq_sym H)).
  - pose proof (text_N_text a) as Q. rewrite H, text_N_text in Q. congruence.
Qed.

Lemma year_text_inj : forall y y', year_text y = year_text y' -> y = y'.
Proof.
  intros y y' H. unfold year_text in H.
  change (pad2 (Z.to_N y / 100) ++ pad2 (Z.to_N y mod 100)) with (pad4 (Z.to_N y)) in H.
  change (pad2 (Z.to_N y' / 100) ++ pad2 (Z.to_N y' mod 100)) with (pad4 (Z.to_N y')) in H.
  cbv zeta in H.
  change (if Z.to_N (Z.abs y) <=? 9999 then pad2 (Z.to_N (Z.abs y) / 100) ++ pad2 (Z.to_N (Z.abs y) mod 100) else N_text (Z.to_N (Z.abs y))) with (year_digits (Z.to_N (Z.abs y))) in H.
  change (if Z.to_N (Z.abs y') <=? 9999 then pad2 (Z.to_N (Z.abs y') / 100) ++ pad2 (Z.to_N (Z.abs y') mod 100) else N_text (Z.to_N (Z.abs y'))) with (year_digits (Z.to_N (Z.abs y'))) in H.
  assert (R : forall z, (((0 <=? z) && (z <=? 9999)) = true <-> (0 <= z <= 9999))%Z) by (intro z; rewrite andb_true_iff, !Z.leb_le; tauto).
  destruct ((0 <=? y) && (y <=? 9999))%Z eqn:A; destruct ((0 <=? y') && (y' <=? 9999))%Z eqn:B; try apply R in A; try apply R in B.
  - apply pad4_inj in H; lia.
  - destruct (pad4_first (Z.to_N y)) as (c & r & E & D). lia. rewrite E in H. injection H as -> _. destruct (y' <? 0)%Z; discriminate D.
  - destruct (pad4_first (Z.to_N y')) as (c & r & E & D). lia. rewrite E in H. injection H as <- _. destruct (y <? 0)%Z; discriminate D.
  - injection H as S V. apply year_digits_inj in V. destruct (Z.ltb_spec y 0), (Z.ltb_spec y' 0); try discriminate S; lia.
Qed.

Lemma app_tail_inj : forall {A} (a b c d : list A), length b = length d -> a ++ b = c ++ d -> a = c /\ b = d.
Proof.
  intros A a b c d L H. assert (La : length a = length c) by (pose proof (f_equal (@length A) H) as X; rewrite !app_length in X; lia).
  revert c La H. induction a as [|x a IH]; intros [|y c] La H; cbn in *; try discriminate; auto.
  injection H as -> H. destruct (IH c) as [-> ->]; auto.
Qed.

Lemma timestamp_text_second : forall t t', valid_timestamp t = true -> valid_timestamp t' = true ->
  (timestamp_text t = timestamp_text t' <-> same_second t t').
Proof.
  intros t t' V V'. unfold valid_timestamp in V, V'. rewrite !andb_true_iff, !orb_true_iff, !N.ltb_lt, !N.leb_le, !N.eqb_eq, !Z.leb_le in V, V'. split.
  - intro H. unfold timestamp_text in H. apply app_tail_inj in H; [|reflexivity]. destruct H as [Y H]. apply year_text_inj in Y.
    assert (SL : shown_sec t < 100 /\ shown_sec t' < 100) by (unfold shown_sec; destruct (1000000000 <=? t_nano t), (1000000000 <=? t_nano t'); lia).
    injection H as M1 M2 D1 D2 H1 H2 I1 I2 S1 S2.
    assert (P : forall a b, digit (a / 10) = digit (b / 10) -> digit (a mod 10) = digit (b mod 10) -> pad2 a = pad2 b).
    { intros a b E1 E2. unfold pad2. now rewrite E1, E2. }
    assert (Q : forall a b, a < 100 -> b < 100 -> digit (a / 10) = digit (b / 10) -> digit (a mod 10) = digit (b mod 10) -> a = b) by (intros; apply pad2_inj; auto).
    assert (M : t_month t = t_month t') by (apply Q; auto; lia). assert (D : t_day t = t_day t') by (apply Q; auto; lia).
    assert (Hh : t_hour t = t_hour t') by (apply Q; auto; lia). assert (I : t_min t = t_min t') by (apply Q; auto; lia).
    assert (S : shown_sec t = shown_sec t') by (apply Q; auto; lia).
    unfold same_second. repeat (split; [assumption|]). unfold shown_sec in S.
    destruct (N.leb_spec 1000000000 (t_nano t)), (N.leb_spec 1000000000 (t_nano t')); split; try lia.
  - intros (Y & M & D & H & I & S & L). unfold timestamp_text, shown_sec. rewrite Y, M, D, H, I, S.
    destruct (N.leb_spec 1000000000 (t_nano t)), (N.leb_spec 1000000000 (t_nano t')); try reflexivity; lia.
Qed.
