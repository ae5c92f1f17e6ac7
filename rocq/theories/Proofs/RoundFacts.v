(** Rounding to binary64 as a statement about rational numbers. *)
From Coq Require Import QArith Qpower Lqa Lia.
From Verif.Model Require Import Bytes IntText Float64.
From Verif.Proofs Require Import FloatFacts.
Open Scope Q_scope.

Definition nq (n : N) : Q := inject_Z (Z.of_N n).
Definition ratio (a b : N) : Q := nq a / nq b.
Definition two (e : Z) : Q := Qpower (2 # 1) e.
Definition ten (e : Z) : Q := Qpower (10 # 1) e.

Lemma nq_pos : forall n, (0 < n)%N -> 0 < nq n.
Proof. intros n H. unfold nq. change 0 with (inject_Z 0). rewrite <- Zlt_Qlt. lia. Qed.
Lemma nq_nonneg : forall n, 0 <= nq n.
Proof. intro n. unfold nq. change 0 with (inject_Z 0). rewrite <- Zle_Qle. lia. Qed.
Lemma nq_mul : forall a b, nq (a * b) == nq a * nq b.
Proof. intros. unfold nq. rewrite N2Z.inj_mul, inject_Z_mult. reflexivity. Qed.
Lemma nq_add : forall a b, nq (a + b) == nq a + nq b.
Proof. intros. unfold nq. rewrite N2Z.inj_add, inject_Z_plus. reflexivity. Qed.
Lemma nq_le : forall a b, (a <= b)%N <-> nq a <= nq b.
Proof. intros. unfold nq. rewrite <- Zle_Qle. lia. Qed.
Lemma nq_lt : forall a b, (a < b)%N <-> nq a < nq b.
Proof. intros. unfold nq. rewrite <- Zlt_Qlt. lia. Qed.
Lemma nq_inj : forall a b, nq a == nq b -> a = b.
Proof. intros a b H. unfold nq in H. rewrite inject_Z_injective in H. lia. Qed.

Lemma two_pos : forall e, 0 < two e.
Proof. intro e. apply Qpower_0_lt. reflexivity. Qed.
Lemma ten_pos : forall e, 0 < ten e.
Proof. intro e. apply Qpower_0_lt. reflexivity. Qed.
Lemma two_add : forall a b, two (a + b) == two a * two b.
Proof. intros. apply Qpower_plus. discriminate. Qed.
Lemma ten_add : forall a b, ten (a + b) == ten a * ten b.
Proof. intros. apply Qpower_plus. discriminate. Qed.
Lemma two_nat : forall n, two (Z.of_N n) == nq (2 ^ n).
Proof.
  intro n. unfold nq. rewrite N2Z.inj_pow. rewrite Zpower_Qpower by lia. reflexivity.
Qed.
Lemma ten_nat : forall n, ten (Z.of_N n) == nq (10 ^ n).
Proof. intro n. unfold nq. rewrite N2Z.inj_pow. rewrite Zpower_Qpower by lia. reflexivity. Qed.
Lemma two_opp : forall e, two (- e) == / two e.
Proof. intro e. apply Qpower_opp. Qed.
Lemma ten_opp : forall e, ten (- e) == / ten e.
Proof. intro e. apply Qpower_opp. Qed.
Lemma two_1 : two 1 == 2 # 1.
Proof. reflexivity. Qed.
Lemma ten_1 : ten 1 == 10 # 1.
Proof. reflexivity. Qed.
Lemma two_ge1 : forall e, (0 <= e)%Z -> 1 <= two e.
Proof. intros e H. rewrite <- (Z2N.id e) by auto. rewrite two_nat. change 1 with (nq 1). apply nq_le. pose proof (N.pow_nonzero 2 (Z.to_N e)). lia. Qed.
Lemma ten_ge1 : forall e, (0 <= e)%Z -> 1 <= ten e.
Proof. intros e H. rewrite <- (Z2N.id e) by auto. rewrite ten_nat. change 1 with (nq 1). apply nq_le. pose proof (N.pow_nonzero 10 (Z.to_N e)). lia. Qed.
Lemma two_le : forall a b, (a <= b)%Z -> two a <= two b.
Proof.
  intros a b H. replace b with (a + (b - a))%Z by lia. rewrite two_add. pose proof (two_pos a). pose proof (two_ge1 (b - a) ltac:(lia)). nra.
Qed.
Lemma ten_le : forall a b, (a <= b)%Z -> ten a <= ten b.
Proof.
  intros a b H. replace b with (a + (b - a))%Z by lia. rewrite ten_add. pose proof (ten_pos a). pose proof (ten_ge1 (b - a) ltac:(lia)). nra.
Qed.
Lemma two_lt_inv : forall a b, two a < two b -> (a < b)%Z.
Proof. intros a b H. destruct (Z_lt_le_dec a b) as [L|L]; auto. apply two_le in L. lra. Qed.
Lemma ten_lt_inv : forall a b, ten a < ten b -> (a < b)%Z.
Proof. intros a b H. destruct (Z_lt_le_dec a b) as [L|L]; auto. apply ten_le in L. lra. Qed.

Lemma ratio_1 : forall a, ratio a 1 == nq a.
Proof. intro a. unfold ratio. change (nq 1) with 1. field. Qed.
Lemma ratio_le : forall a b c, (0 < b)%N -> (ratio a b <= c <-> nq a <= c * nq b).
Proof.
  intros a b c H. apply nq_pos in H. unfold ratio. split; intro L.
  - apply (Qmult_le_compat_r _ _ (nq b)) in L; [|lra]. setoid_replace (nq a / nq b * nq b) with (nq a) in L by (field; lra). exact L.
  - apply Qle_shift_div_r; auto.
Qed.
Lemma ratio_ge : forall a b c, (0 < b)%N -> (c <= ratio a b <-> c * nq b <= nq a).
Proof.
  intros a b c H. apply nq_pos in H. unfold ratio. split; intro L.
  - apply (Qmult_le_compat_r _ _ (nq b)) in L; [|lra]. setoid_replace (nq a / nq b * nq b) with (nq a) in L by (field; lra). exact L.
  - apply Qle_shift_div_l; auto.
Qed.
Lemma ratio_lt : forall a b c, (0 < b)%N -> (ratio a b < c <-> nq a < c * nq b).
Proof.
  intros a b c H. pose proof (ratio_ge a b c H). split; intro L; apply Qnot_le_lt; intro X.
  - apply H0 in X. lra.
  - apply H0 in X. lra.
Qed.
Lemma ratio_gt : forall a b c, (0 < b)%N -> (c < ratio a b <-> c * nq b < nq a).
Proof.
  intros a b c H. pose proof (ratio_le a b c H). split; intro L; apply Qnot_le_lt; intro X.
  - apply H0 in X. lra.
  - apply H0 in X. lra.
Qed.
Lemma ratio_pos : forall a b, (0 < a)%N -> (0 < b)%N -> 0 < ratio a b.
Proof. intros a b A B. apply ratio_gt; auto. apply nq_pos in A. lra. Qed.

Lemma scaled_ratio : forall num den e a b, (0 < den)%N -> scaled num den e = (a, b) -> (0 < b)%N /\ ratio a b * two e == ratio num den.
Proof.
  intros num den e a b H S. pose proof (scaled_pos num den e H) as P. rewrite S in P. cbn [snd] in P. split; auto.
  pose proof (nq_pos den H) as Hd. unfold scaled in S. destruct e as [|p|p]; pose proof (f_equal fst S) as S1; pose proof (f_equal snd S) as S2; cbn [fst snd] in S1, S2; rewrite <- S1, <- S2; unfold ratio.
  - change (2 ^ Z.to_N 0)%N with 1%N. rewrite N.mul_1_r. change (two 0) with 1. field. lra.
  - rewrite (nq_mul den). rewrite <- (two_nat (Z.to_N (Z.pos p))). rewrite Z2N.id by lia. pose proof (two_pos (Z.pos p)). field. split; lra.
  - rewrite (nq_mul num). rewrite <- two_nat. change (Z.of_N (N.pos p)) with (Z.pos p). change (Z.neg p) with (- Z.pos p)%Z. rewrite two_opp. field.
    pose proof (two_pos (Z.pos p)). split; lra.
Qed.

Lemma ge2_ratio : forall num den k, (0 < den)%N -> (ge2 num den k <-> two k <= ratio num den).
Proof.
  intros num den k H. unfold ge2. destruct (scaled num den k) as [a b] eqn:S. destruct (scaled_ratio _ _ _ _ _ H S) as [B R].
  rewrite <- R. pose proof (two_pos k) as T. split; intro L.
  - assert (1 <= ratio a b). { apply ratio_ge; auto. apply nq_le in L. lra. } nra.
  - assert (1 <= ratio a b) by nra. apply ratio_ge in H0; auto. apply nq_le. lra.
Qed.
Lemma ratio_log2_bounds : forall num den, (0 < num)%N -> (0 < den)%N ->
  two (ratio_log2 num den) <= ratio num den /\ ratio num den < two (ratio_log2 num den + 1).
Proof.
  intros num den A B. destruct (ratio_log2_spec num den A B) as [L U]. split; [now apply ge2_ratio|].
  apply Qnot_le_lt. intro X. apply U. now apply ge2_ratio.
Qed.
Lemma ratio_log2_eq : forall num den k, (0 < num)%N -> (0 < den)%N -> two k <= ratio num den -> ratio num den < two (k + 1) -> ratio_log2 num den = k.
Proof.
  intros num den k A B L U. apply ratio_log2_unique; auto; [now apply ge2_ratio|]. intro X. apply ge2_ratio in X; auto. lra.
Qed.

(** ** Rounding to an integer *)

Lemma round_half_even_near : forall a b, (0 < b)%N -> nq (round_half_even a b) - (1 # 2) <= ratio a b /\ ratio a b <= nq (round_half_even a b) + (1 # 2).
Proof.
  intros a b H. unfold round_half_even.
  assert (D : a = (b * (a / b) + a mod b)%N) by (apply N.div_mod; lia).
  assert (M : (a mod b < b)%N) by (apply N.mod_lt; lia).
  set (q := (a / b)%N) in *. set (r := (a mod b)%N) in *.
  pose proof (nq_pos b H) as Hb. apply nq_lt in M. pose proof (nq_nonneg r) as Hr.
  assert (E : nq a == nq b * nq q + nq r). { rewrite D at 1. rewrite nq_add, nq_mul. reflexivity. }
  assert (Q1 : nq (q + 1) == nq q + 1) by (rewrite nq_add; reflexivity).
  rewrite ratio_ge, ratio_le by auto.
  assert (C : match (2 * r ?= b)%N with Lt => 2 * nq r < nq b | Gt => nq b < 2 * nq r | Eq => 2 * nq r == nq b end).
  { assert (X : nq (2 * r) == 2 * nq r) by (rewrite nq_mul; reflexivity).
    destruct (N.compare_spec (2 * r) b) as [K|K|K]; [rewrite <- K; symmetry; exact X| |]; apply nq_lt in K; rewrite X in K; exact K. }
  destruct (2 * r ?= b)%N; [destruct (N.even q)| |]; rewrite ?Q1; split; nra.
Qed.
Lemma round_half_even_eq : forall a b m, (0 < b)%N -> nq m - (1 # 2) < ratio a b -> ratio a b < nq m + (1 # 2) -> round_half_even a b = m.
Proof.
  intros a b m H L U. destruct (round_half_even_near a b H) as [A B]. set (q := round_half_even a b) in *.
  assert (X : nq q < nq m + 1) by lra. assert (Y : nq m < nq q + 1) by lra.
  assert (X' : nq q < nq (m + 1)) by (rewrite nq_add; exact X). assert (Y' : nq m < nq (q + 1)) by (rewrite nq_add; exact Y).
  apply nq_lt in X'. apply nq_lt in Y'. lia.
Qed.

(** ** Rounding to binary64 *)

(** The value of a finite float, without its sign. *)
Definition mag (m : N) (e : Z) : Q := nq m * two e.

Lemma fin_inj : forall s m e s' m' e', FFin s m e = FFin s' m' e' -> m = m' /\ e = e'.
Proof. intros. inversion H. auto. Qed.
Lemma pow52 : nq (2 ^ 52) == two 52. Proof. reflexivity. Qed.
Lemma pow53 : nq (2 ^ 53) == two 53. Proof. reflexivity. Qed.

Lemma canonical_cases : forall neg m e, f64_canonical (FFin neg m e) = true ->
  (e = (-1074)%Z /\ (m < 2 ^ 53)%N) \/ ((-1074 < e <= 971)%Z /\ (2 ^ 52 <= m < 2 ^ 53)%N).
Proof.
  intros neg m e C. cbn [f64_canonical] in C. rewrite orb_true_iff, !andb_true_iff in C.
  rewrite Z.eqb_eq, Z.ltb_lt, Z.leb_le, N.leb_le, !N.ltb_lt in C. destruct C as [[-> C]|[[[A B] C] D]]; [left|right]; auto.
Qed.

(** A number is rounded to [m * 2^e] if it is nearer to it than half the distance to the neighbours. *)
Lemma round_ratio_near : forall neg num den m e, (0 < den)%N -> (0 < m)%N -> f64_canonical (FFin neg m e) = true ->
  mag m e - (if (m =? 2 ^ 52)%N then 1 # 4 else 1 # 2) * two e < ratio num den -> ratio num den < mag m e + (1 # 2) * two e ->
  round_ratio neg num den = FFin neg m e.
Proof.
  intros neg num den m e Hd Hm C L U. unfold mag in *. set (v := ratio num den) in *. pose proof (two_pos e) as Te.
  assert (M1 : 1 <= nq m). { change 1 with (nq 1). apply nq_le. lia. }
  assert (V : 0 < v). { destruct (m =? 2 ^ 52)%N; nra. }
  assert (Hn : (0 < num)%N). { destruct num as [|p]; [|lia]. exfalso. unfold v, ratio in V. change (nq 0) with 0 in V. unfold Qdiv in V. lra. }
  assert (M53 : nq m <= two 53 - 1).
  { assert (X : (m + 1 <= 2 ^ 53)%N) by (destruct (canonical_cases _ _ _ C) as [[_ X]|[_ X]]; lia). apply nq_le in X. rewrite nq_add in X. change (nq 1) with 1 in X. change (nq (2 ^ 53)) with (two 53) in X. lra. }
  assert (T53 : two (53 + e) == two 53 * two e) by apply two_add.
  assert (V53 : v < two (53 + e)) by nra.
  unfold round_ratio. destruct (N.eqb_spec num 0) as [Z0|_]; [lia|].
  destruct (ratio_log2_bounds num den Hn Hd) as [LL LU]. fold v in LL, LU. set (l := ratio_log2 num den) in *.
  assert (Ll : (l < 53 + e)%Z) by (apply two_lt_inv; lra).
  assert (GEN : Z.max (-1074) (l - 52) = e -> nq m - (1 # 2) < v / two e -> (let '(a, b) := scaled num den (Z.max (-1074) (l - 52)) in
    let q := round_half_even a b in let '(m0, e') := if (q =? 2 ^ 53)%N then ((2 ^ 52)%N, (Z.max (-1074) (l - 52) + 1)%Z) else (q, Z.max (-1074) (l - 52)) in
    if (971 <? e')%Z then FInf neg else FFin neg m0 e') = FFin neg m e).
  { intros -> B. destruct (scaled num den e) as [a b] eqn:S. destruct (scaled_ratio _ _ _ _ _ Hd S) as [Hb R]. fold v in R.
    assert (R' : ratio a b == v / two e). { rewrite <- R. field. lra. }
    assert (q : round_half_even a b = m). { apply round_half_even_eq; auto; rewrite R'; auto. apply Qlt_shift_div_r; auto. lra. }
    rewrite q. cbv zeta. destruct (N.eqb_spec m (2 ^ 53)) as [X|_]; [rewrite X in M53; change (nq (2 ^ 53)) with (two 53) in M53; lra|].
    destruct (Z.ltb_spec 971 e); auto. destruct (canonical_cases _ _ _ C) as [[X _]|[X _]]; lia. }
  assert (HALF : nq m * two e - (1 # 2) * two e < v -> nq m - (1 # 2) < v / two e) by (intro X; apply Qlt_shift_div_l; auto; lra).
  destruct (canonical_cases _ _ _ C) as [[-> Mb]|[Eb Mb]].
  - apply GEN; [lia|]. apply HALF. destruct (m =? 2 ^ 52)%N; lra.
  - assert (M52 : two 52 <= nq m). { change (two 52) with (nq (2 ^ 52)). apply nq_le. lia. }
    destruct (Qlt_le_dec v (two (52 + e))) as [S|S].
    + assert (E52 : m = (2 ^ 52)%N).
      { apply N.le_antisymm; [|lia]. apply N.lt_succ_r. apply nq_lt. rewrite <- N.add_1_r, nq_add. change (nq (2 ^ 52)) with (two 52). change (nq 1) with 1.
        rewrite two_add in S. assert (nq m * two e - (1 # 2) * two e < v) by (destruct (m =? 2 ^ 52)%N; lra). nra. }
      subst m. rewrite N.eqb_refl in L. change (nq (2 ^ 52)) with (two 52) in *.
      assert (l = 51 + e)%Z.
      { apply ratio_log2_eq; auto; fold v; [|replace (51 + e + 1)%Z with (52 + e)%Z by lia; auto].
        assert (X : two (51 + e) == two 51 * two e) by apply two_add. rewrite X. change (two 52) with (4503599627370496 # 1) in L. change (two 51) with (2251799813685248 # 1). lra. }
      rewrite H. replace (Z.max (-1074) (51 + e - 52)) with (e - 1)%Z by lia.
      destruct (scaled num den (e - 1)) as [a b] eqn:SC. destruct (scaled_ratio _ _ _ _ _ Hd SC) as [Hb R]. fold v in R.
      assert (TE : two e == 2 * two (e - 1)). { replace e with (1 + (e - 1))%Z at 1 by lia. rewrite two_add. reflexivity. }
      pose proof (two_pos (e - 1)) as Te1.
      assert (q : round_half_even a b = (2 ^ 53)%N).
      { apply round_half_even_eq; auto; change (nq (2 ^ 53)) with (9007199254740992 # 1); change (two 52) with (4503599627370496 # 1) in *.
        - apply Qnot_le_lt. intro X. assert (ratio a b * two (e - 1) <= ((9007199254740992 # 1) - (1 # 2)) * two (e - 1)) by (apply Qmult_le_compat_r; lra). lra.
        - apply Qnot_le_lt. intro X. assert (((9007199254740992 # 1) + (1 # 2)) * two (e - 1) <= ratio a b * two (e - 1)) by (apply Qmult_le_compat_r; lra).
          rewrite two_add in S. change (two 52) with (4503599627370496 # 1) in S. lra. }
      rewrite q. rewrite N.eqb_refl. replace (e - 1 + 1)%Z with e by lia. destruct (Z.ltb_spec 971 e); [lia|reflexivity].
    + assert (l = 52 + e)%Z by (apply ratio_log2_eq; auto; fold v; replace (52 + e + 1)%Z with (53 + e)%Z by lia; auto).
      apply GEN; [lia|]. destruct (N.eqb_spec m (2 ^ 52)); apply HALF; auto. 
      assert (0 < two e) by auto. lra.
Qed.

(** The error is at most half a unit in the last place. *)
Lemma round_ratio_error : forall neg num den m e, (0 < den)%N -> round_ratio neg num den = FFin neg m e ->
  mag m e - (1 # 2) * two e <= ratio num den <= mag m e + (1 # 2) * two e.
Proof.
  intros neg num den m e Hd H. unfold round_ratio in H. unfold mag.
  destruct (N.eqb_spec num 0) as [->|Nz].
  { injection H as <- <-. unfold ratio. change (nq 0) with 0. pose proof (two_pos (-1074)) as T. unfold Qdiv. rewrite !Qmult_0_l. lra. }
  set (l := ratio_log2 num den) in *. set (e0 := Z.max (-1074) (l - 52)) in *.
  destruct (scaled num den e0) as [a b] eqn:S. destruct (scaled_ratio _ _ _ _ _ Hd S) as [Hb R].
  destruct (round_half_even_near a b Hb) as [A B]. pose proof (two_pos e0) as T.
  apply (Qmult_le_compat_r _ _ (two e0)) in A; [|lra]. apply (Qmult_le_compat_r _ _ (two e0)) in B; [|lra].
  destruct (N.eqb_spec (round_half_even a b) (2 ^ 53)) as [q|q].
  - destruct (971 <? e0 + 1)%Z; [discriminate|]. apply fin_inj in H. destruct H as [<- <-]. rewrite q in A, B. rewrite two_add. change (two 1) with (2 # 1).
    rewrite <- R. change (nq (2 ^ 53)) with (9007199254740992 # 1) in *. change (nq (2 ^ 52)) with (4503599627370496 # 1). split; lra.
  - destruct (971 <? e0)%Z; [discriminate|]. apply fin_inj in H. destruct H as [<- <-]. rewrite <- R. split; lra.
Qed.

(** Numbers below the overflow threshold are rounded to finite floats. *)
Lemma round_ratio_finite : forall neg num den, (0 < den)%N -> ratio num den < (two 53 - (1 # 2)) * two 971 ->
  exists m e, round_ratio neg num den = FFin neg m e.
Proof.
  intros neg num den Hd U. unfold round_ratio. destruct (N.eqb_spec num 0) as [->|Nz]; [eauto|].
  destruct (ratio_log2_bounds num den ltac:(lia) Hd) as [LL LU]. set (l := ratio_log2 num den) in *. set (e0 := Z.max (-1074) (l - 52)) in *.
  assert (T : two (53 + 971) == two 53 * two 971) by apply two_add.
  assert (l < 1024)%Z. { apply two_lt_inv. change 1024%Z with (53 + 971)%Z. rewrite T. pose proof (two_pos 971). nra. }
  destruct (scaled num den e0) as [a b] eqn:S. destruct (scaled_ratio _ _ _ _ _ Hd S) as [Hb R]. destruct (round_half_even_near a b Hb) as [A B].
  destruct (N.eqb_spec (round_half_even a b) (2 ^ 53)) as [q|q].
  - destruct (Z.ltb_spec 971 (e0 + 1)); eauto. exfalso. assert (e0 = 971%Z) by lia. rewrite H1 in R. rewrite q in A. change (nq (2 ^ 53)) with (two 53) in A.
    rewrite <- R in U. pose proof (two_pos 971). nra.
  - destruct (Z.ltb_spec 971 e0); eauto. lia.
Qed.

(** The relative error is at most 2^-53 for numbers from 1 on. *)
Lemma round_ratio_relative : forall neg num den m e, (0 < den)%N -> 1 <= ratio num den -> round_ratio neg num den = FFin neg m e ->
  mag m e <= ratio num den * (1 + two (-53)) /\ 1 <= mag m e.
Proof.
  intros neg num den m e Hd G H. unfold round_ratio in H. unfold mag. set (v := ratio num den) in *.
  destruct (N.eqb_spec num 0) as [->|Nz]. { exfalso. unfold v, ratio in G. change (nq 0) with 0 in G. unfold Qdiv in G. lra. }
  destruct (ratio_log2_bounds num den ltac:(lia) Hd) as [LL LU]. fold v in LL, LU. set (l := ratio_log2 num den) in *.
  assert (L0 : (0 <= l)%Z). { assert (0 < l + 1)%Z; [|lia]. apply two_lt_inv. change (two 0) with 1. lra. }
  replace (Z.max (-1074) (l - 52)) with (l - 52)%Z in H by lia.
  destruct (scaled num den (l - 52)) as [a b] eqn:S. destruct (scaled_ratio _ _ _ _ _ Hd S) as [Hb R]. fold v in R.
  destruct (round_half_even_near a b Hb) as [A B]. set (q := round_half_even a b) in *.
  assert (TL : two (l - 52) == two l * two (-52)) by apply two_add.
  change (two (-52)) with (1 # 4503599627370496) in TL. change (two (-53)) with (1 # 9007199254740992).
  pose proof (two_pos (l - 52)) as T. pose proof (two_pos l) as Tl.
  assert (Q52 : (2 ^ 52 <= q)%N).
  { apply (round_half_even_bounds a b (2 ^ 52) (2 ^ 53) Hb).
    - apply nq_le. rewrite nq_mul. change (nq (2 ^ 52)) with (4503599627370496 # 1). apply ratio_ge; auto. nra.
    - apply nq_lt. rewrite nq_mul. change (nq (2 ^ 53)) with (9007199254740992 # 1). apply ratio_lt; auto. rewrite two_add in LU. change (two 1) with (2 # 1) in LU. nra. }
  apply nq_le in Q52. change (nq (2 ^ 52)) with (4503599627370496 # 1) in Q52.
  assert (L1 : 1 <= two l) by now apply two_ge1.
  assert (RES : nq q * two (l - 52) <= v * (1 + (1 # 9007199254740992)) /\ 1 <= nq q * two (l - 52)).
  { split; [|nra]. assert (nq q * two (l - 52) <= v + (1 # 2) * two (l - 52)) by nra. nra. }
  destruct (N.eqb_spec q (2 ^ 53)) as [X|X].
  - destruct (971 <? l - 52 + 1)%Z; [discriminate|]. apply fin_inj in H. destruct H as [<- <-]. rewrite X in RES. change (nq (2 ^ 53)) with (9007199254740992 # 1) in RES.
    change (nq (2 ^ 52)) with (4503599627370496 # 1). rewrite (two_add (l - 52) 1). change (two 1) with (2 # 1). split; [destruct RES as [RES _]|destruct RES as [_ RES]]; lra.
  - destruct (971 <? l - 52)%Z; [discriminate|]. apply fin_inj in H. destruct H as [<- <-]. exact RES.
Qed.
